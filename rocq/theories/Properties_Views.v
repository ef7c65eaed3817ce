(** Claim C83: parts of lines, hulls for given ranges, strides and Pop.  Vocabulary: Spec_Views.v. *)
From Coq Require Import Sorting.Sorted String.
From Verif Require Import M_Base M_Float M_Rng M_Geom M_Node M_Slice M_Text M_Views P_Base P_Views P_Ctx Spec_Views.
Open Scope Z_scope.

(** SubPolyline of any line over the points [pts]: the line through the vertices i to j with the id and the meta data
    of the line; Range gives i and j back, Len their number; parts of the part are again counted on [pts]. *)
Theorem C83_sub_polyline p c i j : v_coords p = Some c -> 0 <= i < j -> j < zlen (cpnts c) ->
  exists q d, v_sub p (Rng i j) = Ok q /\ v_id q = v_id p /\ v_meta q = v_meta p /\
    v_coords q = Some d /\ cpts d = vertices (cpnts c) i j /\ v_range q = Ok (Rng i j) /\ v_len q = Ok (j - i + 1) /\
    (forall r, v_sub q r = v_sub p r) /\
    (forall k l, i <= k <= j -> i <= l <= j ->
       v_segment q (k - i) (l - i) = Ok (GSeg (vertex (cpnts c) k) (vertex (cpnts c) l))) /\
    (forall k l, ~ (i <= k <= j /\ i <= l <= j) -> v_segment q (k - i) (l - i) = Panic).
Proof.
  intros Hc Hij Hj. eexists _, _. split; [exact (sub_ok p c i j Hc ltac:(lia))|]. cbn [v_id v_meta v_coords].
  split; [reflexivity|]. split; [reflexivity|]. split; [reflexivity|]. split; [apply cpts_zseq; lia|].
  split; [unfold v_range, v_view; cbn [v_coords bind cidxs]; rewrite zseq_last, zseq_first by lia; reflexivity|].
  split; [unfold v_len, v_view, clen; cbn [v_coords bind cidxs]; rewrite zseq_len by lia; reflexivity|].
  split; [intros r; unfold v_sub, v_sub_coords, v_view; rewrite Hc; reflexivity|].
  split; intros k l; unfold v_segment, v_view, clen; cbn [v_coords bind cidxs]; rewrite zseq_len by lia;
    [intros Hk Hl; rewrite !cpt_zseq by lia|intros Hkl];
    destruct (Z.leb_spec 0 (k - i)), (Z.ltb_spec (k - i) (j - i + 1)), (Z.leb_spec 0 (l - i)), (Z.ltb_spec (l - i) (j - i + 1));
    try lia; reflexivity.
Qed.

(** A part of a single vertex has no geometry: every use of it panics. *)
Theorem C83_one_vertex p c i : v_coords p = Some c ->
  exists q, v_sub p (Rng i i) = Ok q /\ v_len q = Panic /\ v_range q = Panic /\ (forall r, v_sub q r = Panic).
Proof.
  intros Hc. exists (VLine (v_id p) (v_meta p) None). unfold v_sub at 1, v_sub_coords, v_view. rewrite Hc. cbn [bind rI rJ].
  destruct (Z.ltb_spec (i - i + 1) 0); [lia|]. cbn [bind]. unfold v_create, clen. cbn [cidxs]. rewrite zseq_len by lia.
  destruct (Z.ltb_spec (i - i + 1) 2); [|lia]. split; [reflexivity|]. split; [reflexivity|]. split; reflexivity.
Qed.

(** SegmentBounds of the part i to j: one entry per segment, in order, with the ends of the segment and their numbers
    on the original line. *)
Theorem C83_segment_bounds mk p c i j : v_coords p = Some c -> 0 <= i < j -> j < zlen (cpnts c) ->
  exists q bs, v_sub p (Rng i j) = Ok q /\ v_bounds mk q = Ok bs /\ zlen bs = j - i /\
    forall k, i <= k < j ->
      nth_error bs (Z.to_nat (k - i)) = Some (mk (vertex (cpnts c) k) (vertex (cpnts c) (k + 1)), k, k + 1).
Proof.
  intros Hc Hij Hj. eexists _, _. split; [exact (sub_ok p c i j Hc ltac:(lia))|]. split; [apply bounds_ok; lia|].
  split; [unfold zlen; rewrite map_length; pose proof (zseq_len i (j - 1) ltac:(lia)) as E; unfold zlen in E; lia|].
  intros k Hk. rewrite nth_error_map.
  rewrite (nth_error_nth' _ 0) by (rewrite zseq_length by lia; lia). rewrite nth_zseq by lia. reflexivity.
Qed.

(** CreateHulls over the line [pts]: one hull for every pair, in order, for the vertices between the two; the segment of
    the hull joins the two vertices, as a segment and as a line, and asking for it does not change the hull. *)
Theorem C83_create_hulls L gen pts inst indices ctr :
  Forall (fun l => exists i j t, l = i :: j :: t /\ 0 <= i <= j /\ j < zlen pts) indices ->
  exists hs, create_hulls L gen pts inst indices ctr = Ok (hs, (ctr + length indices)%nat) /\ length hs = length indices /\
    forall k i j t h, nth_error indices k = Some (i :: j :: t) -> nth_error hs k = Some h ->
      n_id h = gen (ctr + k)%nat /\ n_inst h = inst /\ n_rng h = Rng i j /\ cpts (n_coords h) = vertices pts i j /\
      n_geom h = hull_geometry (gl_hull L (vertices pts i j)) /\ n_mbr h = gl_bounds L (n_geom h) /\
      n_seg h = GSeg (vertex pts i) (vertex pts j) /\
      exists c, segment_as_polyline h = Ok c /\ cpts c = [vertex pts i; vertex pts j].
Proof.
  intros H. destruct (create_hulls_ok L gen pts inst indices ctr H) as (hs & E & Ln & A). exists hs. split; [exact E|].
  split; [exact Ln|]. intros k i j t h Hl Hh. pose proof (A k _ h Hl Hh) as ->. cbn [nth].
  rewrite Forall_forall in H. destruct (H _ (nth_error_In _ _ Hl)) as (i' & j' & t' & E' & Hij & Hj). injection E' as <- <- <-.
  assert (V : cpts (sub_coords pts (Rng i j)) = vertices pts i j) by (apply cpts_zseq; lia).
  unfold create_node. cbn [n_id n_inst n_rng n_coords n_geom n_mbr]. rewrite V.
  split; [reflexivity|]. split; [reflexivity|]. split; [reflexivity|]. split; [reflexivity|]. split; [reflexivity|]. split; [reflexivity|].
  assert (F : cfirst (sub_coords pts (Rng i j)) = vertex pts i).
  { unfold cfirst. replace 0 with (i - i) by lia. exact (cpt_zseq pts i j i ltac:(lia)). }
  assert (G : clast (sub_coords pts (Rng i j)) = vertex pts j).
  { unfold clast, clen, sub_coords. cbn [cidxs rI rJ]. rewrite zseq_len by lia. replace (j - i + 1 - 1) with (j - i) by lia. exact (cpt_zseq pts i j j ltac:(lia)). }
  split; [unfold n_seg; cbn [n_coords]; rewrite F, G; reflexivity|].
  unfold segment_as_polyline. cbn [n_coords sub_coords cidxs cpnts rI rJ]. rewrite zseq_last by lia.
  rewrite zseq_cons by lia. eexists. split; [reflexivity|]. reflexivity.
Qed.

(** Stride and ExclusiveStride with a positive step list, in order, every step-th index from the first one on. *)
Theorem C83_stride r s : 0 < s ->
  (forall x, In x (stride r [s]) <-> rI r <= x <= rJ r /\ (s | x - rI r)) /\ StronglySorted Z.lt (stride r [s]) /\
  (forall x, In x (exclusive_stride r [s]) <-> rI r < x < rJ r /\ (s | x - (rI r + 1))) /\ StronglySorted Z.lt (exclusive_stride r [s]) /\
  stride r [] = stride r [1] /\ exclusive_stride r [] = exclusive_stride r [1].
Proof.
  intros Hs. unfold stride, exclusive_stride, step_of.
  split; [intros x; rewrite gen_in by lia; split; intros [H1 H2]; (split; [lia|exact H2])|].
  split; [apply gen_sorted; exact Hs|].
  split; [intros x; rewrite gen_in by lia; split; intros [H1 H2]; (split; [lia|exact H2])|].
  split; [apply gen_sorted; exact Hs|]. split; reflexivity.
Qed.

(** Pop takes the last hull off the caller's slice and leaves the rest. *)
Theorem C83_pop m s m' s' v : s_ok m s -> node_pop m s = (m', s', v) -> s_read m' s' = removelast (s_read m s).
Proof.
  intros H E. destruct (Nat.eq_dec (s_len s) 0) as [Z|Z].
  - unfold node_pop in E. rewrite Z in E. injection E as <- <- <-. rewrite (sl_read_nil _ _ Z). reflexivity.
  - apply (pop_ok m s m' s' v H Z E).
Qed.
(** It does not return that hull: what it returns is the old slice, of the old length, with the zero hull in the last
    place, and every other slice of the same array sees the zero hull there too. *)
Theorem C83_pop_returns_no_hull_refuted : exists m s t m' s' v,
  s_ok m s /\ s_ok m t /\ s_read m s = [7; 8; 9] /\ s_read m t = [8; 9] /\ node_pop m s = (m', s', v) /\
  s_read m' v = [7; 8; 0] /\ s_read m' t = [8; 0].
Proof.
  exists [[7; 8; 9]], (Slice 0 0 3 3), (Slice 0 1 2 2). eexists _, _, _. unfold s_ok.
  split; [cbn; lia|]. split; [cbn; lia|]. split; [reflexivity|]. split; [reflexivity|]. split; [reflexivity|]. split; reflexivity.
Qed.

(** A line of four vertices. *)
Definition c83_pts : list point := map (fun z => Pt (f_of_Z z) (f_of_Z (z * z)) fzero) [0; 1; 2; 3].
Definition c83_line : vline := VLine (str "idx:0-pos:0") (str "null") (Some (full_coords c83_pts)).
Example C83_case :
  (exists q, v_sub c83_line (Rng 1 3) = Ok q /\ v_range q = Ok (Rng 1 3) /\
     v_bounds (fun a b => MBR (px a) (py a) (px b) (py b)) q =
       Ok [(MBR (f_of_Z 1) (f_of_Z 1) (f_of_Z 2) (f_of_Z 4), 1, 2); (MBR (f_of_Z 2) (f_of_Z 4) (f_of_Z 3) (f_of_Z 9), 2, 3)]) /\
  stride (Rng 3 7) [2] = [3; 5; 7] /\ exclusive_stride (Rng 3 7) [2] = [4; 6] /\
  Forall (fun l => exists i j t, l = i :: j :: t /\ 0 <= i <= j /\ j < zlen c83_pts) [[0; 2]; [2; 3]].
Proof.
  split; [eexists; split; [reflexivity|split; reflexivity]|]. split; [reflexivity|]. split; [reflexivity|].
  repeat constructor; (eexists _, _, _; split; [reflexivity|]; cbn; lia).
Qed.

Print Assumptions C83_sub_polyline.
Print Assumptions C83_one_vertex.
Print Assumptions C83_segment_bounds.
Print Assumptions C83_create_hulls.
Print Assumptions C83_stride.
Print Assumptions C83_pop.
Print Assumptions C83_pop_returns_no_hull_refuted.
