(** Claims C01-C09, C46 and C50: decomposition, offsets, ranges, splitting, merging,
    neighbours.  Vocabulary: Spec.v.  Proofs: P_*.v. *)
From Verif Require Import M_Base M_Float M_Rng M_Geom M_Offset M_Node M_Decompose M_Split
  Spec P_Base P_Float P_Decompose P_Split P_Node Toy.
Open Scope Z_scope.

(** The line used in the examples below. *)
Definition ex_line : list point := [P2 0 0; P2 2 5; P2 4 0; P2 6 1; P2 10 0].
Definition ex_T : f64 := f_of_Z 2.
Definition ex_gen : idgen := fun n => 100 + Z.of_nat n.
Definition ex_run (T : f64) (fuel : nat) :=
  dp_decompose toy ex_gen (create_polyline ex_line) 7 T toy_score None fuel 0.

(** ** C01 *)

(** Any score function that proposes an interior split whenever its score is rejected. *)
Theorem C01_decomposition_tiles :
  forall L gen pts inst (score : scorefn) (rel : f64 -> bool) fuel ctr hs ctr',
  (2 <= length pts)%nat ->
  (forall c, 2 <= clen c -> rel (snd (score c)) = true \/ 0 < fst (score c) < clen c - 1) ->
  douglas_peucker L gen (create_polyline pts) inst score rel fuel ctr = Ok (hs, ctr') ->
  chain 0 (zlen pts - 1) (map n_rng hs) /\
  Forall (fun h => hull_of pts h /\ cpts (n_coords h) = points_of pts (n_rng h) /\ n_inst h = inst) hs.
Proof.
  intros L gen pts inst score rel fuel ctr hs ctr' H2 Hs Hr.
  destruct (decompose_sound L gen pts inst score rel fuel ctr hs ctr' Hs H2 Hr) as (A & B & C & _).
  split; [exact A|]. rewrite Forall_forall in *. intros h Hh. specialize (B h Hh).
  split; [exact B|]. split; [|apply C, Hh].
  destruct B as (_ & _ & _ & ->). reflexivity.
Qed.

(** The program's own score functions (offsets to the chord) and thresholds. *)
Theorem C01_decomposition_tiles_offsets :
  forall L gen pts inst distfn T fuel ctr hs ctr',
  (2 <= length pts)%nat -> fle fzero T = true ->
  dp_decompose L gen (create_polyline pts) inst T (max_offset distfn) None fuel ctr = Ok (hs, ctr') ->
  chain 0 (zlen pts - 1) (map n_rng hs) /\
  Forall (fun h => hull_of pts h /\ cpts (n_coords h) = points_of pts (n_rng h) /\ n_inst h = inst) hs.
Proof.
  intros L gen pts inst distfn T fuel ctr hs ctr' H2 HT Hr.
  eapply C01_decomposition_tiles; [exact H2| |exact Hr].
  exact (max_offset_splits distfn (score_rel T) HT).
Qed.

Theorem C01_decomposition_tiles_squared :
  forall L gen pts inst score distfn T fuel ctr hs ctr',
  (2 <= length pts)%nat -> is_nan T = false ->
  dp_decompose L gen (create_polyline pts) inst T score (Some (max_offset distfn)) fuel ctr = Ok (hs, ctr') ->
  chain 0 (zlen pts - 1) (map n_rng hs) /\
  Forall (fun h => hull_of pts h /\ cpts (n_coords h) = points_of pts (n_rng h) /\ n_inst h = inst) hs.
Proof.
  intros L gen pts inst score distfn T fuel ctr hs ctr' H2 HT Hr.
  eapply C01_decomposition_tiles; [exact H2| |exact Hr].
  exact (max_offset_splits distfn (square_score_rel T) (square_accepts_zero T HT)).
Qed.

Example C01_case :
  fle fzero ex_T = true /\
  match ex_run ex_T 20 with
  | Ok (hs, _) => map n_rng hs = [Rng 0 1; Rng 1 2; Rng 2 4]
  | _ => False
  end.
Proof. vm_compute. auto. Qed.

(** ** C02 *)

Theorem C02_terminates :
  forall L gen pts inst distfn T fuel ctr,
  fle fzero T = true -> (2 * length pts - 3 < fuel)%nat ->
  exists hs ctr', dp_decompose L gen (create_polyline pts) inst T (max_offset distfn) None fuel ctr = Ok (hs, ctr').
Proof.
  intros L gen pts inst distfn T fuel ctr HT Hf.
  exact (decompose_total L gen pts inst _ _ fuel ctr (max_offset_splits distfn (score_rel T) HT) Hf).
Qed.

Theorem C02_terminates_squared :
  forall L gen pts inst score distfn T fuel ctr,
  is_nan T = false -> (2 * length pts - 3 < fuel)%nat ->
  exists hs ctr', dp_decompose L gen (create_polyline pts) inst T score (Some (max_offset distfn)) fuel ctr = Ok (hs, ctr').
Proof.
  intros L gen pts inst score distfn T fuel ctr HT Hf.
  exact (decompose_total L gen pts inst _ _ fuel ctr
    (max_offset_splits distfn (square_score_rel T) (square_accepts_zero T HT)) Hf).
Qed.

(** Negative or NaN threshold: no number of iterations is enough. *)
Theorem C02_never_ends :
  forall L gen pts inst distfn T fuel ctr,
  (2 <= length pts)%nat -> fle fzero T = false ->
  dp_decompose L gen (create_polyline pts) inst T (max_offset distfn) None fuel ctr = NoFuel.
Proof.
  intros L gen pts inst distfn T fuel ctr H2 HT.
  exact (decompose_diverges L gen pts inst _ _ fuel ctr (fun c => threshold_rejects_all distfn T c HT) H2).
Qed.

(** With squared distances: a threshold that is not a number (only that one: a negative threshold has a positive square). *)
Theorem C02_never_ends_squared :
  forall L gen pts inst score distfn T fuel ctr,
  (2 <= length pts)%nat -> is_nan T = true ->
  dp_decompose L gen (create_polyline pts) inst T score (Some (max_offset distfn)) fuel ctr = NoFuel.
Proof.
  intros L gen pts inst score distfn T fuel ctr H2 HT.
  assert (E : fle fzero (fmul T T) = false) by (destruct T; try discriminate HT; reflexivity).
  exact (decompose_diverges L gen pts inst _ _ fuel ctr (fun c => threshold_rejects_all distfn (fmul T T) c E) H2).
Qed.

Example C02_case :
  fle fzero (f_of_Z (-1)) = false /\ fle fzero S754_nan = false /\
  ex_run (f_of_Z (-1)) 50 = NoFuel /\ (exists r, ex_run ex_T 8 = Ok r).
Proof. vm_compute. eauto 8. Qed.

(** ** C03 *)

Theorem C03_pieces_within_threshold :
  forall L gen pts inst distfn T fuel ctr hs ctr',
  (2 <= length pts)%nat -> fle fzero T = true ->
  dp_decompose L gen (create_polyline pts) inst T (max_offset distfn) None fuel ctr = Ok (hs, ctr') ->
  let at_ i := nth (Z.to_nat i) pts origin in
  forall h k, In h hs -> rI (n_rng h) < k < rJ (n_rng h) ->
  let d := distfn (at_ (rI (n_rng h))) (at_ (rJ (n_rng h))) (at_ k) in
  is_nan d = false -> fle d T = true.
Proof.
  intros L gen pts inst distfn T fuel ctr hs ctr' H2 HT Hr at_ h k Hh Hk d Hd.
  destruct (decompose_sound L gen pts inst _ _ fuel ctr hs ctr' (max_offset_splits distfn (score_rel T) HT) H2 Hr)
    as (A & B & C & _).
  rewrite Forall_forall in B, C. specialize (B h Hh). specialize (C h Hh).
  destruct B as (B1 & _). destruct C as (C1 & _ & _ & _ & C2).
  unfold dp_relation, dp_score in C2. rewrite C1 in C2.
  exact (accepted_offsets distfn T pts (n_rng h) k B1 Hk HT C2 Hd).
Qed.

Example C03_case :
  let at_ i := nth (Z.to_nat i) ex_line origin in
  is_nan (toy_ptseg (at_ 2) (at_ 4) (at_ 3)) = false /\ feq (toy_ptseg (at_ 2) (at_ 4) (at_ 3)) (f_of_Z 1) = true.
Proof. vm_compute. auto. Qed.

(** The same with squared distances, for every threshold that is a number: within the square of the threshold. *)
Theorem C03_pieces_within_threshold_squared :
  forall L gen pts inst score distfn T fuel ctr hs ctr',
  (2 <= length pts)%nat -> is_nan T = false ->
  dp_decompose L gen (create_polyline pts) inst T score (Some (max_offset distfn)) fuel ctr = Ok (hs, ctr') ->
  let at_ i := nth (Z.to_nat i) pts origin in
  forall h k, In h hs -> rI (n_rng h) < k < rJ (n_rng h) ->
  let d := distfn (at_ (rI (n_rng h))) (at_ (rJ (n_rng h))) (at_ k) in
  is_nan d = false -> fle d (fmul T T) = true.
Proof.
  intros L gen pts inst score distfn T fuel ctr hs ctr' H2 HT Hr at_ h k Hh Hk d Hd.
  pose proof (square_accepts_zero T HT) as HZ.
  destruct (decompose_sound L gen pts inst _ _ fuel ctr hs ctr' (max_offset_splits distfn (square_score_rel T) HZ) H2 Hr)
    as (A & B & C & _).
  rewrite Forall_forall in B, C. specialize (B h Hh). specialize (C h Hh).
  destruct B as (B1 & _). destruct C as (C1 & _ & _ & _ & C2).
  unfold dp_relation, dp_score in C2. rewrite C1 in C2.
  exact (accepted_offsets distfn (fmul T T) pts (n_rng h) k B1 Hk HZ C2 Hd).
Qed.

Lemma dropped_between hs (pts : list point) k : (2 <= length pts)%nat -> chain 0 (zlen pts - 1) (map n_rng hs) ->
  0 <= k < zlen pts -> ~ In k (point_set hs) ->
  exists h, In h hs /\ In (rI (n_rng h)) (point_set hs) /\ In (rJ (n_rng h)) (point_set hs) /\ rI (n_rng h) < k < rJ (n_rng h) /\
    forall x, In x (point_set hs) -> ~ rI (n_rng h) < x < rJ (n_rng h).
Proof.
  intros H2 Hc Hk Hns.
  destruct (point_set_spec hs) as [_ Hps].
  assert (Hlast : k <> zlen pts - 1).
  { intros ->. apply Hns. destruct (point_set_line hs pts H2 Hc) as (_ & _ & Hl & _).
    rewrite <- Hl. destruct (point_set hs) as [|x l]; [cbn in Hl; lia|].
    destruct (exists_last (l := x :: l) ltac:(discriminate)) as (l' & y & ->).
    rewrite last_last. apply in_elt. }
  destruct (chain_cover _ _ _ k Hc) as (r & Hr & Hin); [lia|].
  apply in_map_iff in Hr. destruct Hr as (h & <- & Hh).
  assert (Hi : In (rI (n_rng h)) (point_set hs)) by (apply Hps; exists h; auto).
  assert (Hj : In (rJ (n_rng h)) (point_set hs)) by (apply Hps; exists h; auto).
  assert (Hkk : rI (n_rng h) < k < rJ (n_rng h)).
  { destruct (Z.eq_dec k (rI (n_rng h))); [subst; contradiction|].
    destruct (Z.eq_dec k (rJ (n_rng h))); [subst; contradiction|]. lia. }
  exists h. repeat split; auto; try lia.
  intros x Hx Hb. apply Hps in Hx. destruct Hx as (g & Hg & Ex).
  assert (X : forall r1 r2, In r1 (map n_rng hs) -> In r2 (map n_rng hs) -> rI r1 < rI r2 -> rJ r1 <= rI r2)
    by (intros; eapply chain_order; eauto).
  pose proof (in_map n_rng _ _ Hh) as Ih. pose proof (in_map n_rng _ _ Hg) as Ig.
  pose proof (chain_in _ _ _ _ Hc Ih). pose proof (chain_in _ _ _ _ Hc Ig).
  destruct Ex; subst x.
  - pose proof (X _ _ Ih Ig). lia.
  - destruct (Z.lt_trichotomy (rI (n_rng h)) (rI (n_rng g))) as [Hlt|[He|Hlt]].
    + pose proof (X _ _ Ih Ig Hlt). lia.
    + pose proof (chain_start_inj _ _ _ _ _ Hc Ih Ig He) as Eq. rewrite Eq in *. lia.
    + pose proof (X _ _ Ig Ih Hlt). lia.
Qed.

(** Every dropped vertex of plain Douglas-Peucker: a vertex not in the result lies strictly
    inside one piece, whose ends are in the result, and is within the threshold of the
    chord of that piece. *)
Theorem C03_dropped_vertices :
  forall L gen pts inst distfn T fuel ctr s,
  (2 <= length pts)%nat -> fle fzero T = true ->
  dp_simple L gen (create_polyline pts) inst T (max_offset distfn) None fuel ctr = Ok s ->
  let at_ i := nth (Z.to_nat i) pts origin in
  forall k, 0 <= k < zlen pts -> ~ In k s ->
  exists i j, In i s /\ In j s /\ i < k < j /\ (forall x, In x s -> ~ i < x < j) /\
    (is_nan (distfn (at_ i) (at_ j) (at_ k)) = false -> fle (distfn (at_ i) (at_ j) (at_ k)) T = true).
Proof.
  intros L gen pts inst distfn T fuel ctr s H2 HT Hr at_ k Hk Hns.
  unfold dp_simple in Hr.
  destruct (dp_decompose L gen (create_polyline pts) inst T (max_offset distfn) None fuel ctr) as [[hs c']| |] eqn:E;
    try discriminate. cbn in Hr. injection Hr as <-.
  destruct (C01_decomposition_tiles_offsets L gen pts inst distfn T fuel ctr hs c' H2 HT E) as [Hc _].
  destruct (dropped_between hs pts k H2 Hc Hk Hns) as (h & Hh & Hi & Hj & Hkk & Hb).
  exists (rI (n_rng h)), (rJ (n_rng h)). split; [exact Hi|]. split; [exact Hj|]. split; [exact Hkk|]. split; [exact Hb|].
  intros Hd. exact (C03_pieces_within_threshold L gen pts inst distfn T fuel ctr hs c' H2 HT E h k Hh Hkk Hd).
Qed.

Theorem C03_dropped_vertices_squared :
  forall L gen pts inst score distfn T fuel ctr s,
  (2 <= length pts)%nat -> is_nan T = false ->
  dp_simple L gen (create_polyline pts) inst T score (Some (max_offset distfn)) fuel ctr = Ok s ->
  let at_ i := nth (Z.to_nat i) pts origin in
  forall k, 0 <= k < zlen pts -> ~ In k s ->
  exists i j, In i s /\ In j s /\ i < k < j /\ (forall x, In x s -> ~ i < x < j) /\
    (is_nan (distfn (at_ i) (at_ j) (at_ k)) = false -> fle (distfn (at_ i) (at_ j) (at_ k)) (fmul T T) = true).
Proof.
  intros L gen pts inst score distfn T fuel ctr s H2 HT Hr at_ k Hk Hns.
  unfold dp_simple in Hr.
  destruct (dp_decompose L gen (create_polyline pts) inst T score (Some (max_offset distfn)) fuel ctr) as [[hs c']| |] eqn:E;
    try discriminate. cbn in Hr. injection Hr as <-.
  destruct (C01_decomposition_tiles_squared L gen pts inst score distfn T fuel ctr hs c' H2 HT E) as [Hc _].
  destruct (dropped_between hs pts k H2 Hc Hk Hns) as (h & Hh & Hi & Hj & Hkk & Hb).
  exists (rI (n_rng h)), (rJ (n_rng h)). split; [exact Hi|]. split; [exact Hj|]. split; [exact Hkk|]. split; [exact Hb|].
  intros Hd. exact (C03_pieces_within_threshold_squared L gen pts inst score distfn T fuel ctr hs c' H2 HT E h k Hh Hkk Hd).
Qed.

Definition toy_square (a b p : point) : f64 := let d := toy_ptseg a b p in fmul d d.
Example C03_squared_case :
  dp_simple toy ex_gen (create_polyline ex_line) 7 ex_T toy_score (Some (max_offset toy_square)) 20 0 = Ok [0; 1; 2; 4] /\
  dp_decompose toy ex_gen (create_polyline ex_line) 7 S754_nan toy_score (Some (max_offset toy_square)) 20 0 = NoFuel /\
  (exists r, dp_decompose toy ex_gen (create_polyline ex_line) 7 (fopp ex_T) toy_score (Some (max_offset toy_square)) 20 0 = Ok r).
Proof. vm_compute. eauto. Qed.

(** ** C04 *)

Theorem C04_max_offset_farthest :
  forall distfn c, 2 <= clen c ->
  farthest (fun j => distfn (cpt c 0) (cpt c (clen c - 1)) (cpt c j)) (clen c - 1)
    (fst (max_offset distfn c)) (snd (max_offset distfn c)).
Proof. exact max_offset_farthest. Qed.

(** With ordinary distances: the last farthest interior vertex. *)
Theorem C04_max_offset_interior :
  forall distfn c, 3 <= clen c ->
  let dist j := distfn (cpt c 0) (cpt c (clen c - 1)) (cpt c j) in
  (forall j, 1 <= j < clen c - 1 -> fle fzero (dist j) = true) ->
  let k := fst (max_offset distfn c) in
  1 <= k < clen c - 1 /\ snd (max_offset distfn c) = dist k /\
  (forall j, 1 <= j < clen c - 1 -> fle (dist j) (dist k) = true) /\
  (forall j, k < j < clen c - 1 -> flt (dist j) (dist k) = true).
Proof.
  intros distfn c Hc dist Hd k.
  destruct (max_offset_farthest distfn c ltac:(lia)) as [(A & B & C)|(A & B & C & D & E)];
    cbv beta in *; fold k in A.
  - specialize (C 1 ltac:(lia)). fold (dist 1) in C. rewrite Hd in C by lia. discriminate.
  - fold k in B, E. fold (dist k) in B.
    rewrite B in D, E. repeat split; try lia; auto.
    + intros j Hj. apply D; auto. apply (fle_nan_r fzero). apply Hd; lia.
    + intros j Hj. apply fle_total; [| |apply E; lia].
      * apply (fle_nan_r fzero), Hd; lia.
      * apply (fle_nan_r fzero), Hd; lia.
Qed.

Theorem C04_short_lines_have_no_offset :
  forall distfn c, clen c <= 2 -> max_offset distfn c = (clen c - 1, fzero).
Proof.
  intros distfn c H. unfold max_offset. cbv zeta. destruct (Z.leb_spec (clen c - 1) 1); [reflexivity|lia].
Qed.

Example C04_case :
  (3 <= clen (full_coords ex_line)) /\ max_offset toy_ptseg (full_coords ex_line) = (1, f_of_Z 5).
Proof. vm_compute. split; [discriminate|reflexivity]. Qed.

(** ** C05 *)

Theorem C05_plain_dp_subset :
  forall L gen pts inst distfn T fuel ctr s,
  (2 <= length pts)%nat -> fle fzero T = true ->
  dp_simple L gen (create_polyline pts) inst T (max_offset distfn) None fuel ctr = Ok s ->
  increasing s /\ hd (-1) s = 0 /\ last s (-1) = zlen pts - 1 /\ Forall (fun k => 0 <= k < zlen pts) s.
Proof.
  intros L gen pts inst distfn T fuel ctr s H2 HT Hr.
  unfold dp_simple in Hr.
  destruct (dp_decompose L gen (create_polyline pts) inst T (max_offset distfn) None fuel ctr) as [[hs c']| |] eqn:E;
    try discriminate. cbn in Hr. injection Hr as <-.
  destruct (C01_decomposition_tiles_offsets L gen pts inst distfn T fuel ctr hs c' H2 HT E) as [Hc _].
  exact (point_set_line hs pts H2 Hc).
Qed.

Theorem C05_plain_dp_subset_squared :
  forall L gen pts inst score distfn T fuel ctr s,
  (2 <= length pts)%nat -> is_nan T = false ->
  dp_simple L gen (create_polyline pts) inst T score (Some (max_offset distfn)) fuel ctr = Ok s ->
  increasing s /\ hd (-1) s = 0 /\ last s (-1) = zlen pts - 1 /\ Forall (fun k => 0 <= k < zlen pts) s.
Proof.
  intros L gen pts inst score distfn T fuel ctr s H2 HT Hr.
  unfold dp_simple in Hr.
  destruct (dp_decompose L gen (create_polyline pts) inst T score (Some (max_offset distfn)) fuel ctr) as [[hs c']| |] eqn:E;
    try discriminate. cbn in Hr. injection Hr as <-.
  destruct (C01_decomposition_tiles_squared L gen pts inst score distfn T fuel ctr hs c' H2 HT E) as [Hc _].
  exact (point_set_line hs pts H2 Hc).
Qed.

Example C05_case :
  dp_simple toy ex_gen (create_polyline ex_line) 7 ex_T toy_score None 20 0 = Ok [0; 1; 2; 4].
Proof. vm_compute. reflexivity. Qed.

(** ** C06 *)

Theorem C06_range_split :
  forall o idxs, (exists x, In x idxs /\ rI o < x < rJ o) ->
  chain (rI o) (rJ o) (rsplit o idxs) /\
  forall x, (exists r, In r (rsplit o idxs) /\ rJ r = x) <-> x = rJ o \/ (In x idxs /\ rI o < x < rJ o).
Proof. exact rsplit_spec. Qed.

Theorem C06_range_split_empty :
  forall o idxs, rsplit o idxs = [] <-> (forall x, In x idxs -> ~ rI o < x < rJ o).
Proof. exact rsplit_empty_iff. Qed.

Example C06_case : rsplit (Rng 3 11) [9; 3; 5; 20; 5; 11] = [Rng 3 5; Rng 5 9; Rng 9 11].
Proof. reflexivity. Qed.

(** ** C07 *)

Theorem C07_split_at_indices :
  forall L gen pts h idxs ctr, hull_of pts h -> (forall a b, gen a = gen b -> a = b) ->
  exists hs ctr', at_index L gen h idxs ctr = Ok (hs, ctr') /\
    Forall (fun g => hull_of pts g /\ n_inst g = n_inst h) hs /\
    NoDup (map n_id hs) /\
    ((exists x, In x idxs /\ rI (n_rng h) < x < rJ (n_rng h)) ->
      chain (rI (n_rng h)) (rJ (n_rng h)) (map n_rng hs) /\
      flat_map (fun g => tl (cpts (n_coords g))) hs = tl (cpts (n_coords h))) /\
    ((forall x, In x idxs -> ~ rI (n_rng h) < x < rJ (n_rng h)) -> hs = []).
Proof.
  intros L gen pts h idxs ctr Hh Hg.
  destruct (at_index_spec L gen pts h idxs ctr Hh) as (hs & A & B & C & D).
  exists hs, (ctr + length hs)%nat. split; [exact A|]. split; [|split; [|split]].
  - eapply Forall_impl; [|exact C]. intros g (G1 & _ & _ & G2); auto.
  - rewrite D. apply FinFun.Injective_map_NoDup; [exact Hg|apply seq_NoDup].
  - intros Hx. destruct (rsplit_spec _ _ Hx) as [Hc _]. rewrite B. split; [exact Hc|].
    apply (tails_join pts); [|exact Hh|rewrite B; exact Hc].
    eapply Forall_impl; [|exact C]. intros g (G1 & _); exact G1.
  - intros Hx. apply rsplit_nil in Hx. rewrite Hx in B. destruct hs; [reflexivity|discriminate].
Qed.

Theorem C07_split_at_score :
  forall L gen pts h (score : scorefn) ctr, hull_of pts h -> (forall a b, gen a = gen b -> a = b) ->
  0 < fst (score (n_coords h)) < rJ (n_rng h) - rI (n_rng h) ->
  exists ha hb ctr', at_score_selection L gen h score ctr = Ok (ha, hb, ctr') /\
    chain (rI (n_rng h)) (rJ (n_rng h)) (map n_rng [ha; hb]) /\
    rJ (n_rng ha) = rI (n_rng h) + fst (score (n_coords h)) /\
    hull_of pts ha /\ hull_of pts hb /\ n_inst ha = n_inst h /\ n_inst hb = n_inst h /\ n_id ha <> n_id hb /\
    flat_map (fun g => tl (cpts (n_coords g))) [ha; hb] = tl (cpts (n_coords h)).
Proof.
  intros L gen pts h score ctr Hh Hg Hk.
  destruct (at_score_spec L gen pts h score ctr Hh Hk) as (ha & hb & A & B & C & (D1 & _ & _ & D2) & (E1 & _ & _ & E2) & F & G).
  assert (Hc : chain (rI (n_rng h)) (rJ (n_rng h)) (map n_rng [ha; hb])).
  { cbn [map]. rewrite B, C; cbn; repeat split; lia. }
  exists ha, hb, (S (S ctr)). split; [exact A|]. split; [exact Hc|].
  split; [rewrite B; reflexivity|]. repeat (split; [assumption|]).
  split; [rewrite F, G; intros E; apply Hg in E; lia|].
  apply (tails_join pts); auto.
Qed.

Definition ex_hull (i j : Z) : node := create_node toy 9 (sub_coords ex_line (Rng i j)) (Rng i j) 7.

Example C07_case :
  hull_of ex_line (ex_hull 1 4) /\
  (match at_index toy ex_gen (ex_hull 1 4) [2; 0; 3] 0 with
   | Ok (hs, _) => map n_rng hs = [Rng 1 2; Rng 2 3; Rng 3 4] | _ => False end) /\
  0 < fst (toy_score (n_coords (ex_hull 1 4))) < 3.
Proof. vm_compute. repeat split; try discriminate; auto. Qed.

(** ** C08 *)

Theorem C08_merge_contiguous :
  forall pts ha hb, hull_of pts ha -> hull_of pts hb ->
  (rJ (n_rng ha) = rI (n_rng hb) \/ rJ (n_rng hb) = rI (n_rng ha)) ->
  merge_range (n_rng ha) (n_rng hb) = Rng (Z.min (rI (n_rng ha)) (rI (n_rng hb))) (Z.max (rJ (n_rng ha)) (rJ (n_rng hb))) /\
  exists c, contiguous_coords ha hb = Ok c /\
    cpts c = points_of pts (Rng (Z.min (rI (n_rng ha)) (rI (n_rng hb))) (Z.max (rJ (n_rng ha)) (rJ (n_rng hb)))).
Proof.
  intros pts ha hb Ha Hb Hc.
  assert (A : rI (n_rng ha) < rJ (n_rng ha)) by apply Ha.
  assert (B : rI (n_rng hb) < rJ (n_rng hb)) by apply Hb.
  split; [apply merge_range_spec; lia|].
  rewrite <- merge_range_spec by lia.
  eexists. split; [apply (contiguous_coords_spec pts); auto; apply rcontig_spec; auto|]. reflexivity.
Qed.

(** Merging the two halves of a split, in either order, gives back the hull's vertices. *)
Theorem C08_merge_inverts_split :
  forall L gen pts h (score : scorefn) ctr ha hb ctr', hull_of pts h ->
  0 < fst (score (n_coords h)) < rJ (n_rng h) - rI (n_rng h) ->
  at_score_selection L gen h score ctr = Ok (ha, hb, ctr') ->
  merge_range (n_rng ha) (n_rng hb) = n_rng h /\ contiguous_coords ha hb = Ok (n_coords h) /\
  merge_range (n_rng hb) (n_rng ha) = n_rng h /\ contiguous_coords hb ha = Ok (n_coords h).
Proof.
  intros L gen pts h score ctr ha hb ctr' Hh Hk E.
  destruct (at_score_spec L gen pts h score ctr Hh Hk) as (ha' & hb' & A & B & C & (D & _) & (F & _) & _).
  rewrite A in E. injection E as <- <- _.
  assert (Er : merge_range (n_rng ha') (n_rng hb') = n_rng h /\ merge_range (n_rng hb') (n_rng ha') = n_rng h).
  { rewrite !merge_range_spec by (rewrite ?B, ?C; cbn; lia). rewrite B, C; cbn.
    destruct (n_rng h) as [i j]; cbn in *. split; f_equal; lia. }
  destruct Er as [E1 E2].
  assert (Hco : n_coords h = sub_coords pts (n_rng h)) by apply Hh.
  split; [exact E1|]. split; [|split; [exact E2|]].
  - rewrite (contiguous_coords_spec pts); auto; [congruence|].
    apply rcontig_spec; rewrite ?B, ?C; cbn; lia.
  - rewrite (contiguous_coords_spec pts); auto; [congruence|].
    apply rcontig_spec; rewrite ?B, ?C; cbn; lia.
Qed.

Theorem C08_merge_rejects_apart :
  forall pts ha hb, hull_of pts ha -> hull_of pts hb ->
  rJ (n_rng ha) <> rI (n_rng hb) -> rJ (n_rng hb) <> rI (n_rng ha) ->
  contiguous_coords ha hb = Panic.
Proof.
  intros pts ha hb (_ & A & _) (_ & B & _) H1 H2. apply contiguous_coords_panic.
  destruct (rcontig (n_rng ha) (n_rng hb)) eqn:E; [|reflexivity].
  apply rcontig_spec in E; [|exact A|exact B]. destruct E; contradiction.
Qed.

Example C08_case :
  hull_of ex_line (ex_hull 0 2) /\ hull_of ex_line (ex_hull 2 4) /\
  contiguous_coords (ex_hull 2 4) (ex_hull 0 2) = Ok (full_coords ex_line) /\
  contiguous_coords (ex_hull 0 1) (ex_hull 2 4) = Panic.
Proof. vm_compute. repeat split; try discriminate; auto. Qed.

(** ** C09 *)

Theorem C09_threshold_merge :
  forall L gen pts (score : scorefn) ha hb (rel : f64 -> bool) ctr,
  hull_of pts ha -> hull_of pts hb ->
  (rJ (n_rng ha) = rI (n_rng hb) \/ rJ (n_rng hb) = rI (n_rng ha)) ->
  let r := Rng (Z.min (rI (n_rng ha)) (rI (n_rng hb))) (Z.max (rJ (n_rng ha)) (rJ (n_rng hb))) in
  let merged := Coords pts (zseq (rI r) (rJ r)) in
  exists o ctr', fragments_at_threshold L gen score ha hb rel ctr = Ok (o, ctr') /\
    (o <> None <-> rel (snd (score merged)) = true) /\
    forall h, o = Some h -> n_rng h = r /\ hull_of pts h /\ n_inst h = n_inst ha.
Proof.
  intros L gen pts score ha hb rel ctr Ha Hb Hc r merged.
  assert (A : rI (n_rng ha) < rJ (n_rng ha)) by apply Ha.
  assert (B : rI (n_rng hb) < rJ (n_rng hb)) by apply Hb.
  destruct (fragments_spec L gen pts score ha hb rel ctr Ha Hb) as (o & E & F); [apply rcontig_spec; auto|].
  rewrite merge_range_spec in E, F by lia. fold r in E, F.
  change (sub_coords pts r) with merged in E, F.
  exists o. eexists. split; [exact E|]. destruct o as [h|].
  - destruct F as (F1 & F2 & (F3 & _ & _ & F4) & _). split; [split; [auto|discriminate]|].
    intros h' [= <-]; auto.
  - split; [split; [congruence|congruence]|discriminate].
Qed.

Example C09_case :
  (exists h c, fragments_at_threshold toy ex_gen toy_score (ex_hull 2 3) (ex_hull 3 4) (score_rel ex_T) 0 = Ok (Some h, c)) /\
  (exists c, fragments_at_threshold toy ex_gen toy_score (ex_hull 0 2) (ex_hull 2 4) (score_rel ex_T) 0 = Ok (None, c)).
Proof. vm_compute. eauto 8. Qed.

(** ** C46 *)

(** Interior as long as the synchronized distances are numbers... *)
Theorem C46_sed_interior_partial :
  forall t hyp c, 3 <= clen c ->
  (forall j, 1 <= j < clen c - 1 -> fle fzero (sed_dist t hyp (cpt c 0) (cpt c (clen c - 1)) (cpt c j)) = true) ->
  0 < fst (max_sed_offset t hyp c) < clen c - 1.
Proof.
  intros t hyp c Hc Hd.
  destruct (max_offset_farthest (sed_dist t hyp) c ltac:(lia)) as [(A & B & C)|(A & _)]; cbv beta in *.
  - specialize (C 1 ltac:(lia)). rewrite Hd in C by lia. discriminate.
  - unfold max_sed_offset. lia.
Qed.

(** ... but never interior when all time stamps are equal, whatever the trigonometry;
    the two hypot variants of the program both qualify. *)
Theorem C46_sed_interior_refuted :
  forall t hyp c, hyp = hypot \/ hyp = square_hypot ->
  3 <= clen c ->
  (forall k, 0 <= k < clen c -> is_fin (pz (cpt c k)) = true /\ pz (cpt c k) = pz (cpt c 0)) ->
  max_sed_offset t hyp c = (clen c - 1, fzero).
Proof.
  intros t hyp c Hh. apply sed_equal_times.
  destruct Hh as [-> | ->]; [exact hypot_nan_l|exact square_hypot_nan_l].
Qed.

(** At the time of the first vertex the reference point is the first vertex, whatever the
    direction and the (finite) speed. *)
Theorem C46_sed_measures_from_start :
  forall t hyp a b p,
  is_fin (px a) = true -> is_fin (py a) = true -> is_fin (pz a) = true ->
  pz p = pz a ->
  is_fin (fdiv (tr_mag t a b) (fsub (pz b) (pz a))) = true ->
  is_fin (tr_dx t a b) = true -> is_fin (tr_dy t a b) = true ->
  exists qx qy, feq qx (px a) = true /\ feq qy (py a) = true /\
    sed_dist t hyp a b p = hyp (fsub (px p) qx) (fsub (py p) qy).
Proof. intros t hyp a b p. apply sed_start. Qed.

Definition ex_trig : trig := Trig (fun a b => gl_ptdist toy a b) (fun a b => f_of_Z 1) (fun a b => fzero).

Example C46_case :
  let c := full_coords [P3 0 0 0; P3 3 4 1; P3 8 0 2; P3 9 0 3] in
  3 <= clen c /\
  forallb (fun j => fle fzero (sed_dist ex_trig hypot (cpt c 0) (cpt c (clen c - 1)) (cpt c j))) [1; 2] = true /\
  fst (max_sed_offset ex_trig hypot c) = 1 /\
  (let '(a, b) := (P3 1 2 5, P3 9 2 7) in
   is_fin (fdiv (tr_mag ex_trig a b) (fsub (pz b) (pz a))) = true /\
   sed_dist ex_trig hypot a b (P3 1 6 5) = f_of_Z 4 /\ sed_dist ex_trig hypot a b (P3 5 5 6) = f_of_Z 3 /\
   sed_dist ex_trig hypot a b (P3 9 4 7) = f_of_Z 2) /\
  max_sed_offset ex_trig hypot (full_coords [P3 0 0 5; P3 3 4 5; P3 8 0 5]) = (2, fzero).
Proof. vm_compute. repeat split; discriminate. Qed.

(** ** C50 *)

Theorem C50_neighbours :
  forall lo hi tiles hull nbs,
  chain lo hi (map n_rng tiles) ->
  (forall a b, In a tiles -> In b tiles -> n_id a = n_id b -> a = b) ->
  In hull tiles -> (forall h, In h nbs -> In h tiles) ->
  (forall h, fst (neighbours hull nbs) = Some h <-> In h nbs /\ rJ (n_rng h) = rI (n_rng hull)) /\
  (forall h, snd (neighbours hull nbs) = Some h <-> In h nbs /\ rI (n_rng h) = rJ (n_rng hull)).
Proof.
  intros lo hi tiles hull nbs H1 H2 H3 H4.
  pose proof (neighbours_spec lo hi tiles hull nbs H1 H2 H3 H4) as H.
  destruct (neighbours hull nbs) as [p n]; exact H.
Qed.

Example C50_case :
  match ex_run ex_T 20 with
  | Ok ([a; b; c] as hs, _) =>
      map n_id hs = [100; 101; 102] /\
      neighbours b [c; b; a] = (Some a, Some c) /\ neighbours a [c; b] = (None, Some b)
  | _ => False
  end.
Proof. vm_compute. auto. Qed.

Print Assumptions C01_decomposition_tiles.
Print Assumptions C01_decomposition_tiles_offsets.
Print Assumptions C01_decomposition_tiles_squared.
Print Assumptions C02_terminates.
Print Assumptions C02_terminates_squared.
Print Assumptions C02_never_ends.
Print Assumptions C02_never_ends_squared.
Print Assumptions C03_pieces_within_threshold.
Print Assumptions C03_dropped_vertices.
Print Assumptions C03_pieces_within_threshold_squared.
Print Assumptions C03_dropped_vertices_squared.
Print Assumptions C04_max_offset_farthest.
Print Assumptions C04_max_offset_interior.
Print Assumptions C04_short_lines_have_no_offset.
Print Assumptions C05_plain_dp_subset.
Print Assumptions C05_plain_dp_subset_squared.
Print Assumptions C06_range_split.
Print Assumptions C06_range_split_empty.
Print Assumptions C07_split_at_indices.
Print Assumptions C07_split_at_score.
Print Assumptions C08_merge_contiguous.
Print Assumptions C08_merge_inverts_split.
Print Assumptions C08_merge_rejects_apart.
Print Assumptions C09_threshold_merge.
Print Assumptions C46_sed_interior_partial.
Print Assumptions C46_sed_interior_refuted.
Print Assumptions C46_sed_measures_from_start.
Print Assumptions C50_neighbours.
