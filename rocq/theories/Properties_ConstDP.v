(** Constrained simplification of a line. *)
From Verif Require Import M_Base M_Float M_Rng M_Geom M_Offset M_Node M_Decompose M_Split M_Hdb M_Knn M_Lnr M_Homotopy M_Relate
  M_Deform M_Constrain M_ConstDP Spec Spec_Hdb Spec_Relate Spec_Lnr Spec_ConstDP
  P_Base P_Float P_Decompose P_Split P_Node P_Hdb P_HdbIns P_HdbLoad P_HdbHist P_Knn P_Homotopy P_Relate P_Db P_Bag
  P_Constrain P_Deform P_ConstDP P_Aggregate P_Simplify P_Class P_Lnr Toy Toy_Box Properties_Core Properties_Lnr Properties_Relate.
From Coq Require Import Sorting.Sorted Arith.Cantor.
Open Scope Z_scope.

(** ** A concrete setting for the examples *)

Definition ex_lnr : lnr_oracle := LnrOracle v_sort (fun _ _ _ _ => []) (fun _ _ => []).
Definition exW : world := World toy ex_gen plain_oracle plain_pop ex_lnr.
Definition in_turn (k : nat) (l : list node) : list node := l.
(** A zigzag with a constraint inside the first tooth, every relation on. *)
Definition zig : list point := [P2 0 0; P2 5 5; P2 10 0; P2 15 4; P2 20 0].
Definition zig_opts : opts := Opts (f_of_Z 10) (f_of_Z 1) fzero false false true true true true.
Definition zig_ctx : list geometry := [GPoint (P2 5 2)].
Definition get {A} (d : A) (r : res A) : A := match r with Ok x => x | _ => d end.
Definition zig_db : hdb := Eval vm_compute in get new_hdb_default (build_context_db toy plain_oracle 7 zig_ctx).
Definition zig_dp : cdp := Cdp 7 zig zig_opts toy_score None zig_db.

Lemma exW_ok : libs_ok exW.
Proof.
  split.
  - exact plain_oracle_ok.
  - exact plain_pop_ok.
  - intros p g. cbn [w_geom exW gl_inter toy]. split.
    + cbn [toy_inter]. rewrite firstn_length. lia.
    + destruct g; cbn [toy_inter]; rewrite firstn_length; lia.
  - intros j k. unfold exW, ex_gen; cbn [w_gen]. lia.
Qed.

(** All pieces of a line of n vertices. *)
Definition pieces (n : nat) : list rng :=
  flat_map (fun i => map (fun d => Rng (Z.of_nat i) (Z.of_nat i + 1 + Z.of_nat d)) (seq 0 (n - 1 - i))) (seq 0 n).
Lemma pieces_all pts r : piece pts r -> In r (pieces (length pts)).
Proof.
  destruct r as [i j]. intros (A & B & C). cbn [rI rJ] in *. unfold zlen in C. apply in_flat_map.
  exists (Z.to_nat i). split; [apply in_seq; lia|]. apply in_map_iff. exists (Z.to_nat (j - i - 1)).
  split; [f_equal; lia|apply in_seq; lia].
Qed.
Ltac by_pieces r Hr := apply pieces_all in Hr; vm_compute in Hr;
  repeat (destruct Hr as [<- |Hr]); [..|destruct Hr].
Ltac line_ok_compute T :=
  split;
  [ vm_compute; lia
  | let r := fresh in let Hr := fresh in intros r Hr; by_pieces r Hr; vm_compute; repeat split; try reflexivity; discriminate
  | let c := fresh in let Hc := fresh in intros c Hc; apply (max_offset_splits toy_ptseg (score_rel T)); [reflexivity|exact Hc]
  | let r := fresh in let Hr := fresh in let Hs := fresh in
    intros r Hr Hs; by_pieces r Hr; cbn [rI rJ] in Hs; try lia; vm_compute; split; reflexivity ].

Lemma zig_ok : line_ok toy zig_dp.
Proof. line_ok_compute (f_of_Z 10). Qed.
Lemma zig_built : built_from exW zig_dp zig_ctx.
Proof.
  split; [vm_compute; reflexivity|]. constructor; [|constructor]. vm_compute. repeat split; try reflexivity; discriminate.
Qed.
Lemma in_turn_ok : any_order in_turn.
Proof. intros k l. reflexivity. Qed.

(** ** C26 *)

Theorem C26_simplify_keeps_a_subset :
  forall (W : world) (ord : nat -> list node -> list node) (self : cdp) constraints verts fuel ctr,
  libs_ok W -> any_order ord -> line_ok (w_geom W) self -> built_from W self constraints ->
  Forall (fun k => 0 <= k < zlen (c_pts self)) verts ->
  (2 * length (c_pts self) - 3 < fuel)%nat ->
  exists hs ctr', simplify W ord self verts fuel ctr = Ok (hs, ctr') /\
    tiling 0 (zlen (c_pts self) - 1) (map n_rng hs) /\
    Forall (fun h => hull_of (c_pts self) h /\ n_inst h = c_id self) hs /\
    let s := simple_set hs in
    increasing s /\ hd (-1) s = 0 /\ last s (-1) = zlen (c_pts self) - 1 /\
    Forall (fun k => 0 <= k < zlen (c_pts self)) s /\
    (forall k, In k s <-> exists h, In h hs /\ (k = rI (n_rng h) \/ k = rJ (n_rng h))).
Proof.
  intros W ord self cs verts fuel ctr HW Ho Hl Hb Hv Hf.
  pose proof (one_setting W self cs (fun _ => True) HW Hl Hb (fun _ => I)) as St.
  destruct (simplify_spec W self _ ord Ho St (lk_two _ _ Hl) (lk_splits _ _ Hl) verts fuel ctr Hv Hf)
    as (hs & ctr' & E & Hi & _).
  exists hs, ctr'. split; [exact E|]. pose proof (line_tiles _ _ _ _ _ Hi) as Ht. split; [exact Ht|]. split.
  - apply Forall_forall. intros h Hh. split; [eapply line_hull; eauto|eapply line_inst; eauto].
  - cbv zeta. destruct (point_set_tiling hs (c_pts self) (lk_two _ _ Hl) Ht) as (A & B & C & D).
    split; [exact A|]. split; [exact B|]. split; [exact C|]. split; [exact D|]. apply point_set_spec.
Qed.

Definition zig_run : res (list node * nat) := simplify exW in_turn zig_dp [] 20 0.
Example C26_case :
  libs_ok exW /\ any_order in_turn /\ line_ok toy zig_dp /\ built_from exW zig_dp zig_ctx /\
  match zig_run with
  | Ok (hs, _) => map n_rng hs = [Rng 1 4; Rng 0 1] /\ simple_set hs = [0; 1; 4]
  | _ => False
  end.
Proof.
  split; [exact exW_ok|]. split; [exact in_turn_ok|]. split; [exact zig_ok|]. split; [exact zig_built|].
  vm_compute. split; reflexivity.
Qed.

(** ** C27 *)

(** The split loop needs no more than n rounds for a line of n vertices, whatever the
    decomposition it starts from and whatever order the maps yield. *)
Theorem C27_split_loop_ends :
  forall (W : world) ord (self : cdp) constraints hs db ctr,
  libs_ok W -> any_order ord -> line_ok (w_geom W) self -> built_from W self constraints ->
  chain 0 (zlen (c_pts self) - 1) (map n_rng hs) ->
  Forall (fresh_hull (w_geom W) (c_pts self) (c_id self)) hs ->
  map n_id hs = map (w_gen W) (seq ctr (length hs)) ->
  load (w_hdb W) new_hdb_default hs = Ok db ->
  exists db' ctr',
    split_loop W (fun _ => self) ord (length (c_pts self)) 0 (fun _ => true) hs db (ctr + length hs) = Ok (db', ctr').
Proof.
  intros W ord self cs hs db ctr HW Ho Hl Hb Hc Hf Hid Hdb.
  pose proof (one_setting W self cs (fun _ => True) HW Hl Hb (fun _ => I)) as St.
  pose proof (inv_start W self _ St (lk_two _ _ Hl) hs ctr Hc Hf Hid) as Hi.
  assert (Hg : Forall good_item hs).
  { apply Forall_forall. intros h Hh. eapply line_good; [exact St|exact Hi|exact Hh]. }
  destruct (holds_load (w_hdb W) new_hdb_default [] hs (lb_rtree _ HW) holds_new Hg) as (t & Et & Ht).
  rewrite Hdb in Et. injection Et as <-. cbn [app] in Ht.
  pose proof (lk_two _ _ Hl) as H2.
  assert (Hne : hs <> []) by (intros ->; cbn in Hc; unfold zlen in Hc; lia).
  destruct (split_loop_spec W (fun _ => self) [c_id self] _ St ord Ho (length (c_pts self)) 0 (fun _ => true) hs db
              (ctr + length hs) hs) as (db' & ctr' & b' & E & _); auto.
  - intros x Hx; exact Hx.
  - unfold rounds. assert (capacity (lines_of (fun _ => self)) [c_id self] = zlen (c_pts self) - 1) as ->.
    { unfold capacity, lines_of. cbn. unfold zlen. lia. }
    assert (1 <= zlen hs) by (destruct hs; [contradiction|unfold zlen; cbn [length]; lia]).
    assert (zlen (c_pts self) = Z.of_nat (length (c_pts self))) by reflexivity.
    destruct (forallb _ hs); lia.
  - eauto.
Qed.

(** Hence the whole simplification ends. *)
Theorem C27_simplify_ends :
  forall (W : world) ord (self : cdp) constraints verts fuel ctr,
  libs_ok W -> any_order ord -> line_ok (w_geom W) self -> built_from W self constraints ->
  Forall (fun k => 0 <= k < zlen (c_pts self)) verts ->
  (2 * length (c_pts self) - 3 < fuel)%nat ->
  exists r, simplify W ord self verts fuel ctr = Ok r.
Proof.
  intros W ord self cs verts fuel ctr HW Ho Hl Hb Hv Hf.
  destruct (C26_simplify_keeps_a_subset W ord self cs verts fuel ctr HW Ho Hl Hb Hv Hf) as (hs & ctr' & E & _). eauto.
Qed.

(** Offset scores with a threshold that accepts 0 and distances that are numbers meet the
    two conditions on the score. *)
Theorem C27_offset_scores :
  forall distfn T pts,
  fle fzero T = true ->
  (forall i j k, 0 <= i < k -> k < j < zlen pts ->
     let at_ m := nth (Z.to_nat m) pts origin in fle fzero (distfn (at_ i) (at_ j) (at_ k)) = true) ->
  (forall c, 2 <= clen c -> dp_relation T None (snd (dp_score (max_offset distfn) None c)) = true \/
     0 < fst (dp_score (max_offset distfn) None c) < clen c - 1) /\
  (forall r, piece pts r -> 1 < rJ r - rI r ->
     0 < fst (dp_score (max_offset distfn) None (sub_coords pts r)) < rJ r - rI r).
Proof.
  intros distfn T pts HT Hd. split.
  - exact (max_offset_splits distfn (score_rel T) HT).
  - intros r (A & B & C) Hs. unfold dp_score.
    assert (Hlen : clen (sub_coords pts r) = rJ r - rI r + 1).
    { unfold clen, sub_coords. cbn [cidxs]. apply zseq_len. lia. }
    destruct (C04_max_offset_interior distfn (sub_coords pts r)) as (K & _); [lia| |].
    + intros j Hj. rewrite !cpt_sub by lia. cbv zeta in Hd. rewrite Hlen.
      replace (rI r + (rJ r - rI r + 1 - 1)) with (rJ r) by lia. rewrite Z.add_0_r. apply Hd; lia.
    + rewrite Hlen in K. lia.
Qed.

Example C27_case :
  (forall i j k, 0 <= i < k -> k < j < zlen zig ->
     let at_ m := nth (Z.to_nat m) zig origin in fle fzero (toy_ptseg (at_ i) (at_ j) (at_ k)) = true) /\
  (exists r, simplify exW in_turn zig_dp [] 8 0 = Ok r).
Proof.
  split.
  - intros i j k Hi Hk. change (zlen zig) with 5 in Hk.
    assert (Hi' : i = 0 \/ i = 1 \/ i = 2) by lia. assert (Hk' : k = 1 \/ k = 2 \/ k = 3) by lia.
    assert (Hj' : j = 2 \/ j = 3 \/ j = 4) by lia.
    destruct Hi' as [-> |[-> | ->]], Hk' as [-> |[-> | ->]], Hj' as [-> |[-> | ->]]; try lia; vm_compute; reflexivity.
  - vm_compute. eauto.
Qed.

(** ** C28 *)

Theorem C28_constrained_vertices_survive :
  forall (W : world) ord (self : cdp) constraints verts fuel ctr hs ctr',
  libs_ok W -> any_order ord -> line_ok (w_geom W) self -> built_from W self constraints ->
  Forall (fun k => 0 <= k < zlen (c_pts self)) verts ->
  (2 * length (c_pts self) - 3 < fuel)%nat ->
  o_planar_self (c_opts self) = true ->
  (let forced := self_intersections W self ++ map (fun k => (nth (Z.to_nat k) (c_pts self) origin, [k])) verts in
   forall c, In c forced ->
     location_on_hulls (w_geom W) (c_pts self) c /\ boxes_not_farther (w_geom W) (c_pts self) c) ->
  simplify W ord self verts fuel ctr = Ok (hs, ctr') ->
  forall k, 0 <= k < zlen (c_pts self) ->
  (In k verts \/ exists c, In c (self_intersections W self) /\ In k (snd c)) ->
  In k (simple_set hs).
Proof.
  intros W ord self cs verts fuel ctr hs ctr' HW Ho Hl Hb Hv Hf Hp Hg E k Hk Hrep.
  pose proof (one_setting W self cs (fun _ => True) HW Hl Hb (fun _ => I)) as St.
  destruct (simplify_spec W self _ ord Ho St (lk_two _ _ Hl) (lk_splits _ _ Hl) verts fuel ctr Hv Hf)
    as (hs0 & ctr0 & E0 & _ & _ & _ & Hcut & _).
  rewrite E in E0. injection E0 as <- <-.
  destruct (Hcut Hp) with (k := k) as (h & Hh & _ & Hend); auto.
  - assert (Hfr : forall h, fresh_hull (w_geom W) (c_pts self) (c_id self) h ->
       piece (c_pts self) (n_rng h) /\ n_geom h = piece_hull (w_geom W) (c_pts self) (n_rng h) /\
       n_mbr h = gl_bounds (w_geom W) (piece_hull (w_geom W) (c_pts self) (n_rng h))).
    { intros h (A & B & C & _). pose proof A as A'. destruct A' as (A1 & A2 & A3 & _).
      rewrite (cpts_hull _ _ A) in B. split; [split; [|split]; auto|]. split; [exact B|]. rewrite C, B. reflexivity. }
    split; [exact (lb_heap _ HW)|]. split; apply Forall_forall; intros c Hc; destruct (Hg c Hc) as [G1 G2].
    + intros i h j [<- |[]] Hh Hj Hin. destruct (Hfr h Hh) as (P1 & P2 & _). rewrite P2. apply (G1 (n_rng h) j); auto.
    + intros i h b [<- |[]] Hh Hin. destruct (Hfr h Hh) as (P1 & P2 & P3). rewrite P2. apply (G2 (n_rng h) b); auto.
      rewrite <- P3. exact Hin.
  - apply point_set_spec. exists h. split; [exact Hh|]. destruct Hend; auto.
Qed.

(** The same without naming the list of self-intersections: a vertex survives when it is a
    junction, when another vertex of the line lies at its location (which is not the greatest
    one of the line), or, with non_planar_self on, when it ends a segment that another segment
    of the line crosses. *)
Theorem C28_shared_and_crossed_vertices_survive :
  forall (W : world) ord (self : cdp) constraints verts fuel ctr hs ctr',
  libs_ok W -> any_order ord -> line_ok (w_geom W) self -> built_from W self constraints ->
  let pts := c_pts self in
  let segx := lo_segx (w_lnr W) in
  let crossing_on := o_non_planar_self (c_opts self) in
  Forall (fun k => 0 <= k < zlen pts) verts ->
  (2 * length pts - 3 < fuel)%nat ->
  o_planar_self (c_opts self) = true ->
  sorts (lo_sort (w_lnr W)) -> Forall num_pt pts ->
  (forall p q, In p pts -> In q pts -> gl_eq2d (w_geom W) p q = loc_eq p q) ->
  finds_segments (lo_near (w_lnr W) pts) pts -> segx_sym segx ->
  (forall c, repeated_location pts c \/ (crossing_on = true /\ crossing_location segx pts c) \/
             (exists k, In k verts /\ c = (nth (Z.to_nat k) pts origin, [k])) ->
     location_on_hulls (w_geom W) pts c /\ boxes_not_farther (w_geom W) pts c) ->
  simplify W ord self verts fuel ctr = Ok (hs, ctr') ->
  forall k p, znth pts k = Some p ->
  In k verts \/
  (exists k' q, znth pts k' = Some q /\ k' <> k /\ loc_eq p q = true /\ not_greatest pts p) \/
  (crossing_on = true /\ exists s o x, segments_cross segx pts s o x /\ (k = s \/ k = s + 1)) ->
  In k (simple_set hs).
Proof.
  intros W ord self cs verts fuel ctr hs ctr' HW Ho Hl Hb pts segx crossing_on Hv Hf Hp Hsort Hnum Heq Hnear Hsym Hg E
    k p Hk Hwhy.
  destruct (C19_flags_select (w_geom W) (lo_sort (w_lnr W)) segx (lo_near (w_lnr W) pts) true crossing_on pts
    Hsort Hnum Heq Hnear Hsym) as (S1 & S2 & S3).
  assert (Hkr : 0 <= k < zlen pts).
  { unfold znth in Hk. destruct (k <? 0) eqn:E0; [discriminate|]. apply Z.ltb_ge in E0.
    assert (Z.to_nat k < length pts)%nat by (apply nth_error_Some; congruence). unfold zlen. lia. }
  refine (C28_constrained_vertices_survive W ord self cs verts fuel ctr hs ctr' HW Ho Hl Hb Hv Hf Hp _ E k Hkr _).
  - intros forced c Hc. apply Hg. unfold forced in Hc. apply in_app_or in Hc. destruct Hc as [Hc|Hc].
    + destruct (S1 c Hc) as [(_ & R & _)|R]; auto.
    + right; right. apply in_map_iff in Hc. destruct Hc as (j & <- & Hj). eauto.
  - destruct Hwhy as [Hj|[(k' & q & Hq & Hne & Hloc & Hgr)|(Hon & s & o & x & Hx & Hks)]]; [left; exact Hj|right..].
    + destruct (S2 eq_refl k p k' q Hk Hq Hne Hloc Hgr) as (c & Hc & _ & _ & Hin). eauto.
    + destruct (S3 Hon s o x Hx) as (ks & Hc & _ & Hin). exists (x, ks). split; [exact Hc|]. apply Hin. tauto.
Qed.

(** An example with the box library, of which the geometric conditions can be proved:
    vertex 2 of the line is a junction and the line reports no self-intersection. *)
Definition exB : world := World boxy ex_gen plain_oracle plain_pop ex_lnr.
Lemma exB_ok : libs_ok exB.
Proof.
  split.
  - exact plain_oracle_ok.
  - exact plain_pop_ok.
  - intros p g. cbn [w_geom exB gl_inter boxy]. unfold bx_inter. cbn [verts filter]. split.
    + destruct (boxes_meet _ _), g; cbn; lia.
    + rewrite firstn_length. lia.
  - intros j k. unfold exB, ex_gen; cbn [w_gen]. lia.
Qed.
Definition hook : list point := [P2 0 0; P2 10 1; P2 1 2; P2 20 0].
Definition hook_opts : opts := Opts (f_of_Z 2) fzero fzero true false false false false false.
Definition hook_dp : cdp := Cdp 7 hook hook_opts toy_score None new_hdb_default.

Lemma num_part pts r : num_pts pts -> piece pts r -> num_pts (points_of pts r).
Proof.
  intros [_ Hn] (A & B & C). rewrite Forall_forall in Hn. split.
  - unfold points_of. intros K. apply map_eq_nil in K. pose proof (zseq_len (rI r) (rJ r)) as Z. rewrite K in Z. unfold zlen in Z.
    cbn in Z. lia.
  - apply Forall_forall. intros p Hp. unfold points_of in Hp. apply in_map_iff in Hp. destruct Hp as (k & <- & Hk).
    apply zseq_in in Hk. apply Hn, nth_In. unfold zlen in *. lia.
Qed.
Lemma boxy_not_farther pts c : num_pts pts -> boxes_not_farther boxy pts c.
Proof.
  intros Hn r b Hr Hw. apply boxy_box_dist; [|exact Hw]. pose proof (num_part pts r Hn Hr) as [K1 K2].
  split; [apply hull_verts_ne|]. apply Forall_forall. intros p Hp. rewrite Forall_forall in K2. apply K2.
  apply (proj2 (hull_verts _ K1 p)). exact Hp.
Qed.

Example C28_case :
  libs_ok exB /\ any_order in_turn /\ line_ok boxy hook_dp /\ built_from exB hook_dp [] /\
  o_planar_self hook_opts = true /\
  (let forced := self_intersections exB hook_dp ++ map (fun k => (nth (Z.to_nat k) hook origin, [k])) [2] in
   forall c, In c forced -> location_on_hulls boxy hook c /\ boxes_not_farther boxy hook c) /\
  match simplify exB in_turn hook_dp [] 20 0 with Ok (hs, _) => simple_set hs = [0; 3] | _ => False end /\
  match simplify exB in_turn hook_dp [2] 20 0 with Ok (hs, _) => simple_set hs = [0; 2; 3] | _ => False end.
Proof.
  split; [exact exB_ok|]. split; [exact in_turn_ok|]. split; [line_ok_compute (f_of_Z 2)|].
  split; [split; [vm_compute; reflexivity|constructor]|]. split; [reflexivity|]. split; [|vm_compute; split; reflexivity].
  intros forced c Hc. assert (Ec : forced = [(P2 1 2, [2])]) by (vm_compute; reflexivity). rewrite Ec in Hc.
  destruct Hc as [<- |[]]. split.
  - intros r k Hr Hk Hin. cbn [snd In] in Hk. destruct Hk as [<- |[]].
    by_pieces r Hr; cbn [rI rJ] in Hin; try lia; vm_compute; reflexivity.
  - apply boxy_not_farther. split; [discriminate|]. repeat constructor.
Qed.

(** A line that crosses itself at (2,2) and passes (4,4) twice, with a segment index that
    scans all segments: the four ends of the crossing and both visits survive, the bend at
    (9,1) does not. *)
Definition scan_near (pts : list point) (s : Z) : list Z :=
  filter (fun o => boxes_meet (seg_box pts s) (seg_box pts o)) (zseq 0 (zlen pts - 2)).
Lemma scan_near_finds pts : finds_segments (scan_near pts) pts.
Proof.
  intros s o _. unfold scan_near. rewrite filter_In, zseq_in. unfold is_segment. tauto.
Qed.
Definition exS : world := World boxy ex_gen plain_oracle plain_pop (LnrOracle v_sort bow_segx scan_near).
Lemma exS_ok : libs_ok exS.
Proof. destruct exB_ok as [A B C D]. split; [exact A|exact B|exact C|exact D]. Qed.
Definition knot : list point := [P2 0 0; P2 4 4; P2 4 0; P2 0 4; P2 4 4; P2 9 1; P2 20 0].
Definition knot_opts : opts := Opts (f_of_Z 40) fzero fzero true true false false false false.
Definition knot_dp : cdp := Cdp 7 knot knot_opts toy_score None new_hdb_default.

Lemma knot_vertex k q : znth knot k = Some q -> In k (zseq 0 6).
Proof.
  intros H. unfold znth in H. destruct (k <? 0) eqn:E0; [discriminate|]. apply Z.ltb_ge in E0.
  assert (K : (Z.to_nat k < length knot)%nat) by (apply nth_error_Some; congruence). apply zseq_in. cbn in K. lia.
Qed.
Ltac by_list H := repeat (destruct H as [<- |H]); [..|destruct H].

Example C28_shared_case :
  libs_ok exS /\ any_order in_turn /\ line_ok boxy knot_dp /\ built_from exS knot_dp [] /\
  o_planar_self knot_opts = true /\ sorts v_sort /\ Forall num_pt knot /\
  (forall p q, gl_eq2d boxy p q = loc_eq p q) /\
  finds_segments (scan_near knot) knot /\ segx_sym bow_segx /\
  (forall c, repeated_location knot c \/ (o_non_planar_self knot_opts = true /\ crossing_location bow_segx knot c) \/
             (exists k, In k [] /\ c = (nth (Z.to_nat k) knot origin, [k])) ->
     location_on_hulls boxy knot c /\ boxes_not_farther boxy knot c) /\
  match simplify exS in_turn knot_dp [] 40 0 with Ok (hs, _) => simple_set hs = [0; 1; 2; 3; 4; 6] | _ => False end.
Proof.
  split; [exact exS_ok|]. split; [exact in_turn_ok|]. split; [line_ok_compute (f_of_Z 40)|].
  split; [split; [vm_compute; reflexivity|constructor]|]. split; [reflexivity|]. split; [exact v_sort_sorts|].
  split; [repeat constructor|]. split; [reflexivity|]. split; [apply scan_near_finds|].
  split; [exact (proj1 C19_flags_case)|]. split; [|vm_compute; reflexivity].
  intros [p ks] Hc. split; [|apply boxy_not_farther; split; [discriminate|repeat constructor]].
  destruct Hc as [(Hp & _ & _ & Hks)|[(_ & s & o & Hx & _ & Hks)|(k & [] & _)]]; cbn [fst snd] in *.
  - intros r k Hr Hk Hin. cbn [fst snd] in *. apply Hks in Hk. destruct Hk as (q & Hq & Hl). pose proof (knot_vertex k q Hq) as K.
    vm_compute in K. unfold knot in Hp. cbn [In] in Hp.
    by_list K; vm_compute in Hq; injection Hq as <-; by_list Hp; vm_compute in Hl; try discriminate Hl;
      by_pieces r Hr; cbn [rI rJ] in Hin; try lia; vm_compute; reflexivity.
  - destruct Hx as (Hs & Ho & _ & _ & ip & Hip & Ep & _). unfold is_segment in Hs, Ho. change (zlen knot) with 7 in Hs, Ho.
    assert (K1 : In s (zseq 0 5)) by (apply zseq_in; lia). assert (K2 : In o (zseq 0 5)) by (apply zseq_in; lia).
    vm_compute in K1, K2. intros r k Hr Hk Hin. cbn [fst snd] in *.
    assert (Ek : p = P2 2 2 /\ (k = 0 \/ k = 1 \/ k = 2 \/ k = 3)).
    { apply Hks in Hk. by_list K1; by_list K2; vm_compute in Hip; try (destruct Hip as [<- |[]]); try destruct Hip;
        split; try (symmetry; exact Ep); lia. }
    destruct Ek as [-> Ek]. by_pieces r Hr; cbn [rI rJ] in Hin; try lia; vm_compute; reflexivity.
Qed.

(** ** C29 *)

Theorem C29_final_relations :
  forall (W : world) ord (self : cdp) constraints verts fuel ctr hs ctr',
  libs_ok W -> any_order ord -> line_ok (w_geom W) self -> built_from W self constraints ->
  Forall (fun k => 0 <= k < zlen (c_pts self)) verts ->
  (2 * length (c_pts self) - 3 < fuel)%nat ->
  simplify W ord self verts fuel ctr = Ok (hs, ctr') ->
  let L := w_geom W in
  let o := c_opts self in
  fle fzero (o_min_dist o) = true ->
  forall h, In h hs -> examined h ->
  gl_eq2d L (cfirst (n_coords h)) (cfirst (n_coords h)) = true ->
  gl_eq2d L (clast (n_coords h)) (clast (n_coords h)) = true ->
  (forall g, In g constraints -> hull_encloses L h g /\ box_distance_ok L (n_geom h) g (gl_bounds L g)) ->
  (o_geom o = true -> geom_relation_holds L h constraints) /\
  (o_dist o = true -> dist_relation_holds L (o_min_dist o) h constraints) /\
  (o_dir o = true -> homotopy L (n_coords h) constraints = Ok true).
Proof.
  intros W ord self cs verts fuel ctr hs ctr' HW Ho Hl Hb Hv Hf E L o Hm h Hh [Hx1 Hx2] E1 E2 Hg.
  pose proof (one_setting W self cs (fun _ => True) HW Hl Hb (fun _ => I)) as St.
  destruct (simplify_spec W self _ ord Ho St (lk_two _ _ Hl) (lk_splits _ _ Hl) verts fuel ctr Hv Hf)
    as (hs0 & ctr0 & E0 & Hi & Hval & _).
  rewrite E in E0. injection E0 as <- <-.
  pose proof (line_hull _ _ _ _ _ _ Hi Hh) as Hhull.
  destruct (C25_nearby_suffices L (w_hdb W) (w_pop W) o (c_id self) cs h (lb_rtree _ HW) (lb_heap _ HW))
    as (t & b & Et & Eb & Hiff); auto.
  - exact (proj2 Hb).
  - apply (hull_clen _ _ Hhull).
  - intros g K; apply (Hg g K).
  - intros g K; apply (Hg g K).
  - apply Hiff. assert (t = c_ctxdb self) as -> by (destruct Hb as [K _]; unfold L in Et; rewrite Et in K; congruence).
    assert (Hbig : big h).
    { split; [|exact Hx2]. destruct Hhull as (_ & K & _). unfold rsize. lia. }
    specialize (Hval h Hh Hbig). unfold valid_in in Hval. fold L o in Hval. rewrite Hval in Eb. congruence.
Qed.

Definition zigB_db : hdb := Eval vm_compute in get new_hdb_default (build_context_db boxy plain_oracle 7 zig_ctx).
Definition zigB : cdp := Cdp 7 zig zig_opts toy_score None zigB_db.
Example C29_case :
  libs_ok exB /\ line_ok boxy zigB /\ built_from exB zigB zig_ctx /\
  match simplify exB in_turn zigB [] 20 0 with
  | Ok (hs, _) => map n_rng hs = [Rng 1 4; Rng 0 1] /\
      forall h, In h hs ->
        gl_eq2d boxy (cfirst (n_coords h)) (cfirst (n_coords h)) = true /\
        gl_eq2d boxy (clast (n_coords h)) (clast (n_coords h)) = true /\
        forall g, In g zig_ctx -> hull_encloses boxy h g /\ box_distance_ok boxy (n_geom h) g (gl_bounds boxy g)
  | _ => False
  end /\
  ~ geom_relation_holds boxy (create_node boxy 1 (sub_coords zig (Rng 0 4)) (Rng 0 4) 7) zig_ctx.
Proof.
  split; [exact exB_ok|]. split; [line_ok_compute (f_of_Z 10)|]. split.
  { split; [vm_compute; reflexivity|]. constructor; [|constructor]. vm_compute. repeat split; try reflexivity; discriminate. }
  split.
  - destruct (simplify exB in_turn zigB [] 20 0) as [[hs c]| |] eqn:E; vm_compute in E; try discriminate E.
    injection E as <- <-. split; [reflexivity|]. intros h Hh.
    assert (Hg : forall g, In g zig_ctx -> box_distance_ok boxy (n_geom h) g (gl_bounds boxy g)).
    { intros g Hg b Hw. apply boxy_box_dist; auto. destruct Hg as [<- |[]]. split; [discriminate|]. repeat constructor. }
    destruct Hh as [<- |[<- |[]]]; (split; [vm_compute; reflexivity|]); (split; [vm_compute; reflexivity|]);
      intros g Hin; (split; [|apply Hg, Hin]); destruct Hin as [<- |[]].
    + split; [vm_compute; auto|]. split; [vm_compute; auto|]. split; [|vm_compute; reflexivity].
      intros a b d _ _ _ _. vm_compute. reflexivity.
    + split; [vm_compute; auto|]. split; [vm_compute; auto|]. split; [|vm_compute; reflexivity].
      intros a b d _ _ _ _. vm_compute. reflexivity.
  - intros K. specialize (K _ (or_introl eq_refl)). vm_compute in K. discriminate.
Qed.

(** ** C30 *)

(** With no constraint that can split a hull, every dropped vertex is within the threshold. *)
Theorem C30_threshold_without_constraints_partial :
  forall (W : world) ord (self : cdp) constraints verts fuel ctr hs ctr' distfn,
  libs_ok W -> any_order ord -> line_ok (w_geom W) self -> built_from W self constraints ->
  Forall (fun k => 0 <= k < zlen (c_pts self)) verts ->
  (2 * length (c_pts self) - 3 < fuel)%nat ->
  let o := c_opts self in
  o_planar_self o = false -> o_avoid_self o = false -> o_geom o = false -> o_dist o = false -> o_dir o = false ->
  c_score self = max_offset distfn -> c_sq self = None -> fle fzero (o_threshold o) = true ->
  simplify W ord self verts fuel ctr = Ok (hs, ctr') ->
  let at_ i := nth (Z.to_nat i) (c_pts self) origin in
  forall h k, In h hs -> rI (n_rng h) < k < rJ (n_rng h) ->
  let d := distfn (at_ (rI (n_rng h))) (at_ (rJ (n_rng h))) (at_ k) in
  is_nan d = false -> fle d (o_threshold o) = true.
Proof.
  intros W ord self cs verts fuel ctr hs ctr' distfn HW Ho Hl Hb Hv Hf o O1 O2 O3 O4 O5 Es Eq HT E at_ h k Hh Hk d Hd.
  pose proof (one_setting W self cs (fun _ => True) HW Hl Hb (fun _ => I)) as St.
  destruct (simplify_spec W self _ ord Ho St (lk_two _ _ Hl) (lk_splits _ _ Hl) verts fuel ctr Hv Hf)
    as (hs0 & ctr0 & E0 & Hi & _ & _ & _ & Hs & _).
  rewrite E in E0. injection E0 as <- <-.
  assert (Hfree : free (c_opts self)) by (split; [|split; [|split]]; auto).
  specialize (Hs Hfree O1). rewrite Forall_forall in Hs. specialize (Hs h Hh).
  pose proof (line_hull _ _ _ _ _ _ Hi Hh) as Hhull. destruct Hhull as (A & B & C & D).
  unfold score_ok in Hs. rewrite Es, Eq, D in Hs. unfold dp_relation, dp_score in Hs.
  apply (accepted_offsets distfn _ (c_pts self) (n_rng h) k); auto.
Qed.

(** A constraint split at a vertex breaks the bound: the piece 0..2 keeps vertex 1 dropped
    although it is farther than the threshold 2 from the segment that replaces it. *)
Lemma hook_ok : line_ok toy hook_dp.
Proof. line_ok_compute (f_of_Z 2). Qed.

Theorem C30_threshold_refuted :
  libs_ok exW /\ line_ok toy hook_dp /\ built_from exW hook_dp [] /\
  exists hs c h, simplify exW in_turn hook_dp [2] 20 0 = Ok (hs, c) /\ In h hs /\ n_rng h = Rng 0 2 /\
    ~ In 1 (simple_set hs) /\
    flt (f_of_Z 8) (toy_ptseg (P2 0 0) (P2 1 2) (P2 10 1)) = true /\ o_threshold hook_opts = f_of_Z 2.
Proof.
  split; [exact exW_ok|]. split; [exact hook_ok|]. split; [split; [vm_compute; reflexivity|constructor]|].
  destruct (simplify exW in_turn hook_dp [2] 20 0) as [[hs c]| |] eqn:E; vm_compute in E; try discriminate.
  injection E as <- <-.
  do 2 eexists. eexists. split; [reflexivity|]. split; [left; reflexivity|]. split; [reflexivity|].
  split; [vm_compute; intuition discriminate|]. split; vm_compute; reflexivity.
Qed.

(** ** C31 *)

(** The two hulls have no common end vertex, and are close in both orders. *)
Definition hull_seg (x : node) : geometry := GSeg (cfirst (n_coords x)) (clast (n_coords x)).
Definition hull_line (x : node) : geometry := GLine (cpts (n_coords x)).
Definition disjoint_ends (L : geomlib) (x y : node) : Prop :=
  rJ (n_rng x) <> rI (n_rng y) /\ rJ (n_rng y) <> rI (n_rng x) /\
  forall p q, In p [cfirst (n_coords x); clast (n_coords x)] -> In q [cfirst (n_coords y); clast (n_coords y)] ->
    gl_eq2d L p q = false /\ gl_eq2d L q p = false.
(** Geometric consistency of the library on two hulls that meet: the predicates are symmetric,
    their bounding boxes overlap and their distance is within the tolerance. *)
Record meeting_hulls (L : geomlib) (x y : node) : Prop := {
  mh_geom : gl_isect L (n_geom x) (n_geom y) = true /\ gl_isect L (n_geom y) (n_geom x) = true;
  mh_box : boxes_meet (n_mbr x) (n_mbr y) = true /\ boxes_meet (n_mbr y) (n_mbr x) = true;
  mh_dist : fle (gl_dist L (n_geom x) (n_geom y)) epsilon_dist = true /\ fle (gl_dist L (n_geom y) (n_geom x)) epsilon_dist = true;
  mh_seg : gl_isect L (hull_seg x) (hull_seg y) = gl_isect L (hull_seg y) (hull_seg x);
  mh_line : gl_isect L (hull_line x) (hull_line y) = gl_isect L (hull_line y) (hull_line x)
}.

Lemma no_common_contig L x y l :
  (forall p q, In p [cfirst (n_coords x); clast (n_coords x)] -> In q [cfirst (n_coords y); clast (n_coords y)] ->
     gl_eq2d L p q = false) ->
  contig_loop L x y l false = false.
Proof.
  intros K. induction l as [|p l IH]; [reflexivity|]. cbn [contig_loop].
  assert (ends_meet L x y = false) as -> by (unfold ends_meet; rewrite !K by (cbn [In]; auto); reflexivity).
  destruct (_ || _); cbv iota; exact IH.
Qed.

Lemma final_pair_settled W ord self constraints verts fuel ctr hs ctr' x y :
  libs_ok W -> any_order ord -> line_ok (w_geom W) self -> built_from W self constraints ->
  Forall (fun k => 0 <= k < zlen (c_pts self)) verts ->
  (2 * length (c_pts self) - 3 < fuel)%nat ->
  o_avoid_self (c_opts self) = true ->
  simplify W ord self verts fuel ctr = Ok (hs, ctr') ->
  In x hs -> In y hs -> x <> y -> examined x -> examined y ->
  disjoint_ends (w_geom W) x y -> meeting_hulls (w_geom W) x y ->
  let cand := non_contiguous_candidates (w_geom W) (o_non_planar_displacement (c_opts self)) in
  ~ (cand x y <> (None, None) /\ cand y x <> (None, None)).
Proof.
  intros HW Ho Hl Hb Hv Hf Hav E Hx Hy Hne [X1 X2] [Y1 Y2] (A1 & A2 & Hends) [[G1 G2] [B1 B2] [D1 D2] _ _].
  cbv zeta. set (L := w_geom W) in *.
  pose proof (one_setting W self constraints (fun _ => True) HW Hl Hb (fun _ => I)) as St.
  destruct (simplify_spec W self _ ord Ho St (lk_two _ _ Hl) (lk_splits _ _ Hl) verts fuel ctr Hv Hf)
    as (hs0 & ctr0 & E0 & Hi & _ & Hpairs & _).
  rewrite E in E0. injection E0 as <- <-.
  pose proof (line_hull _ _ _ _ _ _ Hi Hx) as Kx. pose proof (line_hull _ _ _ _ _ _ Hi Hy) as Ky.
  assert (Bx : big x) by (split; [destruct Kx as (_ & K & _); unfold rsize; lia|exact X2]).
  assert (By : big y) by (split; [destruct Ky as (_ & K & _); unfold rsize; lia|exact Y2]).
  assert (Hid : n_id x <> n_id y) by (intros K; apply Hne; apply (inv_id_inj _ _ _ _ _ _ _ _ Hi Hx Hy K)).
  assert (Nxy : nearby L epsilon_dist x y = true).
  { unfold nearby. rewrite B1, D2. cbn [andb]. rewrite andb_true_r. apply negb_true_iff, Z.eqb_neq. auto. }
  assert (Nyx : nearby L epsilon_dist y x = true).
  { unfold nearby. rewrite B2, D1. cbn [andb]. rewrite andb_true_r. apply negb_true_iff, Z.eqb_neq. auto. }
  assert (Hpc : forall a b, gl_isect L (n_geom a) (n_geom b) = true ->
     (forall p q, In p [cfirst (n_coords a); clast (n_coords a)] -> In q [cfirst (n_coords b); clast (n_coords b)] ->
        gl_eq2d L p q = false) ->
     pair_candidates L (o_non_planar_displacement (c_opts self)) false a b =
     Ok (non_contiguous_candidates L (o_non_planar_displacement (c_opts self)) a b)).
  { intros a b K1 K2. unfold pair_candidates, is_contiguous. cbn [negb orb]. rewrite K1. cbv zeta.
    rewrite no_common_contig by exact K2. reflexivity. }
  intros [U1 U2]. destruct (Hpairs Hav) as (age & Hk).
  assert (Hn : y <> x) by auto.
  destruct (Hk x y Hx Hy Hne Bx (conj A1 A2) Nxy) as [K|K].
  - fold L in K. rewrite Hpc in K; [congruence|exact G1|intros p q Hp Hq; apply (Hends p q); auto].
  - destruct (Hk y x Hy Hx Hn By (conj A2 A1) Nyx) as [K'|K']; [|lia].
    fold L in K'. rewrite Hpc in K'; [congruence|exact G2|intros p q Hp Hq; apply (Hends q p); auto].
Qed.

(** Two examined final hulls with no common end do not cross anew: if the segments that
    replace them meet, and one of the segments also meets the other's old line, then the old
    lines already met. *)
Theorem C31_no_new_crossing_partial :
  forall (W : world) ord (self : cdp) constraints verts fuel ctr hs ctr',
  libs_ok W -> any_order ord -> line_ok (w_geom W) self -> built_from W self constraints ->
  Forall (fun k => 0 <= k < zlen (c_pts self)) verts ->
  (2 * length (c_pts self) - 3 < fuel)%nat ->
  o_avoid_self (c_opts self) = true ->
  simplify W ord self verts fuel ctr = Ok (hs, ctr') ->
  let L := w_geom W in
  forall x y, In x hs -> In y hs -> x <> y -> examined x -> examined y ->
  disjoint_ends L x y -> meeting_hulls L x y ->
  gl_isect L (hull_seg x) (hull_seg y) = true ->
  gl_isect L (hull_seg x) (hull_line y) = true \/ gl_isect L (hull_seg y) (hull_line x) = true ->
  gl_isect L (hull_line x) (hull_line y) = true.
Proof.
  intros W ord self cs verts fuel ctr hs ctr' HW Ho Hl Hb Hv Hf Hav E L x y Hx Hy Hne Ex Ey Hd Hm Hss Hsl.
  destruct (gl_isect L (hull_line x) (hull_line y)) eqn:Ell; [reflexivity|]. exfalso.
  apply (final_pair_settled W ord self cs verts fuel ctr hs ctr' x y HW Ho Hl Hb Hv Hf Hav E Hx Hy Hne Ex Ey Hd Hm).
  pose proof (mh_seg _ _ _ Hm) as Ms. pose proof (mh_line _ _ _ Hm) as Ml. fold L in Ms, Ml. rewrite Hss in Ms. rewrite Ell in Ml.
  unfold non_contiguous_candidates.
  change (n_seg x) with (hull_seg x). change (n_seg y) with (hull_seg y).
  change (n_line x) with (hull_line x). change (n_line y) with (hull_line y). fold L.
  rewrite Hss, Ell, <- Ms, <- Ml. cbn [negb andb]. rewrite !andb_true_r.
  destruct (gl_isect L (hull_seg x) (hull_line y)), (gl_isect L (hull_seg y) (hull_line x)); split; try discriminate;
    destruct Hsl; discriminate.
Qed.

(** A crossing the old lines already had is kept, within the allowed displacement: if the old
    lines meet in some point then so do the segments, and every meeting point of the segments
    is within the displacement of every meeting point of the lines. *)
Theorem C31_old_crossings_stay_near_partial :
  forall (W : world) ord (self : cdp) constraints verts fuel ctr hs ctr',
  libs_ok W -> any_order ord -> line_ok (w_geom W) self -> built_from W self constraints ->
  Forall (fun k => 0 <= k < zlen (c_pts self)) verts ->
  (2 * length (c_pts self) - 3 < fuel)%nat ->
  o_avoid_self (c_opts self) = true ->
  simplify W ord self verts fuel ctr = Ok (hs, ctr') ->
  let L := w_geom W in
  forall x y, In x hs -> In y hs -> x <> y -> examined x -> examined y ->
  disjoint_ends L x y -> meeting_hulls L x y ->
  Permutation (gl_inter L (hull_seg x) (hull_seg y)) (gl_inter L (hull_seg y) (hull_seg x)) ->
  Permutation (gl_inter L (hull_line x) (hull_line y)) (gl_inter L (hull_line y) (hull_line x)) ->
  gl_isect L (hull_line x) (hull_line y) = true ->
  gl_inter L (hull_line x) (hull_line y) <> [] ->
  gl_inter L (hull_seg x) (hull_seg y) <> [] /\
  forall p q, In p (gl_inter L (hull_line x) (hull_line y)) -> In q (gl_inter L (hull_seg x) (hull_seg y)) ->
    fgt (gl_ptdist L p q) (o_non_planar_displacement (c_opts self)) = false.
Proof.
  intros W ord self cs verts fuel ctr hs ctr' HW Ho Hl Hb Hv Hf Hav E L x y Hx Hy Hne Ex Ey Hd Hm Ps Pl Hll Hpt.
  pose proof (final_pair_settled W ord self cs verts fuel ctr hs ctr' x y HW Ho Hl Hb Hv Hf Hav E Hx Hy Hne Ex Ey Hd Hm) as K.
  cbv zeta in K. fold L in K.
  pose proof (mh_line _ _ _ Hm) as Ml. fold L in Ml. rewrite Hll in Ml.
  assert (Hcand : forall a b, gl_isect L (hull_line a) (hull_line b) = true -> gl_inter L (hull_line a) (hull_line b) <> [] ->
    (gl_inter L (hull_seg a) (hull_seg b) = [] \/
     exists p q, In p (gl_inter L (hull_line a) (hull_line b)) /\ In q (gl_inter L (hull_seg a) (hull_seg b)) /\
       fgt (gl_ptdist L p q) (o_non_planar_displacement (c_opts self)) = true) ->
    non_contiguous_candidates L (o_non_planar_displacement (c_opts self)) a b <> (None, None)).
  { intros a b H1 H2 H3. unfold non_contiguous_candidates.
    change (n_seg a) with (hull_seg a). change (n_seg b) with (hull_seg b).
    change (n_line a) with (hull_line a). change (n_line b) with (hull_line b).
    rewrite H1. cbn [negb]. rewrite !andb_false_r.
    destruct ((zlen (gl_inter L (hull_seg a) (hull_seg b)) =? 0) && (0 <? zlen (gl_inter L (hull_line a) (hull_line b)))) eqn:Ez;
      [discriminate|].
    destruct H3 as [H3|(p & q & H4 & H5 & H6)].
    - exfalso. rewrite H3 in Ez. destruct (gl_inter L (hull_line a) (hull_line b)); [contradiction|].
      unfold zlen in Ez. cbn [length andb Z.of_nat Z.eqb] in Ez. apply Z.ltb_ge in Ez. lia.
    - assert (existsb (fun p => existsb (fun q => fgt (gl_ptdist L p q) (o_non_planar_displacement (c_opts self)))
        (gl_inter L (hull_seg a) (hull_seg b))) (gl_inter L (hull_line a) (hull_line b)) = true) as ->; [|discriminate].
      apply existsb_exists. exists p. split; [exact H4|]. apply existsb_exists. exists q. auto. }
  assert (Hboth : ~ (gl_inter L (hull_seg x) (hull_seg y) = [] \/
     exists p q, In p (gl_inter L (hull_line x) (hull_line y)) /\ In q (gl_inter L (hull_seg x) (hull_seg y)) /\
       fgt (gl_ptdist L p q) (o_non_planar_displacement (c_opts self)) = true)).
  { intros B. apply K. split; [apply Hcand; auto|]. apply Hcand; auto.
    - intros Z. rewrite Z in Pl. apply Permutation_sym, Permutation_nil in Pl. contradiction.
    - destruct B as [B|(p & q & B1 & B2 & B3)].
      + left. rewrite B in Ps. apply Permutation_nil in Ps. exact Ps.
      + right. exists p, q. split; [apply (Permutation_in _ Pl B1)|]. split; [apply (Permutation_in _ Ps B2)|exact B3]. }
  split.
  - intros Z. apply Hboth. left; exact Z.
  - intros p q Hp Hq. destruct (fgt _ _) eqn:Ef; [|reflexivity]. exfalso. apply Hboth. right. eauto.
Qed.

(** Two hulls that cross, old and new: the crossing moves by less than 5. *)
Definition cross : list point :=
  [P2 0 0; P2 4 2; P2 20 2; P2 32 0; P2 16 16; P2 12 10; P2 12 (-6); P2 16 (-16)].
Definition cross_opts (d : Z) : opts := Opts (f_of_Z 5) fzero (f_of_Z d) false false true false false false.
Definition cross_dp (d : Z) : cdp := Cdp 7 cross (cross_opts d) toy_score None new_hdb_default.
Lemma cross_ok d : line_ok toy (cross_dp d).
Proof. line_ok_compute (f_of_Z 5). Qed.

Example C31_case :
  libs_ok exW /\ line_ok toy (cross_dp 5) /\ built_from exW (cross_dp 5) [] /\
  match simplify exW in_turn (cross_dp 5) [] 20 0 with
  | Ok ([x; y; z], _) =>
    n_rng x = Rng 0 3 /\ n_rng y = Rng 4 7 /\
    examined x /\ examined y /\ disjoint_ends toy x y /\ meeting_hulls toy x y /\
    gl_isect toy (hull_seg x) (hull_seg y) = true /\ gl_isect toy (hull_seg x) (hull_line y) = true /\
    gl_inter toy (hull_line x) (hull_line y) = [P2 12 2] /\ gl_inter toy (hull_line y) (hull_line x) = [P2 12 2] /\
    gl_inter toy (hull_seg x) (hull_seg y) = [P2 16 0] /\ gl_inter toy (hull_seg y) (hull_seg x) = [P2 16 0]
  | _ => False
  end /\
  (* with a displacement of 4 the crossing hulls are split up *)
  match simplify exW in_turn (cross_dp 4) [] 20 0 with Ok (hs, _) => (3 < length hs)%nat | _ => False end.
Proof.
  split; [exact exW_ok|]. split; [apply cross_ok|]. split; [split; [vm_compute; reflexivity|constructor]|]. split.
  - destruct (simplify exW in_turn (cross_dp 5) [] 20 0) as [[hs c]| |] eqn:E; vm_compute in E; try discriminate E.
    injection E as <- <-. split; [reflexivity|]. split; [reflexivity|].
    split; [split; vm_compute; congruence|]. split; [split; vm_compute; congruence|]. split.
    { split; [vm_compute; congruence|]. split; [vm_compute; congruence|].
      intros p q [<- |[<- |[]]] [<- |[<- |[]]]; vm_compute; split; reflexivity. }
    split; [split; vm_compute; try split; reflexivity|]. vm_compute. repeat split; reflexivity.
  - vm_compute. lia.
Qed.

(** The guarantee stops at hulls that are not examined.  Here the option is on, the old line
    does not meet itself, and the simplified one does: the piece 3..5 is split into single
    segments by a constraint after the piece 0..2 has been accepted, and nothing looks at
    the single segments again. *)
Definition spike : list point := [P2 0 0; P2 10 10; P2 200 (-5); P2 208 (-100); P2 10 5; P2 8 (-10)].
Definition spike_opts : opts := Opts (f_of_Z 20) fzero fzero false false true true false false.
Definition spike_ctx : list geometry := [GPoint (P2 28 (-19))].
Definition spike_db : hdb := Eval vm_compute in get new_hdb_default (build_context_db toy plain_oracle 7 spike_ctx).
Definition spike_dp : cdp := Cdp 7 spike spike_opts toy_score None spike_db.

Theorem C31_new_crossing_refuted :
  libs_ok exW /\ line_ok toy spike_dp /\ built_from exW spike_dp spike_ctx /\ o_avoid_self spike_opts = true /\
  (* segments of the old line that are not neighbours do not meet *)
  (forall i j, 0 <= i -> i + 1 < j -> j < 5 ->
     gl_isect toy (GSeg (nth (Z.to_nat i) spike origin) (nth (Z.to_nat (i + 1)) spike origin))
                  (GSeg (nth (Z.to_nat j) spike origin) (nth (Z.to_nat (j + 1)) spike origin)) = false) /\
  match simplify exW in_turn spike_dp [] 20 0 with
  | Ok (hs, _) =>
    simple_set hs = [0; 2; 3; 4; 5] /\
    gl_isect toy (GSeg (P2 0 0) (P2 200 (-5))) (GSeg (P2 10 5) (P2 8 (-10))) = true
  | _ => False
  end.
Proof.
  split; [exact exW_ok|]. split; [line_ok_compute (f_of_Z 20)|]. split.
  { split; [vm_compute; reflexivity|]. constructor; [|constructor]. vm_compute. repeat split; try reflexivity; discriminate. }
  split; [reflexivity|]. split.
  - intros i j A B C. assert (Hi : i = 0 \/ i = 1 \/ i = 2) by lia. assert (Hj : j = 2 \/ j = 3 \/ j = 4) by lia.
    destruct Hi as [-> |[-> | ->]], Hj as [-> |[-> | ->]]; try lia; vm_compute; reflexivity.
  - vm_compute. split; reflexivity.
Qed.

(** C29 is about examined hulls for a reason: a collinear hull is never checked.  The old
    line turns back on itself and passes through the constraint; its replacement does not. *)
Definition back : list point := [P2 0 0; P2 10 0; P2 5 0].
Definition back_opts : opts := Opts (f_of_Z 100) fzero fzero false false false true true true.
Definition back_ctx : list geometry := [GPoint (P2 8 0)].
Definition back_db : hdb := Eval vm_compute in get new_hdb_default (build_context_db toy plain_oracle 7 back_ctx).
Definition back_dp : cdp := Cdp 7 back back_opts toy_score None back_db.
Theorem C29_collinear_refuted :
  libs_ok exW /\ line_ok toy back_dp /\ built_from exW back_dp back_ctx /\ o_geom back_opts = true /\
  match simplify exW in_turn back_dp [] 20 0 with
  | Ok ([h], _) => n_rng h = Rng 0 2 /\ ~ geom_relation_holds toy h back_ctx
  | _ => False
  end.
Proof.
  split; [exact exW_ok|]. split; [line_ok_compute (f_of_Z 100)|]. split.
  { split; [vm_compute; reflexivity|]. constructor; [|constructor]. vm_compute. repeat split; try reflexivity; discriminate. }
  split; [reflexivity|].
  destruct (simplify exW in_turn back_dp [] 20 0) as [[hs c]| |] eqn:E; vm_compute in E; try discriminate E.
  injection E as <- <-. split; [reflexivity|]. intros K. specialize (K _ (or_introl eq_refl)). vm_compute in K. discriminate.
Qed.

(** ** C32 *)

Theorem C32_aggregation_safe :
  forall (W : world) (self : cdp) constraints cvs hs db ctr,
  libs_ok W -> line_ok (w_geom W) self -> built_from W self constraints ->
  tiling 0 (zlen (c_pts self) - 1) (map n_rng hs) ->
  Forall (fresh_hull (w_geom W) (c_pts self) (c_id self)) hs ->
  NoDup (map n_id hs) ->
  (forall h, In h hs -> exists k, (k < ctr)%nat /\ n_id h = w_gen W k) ->
  load (w_hdb W) new_hdb_default hs = Ok db ->
  exists db' ctr' out,
    (* it ends without a panic: no empty list is indexed *)
    aggregate W self cvs (node_sort hs) db [] [] ctr = Ok (db', ctr') /\ all db' = Ok out /\
    (* the tiling is preserved *)
    tiling 0 (zlen (c_pts self) - 1) (map n_rng out) /\
    Forall (fun h => hull_of (c_pts self) h /\ n_inst h = c_id self) out /\
    (* vertices are only dropped, and never a constrained one *)
    (forall k, In k (simple_set out) -> In k (simple_set hs)) /\
    (forall k, In k cvs -> In k (simple_set hs) -> In k (simple_set out)) /\
    (* a hull that was not there before passed the score relation and the validation *)
    (forall h, In h out -> In h hs \/
       (dp_relation (o_threshold (c_opts self)) (c_sq self) (snd (dp_score (c_score self) (c_sq self) (n_coords h))) = true /\
        exists db0, validate_merge W self db0 h = Ok true)).
Proof.
  intros W self cs cvs hs db ctr HW Hl Hb Ht Hf Hnd Hid Hdb.
  pose proof (one_setting W self cs (fun _ => True) HW Hl Hb (fun _ => I)) as St.
  assert (Hinst : Forall (fun h => n_inst h = c_id self) hs).
  { eapply Forall_impl; [|exact Hf]. intros h Hh. apply Hh. }
  assert (Hi : bag_inv (w_geom W) (lines_of (fun _ => self)) [c_id self] (Src (w_gen W) (fun _ => True)) ctr hs).
  { split.
    - apply Forall_forall. intros h Hh. rewrite Forall_forall in Hf, Hinst. unfold proper.
      rewrite (Hinst h Hh). apply Hf, Hh.
    - eapply Forall_impl; [|exact Hinst]. intros h ->. left; reflexivity.
    - intros i [<- |[]]. rewrite of_inst_same by exact Hinst. exact Ht.
    - exact Hnd.
    - intros h k Hh Hk E. destruct (Hid h Hh) as (j & Hj & Ej). cbn [s_gen] in E. rewrite Ej in E.
      apply (lb_ids _ HW) in E. lia.
    - apply Forall_forall. intros; exact I. }
  assert (Hg : Forall good_item hs).
  { apply Forall_forall. intros h Hh. eapply line_good; [exact St|exact Hi|exact Hh]. }
  destruct (holds_load (w_hdb W) new_hdb_default [] hs (lb_rtree _ HW) holds_new Hg) as (t & Et & Hh0).
  rewrite Hdb in Et. injection Et as <-. cbn [app] in Hh0.
  destruct (aggregate_spec W self _ St cvs (length (node_sort hs)) (node_sort hs) db hs [] [] ctr 0) as (db' & ctr' & b' & E & A & B); auto.
  - intros h Hh. apply (Permutation_in _ (Permutation_sym (node_sort_perm hs))), Hh.
  - apply node_sort_chain. exact Ht.
  - destruct (holds_all _ _ A) as (out & Eo & Hp).
    assert (Hio : bag_inv (w_geom W) (lines_of (fun _ => self)) [c_id self] (Src (w_gen W) (fun _ => True)) ctr' out).
    { eapply inv_perm; [symmetry; exact Hp|]. apply B. }
    assert (Hcut : forall bag k, Forall (fun h => n_inst h = c_id self) bag -> (In k (simple_set bag) <-> cut_at bag (c_id self) k)).
    { intros bag k Hbag. unfold simple_set. rewrite (proj2 (point_set_spec bag) k). rewrite Forall_forall in Hbag. split.
      - intros (h & Hh & Hk). exists h. split; [exact Hh|]. split; [apply Hbag, Hh|]. destruct Hk; auto.
      - intros (h & Hh & _ & Hk). exists h. split; [exact Hh|]. destruct Hk; auto. }
    assert (Hinst' : Forall (fun h => n_inst h = c_id self) out).
    { apply Forall_forall. intros h Hh. eapply line_inst; eauto. }
    exists db', ctr', out. split; [exact E|]. split; [exact Eo|]. split; [eapply line_tiles; eauto|]. split.
    { apply Forall_forall. intros h Hh. split; [eapply line_hull; eauto|eapply line_inst; eauto]. }
    split; [|split].
    + intros k Hk. apply Hcut in Hk; auto. apply Hcut; auto. apply (s_old _ _ _ _ _ _ _ _ B).
      eapply cut_perm; [exact Hp|exact Hk].
    + intros k Hc Hk. apply Hcut in Hk; auto. apply Hcut; auto. eapply cut_perm; [symmetry; exact Hp|].
      apply (s_cut _ _ _ _ _ _ _ _ B); auto.
    + intros h Hh. destruct (s_new _ _ _ _ _ _ _ _ B h (Permutation_in _ Hp Hh)) as [K|(K1 & _ & K2)]; auto.
Qed.

(** Five single segments; vertex 2 is constrained: the rest is merged on either side of it. *)
Definition flat6 : list point := [P2 0 0; P2 5 1; P2 10 0; P2 15 1; P2 20 0; P2 25 1].
Definition flat_opts : opts := Opts (f_of_Z 3) fzero fzero false false true true true true.
Definition flat_dp : cdp := Cdp 7 flat6 flat_opts toy_score None new_hdb_default.
Definition flat_hs : list node :=
  map (fun k => create_node toy (ex_gen k) (sub_coords flat6 (Rng (Z.of_nat k) (Z.of_nat k + 1))) (Rng (Z.of_nat k) (Z.of_nat k + 1)) 7) (seq 0 5).
Example C32_case :
  line_ok toy flat_dp /\ built_from exW flat_dp [] /\ tiling 0 (zlen flat6 - 1) (map n_rng flat_hs) /\
  Forall (fresh_hull toy flat6 7) flat_hs /\ NoDup (map n_id flat_hs) /\
  match load plain_oracle new_hdb_default flat_hs with
  | Ok db =>
    match aggregate exW flat_dp [2] (node_sort flat_hs) db [] [] 5 with
    | Ok (db', _) => match all db' with Ok out => simple_set out = [0; 2; 5] | _ => False end
    | _ => False
    end
  | _ => False
  end.
Proof.
  split; [line_ok_compute (f_of_Z 3)|]. split; [split; [vm_compute; reflexivity|constructor]|].
  split; [apply tiling_chain; vm_compute; repeat split; reflexivity|]. split.
  - unfold flat_hs. cbn [seq map]. repeat (apply Forall_cons; [vm_compute; repeat split; try reflexivity; discriminate|]). constructor.
  - split; [vm_compute; repeat constructor; cbn; intuition discriminate|]. vm_compute. reflexivity.
Qed.

(** ** C33 *)

Lemma sorted_unique (l l' : list Z) : StronglySorted Z.le l -> StronglySorted Z.le l' -> Permutation l l' -> l = l'.
Proof.
  revert l'. induction l as [|x l IH]; intros l' S1 S2 P.
  - apply Permutation_nil in P. auto.
  - destruct l' as [|y l']; [symmetry in P; apply Permutation_nil in P; discriminate|].
    inversion S1 as [|? ? A1 A2]; inversion S2 as [|? ? B1 B2]; subst.
    assert (x = y).
    { assert (In x (y :: l')) by (apply (Permutation_in _ P); left; auto).
      assert (In y (x :: l)) by (apply (Permutation_in _ (Permutation_sym P)); left; auto).
      rewrite Forall_forall in A2, B2.
      destruct H as [H|H]; auto. destruct H0 as [H0|H0]; auto. specialize (A2 y H0). specialize (B2 x H). lia. }
    subst y. f_equal. apply IH; auto. apply Permutation_cons_inv in P. exact P.
Qed.

Theorem C33_cache_keys_distinct :
  forall a b c d : node,
  (* two pairs of neighbours on one line *)
  n_inst a = n_inst b -> n_inst c = n_inst a -> n_inst d = n_inst a ->
  rI (n_rng a) < rJ (n_rng a) -> rJ (n_rng a) = rI (n_rng b) -> rI (n_rng b) < rJ (n_rng b) ->
  rI (n_rng c) < rJ (n_rng c) -> rJ (n_rng c) = rI (n_rng d) -> rI (n_rng d) < rJ (n_rng d) ->
  const_key a b = const_key c d ->
  n_rng a = n_rng c /\ n_rng b = n_rng d.
Proof.
  intros a b c d E1 E2 E3 A1 A2 A3 B1 B2 B3 K. unfold const_key in K.
  assert (P : Permutation [rI (n_rng a); rJ (n_rng a); rI (n_rng b); rJ (n_rng b); n_inst a; n_inst b]
                          [rI (n_rng c); rJ (n_rng c); rI (n_rng d); rJ (n_rng d); n_inst c; n_inst d]).
  { rewrite (zsort_perm [_;_;_;_;n_inst a;_]), (zsort_perm [_;_;_;_;n_inst c;_]), K. reflexivity. }
  rewrite <- E1, E2, E3, <- A2, <- B2 in P.
  change [rI (n_rng a); rJ (n_rng a); rJ (n_rng a); rJ (n_rng b); n_inst a; n_inst a]
    with ([rI (n_rng a); rJ (n_rng a); rJ (n_rng a); rJ (n_rng b)] ++ [n_inst a; n_inst a]) in P.
  change [rI (n_rng c); rJ (n_rng c); rJ (n_rng c); rJ (n_rng d); n_inst a; n_inst a]
    with ([rI (n_rng c); rJ (n_rng c); rJ (n_rng c); rJ (n_rng d)] ++ [n_inst a; n_inst a]) in P.
  apply Permutation_app_inv_r in P.
  assert (S1 : StronglySorted Z.le [rI (n_rng a); rJ (n_rng a); rJ (n_rng a); rJ (n_rng b)]).
  { repeat constructor; lia. }
  assert (S2 : StronglySorted Z.le [rI (n_rng c); rJ (n_rng c); rJ (n_rng c); rJ (n_rng d)]).
  { repeat constructor; lia. }
  pose proof (sorted_unique _ _ S1 S2 P) as Q. injection Q as Q1 Q2 _ Q3.
  destruct (n_rng a) as [a0 a1], (n_rng b) as [b0 b1], (n_rng c) as [c0 c1], (n_rng d) as [d0 d1]. cbn [rI rJ] in *. subst. split; reflexivity.
Qed.

Definition key_hull (i j inst : Z) : node := create_node toy 0 (sub_coords zig (Rng i j)) (Rng i j) inst.
Example C33_case :
  const_key (key_hull 0 1 7) (key_hull 1 3 7) <> const_key (key_hull 0 2 7) (key_hull 2 3 7) /\
  (* pairs that are not neighbours can collide *)
  const_key (key_hull 0 1 7) (key_hull 2 3 7) = const_key (key_hull 0 2 7) (key_hull 1 3 7).
Proof. vm_compute. split; [discriminate|reflexivity]. Qed.

(** ** C34 *)

Theorem C34_features_stay_separate :
  forall (W : world) (gens : Z -> idgen) (ords : Z -> nat -> list node -> list node) (ord : nat -> list node -> list node)
    (env : Z -> cdp) (selfs : list cdp) (o : opts) (fuel : nat),
  libs_ok W -> (forall i, any_order (ords i)) -> any_order ord ->
  (* features have different ids, and hull ids are never shared *)
  NoDup (map c_id selfs) -> (forall s, In s selfs -> env (c_id s) = s) ->
  (forall i j k l, gens i k = gens j l -> i = j /\ k = l) -> (forall i k l, w_gen W k <> gens i l) ->
  (forall s, In s selfs -> line_ok (w_geom W) s /\ exists constraints, built_from W s constraints) ->
  (* the vertices are numbers compared by location, sorted by the library *)
  let fc := map (fun s => (c_id s, c_pts s)) selfs in
  sorts (lo_sort (w_lnr W)) -> Forall num_pt (class_points fc) ->
  (forall p q, In p (class_points fc) -> In q (class_points fc) -> gl_eq2d (w_geom W) p q = loc_eq p q) ->
  (* enough fuel: twice the number of vertices of the class and a bit *)
  (2 * length (class_points fc) + 2 <= fuel)%nat ->
  exists out, simplify_feature_class W gens ords ord env selfs o fuel = Ok out /\
    map fst out = selfs /\
    forall s hs, In (s, hs) out ->
      let pts := c_pts s in
      tiling 0 (zlen pts - 1) (map n_rng hs) /\
      Forall (fun h => hull_of pts h /\ n_inst h = c_id s) hs /\
      increasing (simple_set hs) /\ hd (-1) (simple_set hs) = 0 /\ last (simple_set hs) (-1) = zlen pts - 1 /\
      Forall (fun k => 0 <= k < zlen pts) (simple_set hs).
Proof.
  intros W gens ords ord env selfs o fuel HW Ho1 Ho2 Hnd Henv Hg1 Hg2 Hl fc Hs Hn He Hf.
  assert (Hlen : forall l, incl l selfs -> forall s, In s l -> (length (c_pts s) <= length (class_points (map (fun s => (c_id s, c_pts s)) l)))%nat).
  { induction l as [|x l IH]; intros Hsub s; [intros []|]. unfold class_points. cbn [map flat_map snd]. rewrite app_length.
    intros [<- |Hin]; [lia|]. specialize (IH (fun y Hy => Hsub y (or_intror Hy)) s Hin). unfold class_points in IH. lia. }
  assert (Hcap : forall l, incl l selfs -> (Z.to_nat (capacity (lines_of env) (map c_id l)) <= length (class_points (map (fun s => (c_id s, c_pts s)) l)))%nat
     /\ 0 <= capacity (lines_of env) (map c_id l)).
  { induction l as [|x l IH]; intros Hsub; [cbn; lia|]. unfold capacity, class_points. cbn [map fold_right flat_map snd].
    rewrite app_length. destruct (IH (fun y Hy => Hsub y (or_intror Hy))) as [I1 I2]. unfold capacity, class_points in I1, I2.
    unfold lines_of at 1 3. rewrite (Henv x) by (apply Hsub; left; auto).
    assert (Hx : In x selfs) by (apply Hsub; left; auto). destruct (Hl x Hx) as [Kx _]. pose proof (lk_two _ _ Kx) as K2.
    set (q := fold_right _ _ _) in *. change (zlen (c_pts x)) with (Z.of_nat (length (c_pts x))). lia. }
  destruct (class_spec W gens ords ord env selfs HW Ho1 Ho2 Hnd Henv Hl Hg1 Hg2 o fuel) as (out & done & E & _ & F & _).
  - intros s Hin. destruct (o_planar_self o); [|constructor]. fold fc. apply Forall_forall. intros k Hk.
    destruct (C17_junctions_partial (w_geom W) (lo_sort (w_lnr W)) fc Hs) with (fid := c_id s) as [_ K]; auto.
    { unfold fc. rewrite map_map. exact Hnd. }
    apply K in Hk. destruct Hk as (p & (pts & Hp & Hq) & _).
    unfold fc in Hp. apply in_map_iff in Hp. destruct Hp as (s' & Es & Hs'). injection Es as E1 E2.
    assert (s' = s) by (rewrite <- (Henv s' Hs'), <- (Henv s Hin), E1; reflexivity). subst s'. subst pts.
    unfold znth in Hq. destruct (k <? 0) eqn:Ek; [discriminate|]. apply Z.ltb_ge in Ek.
    assert (nth_error (c_pts s) (Z.to_nat k) <> None) as Hne by congruence. apply nth_error_Some in Hne. unfold zlen. lia.
  - intros s Hin. specialize (Hlen selfs (fun x H => H) s Hin). fold fc in Hlen. lia.
  - destruct (Hcap selfs (fun x H => H)) as [K _]. fold fc in K. lia.
  - exists out. split; [exact E|]. split.
    + clear - F. induction F as [|s r l l' (K & _) F IH]; cbn [map]; [reflexivity|]. rewrite K, IH. reflexivity.
    + intros s hs Hin pts. destruct (Forall2_in_r _ _ _ _ F Hin) as (s' & Hs' & K1 & K2 & K3 & K4). cbn [fst snd] in *. subst s'.
      split; [exact K4|]. split.
      { apply Forall_forall. intros h Hh. rewrite Forall_forall in K2, K3. split; [apply (K2 h Hh)|apply (K3 h Hh)]. }
      destruct (Hl s Hs') as [Ks _]. exact (point_set_tiling hs pts (lk_two _ _ Ks) K4).
Qed.

(** Two features that meet at the end vertex (0, 0), which is a vertex inside the second. *)
Definition zcode (i : Z) : nat := Z.to_nat (if i <? 0 then - 2 * i - 1 else 2 * i).
Definition ex_gens (i : Z) (k : nat) : Z := - 1 - Z.of_nat (Cantor.to_nat (zcode i, k)).
Definition fc_opts : opts := Opts (f_of_Z 10) (f_of_Z 1) fzero true false true true true true.
Definition feat1 : cdp := Cdp 7 zig fc_opts toy_score None zig_db.
Definition feat2_pts : list point := [P2 (-9) 9; P2 0 0; P2 (-9) (-10)].
Definition feat2_db : hdb := Eval vm_compute in get new_hdb_default (build_context_db toy plain_oracle 8 zig_ctx).
Definition feat2 : cdp := Cdp 8 feat2_pts fc_opts toy_score None feat2_db.
Definition ex_env (i : Z) : cdp := if i =? 7 then feat1 else feat2.
Example C34_case :
  let selfs := [feat1; feat2] in
  let fc := map (fun s => (c_id s, c_pts s)) selfs in
  libs_ok exW /\ NoDup (map c_id selfs) /\ (forall s, In s selfs -> ex_env (c_id s) = s) /\
  (forall i j k l, ex_gens i k = ex_gens j l -> i = j /\ k = l) /\ (forall i k l, w_gen exW k <> ex_gens i l) /\
  (forall s, In s selfs -> line_ok toy s /\ exists constraints, built_from exW s constraints) /\
  sorts (lo_sort (w_lnr exW)) /\ Forall num_pt (class_points fc) /\
  (forall p q, In p (class_points fc) -> In q (class_points fc) -> gl_eq2d toy p q = loc_eq p q) /\
  match simplify_feature_class exW ex_gens (fun _ => in_turn) in_turn ex_env selfs fc_opts 18 with
  | Ok out => map (fun r => simple_set (snd r)) out = [[0; 1; 4]; [0; 1; 2]]
  | _ => False
  end.
Proof.
  cbv zeta. split; [exact exW_ok|]. split; [repeat constructor; cbn; intuition discriminate|].
  split; [intros s [<- |[<- |[]]]; reflexivity|]. split.
  { intros i j k l E. unfold ex_gens in E.
    assert (E' : Cantor.to_nat (zcode i, k) = Cantor.to_nat (zcode j, l)) by lia.
    apply (f_equal Cantor.of_nat) in E'. rewrite !Cantor.cancel_of_to in E'. injection E' as E1 E2. split; [|exact E2].
    unfold zcode in E1. destruct (i <? 0) eqn:Ei, (j <? 0) eqn:Ej;
      rewrite ?Z.ltb_lt, ?Z.ltb_ge in *; lia. }
  split; [intros i k l; unfold exW, ex_gen, ex_gens; cbn [w_gen]; lia|]. split.
  { intros s [<- |[<- |[]]]; (split; [line_ok_compute (f_of_Z 10)|]); exists zig_ctx; (split; [vm_compute; reflexivity|]);
      (constructor; [|constructor]); vm_compute; repeat split; try reflexivity; discriminate. }
  split; [exact v_sort_sorts|]. split.
  { unfold class_points. cbn [flat_map map snd c_pts feat1 feat2 zig feat2_pts app].
    repeat (constructor; [split; vm_compute; reflexivity|]). constructor. }
  split; [|vm_compute; reflexivity].
  intros p q _ _. cbn [gl_eq2d toy]. reflexivity.
Qed.

Print Assumptions C26_simplify_keeps_a_subset.
Print Assumptions C27_split_loop_ends.
Print Assumptions C27_simplify_ends.
Print Assumptions C27_offset_scores.
Print Assumptions C28_constrained_vertices_survive.
Print Assumptions C28_shared_and_crossed_vertices_survive.
Print Assumptions C29_final_relations.
Print Assumptions C30_threshold_without_constraints_partial.
Print Assumptions C30_threshold_refuted.
Print Assumptions C31_no_new_crossing_partial.
Print Assumptions C31_old_crossings_stay_near_partial.
Print Assumptions C31_new_crossing_refuted.
Print Assumptions C29_collinear_refuted.
Print Assumptions C32_aggregation_safe.
Print Assumptions C33_cache_keys_distinct.
Print Assumptions C34_features_stay_separate.
