(** Constraining to self-intersections (C20, C21) and selections (C35). *)
From Verif Require Import M_Base M_Float M_Rng M_Geom M_Offset M_Node M_Decompose M_Split M_Hdb M_Knn M_Lnr M_Homotopy M_Relate
  M_Deform M_Constrain M_ConstDP Spec Spec_Hdb Spec_Relate Spec_Deform Spec_Lnr Spec_ConstDP
  P_Base P_Float P_Decompose P_Split P_Node P_Hdb P_HdbIns P_HdbLoad P_HdbHist P_Knn P_Homotopy P_Relate P_Db P_Bag
  P_Constrain P_Deform P_Conflict P_ConstDP P_Aggregate P_Simplify P_Class P_Lnr Toy Toy_Box Properties_Core Properties_Lnr
  Properties_Relate Properties_ConstDP.
Open Scope Z_scope.

(** ** C20 *)

Theorem C20_constrained_vertices_are_ends :
  forall (W : world) (self : cdp) constraints verts hs ctr,
  libs_ok W -> line_ok (w_geom W) self -> built_from W self constraints ->
  o_planar_self (c_opts self) = true ->
  Forall (fun k => 0 <= k < zlen (c_pts self)) verts ->
  (* the hulls tile the line in order and have fresh ids *)
  chain 0 (zlen (c_pts self) - 1) (map n_rng hs) ->
  Forall (fresh_hull (w_geom W) (c_pts self) (c_id self)) hs ->
  map n_id hs = map (w_gen W) (seq ctr (length hs)) ->
  exists hs' cvs ctr',
    to_self_intersects (w_geom W) (w_gen W) (w_hdb W) (w_pop W) (w_lnr W) hs (c_pts self) (c_opts self) verts
      (ctr + length hs) = Ok (hs', cvs, ctr') /\
    (* the hulls still tile the line, in order, and no end is lost *)
    chain 0 (zlen (c_pts self) - 1) (map n_rng hs') /\
    Forall (fresh_hull (w_geom W) (c_pts self) (c_id self)) hs' /\
    (forall k, In k (simple_set hs) -> In k (simple_set hs')) /\
    (* the vertex set is sorted, without duplicates, and exactly what was asked for *)
    increasing cvs /\
    (forall k, In k cvs <-> In k verts \/ exists c, In c (self_intersections W self) /\ In k (snd c)) /\
    (* every such vertex is a hull end *)
    ((let forced := self_intersections W self ++ map (fun k => (nth (Z.to_nat k) (c_pts self) origin, [k])) verts in
      forall c, In c forced ->
        location_on_hulls (w_geom W) (c_pts self) c /\ boxes_not_farther (w_geom W) (c_pts self) c) ->
     forall k, In k cvs -> 0 <= k < zlen (c_pts self) -> In k (simple_set hs')).
Proof.
  intros W self cs verts hs ctr HW Hl Hb Hp Hv Hc Hf Hid.
  pose proof (one_setting W self cs (fun _ => True) HW Hl Hb (fun _ => I)) as St.
  pose proof (inv_start W self _ St (lk_two _ _ Hl) hs ctr Hc Hf Hid) as Hi.
  assert (Hgood : forall h, fresh_hull (w_geom W) (c_pts self) (c_id self) h -> good_item h).
  { intros h Hh. apply (fresh_good_item W self _ St h Hh). }
  destruct (to_self_spec (w_geom W) (c_pts self) (c_id self) (Src (w_gen W) (fun _ => True)) (st_gen _ _ _ _ St)
              (w_hdb W) (st_hdb _ _ _ _ St) (w_pop W) (st_pop _ _ _ _ St) Hgood (w_lnr W) hs (c_opts self) verts
              (ctr + length hs) Hi Hv)
    as (hs' & cvs & ctr' & E & Hi' & _ & Hcut & _ & Hon).
  destruct (Hon Hp) as (Hch & Hinc & Hin & Hends). clear Hon.
  assert (Hset : forall bag k, (forall h, In h bag -> n_inst h = c_id self) -> (In k (simple_set bag) <-> cut_at bag (c_id self) k)).
  { intros bag k Hbag. unfold simple_set. rewrite (proj2 (point_set_spec bag) k). split.
    - intros (h & Hh & Hk). exists h. split; [exact Hh|]. split; [apply Hbag, Hh|]. destruct Hk; auto.
    - intros (h & Hh & _ & Hk). exists h. split; [exact Hh|]. destruct Hk; auto. }
  assert (H1 : forall h, In h hs -> n_inst h = c_id self) by (intros h Hh; rewrite Forall_forall in Hf; apply (Hf h Hh)).
  assert (H2 : forall h, In h hs' -> n_inst h = c_id self).
  { intros h Hh. destruct (inv_member _ _ _ _ _ _ _ Hi' Hh) as [K|[]]; auto. }
  exists hs', cvs, ctr'. split; [exact E|]. split; [exact Hch|]. split.
  { apply Forall_forall. intros h Hh. pose proof (bi_proper _ _ _ _ _ _ Hi') as K. rewrite Forall_forall in K.
    specialize (K h Hh). unfold proper in K. rewrite (H2 h Hh) in K. exact K. }
  split; [intros k Hk; apply Hset; auto; apply Hcut; apply (Hset hs); auto|]. split; [exact Hinc|]. split; [exact Hin|].
  intros Hg k Hk Hr. apply Hset; auto.
  assert (Hfr : forall h, fresh_hull (w_geom W) (c_pts self) (c_id self) h ->
     piece (c_pts self) (n_rng h) /\ n_geom h = piece_hull (w_geom W) (c_pts self) (n_rng h) /\
     n_mbr h = gl_bounds (w_geom W) (piece_hull (w_geom W) (c_pts self) (n_rng h))).
  { intros h (A & B & C & _). pose proof A as A'. destruct A' as (A1 & A2 & A3 & _).
    rewrite (cpts_hull _ _ A) in B. split; [split; [|split]; auto|]. split; [exact B|]. rewrite C, B. reflexivity. }
  apply Hends; auto.
  - exact (lb_heap _ HW).
  - apply Forall_forall. intros c Hcin. destruct (Hg c Hcin) as [G1 _].
    intros i h j [<- |[]] Hh Hj Hjn. destruct (Hfr h Hh) as (Q1 & Q2 & _). rewrite Q2. apply (G1 (n_rng h) j); auto.
  - apply Forall_forall. intros c Hcin. destruct (Hg c Hcin) as [_ G2].
    intros i h b [<- |[]] Hh Hw. destruct (Hfr h Hh) as (Q1 & Q2 & Q3). rewrite Q2. apply (G2 (n_rng h) b); auto.
    rewrite <- Q3. exact Hw.
  - exact (lk_two _ _ Hl).
Qed.

(** The line of C28 with its only hull and a junction at vertex 2; C28_case discharges the
    geometric conditions. *)
Definition hook_hull : node := create_node boxy (ex_gen 0%nat) (sub_coords hook (Rng 0 3)) (Rng 0 3) 7.
Example C20_case :
  line_ok boxy hook_dp /\ o_planar_self hook_opts = true /\
  chain 0 (zlen hook - 1) (map n_rng [hook_hull]) /\ Forall (fresh_hull boxy hook 7) [hook_hull] /\
  map n_id [hook_hull] = map ex_gen (seq 0 1)%nat /\
  match to_self_intersects boxy ex_gen plain_oracle plain_pop ex_lnr [hook_hull] hook hook_opts [2] 1 with
  | Ok (hs, cvs, _) => map n_rng hs = [Rng 0 2; Rng 2 3] /\ cvs = [2]
  | _ => False
  end.
Proof.
  split; [exact (proj1 (proj2 (proj2 C28_case)))|]. split; [reflexivity|]. split; [vm_compute; repeat split; reflexivity|]. split.
  - constructor; [|constructor]. vm_compute. repeat split; try reflexivity; discriminate.
  - split; [reflexivity|]. vm_compute. split; reflexivity.
Qed.

(** ** C21 *)

(** With planar_self off nothing is constrained, whatever non_planar_self says, whatever the
    line and whatever junctions are given.  The line below crosses itself. *)
Definition bow : list point := [P2 0 0; P2 10 10; P2 10 0; P2 0 10].
Theorem C21_non_planar_alone_refuted :
  (forall L gen O pop N nodes pts o verts ctr,
     o_planar_self o = false -> o_non_planar_self o = true ->
     to_self_intersects L gen O pop N nodes pts o verts ctr = Ok (nodes, [], ctr)) /\
  gl_isect toy (GSeg (P2 0 0) (P2 10 10)) (GSeg (P2 10 0) (P2 0 10)) = true /\
  exists o, o_planar_self o = false /\ o_non_planar_self o = true /\
    match simplify exW in_turn (Cdp 7 bow o toy_score None new_hdb_default) [] 20 0 with
    | Ok (hs, _) => simple_set hs = [0; 3]
    | _ => False
    end.
Proof.
  split; [|split; [reflexivity|]].
  - intros L gen O pop N nodes pts o verts ctr H _. unfold to_self_intersects. rewrite H. reflexivity.
  - exists (Opts (f_of_Z 50) fzero fzero false true false false false false). vm_compute. repeat split; reflexivity.
Qed.

(** ** C35 *)

(** h is one of the hulls a check of [hull] looks at. *)
Definition looked_at (L : geomlib) (hull h : node) : Prop :=
  boxes_meet (n_mbr hull) (n_mbr h) = true /\ n_id h <> n_id hull /\
  fle (gl_dist L (n_geom h) (n_geom hull)) epsilon_dist = true.

Lemma neighbours_looked_at L O hs db hull : oracle_ok O -> Forall good_item hs -> good_item hull ->
  load O new_hdb_default hs = Ok db ->
  exists r, node_neighbours L db hull epsilon_dist = Ok r /\
    (forall h, In h r <-> In h hs /\ looked_at L hull h).
Proof.
  intros HO Hg Hgh Hdb.
  destruct (holds_load O new_hdb_default [] hs HO holds_new Hg) as (t & Et & Hh0).
  rewrite Hdb in Et. injection Et as <-. cbn [app] in Hh0.
  destruct (holds_neighbours L db hs hull epsilon_dist Hh0 Hgh) as (r & Er & Hp).
  exists r. split; [exact Er|]. intros h.
  assert (Hr : In h r <-> In h hs /\ nearby L epsilon_dist hull h = true).
  { rewrite <- filter_In. split; apply Permutation_in; auto using Permutation_sym. }
  rewrite Hr. unfold nearby, looked_at. rewrite !andb_true_iff, negb_true_iff, Z.eqb_neq. tauto.
Qed.

Lemma in_dirty dirty hull r h : In h (optimize_neighbours dirty hull r) <->
  In h r /\ (dirty = true \/ n_inst h <> n_inst hull).
Proof.
  unfold optimize_neighbours. destruct dirty; [tauto|]. rewrite filter_In, negb_true_iff, Z.eqb_neq. intuition congruence.
Qed.

Lemma not_among hull sel : negb (existsb (fun h => n_id h =? n_id hull) sel) = true <->
  forall v, In v sel -> n_id v <> n_id hull.
Proof.
  rewrite negb_true_iff. split.
  - intros K v Hv E. assert (existsb (fun h => n_id h =? n_id hull) sel = true); [|congruence].
    apply existsb_exists. exists v. split; [exact Hv|apply Z.eqb_eq, E].
  - intros K. destruct (existsb _ sel) eqn:Ex; [|reflexivity]. exfalso. apply existsb_exists in Ex. destruct Ex as (v & Hv & E).
    apply Z.eqb_eq in E. apply (K v Hv E).
Qed.

(** On one line, whose hulls have different ranges: the selection is exactly the hulls in
    conflict, and the answer is true exactly if the checked hull is not among them. *)
Theorem C35_line_selection_exact :
  forall (L : geomlib) (O : hdb_oracle) (disp : f64) (hs : list node) (db : hdb) (hull : node),
  oracle_ok O -> point_touch L -> places_ok L ->
  Forall good_item hs -> good_item hull -> Forall hullish hs -> hullish hull ->
  load O new_hdb_default hs = Ok db ->
  (forall a b, In a (hull :: hs) -> In b (hull :: hs) -> n_rng a = n_rng b -> a = b) ->
  exists answer sel, by_self L disp db hull = Ok (answer, sel) /\
    (forall v, In v sel <-> exists h, In h hs /\ looked_at L hull h /\ line_conflict L disp hull h v) /\
    (answer = true <-> forall v, In v sel -> n_id v <> n_id hull).
Proof.
  intros L O disp hs db hull HO Ht Hp Hg Hgh Hl Hlh Hdb Hinj.
  destruct (neighbours_looked_at L O hs db hull HO Hg Hgh Hdb) as (r & Er & Hsub).
  assert (Hf : Forall hullish r).
  { apply Forall_forall. intros x Hx. apply Hsub in Hx. rewrite Forall_forall in Hl. apply Hl, Hx. }
  destruct (select_loop_exact L disp false hull Ht Hlh r Hf) as (sel & Es & Hsel).
  { intros a b Ha Hb. apply Hinj; cbn in *; rewrite Hsub in *; tauto. }
  exists (negb (existsb (fun h => n_id h =? n_id hull) sel)), sel.
  split; [unfold by_self, select_line; rewrite Er; cbn [bind]; rewrite Es; reflexivity|]. split; [|apply not_among].
  intros v. rewrite Hsel. split.
  - intros (h & Hh & Hs). rewrite Forall_forall in Hf. pose proof (Hf h Hh) as Hhh. apply Hsub in Hh.
    exists h. split; [tauto|]. split; [tauto|]. apply (pair_iff L disp false hull h v); auto.
  - intros (h & H1 & H2 & H3). exists h. split; [apply Hsub; auto|]. rewrite Forall_forall in Hl.
    apply (pair_iff L disp false hull h v); auto.
Qed.

(** In a feature class, when the hulls involved have different ranges, the same holds.
    Missing: hulls of different features with the same range. *)
Theorem C35_selection_exact_partial :
  forall (L : geomlib) (O : hdb_oracle) (disp : f64) (dirty : bool) (hs : list node) (db : hdb) (hull : node),
  oracle_ok O -> point_touch L -> places_ok L ->
  Forall good_item hs -> good_item hull -> Forall hullish hs -> hullish hull ->
  load O new_hdb_default hs = Ok db ->
  (forall a b, In a (hull :: hs) -> In b (hull :: hs) -> n_rng a = n_rng b -> a = b) ->
  exists answer sel, by_class L disp dirty db hull = Ok (answer, sel) /\
    (forall v, In v sel <-> exists h, In h hs /\ looked_at L hull h /\
       (dirty = true \/ n_inst h <> n_inst hull) /\ class_conflict L disp hull h v) /\
    (answer = true <-> forall v, In v sel -> n_id v <> n_id hull).
Proof.
  intros L O disp dirty hs db hull HO Ht Hp Hg Hgh Hl Hlh Hdb Hinj.
  destruct (neighbours_looked_at L O hs db hull HO Hg Hgh Hdb) as (r & Er & Hsub).
  assert (Hs2 : forall x, In x (optimize_neighbours dirty hull r) <->
     In x hs /\ looked_at L hull x /\ (dirty = true \/ n_inst x <> n_inst hull)).
  { intros x. rewrite in_dirty, Hsub. tauto. }
  assert (Hf : Forall hullish (optimize_neighbours dirty hull r)).
  { apply Forall_forall. intros x Hx. apply Hs2 in Hx. rewrite Forall_forall in Hl. apply Hl, Hx. }
  destruct (select_loop_exact L disp true hull Ht Hlh _ Hf) as (sel & Es & Hsel).
  { intros a b Ha Hb. apply Hinj; cbn [In] in *; rewrite Hs2 in *; tauto. }
  exists (negb (existsb (fun h => n_id h =? n_id hull) sel)), sel.
  split; [unfold by_class, select_feature_class; rewrite Er; cbn [bind]; rewrite Es; reflexivity|]. split; [|apply not_among].
  intros v. rewrite Hsel. split.
  - intros (h & Hh & Hs). rewrite Forall_forall in Hf. pose proof (Hf h Hh) as Hhh. apply Hs2 in Hh.
    exists h. split; [tauto|]. split; [tauto|]. split; [tauto|]. apply (pair_iff L disp true hull h v); auto.
  - intros (h & H1 & H2 & H3 & H4). exists h. split; [apply Hs2; auto|]. rewrite Forall_forall in Hl.
    apply (pair_iff L disp true hull h v); auto.
Qed.

(** Whatever the ranges: only hulls in conflict are selected, at most one for each range,
    and the range of every hull in conflict is represented. *)
Theorem C35_selection_by_range :
  forall (L : geomlib) (O : hdb_oracle) (disp : f64) (dirty : bool) (hs : list node) (db : hdb) (hull : node),
  oracle_ok O -> point_touch L -> places_ok L ->
  Forall good_item hs -> good_item hull -> Forall hullish hs -> hullish hull ->
  load O new_hdb_default hs = Ok db ->
  let conflicting v := exists h, In h hs /\ looked_at L hull h /\
       (dirty = true \/ n_inst h <> n_inst hull) /\ class_conflict L disp hull h v in
  exists answer sel, by_class L disp dirty db hull = Ok (answer, sel) /\
    (forall v, In v sel -> conflicting v) /\
    (forall v, conflicting v -> exists w, In w sel /\ n_rng w = n_rng v) /\
    NoDup (map n_rng sel) /\
    (answer = true <-> forall v, In v sel -> n_id v <> n_id hull).
Proof.
  intros L O disp dirty hs db hull HO Ht Hp Hg Hgh Hl Hlh Hdb conflicting.
  destruct (neighbours_looked_at L O hs db hull HO Hg Hgh Hdb) as (r & Er & Hsub).
  assert (Hs2 : forall x, In x (optimize_neighbours dirty hull r) <->
     In x hs /\ looked_at L hull x /\ (dirty = true \/ n_inst x <> n_inst hull)).
  { intros x. rewrite in_dirty, Hsub. tauto. }
  assert (Hf : Forall hullish (optimize_neighbours dirty hull r)).
  { apply Forall_forall. intros x Hx. apply Hs2 in Hx. rewrite Forall_forall in Hl. apply Hl, Hx. }
  destruct (select_loop_spec L disp true hull Ht Hlh _ [] Hf) as (sel & Es & S1 & S2 & S3).
  exists (negb (existsb (fun h => n_id h =? n_id hull) sel)), sel.
  split; [unfold by_class, select_feature_class; rewrite Er; cbn [bind]; rewrite Es; reflexivity|].
  rewrite Forall_forall in Hf, Hl.
  split; [|split; [|split; [apply S3; constructor|apply not_among]]].
  - intros v Hv. destruct (S1 v Hv) as [[]|(h & Hh & Hs)]. pose proof (Hf h Hh) as Hhh. apply Hs2 in Hh.
    exists h. split; [tauto|]. split; [tauto|]. split; [tauto|]. apply (pair_iff L disp true hull h v); auto.
  - intros v (h & H1 & H2 & H3 & H4). apply S2. right. exists h. split; [apply Hs2; auto|].
    apply (pair_iff L disp true hull h v); auto.
Qed.

(** Three features: [over] crosses [bar] only after simplification, and [round] crosses
    [over] only after simplification. *)
Definition ao : opts := Opts (f_of_Z 20) fzero fzero false false true false false false.
Definition f_over : cdp := Cdp 1 [P2 0 0; P2 10 10; P2 20 0] ao toy_score None new_hdb_default.
Definition f_bar : cdp := Cdp 2 [P2 10 (-5); P2 10 5] ao toy_score None new_hdb_default.
Definition f_round : cdp := Cdp 3 [P2 15 (-5); P2 30 5; P2 15 20] ao toy_score None new_hdb_default.
Definition env3 (i : Z) : cdp := if i =? 1 then f_over else if i =? 2 then f_bar else f_round.
Definition whole (s : cdp) : node :=
  let r := Rng 0 (zlen (c_pts s) - 1) in create_node toy (c_id s) (sub_coords (c_pts s) r) r (c_id s).
Definition class3 : list node := map whole [f_over; f_bar; f_round].
Definition db3 : hdb := Eval vm_compute in get new_hdb_default (load plain_oracle new_hdb_default class3).

Lemma toy_places : places_ok toy.
Proof.
  assert (F : forall x y, feq x y = true -> feq y y = true) by (intros x y H; apply (feq_trans y x y); auto using feq_sym).
  intros p q H. unfold same_place in *. cbn [gl_eq2d toy] in *. unfold toy_eq2d in *.
  apply andb_true_iff in H. destruct H as [H1 H2]. rewrite (F _ _ H1), (F _ _ H2). reflexivity.
Qed.

Example C35_case :
  oracle_ok plain_oracle /\ point_touch toy /\ places_ok toy /\
  let hs := map whole [f_over; f_bar] in
  Forall good_item hs /\ Forall hullish hs /\
  (forall a b, In a hs -> In b hs -> n_rng a = n_rng b -> a = b) /\
  match load plain_oracle new_hdb_default hs with
  | Ok db => match by_class toy fzero false db (whole f_over) with
             | Ok (answer, sel) => answer = false /\ map n_id sel = [1] | _ => False end
  | _ => False
  end.
Proof.
  split; [exact plain_oracle_ok|]. split; [exact (lb_touch _ exW_ok)|]. split; [exact toy_places|]. cbv zeta. split.
  - repeat (apply Forall_cons; [vm_compute; repeat split; try reflexivity; discriminate|]). constructor.
  - split; [repeat (apply Forall_cons; [eexists; reflexivity|]); constructor|]. split.
    + intros a b [<- |[<- |[]]] [<- |[<- |[]]]; intros K; try reflexivity; vm_compute in K; discriminate.
    + vm_compute. split; reflexivity.
Qed.

(** Across features the selection is keyed by range alone: [over] is selected by the check
    against [bar], then overwritten by [round], which has the same range.  The check of [over]
    then answers true, and the simplified [over] crosses [bar] although the input does not. *)
Theorem C35_selection_lost_refuted :
  load plain_oracle new_hdb_default class3 = Ok db3 /\
  class_conflict toy fzero (whole f_over) (whole f_bar) (whole f_over) /\
  match by_class toy fzero false db3 (whole f_over) with
  | Ok (answer, sel) => answer = true /\ map n_id sel = [3]
  | _ => False
  end /\
  gl_isect toy (GLine (c_pts f_over)) (GLine (c_pts f_bar)) = false /\
  gl_isect toy (GSeg (P2 0 0) (P2 20 0)) (GLine (c_pts f_bar)) = true /\
  match simplify_feature_class exW ex_gens (fun _ => in_turn) in_turn env3 [f_over; f_bar; f_round] ao 40,
        simplify_feature_class exW ex_gens (fun _ => in_turn) in_turn env3 [f_over; f_round; f_bar] ao 40 with
  | Ok out, Ok out' =>
    map (fun r => (c_id (fst r), simple_set (snd r))) out = [(1, [0; 2]); (2, [0; 1]); (3, [0; 1; 2])] /\
    (* the same features in another order *)
    map (fun r => (c_id (fst r), simple_set (snd r))) out' = [(1, [0; 1; 2]); (3, [0; 1; 2]); (2, [0; 1])]
  | _, _ => False
  end.
Proof.
  split; [vm_compute; reflexivity|]. split.
  { split; [vm_compute; reflexivity|]. right. split; [discriminate|]. split; [vm_compute; discriminate|].
    apply mc_first; [tauto|split; vm_compute; reflexivity|vm_compute; reflexivity]. }
  vm_compute. repeat split; reflexivity.
Qed.

Print Assumptions C20_constrained_vertices_are_ends.
Print Assumptions C21_non_planar_alone_refuted.
Print Assumptions C35_line_selection_exact.
Print Assumptions C35_selection_exact_partial.
Print Assumptions C35_selection_by_range.
Print Assumptions C35_selection_lost_refuted.
