(** No conflicts are left between hulls that were examined (C31). *)
From Verif Require Import M_Base M_Float M_Rng M_Geom M_Offset M_Node M_Decompose M_Split M_Hdb M_Knn M_Lnr M_Homotopy M_Relate
  M_Deform M_Constrain M_ConstDP Spec Spec_Hdb Spec_Relate Spec_Deform Spec_Lnr Spec_ConstDP
  P_Base P_Float P_Decompose P_Split P_Node P_Hdb P_HdbIns P_HdbLoad P_HdbHist P_Knn P_Homotopy P_Relate P_Db P_Bag
  P_Constrain P_Deform P_Conflict P_ConstDP P_Aggregate P_Simplify P_Class P_Lnr Toy Toy_Box Properties_Core Properties_Lnr
  Properties_Relate Properties_ConstDP Properties_Constrain.
Open Scope Z_scope.

Lemma looked_at_nearby L x y : looked_at L x y -> nearby L epsilon_dist x y = true.
Proof.
  intros (A & B & C). unfold nearby. rewrite A, C. cbn [andb]. rewrite andb_true_r. apply negb_true_iff, Z.eqb_neq, B.
Qed.

Lemma examined_big pts x : hull_of pts x -> examined x -> big x.
Proof. intros (_ & K & _) [A B]. split; [unfold rsize; lia|exact B]. Qed.

(** When the split loop ends, hulls can be ordered in time so that an examined hull conflicts
    with no hull that is not later than it.  Hence two examined hulls do not conflict. *)
Theorem C31_no_conflict_when_loop_ends :
  forall (W : world) ord (self : cdp) constraints hs db ctr fuel db' ctr' objs,
  libs_ok W -> places_ok (w_geom W) -> any_order ord -> line_ok (w_geom W) self -> built_from W self constraints ->
  o_avoid_self (c_opts self) = true ->
  chain 0 (zlen (c_pts self) - 1) (map n_rng hs) ->
  Forall (fresh_hull (w_geom W) (c_pts self) (c_id self)) hs ->
  map n_id hs = map (w_gen W) (seq ctr (length hs)) ->
  load (w_hdb W) new_hdb_default hs = Ok db ->
  (length (c_pts self) <= fuel)%nat ->
  split_loop W (fun _ => self) ord fuel 0 (fun _ => true) hs db (ctr + length hs) = Ok (db', ctr') ->
  all db' = Ok objs ->
  let L := w_geom W in
  let conflict x y := exists v, line_conflict L (o_non_planar_displacement (c_opts self)) x y v in
  (exists time : node -> nat,
     forall x y, In x objs -> In y objs -> x <> y -> examined x -> looked_at L x y ->
       (time y <= time x)%nat -> ~ conflict x y) /\
  (forall x y, In x objs -> In y objs -> x <> y -> examined x -> examined y ->
     looked_at L x y -> looked_at L y x -> even_handed L x y -> ~ conflict x y).
Proof.
  intros W ord self cs hs db ctr fuel db' ctr' objs HW Hpl Ho Hl Hb Hav Hc Hf Hid Hdb Hfuel E Eall L conflict.
  pose proof (one_setting W self cs (fun _ => True) HW Hl Hb (fun _ => I)) as St.
  pose proof (inv_start W self _ St (lk_two _ _ Hl) hs ctr Hc Hf Hid) as Hi.
  assert (Hg : Forall good_item hs).
  { apply Forall_forall. intros h Hh. eapply line_good; [exact St|exact Hi|exact Hh]. }
  destruct (holds_load (w_hdb W) new_hdb_default [] hs (lb_rtree _ HW) holds_new Hg) as (t & Et & Ht).
  rewrite Hdb in Et. injection Et as <-. cbn [app] in Ht.
  pose proof (lk_two _ _ Hl) as H2.
  assert (Hne : hs <> []) by (intros ->; cbn in Hc; unfold zlen in Hc; lia).
  destruct (split_loop_spec W (fun _ => self) [c_id self] _ St ord Ho fuel 0 (fun _ => true) hs db
              (ctr + length hs) hs) as (db2 & ctr2 & b2 & E2 & Hdb2 & Hi2 & _ & _ & _ & Hpair); auto.
  { intros x Hx; exact Hx. }
  { unfold rounds. assert (capacity (lines_of (fun _ => self)) [c_id self] = zlen (c_pts self) - 1) as ->.
    { unfold capacity, lines_of. cbn. unfold zlen. lia. }
    assert (1 <= zlen hs) by (destruct hs; [contradiction|unfold zlen; cbn [length]; lia]).
    assert (zlen (c_pts self) = Z.of_nat (length (c_pts self))) by reflexivity.
    destruct (forallb _ hs); lia. }
  rewrite E in E2. injection E2 as <- <-.
  destruct (holds_all _ _ Hdb2) as (objs' & Eo & Hpo). rewrite Eall in Eo. injection Eo as <-.
  destruct Hpair as (age & Hpair).
  { intros i _. exact Hav. }
  { intros i _. reflexivity. }
  { intros i j [<- |[]] [<- |[]]. reflexivity. }
  { exists (fun _ => 0%nat). intros a c Ha Hc' _ _ _. left; exact Ha. }
  assert (Hin : forall x, In x objs -> In x b2) by (intros x Hx; apply (Permutation_in _ Hpo), Hx).
  pose proof (inv_hullish W (fun _ => self) [c_id self] _ _ _ Hi2) as Hh. rewrite Forall_forall in Hh.
  assert (Main : forall x y, In x objs -> In y objs -> x <> y -> examined x -> looked_at L x y ->
    (age (n_id y) <= age (n_id x))%nat -> ~ conflict x y).
  { intros x y Hx Hy Hxy Ex Hla Hage (v & Kv). apply Hin in Hx. apply Hin in Hy.
    assert (Ei : n_inst x = n_inst y) by (rewrite (line_inst _ _ _ _ _ _ Hi2 Hx), (line_inst _ _ _ _ _ _ Hi2 Hy); reflexivity).
    pose proof (line_hull _ _ _ _ _ _ Hi2 Hx) as Kx.
    destruct (Hpair x y Hx Hy Hxy (examined_big _ _ Kx Ex) (looked_at_nearby _ _ _ Hla)) as [[]|[K|K]]; [|lia].
    unfold settled in K. rewrite pair_same_inst in K by auto. revert Kv.
    apply settled_clear; auto. exact (lb_touch _ HW). }
  split.
  - exists (fun h => age (n_id h)). exact Main.
  - intros x y Hx Hy Hxy Ex Ey Lxy Lyx Heh (v & Kv).
    destruct (Nat.le_gt_cases (age (n_id y)) (age (n_id x))) as [K|K].
    + apply (Main x y Hx Hy Hxy Ex Lxy K). exists v. exact Kv.
    + apply (Main y x Hy Hx (fun e => Hxy (eq_sym e)) Ey Lyx); [lia|]. exact (conflict_sym _ _ _ _ _ Heh Kv).
Qed.

(** The same for the hulls of the result, among hulls whose ranges have no common end.
    Missing: hulls that follow each other on the line (see C31_next_unchecked_refuted). *)
Theorem C31_no_conflict_in_result_partial :
  forall (W : world) ord (self : cdp) constraints verts fuel ctr hs ctr',
  libs_ok W -> places_ok (w_geom W) -> any_order ord -> line_ok (w_geom W) self -> built_from W self constraints ->
  Forall (fun k => 0 <= k < zlen (c_pts self)) verts ->
  (2 * length (c_pts self) - 3 < fuel)%nat ->
  o_avoid_self (c_opts self) = true ->
  simplify W ord self verts fuel ctr = Ok (hs, ctr') ->
  let L := w_geom W in
  let conflict x y := exists v, line_conflict L (o_non_planar_displacement (c_opts self)) x y v in
  let separate x y := rJ (n_rng x) <> rI (n_rng y) /\ rJ (n_rng y) <> rI (n_rng x) in
  (exists time : node -> nat,
     forall x y, In x hs -> In y hs -> x <> y -> examined x -> separate x y -> looked_at L x y ->
       (time y <= time x)%nat -> ~ conflict x y) /\
  (forall x y, In x hs -> In y hs -> x <> y -> examined x -> examined y -> separate x y ->
     looked_at L x y -> looked_at L y x -> even_handed L x y -> ~ conflict x y).
Proof.
  intros W ord self cs verts fuel ctr hs ctr' HW Hpl Ho Hl Hb Hv Hf Hav E L conflict separate.
  pose proof (one_setting W self cs (fun _ => True) HW Hl Hb (fun _ => I)) as St.
  destruct (simplify_spec W self _ ord Ho St (lk_two _ _ Hl) (lk_splits _ _ Hl) verts fuel ctr Hv Hf)
    as (hs0 & ctr0 & E0 & Hi & _ & Hpairs & _).
  rewrite E in E0. injection E0 as <- <-. destruct (Hpairs Hav) as (age & Hk).
  pose proof (inv_hullish W (fun _ => self) [c_id self] _ _ _ Hi) as Hh. rewrite Forall_forall in Hh.
  assert (Main : forall x y, In x hs -> In y hs -> x <> y -> examined x -> separate x y -> looked_at L x y ->
    (age (n_id y) <= age (n_id x))%nat -> ~ conflict x y).
  { intros x y Hx Hy Hxy Ex Hsep Hla Hage (v & Kv).
    pose proof (line_hull _ _ _ _ _ _ Hi Hx) as Kx.
    destruct (Hk x y Hx Hy Hxy (examined_big _ _ Kx Ex) Hsep (looked_at_nearby _ _ _ Hla)) as [K|K]; [|lia].
    revert Kv. apply settled_clear; auto. exact (lb_touch _ HW). }
  split.
  - exists (fun h => age (n_id h)). exact Main.
  - intros x y Hx Hy Hxy Ex Ey Hsep Lxy Lyx Heh (v & Kv).
    destruct (Nat.le_gt_cases (age (n_id y)) (age (n_id x))) as [K|K].
    + apply (Main x y Hx Hy Hxy Ex Hsep Lxy K). exists v. exact Kv.
    + destruct Hsep as [S1 S2]. apply (Main y x Hy Hx (fun e => Hxy (eq_sym e)) Ey (conj S2 S1) Lyx); [lia|].
      exact (conflict_sym _ _ _ _ _ Heh Kv).
Qed.

(** A line that starts inside the last bay of its own end. *)
Definition cove : list point := [P2 20 18; P2 20 30; P2 (-10) 30; P2 0 0; P2 10 20; P2 20 0; P2 30 20; P2 40 0].
Definition cove_opts : opts := Opts (f_of_Z 30) fzero fzero false false true false false false.
Definition cove_dp : cdp := Cdp 7 cove cove_opts toy_score None new_hdb_default.
Definition cove_hull (k : nat) (i j : Z) : node := create_node toy (w_gen exW k) (sub_coords cove (Rng i j)) (Rng i j) 7.
Lemma cove_ok : line_ok toy cove_dp.
Proof. line_ok_compute (f_of_Z 30). Qed.

Ltac even_by_computation :=
  split; try (vm_compute; reflexivity); try (vm_compute; apply Permutation_refl);
  try (intros q [[-> | ->]|[-> | ->]]; vm_compute; reflexivity);
  try (intros p q [-> | ->] [-> | ->]; vm_compute; reflexivity).

(** The hulls 0..2 and 2..7 conflict and are split up; 0..2 and 3..7 are examined and lie
    within reach of each other. *)
Example C31_loop_case :
  libs_ok exW /\ places_ok toy /\ line_ok toy cove_dp /\ built_from exW cove_dp [] /\
  let hs := [cove_hull 0 0 2; cove_hull 1 2 7] in
  chain 0 (zlen cove - 1) (map n_rng hs) /\ Forall (fresh_hull toy cove 7) hs /\
  map n_id hs = map (w_gen exW) (seq 0 2) /\
  line_conflict toy fzero (cove_hull 0 0 2) (cove_hull 1 2 7) (cove_hull 1 2 7) /\
  match load (w_hdb exW) new_hdb_default hs with
  | Ok db => match split_loop exW (fun _ => cove_dp) in_turn 8 0 (fun _ => true) hs db 2 with
    | Ok (db', _) => match all db' with
      | Ok [x; _; y] => x = cove_hull 0 0 2 /\ n_rng y = Rng 3 7 /\ examined x /\ examined y /\
          looked_at toy x y /\ looked_at toy y x /\ even_handed toy x y
      | _ => False end
    | _ => False end
  | _ => False end.
Proof.
  split; [exact exW_ok|]. split; [exact toy_places|]. split; [exact cove_ok|].
  split; [split; [vm_compute; reflexivity|constructor]|]. cbv zeta.
  split; [vm_compute; repeat split; reflexivity|]. split.
  { repeat (apply Forall_cons; [vm_compute; repeat split; try reflexivity; discriminate|]). constructor. }
  split; [reflexivity|]. split.
  { split; [vm_compute; reflexivity|]. apply mc_flip_second.
    - split.
      + exists (P2 (-10) 30), (P2 (-10) 30). split; [right; reflexivity|]. split; [left; reflexivity|reflexivity].
      + exists (P2 (-10) 30), (P2 (-10) 30). split; [vm_compute; auto 10|]. split; [left; right; reflexivity|reflexivity].
    - vm_compute. lia.
    - do 2 eexists. exists (P2 20 18). split; [vm_compute; reflexivity|]. split; [vm_compute; discriminate|]. split.
      + right; right. split; [|split; [|reflexivity]].
        * intros (p & [-> | ->] & K); vm_compute in K; discriminate.
        * exists (P2 (-10) 30). split; [left; reflexivity|reflexivity].
      + vm_compute. reflexivity. }
  destruct (load (w_hdb exW) new_hdb_default [cove_hull 0 0 2; cove_hull 1 2 7]) as [db| |] eqn:E1; vm_compute in E1; try discriminate E1.
  injection E1 as <-.
  match goal with |- match ?t with _ => _ end => destruct t as [[db' c]| |] eqn:E2; vm_compute in E2; try discriminate E2 end.
  injection E2 as <- <-.
  match goal with |- match ?t with _ => _ end => destruct t as [objs| |] eqn:E3; vm_compute in E3; try discriminate E3 end.
  injection E3 as <-.
  split; [vm_compute; reflexivity|]. split; [reflexivity|]. split; [split; vm_compute; congruence|].
  split; [split; vm_compute; congruence|]. split; [vm_compute; repeat split; congruence|].
  split; [vm_compute; repeat split; congruence|]. even_by_computation.
Qed.

(** Hulls that follow each other can be left in conflict.  The hull 2..3 is first merged
    with the next one, 3..7, which the check refuses; the merge with the previous hull is then
    checked while 3..7 is not in the index, so its conflict with 3..7 goes unnoticed. *)
Theorem C31_next_unchecked_refuted :
  libs_ok exW /\ places_ok toy /\ line_ok toy cove_dp /\ built_from exW cove_dp [] /\ o_avoid_self cove_opts = true /\
  match simplify exW in_turn cove_dp [] 20 0 with
  | Ok ([y; x], _) =>
    n_rng x = Rng 0 3 /\ n_rng y = Rng 3 7 /\ examined x /\ examined y /\
    looked_at toy x y /\ looked_at toy y x /\ even_handed toy x y /\
    line_conflict toy fzero x y y /\ line_conflict toy fzero y x y
  | _ => False
  end.
Proof.
  split; [exact exW_ok|]. split; [exact toy_places|]. split; [exact cove_ok|].
  split; [split; [vm_compute; reflexivity|constructor]|]. split; [reflexivity|].
  match goal with |- match ?t with _ => _ end => destruct t as [[hs c]| |] eqn:E; vm_compute in E; try discriminate E end.
  injection E as <- <-.
  split; [reflexivity|]. split; [reflexivity|]. split; [split; vm_compute; congruence|].
  split; [split; vm_compute; congruence|]. split; [vm_compute; repeat split; congruence|].
  split; [vm_compute; repeat split; congruence|]. split; [even_by_computation|].
  match goal with |- line_conflict _ _ ?x0 ?y0 _ /\ _ => set (x := x0); set (y := y0) end.
  assert (S : swallows toy y x).
  { do 2 eexists. exists (P2 20 18). split; [vm_compute; reflexivity|]. split; [vm_compute; discriminate|]. split.
    - right; right. split; [|split; [|reflexivity]].
      + intros (p & [-> | ->] & K); vm_compute in K; discriminate.
      + exists (P2 0 0). split; [left; reflexivity|reflexivity].
    - vm_compute. reflexivity. }
  split; (split; [vm_compute; reflexivity|]); [apply mc_flip_second|apply mc_flip_first]; try exact S; try (vm_compute; lia);
    (split; [exists (P2 0 0), (P2 0 0)|exists (P2 0 0), (P2 0 0)]).
  - split; [right; reflexivity|]. split; [left; reflexivity|reflexivity].
  - split; [vm_compute; auto 10|]. split; [left; right; reflexivity|reflexivity].
  - split; [left; reflexivity|]. split; [right; reflexivity|reflexivity].
  - split; [vm_compute; auto 10|]. split; [left; left; reflexivity|reflexivity].
Qed.

Print Assumptions C31_no_conflict_when_loop_ends.
Print Assumptions C31_no_conflict_in_result_partial.
Print Assumptions C31_next_unchecked_refuted.
