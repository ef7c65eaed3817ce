(** What the callback of the class simplification tells (C95). *)
From Verif Require Import M_Base M_Float M_Rng M_Geom M_Offset M_Node M_Decompose M_Split M_Hdb M_Knn M_Lnr M_Homotopy M_Relate
  M_Deform M_Constrain M_ConstDP M_Report Spec Spec_Hdb Spec_Relate Spec_Deform Spec_Lnr Spec_ConstDP Spec_Report
  P_Base P_Float P_Decompose P_Split P_Node P_Hdb P_HdbIns P_HdbLoad P_HdbHist P_Knn P_Homotopy P_Relate P_Db P_Bag
  P_Constrain P_Deform P_Conflict P_ConstDP P_Aggregate P_Simplify P_Class P_ClassConf P_Lnr P_Report Toy Toy_Box Properties_Core Properties_Lnr
  Properties_Relate Properties_ConstDP Properties_Constrain Properties_Conflict Properties_ClassConf.
Open Scope Z_scope.

(** ** C95 *)

(** Giving a callback does not change the result, whatever happens. *)
Theorem C95_result_unchanged : forall W gens ords ord env selfs o fuel,
  snd (simplify_feature_class_reporting W gens ords ord env selfs o fuel) = simplify_feature_class W gens ords ord env selfs o fuel.
Proof. exact class_unreported. Qed.

Lemma segments_flat selfs : forall done, Forall2 (fun s r => fst r = s /\ tiling 0 (zlen (c_pts s) - 1) (map n_rng (snd r))) selfs done ->
  (forall s, In s selfs -> (2 <= length (c_pts s))%nat) -> segments done = zlen (flat_map snd done).
Proof.
  intros done F H2. induction F as [|s r l done (E & T) F IH]; [reflexivity|]. cbn [segments fold_right flat_map]. fold (segments done).
  rewrite IH by (intros t Ht; apply H2; right; exact Ht).
  rewrite (kept_count (snd r) (zlen (c_pts s) - 1)); [|specialize (H2 s (or_introl eq_refl)); unfold zlen; lia|exact T].
  unfold zlen. rewrite app_length. lia.
Qed.

(** The first call tells how many segments the lines have when simplified one by one.  Each later
    call tells how many pieces are examined again; only then is anything changed. *)
Theorem C95_calls : forall W gens ords ord env selfs o fuel done out,
  class_ready W gens env selfs fuel -> (forall i, any_order (ords i)) -> any_order ord ->
  simplify_instances W gens ords (fun i => if o_planar_self o
    then fc_junctions (w_geom W) (lo_sort (w_lnr W)) (map (fun s => (c_id s, c_pts s)) selfs) i else []) fuel selfs = Ok done ->
  simplify_feature_class W gens ords ord env selfs o fuel = Ok out ->
  let calls := fst (simplify_feature_class_reporting W gens ords ord env selfs o fuel) in
  (constrained o = false \/ selfs = [] -> calls = []) /\
  (constrained o = true -> selfs <> [] -> exists later, calls = segments done :: later /\
     Forall (fun n => 0 < n <= segments out) later /\
     zlen later <= segments out - segments done + 1 /\
     2 * (segments out - segments done) <= total later /\
     (later = [] -> map (fun r => simple_set (snd r)) out = map (fun r => simple_set (snd r)) done)) /\
  segments done <= segments out <= segments_given selfs /\
  zlen calls <= segments_given selfs + 1.
Proof.
  intros W gens ords ord env selfs o fuel done out HC Ho1 Ho2 Edone Eout. cbv zeta.
  destruct HC as [HW Hnd Henv Hg1 Hg2 Hl Hs Hn He Hf].
  set (js := fun i => if o_planar_self o
    then fc_junctions (w_geom W) (lo_sort (w_lnr W)) (map (fun s => (c_id s, c_pts s)) selfs) i else []) in *.
  assert (Hjs : forall s, In s selfs -> Forall (fun k => 0 <= k < zlen (c_pts s)) (js (c_id s))).
  { intros s Hin. unfold js. destruct (o_planar_self o); [|constructor]. apply Forall_forall. intros k Hk.
    set (fc := map (fun s => (c_id s, c_pts s)) selfs) in *.
    destruct (C17_junctions_partial (w_geom W) (lo_sort (w_lnr W)) fc Hs) with (fid := c_id s) as [_ K]; auto.
    { unfold fc. rewrite map_map. exact Hnd. }
    apply K in Hk. destruct Hk as (p & (pts & Hp & Hq) & _).
    unfold fc in Hp. apply in_map_iff in Hp. destruct Hp as (s' & Es & Hs'). injection Es as E1 E2.
    assert (s' = s) by (rewrite <- (Henv s' Hs'), <- (Henv s Hin), E1; reflexivity). subst s'. subst pts.
    unfold znth in Hq. destruct (k <? 0) eqn:Ek; [discriminate|]. apply Z.ltb_ge in Ek.
    assert (nth_error (c_pts s) (Z.to_nat k) <> None) as Hne by congruence. apply nth_error_Some in Hne. unfold zlen. lia. }
  assert (Hfu : forall s, In s selfs -> (2 * length (c_pts s) - 3 < fuel)%nat).
  { intros s Hin. pose proof (class_sizes W env selfs Hnd Henv (fun s H => proj1 (Hl s H)) s Hin). lia. }
  destruct (instances_spec W gens ords selfs HW Ho1 Hl Hg1 js fuel selfs (fun x H => H) Hjs Hfu) as (done' & Edone' & F).
  rewrite Edone in Edone'. injection Edone' as <-.
  assert (F0 : Forall2 (fun s r => fst r = s /\ inst_ok W gens s (snd r)) selfs done).
  { clearbody js. clear - F. induction F as [|x y ? ? (E & J & _) F IH]; constructor; auto. }
  pose proof (class_bag W gens env selfs Hnd Henv Hg1 Hg2 done F0) as Hi.
  pose proof (setting_all W env selfs HW Hnd Henv Hl) as Sa.
  destruct (flat_of_inst W gens Hg1 selfs done Hnd F0) as (A & _ & _ & _).
  assert (H2 : forall s, In s selfs -> (2 <= length (c_pts s))%nat) by (intros s Hin; exact (lk_two _ _ (proj1 (Hl s Hin)))).
  assert (Ft : Forall2 (fun s r => fst r = s /\ tiling 0 (zlen (c_pts s) - 1) (map n_rng (snd r))) selfs done).
  { clear - F0. induction F0 as [|s y l dn (E & ctr & J) F IH]; constructor; [|exact IH]. split; [exact E|].
    pose proof (bi_tiles _ _ _ _ _ _ J (c_id s) (or_introl eq_refl)) as T. rewrite of_inst_same in T; [exact T|].
    apply Forall_forall. intros h Hh. destruct (inv_member _ _ _ _ _ _ _ J Hh) as [K|[]]; auto. }
  pose proof (segments_flat selfs done Ft H2) as Sd.
  assert (Hcap : capacity (lines_of env) (map c_id selfs) = segments_given selfs).
  { clear - Henv. unfold capacity, segments_given, lines_of. induction selfs as [|s l IH]; [reflexivity|]. cbn [map fold_right].
    rewrite (Henv s (or_introl eq_refl)), IH by (intros t Ht; apply Henv; right; exact Ht). reflexivity. }
  pose proof (inv_size _ _ _ _ _ _ Hnd Hi) as Z0. rewrite Hcap in Z0.
  rewrite <- class_unreported in Eout. unfold simplify_feature_class_reporting in Eout |- *. cbv zeta in Eout |- *. fold js in Eout |- *. rewrite Edone in Eout |- *.
  destruct (constrained o); cbn [fst snd] in Eout |- *.
  2:{ injection Eout as <-. split; [reflexivity|]. split; [discriminate|]. split; [lia|]. change (zlen (@nil Z)) with 0.
      assert (0 <= zlen (flat_map snd done)) by (unfold zlen; lia). lia. }
  unfold class_phase_reporting in Eout |- *.
  assert (Hg : Forall good_item (flat_map snd done)).
  { apply Forall_forall. intros h Hh. apply (inv_goods W env (map c_id selfs) _ Sa 0 _ h Hi Hh). }
  destruct (holds_load (w_hdb W) new_hdb_default [] (flat_map snd done) (lb_rtree _ HW) holds_new Hg) as (db & Edb & Hdb).
  rewrite Edb in Eout |- *. cbn [app fst snd] in Eout, Hdb |- *.
  destruct (split_loop_reporting W env ord fuel 0 (fun _ => false) (flat_map snd done) db 0) as [calls [[db2 ctr2]| |]] eqn:E2;
    cbn [fst snd bind] in Eout |- *; try discriminate Eout.
  destruct (calls_spec W env (map c_id selfs) _ Sa ord Ho2 fuel 0 (fun _ => false) (flat_map snd done) db 0 (flat_map snd done)
    calls db2 ctr2 Hdb Hi (fun x H => H) E2) as (b' & Hdb2 & Hi2 & Hge & Hnil & Hcalls).
  destruct (holds_all _ _ Hdb2) as (hs & Ehs & Hph). rewrite Ehs in Eout. cbn [bind] in Eout. injection Eout as <-.
  pose proof (inv_perm _ _ _ _ _ _ _ (Permutation_sym Hph) Hi2) as Hi3.
  assert (So : segments (map (fun s => (s, group_hulls hs (c_id s))) selfs) = zlen b').
  { rewrite (segments_flat selfs); [|clear - Hi3 Henv|exact H2].
    - transitivity (zlen hs); [|unfold zlen; rewrite (Permutation_length Hph); reflexivity].
      rewrite (of_inst_count hs (map c_id selfs) Hnd (bi_inst _ _ _ _ _ _ Hi3)). clear.
      induction selfs as [|s l IH]; [reflexivity|]. cbn [map flat_map fold_right snd]. unfold zlen in *. rewrite app_length, <- IH.
      change (group_hulls hs (c_id s)) with (of_inst (c_id s) hs). lia.
    - assert (K : forall s, In s selfs -> tiling 0 (zlen (c_pts s) - 1) (map n_rng (group_hulls hs (c_id s)))).
      { intros s Hin. pose proof (bi_tiles _ _ _ _ _ _ Hi3 (c_id s) (in_map c_id _ _ Hin)) as K. unfold lines_of in K.
        rewrite (Henv s Hin) in K. exact K. }
      clear - K. induction selfs as [|s l IH]; cbn [map]; constructor; [split; [reflexivity|apply K; left; reflexivity]|].
      apply IH. intros t Ht. apply K. right; exact Ht. }
  pose proof (inv_size _ _ _ _ _ _ Hnd Hi2) as Z2. rewrite Hcap in Z2.
  assert (Hne : selfs <> [] -> flat_map snd done <> []).
  { intros K. destruct F0 as [|s r l dn [E J] F0]; [contradiction|]. cbn [flat_map].
    inversion Ft as [|? ? ? ? (_ & T) _]; subst. intros Q. apply app_eq_nil in Q. destruct Q as [Q _]. rewrite Q in T.
    destruct T as (rs & P1 & P2). apply Permutation_nil in P1. subst rs. cbn in P2. specialize (H2 _ (or_introl eq_refl)). unfold zlen in P2. lia. }
  assert (Hz : 0 <= zlen (flat_map snd done)) by (unfold zlen; lia).
  split; [|split; [|split]].
  - intros [K|K]; [discriminate|]. apply Hnil. rewrite K in Ft. inversion Ft; subst. reflexivity.
  - intros _ K. destruct (Hcalls (Hne K)) as (later & -> & L1 & L2 & L3 & L4 & _). exists later. rewrite So, Sd.
    split; [reflexivity|]. split; [exact L1|]. split; [exact L2|]. split; [exact L3|].
    intros Q. specialize (L4 Q). subst b'. rewrite map_map. cbn [snd].
    assert (G : forall s r, In (s, r) done -> simple_set (group_hulls hs (c_id s)) = simple_set r).
    { intros s r Hr. rewrite <- (A s r Hr). apply point_set_perm. apply filter_perm. exact Hph. }
    clear - F0 G. induction F0 as [|s [s' r] l dn (E & J) F IH]; [reflexivity|]. cbn [map]. cbn [fst snd] in *. subst s'. f_equal.
    + apply G. left; reflexivity.
    + apply IH. intros t q Ht. apply G. right; exact Ht.
  - rewrite So, Sd. lia.
  - destruct (flat_map snd done) as [|d0 D0] eqn:ED; [rewrite (Hnil eq_refl); change (zlen (@nil Z)) with 0; lia|].
    destruct (Hcalls ltac:(discriminate)) as (later & -> & _ & L2 & _).
    assert (zlen (zlen (d0 :: D0) :: later) = zlen later + 1) by (unfold zlen; cbn [length]; lia).
    assert (1 <= zlen (d0 :: D0)) by (unfold zlen; cbn [length]; lia). lia.
Qed.

(** The classes of C80: two arches that are left alone, and a line that is cut in three rounds. *)
Example C95_case :
  class_ready exW ex_gens env4 [f_spike; f_post] 40 /\ any_order in_turn /\
  constrained spike_opts = true /\
  fst (simplify_feature_class_reporting exW ex_gens (fun _ => in_turn) in_turn env4 [f_spike; f_post] spike_opts 40) = [5; 2; 2] /\
  fst (simplify_feature_class_reporting exW ex_gens (fun _ => in_turn) in_turn env2 [f_arch; f_bow] far_opts 40) = [2] /\
  match simplify_instances exW ex_gens (fun _ => in_turn) (fun i => if o_planar_self spike_opts
      then fc_junctions (w_geom exW) (lo_sort (w_lnr exW)) (map (fun s => (c_id s, c_pts s)) [f_spike; f_post]) i else []) 40 [f_spike; f_post],
    simplify_feature_class exW ex_gens (fun _ => in_turn) in_turn env4 [f_spike; f_post] spike_opts 40 with
  | Ok done, Ok out => segments done = 5 /\ segments out = 7 /\ segments_given [f_spike; f_post] = 8
  | _, _ => False
  end.
Proof.
  split; [class_ready_compute (f_of_Z 13)|]. split; [exact in_turn_ok|]. split; [reflexivity|].
  vm_compute. repeat split.
Qed.

Print Assumptions C95_result_unchanged.
Print Assumptions C95_calls.
