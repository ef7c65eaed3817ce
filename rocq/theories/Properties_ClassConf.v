(** What the class option guarantees about conflicts between different lines (C80). *)
From Verif Require Import M_Base M_Float M_Rng M_Geom M_Offset M_Node M_Decompose M_Split M_Hdb M_Knn M_Lnr M_Homotopy M_Relate
  M_Deform M_Constrain M_ConstDP Spec Spec_Hdb Spec_Relate Spec_Deform Spec_Lnr Spec_ConstDP
  P_Base P_Float P_Decompose P_Split P_Node P_Hdb P_HdbIns P_HdbLoad P_HdbHist P_Knn P_Homotopy P_Relate P_Db P_Bag
  P_Constrain P_Deform P_Conflict P_ConstDP P_Aggregate P_Simplify P_Class P_ClassConf P_Lnr Toy Toy_Box Properties_Core Properties_Lnr
  Properties_Relate Properties_ConstDP Properties_Constrain Properties_Conflict.
Open Scope Z_scope.

(** ** Statement *)

(** A class of lines as the program makes it: the lines have different ids, hull ids are never
    shared, vertices are numbers compared by location, and the fuel (the bound on rounds in
    the model) is twice the number of vertices and a bit. *)
Record class_ready (W : world) (gens : Z -> idgen) (env : Z -> cdp) (selfs : list cdp) (fuel : nat) : Prop := {
  cr_libs : libs_ok W;
  cr_ids : NoDup (map c_id selfs);
  cr_env : forall s, In s selfs -> env (c_id s) = s;
  cr_gens : forall i j k l, gens i k = gens j l -> i = j /\ k = l;
  cr_apart : forall i k l, w_gen W k <> gens i l;
  cr_lines : forall s, In s selfs -> line_ok (w_geom W) s /\ exists constraints, built_from W s constraints;
  cr_sort : sorts (lo_sort (w_lnr W));
  cr_num : Forall num_pt (class_points (map (fun s => (c_id s, c_pts s)) selfs));
  cr_eq : forall p q, In p (class_points (map (fun s => (c_id s, c_pts s)) selfs)) ->
    In q (class_points (map (fun s => (c_id s, c_pts s)) selfs)) -> gl_eq2d (w_geom W) p q = loc_eq p q;
  cr_fuel : (2 * length (class_points (map (fun s => (c_id s, c_pts s)) selfs)) + 2 <= fuel)%nat
}.

(** z is the hull of a part of another line of the class than the line of v.  It spans the
    same vertex numbers as v and is in conflict with x too. *)
Definition rival (L : geomlib) (disp : f64) (selfs : list cdp) (x v z : node) : Prop :=
  n_rng z = n_rng v /\ n_inst z <> n_inst v /\ looked_at L x z /\ class_conflict L disp x z z /\
  exists u, In u selfs /\ fresh_hull L (c_pts u) (c_id u) z.

(** ** Proof *)

Lemma class_sizes W env selfs : NoDup (map c_id selfs) -> (forall s, In s selfs -> env (c_id s) = s) ->
  (forall s, In s selfs -> line_ok (w_geom W) s) ->
  let n := length (class_points (map (fun s => (c_id s, c_pts s)) selfs)) in
  (forall s, In s selfs -> (length (c_pts s) <= n)%nat).
Proof.
  intros _ _ _. cbv zeta. induction selfs as [|x l IH]; intros s; [intros []|]. unfold class_points. cbn [map flat_map snd].
  rewrite app_length. intros [<- |Hin]; [lia|]. specialize (IH s Hin). unfold class_points in IH. lia.
Qed.

Section Run.
  Variables (W : world) (gens : Z -> idgen) (ords : Z -> nat -> list node -> list node) (ord : nat -> list node -> list node)
    (env : Z -> cdp) (selfs : list cdp) (o : opts) (fuel : nat).
  Hypothesis HC : class_ready W gens env selfs fuel.
  Hypothesis Ho1 : forall i, any_order (ords i).
  Hypothesis Ho2 : any_order ord.
  Hypothesis Hav : forall s, In s selfs -> o_avoid_self (c_opts s) = true.
  Hypothesis Hcon : constrained o = true.
  Let js i := if o_planar_self o
      then fc_junctions (w_geom W) (lo_sort (w_lnr W)) (map (fun s => (c_id s, c_pts s)) selfs) i else [].
  Notation inv := (bag_inv (w_geom W) (lines_of env) (map c_id selfs) (Src (w_gen W) (fun _ => True))).

  Lemma class_loop out : simplify_feature_class W gens ords ord env selfs o fuel = Ok out ->
    exists done hs ctr, simplify_instances W gens ords js fuel selfs = Ok done /\
      out = map (fun s => (s, group_hulls hs (c_id s))) selfs /\
      inv 0 (flat_map snd done) /\ inv ctr hs /\ map fst done = selfs /\
      (forall s r, In (s, r) done -> of_inst (c_id s) (flat_map snd done) = r) /\
      (exists age, in_time2 W env (map c_id selfs) age [] hs) /\
      (length hs = length (flat_map snd done) -> Permutation hs (flat_map snd done) /\
         forall x y v, In x hs -> In y hs -> n_inst y <> n_inst x -> big x ->
           nearby (w_geom W) epsilon_dist x y = true -> selects W env x y v -> rsize (n_rng v) = 1) /\
      (exists age, in_time_own W env (map c_id selfs) (flat_map snd done) age [] hs).
  Proof.
    intros E. destruct HC as [HW Hnd Henv Hg1 Hg2 Hl Hs Hn He Hf].
    assert (Hjs : forall s, In s selfs -> Forall (fun k => 0 <= k < zlen (c_pts s)) (js (c_id s))).
    { intros s Hin. unfold js. destruct (o_planar_self o); [|constructor]. apply Forall_forall. intros k Hk.
      set (fc := map (fun s => (c_id s, c_pts s)) selfs) in *.
      destruct (C17_junctions_partial (w_geom W) (lo_sort (w_lnr W)) fc Hs) with (fid := c_id s) as [_ K]; auto.
      { unfold fc. rewrite map_map. exact Hnd. }
      apply K in Hk. destruct Hk as (p & (pts & Hp & Hq) & _).
      unfold fc in Hp. apply in_map_iff in Hp. destruct Hp as (s' & Es & Hs'). injection Es as E1 E2.
      assert (s' = s) by (rewrite <- (Henv s' Hs'), <- (Henv s Hin), E1; reflexivity). subst s'. subst pts.
      unfold znth in Hq. destruct (k <? 0) eqn:Ek; [discriminate|]. apply Z.ltb_ge in Ek.
      assert (nth_error (c_pts s) (Z.to_nat k) <> None) as Hne by congruence. apply nth_error_Some in Hne. unfold zlen. lia. }
    assert (Hfu : forall s, In s selfs -> (2 * length (c_pts s) - 3 < fuel)%nat).
    { intros s Hin. pose proof (class_sizes W env selfs Hnd Henv (fun s H => proj1 (Hl s H)) s Hin). lia. }
    destruct (instances_spec W gens ords selfs HW Ho1 Hl Hg1 js fuel selfs (fun x H => H) Hjs Hfu) as (done & Edone & F).
    assert (F0 : Forall2 (fun s r => fst r = s /\ inst_ok W gens s (snd r)) selfs done).
    { clearbody js. clear - F. induction F as [|x y ? ? (E & J & _) F IH]; constructor; auto. }
    pose proof (class_bag W gens env selfs Hnd Henv Hg1 Hg2 done F0) as Hi.
    pose proof (setting_all W env selfs HW Hnd Henv Hl) as Sa.
    destruct (flat_of_inst W gens Hg1 selfs done Hnd F0) as (A & _).
    unfold simplify_feature_class in E. fold js in E. rewrite Edone in E. cbn [bind] in E. rewrite Hcon in E.
    unfold class_phase in E.
    assert (Hg : Forall good_item (flat_map snd done)).
    { apply Forall_forall. intros h Hh. apply (inv_goods W env (map c_id selfs) _ Sa 0 _ h Hi Hh). }
    destruct (holds_load (w_hdb W) new_hdb_default [] (flat_map snd done) (lb_rtree _ HW) holds_new Hg) as (db & Edb & Hdb).
    rewrite Edb in E. cbn [bind app] in E, Hdb.
    destruct (split_loop W env ord fuel 0 (fun _ => false) (flat_map snd done) db 0) as [[db2 ctr2]| |] eqn:E2; try discriminate E.
    cbn [bind] in E.
    assert (Ha : all_avoid env (map c_id selfs)).
    { intros i Hii. apply in_map_iff in Hii. destruct Hii as (s & <- & Hin). rewrite (Henv s Hin). auto. }
    destruct (split_loop_others W env (map c_id selfs) _ Sa Ha ord Ho2 fuel 0 (fun _ => false) (flat_map snd done) db 0
                (flat_map snd done) db2 ctr2 Hdb Hi (fun x H => H) E2) as (b' & Hdb2 & Hi2 & _ & (age & Ht) & Hone & Hsame).
    { exists (fun _ => 0%nat). intros x y v Hx Hy _ _ _ _. left. exact Hx. }
    destruct (split_loop_own W env (map c_id selfs) _ Sa Ha (flat_map snd done) ord Ho2 fuel 0 (fun _ => false) (flat_map snd done) db 0
                (flat_map snd done) db2 ctr2 Hdb Hi (fun x H => H) E2) as (b2 & Hdb2' & _ & (age2 & Ht2)).
    { intros x Hx. left. exact Hx. }
    { exists (fun _ => 0%nat). intros x y v Hx Hy _ _ _ _. left. exact Hx. }
    destruct (holds_all _ _ Hdb2) as (hs & Ehs & Hph). rewrite Ehs in E. cbn [bind] in E. injection E as <-.
    exists done, hs, ctr2. split; [exact Edone|]. split; [reflexivity|]. split; [exact Hi|].
    split; [exact (inv_perm _ _ _ _ _ _ _ (Permutation_sym Hph) Hi2)|]. split.
    { clear - F0. induction F0 as [|x y ? ? (E & _) F IH]; cbn [map]; [reflexivity|]. rewrite E, IH. reflexivity. }
    split; [exact A|]. split.
    { exists age. intros x y v Hx Hy. apply Ht; apply (Permutation_in _ Hph); assumption. }
    split; cycle 1.
    { destruct (holds_all _ _ Hdb2') as (hs' & Ehs' & Hph'). rewrite Ehs in Ehs'. injection Ehs' as <-.
      exists age2. intros x y v Hx Hy. apply Ht2; apply (Permutation_in _ Hph'); assumption. }
    - intros El. rewrite (Permutation_length Hph) in El. specialize (Hsame El). specialize (Hone El).
      pose proof (Permutation_trans Hph Hsame) as Hp. split; [exact Hp|].
      intros x y v Hx Hy. apply Hone; apply (Permutation_in _ Hp); assumption.
  Qed.
End Run.

Lemma class_pair_iff W env ids own (St : setting W env ids own) ctr b x y v : places_ok (w_geom W) ->
  bag_inv (w_geom W) (lines_of env) ids (Src (w_gen W) own) ctr b -> In x b -> hullish y ->
  selects W env x y v <-> class_conflict (w_geom W) (o_non_planar_displacement (c_opts (env (n_inst x)))) x y v.
Proof.
  intros Hp Hi Hx Hy. pose proof (inv_hullish _ _ _ _ _ _ Hi) as Hl. rewrite Forall_forall in Hl.
  exact (pair_iff _ _ true x y v Hp (st_touch _ _ _ _ St) (Hl x Hx) Hy).
Qed.

Lemma class_conflict_sym L disp a b v : n_inst a <> n_inst b -> even_handed L a b -> class_conflict L disp a b v ->
  exists w, class_conflict L disp b a w.
Proof.
  intros Hne H (Hg & [[K _]|(_ & Hin & M)]); [contradiction|]. pose proof (even_sym _ _ _ H) as H'.
  assert (G : forall w, must_change L disp False b a w -> exists w, class_conflict L disp b a w).
  { intros w K. exists w. split; [rewrite <- (eh_hulls _ _ _ H); exact Hg|]. right. split; [congruence|]. split; [|exact K].
    intros Q. apply Hin. pose proof (eh_count _ _ _ H) as Hc. rewrite Q in Hc. destruct (gl_inter L (n_geom a) (n_geom b)); [reflexivity|discriminate]. }
  assert (NC : new_crossing L a b -> new_crossing L b a).
  { intros [K1 K2]. split; [rewrite <- (eh_lines _ _ _ H); exact K1|rewrite <- (eh_segs _ _ _ H); exact K2]. }
  destruct M as [N K1 K2|N K1 K2 K3|v N K1 K2|N K1 K2|N K1 K2]; try contradiction.
  - destruct (gl_isect L (n_seg b) (n_line a)) eqn:E.
    + apply (G b), mc_first; auto.
    + apply (G a), mc_second; auto.
  - apply (G b), mc_first; auto.
  - apply (G b), mc_both; auto. destruct K1 as (D1 & D2). split; [rewrite <- (eh_lines _ _ _ H); exact D1|].
    destruct D2 as [[D2 D3]|(p & q & D2 & D3 & D4)].
    + left. split.
      * intros K. apply D2. pose proof (eh_line_points _ _ _ H') as Q. rewrite K in Q. apply Permutation_nil in Q. exact Q.
      * pose proof (eh_seg_points _ _ _ H) as Q. rewrite D3 in Q. apply Permutation_nil in Q. exact Q.
    + right. exists p, q. split; [apply (Permutation_in _ (eh_line_points _ _ _ H)), D2|].
      split; [apply (Permutation_in _ (eh_seg_points _ _ _ H)), D3|exact D4].
Qed.

Lemma nearby_looked_at L x y : nearby L epsilon_dist x y = true -> looked_at L x y.
Proof.
  unfold nearby, looked_at. rewrite !andb_true_iff, negb_true_iff, Z.eqb_neq. tauto.
Qed.

(** ** C80 *)

(** The hulls of the result can be ordered in time so that an examined hull is in conflict
    with a hull of another line, and not later than it, only if the hull to be changed has a
    rival.  Hence two examined hulls of different lines are in conflict only if the hull to be
    changed has a rival in one of the two checks. *)
Theorem C80_conflicts_left_between_lines :
  forall (W : world) gens ords ord (env : Z -> cdp) (selfs : list cdp) (o : opts) fuel out,
  class_ready W gens env selfs fuel -> places_ok (w_geom W) -> (forall i, any_order (ords i)) -> any_order ord ->
  o_avoid_self o = true -> (forall s, In s selfs -> o_avoid_self (c_opts s) = true) ->
  simplify_feature_class W gens ords ord env selfs o fuel = Ok out ->
  let L := w_geom W in
  let disp s := o_non_planar_displacement (c_opts s) in
  (exists time : node -> nat,
     forall s t hs ks x y v, In (s, hs) out -> In (t, ks) out -> s <> t -> In x hs -> In y ks -> examined x ->
       looked_at L x y -> (time y <= time x)%nat -> class_conflict L (disp s) x y v ->
       exists z, rival L (disp s) selfs x v z) /\
  (forall s t hs ks x y v, In (s, hs) out -> In (t, ks) out -> s <> t -> In x hs -> In y ks -> examined x -> examined y ->
     looked_at L x y -> looked_at L y x -> even_handed L x y -> disp s = disp t -> class_conflict L (disp s) x y v ->
     exists w z, (class_conflict L (disp s) x y w /\ rival L (disp s) selfs x w z) \/
                 (class_conflict L (disp t) y x w /\ rival L (disp t) selfs y w z)).
Proof.
  intros W gens ords ord env selfs o fuel out HC Hpl Ho1 Ho2 Hao Hav E L disp.
  assert (Hcon : constrained o = true) by (unfold constrained; rewrite Hao; reflexivity).
  destruct (class_loop W gens ords ord env selfs o fuel HC Ho1 Ho2 Hav Hcon out E)
    as (done & hs0 & ctr & _ & -> & _ & Hi & _ & _ & (age & Ht) & _).
  pose proof HC as HC'. destruct HC' as [HW Hnd Henv _ _ Hl _ _ _ _].
  pose proof (setting_all W env selfs HW Hnd Henv Hl) as Sa.
  assert (Hof : forall s hs x, In (s, hs) (map (fun s => (s, group_hulls hs0 (c_id s))) selfs) -> In x hs ->
     In s selfs /\ In x hs0 /\ n_inst x = c_id s).
  { intros s hs x Hs Hx. apply in_map_iff in Hs. destruct Hs as (s' & Es & Hs). injection Es as -> <-.
    apply of_inst_in in Hx. tauto. }
  assert (Hdist : forall s t, In s selfs -> In t selfs -> s <> t -> c_id s <> c_id t).
  { intros s t Hs Ht' Hst K. apply Hst. rewrite <- (Henv s Hs), <- (Henv t Ht'), K. reflexivity. }
  pose proof (inv_hullish _ _ _ _ _ _ Hi) as Hh. rewrite Forall_forall in Hh.
  assert (Main : forall s t hs ks x y v, In (s, hs) (map (fun s => (s, group_hulls hs0 (c_id s))) selfs) ->
       In (t, ks) (map (fun s => (s, group_hulls hs0 (c_id s))) selfs) -> s <> t -> In x hs -> In y ks -> examined x ->
       looked_at L x y -> (age (n_id y) <= age (n_id x))%nat -> class_conflict L (disp s) x y v ->
       exists z, rival L (disp s) selfs x v z).
  { intros s t hs ks x y v Hs Ht' Hst Hx Hy Ex Lxy Hage Kv.
    destruct (Hof s hs x Hs Hx) as (Ss & Sx & Ix). destruct (Hof t ks y Ht' Hy) as (Ts & Ty & Iy).
    assert (Ed : o_non_planar_displacement (c_opts (env (n_inst x))) = disp s) by (rewrite Ix, (Henv s Ss); reflexivity).
    destruct (Ht x y v Sx Ty) as [[]|[(z & Z1 & Z2 & Z3 & Z4 & Z5 & Z6)|K]]; [| | | | |lia].
    - rewrite Ix, Iy. intros K. apply (Hdist s t); auto.
    - exact (examined_big _ _ (inv_hull _ _ _ _ _ _ _ Hi Sx) Ex).
    - apply looked_at_nearby, Lxy.
    - apply (class_pair_iff W env (map c_id selfs) _ Sa ctr hs0 x y v); auto. rewrite Ed. exact Kv.
    - exists z. split; [exact Z4|]. split; [exact Z3|]. split; [apply nearby_looked_at, Z5|]. split.
      + apply (class_pair_iff W env (map c_id selfs) _ Sa ctr hs0 x z z) in Z6; auto; [|eapply fresh_hullish, Z1].
        rewrite Ed in Z6. exact Z6.
      + apply in_map_iff in Z2. destruct Z2 as (u & Eu & Hu). exists u. split; [exact Hu|].
        unfold proper, lines_of in Z1. rewrite <- Eu, (Henv u Hu) in Z1. exact Z1. }
  split; [exists (fun h => age (n_id h)); exact Main|].
  intros s t hs ks x y v Hs Ht' Hst Hx Hy Ex Ey Lxy Lyx Heh Hd Kv.
  destruct (Nat.le_gt_cases (age (n_id y)) (age (n_id x))) as [K|K].
  - destruct (Main s t hs ks x y v Hs Ht' Hst Hx Hy Ex Lxy K Kv) as [z Hz]. exists v, z. left. auto.
  - destruct (Hof s hs x Hs Hx) as (Ss & Sx & Ix). destruct (Hof t ks y Ht' Hy) as (Ts & Ty & Iy).
    destruct (class_conflict_sym L (disp s) x y v) as [w Kw]; auto; [rewrite Ix, Iy; apply Hdist; auto|].
    rewrite Hd in Kw. destruct (Main t s ks hs y x w Ht' Hs) as [z Hz]; auto; [lia|]. exists w, z. right. auto.
Qed.

(** Two hulls of one line in the result: if one of them is not among the hulls the line has
    without the class option, they are in conflict only like hulls of different lines are.
    The hulls can be ordered in time so that an examined hull is in conflict with a hull of
    its own line, and not later than it, only if the hull to be changed has a rival or both
    are left from the simplification of the line on its own. *)
Theorem C80_conflicts_left_within_a_line :
  forall (W : world) gens ords ord (env : Z -> cdp) (selfs : list cdp) (o : opts) fuel done out,
  class_ready W gens env selfs fuel -> places_ok (w_geom W) -> (forall i, any_order (ords i)) -> any_order ord ->
  o_avoid_self o = true -> (forall s, In s selfs -> o_avoid_self (c_opts s) = true) ->
  (* the lines one by one, with the junctions of the class kept if asked for *)
  simplify_instances W gens ords (fun i => if o_planar_self o
      then fc_junctions (w_geom W) (lo_sort (w_lnr W)) (map (fun s => (c_id s, c_pts s)) selfs) i else []) fuel selfs = Ok done ->
  simplify_feature_class W gens ords ord env selfs o fuel = Ok out ->
  let L := w_geom W in
  let disp s := o_non_planar_displacement (c_opts s) in
  let left_alone s x y := exists r, In (s, r) done /\ In x r /\ In y r in
  (exists time : node -> nat,
     forall s hs x y v, In (s, hs) out -> In x hs -> In y hs -> examined x ->
       looked_at L x y -> (time y <= time x)%nat -> class_conflict L (disp s) x y v ->
       left_alone s x y \/ exists z, rival L (disp s) selfs x v z) /\
  (forall s hs x y, In (s, hs) out -> In x hs -> In y hs -> examined x -> examined y -> looked_at L x y -> looked_at L y x ->
     (exists v, class_conflict L (disp s) x y v) -> (exists w, class_conflict L (disp s) y x w) ->
     left_alone s x y \/
     exists w z, (class_conflict L (disp s) x y w /\ rival L (disp s) selfs x w z) \/
                 (class_conflict L (disp s) y x w /\ rival L (disp s) selfs y w z)).
Proof.
  intros W gens ords ord env selfs o fuel done out HC Hpl Ho1 Ho2 Hao Hav Edone E L disp left_alone.
  assert (Hcon : constrained o = true) by (unfold constrained; rewrite Hao; reflexivity).
  destruct (class_loop W gens ords ord env selfs o fuel HC Ho1 Ho2 Hav Hcon out E)
    as (done' & hs0 & ctr & Ed' & -> & Hi0 & Hi & Hfst & Hflat & _ & _ & (age & Ht)).
  rewrite Edone in Ed'. injection Ed' as <-.
  pose proof HC as HC'. destruct HC' as [HW Hnd Henv _ _ Hl _ _ _ _].
  pose proof (setting_all W env selfs HW Hnd Henv Hl) as Sa.
  assert (Hof : forall s hs x, In (s, hs) (map (fun s => (s, group_hulls hs0 (c_id s))) selfs) -> In x hs ->
     In s selfs /\ In x hs0 /\ n_inst x = c_id s).
  { intros s hs x Hs Hx. apply in_map_iff in Hs. destruct Hs as (s' & Es & Hs). injection Es as -> <-.
    apply of_inst_in in Hx. tauto. }
  pose proof (inv_hullish _ _ _ _ _ _ Hi) as Hh. rewrite Forall_forall in Hh.
  assert (Main : forall s hs x y v, In (s, hs) (map (fun s => (s, group_hulls hs0 (c_id s))) selfs) ->
       In x hs -> In y hs -> examined x ->
       looked_at L x y -> (age (n_id y) <= age (n_id x))%nat -> class_conflict L (disp s) x y v ->
       left_alone s x y \/ exists z, rival L (disp s) selfs x v z).
  { intros s hs x y v Hs Hx Hy Ex Lxy Hage Kv.
    destruct (Hof s hs x Hs Hx) as (Ss & Sx & Ix). destruct (Hof s hs y Hs Hy) as (_ & Ty & Iy).
    assert (Ed : o_non_planar_displacement (c_opts (env (n_inst x))) = disp s) by (rewrite Ix, (Henv s Ss); reflexivity).
    destruct (Ht x y v Sx Ty) as [[]|[[K1 K2]|[(z & Z1 & Z2 & Z3 & Z4 & Z5 & Z6)|K]]]; [| | | | | |lia].
    - rewrite Ix, Iy. reflexivity.
    - exact (examined_big _ _ (inv_hull _ _ _ _ _ _ _ Hi Sx) Ex).
    - apply looked_at_nearby, Lxy.
    - apply (class_pair_iff W env (map c_id selfs) _ Sa ctr hs0 x y v); auto. rewrite Ed. exact Kv.
    - left. rewrite <- Hfst in Ss. apply in_map_iff in Ss. destruct Ss as ([s' r] & Es & Hr). cbn [fst] in Es. subst s'.
      exists r. split; [exact Hr|]. rewrite <- (Hflat s r Hr). split; apply of_inst_in; auto.
    - right. exists z. split; [exact Z4|]. split; [exact Z3|]. split; [apply nearby_looked_at, Z5|]. split.
      + apply (class_pair_iff W env (map c_id selfs) _ Sa ctr hs0 x z z) in Z6; auto; [|eapply fresh_hullish, Z1].
        rewrite Ed in Z6. exact Z6.
      + apply in_map_iff in Z2. destruct Z2 as (u & Eu & Hu). exists u. split; [exact Hu|].
        unfold proper, lines_of in Z1. rewrite <- Eu, (Henv u Hu) in Z1. exact Z1. }
  split; [exists (fun h => age (n_id h)); exact Main|].
  intros s hs x y Hs Hx Hy Ex Ey Lxy Lyx [v Kv] [w Kw].
  destruct (Nat.le_gt_cases (age (n_id y)) (age (n_id x))) as [K|K].
  - destruct (Main s hs x y v Hs Hx Hy Ex Lxy K Kv) as [Q|[z Hz]]; [left; exact Q|]. right. exists v, z. left. auto.
  - destruct (Main s hs y x w Hs Hy Hx Ey Lyx ltac:(lia) Kw) as [(r & Q1 & Q2 & Q3)|[z Hz]]; [left; exists r; auto|].
    right. exists w, z. right. auto.
Qed.

Lemma tiling_size hs (pts : list point) : (2 <= length pts)%nat -> tiling 0 (zlen pts - 1) (map n_rng hs) ->
  length (simple_set hs) = S (length hs).
Proof.
  intros H2 Ht. unfold simple_set. rewrite (point_set_perm _ _ (node_sort_perm hs)).
  rewrite (point_set_chain _ 0 (zlen pts - 1)); [|unfold zlen; lia|apply node_sort_chain, Ht].
  cbn [length]. rewrite map_length. f_equal. symmetry. apply Permutation_length, node_sort_perm.
Qed.

(** If the class option leaves every line as it is without it, no two hulls of different
    lines of which one is examined are in conflict, except over a hull of one segment. *)
Theorem C80_unchanged_means_clear :
  forall (W : world) gens ords ord (env : Z -> cdp) (selfs : list cdp) (o : opts) fuel done out,
  class_ready W gens env selfs fuel -> places_ok (w_geom W) -> (forall i, any_order (ords i)) -> any_order ord ->
  o_avoid_self o = true -> (forall s, In s selfs -> o_avoid_self (c_opts s) = true) ->
  (* the lines one by one, with the junctions of the class kept if asked for *)
  simplify_instances W gens ords (fun i => if o_planar_self o
      then fc_junctions (w_geom W) (lo_sort (w_lnr W)) (map (fun s => (c_id s, c_pts s)) selfs) i else []) fuel selfs = Ok done ->
  simplify_feature_class W gens ords ord env selfs o fuel = Ok out ->
  map (fun r => simple_set (snd r)) out = map (fun r => simple_set (snd r)) done ->
  let L := w_geom W in
  forall s t hs ks x y v, In (s, hs) out -> In (t, ks) out -> s <> t -> In x hs -> In y ks -> examined x -> looked_at L x y ->
    class_conflict L (o_non_planar_displacement (c_opts s)) x y v -> rJ (n_rng v) - rI (n_rng v) = 1.
Proof.
  intros W gens ords ord env selfs o fuel done out HC Hpl Ho1 Ho2 Hao Hav Edone E Hsame L s t hs ks x y v Hs Ht Hst Hx Hy Ex Lxy Kv.
  assert (Hcon : constrained o = true) by (unfold constrained; rewrite Hao; reflexivity).
  destruct (class_loop W gens ords ord env selfs o fuel HC Ho1 Ho2 Hav Hcon out E)
    as (done' & hs0 & ctr & Ed' & -> & Hi0 & Hi & Hfst & Hflat & _ & Hone & _).
  rewrite Edone in Ed'. injection Ed' as <-.
  destruct HC as [HW Hnd Henv _ _ Hl _ _ _ _].
  pose proof (setting_all W env selfs HW Hnd Henv Hl) as Sa.
  assert (Hof : forall s hs x, In (s, hs) (map (fun s => (s, group_hulls hs0 (c_id s))) selfs) -> In x hs ->
     In s selfs /\ In x hs0 /\ n_inst x = c_id s).
  { intros s0 hs1 x0 Hs0 Hx0. apply in_map_iff in Hs0. destruct Hs0 as (s' & Es & Hs0). injection Es as -> <-.
    apply of_inst_in in Hx0. tauto. }
  (* the numbers of hulls agree *)
  assert (Hlen : length hs0 = length (flat_map snd done)).
  { assert (Hsum : forall b c, bag_inv (w_geom W) (lines_of env) (map c_id selfs) (Src (w_gen W) (fun _ => True)) c b ->
      length b = fold_right (fun s n => (length (simple_set (of_inst (c_id s) b)) - 1 + n)%nat) 0%nat selfs).
    { intros b c Hb.
      assert (Hpart : forall l b', NoDup (map c_id l) -> (forall h, In h b' -> In (n_inst h) (map c_id l)) ->
        (forall s, In s l -> exists pts : list point, (2 <= length pts)%nat /\ tiling 0 (zlen pts - 1) (map n_rng (of_inst (c_id s) b'))) ->
        length b' = fold_right (fun s n => (length (simple_set (of_inst (c_id s) b')) - 1 + n)%nat) 0%nat l).
      { clear. induction l as [|s l IH]; intros b' Hn Hin Hti.
        - destruct b' as [|h r]; [reflexivity|destruct (Hin h (or_introl eq_refl))].
        - cbn [fold_right]. cbn [map] in Hn. inversion Hn as [|? ? N1 N2]; subst.
          set (r := filter (fun h => negb (n_inst h =? c_id s)) b').
          assert (Hl : length b' = (length (of_inst (c_id s) b') + length r)%nat).
          { unfold r, of_inst. clear. induction b' as [|h b' IH]; [reflexivity|]. cbn [filter length].
            destruct (n_inst h =? c_id s); cbn [negb length]; lia. }
          assert (Hr : forall t, In t l -> of_inst (c_id t) r = of_inst (c_id t) b').
          { intros t Ht. unfold r, of_inst. assert (Hne : c_id t <> c_id s) by (intros K; apply N1; rewrite <- K; apply in_map, Ht).
            clear - Hne. induction b' as [|h b' IH]; [reflexivity|]. cbn [filter].
            destruct (Z.eqb_spec (n_inst h) (c_id s)) as [K|K]; cbn [negb filter].
            - destruct (Z.eqb_spec (n_inst h) (c_id t)); [congruence|exact IH].
            - rewrite IH. reflexivity. }
          destruct (Hti s (or_introl eq_refl)) as (pts & P2' & Pt).
          rewrite (tiling_size _ pts P2' Pt). rewrite Hl. rewrite (IH r N2).
          + assert (Hext : forall l', incl l' l -> fold_right (fun t n => (length (simple_set (of_inst (c_id t) r)) - 1 + n)%nat) 0%nat l' =
              fold_right (fun t n => (length (simple_set (of_inst (c_id t) b')) - 1 + n)%nat) 0%nat l').
            { induction l' as [|t l' IH']; intros Hi; [reflexivity|]. cbn [fold_right].
              rewrite (Hr t) by (apply Hi; left; auto). rewrite IH' by (intros u Hu; apply Hi; right; auto). reflexivity. }
            rewrite (Hext l (incl_refl _)). lia.
          + intros h Hh. unfold r in Hh. apply filter_In in Hh. destruct Hh as [Hh K]. apply negb_true_iff, Z.eqb_neq in K.
            destruct (Hin h Hh) as [Q|Q]; [congruence|exact Q].
          + intros t Ht. rewrite (Hr t Ht). apply Hti. right; auto. }
      apply Hpart; auto.
      - intros h Hh. exact (inv_member _ _ _ _ _ _ _ Hb Hh).
      - intros u Hu. exists (c_pts u). split; [exact (lk_two _ _ (proj1 (Hl u Hu)))|].
        pose proof (bi_tiles _ _ _ _ _ _ Hb (c_id u) (in_map c_id _ _ Hu)) as K. unfold lines_of in K. rewrite (Henv u Hu) in K. exact K. }
    rewrite (Hsum hs0 ctr Hi), (Hsum (flat_map snd done) 0%nat Hi0).
    assert (Heq : forall u, In u selfs -> simple_set (of_inst (c_id u) hs0) = simple_set (of_inst (c_id u) (flat_map snd done))).
    { intros u Hu. rewrite map_map in Hsame. cbn [snd] in Hsame.
      assert (Hd : exists r, In (u, r) done /\ simple_set (group_hulls hs0 (c_id u)) = simple_set r).
      { assert (Hgo : forall dn l, map fst dn = l -> map (fun s => simple_set (group_hulls hs0 (c_id s))) l = map (fun r => simple_set (snd r)) dn ->
          In u l -> exists r, In (u, r) dn /\ simple_set (group_hulls hs0 (c_id u)) = simple_set r).
        { clear. induction dn as [|[a r] dn IH]; intros l <- Hm Hu; [destruct Hu|]. cbn [map fst snd] in *. injection Hm as H1 H2.
          destruct Hu as [-> |Hu]; [exists r; split; [left; auto|exact H1]|].
          destruct (IH _ eq_refl H2 Hu) as (r' & K1 & K2). exists r'. split; [right; auto|exact K2]. }
        apply (Hgo done selfs Hfst Hsame Hu). }
      destruct Hd as (r & Hr & Er). rewrite (Hflat u r Hr). exact Er. }
    clear - Heq. revert Heq. generalize (flat_map snd done) as b. intros b. induction selfs as [|u l IH]; intros Heq; [reflexivity|].
    cbn [fold_right]. rewrite (Heq u) by (left; auto). rewrite IH by (intros w Hw; apply Heq; right; auto). reflexivity. }
  destruct (Hone Hlen) as [_ Hz].
  destruct (Hof s hs x Hs Hx) as (Ss & Sx & Ix). destruct (Hof t ks y Ht Hy) as (Ts & Ty & Iy).
  pose proof (inv_hullish _ _ _ _ _ _ Hi) as Hh. rewrite Forall_forall in Hh.
  pose proof (inv_hull _ _ _ _ _ _ _ Hi Sx) as Hxh.
  change (rsize (n_rng v) = 1). apply (Hz x y v Sx Ty).
  - rewrite Ix, Iy. intros K. apply Hst. rewrite <- (Henv s Ss), <- (Henv t Ts), K. reflexivity.
  - exact (examined_big _ _ Hxh Ex).
  - apply looked_at_nearby, Lxy.
  - apply (class_pair_iff W env (map c_id selfs) _ Sa ctr hs0 x y v); auto. rewrite Ix, (Henv s Ss). exact Kv.
Qed.

Lemma ex_gens_ok : (forall i j k l, ex_gens i k = ex_gens j l -> i = j /\ k = l) /\ (forall i k l, w_gen exW k <> ex_gens i l).
Proof.
  split; [|intros i k l; unfold exW, ex_gen, ex_gens; cbn [w_gen]; lia].
  intros i j k l E. unfold ex_gens in E.
  assert (E' : Cantor.to_nat (zcode i, k) = Cantor.to_nat (zcode j, l)) by lia.
  apply (f_equal Cantor.of_nat) in E'. rewrite !Cantor.cancel_of_to in E'. injection E' as E1 E2. split; [|exact E2].
  unfold zcode in E1. destruct (i <? 0) eqn:Ei, (j <? 0) eqn:Ej; rewrite ?Z.ltb_lt, ?Z.ltb_ge in *; lia.
Qed.
(** Two lines that cross before and after, when crossings may move by 100. *)
Definition far_opts : opts := Opts (f_of_Z 20) fzero (f_of_Z 100) false false true false false false.
Definition f_arch : cdp := Cdp 1 [P2 0 0; P2 10 10; P2 20 0] far_opts toy_score None new_hdb_default.
Definition f_bow : cdp := Cdp 2 [P2 10 (-5); P2 14 8; P2 10 20] far_opts toy_score None new_hdb_default.
Definition env2 (i : Z) : cdp := if i =? 1 then f_arch else f_bow.
(** The lines of C80_within_case. *)
Definition spike_opts : opts := Opts (f_of_Z 13) fzero fzero false false true false false false.
Definition f_spike : cdp :=
  Cdp 1 [P2 0 0; P2 8 2; P2 10 12; P2 15 7; P2 20 0; P2 20 40; P2 (-20) 40; P2 6 4] spike_opts toy_score None new_hdb_default.
Definition f_post : cdp := Cdp 2 [P2 10 (-5); P2 10 1] spike_opts toy_score None new_hdb_default.
Definition env4 (i : Z) : cdp := if i =? 1 then f_spike else f_post.
Ltac class_cases H := repeat (destruct H as [<- |H]); [..|destruct H].
(** Classes of the toy world without constraint objects. *)
Ltac class_ready_compute T :=
  split;
  [ exact exW_ok
  | repeat constructor; cbn; intuition discriminate
  | let s := fresh in let H := fresh in intros s H; class_cases H; reflexivity
  | exact (proj1 ex_gens_ok)
  | exact (proj2 ex_gens_ok)
  | let s := fresh in let H := fresh in intros s H; class_cases H;
      (split; [line_ok_compute T|]; exists []; split; [vm_compute; reflexivity|constructor])
  | exact v_sort_sorts
  | unfold class_points; cbn [flat_map map snd c_pts app f_over f_bar f_round f_arch f_bow f_spike f_post]; repeat (constructor; [split; vm_compute; reflexivity|]); constructor
  | let p := fresh in let q := fresh in intros p q _ _; reflexivity
  | cbn; lia ].

(** The class of C35: after the run [over] still crosses [bar], because [round], which has the
    same range as [over], was selected in its place. *)
Example C80_case :
  let selfs := [f_over; f_bar; f_round] in
  class_ready exW ex_gens env3 selfs 40 /\ places_ok toy /\ o_avoid_self ao = true /\
  (forall s, In s selfs -> o_avoid_self (c_opts s) = true) /\
  match (out <- simplify_feature_class exW ex_gens (fun _ => in_turn) in_turn env3 selfs ao 40 ;; Ok (map snd out)) with
  | Ok [[x]; [y]; _] =>
    n_inst x = c_id f_over /\ n_inst y = c_id f_bar /\ examined x /\ looked_at toy x y /\
    class_conflict toy fzero x y x /\ rival toy fzero selfs x x (whole f_round)
  | _ => False
  end.
Proof.
  cbv zeta. split; [class_ready_compute (f_of_Z 20)|]. split; [exact toy_places|]. split; [reflexivity|].
  split; [intros s [<- |[<- |[<- |[]]]]; reflexivity|].
  match goal with |- match ?t with _ => _ end => destruct t as [out| |] eqn:E; vm_compute in E; try discriminate E end.
  injection E as <-.
  split; [reflexivity|]. split; [reflexivity|]. split; [split; vm_compute; congruence|].
  split; [vm_compute; repeat split; congruence|]. split.
  { split; [vm_compute; reflexivity|]. right. split; [discriminate|]. split; [vm_compute; discriminate|].
    apply mc_first; [tauto|split; vm_compute; reflexivity|vm_compute; reflexivity]. }
  split; [reflexivity|]. split; [discriminate|]. split; [vm_compute; repeat split; congruence|]. split.
  { split; [vm_compute; reflexivity|]. right. split; [discriminate|]. split; [vm_compute; discriminate|].
    apply mc_second; [tauto|split; vm_compute; reflexivity|vm_compute; reflexivity|vm_compute; reflexivity]. }
  exists f_round. split; [cbn; auto|]. vm_compute. repeat split; congruence.
Qed.

Example C80_unchanged_case :
  let selfs := [f_arch; f_bow] in
  class_ready exW ex_gens env2 selfs 40 /\ places_ok toy /\ o_avoid_self far_opts = true /\
  (forall s, In s selfs -> o_avoid_self (c_opts s) = true) /\
  match simplify_instances exW ex_gens (fun _ => in_turn) (fun i => if o_planar_self far_opts
      then fc_junctions (w_geom exW) (lo_sort (w_lnr exW)) (map (fun s => (c_id s, c_pts s)) selfs) i else []) 40 selfs,
    simplify_feature_class exW ex_gens (fun _ => in_turn) in_turn env2 selfs far_opts 40 with
  | Ok done, Ok out => map (fun r => simple_set (snd r)) out = map (fun r => simple_set (snd r)) done /\ match map snd out with
    | [[x]; [y]] => n_inst x = c_id f_arch /\ n_inst y = c_id f_bow /\ n_rng x = Rng 0 2 /\ n_rng y = Rng 0 2 /\ examined x /\ examined y /\ looked_at toy x y
    | _ => False
    end
  | _, _ => False
  end.
Proof.
  cbv zeta. split; [class_ready_compute (f_of_Z 20)|]. split; [exact toy_places|]. split; [reflexivity|].
  split; [intros s [<- |[<- |[]]]; reflexivity|].
  vm_compute. repeat split; congruence.
Qed.

(** A line with an arch whose last segment reaches into a dent of the arch.  Another line
    makes the arch be cut in the middle.  The chord of its first half crosses the last
    segment, so the line is compared with itself again and the first half is cut too. *)
Example C80_within_case :
  let selfs := [f_spike; f_post] in
  class_ready exW ex_gens env4 selfs 40 /\ places_ok toy /\ o_avoid_self spike_opts = true /\
  (forall s, In s selfs -> o_avoid_self (c_opts s) = true) /\
  match simplify_instances exW ex_gens (fun _ => in_turn) (fun i => if o_planar_self spike_opts
      then fc_junctions (w_geom exW) (lo_sort (w_lnr exW)) (map (fun s => (c_id s, c_pts s)) selfs) i else []) 40 selfs,
    simplify_feature_class exW ex_gens (fun _ => in_turn) in_turn env4 selfs spike_opts 40 with
  | Ok done, Ok out =>
    map (fun r => simple_set (snd r)) done = [[0; 4; 5; 6; 7]; [0; 1]] /\
    map (fun r => simple_set (snd r)) out = [[0; 1; 2; 4; 5; 6; 7]; [0; 1]] /\
    match map (fun r => node_sort (snd r)) out with
    | [_ :: y :: x :: _; _] => n_rng x = Rng 2 4 /\ n_rng y = Rng 1 2 /\ examined x /\ looked_at toy x y
    | _ => False
    end
  | _, _ => False
  end /\
  gl_isect toy (GSeg (P2 0 0) (P2 10 12)) (GLine [P2 (-20) 40; P2 6 4]) = true.
Proof.
  cbv zeta. split; [class_ready_compute (f_of_Z 13)|]. split; [exact toy_places|]. split; [reflexivity|].
  split; [intros s [<- |[<- |[]]]; reflexivity|]. split; [|vm_compute; reflexivity].
  vm_compute. repeat split; congruence.
Qed.

Print Assumptions C80_conflicts_left_between_lines.
Print Assumptions C80_unchanged_means_clear.
Print Assumptions C80_conflicts_left_within_a_line.
