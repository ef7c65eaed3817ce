(** Runs without constraint options and the class option. *)
From Coq Require Import Ascii String.
From Verif Require Import M_Base M_Float M_Rng M_Geom M_Offset M_Node M_Decompose M_Split M_Hdb M_Knn M_Lnr M_Homotopy M_Relate
  M_Deform M_Constrain M_ConstDP M_Text M_IO Spec Spec_Hdb Spec_ConstDP Spec_Out Spec_Modes
  P_Base P_Float P_Decompose P_DpTree P_Split P_Node P_Hdb P_HdbIns P_HdbLoad P_HdbHist P_Knn P_Homotopy P_Relate P_Db P_Bag
  P_Constrain P_Deform P_ConstDP P_Aggregate P_Simplify P_Class.
Open Scope Z_scope.

(** ** The textbook algorithm *)

Section Textbook.
  Variables (dist : point -> point -> point -> f64) (T : f64) (pts : list point).
  Hypothesis HT : fle fzero T = true.

  Lemma tree_textbook r l : tree pts (max_offset dist) (score_rel T) r l -> 0 <= rI r -> rI r < rJ r ->
    textbook dist T pts (rI r) (rJ r) (rI r :: map rJ l).
  Proof.
    assert (Hs : splits_inside (max_offset dist) (score_rel T)) by (apply max_offset_splits; exact HT).
    induction 1 as [r A|r l1 l2 A H1 IH1 H2 IH2]; intros H0 Hr.
    - cbn [map]. apply tb_keep_ends. intros m Hm.
      destruct (flt T _) eqn:E; [exfalso|reflexivity].
      assert (K := accepted_offsets dist T pts r m H0 Hm HT A). cbv zeta in K.
      specialize (K (flt_nan_r _ _ E)). apply fle_not_lt in K. unfold vertex in E. congruence.
    - set (c := sub_coords pts r) in *.
      assert (Hlen : clen c = rJ r - rI r + 1) by (apply clen_sub; lia).
      destruct (Hs c ltac:(lia)) as [K|K]; [congruence|].
      pose proof (max_offset_farthest dist c ltac:(lia)) as F. cbv zeta in F.
      set (k := fst (max_offset dist c)) in *. set (v := snd (max_offset dist c)) in *.
      rewrite Hlen in F, K. replace (rJ r - rI r + 1 - 1) with (rJ r - rI r) in F, K by lia.
      destruct F as [(F1 & _)|(F1 & F2 & F3 & F4 & F5)]; [lia|].
      assert (Ed : forall m, 0 <= m <= rJ r - rI r -> dist (cpt c 0) (cpt c (rJ r - rI r)) (cpt c m) =
        dist (vertex pts (rI r)) (vertex pts (rJ r)) (vertex pts (rI r + m))).
      { intros m Hm. unfold c, vertex. rewrite !cpt_sub by lia. f_equal; f_equal; f_equal; lia. }
      rewrite map_app. cbn [rI rJ] in IH1, IH2. change (rI r :: map rJ l1 ++ map rJ l2) with ((rI r :: map rJ l1) ++ map rJ l2).
      rewrite Ed in F2 by lia.
      apply (tb_split dist T pts (rI r) (rJ r) (rI r + k)); cbv zeta.
      + lia.
      + rewrite <- F2. apply fle_total; [apply (fle_nan_r _ _ F3)|apply (fle_nan_r _ _ HT)|exact A].
      + intros m Hm. rewrite <- F2. specialize (F4 (m - rI r) ltac:(lia)). cbv beta in F4. rewrite Ed in F4 by lia.
        replace (rI r + (m - rI r)) with m in F4 by lia.
        destruct (flt v _) eqn:E; [|reflexivity]. specialize (F4 (flt_nan_r _ _ E)). apply fle_not_lt in F4. congruence.
      + intros m Hm. rewrite <- F2. specialize (F5 (m - rI r) ltac:(lia)). cbv beta in F5. rewrite Ed in F5 by lia.
        replace (rI r + (m - rI r)) with m in F5 by lia. exact F5.
      + apply IH1; lia.
      + apply IH2; lia.
  Qed.

  Lemma textbook_hd i j s : textbook dist T pts i j s -> exists s', s = i :: s'.
  Proof.
    induction 1 as [i j _|i j k l r d H1 H2 H3 H4 A (s' & ->) B _]; [eauto|]. exists (s' ++ r). reflexivity.
  Qed.

  Lemma textbook_unique i j s : textbook dist T pts i j s -> forall s', textbook dist T pts i j s' -> s = s'.
  Proof.
    induction 1 as [i j H|i j k l r d H1 H2 H3 H4 A IHA B IHB]; intros s' H'.
    - inversion H' as [|i' j' k' l' r' d' G1 G2 G3 G4 A' B']; subst; [reflexivity|]. unfold d' in G2. rewrite H in G2 by lia. discriminate.
    - inversion H' as [? ? G|i' j' k' l' r' d' G1 G2 G3 G4 A' B']; subst.
      + unfold d in H2. rewrite G in H2 by lia. discriminate.
      + assert (k' = k).
        { unfold d in H2, H3, H4. unfold d' in G2, G3, G4. clear d d'. destruct (Z.lt_trichotomy k k') as [K|[K|K]]; [exfalso|auto|exfalso].
          - specialize (H4 k' ltac:(lia)). specialize (G3 k ltac:(lia)). 
            apply flt_total in G3; [congruence|apply (flt_nan_r _ _ G2)|apply (flt_nan_r _ _ H2)].
          - specialize (G4 k ltac:(lia)). specialize (H3 k' ltac:(lia)).
            apply flt_total in H3; [|apply (flt_nan_r _ _ H2)|apply (flt_nan_r _ _ G2)]. congruence. }
        subst k'. f_equal; [apply IHA, A'|]. specialize (IHB _ B'). congruence.
  Qed.
End Textbook.

(** ** Nothing to check *)

Section Free.
  Variable W : world.
  Variable self : cdp.
  Variable own : Z -> Prop.
  Variable ord : nat -> list node -> list node.
  Hypothesis Hord : forall k l, Permutation (ord k l) l.
  Hypothesis St : setting W (fun _ => self) [c_id self] own.
  Hypothesis H2 : (2 <= length (c_pts self))%nat.
  Hypothesis Hsplits : splits_inside (dp_score (c_score self) (c_sq self)) (dp_relation (o_threshold (c_opts self)) (c_sq self)).
  Notation inv := (bag_inv (w_geom W) (lines_of (fun _ => self)) [c_id self] (Src (w_gen W) own)).

  Lemma simplify_free verts fuel ctr : free (c_opts self) -> o_planar_self (c_opts self) = false ->
    Forall (fun k => 0 <= k < zlen (c_pts self)) verts ->
    (2 * length (c_pts self) - 3 < fuel)%nat ->
    exists hs0 ctr0 hs ctr',
      dp_decompose (w_geom W) (w_gen W) (create_polyline (c_pts self)) (c_id self)
        (o_threshold (c_opts self)) (c_score self) (c_sq self) fuel ctr = Ok (hs0, ctr0) /\
      simplify W ord self verts fuel ctr = Ok (hs, ctr') /\
      (forall k, cut_at hs (c_id self) k -> cut_at hs0 (c_id self) k) /\
      (forall k, cut_at hs0 (c_id self) k -> cut_at hs (c_id self) k \/
         exists h, In h hs0 /\ rsize (n_rng h) = 1 /\ (rI (n_rng h) = k \/ rJ (n_rng h) = k)) /\
      Forall (fun h => n_inst h = c_id self) hs0 /\ Forall (fun h => n_inst h = c_id self) hs.
  Proof.
    intros Hfree Hpl Hverts Hfuel.
    destruct (decompose_total (w_geom W) (w_gen W) (c_pts self) (c_id self) _ _ fuel ctr Hsplits Hfuel) as (hs0 & ctr0 & E0).
    destruct (decompose_sound (w_geom W) (w_gen W) (c_pts self) (c_id self) _ _ fuel ctr hs0 ctr0 Hsplits H2 E0)
      as (Hch & Hhull & Hok & Hid & Ectr).
    exists hs0, ctr0. unfold simplify, dp_decompose. rewrite E0. cbn [bind].
    assert (Hi0 : inv ctr0 hs0).
    { subst ctr0. apply inv_start; auto. rewrite Forall_forall in *. intros h Hh.
      eapply node_fresh; [apply Hhull, Hh|apply Hok, Hh]. }
    assert (Hgood : forall h, fresh_hull (w_geom W) (c_pts self) (c_id self) h -> good_item h).
    { intros h Hh. apply (fresh_good_item W self own St h Hh). }
    destruct (to_self_spec (w_geom W) (c_pts self) (c_id self) (Src (w_gen W) own) (st_gen _ _ _ _ St) (w_hdb W) (st_hdb _ _ _ _ St)
                (w_pop W) (st_pop _ _ _ _ St) Hgood (w_lnr W) hs0 (c_opts self) verts ctr0 Hi0 Hverts)
      as (hs1 & cvs & ctr1 & E1 & Hi1 & Hc1 & Hcut1 & Hoff & Hon).
    cbn [s_gen] in E1. rewrite E1. cbn [bind]. destruct (Hoff Hpl) as [-> ->]. clear Hon Hcut1 Hoff.
    assert (Hg1 : Forall good_item hs0).
    { apply Forall_forall. intros h Hh. eapply line_good; [exact St|exact Hi1|exact Hh]. }
    destruct (holds_load (w_hdb W) new_hdb_default [] hs0 (st_hdb _ _ _ _ St) holds_new Hg1) as (db1 & -> & Hdb1).
    cbn [bind app] in *.
    rewrite (split_free W (fun _ => self) ord Hord); [|lia|auto]. cbn [bind].
    destruct (holds_all _ _ Hdb1) as (objs & -> & Hpo). cbn [bind].
    assert (Hps : Permutation hs0 (node_sort objs)) by (rewrite <- Hpo; apply node_sort_perm).
    destruct (aggregate_spec W self own St [] (length (node_sort objs)) (node_sort objs) db1 hs0 [] [] ctr1 0)
      as (db3 & ctr3 & b3 & -> & Hdb3 & Hst); auto.
    { intros x Hx. eapply Permutation_in; [symmetry; exact Hps|exact Hx]. }
    { apply node_sort_chain. eapply tiling_perm; [apply Permutation_map; symmetry; exact Hpo|]. eapply line_tiles; exact Hi1. }
    cbn [bind]. destruct (holds_all _ _ Hdb3) as (hs & -> & Hph). cbn [bind].
    exists hs, ctr3. split; [reflexivity|]. split; [reflexivity|].
    split; [|split; [|split]].
    - intros k K. apply (s_old _ _ _ _ _ _ _ _ Hst). eapply cut_perm; eauto.
    - intros k K. destruct (s_drop _ _ _ _ _ _ _ _ Hst k K) as [K'|K']; [left|right; exact K'].
      eapply cut_perm; [symmetry; exact Hph|exact K'].
    - apply Forall_forall. intros h Hh. eapply line_inst; eauto.
    - apply Forall_forall. intros h Hh. eapply line_inst; [apply Hst|]. eapply Permutation_in; eauto.
  Qed.
End Free.

Lemma point_cut hs i k : Forall (fun h => n_inst h = i) hs -> In k (point_set hs) <-> cut_at hs i k.
Proof.
  intros Hi. rewrite Forall_forall in Hi. rewrite (proj2 (point_set_spec hs)). unfold cut_at. split.
  - intros (h & Hh & K). exists h. split; [exact Hh|]. split; [auto|]. destruct K; auto.
  - intros (h & Hh & _ & K). exists h. split; [exact Hh|]. destruct K; auto.
Qed.

(** ** The class option *)

Lemma run_class_same {P} (lib : jsonlib P) S o score input cinput : constrained o = false ->
  run lib S true o score input cinput = run lib S false o score input cinput.
Proof.
  intros H. unfold run.
  destruct (parse_input lib (read_json_tokens input)) as [plns| |]; [cbn [bind]|reflexivity..].
  destruct (parse_constraints lib (read_json_tokens cinput)) as [cs| |]; [cbn [bind]|reflexivity..].
  destruct (forest (su_world S) (su_ids S) 0 plns cs o score) as [selfs| |]; [cbn [bind]|reflexivity..].
  destruct selfs as [|d r]; [reflexivity|]. unfold simplify_feature_class. rewrite H.
  unfold constrained in H. apply orb_false_iff in H as [H _]. apply orb_false_iff in H as [H _]. apply orb_false_iff in H as [H _].
  apply orb_false_iff in H as [_ H]. rewrite H.
  destruct (simplify_instances (su_world S) (su_gens S) (su_ords S) (fun _ => []) (su_fuel S) (d :: r)) as [done| |]; reflexivity.
Qed.

(** ** Without relation options *)

Section Unread.
  Definition strip (s : cdp) : cdp := Cdp (c_id s) (c_pts s) (c_opts s) (c_score s) (c_sq s) new_hdb_default.

  Lemma validate_unread L pop o t h : constraints_unused o -> validate_context L pop o t h = Ok true.
  Proof. intros (A & B & C). unfold validate_context. rewrite A, B, C. reflexivity. Qed.

  Lemma check_unread W env dirty db h : (forall i, constraints_unused (c_opts (env i))) ->
    check_hull W env dirty db h = check_hull W (fun i => strip (env i)) dirty db h.
  Proof.
    intros H. unfold check_hull. cbn [strip c_opts c_ctxdb].
    destruct (rsize (n_rng h) =? 1); [reflexivity|]. destruct (is_line (n_geom h)); [reflexivity|].
    destruct (if o_avoid_self _ then _ else _) as [[bln sel]| |]; [|reflexivity..]. cbn [bind]. destruct bln; [|reflexivity].
    rewrite !validate_unread by apply H. reflexivity.
  Qed.
  Lemma mapM_ext {A B} (f g : A -> res B) l : (forall x, f x = g x) -> mapM f l = mapM g l.
  Proof. intros H. induction l as [|x l IH]; cbn [mapM]; [reflexivity|]. rewrite H, IH. reflexivity. Qed.
  Lemma find_unread W env dirty hs db : (forall i, constraints_unused (c_opts (env i))) ->
    find_deformable W env dirty hs db = find_deformable W (fun i => strip (env i)) dirty hs db.
  Proof. intros H. unfold find_deformable. rewrite (mapM_ext _ _ hs (fun x => check_unread W env dirty db x H)). reflexivity. Qed.
  Lemma deform_unread W env sel : forall ctr, deform_nodes W env sel ctr = deform_nodes W (fun i => strip (env i)) sel ctr.
  Proof.
    induction sel as [|h r IH]; intros ctr; cbn [deform_nodes]; [reflexivity|]. cbn [strip c_score c_sq].
    destruct (1 <? rsize (n_rng h)); [|rewrite IH; reflexivity].
    destruct (at_score_selection _ _ _ _ _) as [[[a b] c1]| |]; cbn [bind]; [rewrite IH|..]; reflexivity.
  Qed.
  Lemma split_unread W env ord : (forall i, constraints_unused (c_opts (env i))) -> forall fuel round dirty ds db ctr,
    split_loop W env ord fuel round dirty ds db ctr = split_loop W (fun i => strip (env i)) ord fuel round dirty ds db ctr.
  Proof.
    intros H. induction fuel as [|f IH]; intros round dirty ds db ctr; cbn [split_loop]; [reflexivity|].
    destruct ds as [|d r]; [reflexivity|]. rewrite (find_unread W env) by exact H.
    destruct (find_deformable _ _ _ _ _) as [found| |]; [|reflexivity..]. cbn [bind].
    destruct (ord (2 * round)%nat found) as [|x l]; [reflexivity|]. rewrite deform_unread.
    destruct (deform_nodes _ _ _ _) as [[defs c1]| |]; [|reflexivity..]. cbn [bind].
    destruct (load _ _ _) as [db'| |]; [|reflexivity..]. cbn [bind]. apply IH.
  Qed.
  Lemma merge_unread W s db h : constraints_unused (c_opts s) -> validate_merge W s db h = validate_merge W (strip s) db h.
  Proof.
    intros H. unfold validate_merge. cbn [strip c_opts c_ctxdb]. destruct (if o_avoid_self _ then _ else _) as [[bln side]| |]; [|reflexivity..].
    cbn [bind]. destruct (negb _ || negb bln); [reflexivity|]. rewrite !validate_unread by exact H. reflexivity.
  Qed.
  Lemma try_unread W s e ab cache ctr : try_merge W s e ab cache ctr = try_merge W (strip s) e ab cache ctr.
  Proof. reflexivity. Qed.
  Lemma aggregate_unread W s cvs : constraints_unused (c_opts s) -> forall n objects db cache copied ctr, (length objects <= n)%nat ->
    aggregate W s cvs objects db cache copied ctr = aggregate W (strip s) cvs objects db cache copied ctr.
  Proof.
    intros H. induction n as [|n IH]; intros objects db cache copied ctr Hn.
    - destruct objects; [reflexivity|cbn in Hn; lia].
    - destruct objects as [|hull rest]; [reflexivity|]. cbn [length] in Hn. cbn [aggregate].
      destruct (negb (rsize (n_rng hull) =? 1)); [apply IH; lia|].
      destruct (zmem (rI (n_rng hull)) cvs && zmem (rJ (n_rng hull)) cvs); [apply IH; lia|].
      destruct (node_neighbours _ _ _ _) as [ns| |]; [|reflexivity..]. cbn [bind]. destruct (neighbours hull ns) as [prev nxt].
      rewrite (try_unread W s). destruct (try_merge W (strip s) _ _ cache ctr) as [[[mp ca] ct]| |]; [|reflexivity..]. cbn [bind].
      rewrite (try_unread W s). destruct (try_merge W (strip s) _ _ ca ct) as [[[mn ca'] ct']| |]; [|reflexivity..]. cbn [bind].
      match goal with |- bind ?x _ = bind ?y _ => assert (E : x = y) end.
      { destruct mn as [m|]; [|reflexivity]. destruct nxt; [|reflexivity]. rewrite merge_unread by exact H. reflexivity. }
      rewrite E. clear E. match goal with |- bind ?x _ = _ => destruct x as [[[[db1 ins] merged] skip]| |] end; [|reflexivity..]. cbn [bind].
      match goal with |- bind ?x _ = bind ?y _ => assert (E : x = y) end.
      { destruct (if merged then None else mp) as [m|]; [|reflexivity]. destruct prev; [|reflexivity]. rewrite merge_unread by exact H. reflexivity. }
      rewrite E. clear E. match goal with |- bind ?x _ = _ => destruct x as [[[db2 ins2] merged2]| |] end; [|reflexivity..]. cbn [bind].
      destruct (load _ _ _) as [db3| |]; [|reflexivity..]. cbn [bind]. apply IH.
      destruct skip; [|lia]. destruct rest; cbn [length] in *; lia.
  Qed.
  Lemma simplify_unread W ord s verts fuel ctr : constraints_unused (c_opts s) ->
    simplify W ord s verts fuel ctr = simplify W ord (strip s) verts fuel ctr.
  Proof.
    intros H. unfold simplify. cbn [strip c_pts c_id c_opts c_score c_sq].
    destruct (dp_decompose _ _ _ _ _ _ _ _ _) as [[hs c1]| |]; [|reflexivity..]. cbn [bind].
    destruct (to_self_intersects _ _ _ _ _ _ _ _ _ _) as [[[hs' cvs] c2]| |]; [|reflexivity..]. cbn [bind].
    destruct (load _ _ _) as [db| |]; [|reflexivity..]. cbn [bind].
    rewrite (split_unread W (fun _ => s)) by (intros _; exact H). change (fun _ : Z => Cdp _ _ _ _ _ _) with (fun _ : Z => strip s).
    destruct (split_loop _ _ _ _ _ _ _ _ _) as [[db1 c3]| |]; [|reflexivity..]. cbn [bind].
    destruct (all db1) as [objs| |]; [|reflexivity..]. cbn [bind].
    rewrite (aggregate_unread W s cvs H _ _ _ _ _ _ (le_n _)). reflexivity.
  Qed.
  Definition strip_done (d : list (cdp * list node)) : list (cdp * list node) := map (fun x => (strip (fst x), snd x)) d.
  Definition rmap {A B} (f : A -> B) (r : res A) : res B := match r with Ok a => Ok (f a) | Panic => Panic | NoFuel => NoFuel end.
  Lemma instances_unread W gens ords js fuel selfs : Forall (fun s => constraints_unused (c_opts s)) selfs ->
    rmap strip_done (simplify_instances W gens ords js fuel selfs) = simplify_instances W gens ords js fuel (map strip selfs).
  Proof.
    induction 1 as [|s l Hs Hl IH]; cbn [simplify_instances map]; [reflexivity|]. cbn [strip c_id].
    rewrite (simplify_unread _ _ s) by exact Hs. change (Cdp (c_id s) _ _ _ _ _) with (strip s).
    destruct (simplify _ _ (strip s) _ _ _) as [[hs c]| |]; [|reflexivity..]. cbn [bind].
    rewrite <- IH. destruct (simplify_instances _ _ _ _ _ l) as [d| |]; reflexivity.
  Qed.
  Lemma class_unread W gens ords ord env selfs o fuel : Forall (fun s => constraints_unused (c_opts s)) selfs ->
    (forall i, constraints_unused (c_opts (env i))) ->
    rmap strip_done (simplify_feature_class W gens ords ord env selfs o fuel) =
    simplify_feature_class W gens ords ord (fun i => strip (env i)) (map strip selfs) o fuel.
  Proof.
    intros H He. unfold simplify_feature_class. rewrite map_map. cbn [strip c_id c_pts].
    rewrite <- instances_unread by exact H. destruct (simplify_instances _ _ _ _ _ selfs) as [d| |]; [|reflexivity..]. cbn [bind rmap].
    destruct (constrained o); [|reflexivity].
    assert (Ef : flat_map snd (strip_done d) = flat_map snd d).
    { unfold strip_done. clear. induction d as [|x d IH]; cbn [map flat_map snd]; [reflexivity|]. rewrite IH. reflexivity. }
    rewrite Ef. unfold class_phase. destruct (load _ _ _) as [db| |]; [|reflexivity..]. cbn [bind].
    rewrite (split_unread W env ord He). destruct (split_loop _ _ _ _ _ _ _ _ _) as [[db1 c3]| |]; [|reflexivity..]. cbn [bind].
    destruct (all db1) as [hs| |]; [|reflexivity..]. cbn [bind rmap]. unfold strip_done. rewrite !map_map. reflexivity.
  Qed.
  Lemma env_unread d selfs i : strip (env_of d selfs i) = env_of (strip d) (map strip selfs) i.
  Proof.
    unfold env_of. induction selfs as [|s l IH]; cbn [map find]; [reflexivity|]. cbn [strip c_id].
    destruct (c_id s =? i); [reflexivity|]. exact IH.
  Qed.
  Lemma find_ext_env W env env' dirty hs db : (forall i, env i = env' i) -> find_deformable W env dirty hs db = find_deformable W env' dirty hs db.
  Proof. intros H. unfold find_deformable. rewrite (mapM_ext (check_hull W env dirty db) (check_hull W env' dirty db)); [reflexivity|]. intros x. unfold check_hull. rewrite H. reflexivity. Qed.
  Lemma deform_ext W env env' sel : (forall i, env i = env' i) -> forall ctr, deform_nodes W env sel ctr = deform_nodes W env' sel ctr.
  Proof.
    intros H. induction sel as [|h r IH]; intros ctr; cbn [deform_nodes]; [reflexivity|]. rewrite H.
    destruct (1 <? rsize (n_rng h)); [|rewrite IH; reflexivity].
    destruct (at_score_selection _ _ _ _ _) as [[[a b] c1]| |]; cbn [bind]; [rewrite IH|..]; reflexivity.
  Qed.
  Lemma split_ext W env env' ord : (forall i, env i = env' i) -> forall fuel round dirty ds db ctr,
    split_loop W env ord fuel round dirty ds db ctr = split_loop W env' ord fuel round dirty ds db ctr.
  Proof.
    intros H. induction fuel as [|f IH]; intros round dirty ds db ctr; cbn [split_loop]; [reflexivity|].
    destruct ds as [|d r]; [reflexivity|]. rewrite (find_ext_env W env env') by exact H.
    destruct (find_deformable _ _ _ _ _) as [found| |]; [|reflexivity..]. cbn [bind].
    destruct (ord (2 * round)%nat found) as [|x l]; [reflexivity|]. rewrite (deform_ext W env env') by exact H.
    destruct (deform_nodes _ _ _ _) as [[defs c1]| |]; [|reflexivity..]. cbn [bind].
    destruct (load _ _ _) as [db'| |]; [|reflexivity..]. cbn [bind]. apply IH.
  Qed.
  Lemma class_ext W gens ords ord env env' selfs o fuel : (forall i, env i = env' i) ->
    simplify_feature_class W gens ords ord env selfs o fuel = simplify_feature_class W gens ords ord env' selfs o fuel.
  Proof. intros H. unfold simplify_feature_class, class_phase. destruct (simplify_instances _ _ _ _ _ _) as [d| |]; [|reflexivity..].
    cbn [bind]. destruct (constrained o); [|reflexivity]. destruct (load _ _ _) as [db| |]; [|reflexivity..]. cbn [bind].
    rewrite (split_ext W env env' ord H). reflexivity. Qed.
  Lemma set_simple_unread (plns : list polyline) : forall d, set_simple plns (strip_done d) = set_simple plns d.
  Proof.
    induction plns as [|p l IH]; intros [|[s hs] d]; cbn [strip_done map set_simple fst snd]; try reflexivity.
    destruct (zlen (pl_pts p) <? 2); [reflexivity|]. change (map _ d) with (strip_done d). rewrite IH. reflexivity.
  Qed.
  Lemma forest_unread W ids (plns : list polyline) o score cs cs' : forall k selfs selfs',
    forest W ids k plns cs o score = Ok selfs -> forest W ids k plns cs' o score = Ok selfs' ->
    map strip selfs = map strip selfs' /\ Forall (fun s => c_opts s = o) selfs.
  Proof.
    induction plns as [|p l IH]; intros k selfs selfs' H H'; cbn [forest] in *.
    - injection H as <-. injection H' as <-. auto.
    - unfold new_const_dp in *. destruct (all_geoms cs) as [gs| |] in H; cbn [bind] in H; try discriminate.
      destruct (all_geoms cs') as [gs'| |] in H'; cbn [bind] in H'; try discriminate.
      destruct (build_context_db _ _ _ gs) as [db| |] in H; cbn [bind] in H; try discriminate.
      destruct (build_context_db _ _ _ gs') as [db'| |] in H'; cbn [bind] in H'; try discriminate.
      destruct (forest _ _ _ _ cs _ _) as [r| |] eqn:E in H; cbn [bind] in H; try discriminate.
      destruct (forest _ _ _ _ cs' _ _) as [r'| |] eqn:E' in H'; cbn [bind] in H'; try discriminate.
      injection H as <-. injection H' as <-. destruct (IH _ _ _ E E') as [I1 I2]. cbn [map]. rewrite I1. split; [reflexivity|].
      constructor; [reflexivity|exact I2].
  Qed.
  Lemma rmap_Ok {A B} (f : A -> B) r x : rmap f r = x -> match x with Ok b => exists a, r = Ok a /\ f a = b | Panic => r = Panic | NoFuel => r = NoFuel end.
  Proof. intros <-. destruct r; cbn; eauto. Qed.
  (** After the files are read a run is a function of the stripped instances. *)
  Lemma rest_unread (S : setup) (is_class : bool) o (plns : list polyline) selfs : constraints_unused o -> Forall (fun s => c_opts s = o) selfs ->
    let rest selfs :=
      bind (match selfs with
            | [] => Ok []
            | d :: _ =>
              if is_class
              then simplify_feature_class (su_world S) (su_gens S) (su_ords S) (su_ord S) (env_of d selfs) selfs o (su_fuel S)
              else simplify_instances (su_world S) (su_gens S) (su_ords S) (fun _ => []) (su_fuel S) selfs
            end) (set_simple plns) in
    rest selfs = rest (map strip selfs).
  Proof.
    intros Hn Ho rest. unfold rest. destruct selfs as [|d l]; [reflexivity|].
    assert (Hf : Forall (fun s => constraints_unused (c_opts s)) (d :: l)) by (eapply Forall_impl; [|exact Ho]; cbn; intros s ->; exact Hn).
    set (ss := d :: l) in *. change (map strip ss) with (strip d :: map strip l). cbv iota. change (strip d :: map strip l) with (map strip ss).
    assert (G : forall r r', rmap strip_done r = r' -> bind r (set_simple plns) = bind r' (set_simple plns)).
    { intros r r' <-. destruct r; cbn [rmap bind]; [|reflexivity..]. symmetry. apply set_simple_unread. }
    apply G. destruct is_class; [|apply instances_unread; exact Hf].
    rewrite class_unread; [|exact Hf|].
    - apply class_ext. intros i. apply env_unread.
    - intros i. unfold env_of. destruct (find _ ss) as [s|] eqn:E.
      + apply find_some in E. rewrite Forall_forall in Hf. apply Hf, E.
      + inversion Hf; auto.
  Qed.
  Theorem run_unread {P} (lib : jsonlib P) S is_class o score input cinput cinput' selfs selfs' plns cs cs' : constraints_unused o ->
    parse_input lib (read_json_tokens input) = Ok plns ->
    parse_constraints lib (read_json_tokens cinput) = Ok cs -> parse_constraints lib (read_json_tokens cinput') = Ok cs' ->
    forest (su_world S) (su_ids S) 0 plns cs o score = Ok selfs -> forest (su_world S) (su_ids S) 0 plns cs' o score = Ok selfs' ->
    run lib S is_class o score input cinput = run lib S is_class o score input cinput'.
  Proof.
    intros Hn Ep Ec Ec' Ef Ef'. unfold run. rewrite Ep, Ec, Ec'. cbn [bind]. rewrite Ef, Ef'. cbn [bind].
    destruct (forest_unread _ _ _ _ _ _ _ _ _ _ Ef Ef') as [Es H1]. destruct (forest_unread _ _ _ _ _ _ _ _ _ _ Ef' Ef) as [_ H2].
    pose proof (rest_unread S is_class o plns selfs Hn H1) as R1. pose proof (rest_unread S is_class o plns selfs' Hn H2) as R2.
    cbv zeta in R1, R2. rewrite <- Es, <- R1 in R2.
    assert (A : forall {X Y Z : Type} (r : res X) (f : X -> res Y) (g : Y -> res Z), bind r (fun a => bind (f a) g) = bind (bind r f) g)
      by (intros X Y Z r f g; destruct r; reflexivity).
    rewrite !A. rewrite R2. reflexivity.
  Qed.
End Unread.
