(** From the plain assumptions to the working invariant, and feature classes. *)
From Verif Require Import M_Base M_Float M_Rng M_Geom M_Offset M_Node M_Decompose M_Split M_Hdb M_Knn M_Lnr M_Homotopy M_Relate
  M_Deform M_Constrain M_ConstDP Spec Spec_Hdb Spec_ConstDP
  P_Base P_Float P_Decompose P_Split P_Node P_Hdb P_HdbIns P_HdbLoad P_HdbHist P_Knn P_Homotopy P_Relate P_Db P_Bag
  P_Constrain P_Deform P_ConstDP P_Aggregate P_Simplify.
Open Scope Z_scope.

Lemma built_holds W s cs : oracle_ok (w_hdb W) -> built_from W s cs ->
  holds (c_ctxdb s) (map (context_node (w_geom W) (c_id s)) cs).
Proof.
  intros Ho [E Hg]. unfold build_context_db in E.
  destruct (holds_load (w_hdb W) new_hdb_default [] (map (context_node (w_geom W) (c_id s)) cs) Ho holds_new) as (t & Et & Ht).
  { apply Forall_map. exact Hg. }
  rewrite Et in E. injection E as <-. exact Ht.
Qed.

Lemma mk_setting W env ids own :
  oracle_ok (w_hdb W) -> pop_bag (w_pop W) -> point_touch (w_geom W) -> src_ok (Src (w_gen W) own) -> NoDup ids ->
  (forall i, In i ids -> line_ok (w_geom W) (env i) /\ exists cs, built_from W (env i) cs) ->
  setting W env ids own.
Proof.
  intros H1 H2 H3 H4 H5 H6. split; auto.
  - intros i Hi. destruct (H6 i Hi) as [_ [cs Hc]]. eexists. apply (built_holds W _ cs H1 Hc).
  - intros i h Hi Hh. destruct (H6 i Hi) as [K _]. destruct Hh as (Hh & Eg & Eb & _).
    unfold good_item. cbv zeta. rewrite Eb, Eg, (cpts_hull _ _ Hh). apply (lk_box _ _ K). destruct Hh as (A & B & C & _).
    split; [|split]; auto.
  - intros i r Hi A B C. destruct (H6 i Hi) as [K _]. apply (lk_score _ _ K); auto. split; [|split]; auto. lia.
Qed.

Lemma one_setting W self cs (own : Z -> Prop) : libs_ok W -> line_ok (w_geom W) self -> built_from W self cs ->
  (forall k, own (w_gen W k)) -> setting W (fun _ => self) [c_id self] own.
Proof.
  intros [A B C D] Hl Hb Ho. apply mk_setting; auto.
  - eapply pop_ok_bag, B.
  - split; auto.
  - constructor; [intros []|constructor].
  - intros i _. split; auto. exists cs. exact Hb.
Qed.

Section Class.
  Variable W : world.
  Variable gens : Z -> idgen.
  Variable ords : Z -> nat -> list node -> list node.
  Variable ord : nat -> list node -> list node.
  Variable env : Z -> cdp.
  Variable selfs : list cdp.
  Hypothesis HW : libs_ok W.
  Hypothesis Hords : forall i, any_order (ords i).
  Hypothesis Hord : any_order ord.
  Hypothesis Hids : NoDup (map c_id selfs).
  Hypothesis Henv : forall s, In s selfs -> env (c_id s) = s.
  Hypothesis Hline : forall s, In s selfs -> line_ok (w_geom W) s /\ exists cs, built_from W s cs.
  Hypothesis Hgens : forall i j k l, gens i k = gens j l -> i = j /\ k = l.
  Hypothesis Hsep : forall i k l, w_gen W k <> gens i l.

  Definition own_of (i x : Z) : Prop := exists k, x = gens i k.
  Definition worldi (i : Z) : world := World (w_geom W) (gens i) (w_hdb W) (w_pop W) (w_lnr W).

  Lemma setting_i s : In s selfs -> setting (worldi (c_id s)) (fun _ => s) [c_id s] (own_of (c_id s)).
  Proof.
    intros Hs. destruct (Hline s Hs) as [K [cs Hcs]]. apply (one_setting _ _ cs); auto.
    - destruct HW as [A B C D]. split; auto. cbn. intros j k E. apply (Hgens _ _ _ _ E).
    - intros k. exists k. reflexivity.
  Qed.

  Definition inst_ok (s : cdp) (hs : list node) : Prop :=
    exists ctr, bag_inv (w_geom W) (lines_of (fun _ => s)) [c_id s] (Src (gens (c_id s)) (own_of (c_id s))) ctr hs.

  Lemma instances_spec junctions fuel l : incl l selfs ->
    (forall s, In s l -> Forall (fun k => 0 <= k < zlen (c_pts s)) (junctions (c_id s))) ->
    (forall s, In s l -> (2 * length (c_pts s) - 3 < fuel)%nat) ->
    exists done, simplify_instances W gens ords junctions fuel l = Ok done /\
      Forall2 (fun s r => fst r = s /\ inst_ok s (snd r) /\
        exists ctr, simplify (worldi (c_id s)) (ords (c_id s)) s (junctions (c_id s)) fuel 0 = Ok (snd r, ctr)) l done.
  Proof.
    induction l as [|s r IH]; intros Hsub Hj Hf; cbn [simplify_instances].
    - exists []. split; [reflexivity|constructor].
    - assert (Hs : In s selfs) by (apply Hsub; left; auto).
      destruct (Hline s Hs) as [K _].
      destruct (simplify_spec (worldi (c_id s)) s (own_of (c_id s)) (ords (c_id s)) (Hords (c_id s)) (setting_i s Hs)
                  (lk_two _ _ K) (lk_splits _ _ K) (junctions (c_id s)) fuel 0) as (hs & ctr' & E & Hi & _).
      { apply Hj; left; auto. } { apply Hf; left; auto. }
      fold (worldi (c_id s)). rewrite E. cbn [bind].
      destruct IH as (done & -> & F).
      { intros x Hx; apply Hsub; right; auto. } { intros x Hx; apply Hj; right; auto. } { intros x Hx; apply Hf; right; auto. }
      cbn [bind]. exists ((s, hs) :: done). split; [reflexivity|]. constructor; auto. cbn [fst snd].
      split; [reflexivity|]. split; [exists ctr'; exact Hi|eauto].
  Qed.

  Lemma flat_of_inst (l : list cdp) done : NoDup (map c_id l) ->
    Forall2 (fun s r => fst r = s /\ inst_ok s (snd r)) l done ->
    (forall s r, In (s, r) done -> of_inst (c_id s) (flat_map snd done) = r) /\
    (forall i, ~ In i (map c_id l) -> of_inst i (flat_map snd done) = []) /\
    NoDup (map n_id (flat_map snd done)) /\
    (forall h, In h (flat_map snd done) -> exists s r, In (s, r) done /\ In h r /\ In s l).
  Proof.
    intros Hn F. induction F as [|s [s' hs] l done (E & ctr & Hi) F IH].
    - split; [intros s r []|]. split; [reflexivity|]. split; [constructor|intros h []].
    - cbn [fst snd] in *. subst s'. cbn [map] in Hn. inversion Hn as [|? ? N1 N2]; subst.
      destruct (IH N2) as (A & B & C & D). clear IH.
      assert (Hinst : Forall (fun h => n_inst h = c_id s) hs).
      { apply Forall_forall. intros h Hh. destruct (inv_member _ _ _ _ _ _ _ Hi Hh) as [K|[]]; auto. }
      cbn [flat_map snd].
      split; [|split; [|split]].
      + intros t r [K|K].
        * injection K as <- <-. rewrite of_inst_app, (of_inst_same _ _ Hinst), (B (c_id s) N1), app_nil_r. reflexivity.
        * rewrite of_inst_app, (A t r K). rewrite (of_inst_other (c_id s) (c_id t) hs Hinst); [reflexivity|].
          intros E. apply N1. rewrite E. apply in_map.
          clear - F K. induction F as [|x y ? ? (E & _) F IH]; [destruct K|].
          destruct K as [K|K]; [subst y; cbn in E; left; auto|right; auto].
      + intros i Hi'. cbn [map In] in Hi'. rewrite of_inst_app, B by tauto.
        rewrite (of_inst_other (c_id s) i hs Hinst) by tauto. reflexivity.
      + rewrite map_app. apply nodup_app_intro; [apply (bi_nodup _ _ _ _ _ _ Hi)|exact C|].
        intros x Hx Hy. apply in_map_iff in Hx. destruct Hx as (h & <- & Hh).
        pose proof (bi_own _ _ _ _ _ _ Hi) as Ow. rewrite Forall_forall in Ow. destruct (Ow h Hh) as [k Ek]. 
        apply in_map_iff in Hy. destruct Hy as (g & Eg & Hg). destruct (D g Hg) as (t & r & Htr & Hgr & Ht).
        assert (Hti : inst_ok t r).
        { clear - F Htr. induction F as [|x y ? ? (E & J) F IH]; [destruct Htr|].
          destruct Htr as [K|K]; [subst y; cbn in E, J; subst; exact J|auto]. }
        destruct Hti as [ctr2 Hi2]. pose proof (bi_own _ _ _ _ _ _ Hi2) as Ow2. rewrite Forall_forall in Ow2.
        destruct (Ow2 g Hgr) as [k2 Ek2]. cbn in Ek, Ek2. rewrite Eg, Ek in Ek2. destruct (Hgens _ _ _ _ Ek2) as [Ei _].
        apply N1. rewrite Ei. apply in_map, Ht.
      + intros h Hh. apply in_app_iff in Hh. destruct Hh as [Hh|Hh].
        * exists s, hs. split; [left; auto|]. split; auto. left; auto.
        * destruct (D h Hh) as (t & r & T1 & T2 & T3). exists t, r. split; [right; auto|]. split; auto. right; auto.
  Qed.

  Lemma setting_all : setting W env (map c_id selfs) (fun _ => True).
  Proof.
    destruct HW as [A B C D]. apply mk_setting; auto.
    - eapply pop_ok_bag, B.
    - split; [exact D|]. intros k; exact I.
    - intros i Hi. apply in_map_iff in Hi. destruct Hi as (s & <- & Hs). rewrite (Henv s Hs). auto.
  Qed.

  Notation inv := (bag_inv (w_geom W) (lines_of env) (map c_id selfs) (Src (w_gen W) (fun _ => True))).

  Lemma class_bag done : Forall2 (fun s r => fst r = s /\ inst_ok s (snd r)) selfs done -> inv 0 (flat_map snd done).
  Proof.
    intros F. destruct (flat_of_inst selfs done Hids F) as (A & B & C & D).
    assert (Hof : forall s r, In (s, r) done -> In s selfs /\ inst_ok s r).
    { clear - F. intros s r K. induction F as [|x y ? ? (E & J) F IH]; [destruct K|].
      destruct K as [K|K]; [subst y; cbn in E, J; subst; split; [left; auto|exact J]|].
      destruct (IH K). split; [right; auto|auto]. }
    assert (Hh : forall h, In h (flat_map snd done) -> exists s ctr r, In s selfs /\ In h r /\
      bag_inv (w_geom W) (lines_of (fun _ => s)) [c_id s] (Src (gens (c_id s)) (own_of (c_id s))) ctr r).
    { intros h Hh. destruct (D h Hh) as (s & r & K1 & K2 & K3). destruct (Hof s r K1) as [_ [ctr J]]. exists s, ctr, r. auto. }
    split.
    - apply Forall_forall. intros h Hx. destruct (Hh h Hx) as (s & ctr & r & Hs & Hr & J).
      pose proof (bi_proper _ _ _ _ _ _ J) as P. rewrite Forall_forall in P. specialize (P h Hr). unfold proper in *.
      destruct (inv_member _ _ _ _ _ _ _ J Hr) as [Ei|[]]. unfold lines_of in *. rewrite <- Ei at 1. rewrite (Henv s Hs). exact P.
    - apply Forall_forall. intros h Hx. destruct (Hh h Hx) as (s & ctr & r & Hs & Hr & J).
      destruct (inv_member _ _ _ _ _ _ _ J Hr) as [Ei|[]]. rewrite <- Ei. apply in_map, Hs.
    - intros i Hi. apply in_map_iff in Hi. destruct Hi as (s & <- & Hs).
      assert (exists r, In (s, r) done) as [r Hr].
      { clear - F Hs. induction F as [|x [y z] ? ? (E & J) F IH]; [destruct Hs|].
        destruct Hs as [<- |Hs]; [cbn in E; subst; eexists; left; reflexivity|destruct (IH Hs) as [r Hr]; exists r; right; exact Hr]. }
      rewrite (A s r Hr). destruct (Hof s r Hr) as [_ [ctr J]].
      pose proof (bi_tiles _ _ _ _ _ _ J (c_id s) (or_introl eq_refl)) as T.
      rewrite of_inst_same in T; [unfold lines_of in *; rewrite (Henv s Hs); exact T|].
      apply Forall_forall. intros h Hx. destruct (inv_member _ _ _ _ _ _ _ J Hx) as [K|[]]; auto.
    - exact C.
    - intros h k Hx _. destruct (Hh h Hx) as (s & ctr & r & Hs & Hr & J).
      pose proof (bi_own _ _ _ _ _ _ J) as Ow. rewrite Forall_forall in Ow. destruct (Ow h Hr) as [l El]. cbn in El |- *.
      rewrite El. apply Hsep.
    - apply Forall_forall. intros h _. exact I.
  Qed.

  (** Lines that are never near each other: the class phase selects nothing. *)
  Definition all_apart : Prop :=
    forall s t, In s selfs -> In t selfs -> c_id s <> c_id t -> never_near (w_geom W) (c_pts s) (c_pts t).

  Lemma apart_check b db h : all_apart -> holds db b -> inv 0 b -> In h b -> (big h -> valid_in W (env (n_inst h)) h) ->
    check_hull W env (fun _ => false) db h = Ok [].
  Proof.
    intros Ha Hdb Hi Hh Hv. unfold check_hull.
    destruct (rsize (n_rng h) =? 1) eqn:E1; [reflexivity|]. destruct (is_line (n_geom h)) eqn:E2; [reflexivity|].
    assert (Hb : big h) by (split; [lia|exact E2]). specialize (Hv Hb). unfold valid_in in Hv.
    destruct (o_avoid_self (c_opts (env (n_inst h)))); [|cbn [bind]; rewrite Hv; reflexivity].
    destruct (by_class_spec W env (map c_id selfs) _ setting_all (o_non_planar_displacement (c_opts (env (n_inst h)))) false db 0 b h Hdb Hi Hh)
      as (ctxs & sel & bln & -> & Hp & Hs & _ & Hf).
    assert (En : optimize_neighbours false h (filter (nearby (w_geom W) epsilon_dist h) b) = []).
    { destruct (optimize_neighbours _ _ _) as [|y l] eqn:E; [reflexivity|exfalso].
      assert (Hy : In y (y :: l)) by (left; reflexivity). rewrite <- E in Hy. unfold optimize_neighbours in Hy. apply filter_In in Hy as [Hy Ei].
      apply filter_In in Hy as [Hy Hn]. apply negb_true_iff, Z.eqb_neq in Ei. unfold nearby in Hn.
      apply andb_true_iff in Hn as [Hn1 Hn2]. apply andb_true_iff in Hn2 as [_ Hn2].
      assert (Hself : forall x, In x b -> exists s, In s selfs /\ c_id s = n_inst x /\ fresh_hull (w_geom W) (c_pts s) (n_inst x) x).
      { intros x Hx. pose proof (inv_member _ _ _ _ _ _ _ Hi Hx) as K. apply in_map_iff in K. destruct K as (s & Es & Hs').
        exists s. split; [exact Hs'|]. split; [exact Es|]. pose proof (bi_proper _ _ _ _ _ _ Hi) as K. rewrite Forall_forall in K.
        specialize (K x Hx). unfold proper, lines_of in K. rewrite <- Es, (Henv s Hs') in K. rewrite <- Es. exact K. }
      destruct (Hself h Hh) as (s & Hs1 & Es1 & (F1 & F2 & F3 & _)). destruct (Hself y Hy) as (t & Ht1 & Et1 & (G1 & G2 & G3 & _)).
      rewrite (cpts_hull _ _ F1) in F2. rewrite (cpts_hull _ _ G1) in G2. rewrite F3, G3, F2, G2 in Hn1. rewrite F2, G2 in Hn2.
      destruct F1 as (A1 & A2 & A3 & _), G1 as (B1 & B2 & B3 & _).
      assert (Pa : piece (c_pts s) (n_rng h)) by (split; [|split]; assumption).
      assert (Pb : piece (c_pts t) (n_rng y)) by (split; [|split]; assumption).
      destruct (Ha s t Hs1 Ht1 ltac:(congruence) (n_rng h) (n_rng y) Pa Pb) as [K|K]; unfold piece_hull in K; congruence. }
    rewrite En in Hp. apply Permutation_sym, Permutation_nil in Hp. subst ctxs. cbn [select_loop] in Hs. injection Hs as <-.
    cbn [bind]. destruct bln; [|destruct (Hf eq_refl)]. rewrite Hv. reflexivity.
  Qed.

  Lemma apart_loop fuel b db : all_apart -> holds db b -> inv 0 b -> (forall h, In h b -> big h -> valid_in W (env (n_inst h)) h) ->
    (1 <= fuel)%nat -> split_loop W env ord fuel 0 (fun _ => false) b db 0 = Ok (db, 0%nat).
  Proof.
    intros Ha Hdb Hi Hv Hf. destruct fuel as [|f]; [lia|]. cbn [split_loop]. destruct b as [|d0 r] eqn:Eb; [reflexivity|]. rewrite <- Eb in *. clear Eb.
    assert (E : find_deformable W env (fun _ => false) b db = Ok []).
    { unfold find_deformable.
      assert (Em : forall l, incl l b -> mapM (check_hull W env (fun _ => false) db) l = Ok (map (fun _ => []) l)).
      { induction l as [|h l IH]; intros Hl; [reflexivity|]. cbn [mapM map].
        assert (Hh : In h b) by (apply Hl; left; reflexivity).
        rewrite (apart_check b db h Ha Hdb Hi Hh (Hv h Hh)). cbn [bind].
        rewrite IH by (intros x Hx; apply Hl; right; exact Hx). reflexivity. }
      rewrite (Em b (incl_refl _)). cbn [bind]. clear. induction b as [|h l IH]; [reflexivity|]. cbn [map concat app]. exact IH. }
    rewrite E. cbn [bind]. pose proof (Hord (2 * 0)%nat []) as K. apply Permutation_sym, Permutation_nil in K. rewrite K. reflexivity.
  Qed.

  (** Every vertex kept by the instances stays kept, and the class phase keeps all lines tiled. *)
  Lemma class_spec o fuel :
    let js i := if o_planar_self o
      then fc_junctions (w_geom W) (lo_sort (w_lnr W)) (map (fun s => (c_id s, c_pts s)) selfs) i else [] in
    (forall s, In s selfs -> Forall (fun k => 0 <= k < zlen (c_pts s)) (js (c_id s))) ->
    (forall s, In s selfs -> (2 * length (c_pts s) - 3 < fuel)%nat) ->
    (Z.to_nat (capacity (lines_of env) (map c_id selfs)) + 2 <= fuel)%nat ->
    exists out done, simplify_feature_class W gens ords ord env selfs o fuel = Ok out /\
      simplify_instances W gens ords js fuel selfs = Ok done /\
      Forall2 (fun s r => fst r = s /\ Forall (fresh_hull (w_geom W) (c_pts s) (c_id s)) (snd r) /\
        Forall (fun h => n_inst h = c_id s) (snd r) /\
        tiling 0 (zlen (c_pts s) - 1) (map n_rng (snd r))) selfs out /\
      Forall2 (fun a b => fst a = fst b /\ (forall k, In k (simple_set (snd a)) -> In k (simple_set (snd b))) /\
        (all_apart -> simple_set (snd b) = simple_set (snd a))) done out /\
      (constrained o = true -> forall s r h, In (s, r) out -> In h r -> big h -> valid_in W s h).
  Proof.
    intros js Hjs Hf Hcap. unfold simplify_feature_class. fold js.
    destruct (instances_spec js fuel selfs (fun x H => H) Hjs Hf) as (done & Edone & F).
    rewrite Edone. cbn [bind].
    assert (F0 : Forall2 (fun s r => fst r = s /\ inst_ok s (snd r)) selfs done).
    { clear - F. induction F as [|x y ? ? (E & J & _) F IH]; constructor; auto. }
    assert (Hshape : forall s (r : list node) ctr, In s selfs -> bag_inv (w_geom W) (lines_of (fun _ => s)) [c_id s]
        (Src (gens (c_id s)) (own_of (c_id s))) ctr r ->
        Forall (fresh_hull (w_geom W) (c_pts s) (c_id s)) r /\ Forall (fun h => n_inst h = c_id s) r /\ tiling 0 (zlen (c_pts s) - 1) (map n_rng r)).
    { intros s r ctr Hs J. split; [|split].
      - apply Forall_forall. intros h Hh. pose proof (bi_proper _ _ _ _ _ _ J) as K. rewrite Forall_forall in K.
        specialize (K h Hh). unfold proper, lines_of in K. destruct (inv_member _ _ _ _ _ _ _ J Hh) as [E|[]].
        rewrite <- E in K. exact K.
      - apply Forall_forall. intros h Hh. destruct (inv_member _ _ _ _ _ _ _ J Hh) as [K|[]]; auto.
      - pose proof (bi_tiles _ _ _ _ _ _ J (c_id s) (or_introl eq_refl)) as T. rewrite of_inst_same in T; [exact T|].
        apply Forall_forall. intros h Hh. destruct (inv_member _ _ _ _ _ _ _ J Hh) as [K|[]]; auto. }
    destruct (constrained o).
    - unfold class_phase. pose proof (class_bag done F0) as Hi. pose proof setting_all as Sa.
      assert (Hg : Forall good_item (flat_map snd done)).
      { apply Forall_forall. intros h Hh. apply (inv_goods W env (map c_id selfs) _ Sa 0 _ h Hi Hh). }
      destruct (holds_load (w_hdb W) new_hdb_default [] (flat_map snd done) (lb_rtree _ HW) holds_new Hg) as (db & -> & Hdb).
      cbn [bind app] in *.
      destruct (split_loop_spec W env (map c_id selfs) _ Sa ord Hord fuel 0 (fun _ => false) (flat_map snd done) db 0 (flat_map snd done))
        as (db2 & ctr2 & b2 & E2 & Hdb2 & Hi2 & _ & Hcut & Hval & _); auto.
      { intros x Hx; exact Hx. }
      { unfold rounds. assert (Z.to_nat (capacity (lines_of env) (map c_id selfs) - zlen (flat_map snd done)) <= Z.to_nat (capacity (lines_of env) (map c_id selfs)))%nat.
        { assert (0 <= zlen (flat_map snd done)) by (unfold zlen; lia). lia. }
        destruct (forallb _ _); lia. }
      assert (Hsame : all_apart -> db2 = db).
      { intros Ha. rewrite apart_loop in E2; [congruence|exact Ha|exact Hdb|exact Hi| |lia].
        intros h Hh Hb. destruct (flat_of_inst selfs done Hids F0) as (_ & _ & _ & D). destruct (D h Hh) as (s & r & Hr & Hhr & Hs).
        assert (exists ctr, simplify (worldi (c_id s)) (ords (c_id s)) s (js (c_id s)) fuel 0 = Ok (r, ctr) /\ n_inst h = c_id s) as (ctr & Es & Ei).
        { clearbody js. clear - F Hr Hhr. induction F as [|x y l l' (Ex & (c & Hx) & (c' & Ey)) F IH]; [destruct Hr|].
          destruct Hr as [-> |Hr]; [|auto]. cbn [fst snd] in *. subst x. exists c'. split; [exact Ey|].
          destruct (inv_member _ _ _ _ _ _ _ Hx Hhr) as [K|[]]. auto. }
        rewrite Ei, (Henv s Hs).
        destruct (simplify_spec (worldi (c_id s)) s (own_of (c_id s)) (ords (c_id s)) (Hords (c_id s)) (setting_i s Hs)
                  (lk_two _ _ (proj1 (Hline s Hs))) (lk_splits _ _ (proj1 (Hline s Hs))) (js (c_id s)) fuel 0 (Hjs s Hs) (Hf s Hs))
          as (h1 & c1 & E1 & _ & Hv & _).
        rewrite Es in E1. injection E1 as <- <-. exact (Hv h Hhr Hb). }
      rewrite E2. cbn [bind]. destruct (holds_all _ _ Hdb2) as (hs & Ehs & Hph). rewrite Ehs. cbn [bind].
      assert (Hperm : all_apart -> Permutation hs (flat_map snd done)).
      { intros Ha. rewrite (Hsame Ha) in Ehs. destruct (holds_all _ _ Hdb) as (hs' & Ehs' & Hp'). rewrite Ehs in Ehs'. injection Ehs' as <-. exact Hp'. }
      pose proof (inv_perm _ _ _ _ _ _ _ (Permutation_sym Hph) Hi2) as Hi3.
      do 2 eexists. split; [reflexivity|]. split; [reflexivity|].
      assert (Hgrp : forall s, In s selfs -> group_hulls hs (c_id s) = of_inst (c_id s) hs) by reflexivity.
      split; [|split].
      + assert (Hall : forall s, In s selfs -> Forall (fresh_hull (w_geom W) (c_pts s) (c_id s)) (of_inst (c_id s) hs) /\
          Forall (fun h => n_inst h = c_id s) (of_inst (c_id s) hs) /\ tiling 0 (zlen (c_pts s) - 1) (map n_rng (of_inst (c_id s) hs))).
        { intros s Hs. split; [|split].
          - apply Forall_forall. intros h Hh. apply of_inst_in in Hh. destruct Hh as [Hh Ei].
            pose proof (bi_proper _ _ _ _ _ _ Hi3) as K. rewrite Forall_forall in K. specialize (K h Hh).
            unfold proper, lines_of in K. rewrite Ei, (Henv s Hs) in K. exact K.
          - apply Forall_forall. intros h Hh. apply of_inst_in in Hh. tauto.
          - pose proof (bi_tiles _ _ _ _ _ _ Hi3 (c_id s) (in_map c_id _ _ Hs)) as K. unfold lines_of in K.
            rewrite (Henv s Hs) in K. exact K. }
        clear - Hall. revert Hall. generalize selfs as l. induction l as [|s l IH]; intros Hall; cbn [map]; constructor.
        * cbn [fst snd]. split; [reflexivity|]. apply (Hall s). left; auto.
        * apply IH. intros t Ht. apply Hall. right; auto.
      + destruct (flat_of_inst selfs done Hids F0) as (A & _ & _ & _).
        assert (Hkeep : forall s r, In (s, r) done -> In s selfs -> forall k, In k (simple_set r) -> In k (simple_set (group_hulls hs (c_id s)))).
        { intros s r Hr Hs k Hk. apply point_set_spec in Hk. destruct Hk as (h & Hh & Hk).
          assert (Hc : cut_at (flat_map snd done) (c_id s) k).
          { exists h. rewrite <- (A s r Hr) in Hh. apply of_inst_in in Hh. destruct Hh as [K1 K2]. split; auto. split; auto.
            destruct Hk; auto. }
          apply Hcut in Hc. apply (cut_perm _ _ _ _ (Permutation_sym Hph)) in Hc. destruct Hc as (g & Hg1 & Hg2 & Hg3).
          apply point_set_spec. exists g. split; [apply of_inst_in; auto|]. destruct Hg3; auto. }
        assert (Heq : forall s r, In (s, r) done -> In s selfs -> all_apart -> simple_set (group_hulls hs (c_id s)) = simple_set r).
        { intros s r Hr Hs Ha. rewrite <- (A s r Hr). apply point_set_perm. change (Permutation (of_inst (c_id s) hs) (of_inst (c_id s) (flat_map snd done))).
          apply filter_perm, Hperm, Ha. }
        clear - F0 Hkeep Heq. assert (Hk : forall s r, In (s, r) done -> In s selfs -> forall k, In k (simple_set r) -> In k (simple_set (group_hulls hs (c_id s)))) by auto.
        assert (He : forall s r, In (s, r) done -> In s selfs -> all_apart -> simple_set (group_hulls hs (c_id s)) = simple_set r) by auto.
        clear Hkeep Heq. revert Hk He. generalize all_apart as AA. intros AA Hk He. 
        induction F0 as [|s [s' r] l dn (E & J) F IH]; cbn [map]; constructor.
        * cbn [fst snd] in *. subst s'. split; [reflexivity|]. split; [apply (Hk s r); left; auto|apply (He s r); left; auto].
        * apply IH; [intros t q Ht Hs; apply (Hk t q); right; auto|intros t q Ht Hs; apply (He t q); right; auto].
      + intros _ s r h Hsr Hh Hb. apply in_map_iff in Hsr. destruct Hsr as (s' & E & Hs). injection E as -> <-.
        apply of_inst_in in Hh. destruct Hh as [Hh Ei].
        pose proof (Hval h (Permutation_in _ Hph Hh) Hb) as K. rewrite Ei, (Henv s Hs) in K. exact K.
    - exists done, done. split; [reflexivity|]. split; [reflexivity|]. split; [|split; [|discriminate]].
      + clear - F0 Hshape. assert (Hs : forall s (r : list node) ctr, In s selfs -> bag_inv (w_geom W) (lines_of (fun _ => s)) [c_id s]
          (Src (gens (c_id s)) (own_of (c_id s))) ctr r ->
          Forall (fresh_hull (w_geom W) (c_pts s) (c_id s)) r /\ Forall (fun h => n_inst h = c_id s) r /\ tiling 0 (zlen (c_pts s) - 1) (map n_rng r)) by exact Hshape.
        clear Hshape. induction F0 as [|s y l dn (E & ctr & J) F IH]; constructor.
        * split; [exact E|]. apply (Hs s (snd y) ctr); [left; auto|exact J].
        * apply IH. intros t r c Ht. apply Hs. right; auto.
      + clear. induction done; constructor; auto.
  Qed.
End Class.
