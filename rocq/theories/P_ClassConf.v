(** The class phase and conflicts between different lines. *)
From Verif Require Import M_Base M_Float M_Rng M_Geom M_Offset M_Node M_Decompose M_Split M_Hdb M_Knn M_Lnr M_Homotopy M_Relate
  M_Deform M_Constrain M_ConstDP Spec Spec_Hdb
  P_Base P_Float P_Decompose P_Split P_Node P_Hdb P_HdbIns P_HdbLoad P_HdbHist P_Knn P_Homotopy P_Relate P_Db P_Bag
  P_Constrain P_Deform P_ConstDP.
Open Scope Z_scope.

Lemma at_score_inst L gen n score ctr ha hb ctr' : at_score_selection L gen n score ctr = Ok (ha, hb, ctr') ->
  n_inst ha = n_inst n /\ n_inst hb = n_inst n.
Proof.
  unfold at_score_selection. destruct (score (n_coords n)) as [k x].
  destruct (cslice _ 0 _) as [ca| |]; cbn [bind]; try discriminate. destruct (cslice _ k _) as [cb| |]; cbn [bind]; try discriminate.
  intros E. injection E as <- <- <-. split; reflexivity.
Qed.

Section ClassConf.
  Variable W : world.
  Variable env : Z -> cdp.
  Variable ids : list Z.
  Variable own : Z -> Prop.
  Hypothesis St : setting W env ids own.
  Hypothesis Ha : all_avoid env ids.
  Notation inv := (bag_inv (w_geom W) (lines_of env) ids (Src (w_gen W) own)).
  Notation near_ := (nearby (w_geom W) epsilon_dist).

  (** The check of hull x against y selects v. *)
  Definition selects (x y v : node) : Prop :=
    selected_by (w_geom W) (o_non_planar_displacement (c_opts (env (n_inst x)))) true x y v.

  (** A check of a hull against a hull of another line, or of its own line if that was changed before: what is selected,
      or a hull of the same range, is found. *)
  Lemma check_hull_others dirty db ctr b h : holds db b -> inv ctr b -> In h b -> big h ->
    exists sel, check_hull W env dirty db h = Ok sel /\
      forall y v, In y b -> near_ h y = true -> n_inst y <> n_inst h \/ dirty (n_inst h) = true -> selects h y v ->
      exists w, In w sel /\ n_rng w = n_rng v /\
        (w = h \/ (In w b /\ near_ h w = true /\ selects h w w)).
  Proof.
    intros Hdb Hi Hh Hb. destruct (check_hull_spec W env ids own St dirty db ctr b h Hdb Hi Hh) as (sel & E & _).
    exists sel. split; [exact E|]. unfold check_hull in E. destruct Hb as [Hb1 Hb2].
    destruct (Z.eqb_spec (rsize (n_rng h)) 1) as [K|_]; [contradiction|]. rewrite Hb2 in E.
    rewrite (Ha _ (inv_member _ _ _ _ _ _ _ Hi Hh)) in E.
    destruct (by_class_spec W env ids own St (o_non_planar_displacement (c_opts (env (n_inst h)))) (dirty (n_inst h)) db ctr b h Hdb Hi Hh)
        as (ctxs & sel0 & bln & Ec & Hp & Es & _).
    rewrite Ec in E. cbn [bind] in E.
    assert (Hsub : forall v, In v sel0 -> In v sel).
    { intros v Hv. destruct bln; [|injection E as <-; exact Hv].
      destruct (validate_context _ _ _ _ h) as [[|]| |]; cbn [bind] in E; try discriminate; injection E as <-; auto.
      apply in_or_app; auto. }
    intros y v Hy Hn Hne Hs.
    assert (Hyc : In y ctxs).
    { apply (Permutation_in _ (Permutation_sym Hp)). unfold optimize_neighbours. destruct (dirty (n_inst h)) eqn:Ed.
      - apply filter_In; auto.
      - apply filter_In. split; [apply filter_In; auto|]. apply negb_true_iff, Z.eqb_neq. destruct Hne; congruence. }
    assert (Hcb : forall x, In x ctxs -> In x b /\ near_ h x = true).
    { intros x Hx. apply (Permutation_in _ Hp) in Hx.
      assert (In x (filter (near_ h) b)) as K by (unfold optimize_neighbours in Hx; destruct (dirty _); auto; apply filter_In in Hx; tauto).
      apply filter_In in K. exact K. }
    pose proof (inv_hullish _ _ _ _ _ _ Hi) as Hl. rewrite Forall_forall in Hl.
    assert (Hf : Forall hullish ctxs) by (apply Forall_forall; intros x Hx; apply Hl, Hcb, Hx).
    destruct (select_loop_spec (w_geom W) (o_non_planar_displacement (c_opts (env (n_inst h)))) true h (st_touch _ _ _ _ St) (Hl h Hh) ctxs [] Hf)
      as (r & Er & R1 & R2 & _).
    rewrite Er in Es. injection Es as <-.
    destruct (R2 v) as (w & Hw & Ew); [right; exists y; auto|]. exists w. split; [auto|]. split; [exact Ew|].
    destruct (R1 w Hw) as [[]|(g & Hg & K)].
    destruct (selected_which _ _ _ _ (st_touch _ _ _ _ St) (Hl h Hh) _ g w Hf Hg K) as [-> | ->]; [left; reflexivity|].
    right. destruct (Hcb g Hg). auto.
  Qed.

  Lemma find_others dirty db ctr b D found : holds db b -> inv ctr b -> incl D b ->
    find_deformable W env dirty D db = Ok found ->
    forall x y v, In x D -> In y b -> big x -> near_ x y = true -> n_inst y <> n_inst x \/ dirty (n_inst x) = true -> selects x y v ->
    exists w, In w found /\ n_rng w = n_rng v /\ (w = x \/ (In w b /\ near_ x w = true /\ selects x w w)).
  Proof.
    intros Hdb Hi Hsub E x y v Hx Hy Bx Nxy Hne Hs. unfold find_deformable in E.
    destruct (mapM_ok (check_hull W env dirty db) D) as (sels & Em & F).
    { intros u Hu. destruct (check_hull_spec W env ids own St dirty db ctr b u Hdb Hi (Hsub u Hu)) as (s & Es & _). eauto. }
    rewrite Em in E. cbn [bind] in E. injection E as <-.
    destruct (Forall2_in_l _ _ _ _ F Hx) as (s & Hs1 & E1).
    destruct (check_hull_others dirty db ctr b x Hdb Hi (Hsub x Hx) Bx) as (s' & E2 & K).
    rewrite E1 in E2. injection E2 as <-.
    destruct (K y v Hy Nxy Hne Hs) as (w & Hw & Ew & Q). exists w. split; [|auto].
    assert (Hin : forall u, In u (concat sels) -> In u b).
    { intros u Hu. apply in_concat in Hu. destruct Hu as (t & Ht & Hu). destruct (Forall2_in_r _ _ _ _ F Ht) as (z & Hz & Ez).
      destruct (check_hull_spec W env ids own St dirty db ctr b z Hdb Hi (Hsub z Hz)) as (t' & Et & Kt & _).
      rewrite Ez in Et. injection Et as <-. auto. }
    assert (Hwc : In w (concat sels)) by (apply in_concat; eauto).
    destruct (dedup_id _ _ Hwc) as (w' & Hw' & Ei).
    rewrite <- (inv_id_inj _ _ _ _ _ _ _ _ Hi (Hin w' (dedup_in _ _ Hw')) (Hin w Hwc) Ei). exact Hw'.
  Qed.

  (** The selection of v in the check of x was overwritten by that of a hull of another line with the same range. *)
  Definition displaced_by (x v z : node) : Prop :=
    proper (w_geom W) (lines_of env) z /\ In (n_inst z) ids /\ n_inst z <> n_inst v /\ n_rng z = n_rng v /\
    near_ x z = true /\ selects x z z.
  Definition in_time2 (age : Z -> nat) (D b : list node) : Prop :=
    forall x y v, In x b -> In y b -> n_inst y <> n_inst x -> big x -> near_ x y = true -> selects x y v ->
      In x D \/ (exists z, displaced_by x v z) \/ (age (n_id x) < age (n_id y))%nat.

  Lemma selects_which ctr b x y v : inv ctr b -> In x b -> In y b -> selects x y v -> v = x \/ v = y.
  Proof.
    unfold selects. intros Hi Hx Hy Hs. pose proof (inv_hullish _ _ _ _ _ _ Hi) as Hl. rewrite Forall_forall in Hl.
    apply (selected_which (w_geom W) (o_non_planar_displacement (c_opts (env (n_inst x)))) true x (st_touch _ _ _ _ St) (Hl x Hx) [y] y v); [constructor; auto|left; auto|exact Hs].
  Qed.

  Lemma split_loop_others ord : (forall k l, Permutation (ord k l) l) ->
    forall fuel round dirty D db ctr b db' ctr',
    holds db b -> inv ctr b -> incl D b ->
    split_loop W env ord fuel round dirty D db ctr = Ok (db', ctr') ->
    (exists age, in_time2 age D b) ->
    exists b', holds db' b' /\ inv ctr' b' /\ (length b <= length b')%nat /\
      (exists age, in_time2 age [] b') /\
      (length b' = length b -> forall x y v, In x D -> In y b -> n_inst y <> n_inst x -> big x -> near_ x y = true ->
         selects x y v -> rsize (n_rng v) = 1) /\
      (length b' = length b -> Permutation b' b).
  Proof.
    intros Hord. induction fuel as [|f IH]; intros round dirty D db ctr b db' ctr' Hdb Hi Hsub E Ht;
      cbn [split_loop] in E; (destruct D as [|d0 D0] eqn:ED; [|try discriminate E]).
    1, 2: injection E as <- <-; exists b; split; [auto|]; split; [auto|]; split; [lia|]; split; [exact Ht|]; split; [intros _ x y v []|auto].
    rewrite <- ED in *. clear ED.
    destruct (find_spec W env ids own St dirty db ctr b D Hdb Hi Hsub) as (found & Ef & Hnd & Hin & _).
    rewrite Ef in E. cbn [bind] in E. pose proof (find_others dirty db ctr b D found Hdb Hi Hsub Ef) as Hpair.
    pose proof (Hord (2 * round)%nat found) as Hp1. pose proof (Hord (S (2 * round)) found) as Hp2.
    destruct (ord (2 * round)%nat found) as [|s0 s1] eqn:Es.
    - apply Permutation_nil in Hp1. subst found. injection E as <- <-. exists b. split; [auto|]. split; [auto|]. split; [lia|].
      split.
      + destruct Ht as [age Ht]. exists age. intros x y v Hx Hy Hne Bx Nxy Hs. right.
        destruct (Ht x y v Hx Hy Hne Bx Nxy Hs) as [K|K]; [|exact K].
        destruct (Hpair x y v K Hy Bx Nxy (or_introl Hne) Hs) as (w & [] & _).
      + split; [|auto]. intros _ x y v Hx Hy Hne Bx Nxy Hs. destruct (Hpair x y v Hx Hy Bx Nxy (or_introl Hne) Hs) as (w & [] & _).
    - set (sel := s0 :: s1) in *.
      destruct (incl_rest found b Hnd (bi_nodup _ _ _ _ _ _ Hi) Hin) as [rest Hrest].
      assert (Hsr : Permutation b (sel ++ rest)).
      { rewrite Hrest. apply Permutation_app_tail. symmetry. exact Hp1. }
      destruct (deform_spec W env ids own St sel rest ctr (inv_perm _ _ _ _ _ _ _ Hsr Hi))
        as (defs & ctr1 & Ed & Hi' & Hc' & Hlen & Hgrow & Hsame & Hcut).
      rewrite Ed in E. cbn [bind] in E.
      assert (Hrm : holds (clean_up db (ord (S (2 * round)) found)) rest).
      { apply holds_remove_all.
        - apply (Permutation_NoDup (l := map n_id b)); [|apply (bi_nodup _ _ _ _ _ _ Hi)].
          apply Permutation_map. rewrite Hrest. apply Permutation_app_tail. symmetry. exact Hp2.
        - apply (holds_perm db b); [|exact Hdb]. rewrite Hrest. apply Permutation_app_tail. symmetry. exact Hp2. }
      assert (Hgd : Forall good_item defs).
      { apply Forall_forall. intros h Hh. apply (inv_goods W env ids own St ctr1 (defs ++ rest)); auto. apply in_or_app; auto. }
      destruct (holds_load (w_hdb W) _ _ defs (st_hdb _ _ _ _ St) Hrm Hgd) as (db1 & El & Hdb'). rewrite El in E. cbn [bind] in E.
      apply (holds_perm _ _ (defs ++ rest)) in Hdb'; [|apply Permutation_app_comm].
      assert (Hnf : forall h, In h rest -> In h b /\ ~ In h found).
      { intros h Hh. split; [apply (Permutation_in _ (Permutation_sym Hrest)), in_or_app; auto|].
        intros K. assert (Hn : NoDup (map n_id (found ++ rest))).
        { apply (Permutation_NoDup (l := map n_id b)); [|apply (bi_nodup _ _ _ _ _ _ Hi)].
          apply Permutation_map, Hrest. }
        rewrite map_app in Hn. apply nodup_app_inv in Hn. destruct Hn as (_ & _ & Hn).
        apply (Hn (n_id h)); apply in_map; auto. }
      assert (Lb : length b = (length sel + length rest)%nat) by (rewrite (Permutation_length Hsr), app_length; reflexivity).
      destruct (IH (S round) (mark_dirty dirty sel) defs db1 ctr1 (defs ++ rest) db' ctr') as (b' & B1 & B2 & B3 & B4 & B5 & B6); auto.
      + intros x Hx. apply in_or_app; auto.
      + destruct Ht as [age Ht]. destruct (newer age rest defs) as (age' & Hold & Hnew).
        { intros x y Hx Hy E'. pose proof (bi_nodup _ _ _ _ _ _ Hi') as Hn. rewrite map_app in Hn.
          apply nodup_app_inv in Hn. destruct Hn as (_ & _ & Hn). apply (Hn (n_id y)); [apply in_map, Hy|].
          rewrite <- E'. apply in_map, Hx. }
        exists age'. intros x y v Hx Hy Hne Bx Nxy Hs. apply in_app_iff in Hx. apply in_app_iff in Hy.
        destruct Hx as [Hx|Hx]; [left; auto|]. right. destruct Hy as [Hy|Hy]; [right; auto|].
        destruct (Hnf x Hx) as [Hxb Hxn]. destruct (Hnf y Hy) as [Hyb Hyn].
        rewrite (Hold x Hx), (Hold y Hy). destruct (Ht x y v Hxb Hyb Hne Bx Nxy Hs) as [K|K]; [|exact K]. left.
        destruct (Hpair x y v K Hyb Bx Nxy (or_introl Hne) Hs) as (w & Hw & Ew & [-> |(W1 & W2 & W3)]); [contradiction|].
        exists w. pose proof (bi_proper _ _ _ _ _ _ Hi) as Hpr. rewrite Forall_forall in Hpr.
        split; [exact (Hpr w W1)|]. split; [exact (inv_member _ _ _ _ _ _ _ Hi W1)|]. split; [|auto].
        assert (Hv : In v b /\ ~ In v found).
        { destruct (selects_which ctr b x y v Hi Hxb Hyb Hs) as [-> | ->]; auto. }
        intros Ei. apply (proj2 Hv). rewrite <- (inv_rng_inj _ _ _ _ _ _ _ _ Hi W1 (proj1 Hv) Ei Ew). exact Hw.
      + rewrite app_length in B3. exists b'. split; [exact B1|]. split; [exact B2|]. split; [lia|]. split; [exact B4|]. split; cycle 1.
        { intros Eb. rewrite (B6 ltac:(rewrite app_length; lia)), Hsr. apply Permutation_app_tail. rewrite Hsame; [reflexivity|].
          intros h Hh. destruct (Z.eq_dec (rsize (n_rng h)) 1) as [K|K]; [exact K|exfalso].
          assert (length sel < length defs)%nat by (apply Hgrow; eauto). lia. }
        intros Eb x y v Hx Hy Hne Bx Nxy Hs.
        destruct (Hpair x y v Hx Hy Bx Nxy (or_introl Hne) Hs) as (w & Hw & Ew & _). rewrite <- Ew.
        destruct (Z.eq_dec (rsize (n_rng w)) 1) as [K|K]; [exact K|exfalso].
        assert (length sel < length defs)%nat; [|lia]. apply Hgrow. exists w. split; [|exact K].
        apply (Permutation_in _ (Permutation_sym Hp1)), Hw.
  Qed.
  (** The pieces of the selected hulls: of a line that is marked, or a hull of one segment as it was. *)
  Lemma deform_sources sel : forall ctr defs ctr', deform_nodes W env sel ctr = Ok (defs, ctr') ->
    forall d, In d defs -> In d sel \/ exists h, In h sel /\ (1 <? rsize (n_rng h)) = true /\ n_inst d = n_inst h.
  Proof.
    induction sel as [|h r IH]; intros ctr defs ctr' E d Hd; cbn [deform_nodes] in E.
    - injection E as <- <-. destruct Hd.
    - destruct (1 <? rsize (n_rng h)) eqn:Es.
      + destruct (at_score_selection _ _ _ _ _) as [[[ha hb] c1]| |] eqn:Ea; try discriminate E. cbn [bind] in E.
        destruct (deform_nodes W env r c1) as [[rest c2]| |] eqn:Er; try discriminate E. cbn [bind] in E. injection E as <- <-.
        assert (Hins : n_inst ha = n_inst h /\ n_inst hb = n_inst h).
        { exact (at_score_inst _ _ _ _ _ _ _ _ Ea). }
        destruct Hd as [<- |[<- |Hd]]; [right; exists h; split; [left; auto|]; tauto..|].
        destruct (IH _ _ _ Er d Hd) as [K|(g & K1 & K2)]; [left; right; exact K|right; exists g; split; [right; exact K1|exact K2]].
      + destruct (deform_nodes W env r ctr) as [[rest c2]| |] eqn:Er; try discriminate E. cbn [bind] in E. injection E as <- <-.
        destruct Hd as [<- |Hd]; [left; left; auto|].
        destruct (IH _ _ _ Er d Hd) as [K|(g & K1 & K2)]; [left; right; exact K|right; exists g; split; [right; exact K1|exact K2]].
  Qed.

  (** The hulls of one line: those that were there at first are not compared with each other. *)
  Definition in_time_own (b0 : list node) (age : Z -> nat) (D b : list node) : Prop :=
    forall x y v, In x b -> In y b -> n_inst y = n_inst x -> big x -> near_ x y = true -> selects x y v ->
      In x D \/ (In x b0 /\ In y b0) \/ (exists z, displaced_by x v z) \/ (age (n_id x) < age (n_id y))%nat.

  Lemma split_loop_own b0 ord : (forall k l, Permutation (ord k l) l) ->
    forall fuel round dirty D db ctr b db' ctr',
    holds db b -> inv ctr b -> incl D b ->
    split_loop W env ord fuel round dirty D db ctr = Ok (db', ctr') ->
    (forall x, In x b -> In x b0 \/ dirty (n_inst x) = true) ->
    (exists age, in_time_own b0 age D b) ->
    exists b', holds db' b' /\ inv ctr' b' /\ (exists age, in_time_own b0 age [] b').
  Proof.
    intros Hord. induction fuel as [|f IH]; intros round dirty D db ctr b db' ctr' Hdb Hi Hsub E Hm Ht;
      cbn [split_loop] in E; (destruct D as [|d0 D0] eqn:ED; [|try discriminate E]).
    1, 2: injection E as <- <-; exists b; split; [auto|]; split; [auto|]; exact Ht.
    rewrite <- ED in *. clear ED.
    destruct (find_spec W env ids own St dirty db ctr b D Hdb Hi Hsub) as (found & Ef & Hnd & Hin & _).
    rewrite Ef in E. cbn [bind] in E. pose proof (find_others dirty db ctr b D found Hdb Hi Hsub Ef) as Hpair.
    (* a comparison with a hull of the line is made, unless both were there at first *)
    assert (Hmade : forall x y v, In x D -> In y b -> n_inst y = n_inst x -> big x -> near_ x y = true -> selects x y v ->
      (In x b0 /\ In y b0) \/
      exists w, In w found /\ n_rng w = n_rng v /\ (w = x \/ (In w b /\ near_ x w = true /\ selects x w w))).
    { intros x y v Hx Hy He Bx Nxy Hs. destruct (dirty (n_inst x)) eqn:Ed; [right; exact (Hpair x y v Hx Hy Bx Nxy (or_intror Ed) Hs)|].
      left. split; [destruct (Hm x (Hsub x Hx)) as [K|K]; [exact K|congruence]|].
      destruct (Hm y Hy) as [K|K]; [exact K|rewrite He in K; congruence]. }
    pose proof (Hord (2 * round)%nat found) as Hp1. pose proof (Hord (S (2 * round)) found) as Hp2.
    destruct (ord (2 * round)%nat found) as [|s0 s1] eqn:Es.
    - apply Permutation_nil in Hp1. subst found. injection E as <- <-. exists b. split; [auto|]. split; [auto|].
      destruct Ht as [age Ht]. exists age. intros x y v Hx Hy He Bx Nxy Hs. right.
      destruct (Ht x y v Hx Hy He Bx Nxy Hs) as [K|K]; [|exact K].
      destruct (Hmade x y v K Hy He Bx Nxy Hs) as [Q|(w & [] & _)]. left. exact Q.
    - set (sel := s0 :: s1) in *.
      destruct (incl_rest found b Hnd (bi_nodup _ _ _ _ _ _ Hi) Hin) as [rest Hrest].
      assert (Hsr : Permutation b (sel ++ rest)).
      { rewrite Hrest. apply Permutation_app_tail. symmetry. exact Hp1. }
      destruct (deform_spec W env ids own St sel rest ctr (inv_perm _ _ _ _ _ _ _ Hsr Hi))
        as (defs & ctr1 & Ed & Hi' & Hc' & Hlen & Hgrow & Hsame & Hcut).
      rewrite Ed in E. cbn [bind] in E. pose proof (deform_sources _ _ _ _ Ed) as Hsrc.
      assert (Hrm : holds (clean_up db (ord (S (2 * round)) found)) rest).
      { apply holds_remove_all.
        - apply (Permutation_NoDup (l := map n_id b)); [|apply (bi_nodup _ _ _ _ _ _ Hi)].
          apply Permutation_map. rewrite Hrest. apply Permutation_app_tail. symmetry. exact Hp2.
        - apply (holds_perm db b); [|exact Hdb]. rewrite Hrest. apply Permutation_app_tail. symmetry. exact Hp2. }
      assert (Hgd : Forall good_item defs).
      { apply Forall_forall. intros h Hh. apply (inv_goods W env ids own St ctr1 (defs ++ rest)); auto. apply in_or_app; auto. }
      destruct (holds_load (w_hdb W) _ _ defs (st_hdb _ _ _ _ St) Hrm Hgd) as (db1 & El & Hdb'). rewrite El in E. cbn [bind] in E.
      apply (holds_perm _ _ (defs ++ rest)) in Hdb'; [|apply Permutation_app_comm].
      assert (Hnf : forall h, In h rest -> In h b /\ ~ In h found).
      { intros h Hh. split; [apply (Permutation_in _ (Permutation_sym Hrest)), in_or_app; auto|].
        intros K. assert (Hn : NoDup (map n_id (found ++ rest))).
        { apply (Permutation_NoDup (l := map n_id b)); [|apply (bi_nodup _ _ _ _ _ _ Hi)].
          apply Permutation_map, Hrest. }
        rewrite map_app in Hn. apply nodup_app_inv in Hn. destruct Hn as (_ & _ & Hn).
        apply (Hn (n_id h)); apply in_map; auto. }
      destruct (IH (S round) (mark_dirty dirty sel) defs db1 ctr1 (defs ++ rest) db' ctr') as (b' & B1 & B2 & B3); auto.
      + intros x Hx. apply in_or_app; auto.
      + intros x Hx.
        assert (Hold : In x b -> In x b0 \/ mark_dirty dirty sel (n_inst x) = true).
        { intros K. destruct (Hm x K) as [Q|Q]; [left; exact Q|right]. unfold mark_dirty. rewrite Q. reflexivity. }
        apply in_app_iff in Hx. destruct Hx as [Hx|Hx]; [|apply Hold, (proj1 (Hnf x Hx))].
        destruct (Hsrc x Hx) as [K|(h & K1 & K2 & K3)].
        * apply Hold, Hin, (Permutation_in _ Hp1), K.
        * right. unfold mark_dirty. apply orb_true_iff. right. apply existsb_exists. exists h. split; [exact K1|].
          rewrite K2, K3, Z.eqb_refl. reflexivity.
      + destruct Ht as [age Ht]. destruct (newer age rest defs) as (age' & Hold & Hnew).
        { intros x y Hx Hy E'. pose proof (bi_nodup _ _ _ _ _ _ Hi') as Hn. rewrite map_app in Hn.
          apply nodup_app_inv in Hn. destruct Hn as (_ & _ & Hn). apply (Hn (n_id y)); [apply in_map, Hy|].
          rewrite <- E'. apply in_map, Hx. }
        exists age'. intros x y v Hx Hy He Bx Nxy Hs. apply in_app_iff in Hx. apply in_app_iff in Hy.
        destruct Hx as [Hx|Hx]; [left; auto|]. right. destruct Hy as [Hy|Hy]; [right; right; auto|].
        destruct (Hnf x Hx) as [Hxb Hxn]. destruct (Hnf y Hy) as [Hyb Hyn].
        rewrite (Hold x Hx), (Hold y Hy). destruct (Ht x y v Hxb Hyb He Bx Nxy Hs) as [K|K]; [|exact K].
        destruct (Hmade x y v K Hyb He Bx Nxy Hs) as [Q|(w & Hw & Ew & [-> |(W1 & W2 & W3)])]; [left; exact Q|contradiction|].
        right. left.
        exists w. pose proof (bi_proper _ _ _ _ _ _ Hi) as Hpr. rewrite Forall_forall in Hpr.
        split; [exact (Hpr w W1)|]. split; [exact (inv_member _ _ _ _ _ _ _ Hi W1)|]. split; [|auto].
        assert (Hv : In v b /\ ~ In v found).
        { destruct (selects_which ctr b x y v Hi Hxb Hyb Hs) as [-> | ->]; auto. }
        intros Ei. apply (proj2 Hv). rewrite <- (inv_rng_inj _ _ _ _ _ _ _ _ Hi W1 (proj1 Hv) Ei Ew). exact Hw.
      + exists b'. auto.
  Qed.
End ClassConf.
