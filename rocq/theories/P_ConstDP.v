(** The split loop of constrained simplification. *)
From Verif Require Import M_Base M_Float M_Rng M_Geom M_Offset M_Node M_Decompose M_Split M_Hdb M_Knn M_Lnr M_Homotopy M_Relate
  M_Deform M_Constrain M_ConstDP Spec Spec_Hdb
  P_Base P_Float P_Decompose P_Split P_Node P_Hdb P_HdbIns P_HdbLoad P_HdbHist P_Knn P_Homotopy P_Relate P_Db P_Bag
  P_Constrain P_Deform.
From Coq Require Import Sorted.
Open Scope Z_scope.

Lemma validate_ok L pop o t b h : pop_bag pop -> holds t b -> 2 <= clen (n_coords h) ->
  exists r, validate_context L pop o t h = Ok r.
Proof.
  intros Hp Ht Hn. unfold validate_context. destruct (negb _); [eauto|].
  destruct (holds_context L pop t b (n_geom h) (o_min_dist o) Hp Ht) as (r & rest & -> & _).
  cbn [bind]. cbv zeta. destruct (o_geom o); cbn [andb].
  - destruct (geom_relate_valid L h (map n_geom r)); cbn [andb].
    + destruct (o_dist o); [destruct (dist_relate_valid _ _ _ _)|]; cbn [andb]; eauto.
      * destruct (o_dir o); [apply homotopy_total; exact Hn|eauto].
      * destruct (o_dir o); [apply homotopy_total; exact Hn|eauto].
    + eauto.
  - destruct (o_dist o); [destruct (dist_relate_valid _ _ _ _)|]; cbn [andb]; eauto.
    + destruct (o_dir o); [apply homotopy_total; exact Hn|eauto].
    + destruct (o_dir o); [apply homotopy_total; exact Hn|eauto].
Qed.

(** ** Dedup by id *)

Lemma dedup_in l x : In x (dedup_ids l) -> In x l.
Proof.
  induction l as [|h r IH]; cbn; [tauto|]. intros [<- |H]; auto. apply filter_In in H. right. apply IH, H.
Qed.
Lemma dedup_id l x : In x l -> exists y, In y (dedup_ids l) /\ n_id y = n_id x.
Proof.
  induction l as [|h r IH]; cbn; [tauto|]. intros [<- |H]; [exists h; auto|].
  destruct (IH H) as (y & Hy & E). destruct (Z.eq_dec (n_id y) (n_id h)) as [K|K].
  - exists h. split; auto. congruence.
  - exists y. split; auto. right. apply filter_In. split; auto. apply negb_true_iff, Z.eqb_neq, K.
Qed.
Lemma filter_map_nodup f l : NoDup (map n_id l) -> NoDup (map n_id (filter f l)).
Proof.
  induction l as [|h r IH]; cbn; auto. intros H. inversion H as [|? ? H1 H2]; subst.
  destruct (f h); cbn; auto. constructor; auto. intros K. apply H1.
  apply in_map_iff in K. destruct K as (y & E & Hy). apply filter_In in Hy. rewrite <- E. apply in_map, Hy.
Qed.
Lemma dedup_nodup l : NoDup (map n_id (dedup_ids l)).
Proof.
  induction l as [|h r IH]; cbn; constructor.
  - intros K. apply in_map_iff in K. destruct K as (y & E & Hy). apply filter_In in Hy.
    destruct Hy as [_ Hy]. rewrite E, Z.eqb_refl in Hy. discriminate.
  - apply filter_map_nodup, IH.
Qed.

Lemma mapM_ok {A B} (f : A -> res B) l : (forall x, In x l -> exists y, f x = Ok y) ->
  exists ys, mapM f l = Ok ys /\ Forall2 (fun x y => f x = Ok y) l ys.
Proof.
  induction l as [|x l IH]; cbn; intros H.
  - exists []. split; auto.
  - destruct (H x (or_introl eq_refl)) as [y Ey].
    destruct IH as (ys & E & F); [intros; apply H; auto|].
    exists (y :: ys). rewrite Ey. cbn. rewrite E. cbn. split; auto.
Qed.
Lemma Forall2_in_l {A B} (R : A -> B -> Prop) l l' x : Forall2 R l l' -> In x l -> exists y, In y l' /\ R x y.
Proof. induction 1; cbn; [tauto|]. intros [<- |H1]; [eauto|]. destruct (IHForall2 H1) as (z & ? & ?). eauto. Qed.
Lemma Forall2_in_r {A B} (R : A -> B -> Prop) l l' y : Forall2 R l l' -> In y l' -> exists x, In x l /\ R x y.
Proof. induction 1; cbn; [tauto|]. intros [<- |H1]; [eauto|]. destruct (IHForall2 H1) as (z & ? & ?). eauto. Qed.

(** Newcomers can be given later times than everything already there. *)
Lemma newer (age : Z -> nat) (old new : list node) :
  (forall x y, In x old -> In y new -> n_id x <> n_id y) ->
  exists age', (forall x, In x old -> age' (n_id x) = age (n_id x)) /\
    (forall x y, In x old -> In y new -> (age' (n_id x) < age' (n_id y))%nat).
Proof.
  intros Hd. set (top := list_max (map (fun x => age (n_id x)) old)).
  exists (fun i => if existsb (fun y => n_id y =? i) new then S top else age i).
  assert (Ho : forall x, In x old -> existsb (fun y => n_id y =? n_id x) new = false).
  { intros x Hx. destruct (existsb _ new) eqn:E; [|reflexivity]. exfalso. apply existsb_exists in E.
    destruct E as (y & Hy & E). apply Z.eqb_eq in E. apply (Hd x y Hx Hy). auto. }
  split.
  - intros x Hx. rewrite Ho; auto.
  - intros x y Hx Hy. rewrite (Ho x Hx).
    assert (existsb (fun z => n_id z =? n_id y) new = true) as ->.
    { apply existsb_exists. exists y. split; [exact Hy|apply Z.eqb_refl]. }
    assert (age (n_id x) <= top)%nat; [|lia].
    pose proof (proj1 (list_max_le (map (fun x => age (n_id x)) old) top) (Nat.le_refl _)) as K.
    rewrite Forall_forall in K. apply K. apply in_map_iff. eauto.
Qed.

Section Loop.
  Variable W : world.
  Variable env : Z -> cdp.
  Variable ids : list Z.
  Variable own : Z -> Prop.
  Let L := w_geom W.
  Definition lines_of (i : Z) : list point := c_pts (env i).

  Record setting : Prop := {
    st_gen : src_ok (Src (w_gen W) own);
    st_hdb : oracle_ok (w_hdb W);
    st_pop : pop_bag (w_pop W);
    st_touch : point_touch (w_geom W);
    st_nodup : NoDup ids;
    st_ctx : forall i, In i ids -> exists cb, holds (c_ctxdb (env i)) cb;
    st_good : forall i h, In i ids -> fresh_hull (w_geom W) (lines_of i) i h -> good_item h;
    st_score : forall i r, In i ids -> 0 <= rI r -> 1 < rJ r - rI r -> rJ r < zlen (lines_of i) ->
      0 < fst (dp_score (c_score (env i)) (c_sq (env i)) (sub_coords (lines_of i) r)) < rJ r - rI r
  }.
  Hypothesis St : setting.
  Notation inv := (bag_inv (w_geom W) lines_of ids (Src (w_gen W) own)).

  (** Hulls that are examined. *)
  Definition big (h : node) : Prop := rsize (n_rng h) <> 1 /\ is_line (n_geom h) = false.
  Definition valid_in (self : cdp) (h : node) : Prop :=
    validate_context (w_geom W) (w_pop W) (c_opts self) (c_ctxdb self) h = Ok true.
  Definition settled (a b : node) : Prop :=
    pair_candidates (w_geom W) (o_non_planar_displacement (c_opts (env (n_inst a)))) true a b = Ok (None, None).

  Lemma big_dec h : big h \/ (rsize (n_rng h) = 1 \/ is_line (n_geom h) = true).
  Proof.
    unfold big. destruct (Z.eq_dec (rsize (n_rng h)) 1); auto. destruct (is_line (n_geom h)); auto.
  Qed.

  Lemma inv_hullish ctr b : inv ctr b -> Forall hullish b.
  Proof.
    intros H. eapply Forall_impl; [|apply (bi_proper _ _ _ _ _ _ H)]. intros h K. eapply fresh_hullish, K.
  Qed.
  Lemma inv_goods ctr b h : inv ctr b -> In h b -> good_item h.
  Proof.
    intros H Hh. pose proof (inv_good (w_geom W) lines_of ids (Src (w_gen W) own) (st_good St) ctr b H) as K.
    rewrite Forall_forall in K. apply K, Hh.
  Qed.
  Lemma hull_clen pts h : hull_of pts h -> 2 <= clen (n_coords h).
  Proof. intros H. rewrite (hull_len pts h H). destruct H; lia. Qed.

  Lemma by_class_spec disp dirty db ctr b h :
    holds db b -> inv ctr b -> In h b ->
    exists ctxs sel bln, by_class (w_geom W) disp dirty db h = Ok (bln, sel) /\
      Permutation ctxs (optimize_neighbours dirty h (filter (nearby (w_geom W) epsilon_dist h) b)) /\
      select_loop (w_geom W) disp true h ctxs [] = Ok sel /\
      (forall v, In v sel -> In v b) /\ (bln = false -> In h sel).
  Proof.
    intros Hdb Hi Hh.
    destruct (holds_neighbours (w_geom W) db b h epsilon_dist Hdb (inv_goods _ _ _ Hi Hh)) as (r & Er & Hp).
    assert (Hsub : forall x, In x (optimize_neighbours dirty h r) -> In x b).
    { intros x Hx. assert (In x r) by (unfold optimize_neighbours in Hx; destruct dirty; auto; apply filter_In in Hx; tauto).
      apply (Permutation_in _ Hp) in H. apply filter_In in H. tauto. }
    pose proof (inv_hullish _ _ Hi) as Hl. rewrite Forall_forall in Hl.
    assert (Hf : Forall hullish (optimize_neighbours dirty h r)) by (apply Forall_forall; auto).
    destruct (select_loop_spec (w_geom W) disp true h (st_touch St) (Hl h Hh) _ [] Hf) as (sel & Es & R1 & _ & _).
    exists (optimize_neighbours dirty h r), sel. eexists. split; [|split; [|split; [|split]]].
    - unfold by_class, select_feature_class. rewrite Er. cbn [bind]. rewrite Es. cbn [bind by_selection]. reflexivity.
    - unfold optimize_neighbours. destruct dirty; [exact Hp|]. apply filter_perm, Hp.
    - exact Es.
    - intros v Hv. destruct (R1 v Hv) as [[]|(g & Hg & K)].
      destruct (selected_which _ disp true h (st_touch St) (Hl h Hh) _ g v Hf Hg K) as [-> | ->]; auto.
    - intros E. apply negb_false_iff in E. apply existsb_exists in E. destruct E as (x & Hx & Ex).
      apply Z.eqb_eq in Ex. assert (Hxb : In x b).
      { destruct (R1 x Hx) as [[]|(g & Hg & K)].
        destruct (selected_which _ disp true h (st_touch St) (Hl h Hh) _ g x Hf Hg K) as [-> | ->]; auto. }
      rewrite <- (inv_id_inj _ _ _ _ _ _ _ _ Hi Hxb Hh Ex). exact Hx.
  Qed.

  Lemma check_hull_spec dirty db ctr b h :
    holds db b -> inv ctr b -> In h b ->
    exists sel, check_hull W env dirty db h = Ok sel /\
      (forall v, In v sel -> In v b) /\
      (~ big h -> sel = []) /\
      (big h -> ~ In h sel -> valid_in (env (n_inst h)) h) /\
      (big h -> o_avoid_self (c_opts (env (n_inst h))) = true -> dirty (n_inst h) = true ->
       (forall x y, In x b -> In y b -> n_rng x = n_rng y -> x = y) ->
       forall y, In y b -> nearby (w_geom W) epsilon_dist h y = true ->
       (In h sel \/ In y sel) \/ settled h y).
  Proof.
    intros Hdb Hi Hh. unfold check_hull.
    pose proof (inv_hull _ _ _ _ _ _ _ Hi Hh) as Hhull.
    pose proof (inv_member _ _ _ _ _ _ _ Hi Hh) as Hm.
    destruct (st_ctx St _ Hm) as [cb Hcb].
    destruct (validate_ok (w_geom W) (w_pop W) (c_opts (env (n_inst h))) _ cb h (st_pop St) Hcb (hull_clen _ _ Hhull))
      as [okv Eok].
    destruct (Z.eqb_spec (rsize (n_rng h)) 1) as [E1|E1].
    { exists []. split; [reflexivity|]. split; [cbn; tauto|]. split; [auto|].
      split; intros [K _]; contradiction. }
    destruct (is_line (n_geom h)) eqn:E2.
    { exists []. split; [reflexivity|]. split; [cbn; tauto|]. split; [auto|].
      split; intros [_ K]; congruence. }
    assert (Hbig : big h) by (split; auto).
    destruct (o_avoid_self (c_opts (env (n_inst h)))) eqn:Ea.
    - destruct (by_class_spec (o_non_planar_displacement (c_opts (env (n_inst h)))) (dirty (n_inst h)) db ctr b h Hdb Hi Hh)
        as (ctxs & sel & bln & -> & Hp & Es & S1 & S2).
      cbn [bind].
      assert (Hpairs : dirty (n_inst h) = true ->
         (forall x y, In x b -> In y b -> n_rng x = n_rng y -> x = y) ->
         forall y, In y b -> nearby (w_geom W) epsilon_dist h y = true ->
         (In h sel \/ In y sel) \/ settled h y).
      { intros Hd Hinj y Hy Hny. rewrite Hd in Hp. cbn [optimize_neighbours] in Hp.
        assert (Hsub : forall x, In x ctxs -> In x b).
        { intros x Hx. apply (Permutation_in _ Hp) in Hx. apply filter_In in Hx. tauto. }
        pose proof (inv_hullish _ _ Hi) as Hl. rewrite Forall_forall in Hl.
        assert (Hf : Forall hullish ctxs) by (apply Forall_forall; auto).
        destruct (select_loop_exact (w_geom W) (o_non_planar_displacement (c_opts (env (n_inst h)))) true h
                    (st_touch St) (Hl h Hh) ctxs Hf) as (r & Er & R).
        { intros x z Hx Hz. apply Hinj; cbn in Hx, Hz; [destruct Hx as [<- |Hx]|destruct Hz as [<- |Hz]]; auto. }
        rewrite Er in Es. injection Es as ->.
        assert (Hyc : In y ctxs) by (apply (Permutation_in _ (Permutation_sym Hp)), filter_In; auto).
        destruct (pair_spec (w_geom W) (o_non_planar_displacement (c_opts (env (n_inst h)))) true h y
                    (st_touch St) (Hl h Hh) (Hl y Hy)) as (sa & sb & E & Ha & Hb).
        destruct Ha as [-> | ->].
        - destruct Hb as [-> | ->]; [right; exact E|]. left. right. apply R. exists y. split; auto.
          do 2 eexists. split; [exact E|]. auto.
        - left. left. apply R. exists y. split; auto. do 2 eexists. split; [exact E|]. auto. }
      destruct bln.
      + rewrite Eok. cbn [bind]. destruct okv.
        * exists sel. split; [reflexivity|]. split; [exact S1|]. split; [contradiction|].
          split; [intros _ _; exact Eok|]. intros _ _. exact Hpairs.
        * exists (sel ++ [h]). split; [reflexivity|]. split; [|split; [contradiction|split]].
          -- intros v Hv. apply in_app_iff in Hv. cbn in Hv. destruct Hv as [Hv|[<- |[]]]; auto.
          -- intros _ K. exfalso. apply K, in_or_app. right. left. reflexivity.
          -- intros _ _ Hd Hinj y Hy Hny. left. left. apply in_or_app. right. left. reflexivity.
      + exists sel. split; [reflexivity|]. split; [exact S1|]. split; [contradiction|].
        split; [intros _ K; exfalso; auto|]. intros _ _. exact Hpairs.
    - cbn [bind]. rewrite Eok. cbn [bind]. destruct okv.
      + exists []. split; [reflexivity|]. split; [cbn; tauto|]. split; [auto|].
        split; [intros _ _; exact Eok|]. intros _ K; congruence.
      + exists [h]. split; [reflexivity|]. split; [intros v [<- |[]]; auto|]. split; [contradiction|].
        split; [intros _ K; exfalso; apply K; left; auto|]. intros _ K; congruence.
  Qed.

  (** The hulls found in one round. *)
  Lemma find_spec dirty db ctr b D :
    holds db b -> inv ctr b -> incl D b ->
    exists sel, find_deformable W env dirty D db = Ok sel /\
      NoDup (map n_id sel) /\ incl sel b /\
      ((forall h, In h D -> ~ big h) -> sel = []) /\
      (forall h, In h D -> big h -> ~ In h sel -> valid_in (env (n_inst h)) h) /\
      ((forall x y, In x b -> In y b -> n_rng x = n_rng y -> x = y) ->
       forall h, In h D -> big h -> o_avoid_self (c_opts (env (n_inst h))) = true -> dirty (n_inst h) = true ->
       forall y, In y b -> nearby (w_geom W) epsilon_dist h y = true ->
       (In h sel \/ In y sel) \/ settled h y).
  Proof.
    intros Hdb Hi Hsub. unfold find_deformable.
    destruct (mapM_ok (check_hull W env dirty db) D) as (sels & Em & F).
    { intros x Hx. destruct (check_hull_spec dirty db ctr b x Hdb Hi (Hsub x Hx)) as (s & E & _). eauto. }
    rewrite Em. cbn [bind]. exists (dedup_ids (concat sels)). split; [reflexivity|].
    assert (Hin : forall v, In v (concat sels) -> In v b).
    { intros v Hv. apply in_concat in Hv. destruct Hv as (s & Hs & Hv).
      destruct (Forall2_in_r _ _ _ _ F Hs) as (x & Hx & E).
      destruct (check_hull_spec dirty db ctr b x Hdb Hi (Hsub x Hx)) as (s' & E' & K & _).
      rewrite E in E'. injection E' as <-. auto. }
    assert (Hback : forall v, In v (concat sels) -> In v (dedup_ids (concat sels))).
    { intros v Hv. destruct (dedup_id _ _ Hv) as (w & Hw & E).
      rewrite <- (inv_id_inj _ _ _ _ _ _ _ _ Hi (Hin w (dedup_in _ _ Hw)) (Hin v Hv) E). exact Hw. }
    split; [apply dedup_nodup|]. split; [intros v Hv; apply Hin, dedup_in, Hv|]. split; [|split].
    - intros Hno. assert (E : concat sels = []); [|rewrite E; reflexivity].
      destruct (concat sels) as [|v t] eqn:Ec; auto. exfalso.
      assert (Hv : In v (concat sels)) by (rewrite Ec; left; auto).
      apply in_concat in Hv. destruct Hv as (s & Hs & Hv).
      destruct (Forall2_in_r _ _ _ _ F Hs) as (x & Hx & E).
      destruct (check_hull_spec dirty db ctr b x Hdb Hi (Hsub x Hx)) as (s' & E' & _ & K & _).
      rewrite E in E'. injection E' as <-. rewrite (K (Hno x Hx)) in Hv. destruct Hv.
    - intros h Hh Hb Hn. destruct (Forall2_in_l _ _ _ _ F Hh) as (s & Hs & E).
      destruct (check_hull_spec dirty db ctr b h Hdb Hi (Hsub h Hh)) as (s' & E' & _ & _ & K & _).
      rewrite E in E'. injection E' as <-. apply (K Hb). intros Hc. apply Hn, Hback, in_concat. eauto.
    - intros Hinj h Hh Hb Ha Hd y Hy Hny. destruct (Forall2_in_l _ _ _ _ F Hh) as (s & Hs & E).
      destruct (check_hull_spec dirty db ctr b h Hdb Hi (Hsub h Hh)) as (s' & E' & _ & _ & _ & K).
      rewrite E in E'. injection E' as <-. destruct (K Hb Ha Hd Hinj y Hy Hny) as [[K1|K1]|K1].
      + left; left. apply Hback, in_concat. eauto.
      + left; right. apply Hback, in_concat. eauto.
      + right; exact K1.
  Qed.

  (** Splitting the hulls found. *)
  Lemma deform_spec sel : forall rest ctr, inv ctr (sel ++ rest) ->
    exists defs ctr', deform_nodes W env sel ctr = Ok (defs, ctr') /\
      inv ctr' (defs ++ rest) /\ (ctr <= ctr')%nat /\
      (length sel <= length defs)%nat /\
      ((exists h, In h sel /\ rsize (n_rng h) <> 1) -> (length sel < length defs)%nat) /\
      ((forall h, In h sel -> rsize (n_rng h) = 1) -> defs = sel) /\
      (forall i k, cut_at (sel ++ rest) i k -> cut_at (defs ++ rest) i k).
  Proof.
    induction sel as [|h r IH]; intros rest ctr Hi; cbn [deform_nodes].
    - exists [], ctr. split; [reflexivity|]. split; [exact Hi|]. split; [lia|]. split; [lia|]. split; [intros (h & K & _); destruct K|]. split; auto.
    - assert (Hin : In h ((h :: r) ++ rest)) by (left; auto).
      pose proof (inv_hull _ _ _ _ _ _ _ Hi Hin) as Hhull.
      pose proof (inv_member _ _ _ _ _ _ _ Hi Hin) as Hm.
      assert (Hsz : rsize (n_rng h) = rJ (n_rng h) - rI (n_rng h)).
      { destruct Hhull as (_ & K & _). unfold rsize. lia. }
      destruct (Z.ltb_spec 1 (rsize (n_rng h))) as [H1|H1].
      + assert (Hk : 0 < fst (dp_score (c_score (env (n_inst h))) (c_sq (env (n_inst h))) (n_coords h)) <
                     rJ (n_rng h) - rI (n_rng h)).
        { pose proof (st_score St (n_inst h) (n_rng h) Hm) as K. destruct Hhull as (A & B & C & D).
          rewrite D. apply K; auto; lia. }
        destruct (at_score_spec (w_geom W) (w_gen W) _ h _ ctr Hhull Hk)
          as (ha & hb & E & Ea & Eb & Fa & Fb & Ia & Ib).
        rewrite E. cbn [bind].
        set (k := fst (dp_score (c_score (env (n_inst h))) (c_sq (env (n_inst h))) (n_coords h))) in *.
        assert (Hch : chain (rI (n_rng h)) (rJ (n_rng h)) (map n_rng [ha; hb])).
        { cbn [map chain]. rewrite Ea, Eb. cbn [rI rJ]. repeat split; lia. }
        assert (Hi2 : inv (ctr + 2) ([ha; hb] ++ (r ++ rest))).
        { apply (inv_split (w_geom W) lines_of ids (Src (w_gen W) own) (st_gen St) ctr h [ha; hb]); auto.
          cbn. rewrite Ia, Ib. reflexivity. }
        assert (Hperm : Permutation ([ha; hb] ++ (r ++ rest)) (r ++ ([ha; hb] ++ rest))) by apply Permutation_app_swap_app.
        destruct (IH ([ha; hb] ++ rest) (S (S ctr))) as (defs & ctr' & E' & A1 & A2 & A3 & A4 & A5 & A6).
        { eapply inv_perm; [exact Hperm|]. replace (S (S ctr)) with (ctr + 2)%nat by lia. exact Hi2. }
        rewrite E'. cbn [bind]. exists (ha :: hb :: defs), ctr'. split; [reflexivity|].
        assert (Hperm2 : Permutation (defs ++ [ha; hb] ++ rest) ((ha :: hb :: defs) ++ rest)).
        { rewrite (Permutation_app_swap_app defs [ha; hb] rest). reflexivity. }
        split; [eapply inv_perm; [exact Hperm2|exact A1]|]. split; [lia|]. cbn [length]. split; [lia|].
        split; [lia|]. split.
        * intros K. exfalso. specialize (K h (or_introl eq_refl)). lia.
        * intros i j Hc. eapply cut_perm; [exact Hperm2|]. apply A6. eapply cut_perm; [exact Hperm|].
          apply (cut_split h [ha; hb] (r ++ rest)); auto; [destruct Hhull; lia|].
          intros g [<- |[<- |[]]]; [apply Fa|apply Fb].
      + assert (Hs1 : rsize (n_rng h) = 1) by (destruct Hhull as (_ & K & _); lia).
        assert (Hperm : Permutation ((h :: r) ++ rest) (r ++ h :: rest)) by (cbn; apply Permutation_middle).
        destruct (IH (h :: rest) ctr) as (defs & ctr' & E' & A1 & A2 & A3 & A4 & A5 & A6).
        { eapply inv_perm; [exact Hperm|exact Hi]. }
        rewrite E'. cbn [bind]. exists (h :: defs), ctr'. split; [reflexivity|].
        assert (Hperm2 : Permutation (defs ++ h :: rest) ((h :: defs) ++ rest)) by (cbn; symmetry; apply Permutation_middle).
        split; [eapply inv_perm; [exact Hperm2|exact A1]|]. split; [lia|]. cbn [length]. split; [lia|]. split; [|split].
        * intros (g & [<- |Hg] & K); [contradiction|]. assert (length r < length defs)%nat by (apply A4; eauto). lia.
        * intros K. rewrite A5; auto. intros g Hg; apply K; right; auto.
        * intros i j Hc. eapply cut_perm; [exact Hperm2|]. apply A6. eapply cut_perm; [exact Hperm|exact Hc].
  Qed.

  (** An examined hull waits in D, or has been checked against every hull that is not newer. *)
  Definition in_time (age : Z -> nat) (D b : list node) : Prop :=
    forall x y, In x b -> In y b -> x <> y -> big x -> nearby (w_geom W) epsilon_dist x y = true ->
      In x D \/ settled x y \/ (age (n_id x) < age (n_id y))%nat.
  Definition pairs_done (D b : list node) : Prop := exists age, in_time age D b.
  Definition all_avoid : Prop := forall i, In i ids -> o_avoid_self (c_opts (env i)) = true.
  Definition all_dirty (dirty : Z -> bool) : Prop := forall i, In i ids -> dirty i = true.
  Definition one_line : Prop := forall i j, In i ids -> In j ids -> i = j.

  Definition rounds (D b : list node) : nat :=
    (Z.to_nat (capacity lines_of ids - zlen b) +
     if forallb (fun h => (rsize (n_rng h) =? 1)%Z) D then 1 else 2)%nat.

  Lemma split_loop_spec ord : (forall k l, Permutation (ord k l) l) ->
    forall fuel round dirty D db ctr b,
    holds db b -> inv ctr b -> incl D b ->
    (forall h, In h b -> In h D \/ (big h -> valid_in (env (n_inst h)) h)) ->
    (rounds D b <= fuel)%nat ->
    exists db' ctr' b', split_loop W env ord fuel round dirty D db ctr = Ok (db', ctr') /\
      holds db' b' /\ inv ctr' b' /\ (ctr <= ctr')%nat /\
      (forall i k, cut_at b i k -> cut_at b' i k) /\
      (forall h, In h b' -> big h -> valid_in (env (n_inst h)) h) /\
      (all_avoid -> all_dirty dirty -> one_line -> pairs_done D b -> pairs_done [] b').
  Proof.
    intros Hord. induction fuel as [|f IH]; intros round dirty D db ctr b Hdb Hi Hsub Hval Hf.
    { exfalso. unfold rounds in Hf. destruct (forallb _ D); lia. }
    cbn [split_loop].
    destruct D as [|d0 D0] eqn:ED.
    { exists db, ctr, b. ands; auto. intros h Hh Hb. destruct (Hval h Hh) as [[]|K]. auto. }
    rewrite <- ED in *. clear ED.
    destruct (find_spec dirty db ctr b D Hdb Hi Hsub) as (found & -> & Hnd & Hin & Hno & Hvalid & Hpair).
    cbn [bind].
    pose proof (Hord (2 * round)%nat found) as Hp1. pose proof (Hord (S (2 * round)) found) as Hp2.
    destruct (ord (2 * round)%nat found) as [|s0 s1] eqn:Es.
    - (* nothing found *)
      apply Permutation_nil in Hp1. subst found.
      exists db, ctr, b. ands; auto.
      + intros h Hh Hb. destruct (Hval h Hh) as [K|K]; auto.
      + intros Ha Hd H1 (age & Hpd). exists age. intros x y Hx Hy Hne Bx Nxy. right.
        assert (Hinj : forall u v, In u b -> In v b -> n_rng u = n_rng v -> u = v).
        { intros u v Hu Hv E. apply (inv_rng_inj _ _ _ _ _ _ _ _ Hi Hu Hv); auto.
          apply H1; [exact (inv_member _ _ _ _ _ _ _ Hi Hu)|exact (inv_member _ _ _ _ _ _ _ Hi Hv)]. }
        destruct (Hpd x y Hx Hy Hne Bx Nxy) as [K|K]; [|exact K].
        left. destruct (Hpair Hinj x K Bx (Ha _ (inv_member _ _ _ _ _ _ _ Hi Hx))
            (Hd _ (inv_member _ _ _ _ _ _ _ Hi Hx)) y Hy Nxy) as [[[]|[]]|Q]. exact Q.
    - set (sel := s0 :: s1) in *.
      destruct (incl_rest found b Hnd (bi_nodup _ _ _ _ _ _ Hi) Hin) as [rest Hrest].
      assert (Hsr : Permutation b (sel ++ rest)).
      { rewrite Hrest. apply Permutation_app_tail. symmetry. exact Hp1. }
      destruct (deform_spec sel rest ctr (inv_perm _ _ _ _ _ _ _ Hsr Hi))
        as (defs & ctr' & -> & Hi' & Hc' & Hlen & Hgrow & Hsame & Hcut).
      cbn [bind].
      assert (Hrm : holds (clean_up db (ord (S (2 * round)) found)) rest).
      { apply holds_remove_all.
        - apply (Permutation_NoDup (l := map n_id b)); [|apply (bi_nodup _ _ _ _ _ _ Hi)].
          apply Permutation_map. rewrite Hrest. apply Permutation_app_tail. symmetry. exact Hp2.
        - apply (holds_perm db b); [|exact Hdb]. rewrite Hrest. apply Permutation_app_tail. symmetry. exact Hp2. }
      assert (Hgd : Forall good_item defs).
      { apply Forall_forall. intros h Hh. apply (inv_goods ctr' (defs ++ rest)); auto. apply in_or_app; auto. }
      destruct (holds_load (w_hdb W) _ _ defs (st_hdb St) Hrm Hgd) as (db' & -> & Hdb'). cbn [bind].
      apply (holds_perm _ _ (defs ++ rest)) in Hdb'; [|apply Permutation_app_comm].
      assert (Hnf : forall h, In h rest -> In h b /\ ~ In h found).
      { intros h Hh. split; [apply (Permutation_in _ (Permutation_sym Hrest)), in_or_app; auto|].
        intros K. assert (Hn : NoDup (map n_id (found ++ rest))).
        { apply (Permutation_NoDup (l := map n_id b)); [|apply (bi_nodup _ _ _ _ _ _ Hi)].
          apply Permutation_map, Hrest. }
        rewrite map_app in Hn. apply nodup_app_inv in Hn. destruct Hn as (_ & _ & Hn).
        apply (Hn (n_id h)); apply in_map; auto. }
      destruct (IH (S round) (mark_dirty dirty sel) defs db' ctr' (defs ++ rest))
        as (db2 & ctr2 & b2 & E & B1 & B2 & B3 & B4 & B5 & B6); auto.
      + intros x Hx. apply in_or_app; auto.
      + intros h Hh. apply in_app_iff in Hh. destruct Hh as [Hh|Hh]; auto. right. intros Hb.
        destruct (Hnf h Hh) as [Hhb Hh']. destruct (Hval h Hhb) as [K|K]; auto.
      + pose proof (inv_size _ _ _ _ _ _ (st_nodup St) Hi') as Hz.
        pose proof (inv_size _ _ _ _ _ _ (st_nodup St) Hi) as Hz0.
        assert (Hzb : zlen b = zlen sel + zlen rest).
        { unfold zlen. rewrite (Permutation_length Hsr), app_length. lia. }
        assert (Hzd : zlen (defs ++ rest) = zlen defs + zlen rest) by (unfold zlen; rewrite app_length; lia).
        assert (Hzl : zlen sel <= zlen defs) by (unfold zlen; lia).
        unfold rounds in *.
        destruct (forallb (fun h => rsize (n_rng h) =? 1) D) eqn:EfD.
        * exfalso. assert (found = []).
          { apply Hno. intros h Hh [K _]. rewrite forallb_forall in EfD. specialize (EfD h Hh).
            apply Z.eqb_eq in EfD. contradiction. }
          subst found. apply Permutation_sym, Permutation_nil in Hp1. unfold sel in Hp1. discriminate.
        * destruct (forallb (fun h => rsize (n_rng h) =? 1) sel) eqn:Efs.
          -- rewrite Hsame.
             ++ rewrite Efs. assert (Hd : zlen defs = zlen sel).
                { rewrite Hsame; auto. intros h Hh. rewrite forallb_forall in Efs. apply Z.eqb_eq, Efs, Hh. }
                rewrite Hsame in Hzd by (intros h Hh; rewrite forallb_forall in Efs; apply Z.eqb_eq, Efs, Hh).
                rewrite Hzd, <- Hzb. lia.
             ++ intros h Hh. rewrite forallb_forall in Efs. apply Z.eqb_eq, Efs, Hh.
          -- assert (Hs : exists h, In h sel /\ rsize (n_rng h) <> 1).
             { clear -Efs. induction sel as [|h t IHt]; cbn in Efs; [discriminate|].
               destruct (Z.eqb_spec (rsize (n_rng h)) 1) as [K|K]; [|exists h; split; [left; auto|exact K]].
               destruct (IHt Efs) as (g & Hg & Q). exists g. split; [right; auto|exact Q]. }
             specialize (Hgrow Hs). assert (zlen sel < zlen defs) by (unfold zlen; lia).
             destruct (forallb (fun h => rsize (n_rng h) =? 1) defs); lia.
      + exists db2, ctr2, b2. split; [exact E|]. ands; auto; [lia| |].
        * intros i k Hc. apply B4, Hcut. eapply cut_perm; [exact Hsr|exact Hc].
        * intros Ha Hd H1 (age & Hpd). apply B6; auto.
          { intros i Hii. unfold mark_dirty. rewrite (Hd i Hii). reflexivity. }
          destruct (newer age rest defs) as (age' & Hold & Hnew).
          { intros x y Hx Hy E'. pose proof (bi_nodup _ _ _ _ _ _ Hi') as Hn. rewrite map_app in Hn.
            apply nodup_app_inv in Hn. destruct Hn as (_ & _ & Hn). apply (Hn (n_id y)); [apply in_map, Hy|].
            rewrite <- E'. apply in_map, Hx. }
          exists age'. intros x y Hx Hy Hne Bx Nxy.
          apply in_app_iff in Hx. apply in_app_iff in Hy.
          destruct Hx as [Hx|Hx]; [left; auto|]. right. destruct Hy as [Hy|Hy]; [right; auto|].
          destruct (Hnf x Hx) as [Hxb Hxn]. destruct (Hnf y Hy) as [Hyb Hyn].
          assert (Hinj : forall u v, In u b -> In v b -> n_rng u = n_rng v -> u = v).
          { intros u v Hu Hv Euv. apply (inv_rng_inj _ _ _ _ _ _ _ _ Hi Hu Hv); auto.
            apply H1; [exact (inv_member _ _ _ _ _ _ _ Hi Hu)|exact (inv_member _ _ _ _ _ _ _ Hi Hv)]. }
          rewrite (Hold x Hx), (Hold y Hy).
          destruct (Hpd x y Hxb Hyb Hne Bx Nxy) as [K|K]; [|exact K].
          left. destruct (Hpair Hinj x K Bx (Ha _ (inv_member _ _ _ _ _ _ _ Hi Hxb))
               (Hd _ (inv_member _ _ _ _ _ _ _ Hi Hxb)) y Hyb Nxy) as [[Q|Q]|Q]; try contradiction. exact Q.
  Qed.
End Loop.
