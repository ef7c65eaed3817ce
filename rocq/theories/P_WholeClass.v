(** Proofs for C98: the class phase does what Spec_Class.v describes. *)
From Verif Require Import M_Base M_Float M_Rng M_Geom M_Offset M_Node M_Decompose M_Split M_Hdb M_Knn M_Lnr M_Homotopy M_Relate
  M_Deform M_Constrain M_ConstDP M_IO Spec Spec_Hdb Spec_Lnr Spec_Relate Spec_Deform Spec_ConstDP Spec_IO Spec_Run Spec_Out Spec_Modes Spec_Move
  Spec_Exact Spec_Whole Spec_Class
  P_Base P_Float P_Decompose P_Split P_Node P_Hdb P_HdbHist P_HdbLoad P_Knn P_Homotopy P_Relate P_Db P_Bag P_Constrain P_Deform P_Conflict P_ConstDP P_Aggregate P_Simplify P_DpTree
  P_ClassConf P_Ref P_Twin P_Modes P_Move P_Exact P_Whole.
Open Scope Z_scope.

(** Checks across lines depend on the hulls' vertices, ranges and lines only. *)
Lemma pair_twin_class L disp a a' b b' : twin a a' -> twin b b' -> n_inst a = n_inst a' -> n_inst b = n_inst b' ->
  flags (pair_candidates L disp true a b) = flags (pair_candidates L disp true a' b').
Proof.
  intros Ha Hb Ia Ib. destruct (Z.eq_dec (n_inst a) (n_inst b)) as [E|E].
  - rewrite (pair_same_inst L disp a b E), (pair_same_inst L disp a' b') by congruence. apply pair_twin; auto.
  - unfold pair_candidates. cbn [negb orb]. rewrite <- Ia, <- Ib. destruct (Z.eqb_spec (n_inst a) (n_inst b)); [contradiction|].
    unfold non_contiguous_candidates, n_seg, n_line.
    destruct Ha as (A1 & A2 & A3), Hb as (B1 & B2 & B3). rewrite A1, A3, B1, B3.
    destruct (gl_isect L (n_geom a') (n_geom b')); cbn [negb andb]; [|reflexivity].
    destruct (0 <? _); cbn [negb andb]; [|reflexivity].
    repeat match goal with |- context [if ?c then _ else _] => destruct c end; reflexivity.
Qed.

Section Loop.
  Variables (W : world) (env : Z -> cdp) (ids : list Z) (own : Z -> Prop).
  Hypothesis St : setting W env ids own.
  Variables (o : opts) (dist : point -> point -> point -> f64) (cs : list geometry).
  Hypothesis Hopt : forall i, In i ids -> c_opts (env i) = o.
  Hypothesis Hsc : forall i, In i ids -> c_score (env i) = max_offset dist /\ c_sq (env i) = None.
  Hypothesis Hid : forall i, In i ids -> c_id (env i) = i.
  Hypothesis Htwo : forall i, In i ids -> (2 <= length (lines_of env i))%nat.
  Hypothesis Hpop : pop_ok (fun a b => flt a b = true) (w_pop W).
  Hypothesis Hctx : forall i, In i ids -> holds (c_ctxdb (env i)) (map (context_node (w_geom W) i) cs).
  Hypothesis Hnan : is_nan (o_min_dist o) = false.
  Hypothesis Hbox : forall i h g bx, In i ids -> fresh_hull (w_geom W) (lines_of env i) i h -> In g cs ->
    box_within (gl_bounds (w_geom W) g) bx = true ->
    fle (gl_dist (w_geom W) (n_geom h) (mbr_polygon bx)) (gl_dist (w_geom W) (n_geom h) g) = true.
  Hypothesis Hplaces : forall i p, In i ids -> In p (lines_of env i) -> gl_eq2d (w_geom W) p p = true.
  Notation L := (w_geom W).
  Notation pts := (lines_of env).
  Notation score := (max_offset dist).
  Notation inv := (bag_inv (w_geom W) (lines_of env) ids (Src (w_gen W) own)).
  Notation near_ := (nearby (w_geom W) epsilon_dist).
  Notation cpart := (class_part L pts).

  Lemma bag_fresh ctr b h : inv ctr b -> In h b -> fresh_hull L (pts (n_inst h)) (n_inst h) h.
  Proof. intros Hi Hh. pose proof (bi_proper _ _ _ _ _ _ Hi) as K. rewrite Forall_forall in K. exact (K h Hh). Qed.

  Lemma fresh_part h : fresh_hull L (pts (n_inst h)) (n_inst h) h ->
    twin h (cpart (n_inst h) (n_rng h)) /\ n_mbr h = n_mbr (cpart (n_inst h) (n_rng h)) /\ piece (pts (n_inst h)) (n_rng h).
  Proof.
    intros (A & Eg & Em & _). pose proof A as A'. destruct A' as (A1 & A2 & A3 & Ec). rewrite (cpts_hull _ _ A) in Eg.
    unfold twin, class_part. cbn [n_coords n_rng n_geom n_mbr]. rewrite Em, Eg, Ec. repeat split; auto.
  Qed.

  Lemma part_hullish i r : hullish (cpart i r).
  Proof. eexists. reflexivity. Qed.
  Lemma cpart_ends i r p : piece (pts i) r -> is_end_of (cpart i r) p -> In p (pts i).
  Proof. exact (ends_in L (pts i) r p). Qed.
  Lemma cparts_places i r j q : In j ids -> piece (pts j) q -> places_at L (cpart i r) (cpart j q).
  Proof. intros Hj Hb p p' Hp Hq _. unfold same_place. eapply Hplaces; [exact Hj|]. eapply cpart_ends; eauto. Qed.

  (** One check in terms of parts. *)
  Lemma selects_part ctr b x y v : inv ctr b -> In x b -> In y b ->
    selects W env x y v <->
    (v = x \/ v = y) /\ class_conflict L (o_non_planar_displacement o) (cpart (n_inst x) (n_rng x)) (cpart (n_inst y) (n_rng y)) (cpart (n_inst v) (n_rng v)).
  Proof.
    intros Hi Hx Hy. pose proof (inv_hullish _ _ _ _ _ _ Hi) as Hl. rewrite Forall_forall in Hl.
    pose proof (inv_member _ _ _ _ _ _ _ Hi Hx) as Mx. pose proof (inv_member _ _ _ _ _ _ _ Hi Hy) as My.
    destruct (fresh_part x (bag_fresh _ _ _ Hi Hx)) as (Tx & _ & Px). destruct (fresh_part y (bag_fresh _ _ _ Hi Hy)) as (Ty & _ & Py).
    pose proof (pair_twin_class L (o_non_planar_displacement o) x _ y _ Tx Ty eq_refl eq_refl) as Ef.
    rewrite <- (pair_iff_at L (o_non_planar_displacement o) true _ _ (cpart (n_inst v) (n_rng v))
      (cparts_places _ (n_rng x) _ (n_rng y) My Py) (cparts_places _ (n_rng y) _ (n_rng x) Mx Px) (st_touch _ _ _ _ St) (part_hullish _ _) (part_hullish _ _)).
    destruct (pair_spec L (o_non_planar_displacement o) true x y (st_touch _ _ _ _ St) (Hl x Hx) (Hl y Hy)) as (sa & sb & E & K1 & K2).
    destruct (pair_spec L (o_non_planar_displacement o) true (cpart (n_inst x) (n_rng x)) (cpart (n_inst y) (n_rng y)) (st_touch _ _ _ _ St) (part_hullish _ _) (part_hullish _ _))
      as (ta & tb & E' & J1 & J2).
    rewrite E, E' in Ef. cbn [flags] in Ef. injection Ef as F1 F2.
    unfold selects, selected_by. rewrite (Hopt _ Mx). split.
    - intros (sa' & sb' & E2 & K). rewrite E in E2. injection E2 as <- <-. destruct K as [-> | ->].
      + destruct K1 as [K1|K1]; [discriminate|]. injection K1 as ->. split; [auto|]. exists ta, tb. split; [exact E'|]. left.
        destruct J1 as [-> | ->]; [discriminate|reflexivity].
      + destruct K2 as [K2|K2]; [discriminate|]. injection K2 as ->. split; [auto|]. exists ta, tb. split; [exact E'|]. right.
        destruct J2 as [-> | ->]; [discriminate|reflexivity].
    - intros (Hv & ta' & tb' & E2 & K). rewrite E' in E2. injection E2 as <- <-. exists sa, sb. split; [exact E|].
      assert (Hsame : forall z, In z b -> (v = x \/ v = y) -> cpart (n_inst v) (n_rng v) = cpart (n_inst z) (n_rng z) -> v = z).
      { intros z Hz Hv' Ez. assert (Hvb : In v b) by (destruct Hv' as [-> | ->]; auto).
        apply (inv_rng_inj _ _ _ _ _ _ _ _ Hi Hvb Hz); [exact (f_equal n_inst Ez)|exact (f_equal n_rng Ez)]. }
      destruct K as [-> | ->].
      + destruct J1 as [J1|J1]; [discriminate|]. injection J1 as J1. left. destruct K1 as [-> | ->]; [discriminate|]. f_equal. symmetry.
        apply Hsame; auto. unfold class_part. congruence.
      + destruct J2 as [J2|J2]; [discriminate|]. injection J2 as J2. right. destruct K2 as [-> | ->]; [discriminate|]. f_equal. symmetry.
        apply Hsame; auto. unfold class_part. congruence.
  Qed.

  (** ** States *)

  Definition now (b : list node) (i : Z) : list Z := simple_set (of_inst i b).

  Lemma now_spec ctr b i : inv ctr b -> In i ids ->
    increasing (now b i) /\ (forall r, In r (parts (now b i)) <-> exists h, In h b /\ n_inst h = i /\ n_rng h = r) /\
    (forall k, In k (now b i) <-> cut_at b i k).
  Proof.
    intros Hi Hin. pose proof (bi_tiles _ _ _ _ _ _ Hi i Hin) as Ht. pose proof (Htwo i Hin) as H2.
    assert (Hlt : 0 < zlen (pts i) - 1) by (unfold zlen; lia).
    destruct Ht as (c & Hpc & Hc). destruct (chain_ends _ _ _ Hc) as (Inc & _).
    assert (Et : tiles (0 :: map rJ c) = c) by (eapply tiles_cut; exact Hc).
    assert (Es : now b i = 0 :: map rJ c).
    { unfold now. apply (simple_set_tiles _ _ 0 (zlen (pts i) - 1)); auto; [exists c; auto|]. rewrite Et. exact Hpc. }
    split; [rewrite Es; exact Inc|]. split.
    - intros r. rewrite Es, parts_tiles, Et. split.
      + intros Hr. eapply Permutation_in in Hr; [|apply Permutation_sym, Hpc]. apply in_map_iff in Hr. destruct Hr as (h & E & Hh).
        apply of_inst_in in Hh. exists h. tauto.
      + intros (h & Hh & Ei & Er). eapply Permutation_in; [exact Hpc|]. apply in_map_iff. exists h. split; [exact Er|]. apply of_inst_in. auto.
    - intros k. unfold now, simple_set. destruct (point_set_spec (of_inst i b)) as [_ B]. rewrite B. unfold cut_at. split.
      + intros (h & Hh & K). apply of_inst_in in Hh. exists h. intuition.
      + intros (h & Hh & Ei & K). exists h. split; [apply of_inst_in; auto|]. intuition.
  Qed.

  (** ** One round *)

  Definition halves (h : node) : list rng := r_halves (pts (n_inst h)) score (n_rng h).

  Lemma deform_parts sel : forall rest ctr defs ctr', inv ctr (sel ++ rest) -> deform_nodes W env sel ctr = Ok (defs, ctr') ->
    (forall d, In d defs -> exists h, In h sel /\ n_inst d = n_inst h /\ In (n_rng d) (halves h)) /\
    (forall h r, In h sel -> In r (halves h) -> exists d, In d defs /\ n_inst d = n_inst h /\ n_rng d = r).
  Proof.
    intros rest ctr defs ctr' Hi. assert (Hf : forall h, In h sel -> fresh_hull L (pts (n_inst h)) (n_inst h) h /\ In (n_inst h) ids).
    { intros h Hh. assert (In h (sel ++ rest)) as K by (apply in_app_iff; auto). split; [eapply bag_fresh; eauto|eapply inv_member; eauto]. }
    clear Hi. revert ctr defs ctr'. induction sel as [|h r IH]; intros ctr defs ctr' E; cbn [deform_nodes] in E.
    - injection E as <- <-. split; [intros d []|intros h q []].
    - destruct (Hf h (or_introl eq_refl)) as [Fh Mh]. pose proof Fh as (Hh & _).
      assert (IH' := IH (fun x Hx => Hf x (or_intror Hx))). clear IH.
      destruct (Hsc _ Mh) as [Es Eq]. rewrite Es, Eq in E. cbn [dp_score] in E.
      destruct (1 <? rsize (n_rng h)) eqn:El.
      + assert (Hs : 1 < rJ (n_rng h) - rI (n_rng h)) by (apply Z.ltb_lt in El; exact El).
        assert (Hk : 0 < fst (score (n_coords h)) < rJ (n_rng h) - rI (n_rng h)).
        { pose proof (st_score _ _ _ _ St (n_inst h) (n_rng h) Mh) as K. rewrite Es, Eq in K. cbn [dp_score] in K.
          destruct Hh as (A & B & C & D). rewrite D. apply K; auto. }
        destruct (at_score_spec L (w_gen W) _ h _ ctr Hh Hk) as (ha & hb & Ea & Ra & Rb & Fa & Fb & _).
        rewrite Ea in E. cbn [bind] in E. destruct (at_score_inst _ _ _ _ _ _ _ _ Ea) as [Ia Ib].
        destruct (deform_nodes W env r _) as [[rs c2]| |] eqn:Er; try discriminate E. cbn [bind] in E. injection E as <- <-.
        destruct (IH' _ _ _ Er) as [A B].
        assert (Hv : halves h = [n_rng ha; n_rng hb]).
        { unfold halves, r_halves. rewrite El. destruct Hh as (_ & _ & _ & D). rewrite Ra, Rb, D. reflexivity. }
        split.
        * intros d [<- |[<- |Hd]].
          -- exists h. split; [left; auto|]. split; [exact Ia|]. rewrite Hv. left. reflexivity.
          -- exists h. split; [left; auto|]. split; [exact Ib|]. rewrite Hv. right. left. reflexivity.
          -- destruct (A d Hd) as (g & G1 & G2). exists g. split; [right; exact G1|exact G2].
        * intros g q [<- |Hg] Hq.
          -- rewrite Hv in Hq. destruct Hq as [<- |[<- |[]]]; [exists ha|exists hb]; cbn [In]; auto.
          -- destruct (B g q Hg Hq) as (d & D1 & D2). exists d. cbn [In]. auto.
      + destruct (deform_nodes W env r ctr) as [[rs c2]| |] eqn:Er; try discriminate E. cbn [bind] in E. injection E as <- <-.
        destruct (IH' _ _ _ Er) as [A B]. assert (Hv : halves h = [n_rng h]) by (unfold halves, r_halves; rewrite El; reflexivity).
        split.
        * intros d [<- |Hd]; [exists h; rewrite Hv; cbn [In]; auto|]. destruct (A d Hd) as (g & G1 & G2). exists g. cbn [In]. auto.
        * intros g q [<- |Hg] Hq; [rewrite Hv in Hq; destruct Hq as [<- |[]]; exists h; cbn [In]; auto|].
          destruct (B g q Hg Hq) as (d & D1 & D2). exists d. cbn [In]. auto.
  Qed.

  Definition noted (dirty : Z -> bool) (db : hdb) (x : node) : list node :=
    if o_avoid_self o then
      match by_class L (o_non_planar_displacement o) (dirty (n_inst x)) db x with Ok (_, s) => s | _ => [] end
    else [].
  Definition valid_part (x : node) : bool := chord_ok L o cs (pts (n_inst x)) (rI (n_rng x)) (rJ (n_rng x)).

  Lemma validate_part ctr b x : inv ctr b -> In x b ->
    validate_context L (w_pop W) (c_opts (env (n_inst x))) (c_ctxdb (env (n_inst x))) x = Ok (valid_part x).
  Proof.
    intros Hi Hx. pose proof (inv_member _ _ _ _ _ _ _ Hi Hx) as Mx. pose proof (bag_fresh _ _ _ Hi Hx) as Fx.
    pose proof (Hid _ Mx) as Ei.
    rewrite (valid_exact W (env (n_inst x)) cs cs Hpop).
    - f_equal. rewrite (Hopt _ Mx). unfold valid_part. destruct Fx as ((A & B & C & _) & _).
      destruct (n_rng x) as [a c] eqn:Er. cbn [rI rJ] in *. apply (valid_chord L o cs (c_pts (env (n_inst x))) a c A B).
    - rewrite Ei. apply Hctx, Mx.
    - intros. tauto.
    - rewrite (Hopt _ Mx). exact Hnan.
    - intros h g bx Hf Hg Hw. rewrite Ei in Hf. eapply Hbox; eauto.
    - rewrite Ei. exact Fx.
  Qed.

  (** The check of one hull: what it notes, by range, and itself if its chord will not do. *)
  Lemma check_class dirty db ctr b x : holds db b -> inv ctr b -> In x b -> big x ->
    exists sel, check_hull W env dirty db x = Ok sel /\
      (forall v, In v sel <-> In v (noted dirty db x) \/ (v = x /\ valid_part x = false)) /\
      (forall v, In v (noted dirty db x) -> o_avoid_self o = true /\
         exists y, In y b /\ near_ x y = true /\ (n_inst y <> n_inst x \/ dirty (n_inst x) = true) /\ selects W env x y v) /\
      (forall y v, o_avoid_self o = true -> In y b -> near_ x y = true -> n_inst y <> n_inst x \/ dirty (n_inst x) = true ->
         selects W env x y v -> exists w, In w (noted dirty db x) /\ n_rng w = n_rng v) /\
      NoDup (map n_rng (noted dirty db x)).
  Proof.
    intros Hdb Hi Hx [Hb1 Hb2]. pose proof (inv_member _ _ _ _ _ _ _ Hi Hx) as Mx. unfold check_hull.
    destruct (Z.eqb_spec (rsize (n_rng x)) 1) as [K|_]; [contradiction|]. rewrite Hb2.
    pose proof (validate_part _ _ _ Hi Hx) as Ev. unfold noted. rewrite (Hopt _ Mx) in *.
    destruct (o_avoid_self o) eqn:Ea.
    - destruct (by_class_spec W env ids own St (o_non_planar_displacement o) (dirty (n_inst x)) db ctr b x Hdb Hi Hx)
        as (ctxs & sel0 & bln & Ec & Hp & Es & S1 & S2). rewrite Ec. cbn [bind].
      assert (Hyc : forall y, In y ctxs <-> In y b /\ near_ x y = true /\ (n_inst y <> n_inst x \/ dirty (n_inst x) = true)).
      { intros y. split; intros H.
        - apply (Permutation_in _ Hp) in H. unfold optimize_neighbours in H. destruct (dirty (n_inst x)).
          + apply filter_In in H. tauto.
          + apply filter_In in H. destruct H as [H H']. apply filter_In in H. apply negb_true_iff, Z.eqb_neq in H'. split; [tauto|]. split; [tauto|]. left. congruence.
        - destruct H as (H1 & H2 & H3). apply (Permutation_in _ (Permutation_sym Hp)). unfold optimize_neighbours. destruct (dirty (n_inst x)) eqn:Ed.
          + apply filter_In; auto.
          + apply filter_In. split; [apply filter_In; auto|]. apply negb_true_iff, Z.eqb_neq. destruct H3; congruence. }
      pose proof (inv_hullish _ _ _ _ _ _ Hi) as Hl. rewrite Forall_forall in Hl.
      assert (Hf : Forall hullish ctxs) by (apply Forall_forall; intros y Hy; apply Hl, Hyc, Hy).
      destruct (select_loop_spec L (o_non_planar_displacement o) true x (st_touch _ _ _ _ St) (Hl x Hx) ctxs [] Hf)
        as (r & Er & R1 & R2 & R3).
      rewrite Er in Es. injection Es as <-.
      assert (Hsel : forall y v, selects W env x y v <-> selected_by L (o_non_planar_displacement o) true x y v).
      { intros y v. unfold selects. rewrite (Hopt _ Mx). reflexivity. }
      assert (Rest : (forall v, In v r -> true = true /\ exists y, In y b /\ near_ x y = true /\ (n_inst y <> n_inst x \/ dirty (n_inst x) = true) /\ selects W env x y v) /\
        (forall y v, true = true -> In y b -> near_ x y = true -> n_inst y <> n_inst x \/ dirty (n_inst x) = true ->
          selects W env x y v -> exists w, In w r /\ n_rng w = n_rng v) /\ NoDup (map n_rng r)).
      { split; [|split; [|apply R3; constructor]].
        - intros v Hv. split; [reflexivity|]. destruct (R1 v Hv) as [[]|(y & Hy & K)]. apply Hyc in Hy. exists y. rewrite Hsel. tauto.
        - intros y v _ Hy Hn Hd K. apply Hsel in K. apply R2. right. exists y. split; [apply Hyc; auto|exact K]. }
      destruct bln.
      + rewrite Ev. cbn [bind]. destruct (valid_part x) eqn:Evp.
        * exists r. split; [reflexivity|]. split; [|exact Rest]. intros v. intuition discriminate.
        * exists (r ++ [x]). split; [reflexivity|]. split; [|exact Rest]. intros v. rewrite in_app_iff. cbn [In]. intuition.
      + exists r. split; [reflexivity|]. split; [|exact Rest]. intros v. split; [auto|]. intros [K|[-> _]]; auto.
    - cbn [bind]. rewrite Ev. cbn [bind].
      assert (Rest : (forall v : node, In v [] -> false = true /\ exists y, In y b /\ near_ x y = true /\ (n_inst y <> n_inst x \/ dirty (n_inst x) = true) /\ selects W env x y v) /\
        (forall y v, false = true -> In y b -> near_ x y = true -> n_inst y <> n_inst x \/ dirty (n_inst x) = true ->
          selects W env x y v -> exists w : node, In w [] /\ n_rng w = n_rng v) /\ NoDup (map n_rng [])).
      { split; [intros v []|]. split; [discriminate|constructor]. }
      destruct (valid_part x) eqn:Evp.
      + exists []. split; [reflexivity|]. split; [|exact Rest]. intros v. intuition discriminate.
      + exists ([] ++ [x]). split; [reflexivity|]. split; [|exact Rest]. intros v. cbn [In app]. intuition.
  Qed.

  Lemma find_class dirty db ctr b D found : holds db b -> inv ctr b -> incl D b -> find_deformable W env dirty D db = Ok found ->
    forall w, In w found <-> exists x, In x D /\ big x /\ (In w (noted dirty db x) \/ (w = x /\ valid_part x = false)).
  Proof.
    intros Hdb Hi Hsub E w. unfold find_deformable in E.
    destruct (mapM_ok (check_hull W env dirty db) D) as (sels & Em & F).
    { intros u Hu. destruct (check_hull_spec W env ids own St dirty db ctr b u Hdb Hi (Hsub u Hu)) as (s & Es & _). eauto. }
    rewrite Em in E. cbn [bind] in E. injection E as <-.
    assert (Hin : forall u, In u (concat sels) -> In u b).
    { intros u Hu. apply in_concat in Hu. destruct Hu as (t & Ht & Hu). destruct (Forall2_in_r _ _ _ _ F Ht) as (z & Hz & Ez).
      destruct (check_hull_spec W env ids own St dirty db ctr b z Hdb Hi (Hsub z Hz)) as (t' & Et & Kt & _).
      rewrite Ez in Et. injection Et as <-. auto. }
    assert (Hd : In w (dedup_ids (concat sels)) <-> In w (concat sels)).
    { split; [apply dedup_in|]. intros Hw. destruct (dedup_id _ _ Hw) as (w' & Hw' & Ei).
      rewrite <- (inv_id_inj _ _ _ _ _ _ _ _ Hi (Hin w' (dedup_in _ _ Hw')) (Hin w Hw) Ei). exact Hw'. }
    rewrite Hd, in_concat. split.
    - intros (s & Hs & Hw). destruct (Forall2_in_r _ _ _ _ F Hs) as (x & Hx & Ex).
      destruct (big_dec x) as [Bx|Nx].
      + exists x. split; [exact Hx|]. split; [exact Bx|]. destruct (check_class dirty db ctr b x Hdb Hi (Hsub x Hx) Bx) as (s' & E' & K & _).
        rewrite Ex in E'. injection E' as <-. apply K, Hw.
      + destruct (check_hull_spec W env ids own St dirty db ctr b x Hdb Hi (Hsub x Hx)) as (s' & E' & _ & K & _).
        rewrite Ex in E'. injection E' as <-. rewrite K in Hw; [destruct Hw|]. intros [B1 B2]. destruct Nx; congruence.
    - intros (x & Hx & Bx & K). destruct (Forall2_in_l _ _ _ _ F Hx) as (s & Hs & Ex).
      destruct (check_class dirty db ctr b x Hdb Hi (Hsub x Hx) Bx) as (s' & E' & K' & _).
      rewrite Ex in E'. injection E' as <-. exists s. split; [exact Hs|]. apply K', K.
  Qed.

  (** The vertices of a part are those of a hull of the bag. *)
  Lemma hull_of ctr b i r : inv ctr b -> In i ids -> In r (parts (now b i)) -> exists h, In h b /\ n_inst h = i /\ n_rng h = r.
  Proof. intros Hi Hin Hr. apply (now_spec ctr b i Hi Hin), Hr. Qed.
  Lemma part_of ctr b h : inv ctr b -> In h b -> In (n_rng h) (parts (now b (n_inst h))).
  Proof. intros Hi Hh. apply (now_spec ctr b (n_inst h) Hi (inv_member _ _ _ _ _ _ _ Hi Hh)). eauto. Qed.

  Lemma big_part ctr b x : inv ctr b -> In x b -> (big x <-> examined (cpart (n_inst x) (n_rng x))).
  Proof.
    intros Hi Hx. destruct (fresh_part x (bag_fresh _ _ _ Hi Hx)) as ((_ & _ & G) & _). unfold big, examined. rewrite G. reflexivity.
  Qed.

  Lemma near_part ctr b x y : inv ctr b -> In x b -> In y b ->
    (near_ x y = true <-> ~ (n_inst y = n_inst x /\ n_rng y = n_rng x) /\
       boxes_meet (gl_bounds L (piece_hull L (pts (n_inst x)) (n_rng x))) (gl_bounds L (piece_hull L (pts (n_inst y)) (n_rng y))) = true /\
       fle (gl_dist L (piece_hull L (pts (n_inst y)) (n_rng y)) (piece_hull L (pts (n_inst x)) (n_rng x))) epsilon_dist = true).
  Proof.
    intros Hi Hx Hy. destruct (fresh_part x (bag_fresh _ _ _ Hi Hx)) as ((_ & _ & Gx) & Mx & _).
    destruct (fresh_part y (bag_fresh _ _ _ Hi Hy)) as ((_ & _ & Gy) & My & _). unfold nearby. rewrite Gx, Gy, Mx, My.
    cbn [class_part n_geom n_mbr]. rewrite !andb_true_iff, negb_true_iff, Z.eqb_neq.
    assert (K : n_id y <> n_id x <-> ~ (n_inst y = n_inst x /\ n_rng y = n_rng x)).
    { split; intros N E; apply N.
      - destruct E as [E1 E2]. rewrite (inv_rng_inj _ _ _ _ _ _ _ _ Hi Hy Hx E1 E2). reflexivity.
      - rewrite (inv_id_inj _ _ _ _ _ _ _ _ Hi Hy Hx E). auto. }
    rewrite K. tauto.
  Qed.

  Lemma conflict_which i r j q k v : In i ids -> In j ids -> piece (pts i) r -> piece (pts j) q ->
    class_conflict L (o_non_planar_displacement o) (cpart i r) (cpart j q) (cpart k v) -> (k = i /\ v = r) \/ (k = j /\ v = q).
  Proof.
    intros Hi Hj Pr Pq K.
    apply (pair_iff_at L (o_non_planar_displacement o) true _ _ (cpart k v)
      (cparts_places _ r _ q Hj Pq) (cparts_places _ q _ r Hi Pr) (st_touch _ _ _ _ St) (part_hullish _ _) (part_hullish _ _)) in K.
    destruct K as (sa & sb & E & K).
    destruct (pair_spec L (o_non_planar_displacement o) true (cpart i r) (cpart j q) (st_touch _ _ _ _ St) (part_hullish _ _) (part_hullish _ _))
      as (ta & tb & E' & J1 & J2). rewrite E in E'. injection E' as <- <-.
    assert (X : cpart k v = cpart i r \/ cpart k v = cpart j q).
    { destruct K as [-> | ->]; [left; destruct J1 as [J|J]|right; destruct J2 as [J|J]]; try discriminate; injection J; unfold class_part; congruence. }
    destruct X as [X|X]; [left|right]; split; try exact (f_equal n_inst X); exact (f_equal n_rng X).
  Qed.

  (** Which hulls a round selects, in terms of parts. *)
  Lemma round_class dirty (changed : Z -> Prop) before db ctr b D found : holds db b -> inv ctr b -> incl D b ->
    (forall h, In h b -> rsize (n_rng h) <> 1 -> (In h D <-> ~ In (n_rng h) (parts (before (n_inst h))))) ->
    (forall i, In i ids -> (dirty i = true <-> changed i)) ->
    find_deformable W env dirty D db = Ok found ->
    split_in_round L o cs ids pts changed before (now b)
      (fun k v => 1 < rJ v - rI v /\ exists w, In w found /\ n_inst w = k /\ n_rng w = v).
  Proof.
    intros Hdb Hi Hsub HD Hdirty E. pose proof (find_class dirty db ctr b D found Hdb Hi Hsub E) as Hf.
    assert (Hnb : forall x w, In x D -> big x -> In w (noted dirty db x) -> In w b).
    { intros x w Hx Bx Hw. destruct (find_spec W env ids own St dirty db ctr b D Hdb Hi Hsub) as (found' & E' & _ & Hin & _).
      rewrite E in E'. injection E' as <-. apply Hin, Hf. exists x. auto. }
    assert (Hck : forall x, In x b -> big x -> (In x D <-> checked L ids pts before (now b) (n_inst x) (n_rng x))).
    { intros x Hx Bx. rewrite (HD x Hx (proj1 Bx)). unfold checked.
      pose proof (part_of _ _ _ Hi Hx). pose proof (inv_member _ _ _ _ _ _ _ Hi Hx). pose proof (proj1 (big_part _ _ _ Hi Hx) Bx). tauto. }
    assert (Hcx : forall i r, checked L ids pts before (now b) i r -> exists x, In x b /\ In x D /\ big x /\ n_inst x = i /\ n_rng x = r).
    { intros i r K. pose proof K as (K1 & K2 & _ & K4). destruct (hull_of _ _ _ _ Hi K1 K2) as (x & Hx & <- & <-). exists x.
      assert (Bx : big x) by (apply (big_part _ _ _ Hi Hx), K4). split; [exact Hx|]. split; [apply Hck; auto|auto]. }
    exists (fun i r k v => exists x w, In x D /\ big x /\ n_inst x = i /\ n_rng x = r /\ In w (noted dirty db x) /\ n_inst w = k /\ n_rng w = v).
    split; [|split; [|split]].
    - intros i r k v (x & w & Hx & Bx & <- & <- & Hw & <- & <-). split; [apply Hck; auto|].
      destruct (check_class dirty db ctr b x Hdb Hi (Hsub x Hx) Bx) as (s & _ & _ & K & _). destruct (K w Hw) as (Ha & y & Hy & Ny & Dy & Sy).
      apply (selects_part ctr b) in Sy; auto. apply (near_part ctr b) in Ny; auto.
      exists (n_inst y), (n_rng y). split; [exact (inv_member _ _ _ _ _ _ _ Hi Hy)|]. split; [exact (part_of _ _ _ Hi Hy)|].
      split; [rewrite <- (Hdirty _ (inv_member _ _ _ _ _ _ _ Hi (Hsub x Hx))); tauto|].
      unfold conflict_between. tauto.
    - intros i r k v Hc (j & q & Hj & Hq & Hch & Ha & Hne & B1 & B2 & Hcf). destruct (Hcx _ _ Hc) as (x & Hx & HxD & Bx & Ei & Er).
      destruct (hull_of _ _ _ _ Hi Hj Hq) as (y & Hy & Ej & Eq). subst i r j q.
      destruct (check_class dirty db ctr b x Hdb Hi Hx Bx) as (s & _ & _ & _ & K & _).
      destruct (fresh_part x (bag_fresh _ _ _ Hi Hx)) as (_ & _ & Px). destruct (fresh_part y (bag_fresh _ _ _ Hi Hy)) as (_ & _ & Py).
      pose proof (inv_member _ _ _ _ _ _ _ Hi Hx) as Mx.
      assert (Z : exists z, (z = x \/ z = y) /\ n_inst z = k /\ n_rng z = v).
      { destruct (conflict_which _ _ _ _ _ _ Mx Hj Px Py Hcf) as [[-> ->]|[-> ->]]; [exists x|exists y]; auto. }
      destruct Z as (z & Hz & <- & <-).
      destruct (K y z Ha Hy) as (w & Hw & Ew).
      { apply (near_part ctr b); auto. }
      { rewrite (Hdirty _ Mx). exact Hch. }
      { apply (selects_part ctr b); auto. }
      exists (n_inst w), x, w. repeat (split; auto).
    - intros i r k k' v (x & w & Hx & Bx & Ei & Er & Hw & <- & Ev) (x' & w' & Hx' & Bx' & Ei' & Er' & Hw' & <- & Ev').
      assert (x = x') by (apply (inv_rng_inj _ _ _ _ _ _ _ _ Hi (Hsub _ Hx) (Hsub _ Hx')); congruence). subst x'.
      destruct (check_class dirty db ctr b x Hdb Hi (Hsub x Hx) Bx) as (s & _ & _ & _ & _ & Hnd).
      assert (w = w'); [|congruence]. assert (Hrr : n_rng w = n_rng w') by congruence. revert Hw Hw' Hnd Hrr.
      generalize (noted dirty db x). clear. induction l as [|a l IH]; intros Hw Hw' Hnd E; [destruct Hw|].
      cbn [map] in Hnd. inversion Hnd as [|? ? N1 N2]; subst. destruct Hw as [<- |Hw], Hw' as [<- |Hw']; auto; exfalso; apply N1; [rewrite E|rewrite <- E]; apply in_map; auto.
    - intros k v. split.
      + intros (Hl & w & Hw & <- & <-). apply Hf in Hw. destruct Hw as (x & Hx & Bx & [Hw|[-> Hw]]).
        * pose proof (Hnb _ _ Hx Bx Hw) as Hwb. split; [exact (inv_member _ _ _ _ _ _ _ Hi Hwb)|]. split; [exact (part_of _ _ _ Hi Hwb)|]. split; [exact Hl|].
          left. exists (n_inst x), (n_rng x), x, w. repeat (split; auto).
        * pose proof (Hsub x Hx) as Hxb. split; [exact (inv_member _ _ _ _ _ _ _ Hi Hxb)|]. split; [exact (part_of _ _ _ Hi Hxb)|]. split; [exact Hl|].
          right. split; [apply Hck; auto|exact Hw].
      + intros (Hk & Hv & Hl & H). split; [exact Hl|]. destruct H as [(i & r & x & w & Hx & Bx & _ & _ & Hw & E1 & E2)|[Hc Hv']].
        * exists w. split; [apply Hf; exists x; auto|auto].
        * destruct (Hcx _ _ Hc) as (x & Hx & HxD & Bx & <- & <-). exists x. split; [apply Hf; exists x; auto|auto].
  Qed.

  (** The vertices after the selected hulls are split. *)
  Lemma split_vertices sel rest defs ctr ctr' i : inv ctr (sel ++ rest) -> inv ctr' (defs ++ rest) -> deform_nodes W env sel ctr = Ok (defs, ctr') -> In i ids ->
    forall k, In k (now (defs ++ rest) i) <->
      In k (now (sel ++ rest) i) \/ exists v, (1 < rJ v - rI v /\ exists w, In w sel /\ n_inst w = i /\ n_rng w = v) /\ farthest_vertex dist (pts i) (rI v) (rJ v) k.
  Proof.
    intros Hi Hi' Ed Hin k. destruct (deform_parts sel rest ctr defs ctr' Hi Ed) as [D1 D2].
    destruct (now_spec _ _ _ Hi Hin) as (_ & _ & N1). destruct (now_spec _ _ _ Hi' Hin) as (_ & _ & N2). rewrite N1, N2. clear N1 N2.
    assert (Hfar : forall h, In h sel -> n_inst h = i -> 1 < rJ (n_rng h) - rI (n_rng h) ->
      forall k, farthest_vertex dist (pts i) (rI (n_rng h)) (rJ (n_rng h)) k <-> k = rI (n_rng h) + fst (score (sub_coords (pts i) (n_rng h)))).
    { intros h Hh Ei Hl k'. subst i. assert (Hb : In h (sel ++ rest)) by (apply in_app_iff; auto). pose proof (bag_fresh _ _ _ Hi Hb) as ((A & B & C & _) & _).
      assert (Fa : farthest_vertex dist (pts (n_inst h)) (rI (n_rng h)) (rJ (n_rng h)) (rI (n_rng h) + fst (score (sub_coords (pts (n_inst h)) (n_rng h))))).
      { destruct (n_rng h) as [a c] eqn:Er. cbn [rI rJ] in *. apply score_farthest; [|unfold piece; cbn [rI rJ]; auto|exact Hl].
        intros r (R1 & R2 & R3) R4. pose proof (st_score _ _ _ _ St (n_inst h) r Hin) as K. destruct (Hsc _ Hin) as [Es Eq]. rewrite Es, Eq in K. cbn [dp_score] in K.
        apply K; auto. }
      split; [intros K; eapply farthest_unique; eauto|intros ->; exact Fa]. }
    unfold cut_at. split.
    - intros (d & Hd & Ei & K). apply in_app_iff in Hd. destruct Hd as [Hd|Hd]; [|left; exists d; split; [apply in_app_iff; auto|auto]].
      destruct (D1 d Hd) as (h & Hh & E1 & E2). assert (Eh : n_inst h = i) by congruence. unfold halves, r_halves, rsize in E2. destruct (Z.ltb_spec 1 (rJ (n_rng h) - rI (n_rng h))) as [Hl|Hl].
      + destruct E2 as [E2|[E2|[]]]; rewrite <- E2 in K; cbn [rI rJ] in K; destruct K as [K|K].
        * left. exists h. split; [apply in_app_iff; auto|auto].
        * right. exists (n_rng h). split; [split; [exact Hl|exists h; auto]|]. apply Hfar; auto. rewrite <- Eh. lia.
        * right. exists (n_rng h). split; [split; [exact Hl|exists h; auto]|]. apply Hfar; auto. rewrite <- Eh. lia.
        * left. exists h. split; [apply in_app_iff; auto|auto].
      + destruct E2 as [E2|[]]. left. exists h. rewrite E2. split; [apply in_app_iff; auto|auto].
    - intros [(h & Hh & Ei & K)|(v & (Hl & h & Hh & Ei & <-) & K)].
      + apply in_app_iff in Hh. destruct Hh as [Hh|Hh]; [|exists h; split; [apply in_app_iff; auto|auto]].
        assert (X : exists r, In r (halves h) /\ (rI r = k \/ rJ r = k)).
        { unfold halves, r_halves. destruct (1 <? rsize (n_rng h)); [|exists (n_rng h); split; [left; auto|auto]].
          destruct K as [K|K]; eexists; (split; [|cbn [rI rJ]]).
          - left. reflexivity.
          - left. exact K.
          - right. left. reflexivity.
          - right. exact K. }
        destruct X as (r & Hr & K'). destruct (D2 h r Hh Hr) as (d & Hd & E1 & E2). exists d. split; [apply in_app_iff; auto|]. split; [congruence|]. rewrite E2. exact K'.
      + apply (Hfar h Hh Ei Hl) in K.
        assert (Hr : In (Rng (rI (n_rng h)) k) (halves h)).
        { unfold halves, r_halves, rsize. destruct (Z.ltb_spec 1 (rJ (n_rng h) - rI (n_rng h))); [|lia]. left. rewrite Ei, K. reflexivity. }
        destruct (D2 h _ Hh Hr) as (d & Hd & E1 & E2). exists d. split; [apply in_app_iff; auto|]. split; [congruence|]. rewrite E2. cbn [rJ]. auto.
  Qed.

  Lemma now_perm b b' i : Permutation b b' -> forall k, In k (now b i) <-> In k (now b' i).
  Proof.
    intros P k. unfold now, simple_set. destruct (point_set_spec (of_inst i b)) as [_ B]. destruct (point_set_spec (of_inst i b')) as [_ B'].
    rewrite B, B'. pose proof (of_inst_perm i _ _ P) as Q. split; intros (h & Hh & K); exists h; (split; [|exact K]); [exact (Permutation_in _ Q Hh)|exact (Permutation_in _ (Permutation_sym Q) Hh)].
  Qed.
  Lemma now_perm_eq ctr b b' i : inv ctr b -> In i ids -> Permutation b b' -> now b i = now b' i.
  Proof.
    intros Hi Hin P. pose proof (inv_perm _ _ _ _ _ _ _ P Hi) as Hi'.
    apply increasing_ext; [apply (now_spec _ _ _ Hi Hin)|apply (now_spec _ _ _ Hi' Hin)|]. intros k. apply now_perm, P.
  Qed.

  Lemma loop_class ord : (forall k l, Permutation (ord k l) l) ->
    forall fuel round dirty (changed : Z -> Prop) before D db ctr b db' ctr',
    holds db b -> inv ctr b -> incl D b ->
    (forall h, In h b -> rsize (n_rng h) <> 1 -> (In h D <-> ~ In (n_rng h) (parts (before (n_inst h))))) ->
    (forall i, In i ids -> (dirty i = true <-> changed i)) ->
    split_loop W env ord fuel round dirty D db ctr = Ok (db', ctr') ->
    exists b', holds db' b' /\ inv ctr' b' /\ settle_class L o dist cs ids pts changed before (now b) (now b').
  Proof.
    intros Hord. induction fuel as [|f IH]; intros round dirty changed before D db ctr b db' ctr' Hdb Hi Hsub HD Hdirty E.
    all: destruct (find_spec W env ids own St dirty db ctr b D Hdb Hi Hsub) as (found & Ef & Hnd & Hin & Hnone & _);
      pose proof (round_class dirty changed before db ctr b D found Hdb Hi Hsub HD Hdirty Ef) as Hround.
    all: assert (Hdone : found = [] -> settle_class L o dist cs ids pts changed before (now b) (now b))
      by (intros ->; eapply sc_done; [exact Hround|intros k v (_ & w & [] & _)|reflexivity]).
    all: cbn [split_loop] in E; destruct D as [|d0 D0] eqn:ED; [|try discriminate E].
    1, 2: injection E as <- <-; exists b; split; [exact Hdb|]; split; [exact Hi|]; apply Hdone, Hnone; intros h [].
    rewrite <- ED in *. clear ED. rewrite Ef in E. cbn [bind] in E.
    pose proof (Hord (2 * round)%nat found) as Hp1. pose proof (Hord (S (2 * round)) found) as Hp2.
    destruct (ord (2 * round)%nat found) as [|s0 s1] eqn:Es.
    { apply Permutation_nil in Hp1. injection E as <- <-. exists b. auto. }
    set (sel := s0 :: s1) in *.
    destruct (incl_rest found b Hnd (bi_nodup _ _ _ _ _ _ Hi) Hin) as [rest Hrest].
    assert (Hsr : Permutation b (sel ++ rest)).
    { rewrite Hrest. apply Permutation_app_tail. symmetry. exact Hp1. }
    pose proof (inv_perm _ _ _ _ _ _ _ Hsr Hi) as His.
    destruct (deform_spec W env ids own St sel rest ctr His) as (defs & ctr1 & Ed & Hi' & Hc' & Hlen & Hgrow & Hsame & Hcut).
    rewrite Ed in E. cbn [bind] in E.
    assert (Hrm : holds (clean_up db (ord (S (2 * round)) found)) rest).
    { apply holds_remove_all.
      - apply (Permutation_NoDup (l := map n_id b)); [|apply (bi_nodup _ _ _ _ _ _ Hi)].
        apply Permutation_map. rewrite Hrest. apply Permutation_app_tail. symmetry. exact Hp2.
      - apply (holds_perm db b); [|exact Hdb]. rewrite Hrest. apply Permutation_app_tail. symmetry. exact Hp2. }
    assert (Hgd : Forall good_item defs).
    { apply Forall_forall. intros h Hh. apply (inv_goods W env ids own St ctr1 (defs ++ rest)); auto. apply in_or_app; auto. }
    destruct (holds_load (w_hdb W) _ _ defs (st_hdb _ _ _ _ St) Hrm Hgd) as (db1 & El & Hdb'). rewrite El in E. cbn [bind] in E.
    apply (holds_perm _ _ (defs ++ rest)) in Hdb'; [|apply Permutation_app_comm].
    assert (Hsel : forall w, In w sel <-> In w found).
    { intros w. split; apply Permutation_in; [exact Hp1|apply Permutation_sym, Hp1]. }
    assert (Hlong : forall h, In h sel -> rsize (n_rng h) <> 1 -> 1 < rJ (n_rng h) - rI (n_rng h)).
    { intros h Hh Hl. pose proof (bag_fresh _ _ _ Hi (Hin h (proj1 (Hsel h) Hh))) as ((_ & B & _) & _). unfold rsize in Hl. lia. }
    destruct (existsb (fun h => negb (rsize (n_rng h) =? 1)) sel) eqn:Eany.
    - apply existsb_exists in Eany. destruct Eany as (h0 & Hh0 & Hl0). apply negb_true_iff, Z.eqb_neq in Hl0.
      pose proof (deform_parts sel rest ctr defs ctr1 His Ed) as [D1 D2].
      destruct (IH (S round) (mark_dirty dirty sel)
        (fun i => changed i \/ exists v, 1 < rJ v - rI v /\ exists w, In w found /\ n_inst w = i /\ n_rng w = v)
        (now b) defs db1 ctr1 (defs ++ rest) db' ctr') as (b' & B1 & B2 & B3); auto.
      + intros x Hx. apply in_or_app; auto.
      + intros h Hh Hl. split.
        * intros Hd Hp. destruct (D1 h Hd) as (g & Hg & Eg & Hr).
          assert (Hgb : In g b) by (apply Hin, Hsel, Hg). pose proof (bag_fresh _ _ _ Hi Hgb) as ((A & B & C & D') & _).
          pose proof (inv_member _ _ _ _ _ _ _ Hi Hgb) as Mg. rewrite Eg in Hp.
          pose proof (part_of _ _ _ Hi Hgb) as Hpg.
          destruct (bi_tiles _ _ _ _ _ _ Hi _ Mg) as (c & Hpc & Hc).
          assert (Hin2 : forall r, In r (parts (now b (n_inst g))) -> In r c).
          { intros r Hr'. destruct (hull_of _ _ _ _ Hi Mg Hr') as (z & Hz & Ez & <-). eapply Permutation_in; [exact Hpc|]. apply in_map_iff. exists z. split; [reflexivity|]. apply of_inst_in. auto. }
          apply Hin2 in Hp, Hpg. unfold halves, r_halves, rsize in Hr. destruct (Z.ltb_spec 1 (rJ (n_rng g) - rI (n_rng g))) as [Hlg|Hlg].
          -- assert (Hk : 0 < fst (score (sub_coords (pts (n_inst g)) (n_rng g))) < rJ (n_rng g) - rI (n_rng g)).
             { pose proof (st_score _ _ _ _ St (n_inst g) (n_rng g) Mg) as K. destruct (Hsc _ Mg) as [E1 E2]. rewrite E1, E2 in K. cbn [dp_score] in K. apply K; auto. }
             destruct Hr as [Hr|[Hr|[]]]; rewrite <- Hr in Hp.
             ++ pose proof (chain_start_inj _ _ _ _ _ Hc Hp Hpg eq_refl) as K. apply (f_equal rJ) in K. cbn [rJ] in K. lia.
             ++ pose proof (chain_end_inj _ _ _ _ _ Hc Hp Hpg eq_refl) as K. apply (f_equal rI) in K. cbn [rI] in K. lia.
          -- destruct Hr as [Hr|[]]. rewrite <- Hr in Hl. unfold rsize in Hl. lia.
        * intros K. apply in_app_iff in Hh. destruct Hh as [Hh|Hh]; [exact Hh|exfalso]. apply K. apply (part_of ctr); auto.
          eapply Permutation_in; [apply Permutation_sym, Hrest|]. apply in_or_app. auto.
      + intros i Hii. unfold mark_dirty. rewrite orb_true_iff, (Hdirty i Hii), existsb_exists. split.
        * intros [K|(h & Hh & K)]; [auto|]. apply andb_prop in K. destruct K as [K1 K2]. apply Z.ltb_lt in K1. apply Z.eqb_eq in K2. right.
          exists (n_rng h). split; [exact K1|]. exists h. rewrite <- Hsel. auto.
        * intros [K|(v & Hl & w & Hw & Ei & Er)]; [auto|]. right. exists w. rewrite Hsel. split; [exact Hw|]. rewrite Er. apply andb_true_iff.
          split; [apply Z.ltb_lt; exact Hl|apply Z.eqb_eq; exact Ei].
      + exists b'. split; [exact B1|]. split; [exact B2|]. eapply sc_round; [exact Hround| | |exact B3].
        * exists (n_inst h0), (n_rng h0). split; [apply Hlong; auto|]. exists h0. rewrite <- Hsel. auto.
        * intros i Hii. split; [apply (now_spec _ _ _ Hi' Hii)|]. intros k.
          rewrite (split_vertices sel rest defs ctr ctr1 i His Hi' Ed Hii k), (now_perm_eq ctr b (sel ++ rest) i Hi Hii Hsr).
          split; (intros [K|(v & (Hl & w & Hw & K) & K')]; [auto|right; exists v; split; [split; [exact Hl|exists w; split; [apply Hsel, Hw|exact K]]|exact K']]).
    - assert (Hone : forall h, In h sel -> rsize (n_rng h) = 1).
      { intros h Hh. destruct (Z.eq_dec (rsize (n_rng h)) 1) as [K|K]; [exact K|exfalso].
        assert (X : existsb (fun h => negb (rsize (n_rng h) =? 1)) sel = true); [|congruence].
        apply existsb_exists. exists h. split; [exact Hh|]. apply negb_true_iff, Z.eqb_neq, K. }
      rewrite (Hsame Hone) in *. clear defs Hsame.
      destruct (find_spec W env ids own St (mark_dirty dirty sel) db1 ctr1 (sel ++ rest) sel Hdb' Hi') as (found2 & Ef2 & _ & _ & Hnone2 & _).
      { intros x Hx. apply in_or_app. auto. }
      specialize (Hnone2 ltac:(intros h Hh [K _]; apply K, Hone, Hh)). subst found2.
      assert (X : db' = db1 /\ ctr' = ctr1).
      { destruct f as [|f]; unfold sel in E; cbn [split_loop] in E; [discriminate E|]. fold sel in E. rewrite Ef2 in E. cbn [bind] in E.
        pose proof (Hord (2 * S round)%nat []) as Hq. apply Permutation_sym, Permutation_nil in Hq. rewrite Hq in E. injection E as <- <-. auto. }
      destruct X as [-> ->]. exists (sel ++ rest). split; [exact Hdb'|]. split; [exact Hi'|].
      eapply sc_done; [exact Hround| |].
      + intros k v (Hl & w & Hw & _ & <-). apply Hsel in Hw. specialize (Hone w Hw). unfold rsize in Hone. lia.
      + intros i Hii. symmetry. apply (now_perm_eq ctr); auto.
  Qed.
End Loop.

(** ** Without ambiguity there is one result *)
Section Unique.
  Variables (L : geomlib) (o : opts) (dist : point -> point -> point -> f64) (cs : list geometry) (ids : list Z) (pts : Z -> list point).

  Lemma checked_ext before now before' now' i r : (forall i, In i ids -> before i = before' i) -> (forall i, In i ids -> now i = now' i) ->
    checked L ids pts before now i r -> checked L ids pts before' now' i r.
  Proof. intros B N (K1 & K2 & K3 & K4). unfold checked. rewrite <- (B i K1), <- (N i K1). auto. Qed.
  Lemma asks_ext (ch ch' : Z -> Prop) now now' i r k v : (forall i, In i ids -> (ch i <-> ch' i)) -> (forall i, In i ids -> now i = now' i) -> In i ids ->
    asks L o ids pts ch now i r k v -> asks L o ids pts ch' now' i r k v.
  Proof. intros C N Hi (j & q & J & Q & D & K). exists j, q. rewrite <- (N j J), <- (C i Hi). auto. Qed.

  Lemma split_clear ch before now split : unambiguous L o ids pts ch before now -> split_in_round L o cs ids pts ch before now split ->
    forall k v, split k v <-> In k ids /\ In v (parts (now k)) /\ 1 < rJ v - rI v /\
      ((exists i r, checked L ids pts before now i r /\ asks L o ids pts ch now i r k v) \/
       (checked L ids pts before now k v /\ chord_ok L o cs (pts k) (rI v) (rJ v) = false)).
  Proof.
    intros U (taken & T1 & T2 & T3 & T4) k v. rewrite T4. split; intros (K1 & K2 & K3 & K); (split; [exact K1|]; split; [exact K2|]; split; [exact K3|]).
    - destruct K as [(i & r & K)|K]; [left; exists i, r; auto|auto].
    - destruct K as [(i & r & Kc & Ka)|K]; [left|auto]. exists i, r. destruct (T2 i r k v Kc Ka) as (k' & Kt).
      rewrite (U i r k k' v Kc Ka (proj2 (T1 _ _ _ _ Kt))). exact Kt.
  Qed.

  Lemma split_same (ch ch' : Z -> Prop) before before' now now' split split' :
    (forall i, In i ids -> (ch i <-> ch' i)) -> (forall i, In i ids -> before i = before' i) -> (forall i, In i ids -> now i = now' i) ->
    unambiguous L o ids pts ch before now -> split_in_round L o cs ids pts ch before now split -> split_in_round L o cs ids pts ch' before' now' split' ->
    forall k v, split k v <-> split' k v.
  Proof.
    intros C B N U S S'.
    assert (C' : forall i, In i ids -> (ch' i <-> ch i)) by (intros i Hi; symmetry; auto).
    assert (B' : forall i, In i ids -> before' i = before i) by (intros i Hi; symmetry; auto).
    assert (N' : forall i, In i ids -> now' i = now i) by (intros i Hi; symmetry; auto).
    assert (U' : unambiguous L o ids pts ch' before' now').
    { intros i r k k' v Hc Ha Ha'. pose proof Hc as (Hi & _). eapply U; [eapply checked_ext; eauto|eapply asks_ext; eauto|eapply asks_ext; eauto]. }
    intros k v. rewrite (split_clear _ _ _ _ U S k v), (split_clear _ _ _ _ U' S' k v).
    split; intros (K1 & K2 & K3 & K); (split; [exact K1|]); (split; [rewrite ?(N' k K1), <- ?(N k K1) in *; try rewrite (N' k K1) in K2; try exact K2|]); (split; [exact K3|]);
      (destruct K as [(i & r & Kc & Ka)|[Kc Ka]]; [left; exists i, r; pose proof Kc as (Hi & _); split; [eapply checked_ext; eauto|eapply asks_ext; eauto]|right; split; [eapply checked_ext; eauto|exact Ka]]).
  Qed.

  Lemma clearly_unique ch before now r : settle_clearly L o dist cs ids pts ch before now r -> forall (ch' : Z -> Prop) before' now' r',
    (forall i, In i ids -> (ch i <-> ch' i)) -> (forall i, In i ids -> before i = before' i) -> (forall i, In i ids -> now i = now' i) ->
    settle_class L o dist cs ids pts ch' before' now' r' -> forall i, In i ids -> r i = r' i.
  Proof.
    induction 1 as [ch before now split r U S No Er|ch before now split next r U S Yes Hn H IH]; intros ch' before' now' r' C B N H' i Hi;
      inversion H' as [? ? ? split' ? S' No' Er'|? ? ? split' next' ? S' Yes' Hn' H'']; subst; pose proof (split_same _ _ _ _ _ _ _ _ C B N U S S') as E.
    - rewrite (Er i Hi), (Er' i Hi). auto.
    - exfalso. destruct Yes' as (k & v & K). apply E in K. exact (No k v K).
    - exfalso. destruct Yes as (k & v & K). apply E in K. exact (No' k v K).
    - eapply IH; [| | |exact H''|exact Hi].
      + intros j Hj. cbv beta. rewrite (C j Hj). split; (intros [K|(v & K)]; [auto|right; exists v; apply E, K]).
      + exact N.
      + intros j Hj. destruct (Hn j Hj) as [I1 K1]. destruct (Hn' j Hj) as [I2 K2]. apply increasing_ext; auto. intros k. rewrite K1, K2, (N j Hj).
        split; (intros [K|(v & K & K')]; [auto|right; exists v; split; [apply E, K|exact K']]).
  Qed.
End Unique.

(** No ambiguity when parts of different lines have different ranges. *)
Lemma ranges_differ L o ids pts changed before now (Ht : point_touch L) :
  (forall i p, In i ids -> In p (pts i) -> gl_eq2d L p p = true) ->
  (forall i r, In i ids -> In r (parts (now i)) -> piece (pts i) r) ->
  (forall i j r, In i ids -> In j ids -> In r (parts (now i)) -> In r (parts (now j)) -> i = j) ->
  unambiguous L o ids pts changed before now.
Proof.
  intros Hpl Hp Hd i r k k' v (Hi & Hr & _) Ha Ha'.
  assert (X : forall k, asks L o ids pts changed now i r k v -> In k ids /\ In v (parts (now k))).
  { clear k k' Ha Ha'. intros k (j & q & Hj & Hq & _ & _ & _ & _ & _ & K).
    assert (Pl : forall i r j q, In j ids -> piece (pts j) q -> places_at L (class_part L pts i r) (class_part L pts j q)).
    { intros i' r' j' q' Hj' Hb p p' Hpp Hqq _. unfold same_place. eapply Hpl; [exact Hj'|]. exact (ends_in L (pts j') q' p' Hb Hqq). }
    assert (Hu : forall i r, hullish (class_part L pts i r)) by (intros i' r'; eexists; reflexivity).
    apply (pair_iff_at L (o_non_planar_displacement o) true _ _ (class_part L pts k v)
      (Pl _ r _ q Hj (Hp _ _ Hj Hq)) (Pl _ q _ r Hi (Hp _ _ Hi Hr)) Ht (Hu _ _) (Hu _ _)) in K.
    destruct K as (sa & sb & E & K).
    destruct (pair_spec L (o_non_planar_displacement o) true (class_part L pts i r) (class_part L pts j q) Ht (Hu _ _) (Hu _ _)) as (ta & tb & E' & J1 & J2).
    rewrite E in E'. injection E' as <- <-.
    assert (X : class_part L pts k v = class_part L pts i r \/ class_part L pts k v = class_part L pts j q).
    { destruct K as [-> | ->]; [left; destruct J1 as [J|J]|right; destruct J2 as [J|J]]; try discriminate; injection J; unfold class_part; congruence. }
    destruct X as [X|X]; pose proof (f_equal n_inst X) as X1; pose proof (f_equal n_rng X) as X2; cbn in X1, X2; subst; auto. }
  destruct (X k Ha), (X k' Ha'). eapply Hd; eauto.
Qed.
