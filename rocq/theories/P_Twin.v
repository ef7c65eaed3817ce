(** Every run of the constrained simplification of a line follows the reference. *)
From Verif Require Import M_Base M_Float M_Rng M_Geom M_Offset M_Node M_Decompose M_Split M_Hdb M_Knn M_Lnr M_Homotopy M_Relate
  M_Deform M_Constrain M_ConstDP Spec Spec_Hdb Spec_Relate
  P_Base P_Float P_Decompose P_Split P_Node P_Hdb P_HdbIns P_HdbLoad P_HdbHist P_Knn P_Homotopy P_Relate P_Db P_Bag
  P_Constrain P_Deform P_ConstDP P_Aggregate P_Simplify P_DpTree P_Ref.
Open Scope Z_scope.

Lemma chain_perm_eq l : forall lo hi l', chain lo hi l -> chain lo hi l' -> Permutation l l' -> l = l'.
Proof.
  induction l as [|r l IH]; intros lo hi l' H H' P.
  - apply Permutation_nil in P. subst. reflexivity.
  - destruct l' as [|r' l']; [apply Permutation_sym, Permutation_nil in P; discriminate|].
    assert (r = r').
    { apply (chain_start_inj (r :: l) lo hi); auto; [left; auto| |].
      - apply (Permutation_in _ (Permutation_sym P)). left; auto.
      - cbn in H, H'. lia. }
    subst r'. f_equal. cbn in H, H'. destruct H as (_ & _ & H), H' as (_ & _ & H').
    apply (IH (rJ r) hi); auto. apply Permutation_cons_inv in P. exact P.
Qed.

Lemma filter_map_comm {A B} (f : A -> B) (p : B -> bool) l : filter p (map f l) = map f (filter (fun x => p (f x)) l).
Proof. induction l as [|x l IH]; cbn; auto. destruct (p (f x)); cbn; rewrite IH; reflexivity. Qed.

Lemma partition_perm {A} (p : A -> bool) l : Permutation l (filter p l ++ filter (fun x => negb (p x)) l).
Proof.
  induction l as [|x l IH]; cbn; [constructor|]. destruct (p x); cbn.
  - constructor; exact IH.
  - rewrite IH at 1. apply Permutation_middle.
Qed.

Section Twin.
  Variable W : world.
  Variable self : cdp.
  Variable own : Z -> Prop.
  Variable run_cs cs : list geometry.
  Hypothesis St : setting W (fun _ => self) [c_id self] own.
  Hypothesis Hpop : pop_ok (fun a b => flt a b = true) (w_pop W).
  Hypothesis Hctx : holds (c_ctxdb self) (map (context_node (w_geom W) (c_id self)) run_cs).
  Hypothesis Hcs : forall h g, fresh_hull (w_geom W) (c_pts self) (c_id self) h ->
    fle (gl_dist (w_geom W) (n_geom h) g) (o_min_dist (c_opts self)) = true -> (In g run_cs <-> In g cs).
  Hypothesis Hnan : is_nan (o_min_dist (c_opts self)) = false.
  Hypothesis Hbox : forall h g bx, fresh_hull (w_geom W) (c_pts self) (c_id self) h -> In g run_cs ->
    box_within (gl_bounds (w_geom W) g) bx = true ->
    fle (gl_dist (w_geom W) (n_geom h) (mbr_polygon bx)) (gl_dist (w_geom W) (n_geom h) g) = true.
  Notation inv := (bag_inv (w_geom W) (lines_of (fun _ => self)) [c_id self] (Src (w_gen W) own)).
  Notation L := (w_geom W).
  Notation o := (c_opts self).
  Notation pts := (c_pts self).
  Notation fresh := (fresh_hull (w_geom W) (c_pts self) (c_id self)).
  Notation score := (dp_score (c_score self) (c_sq self)).
  Notation rel := (dp_relation (o_threshold (c_opts self)) (c_sq self)).
  Notation hl := (hl (w_geom W) (c_pts self)).
  Notation r_near := (r_near (w_geom W) (c_pts self)).
  Notation r_flags := (r_flags (w_geom W) (c_pts self) (c_opts self)).
  Notation r_valid := (r_valid (w_geom W) (c_pts self) (c_opts self) cs).
  Notation r_checked := (r_checked (w_geom W) (c_pts self) (c_opts self) cs).
  Notation r_sel := (r_sel (w_geom W) (c_pts self) (c_opts self) cs).
  Notation r_halves := (r_halves (c_pts self) score).
  Notation r_big := (r_big (w_geom W) (c_pts self)).

  Lemma line_fresh ctr b h : inv ctr b -> In h b -> fresh h.
  Proof.
    intros H Hh. pose proof (bi_proper _ _ _ _ _ _ H) as K. rewrite Forall_forall in K. specialize (K h Hh).
    unfold proper in K. rewrite (line_inst W self own ctr b h H Hh) in K. exact K.
  Qed.

  Lemma fresh_twin h : fresh h -> twin h (hl (n_rng h)) /\ n_mbr h = n_mbr (hl (n_rng h)).
  Proof.
    intros ((_ & _ & _ & Ec) & Eg & Em & _). unfold twin, P_Ref.hl, create_node. cbn [n_coords n_rng n_geom n_mbr].
    rewrite Em, Eg, Ec. auto.
  Qed.

  Lemma rel_ok_twin h h' l : twin h h' -> rel_ok L o h l = rel_ok L o h' l.
  Proof.
    intros (A & B & C). unfold rel_ok. rewrite A. f_equal. f_equal; f_equal.
    - induction l as [|g l IH]; cbn; auto. unfold n_line, n_seg. rewrite A, IH. reflexivity.
    - induction l as [|g l IH]; cbn; auto. unfold n_line, n_seg. rewrite A, IH. reflexivity.
  Qed.

  Lemma valid_exact h : fresh h -> validate_context L (w_pop W) o (c_ctxdb self) h = Ok (r_valid (n_rng h)).
  Proof.
    intros Hf. assert (Hn : 2 <= clen (n_coords h)) by (eapply hull_clen; apply Hf).
    destruct (holds_context_exact L (w_pop W) _ _ (n_geom h) (o_min_dist o) Hpop Hctx Hnan) as (r & E & Hp).
    { intros bx it Hit Hw. apply in_map_iff in Hit. destruct Hit as (g & <- & Hg). cbn [n_mbr n_geom context_node] in *.
      apply Hbox; auto. }
    rewrite (validate_rel L _ o _ h r Hn E). f_equal. destruct (fresh_twin h Hf) as [T _].
    unfold P_Ref.r_valid. rewrite <- (rel_ok_twin h _ _ T). apply rel_ok_set; auto.
    intros g. rewrite (map_perm_in n_geom _ _ Hp g), filter_In, in_map_iff.
    assert (Eg : n_geom (hl (n_rng h)) = n_geom h) by (symmetry; apply T). rewrite Eg. split.
    - intros (x & <- & Hx). apply filter_In in Hx. destruct Hx as [Hx Hd]. apply in_map_iff in Hx.
      destruct Hx as (g & <- & Hg). cbn in *. split; [apply (Hcs h g Hf Hd)|]; auto.
    - intros [Hg Hd]. exists (context_node L (c_id self) g). split; [reflexivity|]. apply filter_In. split; [|exact Hd].
      apply in_map, (Hcs h g Hf Hd), Hg.
  Qed.

  Lemma near_exact h x : fresh h -> fresh x -> (n_id x = n_id h <-> n_rng x = n_rng h) ->
    nearby L epsilon_dist h x = r_near (n_rng h) (n_rng x).
  Proof.
    intros Hh Hx Hid. unfold nearby, P_Ref.r_near.
    destruct (fresh_twin h Hh) as [(_ & _ & Gh) Mh], (fresh_twin x Hx) as [(_ & _ & Gx) Mx].
    rewrite <- Mh, <- Mx, <- Gh, <- Gx. f_equal. f_equal. f_equal. apply eq_true_iff_eq. rewrite Z.eqb_eq, rng_eqb_eq. exact Hid.
  Qed.
  Lemma bag_id_rng ctr b h x : inv ctr b -> In h b -> In x b -> (n_id x = n_id h <-> n_rng x = n_rng h).
  Proof.
    intros Hi Hh Hx. split; intros E.
    - f_equal. apply (inv_id_inj _ _ _ _ _ _ _ _ Hi Hx Hh E).
    - f_equal. apply (line_rng W self own ctr b x h Hi Hx Hh E).
  Qed.

  Lemma flags_exact a b : fresh a -> fresh b ->
    exists sa sb, pair_candidates L (o_non_planar_displacement o) false a b = Ok (sa, sb) /\
      (sa = if fst (r_flags (n_rng a) (n_rng b)) then Some a else None) /\
      (sb = if snd (r_flags (n_rng a) (n_rng b)) then Some b else None).
  Proof.
    intros Ha Hb.
    destruct (pair_spec L (o_non_planar_displacement o) false a b (st_touch _ _ _ _ St) (fresh_hullish _ _ _ _ Ha) (fresh_hullish _ _ _ _ Hb))
      as (sa & sb & E & K1 & K2).
    exists sa, sb. split; [exact E|]. unfold P_Ref.r_flags.
    destruct (fresh_twin a Ha) as [Ta _], (fresh_twin b Hb) as [Tb _].
    rewrite <- (pair_twin L (o_non_planar_displacement o) a (hl (n_rng a)) b (hl (n_rng b)) Ta Tb), E. cbn [flags fst snd].
    destruct K1 as [-> | ->], K2 as [-> | ->]; cbn; auto.
  Qed.

  Lemma big_exact h : fresh h -> (big h <-> r_big (n_rng h) = true).
  Proof.
    intros Hh. destruct (fresh_twin h Hh) as [(_ & _ & G) _]. unfold big, P_Ref.r_big. rewrite <- G.
    rewrite andb_true_iff, !negb_true_iff, Z.eqb_neq. reflexivity.
  Qed.

  (** The check of one hull. *)
  Lemma check_exact dirty db ctr b h ch : holds db b -> inv ctr b -> In h b -> dirty (c_id self) = true ->
    (forall r, In r (map n_rng b) <-> In r ch) ->
    exists sel, check_hull W (fun _ => self) dirty db h = Ok sel /\
      forall v, In v sel <-> In v b /\ r_checked ch (n_rng h) (n_rng v) = true.
  Proof.
    intros Hdb Hi Hh Hd Hch.
    assert (Hfr : forall x, In x b -> fresh x) by (intros x Hx; eapply line_fresh; eauto).
    assert (Hrng : forall x y, In x b -> In y b -> n_rng x = n_rng y -> x = y) by (intros x y; apply (line_rng W self own ctr b x y Hi)).
    unfold check_hull, P_Ref.r_checked. rewrite (line_inst W self own ctr b h Hi Hh).
    pose proof (big_exact h (Hfr h Hh)) as Hb. unfold big in Hb.
    destruct (Z.eqb_spec (rsize (n_rng h)) 1) as [E1|E1].
    { exists []. split; [reflexivity|]. intros v. cbn [In]. split; [tauto|]. intros [_ K].
      apply andb_true_iff in K. destruct K as [K _]. apply Hb in K. tauto. }
    destruct (is_line (n_geom h)) eqn:E2.
    { exists []. split; [reflexivity|]. intros v. cbn [In]. split; [tauto|]. intros [_ K].
      apply andb_true_iff in K. destruct K as [K _]. apply Hb in K. destruct K; congruence. }
    assert (Eb : r_big (n_rng h) = true) by (apply Hb; auto). rewrite Eb. cbn [andb]. clear Hb E1 E2 Eb.
    rewrite (valid_exact h (Hfr h Hh)).
    assert (Hself : forall v, In v b -> (rng_eqb (n_rng v) (n_rng h) = true <-> v = h)).
    { intros v Hv. rewrite rng_eqb_eq. split; [apply Hrng; auto|intros ->; auto]. }
    destruct (o_avoid_self o) eqn:Ea.
    - destruct (by_class_spec W (fun _ => self) [c_id self] own St (o_non_planar_displacement o) (dirty (c_id self)) db ctr b h Hdb Hi Hh)
        as (ctxs & sel & bln & E & Hp & Es & S1 & S2).
      rewrite E. cbn [bind]. rewrite Hd in Hp. cbn [optimize_neighbours] in Hp.
      assert (Hsub : forall x, In x ctxs <-> In x b /\ nearby L epsilon_dist h x = true).
      { intros x. rewrite <- filter_In. split; apply Permutation_in; [|symmetry]; exact Hp. }
      assert (Hf : Forall hullish ctxs).
      { apply Forall_forall. intros x Hx. eapply fresh_hullish, Hfr. apply Hsub, Hx. }
      destruct (select_loop_exact L (o_non_planar_displacement o) true h (st_touch _ _ _ _ St) (fresh_hullish _ _ _ _ (Hfr h Hh)) ctxs Hf)
        as (r & Er & R).
      { intros x z Hx Hz. apply Hrng; [destruct Hx as [<- |Hx]|destruct Hz as [<- |Hz]]; auto; apply Hsub; auto. }
      rewrite Er in Es. injection Es as ->.
      assert (Hsel : forall v, In v sel <-> In v b /\
        existsb (fun x => r_near (n_rng h) x && ((fst (r_flags (n_rng h) x) && rng_eqb (n_rng v) (n_rng h)) ||
                          (snd (r_flags (n_rng h) x) && rng_eqb (n_rng v) x))) ch = true).
      { intros v. rewrite R, existsb_exists. split.
        - intros (x & Hx & sa & sb & Ex & K). apply Hsub in Hx. destruct Hx as [Hxb Hxn].
          rewrite pair_same_inst in Ex by (rewrite (line_inst W self own ctr b h Hi Hh), (line_inst W self own ctr b x Hi Hxb); auto).
          destruct (flags_exact h x (Hfr h Hh) (Hfr x Hxb)) as (sa' & sb' & Ex' & Fa & Fb).
          rewrite Ex in Ex'. injection Ex' as <- <-.
          rewrite (near_exact h x (Hfr h Hh) (Hfr x Hxb) (bag_id_rng ctr b h x Hi Hh Hxb)) in Hxn.
          assert (Hxc : In (n_rng x) ch) by (apply Hch, in_map, Hxb).
          destruct K as [-> | ->].
          + destruct (fst (r_flags (n_rng h) (n_rng x))) eqn:F1; [|discriminate]. injection Fa as ->.
            split; [exact Hh|]. exists (n_rng x). split; [exact Hxc|]. rewrite Hxn, F1.
            replace (rng_eqb (n_rng h) (n_rng h)) with true by (symmetry; apply rng_eqb_eq; auto). reflexivity.
          + destruct (snd (r_flags (n_rng h) (n_rng x))) eqn:F1; [|discriminate]. injection Fb as ->.
            split; [exact Hxb|]. exists (n_rng x). split; [exact Hxc|]. rewrite Hxn, F1.
            replace (rng_eqb (n_rng x) (n_rng x)) with true by (symmetry; apply rng_eqb_eq; auto). apply orb_true_r.
        - intros (Hv & q & Hq & K). apply Hch in Hq. apply in_map_iff in Hq. destruct Hq as (x & <- & Hxb).
          apply andb_true_iff in K. destruct K as [Kn K].
          rewrite <- (near_exact h x (Hfr h Hh) (Hfr x Hxb) (bag_id_rng ctr b h x Hi Hh Hxb)) in Kn.
          exists x. split; [apply Hsub; auto|]. unfold selected_by.
          rewrite pair_same_inst by (rewrite (line_inst W self own ctr b h Hi Hh), (line_inst W self own ctr b x Hi Hxb); auto).
          destruct (flags_exact h x (Hfr h Hh) (Hfr x Hxb)) as (sa & sb & Ex & Fa & Fb).
          exists sa, sb. split; [exact Ex|]. apply orb_true_iff in K. destruct K as [K|K]; apply andb_true_iff in K; destruct K as [F1 F2];
            rewrite rng_eqb_eq in F2; [left; rewrite Fa, F1|right; rewrite Fb, F1]; f_equal; symmetry; apply Hrng; auto. }
      assert (Hbln : bln = true -> ~ In h sel).
      { intros Eb Hs. unfold by_class, select_feature_class in E.
        destruct (node_neighbours L db h epsilon_dist) as [ns| |]; try discriminate. cbn [bind] in E.
        destruct (select_loop _ _ _ _ _ _) as [s2| |]; try discriminate. cbn [bind by_selection] in E.
        unfold by_selection in E. injection E as E E'. subst s2. rewrite Eb in E. apply negb_true_iff in E.
        assert (existsb (fun h0 => n_id h0 =? n_id h) sel = true); [|congruence].
        apply existsb_exists. exists h. split; [exact Hs|apply Z.eqb_refl]. }
      cbn [andb]. destruct bln; cbn [bind].
      + destruct (r_valid (n_rng h)) eqn:Ev; cbn [negb].
        * exists sel. split; [reflexivity|]. intros v. rewrite andb_false_r, orb_false_r. apply Hsel.
        * exists (sel ++ [h]). split; [reflexivity|]. intros v. rewrite andb_true_r, in_app_iff, Hsel. cbn [In]. split.
          -- intros [[Hv K]|[<- |[]]]; [split; auto; rewrite K; reflexivity|]. split; auto.
             apply orb_true_iff. right. apply Hself; auto.
          -- intros [Hv K]. apply orb_true_iff in K. destruct K as [K|K]; auto. right. left. symmetry. apply Hself; auto.
      + assert (Hin : In h sel) by (apply S2; reflexivity).
        exists sel. split; [reflexivity|]. intros v. rewrite Hsel. split.
        * intros [Hv K]. split; auto. rewrite K. reflexivity.
        * intros [Hv K]. apply orb_true_iff in K. destruct K as [K|K]; auto. apply andb_true_iff in K. destruct K as [K _].
          apply (Hself v Hv) in K. subst v. apply Hsel, Hin.
    - cbn [bind andb orb]. destruct (r_valid (n_rng h)); cbn [negb].
      + exists []. split; [reflexivity|]. intros v. rewrite andb_false_r. cbn. intuition discriminate.
      + exists [h]. split; [reflexivity|]. intros v. rewrite andb_true_r. cbn [In]. split.
        * intros [<- |[]]. split; auto. apply Hself; auto.
        * intros [Hv K]. left. symmetry. apply Hself; auto.
  Qed.

  Lemma find_exact dirty db ctr b D Dr ch : holds db b -> inv ctr b -> incl D b -> dirty (c_id self) = true ->
    (forall r, In r (map n_rng b) <-> In r ch) -> (forall r, In r (map n_rng D) <-> In r Dr) ->
    exists found, find_deformable W (fun _ => self) dirty D db = Ok found /\
      forall v, In v found <-> In v b /\ r_sel Dr ch (n_rng v) = true.
  Proof.
    intros Hdb Hi Hsub Hd Hch HD. unfold find_deformable.
    destruct (mapM_ok (check_hull W (fun _ => self) dirty db) D) as (sels & Em & F).
    { intros x Hx. destruct (check_exact dirty db ctr b x ch Hdb Hi (Hsub x Hx) Hd Hch) as (s & E & _). eauto. }
    rewrite Em. cbn [bind]. exists (dedup_ids (concat sels)). split; [reflexivity|].
    assert (Hin : forall v, In v (concat sels) <-> In v b /\ r_sel Dr ch (n_rng v) = true).
    { intros v. rewrite in_concat. unfold P_Ref.r_sel. rewrite existsb_exists. split.
      - intros (s & Hs & Hv). destruct (Forall2_in_r _ _ _ _ F Hs) as (x & Hx & E).
        destruct (check_exact dirty db ctr b x ch Hdb Hi (Hsub x Hx) Hd Hch) as (s' & E' & K).
        rewrite E in E'. injection E' as <-. apply K in Hv. split; [apply Hv|]. exists (n_rng x). split; [|apply Hv].
        apply HD, in_map, Hx.
      - intros (Hv & q & Hq & K). apply HD, in_map_iff in Hq. destruct Hq as (x & <- & Hx).
        destruct (Forall2_in_l _ _ _ _ F Hx) as (s & Hs & E).
        destruct (check_exact dirty db ctr b x ch Hdb Hi (Hsub x Hx) Hd Hch) as (s' & E' & K').
        rewrite E in E'. injection E' as <-. exists s. split; auto. apply K'. auto. }
    intros v. rewrite <- Hin. split; [apply dedup_in|]. intros Hv. destruct (dedup_id _ _ Hv) as (w & Hw & E).
    assert (Hwb : In w b) by (apply Hin, dedup_in, Hw). assert (Hvb : In v b) by (apply Hin, Hv).
    rewrite <- (inv_id_inj _ _ _ _ _ _ _ _ Hi Hwb Hvb E). exact Hw.
  Qed.

  Lemma deform_exact sel : forall ctr, (forall h, In h sel -> fresh h) ->
    exists defs ctr', deform_nodes W (fun _ => self) sel ctr = Ok (defs, ctr') /\
      map n_rng defs = flat_map r_halves (map n_rng sel).
  Proof.
    induction sel as [|h r IH]; intros ctr Hf; cbn [deform_nodes map flat_map].
    - do 2 eexists. split; reflexivity.
    - assert (Hh : fresh h) by (apply Hf; left; auto). assert (Hhull : hull_of pts h) by apply Hh.
      unfold P_Ref.r_halves at 1. destruct (Z.ltb_spec 1 (rsize (n_rng h))) as [H1|H1].
      + assert (Hk : 0 < fst (score (n_coords h)) < rJ (n_rng h) - rI (n_rng h)).
        { pose proof (st_score _ _ _ _ St (c_id self) (n_rng h) (or_introl eq_refl)) as K. destruct Hhull as (A & B & C & D).
          rewrite D. unfold rsize in H1. apply K; auto; lia. }
        destruct (at_score_spec L (w_gen W) pts h score ctr Hhull Hk) as (ha & hb & E & Ea & Eb & _).
        rewrite E. cbn [bind]. destruct (IH (S (S ctr))) as (defs & ctr' & E' & Er); [intros; apply Hf; right; auto|].
        rewrite E'. cbn [bind]. do 2 eexists. split; [reflexivity|]. cbn [map app]. rewrite Ea, Eb, Er.
        destruct Hhull as (_ & _ & _ & D). rewrite D. reflexivity.
      + destruct (IH ctr) as (defs & ctr' & E' & Er); [intros; apply Hf; right; auto|].
        rewrite E'. cbn [bind]. do 2 eexists. split; [reflexivity|]. cbn [map app]. rewrite Er. reflexivity.
  Qed.

  Lemma bag_rng_nodup ctr b : inv ctr b -> NoDup (map n_rng b).
  Proof. intros H. eapply tiling_nodup, (line_tiles W self own ctr b H). Qed.
  Lemma sub_rng_nodup l b ctr : inv ctr b -> NoDup (map n_id l) -> incl l b -> NoDup (map n_rng l).
  Proof.
    intros Hi. induction l as [|x l IH]; intros Hn Hs; cbn; [constructor|]. cbn in Hn. inversion Hn as [|? ? N1 N2]; subst.
    constructor; [|apply IH; [exact N2|intros y Hy; apply Hs; right; auto]].
    intros K. apply in_map_iff in K. destruct K as (y & E & Hy). apply N1.
    rewrite <- (line_rng W self own ctr b y x Hi); auto; [apply in_map, Hy|apply Hs; right; auto|apply Hs; left; auto].
  Qed.

  Lemma rounds_exact ord : (forall k l, Permutation (ord k l) l) ->
    forall fuel round dirty D db ctr b Dr ch db' ctr',
    holds db b -> inv ctr b -> incl D b -> dirty (c_id self) = true ->
    Permutation (map n_rng b) ch -> (forall r, In r (map n_rng D) <-> In r Dr) ->
    split_loop W (fun _ => self) ord fuel round dirty D db ctr = Ok (db', ctr') ->
    exists b' ch', holds db' b' /\ inv ctr' b' /\ Permutation (map n_rng b') ch' /\
      r_rounds L pts o score cs Dr ch ch'.
  Proof.
    intros Hord. induction fuel as [|f IH]; intros round dirty D db ctr b Dr ch db' ctr' Hdb Hi Hsub Hd Hch HD E.
    - cbn [split_loop] in E. destruct D; [|discriminate]. injection E as <- <-. exists b, ch. split; auto. split; auto. split; auto.
      constructor. assert (EDr : Dr = []) by (destruct Dr as [|q t]; auto; exfalso; apply (proj2 (HD q)); left; auto).
      rewrite EDr. cbn [P_Ref.r_sel existsb]. clear. induction ch; cbn; auto.
    - cbn [split_loop] in E. destruct D as [|d0 D0] eqn:ED.
      { injection E as <- <-. exists b, ch. split; auto. split; auto. split; auto.
        constructor. assert (EDr : Dr = []) by (destruct Dr as [|q t]; auto; exfalso; apply (proj2 (HD q)); left; auto).
        rewrite EDr. cbn [P_Ref.r_sel existsb]. clear. induction ch; cbn; auto. }
      rewrite <- ED in *. clear ED.
      assert (Hch' : forall r, In r (map n_rng b) <-> In r ch).
      { intros r. split; apply Permutation_in; [|symmetry]; exact Hch. }
      destruct (find_exact dirty db ctr b D Dr ch Hdb Hi Hsub Hd Hch' HD) as (found & Ef & Hfound).
      destruct (find_spec W (fun _ => self) [c_id self] own St dirty db ctr b D Hdb Hi Hsub) as (found' & Ef' & Hnd & Hin & _).
      rewrite Ef in Ef'. injection Ef' as <-. rewrite Ef in E. cbn [bind] in E.
      assert (Hndc : NoDup ch) by (eapply Permutation_NoDup; [exact Hch|eapply bag_rng_nodup; eauto]).
      assert (Hpf : Permutation (map n_rng found) (filter (r_sel Dr ch) ch)).
      { apply NoDup_Permutation; [eapply sub_rng_nodup; eauto|apply NoDup_filter, Hndc|].
        intros q. rewrite in_map_iff, filter_In. split.
        - intros (v & <- & Hv). apply Hfound in Hv. split; [apply Hch', in_map|]; apply Hv.
        - intros [Hq K]. apply Hch', in_map_iff in Hq. destruct Hq as (v & <- & Hv). exists v. split; auto. apply Hfound; auto. }
      pose proof (Hord (2 * round)%nat found) as Hp1. pose proof (Hord (S (2 * round)) found) as Hp2.
      destruct (ord (2 * round)%nat found) as [|s0 s1] eqn:Es.
      { apply Permutation_nil in Hp1. subst found. injection E as <- <-. exists b, ch. split; auto. split; auto. split; auto.
        constructor. apply Permutation_nil. exact Hpf. }
      set (sel := s0 :: s1) in *.
      destruct (incl_rest found b Hnd (bi_nodup _ _ _ _ _ _ Hi) Hin) as [rest Hrest].
      assert (Hsr : Permutation b (sel ++ rest)) by (rewrite Hrest; apply Permutation_app_tail; symmetry; exact Hp1).
      destruct (deform_spec W (fun _ => self) [c_id self] own St sel rest ctr (inv_perm _ _ _ _ _ _ _ Hsr Hi))
        as (defs & ctr1 & E1 & Hi' & Hc' & _).
      destruct (deform_exact sel ctr) as (defs' & ctr1' & E1' & Hdefs).
      { intros h Hh. eapply line_fresh; [exact Hi|]. apply (Permutation_in _ (Permutation_sym Hsr)), in_or_app; auto. }
      rewrite E1 in E1'. injection E1' as <- <-. rewrite E1 in E. cbn [bind] in E.
      assert (Hrm : holds (clean_up db (ord (S (2 * round)) found)) rest).
      { apply holds_remove_all.
        - apply (Permutation_NoDup (l := map n_id b)); [|apply (bi_nodup _ _ _ _ _ _ Hi)].
          apply Permutation_map. rewrite Hrest. apply Permutation_app_tail. symmetry. exact Hp2.
        - apply (holds_perm db b); [|exact Hdb]. rewrite Hrest. apply Permutation_app_tail. symmetry. exact Hp2. }
      assert (Hgd : Forall good_item defs).
      { apply Forall_forall. intros h Hh. eapply (inv_goods W (fun _ => self) [c_id self] own St ctr1 (defs ++ rest)); auto.
        apply in_or_app; auto. }
      destruct (holds_load (w_hdb W) _ _ defs (st_hdb _ _ _ _ St) Hrm Hgd) as (db1 & El & Hdb1).
      rewrite El in E. cbn [bind] in E.
      apply (holds_perm _ _ (defs ++ rest)) in Hdb1; [|apply Permutation_app_comm].
      assert (Hdefs' : Permutation (map n_rng defs) (flat_map r_halves (filter (r_sel Dr ch) ch))).
      { rewrite Hdefs. apply Permutation_flat_map. rewrite <- Hpf. apply Permutation_map, Hp1. }
      assert (Hrest' : Permutation (map n_rng rest) (filter (fun r => negb (r_sel Dr ch r)) ch)).
      { apply (Permutation_app_inv_l (filter (r_sel Dr ch) ch)). eapply perm_trans; [|apply partition_perm].
        eapply perm_trans; [|exact Hch]. eapply perm_trans; [apply Permutation_app_tail; symmetry; exact Hpf|].
        rewrite <- map_app. symmetry. apply Permutation_map. exact Hrest. }
      destruct (IH (S round) (mark_dirty dirty sel) defs db1 ctr1 (defs ++ rest)
                  (flat_map r_halves (filter (r_sel Dr ch) ch))
                  (flat_map r_halves (filter (r_sel Dr ch) ch) ++ filter (fun r => negb (r_sel Dr ch r)) ch) db' ctr')
        as (b' & ch' & A1 & A2 & A3 & A4); auto.
      + intros x Hx. apply in_or_app; auto.
      + unfold mark_dirty. rewrite Hd. reflexivity.
      + rewrite map_app, Hdefs', Hrest'. reflexivity.
      + intros r. split; apply Permutation_in; [|symmetry]; exact Hdefs'.
      + exists b', ch'. split; auto. split; auto. split; auto. apply R_next; auto.
        intros K. rewrite K in Hpf. apply Permutation_sym, Permutation_nil in Hpf. destruct found as [|z t]; [|discriminate].
        apply Permutation_sym, Permutation_nil in Hp1. discriminate.
  Qed.

  (** ** Cutting at the forced vertices *)

  Notation r_cut := (r_cut (w_geom W) (c_pts self)).
  Definition plain_cut (idxs : list Z) (r : rng) : list rng := match rsplit r idxs with [] => [r] | rs => rs end.

  Lemma split_hulls_exact idxs hulls : forall rest db ctr db' ctr',
    holds db (hulls ++ rest) -> inv ctr (hulls ++ rest) ->
    split_hulls L (w_gen W) (w_hdb W) idxs hulls db ctr = Ok (db', ctr') ->
    exists b', holds db' b' /\ inv ctr' b' /\
      Permutation (map n_rng b') (flat_map (plain_cut idxs) (map n_rng hulls) ++ map n_rng rest).
  Proof.
    induction hulls as [|h r IH]; intros rest db ctr db' ctr' Hh Hi E; cbn [split_hulls] in E.
    - injection E as <- <-. exists rest. split; auto.
    - assert (Hin : In h ((h :: r) ++ rest)) by (left; auto).
      pose proof (inv_hull _ _ _ _ _ _ _ Hi Hin) as Hhull.
      destruct (at_index_spec L (w_gen W) _ h idxs ctr Hhull) as (hs & E1 & Er & Ef & Ei).
      rewrite E1 in E. cbn [bind] in E. cbn [map flat_map].
      unfold plain_cut at 1. rewrite <- Er.
      destruct hs as [|t0 ts].
      + cbn [map length] in *. rewrite Nat.add_0_r in E.
        destruct (IH (h :: rest) db ctr db' ctr') as (b' & A1 & A2 & A3); auto.
        * eapply holds_perm; [|exact Hh]. cbn. apply Permutation_middle.
        * eapply inv_perm; [|exact Hi]. cbn. apply Permutation_middle.
        * exists b'. split; auto. split; auto. rewrite A3. cbn [map app]. symmetry. apply Permutation_middle.
      + assert (Hex : exists x, In x idxs /\ rI (n_rng h) < x < rJ (n_rng h)).
        { destruct (existsb (fun x => (rI (n_rng h) <? x) && (x <? rJ (n_rng h))) idxs) eqn:Ex.
          - apply existsb_exists in Ex; destruct Ex as [x [Hx Hb]]; exists x; split; [exact Hx|].
            apply andb_true_iff in Hb; lia.
          - exfalso. assert (rsplit (n_rng h) idxs = []) as E0.
            { apply rsplit_empty_iff. intros x Hx Hb.
              assert (existsb (fun x => (rI (n_rng h) <? x) && (x <? rJ (n_rng h))) idxs = true); [|congruence].
              apply existsb_exists. exists x. split; auto. apply andb_true_iff. lia. }
            rewrite E0 in Er. discriminate. }
        destruct (rsplit_spec (n_rng h) idxs Hex) as [Hchn _]. rewrite <- Er in Hchn.
        remember (t0 :: ts) as toks eqn:Et.
        assert (Hmt : map n_rng toks <> []) by (subst toks; discriminate).
        assert (Em : match map n_rng toks with [] => [n_rng h] | rs => rs end = map n_rng toks)
          by (destruct (map n_rng toks); [contradiction|reflexivity]).
        rewrite Em.
        assert (E' : (db1 <- load (w_hdb W) (remove db h) toks ;;
                      split_hulls L (w_gen W) (w_hdb W) idxs r db1 (ctr + length toks)%nat) = Ok (db', ctr'))
          by (rewrite Et in E |- *; exact E).
        clear E Et. rename E' into E.
        assert (Hdb : holds (remove db h) (r ++ rest)).
        { apply (holds_remove_all [h] (r ++ rest) db); auto. apply (bi_nodup _ _ _ _ _ _ Hi). }
        assert (Hgt : Forall good_item toks).
        { eapply Forall_impl; [|exact Ef]. intros x Hx. rewrite (line_inst W self own ctr _ h Hi Hin) in Hx.
          exact (fresh_good_item W self own St x Hx). }
        destruct (holds_load (w_hdb W) (remove db h) (r ++ rest) toks (st_hdb _ _ _ _ St) Hdb Hgt) as (db1 & El & H1).
        rewrite El in E. cbn [bind] in E.
        assert (Hi1 : inv (ctr + length toks) (toks ++ (r ++ rest))).
        { apply (inv_split _ _ _ _ (st_gen _ _ _ _ St) ctr h); auto. }
        assert (Hperm : Permutation (toks ++ (r ++ rest)) (r ++ (toks ++ rest))) by apply Permutation_app_swap_app.
        destruct (IH (toks ++ rest) db1 (ctr + length toks)%nat db' ctr') as (b' & A1 & A2 & A3); auto.
        * eapply holds_perm; [|exact H1]. rewrite Permutation_app_comm. exact Hperm.
        * eapply inv_perm; [exact Hperm|exact Hi1].
        * exists b'. split; auto. split; auto. rewrite A3, map_app. rewrite <- app_assoc. apply Permutation_app_swap_app.
  Qed.

  Lemma cut_filter p idxs ch :
    Permutation (flat_map (r_cut p idxs) ch)
      (flat_map (plain_cut idxs) (filter (fun r => fle (gl_dist L (GPoint p) (n_geom (hl r))) epsilon_dist) ch) ++
       filter (fun r => negb (fle (gl_dist L (GPoint p) (n_geom (hl r))) epsilon_dist)) ch).
  Proof.
    induction ch as [|r ch IH]; cbn [flat_map filter app]; [constructor|]. unfold P_Ref.r_cut at 1.
    destruct (fle (gl_dist L (GPoint p) (n_geom (hl r))) epsilon_dist); cbn [negb flat_map].
    - fold (plain_cut idxs r). rewrite IH, app_assoc. reflexivity.
    - cbn [app]. rewrite IH. apply Permutation_middle.
  Qed.

  Lemma cuts_exact inters : forall db ctr b ch db' ctr',
    holds db b -> inv ctr b -> Permutation (map n_rng b) ch ->
    Forall (boxes_nearer L (fun _ => pts) [c_id self]) inters ->
    split_at_self L (w_gen W) (w_hdb W) (w_pop W) inters db ctr = Ok (db', ctr') ->
    exists b', holds db' b' /\ inv ctr' b' /\ Permutation (map n_rng b') (r_cuts L pts inters ch).
  Proof.
    induction inters as [|[p idxs] inters IH]; intros db ctr b ch db' ctr' Hh Hi Hch Hbx E; cbn [split_at_self] in E.
    - injection E as <- <-. exists b. split; auto.
    - inversion Hbx as [|? ? B1 B2]; subst. unfold r_cuts. cbn [fold_left fst snd].
      fold (r_cuts L pts inters (flat_map (r_cut p idxs) ch)).
      destruct (holds_context_exact L (w_pop W) db b (GPoint p) epsilon_dist Hpop Hh eq_refl) as (ns & En & Hp).
      { intros bx it Hit Hw. apply (B1 (c_id self) it bx); auto; [left; auto|eapply line_fresh; eauto]. }
      set (f := fun it => fle (gl_dist L (GPoint p) (n_geom it)) epsilon_dist) in *.
      assert (Hsplit : Permutation b (ns ++ filter (fun it => negb (f it)) b)).
      { rewrite Hp. apply partition_perm. }
      assert (Hf : forall g, In g b -> n_geom g = n_geom (hl (n_rng g))).
      { intros g Hg. apply (fresh_twin g). eapply line_fresh; eauto. }
      assert (Hcut : Permutation (flat_map (plain_cut idxs) (map n_rng ns) ++ map n_rng (filter (fun it => negb (f it)) b))
                       (flat_map (r_cut p idxs) ch)).
      { eapply perm_trans; [|apply Permutation_flat_map; exact Hch]. eapply perm_trans; [|symmetry; apply cut_filter].
        apply Permutation_app.
        - apply Permutation_flat_map. rewrite Hp, filter_map_comm. apply Permutation_map.
          rewrite (filter_ext_in f (fun x => fle (gl_dist L (GPoint p) (n_geom (hl (n_rng x)))) epsilon_dist)); [reflexivity|].
          intros x Hx. unfold f. rewrite (Hf x Hx). reflexivity.
        - rewrite filter_map_comm. apply Permutation_map.
          rewrite (filter_ext_in (fun it => negb (f it)) (fun x => negb (fle (gl_dist L (GPoint p) (n_geom (hl (n_rng x)))) epsilon_dist))); [reflexivity|].
          intros x Hx. unfold f. rewrite (Hf x Hx). reflexivity. }
      destruct idxs as [|k idxs].
      { apply (IH db ctr b); auto. assert (Hid : forall l, flat_map (plain_cut []) l = l).
        { intros l. induction l as [|r l IHl]; cbn; auto. rewrite IHl. reflexivity. }
        rewrite <- Hcut, Hid, <- map_app. apply Permutation_map. exact Hsplit. }
      rewrite En in E. cbn [bind] in E.
      destruct (split_hulls L (w_gen W) (w_hdb W) (k :: idxs) ns db ctr) as [[db1 ctr1]| |] eqn:E1; try discriminate.
      cbn [bind] in E.
      destruct (split_hulls_exact (k :: idxs) ns _ db ctr db1 ctr1 (holds_perm _ _ _ Hsplit Hh) (inv_perm _ _ _ _ _ _ _ Hsplit Hi) E1)
        as (b1 & A1 & A2 & A3).
      apply (IH db1 ctr1 b1); auto. rewrite A3. exact Hcut.
  Qed.

  (** ** Merging *)

  Notation r_merge_valid := (r_merge_valid (w_geom W) (c_pts self) (c_opts self) cs).
  Notation r_try := (r_try (c_pts self) score rel).
  Notation r_prev := (r_prev (w_geom W) (c_pts self)).
  Notation r_next := (r_next (w_geom W) (c_pts self)).
  Notation r_step := (r_step (w_geom W) (c_pts self) (c_opts self) score rel cs).
  Notation r_agg := (r_agg (w_geom W) (c_pts self) (c_opts self) score rel cs).

  Lemma merge_valid_exact t b ch m : holds t b -> (forall x, In x b -> fresh x) -> fresh m ->
    (forall x, In x b -> n_id x <> n_id m /\ n_rng x <> n_rng m) ->
    (forall r, In r (map n_rng b) <-> In r ch) ->
    validate_merge W self t m = Ok (r_merge_valid ch (n_rng m)).
  Proof.
    intros Ht Hfr Hm Hne Hch. unfold validate_merge, P_Ref.r_merge_valid. rewrite (valid_exact m Hm).
    destruct (o_avoid_self o); cbn [negb orb].
    - unfold by_self, select_line.
      destruct (holds_neighbours L t b m epsilon_dist Ht (fresh_good_item W self own St m Hm)) as (r & -> & Hp). cbn [bind].
      assert (Hsub : forall x, In x r <-> In x b /\ nearby L epsilon_dist m x = true).
      { intros x. rewrite <- filter_In. split; apply Permutation_in; [|symmetry]; exact Hp. }
      assert (Hf : Forall hullish r).
      { apply Forall_forall. intros x Hx. eapply fresh_hullish, Hfr, Hsub, Hx. }
      destruct (select_loop_spec L (o_non_planar_displacement o) false m (st_touch _ _ _ _ St) (fresh_hullish _ _ _ _ Hm) r [] Hf)
        as (sel & -> & R1 & R2 & _). cbn [bind by_selection].
      assert (Hnear : forall x, In x b -> nearby L epsilon_dist m x = r_near (n_rng m) (n_rng x)).
      { intros x Hx. apply near_exact; auto. destruct (Hne x Hx). split; intros; contradiction. }
      assert (Hall : forallb (fun x => negb (r_near (n_rng m) x) || (negb (fst (r_flags (n_rng m) x)) && negb (snd (r_flags (n_rng m) x)))) ch
                     = match sel with [] => true | _ => false end).
      { destruct sel as [|v sel].
        - apply forallb_forall. intros q Hq. apply Hch, in_map_iff in Hq. destruct Hq as (x & <- & Hx).
          rewrite <- (Hnear x Hx). destruct (nearby L epsilon_dist m x) eqn:En; [cbn [negb orb]|reflexivity].
          destruct (flags_exact m x Hm (Hfr x Hx)) as (sa & sb & E & Fa & Fb).
          destruct (fst (r_flags (n_rng m) (n_rng x))).
          { exfalso. destruct (R2 m) as (w & [] & _). right. exists x. split; [apply Hsub; auto|]. exists sa, sb. auto. }
          destruct (snd (r_flags (n_rng m) (n_rng x))); [|reflexivity].
          exfalso. destruct (R2 x) as (w & [] & _). right. exists x. split; [apply Hsub; auto|]. exists sa, sb. auto.
        - destruct (R1 v (or_introl eq_refl)) as [[]|(x & Hx & sa & sb & E & K)]. apply Hsub in Hx. destruct Hx as [Hx En].
          destruct (forallb _ ch) eqn:Ef; [exfalso|reflexivity]. rewrite forallb_forall in Ef.
          specialize (Ef (n_rng x)). rewrite <- (Hnear x Hx), En in Ef. cbn [negb orb] in Ef.
          destruct (flags_exact m x Hm (Hfr x Hx)) as (sa' & sb' & E' & Fa & Fb). rewrite E in E'. injection E' as <- <-.
          assert (Hq : In (n_rng x) ch) by (apply Hch, in_map, Hx). specialize (Ef Hq).
          apply andb_true_iff in Ef. destruct Ef as [F1 F2]. apply negb_true_iff in F1, F2. rewrite F1 in Fa. rewrite F2 in Fb.
          destruct K; congruence. }
      rewrite Hall. destruct sel as [|v sel].
      + reflexivity.
      + assert (zlen (v :: sel) =? 0 = false) as -> by (apply Z.eqb_neq; unfold zlen; cbn [length]; lia). reflexivity.
    - cbn [bind]. reflexivity.
  Qed.

  Definition adj (p : rng * rng) : Prop := rI (fst p) < rJ (fst p) /\ rJ (fst p) = rI (snd p) /\ rI (snd p) < rJ (snd p).
  Definition rkey (p : rng * rng) : list Z :=
    zsort [rI (fst p); rJ (fst p); rI (snd p); rJ (snd p); c_id self; c_id self].
  Lemma zlist_eqb_eq a : forall b, zlist_eqb a b = true <-> a = b.
  Proof.
    induction a as [|x a IH]; intros [|y b]; cbn; try (split; congruence).
    rewrite andb_true_iff, Z.eqb_eq, IH. split; [intros [-> ->]; auto|intros E; injection E; auto].
  Qed.
  Lemma rkey_inj p q : adj p -> adj q -> rkey p = rkey q -> p = q.
  Proof.
    destruct p as [[a b] [a' b']], q as [[c d] [c' d']]. intros (A1 & A2 & A3) (B1 & B2 & B3) K. cbn [fst snd rI rJ] in *. subst a' c'.
    unfold rkey in K. cbn [fst snd rI rJ] in K.
    assert (P : Permutation [a; b; b; b'; c_id self; c_id self] [c; d; d; d'; c_id self; c_id self]).
    { rewrite (zsort_perm [a;_;_;_;_;_]), (zsort_perm [c;_;_;_;_;_]), K. reflexivity. }
    change [a; b; b; b'; c_id self; c_id self] with ([a; b; b; b'] ++ [c_id self; c_id self]) in P.
    change [c; d; d; d'; c_id self; c_id self] with ([c; d; d; d'] ++ [c_id self; c_id self]) in P.
    apply Permutation_app_inv_r in P.
    assert (Ea : a = c).
    { assert (Ha : In a [c; d; d; d']) by (eapply Permutation_in; [exact P|left; auto]).
      assert (Hc : In c [a; b; b; b']) by (eapply Permutation_in; [symmetry; exact P|left; auto]).
      cbn in Ha, Hc. lia. }
    assert (Eb : b' = d').
    { assert (Ha : In b' [c; d; d; d']) by (eapply Permutation_in; [exact P|right; right; right; left; auto]).
      assert (Hc : In d' [a; b; b; b']) by (eapply Permutation_in; [symmetry; exact P|right; right; right; left; auto]).
      cbn in Ha, Hc. lia. }
    subst c d'. assert (Hb : In b [a; d; d; b']) by (eapply Permutation_in; [exact P|right; left; auto]). cbn in Hb.
    assert (b = d) by lia. subst. reflexivity.
  Qed.

  Lemma try_exact enabled ab rcache ctr m cache' ctr' :
    (forall a c, ab = Some (a, c) -> hull_of pts a /\ hull_of pts c /\ n_inst a = c_id self /\ n_inst c = c_id self /\
       rJ (n_rng a) = rI (n_rng c)) -> Forall adj rcache ->
    try_merge W self enabled ab (map rkey rcache) ctr = Ok (m, cache', ctr') ->
    option_map n_rng m = fst (r_try enabled (option_map (fun p => (n_rng (fst p), n_rng (snd p))) ab) rcache) /\
    cache' = map rkey (snd (r_try enabled (option_map (fun p => (n_rng (fst p), n_rng (snd p))) ab) rcache)) /\
    Forall adj (snd (r_try enabled (option_map (fun p => (n_rng (fst p), n_rng (snd p))) ab) rcache)).
  Proof.
    intros H Hadj E. unfold try_merge in E. destruct enabled; [|injection E as <- <- <-; auto].
    destruct ab as [[a c]|]; [|injection E as <- <- <-; auto]. cbn [option_map P_Ref.r_try fst snd].
    destruct (H a c eq_refl) as (Ha & Hc & Ei & Ei' & Ej).
    assert (Ek : const_key a c = rkey (n_rng a, n_rng c)) by (unfold const_key, rkey; rewrite Ei, Ei'; reflexivity).
    assert (Hac : adj (n_rng a, n_rng c)).
    { unfold adj. cbn [fst snd]. destruct Ha as (_ & K & _), Hc as (_ & K' & _). lia. }
    assert (Ex : existsb (zlist_eqb (const_key a c)) (map rkey rcache) =
                 existsb (fun x => rng_eqb (fst x) (n_rng a) && rng_eqb (snd x) (n_rng c)) rcache).
    { clear E. rewrite Ek. induction rcache as [|q l IH]; [reflexivity|]. inversion Hadj as [|? ? Q1 Q2]; subst.
      cbn [map existsb]. rewrite (IH Q2). f_equal. apply eq_true_iff_eq.
      rewrite zlist_eqb_eq, andb_true_iff, !rng_eqb_eq. split.
      - intros K. apply (rkey_inj _ _ Hac Q1) in K. subst q. auto.
      - intros [K1 K2]. destruct q as [q1 q2]. cbn [fst snd] in *. subst. reflexivity. }
    rewrite Ex in E. destruct (existsb _ rcache); [injection E as <- <- <-; auto|].
    assert (Hcon : rcontig (n_rng a) (n_rng c) = true).
    { apply rcontig_spec; [destruct Ha as (_ & K & _); lia|destruct Hc as (_ & K & _); lia|auto]. }
    destruct (fragments_spec L (w_gen W) pts score a c rel ctr Ha Hc Hcon) as (om & Eo & Ho).
    rewrite Eo in E. cbn [bind] in E. injection E as <- <- <-.
    assert (Hr : merge_range (n_rng a) (n_rng c) = Rng (rI (n_rng a)) (rJ (n_rng c))).
    { destruct Ha as (_ & K & _), Hc as (_ & K' & _). rewrite merge_range_spec by lia. f_equal; lia. }
    rewrite Hr in Ho. cbn [fst snd map]. rewrite Ek. split; [|split; [reflexivity|constructor; auto]].
    destruct om as [h|]; cbn [option_map].
    - destruct Ho as (-> & -> & _). reflexivity.
    - rewrite Ho. reflexivity.
  Qed.

  Lemma inv_merge ctr ctr' b a c m r : inv ctr b -> Permutation b (a :: c :: r) -> rJ (n_rng a) = rI (n_rng c) ->
    merge_of W self a c m ctr ctr' -> (ctr <= ctr')%nat -> inv ctr' (m :: r).
  Proof.
    intros Hi Hp Ej (Er & Hf & Hs & k & Hk & Hid) Hc.
    assert (Hi2 : inv ctr ([a; c] ++ r)) by (eapply inv_perm; [exact Hp|exact Hi]).
    assert (Ha : n_inst a = c_id self) by (eapply line_inst; [exact Hi2|left; auto]).
    assert (Hcc : n_inst c = c_id self) by (eapply line_inst; [exact Hi2|right; left; auto]).
    apply (inv_replace (w_geom W) (lines_of (fun _ => self)) [c_id self] (Src (w_gen W) own) (st_gen _ _ _ _ St) ctr ctr' (c_id self) [a; c] [m] r); auto.
    + left; reflexivity.
    + intros rs K. cbn [map app] in *. rewrite Er. apply (tiling_merge _ _ _ _ _ K Ej).
    + cbn. constructor; [intros []|constructor].
    + intros h [<- |[]]. left. exists k. auto.
  Qed.

  Lemma without_take ch r l : NoDup ch -> Permutation ch (r :: l) -> Permutation (r_without r ch) l.
  Proof.
    intros Hn Hp. assert (Hn' : NoDup (r :: l)) by (eapply Permutation_NoDup; eauto). inversion Hn' as [|? ? N1 N2]; subst.
    unfold r_without. eapply perm_trans; [apply (filter_perm _ _ _ _ Hp)|]. cbn [filter].
    replace (rng_eqb r r) with true by (symmetry; apply rng_eqb_eq; auto). cbn [negb].
    assert (Hx : forall x, In x l -> negb (rng_eqb x r) = true).
    { intros x Hx. apply negb_true_iff. destruct (rng_eqb x r) eqn:E; auto. apply rng_eqb_eq in E. subst. contradiction. }
    clear - Hx. induction l as [|x l IH]; cbn [filter]; [constructor|]. rewrite (Hx x (or_introl eq_refl)). constructor.
    apply IH. intros y Hy. apply Hx. right; auto.
  Qed.

  Lemma find_is {A} (p : A -> bool) l (q : option A) : (forall x, q = Some x <-> In x l /\ p x = true) -> find p l = q.
  Proof.
    intros H. destruct (find p l) as [x|] eqn:E.
    - apply find_some in E. symmetry. apply H, E.
    - destruct q as [x|]; auto. destruct (proj1 (H x) eq_refl) as [Hx Px].
      rewrite (find_none _ _ E x Hx) in Px. discriminate.
  Qed.

  Lemma agg_exact cvs k : forall objects db b ch rcache copied ctr lo db' ctr', (length objects <= k)%nat ->
    holds db b -> inv ctr b -> incl objects b -> chain lo (zlen pts - 1) (map n_rng objects) ->
    (forall h, In h (tl objects) -> ~ In (n_id h) copied) ->
    Forall adj rcache -> Permutation (map n_rng b) ch ->
    aggregate W self cvs objects db (map rkey rcache) copied ctr = Ok (db', ctr') ->
    exists b', holds db' b' /\ Permutation (map n_rng b') (r_agg k cvs (map n_rng objects) ch rcache).
  Proof.
    induction k as [|k IH]; intros objects db b ch rcache copied ctr lo db' ctr' Hlen Hdb Hi Hsub Hchn Hcop Hadj Hch E.
    { destruct objects as [|x t]; [|cbn [length] in Hlen; lia]. injection E as <- <-. exists b. auto. }
    destruct objects as [|hull rest].
    { injection E as <- <-. exists b. auto. }
    cbn [length] in Hlen. cbn [map chain] in Hchn. destruct Hchn as (Hlo & Hlt & Hchn). cbn [tl] in Hcop.
    assert (Hh : In hull b) by (apply Hsub; left; auto).
    assert (Hrest : incl rest b) by (intros x Hx; apply Hsub; right; auto).
    assert (Htl : forall h, In h (tl rest) -> In h rest) by (intros h K; destruct rest; [destruct K|right; exact K]).
    cbn [map P_Ref.r_agg]. unfold P_Ref.r_step. cbn [aggregate] in E.
    destruct (negb (rsize (n_rng hull) =? 1)).
    { eapply IH with (copied := copied); eauto. lia. }
    destruct (zmem (rI (n_rng hull)) cvs && zmem (rJ (n_rng hull)) cvs).
    { eapply IH with (copied := copied); eauto. lia. }
    cbv zeta in E |- *.
    assert (Hnr : NoDup ch) by (eapply Permutation_NoDup; [exact Hch|eapply bag_rng_nodup; eauto]).
    destruct (in_take hull b Hh) as [r1 Hp1].
    pose proof (bi_nodup _ _ _ _ _ _ Hi) as Hnd.
    assert (Hd1 : holds (remove db hull) r1) by (eapply holds_take; eauto).
    assert (Hnd1 : NoDup (map n_id r1)).
    { apply (Permutation_NoDup (Permutation_map n_id Hp1)) in Hnd. inversion Hnd; auto. }
    assert (Hr1 : Permutation (r_without (n_rng hull) ch) (map n_rng r1)).
    { apply without_take; auto. rewrite <- Hch, (Permutation_map n_rng Hp1). reflexivity. }
    set (ch1 := r_without (n_rng hull) ch) in *.
    assert (Hnr1 : NoDup ch1) by (apply NoDup_filter; exact Hnr).
    destruct (holds_neighbours L _ r1 hull epsilon_dist Hd1 (line_good W self own St ctr b hull Hi Hh)) as (ns & Ens & Hns).
    rewrite Ens in E. cbn [bind] in E.
    assert (Hin1 : forall h, In h r1 -> In h b) by (intros h K; apply (Permutation_in _ (Permutation_sym Hp1)); right; auto).
    assert (Hsub1 : forall x, In x ns <-> In x r1 /\ nearby L epsilon_dist hull x = true).
    { intros x. rewrite <- filter_In. split; apply Permutation_in; [|symmetry]; exact Hns. }
    pose proof (neighbours_spec 0 (zlen pts - 1) (node_sort b) hull ns) as Hnb.
    destruct (neighbours hull ns) as [prev nxt].
    destruct Hnb as [Hprev0 Hnxt0].
    { apply node_sort_chain. eapply line_tiles; eauto. }
    { intros x y Hx Hy. apply (inv_id_inj _ _ _ _ _ _ _ _ Hi); apply (Permutation_in _ (Permutation_sym (node_sort_perm b))); auto. }
    { apply (Permutation_in _ (node_sort_perm b)); auto. }
    { intros h Hx. apply (Permutation_in _ (node_sort_perm b)), Hin1, Hsub1, Hx. }
    assert (Hnear : forall x, In x r1 -> nearby L epsilon_dist hull x = r_near (n_rng hull) (n_rng x)).
    { intros x Hx. apply near_exact; [eapply line_fresh; eauto|eapply line_fresh; eauto|eapply bag_id_rng; eauto]. }
    assert (Hrp : r_prev (n_rng hull) ch1 = option_map n_rng prev).
    { apply find_is. intros q. split.
      - destruct prev as [p|]; cbn [option_map]; [|discriminate]. intros K. injection K as <-.
        destruct (proj1 (Hprev0 p) eq_refl) as [Z1 Z2]. apply Hsub1 in Z1. destruct Z1 as [Z1 Z3].
        split; [apply (Permutation_in _ (Permutation_sym Hr1)), in_map, Z1|]. rewrite <- (Hnear p Z1), Z3, Z2, Z.eqb_refl. reflexivity.
      - intros [Hq K]. apply (Permutation_in _ Hr1), in_map_iff in Hq. destruct Hq as (x & <- & Hx).
        apply andb_true_iff in K. destruct K as [K1 K2]. rewrite <- (Hnear x Hx) in K1.
        assert (prev = Some x) as ->; [|reflexivity]. apply Hprev0. split; [apply Hsub1; auto|lia]. }
    assert (Hrn : r_next (n_rng hull) ch1 = option_map n_rng nxt).
    { apply find_is. intros q. split.
      - destruct nxt as [p|]; cbn [option_map]; [|discriminate]. intros K. injection K as <-.
        destruct (proj1 (Hnxt0 p) eq_refl) as [Z1 Z2]. apply Hsub1 in Z1. destruct Z1 as [Z1 Z3].
        split; [apply (Permutation_in _ (Permutation_sym Hr1)), in_map, Z1|]. rewrite <- (Hnear p Z1), Z3, Z2, Z.eqb_refl. reflexivity.
      - intros [Hq K]. apply (Permutation_in _ Hr1), in_map_iff in Hq. destruct Hq as (x & <- & Hx).
        apply andb_true_iff in K. destruct K as [K1 K2]. rewrite <- (Hnear x Hx) in K1.
        assert (nxt = Some x) as ->; [|reflexivity]. apply Hnxt0. split; [apply Hsub1; auto|lia]. }
    rewrite Hrp, Hrn.
    assert (Hprev : forall h, prev = Some h -> In h r1 /\ rJ (n_rng h) = rI (n_rng hull)).
    { intros h K. apply Hprev0 in K. destruct K as [K1 K2]. apply Hsub1 in K1. tauto. }
    assert (Hnxt : forall h, nxt = Some h -> In h r1 /\ rI (n_rng h) = rJ (n_rng hull)).
    { intros h K. apply Hnxt0 in K. destruct K as [K1 K2]. apply Hsub1 in K1. tauto. }
    clear Hprev0 Hnxt0 Hrp Hrn.
    assert (Hab1 : forall a c, (match prev with Some p => Some (p, hull) | None => None end) = Some (a, c) ->
       hull_of pts a /\ hull_of pts c /\ n_inst a = c_id self /\ n_inst c = c_id self /\ rJ (n_rng a) = rI (n_rng c)).
    { intros a c K. destruct prev as [p|]; [|discriminate]. injection K as <- <-. destruct (Hprev p eq_refl) as [Q1 Q2].
      repeat (split; [first [eapply line_hull; eauto|eapply line_inst; eauto]|]). exact Q2. }
    destruct (try_merge_spec W self (negb (zmem (rI (n_rng hull)) cvs))
        (match prev with Some p => Some (p, hull) | None => None end) (map rkey rcache) ctr)
      as (mprev & cache1 & ctr1 & E1 & Hc1 & Hmp).
    { intros a c K. destruct (Hab1 a c K) as (? & ? & ? & ? & ?). auto. }
    destruct (try_exact _ _ _ _ _ _ _ Hab1 Hadj E1) as (T1 & T2 & T3).
    assert (Eo1 : option_map (fun p => (n_rng (fst p), n_rng (snd p))) (match prev with Some p => Some (p, hull) | None => None end)
                  = match option_map n_rng prev with Some p => Some (p, n_rng hull) | None => None end)
      by (destruct prev; reflexivity).
    rewrite Eo1 in T1, T2, T3. clear Eo1.
    destruct (r_try (negb (zmem (rI (n_rng hull)) cvs)) _ rcache) as [rm1 rc1]. cbn [fst snd] in T1, T2, T3. subst rm1 cache1.
    rewrite E1 in E. cbn [bind] in E. clear E1.
    assert (Hab2 : forall a c, (match nxt with Some n => Some (hull, n) | None => None end) = Some (a, c) ->
       hull_of pts a /\ hull_of pts c /\ n_inst a = c_id self /\ n_inst c = c_id self /\ rJ (n_rng a) = rI (n_rng c)).
    { intros a c K. destruct nxt as [p|]; [|discriminate]. injection K as <- <-. destruct (Hnxt p eq_refl) as [Q1 Q2].
      repeat (split; [first [eapply line_hull; eauto|eapply line_inst; eauto]|]). auto. }
    destruct (try_merge_spec W self (negb (zmem (rJ (n_rng hull)) cvs))
        (match nxt with Some n => Some (hull, n) | None => None end) (map rkey rc1) ctr1)
      as (mnext & cache2 & ctr2 & E2 & Hc2 & Hmn).
    { intros a c K. destruct (Hab2 a c K) as (? & ? & ? & ? & ?). auto. }
    destruct (try_exact _ _ _ _ _ _ _ Hab2 T3 E2) as (T4 & T5 & T6).
    assert (Eo2 : option_map (fun p => (n_rng (fst p), n_rng (snd p))) (match nxt with Some n => Some (hull, n) | None => None end)
                  = match option_map n_rng nxt with Some n => Some (n_rng hull, n) | None => None end)
      by (destruct nxt; reflexivity).
    rewrite Eo2 in T4, T5, T6. clear Eo2.
    destruct (r_try (negb (zmem (rJ (n_rng hull)) cvs)) _ rc1) as [rm2 rc2]. cbn [fst snd] in T4, T5, T6. subst rm2 cache2.
    rewrite E2 in E. cbn [bind] in E. clear E2 Hab1 Hab2 T3.
    assert (Hc02 : (ctr <= ctr2)%nat) by lia.
    assert (Hlater : forall h, In h rest -> rJ (n_rng hull) <= rI (n_rng h)).
    { intros h Hx. apply (chain_above _ _ _ (n_rng h) Hchn). apply in_map, Hx. }
    assert (Hlater2 : forall h, In h (tl rest) -> rJ (n_rng hull) < rI (n_rng h)).
    { intros h Hx. destruct rest as [|q t]; [destruct Hx|]. cbn [tl] in Hx. cbn [map chain] in Hchn.
      destruct Hchn as (_ & K & Hch'). pose proof (chain_above _ _ _ (n_rng h) Hch' (in_map n_rng _ _ Hx)). lia. }
    assert (Hhulllt : rI (n_rng hull) < rJ (n_rng hull)) by lia.
    assert (Hfresh : forall x, In x r1 -> fresh x) by (intros x Hx; eapply line_fresh; eauto).
    (* a merged hull is new *)
    assert (Hnew : forall a c m c1 c2, merge_of W self a c m c1 c2 -> (ctr <= c1)%nat -> In a b -> In c b -> rJ (n_rng a) = rI (n_rng c) ->
      forall x, In x b -> n_id x <> n_id m /\ n_rng x <> n_rng m).
    { intros a c m c1 c2 (A1 & A2 & _ & j & Hj & A3) Hc Ha Hcb Ej x Hx. split.
      - intros K. apply (bi_fresh _ _ _ _ _ _ Hi x j); auto; [lia|cbn; congruence].
      - intros K. assert (x = a).
        { apply (line_start W self own ctr b); auto. rewrite K, A1. reflexivity. }
        subst x. pose proof (line_hull W self own ctr b c Hi Hcb) as (_ & Z1 & _). rewrite A1 in K.
        assert (rJ (n_rng a) = rJ (n_rng c)) by (rewrite K; reflexivity). lia. }
    (* the attempt to merge with the next hull *)
    assert (Hphase1 :
      (exists m n t r, mnext = Some m /\ nxt = Some n /\ rest = n :: t /\ Permutation r1 (n :: r) /\
         merge_of W self hull n m ctr1 ctr2 /\ r_merge_valid (r_without (n_rng n) ch1) (n_rng m) = true /\
         holds (remove (remove db hull) n) r /\
         (match mnext, nxt with
          | Some m, Some n =>
            ok <- validate_merge W self (remove (remove db hull) n) m ;;
            (if ok : bool then
               match rest with
               | [] => Panic
               | q :: _ => Ok (remove (remove db hull) n, [m], true, (n_id q =? n_id n) && negb (zmem (n_id n) copied))
               end
             else Ok (remove (remove db hull) n, [n], false, false))
          | _, _ => Ok (remove db hull, [], false, false)
          end) = Ok (remove (remove db hull) n, [m], true, true)) \/
      (exists db2 ins base rbase,
         (match mnext, nxt with
          | Some m, Some n =>
            ok <- validate_merge W self (remove (remove db hull) n) m ;;
            (if ok : bool then
               match rest with
               | [] => Panic
               | q :: _ => Ok (remove (remove db hull) n, [m], true, (n_id q =? n_id n) && negb (zmem (n_id n) copied))
               end
             else Ok (remove (remove db hull) n, [n], false, false))
          | _, _ => Ok (remove db hull, [], false, false)
          end) = Ok (db2, ins, false, false) /\ holds db2 base /\ Permutation (base ++ ins) r1 /\
          (forall x, In x ins -> nxt = Some x) /\ Permutation (map n_rng base) rbase /\
          match option_map n_rng mnext, option_map n_rng nxt with
          | Some m, Some n => (r_without n ch1, if r_merge_valid (r_without n ch1) m then Some m else None)
          | _, _ => (ch1, None)
          end = (rbase, None))).
    { assert (Hdef : exists db2 ins base rbase, Ok (remove db hull, [], false, false) = Ok (db2, ins, false, false) /\ holds db2 base /\
          Permutation (base ++ ins) r1 /\ (forall x, In x ins -> nxt = Some x) /\ Permutation (map n_rng base) rbase /\
          (ch1, @None rng) = (rbase, None)).
      { exists (remove db hull), [], r1, ch1. split; [reflexivity|]. split; [exact Hd1|]. rewrite app_nil_r. split; [reflexivity|].
        split; [intros x []|]. split; [symmetry; exact Hr1|reflexivity]. }
      destruct mnext as [m|]; [|right; exact Hdef]. destruct nxt as [n|]; [|right; exact Hdef]. clear Hdef.
      destruct (Hnxt n eq_refl) as [Hn1 Hn2]. destruct (in_take n r1 Hn1) as [r2 Hp2].
      assert (Hd2 : holds (remove (remove db hull) n) r2) by (eapply holds_take; eauto).
      destruct (Hmn m eq_refl) as (Hen & a & c & K & Hm). injection K as <- <-.
      assert (Hr2 : Permutation (r_without (n_rng n) ch1) (map n_rng r2)).
      { apply without_take; auto. rewrite Hr1, (Permutation_map n_rng Hp2). reflexivity. }
      assert (Hin2 : forall x, In x r2 -> In x r1) by (intros x Hx; apply (Permutation_in _ (Permutation_sym Hp2)); right; auto).
      assert (Ev : validate_merge W self (remove (remove db hull) n) m = Ok (r_merge_valid (r_without (n_rng n) ch1) (n_rng m))).
      { apply (merge_valid_exact _ r2); auto; [apply Hm| |].
        - intros x Hx. eapply (Hnew hull n m ctr1 ctr2); eauto.
        - intros q. split; apply Permutation_in; [symmetry|]; exact Hr2. }
      rewrite Ev. cbn [bind option_map]. destruct (r_merge_valid (r_without (n_rng n) ch1) (n_rng m)) eqn:Eok.
      - left. destruct rest as [|q t] eqn:Erest.
        { exfalso. cbn [map chain] in Hchn. pose proof (line_hull W self own ctr b n Hi (Hin1 n Hn1)) as (_ & K1 & K2 & _). lia. }
        assert (Eo : q = n).
        { apply (line_start W self own ctr b); auto; [apply Hrest; left; auto|]. cbn [map chain] in Hchn. lia. }
        subst q. exists m, n, t, r2. repeat (split; [first [reflexivity|assumption]|]).
        rewrite Z.eqb_refl. cbn [andb]. destruct (zmem (n_id n) copied) eqn:Ez; [|reflexivity].
        exfalso. apply (Hcop n); [left; auto|]. apply zmem_in. exact Ez.
      - right. exists (remove (remove db hull) n), [n], r2, (r_without (n_rng n) ch1). split; [reflexivity|]. split; [exact Hd2|].
        split; [rewrite Hp2; symmetry; apply Permutation_cons_append|]. split; [intros x [<- |[]]; reflexivity|].
        split; [symmetry; exact Hr2|reflexivity]. }
    destruct Hphase1 as [(m & n & t & r & -> & En & Erest & Hpr & Hm & Eok & Hbase & Ef)|(db2 & ins & base & rbase & Ef & Hbase & Hpb & Hins & Hrb & Er)].
    - (* merged with the next hull *)
      rewrite Ef in E. clear Ef. cbn [bind] in E. rewrite En. cbn [option_map]. rewrite Eok.
      assert (Hgm : Forall good_item [m]) by (constructor; [apply (fresh_good_item W self own St), Hm|constructor]).
      destruct (holds_load (w_hdb W) _ _ [m] (st_hdb _ _ _ _ St) Hbase Hgm) as (db3 & E3 & Hd3). rewrite E3 in E. cbn [bind] in E.
      rewrite Erest in E |- *. cbn [map tl].
      assert (Hpfull : Permutation b (hull :: n :: r)) by (rewrite Hp1; constructor; exact Hpr).
      destruct (Hnxt n En) as [Ho1 Ho2].
      assert (Hm' : merge_of W self hull n m ctr ctr2).
      { destruct Hm as (A & B & C & j & Hj & D). split; [exact A|]. split; [exact B|]. split; [exact C|]. exists j. split; [lia|exact D]. }
      assert (Hi3 : inv ctr2 (m :: r)) by (eapply inv_merge; eauto).
      assert (Hch2 : chain (rJ (n_rng n)) (zlen pts - 1) (map n_rng t)).
      { rewrite Erest in Hchn. cbn [map chain] in Hchn. apply Hchn. }
      assert (Htr : incl t (m :: r)).
      { intros x Hx. right. assert (Hxb : In x b) by (apply Hrest; rewrite Erest; right; auto).
        apply (Permutation_in _ Hpfull) in Hxb.
        assert (rJ (n_rng hull) < rI (n_rng x)) by (apply Hlater2; rewrite Erest; exact Hx).
        destruct Hxb as [<- |[<- |K]]; [lia|lia|exact K]. }
      eapply (IH t db3 (m :: r)); [| | | |exact Hch2| |exact T6| |exact E]; auto.
      + rewrite Erest in Hlen. cbn [length] in Hlen. lia.
      + eapply holds_perm; [|exact Hd3]. rewrite Permutation_app_comm. reflexivity.
      + intros h Hx. assert (Hxt : In h t) by (destruct t; [destruct Hx|right; exact Hx]).
        cbn [map app]. intros [K|K].
        * destruct Hm' as (_ & _ & _ & j & Hj & D). apply (bi_fresh _ _ _ _ _ _ Hi h j); [|lia|cbn; congruence].
          apply Hrest. rewrite Erest. right; auto.
        * apply (Hcop h); [rewrite Erest; right; auto|exact K].
      + cbn [map]. constructor. symmetry. apply without_take; auto. rewrite Hr1, (Permutation_map n_rng Hpr). reflexivity.
    - (* not merged with the next hull *)
      rewrite Ef in E. clear Ef. cbn [bind] in E. rewrite Er. clear Er.
      assert (Hsame : forall db4 ins2 base2, holds db4 base2 -> Permutation (base2 ++ ins2) r1 ->
         (forall x, In x ins2 -> nxt = Some x \/ prev = Some x) ->
         (db0 <- load (w_hdb W) db4 (ins2 ++ [hull]) ;;
          aggregate W self cvs rest db0 (map rkey rc2) (map n_id (ins2 ++ [hull]) ++ copied) ctr2) = Ok (db', ctr') ->
         exists b', holds db' b' /\ Permutation (map n_rng b') (r_agg k cvs (map n_rng rest) ch rc2)).
      { intros db4 ins2 base2 Hb2 Hpi Hins2 E4.
        assert (Hins_b : forall x, In x ins2 -> In x r1) by (intros x Hx; apply (Permutation_in _ Hpi), in_or_app; auto).
        assert (Hg : Forall good_item (ins2 ++ [hull])).
        { apply Forall_app. split; [|constructor; [eapply line_good; eauto|constructor]].
          apply Forall_forall. intros x Hx. eapply line_good; [exact St|exact Hi|]. auto. }
        destruct (holds_load (w_hdb W) _ _ (ins2 ++ [hull]) (st_hdb _ _ _ _ St) Hb2 Hg) as (db5 & E5 & Hd5).
        rewrite E5 in E4. cbn [bind] in E4.
        eapply (IH rest db5 b); [| | | |exact Hchn| |exact T6|exact Hch|exact E4]; auto.
        - lia.
        - eapply holds_perm; [|exact Hd5]. rewrite app_assoc, Hpi, Hp1, <- Permutation_cons_append. reflexivity.
        - eapply inv_weaken; [exact Hc02|exact Hi].
        - intros h Hx K. rewrite map_app in K. apply in_app_iff in K. destruct K as [K|K]; [|apply (Hcop h); auto].
          apply in_app_iff in K. cbn [map In] in K. specialize (Hlater2 h Hx).
          destruct K as [K|[K|[]]].
          + apply in_map_iff in K. destruct K as (x & Ex & Hx').
            assert (x = h) by (apply (inv_id_inj _ _ _ _ _ _ _ _ Hi); auto). subst x.
            destruct (Hins2 h Hx') as [Z1|Z1]; [destruct (Hnxt h Z1) as [_ Z2]; lia|].
            destruct (Hprev h Z1) as [Z3 Z2]. pose proof (line_hull W self own ctr b h Hi (Hin1 h Z3)) as (_ & Z4 & _). lia.
          + assert (hull = h) by (apply (inv_id_inj _ _ _ _ _ _ _ _ Hi); auto). subst h. lia. }
      destruct mprev as [m|]; [|cbn [option_map bind] in E |- *; eapply Hsame; eauto].
      destruct prev as [p|]; [|cbn [option_map bind] in E |- *; eapply Hsame; eauto].
      cbn [option_map].
      destruct (Hprev p eq_refl) as [Hq1 Hq2].
      assert (Hpbase : In p base).
      { apply (Permutation_in _ (Permutation_sym Hpb)) in Hq1. apply in_app_iff in Hq1. destruct Hq1 as [K|K]; auto.
        exfalso. specialize (Hins p K). destruct (Hnxt p Hins) as [_ K2].
        pose proof (line_hull W self own ctr b p Hi) as Z1. destruct Z1 as (_ & Z1 & _); [|lia].
        apply Hin1, (Permutation_in _ Hpb), in_or_app. auto. }
      destruct (in_take p base Hpbase) as [base2 Hpb2].
      assert (Hndb : NoDup (map n_id base)).
      { apply (Permutation_NoDup (Permutation_map n_id (Permutation_sym Hpb))) in Hnd1. rewrite map_app in Hnd1.
        apply nodup_app_inv in Hnd1. tauto. }
      assert (Hd4 : holds (remove db2 p) base2) by (eapply holds_take; eauto).
      destruct (Hmp m eq_refl) as (Hen & a & c & K & Hm). injection K as <- <-.
      assert (Hnrb : NoDup (map n_rng (base ++ ins))).
      { eapply Permutation_NoDup; [symmetry; apply Permutation_map, Hpb|]. eapply Permutation_NoDup; [exact Hr1|exact Hnr1]. }
      assert (Hnrb' : NoDup rbase).
      { eapply Permutation_NoDup; [exact Hrb|]. rewrite map_app in Hnrb. apply nodup_app_inv in Hnrb. tauto. }
      assert (Hr2 : Permutation (r_without (n_rng p) rbase) (map n_rng base2)).
      { apply without_take; auto. rewrite <- Hrb, (Permutation_map n_rng Hpb2). reflexivity. }
      assert (Hin2 : forall x, In x base2 -> In x r1).
      { intros x Hx. apply (Permutation_in _ Hpb), in_or_app. left. apply (Permutation_in _ (Permutation_sym Hpb2)). right; auto. }
      assert (Ev : validate_merge W self (remove db2 p) m = Ok (r_merge_valid (r_without (n_rng p) rbase) (n_rng m))).
      { apply (merge_valid_exact _ base2); auto; [apply Hm| |].
        - intros x Hx. eapply (Hnew p hull m ctr ctr1); eauto.
        - intros q. split; apply Permutation_in; [symmetry|]; exact Hr2. }
      rewrite Ev in E. cbn [bind] in E. destruct (r_merge_valid (r_without (n_rng p) rbase) (n_rng m)).
      + (* merged with the previous hull *)
        cbn [bind] in E.
        assert (Hpall : Permutation r1 (p :: base2 ++ ins)) by (rewrite <- Hpb, Hpb2; reflexivity).
        assert (Hins_b : forall x, In x ins -> In x r1) by (intros x Hx; apply (Permutation_in _ Hpb), in_or_app; auto).
        assert (Hg : Forall good_item (ins ++ [m])).
        { apply Forall_app. split; [|constructor; [apply (fresh_good_item W self own St), Hm|constructor]].
          apply Forall_forall. intros x Hx. eapply line_good; [exact St|exact Hi|]. auto. }
        destruct (holds_load (w_hdb W) _ _ (ins ++ [m]) (st_hdb _ _ _ _ St) Hd4 Hg) as (db5 & E5 & Hd5).
        rewrite E5 in E. cbn [bind] in E.
        assert (Hpfull : Permutation b (p :: hull :: base2 ++ ins)).
        { rewrite Hp1, Hpall. constructor. }
        assert (Hi3 : inv ctr2 (m :: base2 ++ ins)).
        { eapply inv_weaken; [exact Hc2|]. eapply inv_merge; eauto. }
        eapply (IH rest db5 (m :: base2 ++ ins)); [| |exact Hi3| |exact Hchn| |exact T6| |exact E].
        * lia.
        * eapply holds_perm; [|exact Hd5]. rewrite app_assoc, <- Permutation_cons_append. reflexivity.
        * intros x Hx. right. assert (Hxb : In x b) by auto. apply (Permutation_in _ Hpfull) in Hxb.
          specialize (Hlater x Hx). pose proof (line_hull W self own ctr b p Hi (Hin1 p Hq1)) as (_ & Z1 & _).
          destruct Hxb as [<- |[<- |K]]; [lia|lia|exact K].
        * intros h Hx K. rewrite map_app in K. apply in_app_iff in K. destruct K as [K|K]; [|apply (Hcop h); auto].
          apply in_app_iff in K. cbn [map In] in K. destruct K as [K|[K|[]]].
          -- apply in_map_iff in K. destruct K as (x & Ex & Hx'). specialize (Hins x Hx'). destruct (Hnxt x Hins) as [Z1 Z2].
             assert (x = h) by (apply (inv_id_inj _ _ _ _ _ _ _ _ Hi); auto). subst x.
             specialize (Hlater2 h Hx). lia.
          -- destruct Hm as (_ & _ & _ & j & Hj & D). apply (bi_fresh _ _ _ _ _ _ Hi h j); auto; [lia|cbn; congruence].
        * cbn [map]. constructor. symmetry. apply without_take; auto. rewrite Hr1, (Permutation_map n_rng Hpall). reflexivity.
      + cbn [bind] in E. eapply (Hsame (remove db2 p) (ins ++ [p]) base2); auto.
        * rewrite <- Hpb, Hpb2. rewrite app_assoc, <- Permutation_cons_append. reflexivity.
        * intros x Hx. apply in_app_iff in Hx. destruct Hx as [Hx|[<- |[]]]; auto.
  Qed.

  (** ** A whole run *)

  Lemma run_exact ord verts fuel ctr hs ctr' : (forall k l, Permutation (ord k l) l) -> (2 <= length pts)%nat ->
    splits_inside score rel -> Forall (fun k => 0 <= k < zlen pts) verts -> (2 * length pts - 3 < fuel)%nat ->
    (o_planar_self o = true -> Forall (boxes_nearer L (fun _ => pts) [c_id self]) (forced W self verts)) ->
    simplify W ord self verts fuel ctr = Ok (hs, ctr') ->
    exists R, r_result L pts o score rel cs (w_lnr W) verts R /\ Permutation (map n_rng hs) R.
  Proof.
    intros Hord H2 Hsplits Hverts Hfuel Hbx E. unfold simplify in E.
    destruct (decompose_total L (w_gen W) pts (c_id self) _ _ fuel ctr Hsplits Hfuel) as (hs0 & ctr0 & E0).
    destruct (decompose_sound L (w_gen W) pts (c_id self) _ _ fuel ctr hs0 ctr0 Hsplits H2 E0)
      as (Hch & Hhull & Hok & Hid & Ectr).
    assert (Htree : tree pts score rel (Rng 0 (zlen pts - 1)) (map n_rng hs0)).
    { eapply dp_tree; [exact H2|exact E0]. }
    unfold dp_decompose in E. rewrite E0 in E. cbn [bind] in E.
    assert (Hi0 : inv ctr0 hs0).
    { subst ctr0. apply inv_start; auto. rewrite Forall_forall in *. intros h Hh.
      eapply node_fresh; [apply Hhull, Hh|apply Hok, Hh]. }
    assert (Hgood : forall h, fresh h -> good_item h).
    { intros h Hh. apply (fresh_good_item W self own St h Hh). }
    assert (Hself : exists hs1 cvs ctr1 ch1, to_self_intersects L (w_gen W) (w_hdb W) (w_pop W) (w_lnr W) hs0 pts o verts ctr0 = Ok (hs1, cvs, ctr1) /\
      inv ctr1 hs1 /\ Permutation (map n_rng hs1) ch1 /\ r_self L pts o (w_lnr W) verts (map n_rng hs0) ch1 cvs).
    { unfold to_self_intersects, r_self. destruct (o_planar_self o) eqn:Epl; cbn [negb].
      2: { exists hs0, [], ctr0, (map n_rng hs0). split; [reflexivity|]. auto. }
      destruct (holds_load (w_hdb W) new_hdb_default [] hs0 (st_hdb _ _ _ _ St) holds_new) as (db & Edb & Hdb).
      { apply Forall_forall. intros h Hh. eapply line_good; eauto. }
      cbn [app] in Hdb. rewrite Edb. cbn [bind].
      set (inters := self_intersection L (lo_sort (w_lnr W)) (lo_segx (w_lnr W)) (lo_near (w_lnr W) pts) true (o_non_planar_self o) pts).
      destruct (add_const_spec pts verts (flat_map snd inters) inters Hverts) as (vset & ex & Ea & A1 & A2 & A3).
      rewrite Ea. cbn [bind].
      assert (Hg' : forall i h, In i [c_id self] -> fresh_hull L pts i h -> good_item h).
      { intros i h [<- |[]] K. apply Hgood, K. }
      destruct (split_at_self_spec L (fun _ => pts) [c_id self] (Src (w_gen W) own) (st_gen _ _ _ _ St) (w_hdb W) (st_hdb _ _ _ _ St)
                  (w_pop W) (st_pop _ _ _ _ St) Hg' (inters ++ ex) db ctr0 hs0 Hdb Hi0) as (db' & ctr1 & b' & B1 & B2 & B3 & B4 & B5 & B6).
      cbn [s_gen] in B1. rewrite B1. cbn [bind].
      assert (Hbx' : Forall (boxes_nearer L (fun _ => pts) [c_id self]) (inters ++ ex)).
      { specialize (Hbx eq_refl). rewrite Forall_forall in *. intros c Hc. apply Hbx. unfold forced, reported.
        fold inters. apply in_app_iff in Hc. apply in_or_app. destruct Hc as [Hc|Hc]; [left; auto|right].
        destruct (A3 c Hc) as (j & p & -> & Hj & Hz). apply in_map_iff. exists j. split; auto.
        f_equal. unfold znth in Hz. destruct (j <? 0); [discriminate|]. apply nth_error_nth. exact Hz. }
      destruct (cuts_exact (inters ++ ex) db ctr0 hs0 (map n_rng hs0) db' ctr1 Hdb Hi0 (Permutation_refl _) Hbx' B1)
        as (b1 & D1 & D2 & D3).
      destruct (holds_all _ _ D1) as (ns & En & Hp). rewrite En. cbn [bind].
      assert (Hpb : Permutation b1 (node_sort ns)) by (rewrite <- Hp; apply node_sort_perm).
      exists (node_sort ns), (zset vset), ctr1, (r_cuts L pts (inters ++ ex) (map n_rng hs0)). split; [reflexivity|].
      split; [eapply inv_perm; eauto|]. split; [rewrite <- (Permutation_map n_rng Hpb); exact D3|].
      exists vset, (inters ++ ex). auto. }
    destruct Hself as (hs1 & cvs & ctr1 & ch1 & E1 & Hi1 & Hch1 & Hr1). rewrite E1 in E. cbn [bind] in E.
    assert (Hg1 : Forall good_item hs1).
    { apply Forall_forall. intros h Hh. eapply line_good; [exact St|exact Hi1|exact Hh]. }
    destruct (holds_load (w_hdb W) new_hdb_default [] hs1 (st_hdb _ _ _ _ St) holds_new Hg1) as (db1 & Ed1 & Hdb1).
    rewrite Ed1 in E. cbn [bind app] in *.
    destruct (split_loop W (fun _ => self) ord fuel 0 (fun _ => true) hs1 db1 ctr1) as [[db2 ctr2]| |] eqn:E2; try discriminate.
    destruct (rounds_exact ord Hord fuel 0 (fun _ => true) hs1 db1 ctr1 hs1 ch1 ch1 db2 ctr2) as (b2 & ch2 & Hdb2 & Hi2 & Hch2 & Hrr); auto.
    { intros x Hx; exact Hx. }
    { intros r. split; apply Permutation_in; [|symmetry]; exact Hch1. }
    cbn [bind] in E. destruct (holds_all _ _ Hdb2) as (objs & Eob & Hpo). rewrite Eob in E. cbn [bind] in E.
    assert (Hps : Permutation b2 (node_sort objs)) by (rewrite <- Hpo; apply node_sort_perm).
    assert (Hso : chain 0 (zlen pts - 1) (map n_rng (node_sort objs))).
    { apply node_sort_chain. eapply tiling_perm; [apply Permutation_map; symmetry; exact Hpo|]. eapply line_tiles; exact Hi2. }
    destruct (aggregate W self cvs (node_sort objs) db2 [] [] ctr2) as [[db3 ctr3]| |] eqn:E3; try discriminate.
    destruct (agg_exact cvs (length (node_sort objs)) (node_sort objs) db2 b2 ch2 [] [] ctr2 0 db3 ctr3) as (b3 & Hdb3 & Hp3); auto.
    { intros x Hx. eapply Permutation_in; [symmetry; exact Hps|exact Hx]. }
    cbn [bind] in E. destruct (holds_all _ _ Hdb3) as (hs3 & Eh & Hph). rewrite Eh in E. cbn [bind] in E. injection E as <- <-.
    exists (r_agg (length (node_sort objs)) cvs (map n_rng (node_sort objs)) ch2 []). split.
    - exists (map n_rng hs0), ch1, cvs, ch2, (map n_rng (node_sort objs)). split; [exact Htree|]. split; [exact Hr1|]. split; [exact Hrr|].
      split; [rewrite <- (Permutation_map n_rng Hps); symmetry; exact Hch2|]. split; [exact Hso|]. rewrite map_length. reflexivity.
    - rewrite (Permutation_map n_rng Hph). exact Hp3.
  Qed.
End Twin.

(** The vertices kept depend on the ranges only. *)
Lemma simple_set_rng hs hs' : Permutation (map n_rng hs) (map n_rng hs') -> simple_set hs = simple_set hs'.
Proof.
  intros Hp. unfold simple_set. destruct (point_set_spec hs) as [A B], (point_set_spec hs') as [A' B'].
  apply increasing_ext; auto. intros x. rewrite B, B'.
  split; intros (h & Hh & K).
  - apply (in_map n_rng), (Permutation_in _ Hp), in_map_iff in Hh. destruct Hh as (h' & E & Hh'). exists h'. rewrite E. auto.
  - apply (in_map n_rng), (Permutation_in _ (Permutation_sym Hp)), in_map_iff in Hh. destruct Hh as (h' & E & Hh'). exists h'. rewrite E. auto.
Qed.

Lemma r_result_unique L pts o score rel cs N verts R R' :
  r_result L pts o score rel cs N verts R -> r_result L pts o score rel cs N verts R' -> R = R'.
Proof.
  intros (a0 & a1 & ac & a2 & asd & A0 & A1 & A2 & A3 & A4 & ->) (b0 & b1 & bc & b2 & bsd & B0 & B1 & B2 & B3 & B4 & ->).
  assert (a0 = b0) as <- by (eapply tree_unique; eauto).
  assert (a1 = b1 /\ ac = bc) as [<- <-].
  { unfold r_self in A1, B1. destruct (o_planar_self o).
    - destruct A1 as (v & i & Ea & -> & ->), B1 as (v' & i' & Eb & -> & ->). rewrite Ea in Eb. injection Eb as <- <-. auto.
    - destruct A1 as [-> ->], B1 as [-> ->]. auto. }
  assert (a2 = b2) as <- by (eapply r_rounds_unique; eauto).
  assert (asd = bsd) as <- by (eapply chain_perm_eq; eauto; rewrite <- A3; exact B3).
  reflexivity.
Qed.
