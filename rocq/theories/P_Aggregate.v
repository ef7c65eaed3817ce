(** The merging of simple segments after the split loop. *)
From Verif Require Import M_Base M_Float M_Rng M_Geom M_Offset M_Node M_Decompose M_Split M_Hdb M_Knn M_Lnr M_Homotopy M_Relate
  M_Deform M_Constrain M_ConstDP Spec Spec_Hdb
  P_Base P_Float P_Decompose P_Split P_Node P_Hdb P_HdbIns P_HdbLoad P_HdbHist P_Knn P_Homotopy P_Relate P_Db P_Bag
  P_Constrain P_Deform P_ConstDP.
Open Scope Z_scope.

Lemma holds_take t b x r : holds t b -> NoDup (map n_id b) -> Permutation b (x :: r) -> holds (remove t x) r.
Proof.
  intros Ht Hn Hp. apply (holds_remove_all [x] r t); cbn [app].
  - eapply Permutation_NoDup; [apply Permutation_map, Hp|exact Hn].
  - eapply holds_perm; [exact Hp|exact Ht].
Qed.

Lemma in_take {A} (x : A) b : In x b -> exists r, Permutation b (x :: r).
Proof.
  intros H. destruct (in_split _ _ H) as (u & v & ->). exists (u ++ v). symmetry. apply Permutation_middle.
Qed.

Section Aggregate.
  Variable W : world.
  Variable self : cdp.
  Variable own : Z -> Prop.
  Let i := c_id self.
  Let pts := c_pts self.
  Let n1 := zlen pts - 1.
  Hypothesis St : setting W (fun _ => self) [c_id self] own.
  Notation lines := (lines_of (fun _ => self)).
  Notation inv := (bag_inv (w_geom W) lines [c_id self] (Src (w_gen W) own)).

  Lemma line_inst ctr b h : inv ctr b -> In h b -> n_inst h = c_id self.
  Proof. intros H Hh. destruct (inv_member _ _ _ _ _ _ _ H Hh) as [K|[]]; auto. Qed.
  Lemma of_line ctr b : inv ctr b -> of_inst (c_id self) b = b.
  Proof. intros H. apply of_inst_same. apply Forall_forall. intros h Hh. eapply line_inst; eauto. Qed.
  Lemma line_tiles ctr b : inv ctr b -> tiling 0 (zlen (c_pts self) - 1) (map n_rng b).
  Proof.
    intros H. pose proof (bi_tiles _ _ _ _ _ _ H (c_id self) (or_introl eq_refl)) as K.
    rewrite (of_line ctr b H) in K. exact K.
  Qed.
  Lemma line_start ctr b x y : inv ctr b -> In x b -> In y b -> rI (n_rng x) = rI (n_rng y) -> x = y.
  Proof.
    intros H Hx Hy. apply (inv_start_inj _ _ _ _ _ _ _ _ H Hx Hy).
    rewrite (line_inst _ _ _ H Hx), (line_inst _ _ _ H Hy). reflexivity.
  Qed.
  Lemma line_rng ctr b x y : inv ctr b -> In x b -> In y b -> n_rng x = n_rng y -> x = y.
  Proof. intros H Hx Hy E. apply (line_start ctr b); auto. rewrite E; auto. Qed.
  Lemma line_hull ctr b h : inv ctr b -> In h b -> hull_of (c_pts self) h.
  Proof. intros H Hh. apply (inv_hull _ _ _ _ _ _ _ H Hh). Qed.
  Lemma line_good ctr b h : inv ctr b -> In h b -> good_item h.
  Proof. apply (inv_goods W (fun _ => self) [c_id self] own St). Qed.
  Lemma fresh_good_item h : fresh_hull (w_geom W) (c_pts self) (c_id self) h -> good_item h.
  Proof. intros H. apply (st_good _ _ _ _ St (c_id self) h); [left; reflexivity|exact H]. Qed.

  (** One attempt to merge. *)
  Definition score_ok (h : node) : Prop :=
    dp_relation (o_threshold (c_opts self)) (c_sq self) (snd (dp_score (c_score self) (c_sq self) (n_coords h))) = true.
  Definition merge_of (a c m : node) (ctr ctr' : nat) : Prop :=
    n_rng m = Rng (rI (n_rng a)) (rJ (n_rng c)) /\ fresh_hull (w_geom W) (c_pts self) (c_id self) m /\
    score_ok m /\ exists k, (ctr <= k < ctr')%nat /\ n_id m = w_gen W k.

  Lemma try_merge_spec enabled ab cache ctr :
    (forall a c, ab = Some (a, c) -> hull_of (c_pts self) a /\ hull_of (c_pts self) c /\ n_inst a = c_id self /\
       rJ (n_rng a) = rI (n_rng c)) ->
    exists m cache' ctr', try_merge W self enabled ab cache ctr = Ok (m, cache', ctr') /\ (ctr <= ctr')%nat /\
      forall h, m = Some h -> enabled = true /\ exists a c, ab = Some (a, c) /\ merge_of a c h ctr ctr'.
  Proof.
    intros H. unfold try_merge. destruct enabled; [|exists None, cache, ctr; split; [reflexivity|]; split; [lia|discriminate]].
    destruct ab as [[a c]|]; [|exists None, cache, ctr; split; [reflexivity|]; split; [lia|discriminate]].
    destruct (existsb _ cache); [exists None, cache, ctr; split; [reflexivity|]; split; [lia|discriminate]|].
    destruct (H a c eq_refl) as (Ha & Hc & Ei & Ej).
    assert (Hcon : rcontig (n_rng a) (n_rng c) = true).
    { apply rcontig_spec; [destruct Ha as (_ & K & _); lia|destruct Hc as (_ & K & _); lia|auto]. }
    destruct (fragments_spec (w_geom W) (w_gen W) (c_pts self) (dp_score (c_score self) (c_sq self)) a c
                (dp_relation (o_threshold (c_opts self)) (c_sq self)) ctr Ha Hc Hcon) as (o & -> & Ho).
    cbn [bind]. do 3 eexists. split; [reflexivity|].
    assert (Hr : merge_range (n_rng a) (n_rng c) = Rng (rI (n_rng a)) (rJ (n_rng c))).
    { destruct Ha as (_ & K & _), Hc as (_ & K' & _). rewrite merge_range_spec by lia. f_equal; lia. }
    split; [destruct (dp_relation _ _ _); lia|]. intros h ->. split; [reflexivity|]. exists a, c. split; [reflexivity|].
    destruct Ho as (Hrel & Er & Hf & Hid). rewrite Hrel. rewrite Ei in Hf.
    split; [rewrite Er; exact Hr|]. split; [exact Hf|]. split; [|exists ctr; split; [lia|exact Hid]].
    unfold score_ok. destruct Hf as ((_ & _ & _ & Hco) & _). rewrite Hco, Er. exact Hrel.
  Qed.

  (** What a successful validation of a merged hull means. *)
  Definition passed0 (m : node) (b : list node) : Prop :=
    score_ok m /\ valid_in W self m /\
    (o_avoid_self (c_opts self) = true -> forall y, In y b -> nearby (w_geom W) epsilon_dist m y = true ->
       pair_candidates (w_geom W) (o_non_planar_displacement (c_opts self)) false m y = Ok (None, None)).

  Lemma validate_merge_spec0 t b ctr m : holds t b -> Forall hullish b -> inv ctr b \/ True ->
    fresh_hull (w_geom W) (c_pts self) (c_id self) m -> score_ok m ->
    exists r, validate_merge W self t m = Ok r /\ (r = true -> passed0 m b).
  Proof.
    intros Ht Hl _ Hm Hs. unfold validate_merge.
    destruct (st_ctx _ _ _ _ St (c_id self) (or_introl eq_refl)) as [cb Hcb].
    assert (Hh : hull_of (c_pts self) m) by apply Hm.
    destruct (validate_ok (w_geom W) (w_pop W) (c_opts self) _ cb m (st_pop _ _ _ _ St) Hcb (hull_clen _ _ Hh)) as [v Ev].
    destruct (o_avoid_self (c_opts self)) eqn:Ea.
    - unfold by_self, select_line.
      destruct (holds_neighbours (w_geom W) t b m epsilon_dist Ht (fresh_good_item m Hm)) as (r & -> & Hp).
      cbn [bind].
      assert (Hf : Forall hullish r).
      { apply Forall_forall. intros x Hx. apply (Permutation_in _ Hp) in Hx. apply filter_In in Hx.
        rewrite Forall_forall in Hl. apply Hl, Hx. }
      assert (Hmh : hullish m) by (eapply fresh_hullish, Hm).
      destruct (select_loop_spec (w_geom W) (o_non_planar_displacement (c_opts self)) false m (st_touch _ _ _ _ St) Hmh r [] Hf)
        as (sel & -> & _ & R2 & _).
      cbn [bind by_selection]. destruct (negb (zlen sel =? 0) || _) eqn:Eb.
      + exists false. split; [reflexivity|intros K; discriminate K].
      + rewrite Ev. exists v. split; [reflexivity|]. intros ->. split; [exact Hs|]. split; [exact Ev|].
        intros _ y Hy Hn. apply orb_false_iff in Eb. destruct Eb as [Eb _]. apply negb_false_iff, Z.eqb_eq in Eb.
        assert (sel = []) as -> by (destruct sel; [auto|unfold zlen in Eb; cbn [length] in Eb; lia]).
        assert (Hyr : In y r) by (apply (Permutation_in _ (Permutation_sym Hp)), filter_In; auto).
        rewrite Forall_forall in Hl.
        destruct (pair_spec (w_geom W) (o_non_planar_displacement (c_opts self)) false m y (st_touch _ _ _ _ St) Hmh (Hl y Hy))
          as (sa & sb & E & _ & _).
        destruct sa as [v|].
        { exfalso. destruct (R2 v) as (w & [] & _). right. exists y. split; auto. do 2 eexists. split; [exact E|auto]. }
        destruct sb as [v|]; [|exact E].
        exfalso. destruct (R2 v) as (w & [] & _). right. exists y. split; auto. do 2 eexists. split; [exact E|auto].
    - cbn [bind]. change (zlen (@nil node) =? 0) with true. cbn [negb orb]. rewrite Ev. exists v. split; [reflexivity|].
      intros ->. split; [exact Hs|]. split; [exact Ev|]. intros K; congruence.
  Qed.

  Definition passed (m : node) (b : list node) : Prop :=
    passed0 m b /\ exists t, validate_merge W self t m = Ok true.
  Lemma validate_merge_spec t b ctr m : holds t b -> Forall hullish b -> inv ctr b \/ True ->
    fresh_hull (w_geom W) (c_pts self) (c_id self) m -> score_ok m ->
    exists r, validate_merge W self t m = Ok r /\ (r = true -> passed m b).
  Proof.
    intros A B C D E. destruct (validate_merge_spec0 t b ctr m A B C D E) as (r & Er & H).
    exists r. split; [exact Er|]. intros ->. split; [apply H; reflexivity|exists t; exact Er].
  Qed.

  (** Hulls of one line that do not share an end. *)
  Definition apart (x y : node) : Prop := rJ (n_rng x) <> rI (n_rng y) /\ rJ (n_rng y) <> rI (n_rng x).
  (** An examined hull has been checked against every hull apart from it that is not newer. *)
  Definition kept (age : Z -> nat) (b : list node) : Prop :=
    forall x y, In x b -> In y b -> x <> y -> big x -> apart x y ->
      nearby (w_geom W) epsilon_dist x y = true ->
      pair_candidates (w_geom W) (o_non_planar_displacement (c_opts self)) false x y = Ok (None, None) \/
      (age (n_id x) < age (n_id y))%nat.
  Definition pairs_kept (b : list node) : Prop := exists age, kept age b.

  (** What one step may do to the bag. *)
  Record step_to (cvs : list Z) (ctr ctr' : nat) (b b' : list node) : Prop := {
    s_inv : inv ctr' b';
    s_ctr : (ctr <= ctr')%nat;
    s_cut : forall k, In k cvs -> cut_at b (c_id self) k -> cut_at b' (c_id self) k;
    s_new : forall h, In h b' -> In h b \/ (score_ok h /\ valid_in W self h /\ exists t, validate_merge W self t h = Ok true);
    s_pairs : o_avoid_self (c_opts self) = true -> pairs_kept b -> pairs_kept b';
    s_len : (length b' <= length b)%nat;
    s_old : forall k, cut_at b' (c_id self) k -> cut_at b (c_id self) k;
    (* what goes is an end of a hull of one segment, and no such hull is new *)
    s_unit : forall h, In h b' -> rsize (n_rng h) = 1 -> In h b;
    s_drop : forall k, cut_at b (c_id self) k -> cut_at b' (c_id self) k \/
      exists h, In h b /\ rsize (n_rng h) = 1 /\ (rI (n_rng h) = k \/ rJ (n_rng h) = k)
  }.

  Lemma step_same cvs ctr ctr' b b' : inv ctr b -> (ctr <= ctr')%nat -> Permutation b b' -> step_to cvs ctr ctr' b b'.
  Proof.
    intros Hi Hc Hp. split; auto.
    - eapply inv_weaken; [exact Hc|]. eapply inv_perm; eauto.
    - intros k _ K. eapply cut_perm; eauto.
    - intros h Hh. left. eapply Permutation_in; [symmetry; exact Hp|exact Hh].
    - intros _ (age & H). exists age. intros x y Hx Hy. apply H; eapply Permutation_in; try (symmetry; exact Hp); auto.
    - rewrite (Permutation_length Hp). lia.
    - intros k K. eapply cut_perm; [symmetry; exact Hp|exact K].
    - intros h Hh _. eapply Permutation_in; [symmetry; exact Hp|exact Hh].
    - intros k K. left. eapply cut_perm; eauto.
  Qed.

  (** Merging two neighbours at an unconstrained vertex. *)
  Lemma step_merge cvs ctr ctr' b a c m r (seen : list node) :
    inv ctr b -> Permutation b (a :: c :: r) -> rsize (n_rng a) = 1 \/ rsize (n_rng c) = 1 ->
    rJ (n_rng a) = rI (n_rng c) -> ~ In (rI (n_rng c)) cvs ->
    merge_of a c m ctr ctr' -> (ctr <= ctr')%nat -> passed m seen ->
    (forall y, In y r -> In y seen \/ rI (n_rng y) = rJ (n_rng c) \/ rJ (n_rng y) = rI (n_rng a)) ->
    step_to cvs ctr ctr' b (m :: r).
  Proof.
    intros Hi Hp H1 Ej Hcv (Er & Hf & Hs & k & Hk & Hid) Hc Hpass Hseen.
    assert (Hi2 : inv ctr ([a; c] ++ r)) by (eapply inv_perm; [exact Hp|exact Hi]).
    assert (Ha : n_inst a = c_id self) by (eapply line_inst; [exact Hi2|left; auto]).
    assert (Hcc : n_inst c = c_id self) by (eapply line_inst; [exact Hi2|right; left; auto]).
    assert (Hinv : inv ctr' (m :: r)).
    { apply (inv_replace (w_geom W) lines [c_id self] (Src (w_gen W) own) (st_gen _ _ _ _ St) ctr ctr' (c_id self) [a; c] [m] r); auto.
      + left; reflexivity.
      + intros rs K. cbn [map app] in *. rewrite Er. apply (tiling_merge _ _ _ _ _ K Ej).
      + cbn. constructor; [intros []|constructor].
      + intros h [<- |[]]. left. exists k. auto. }
    split.
    - exact Hinv.
    - exact Hc.
    - intros q Hq (h & Hh & Ei & Hend). apply (Permutation_in _ Hp) in Hh. destruct Hh as [<- |[<- |Hh]].
      + destruct Hend as [E|E]; [exists m; split; [left; auto|]; split; [apply Hf|]; left; rewrite Er; exact E|].
        exfalso. apply Hcv. rewrite <- Ej, E. exact Hq.
      + destruct Hend as [E|E]; [|exists m; split; [left; auto|]; split; [apply Hf|]; right; rewrite Er; exact E].
        exfalso. apply Hcv. rewrite E. exact Hq.
      + exists h. split; [right; auto|]. auto.
    - intros h [<- |Hh]; [right; split; [exact Hs|]; destruct Hpass as [(_ & K1 & _) K2]; split; auto|].
      left. apply (Permutation_in _ (Permutation_sym Hp)). right; right; auto.
    - intros Hav (age & Hk0).
      assert (Hm : forall z, In z r -> apart m z -> nearby (w_geom W) epsilon_dist m z = true ->
                pair_candidates (w_geom W) (o_non_planar_displacement (c_opts self)) false m z = Ok (None, None)).
      { intros z Hz [P1 P2] Hn. destruct Hpass as ((_ & _ & Hpass) & _). apply Hpass; auto.
        rewrite Er in P1, P2. cbn [rI rJ] in P1, P2. destruct (Hseen z Hz) as [K|[K|K]]; auto; exfalso; [apply P1|apply P2]; auto. }
      destruct (newer age r [m]) as (age' & Hold & Hnew).
      { intros x y Hx [<- |[]] E. pose proof (bi_nodup _ _ _ _ _ _ Hinv) as Hn. cbn [map] in Hn. inversion Hn as [|? ? N1 N2]; subst.
        apply N1. rewrite <- E. apply in_map, Hx. }
      exists age'. intros x y Hx Hy Hne Bx Hap Nxy.
      destruct Hx as [<- |Hx], Hy as [<- |Hy].
      + contradiction.
      + left. apply Hm; auto.
      + right. apply Hnew; [exact Hx|left; auto].
      + rewrite (Hold x Hx), (Hold y Hy).
        apply (Hk0 x y); auto; apply (Permutation_in _ (Permutation_sym Hp)); right; right; auto.
    - rewrite (Permutation_length Hp). cbn [length]. lia.
    - intros q (h & [<- |Hh] & Ei & Hend).
      + rewrite Er in Hend. cbn [rI rJ] in Hend. destruct Hend as [E|E].
        * exists a. split; [apply (Permutation_in _ (Permutation_sym Hp)); left; auto|]. auto.
        * exists c. split; [apply (Permutation_in _ (Permutation_sym Hp)); right; left; auto|]. auto.
      + exists h. split; [apply (Permutation_in _ (Permutation_sym Hp)); right; right; auto|]. auto.
    - intros h [<- |Hh] H1h; [exfalso|apply (Permutation_in _ (Permutation_sym Hp)); right; right; exact Hh].
      pose proof (line_hull ctr _ a Hi2 (or_introl eq_refl)) as (_ & K1 & _).
      pose proof (line_hull ctr _ c Hi2 (or_intror (or_introl eq_refl))) as (_ & K2 & _).
      rewrite Er in H1h. unfold rsize in H1h. cbn [rI rJ] in H1h. lia.
    - intros q (h & Hh & Ei & Hend). apply (Permutation_in _ Hp) in Hh.
      assert (Hin : forall x, In x (a :: c :: r) -> In x b) by (intros x Hx; apply (Permutation_in _ (Permutation_sym Hp)), Hx).
      destruct Hh as [<- |[<- |Hh]].
      + destruct Hend as [E|E]; [left; exists m; split; [left; auto|]; split; [apply Hf|]; left; rewrite Er; exact E|].
        right. destruct H1 as [H1|H1]; [exists a|exists c]; (split; [apply Hin; cbn; auto|]); (split; [exact H1|]); lia.
      + destruct Hend as [E|E]; [|left; exists m; split; [left; auto|]; split; [apply Hf|]; right; rewrite Er; exact E].
        right. destruct H1 as [H1|H1]; [exists a|exists c]; (split; [apply Hin; cbn; auto|]); (split; [exact H1|]); lia.
      + left. exists h. split; [right; auto|]. auto.
  Qed.

  Lemma step_trans cvs c1 c2 c3 b1 b2 b3 : step_to cvs c1 c2 b1 b2 -> step_to cvs c2 c3 b2 b3 -> step_to cvs c1 c3 b1 b3.
  Proof.
    intros [A1 A2 A3 A4 A5 A6 A7 A8 A9] [B1 B2 B3 B4 B5 B6 B7 B8 B9]. split; auto; try lia.
    - intros h Hh. destruct (B4 h Hh) as [K|K]; auto.
    - intros k Hk. destruct (A9 k Hk) as [K|K]; auto. destruct (B9 k K) as [K'|(h & K1 & K2 & K3)]; auto.
      right. exists h. auto.
  Qed.

  (** The neighbours found for a hull taken out of the bag. *)
  Lemma neighbours_bag ctr b hull r ns :
    inv ctr b -> Permutation b (hull :: r) -> Permutation ns (filter (nearby (w_geom W) epsilon_dist hull) r) ->
    let '(p, n) := neighbours hull ns in
    (forall h, p = Some h -> In h r /\ rJ (n_rng h) = rI (n_rng hull)) /\
    (forall h, n = Some h -> In h r /\ rI (n_rng h) = rJ (n_rng hull)).
  Proof.
    intros Hi Hp Hns.
    pose proof (neighbours_spec 0 (zlen (c_pts self) - 1) (node_sort b) hull ns) as K.
    destruct (neighbours hull ns) as [p n].
    assert (Hr : forall h, In h ns -> In h r).
    { intros h Hh. apply (Permutation_in _ Hns) in Hh. apply filter_In in Hh. tauto. }
    destruct K as [K1 K2].
    - apply node_sort_chain. eapply line_tiles; eauto.
    - intros x y Hx Hy. apply (inv_id_inj _ _ _ _ _ _ _ _ Hi); apply (Permutation_in _ (Permutation_sym (node_sort_perm b))); auto.
    - apply (Permutation_in _ (node_sort_perm b)), (Permutation_in _ (Permutation_sym Hp)). left; auto.
    - intros h Hh. apply (Permutation_in _ (node_sort_perm b)), (Permutation_in _ (Permutation_sym Hp)).
      right; auto.
    - split; intros h Hh; [apply K1 in Hh|apply K2 in Hh]; destruct Hh; auto.
  Qed.

  Lemma chain_above rs lo hi r : chain lo hi rs -> In r rs -> lo <= rI r /\ rI r < rJ r /\ rJ r <= hi.
  Proof. apply chain_in. Qed.

  Lemma aggregate_spec cvs k : forall objects db b cache copied ctr lo, (length objects <= k)%nat ->
    holds db b -> inv ctr b -> incl objects b -> chain lo (zlen (c_pts self) - 1) (map n_rng objects) ->
    (forall h, In h (tl objects) -> ~ In (n_id h) copied) ->
    exists db' ctr' b', aggregate W self cvs objects db cache copied ctr = Ok (db', ctr') /\
      holds db' b' /\ step_to cvs ctr ctr' b b'.
  Proof.
    induction k as [|k IH]; intros objects db b cache copied ctr lo Hlen Hdb Hi Hsub Hch Hcop.
    { destruct objects as [|x t]; [|cbn [length] in Hlen; lia]. exists db, ctr, b. split; [reflexivity|]. split; [exact Hdb|].
      apply step_same; auto. }
    destruct objects as [|hull rest].
    { exists db, ctr, b. split; [reflexivity|]. split; [exact Hdb|]. apply step_same; auto. }
    cbn [length] in Hlen. cbn [map chain] in Hch. destruct Hch as (Hlo & Hlt & Hch). cbn [tl] in Hcop.
    assert (Hh : In hull b) by (apply Hsub; left; auto).
    assert (Hrest : incl rest b) by (intros x Hx; apply Hsub; right; auto).
    assert (Hnext : forall copied', (forall h, In h (tl rest) -> ~ In (n_id h) copied') ->
      forall db0 cache0 ctr0 b0, holds db0 b0 -> step_to cvs ctr ctr0 b b0 -> incl rest b0 ->
      exists db' ctr' b', aggregate W self cvs rest db0 cache0 copied' ctr0 = Ok (db', ctr') /\
        holds db' b' /\ step_to cvs ctr ctr' b b').
    { intros copied' Hc' db0 cache0 ctr0 b0 Hd0 Hs0 Hr0.
      destruct (IH rest db0 b0 cache0 copied' ctr0 (rJ (n_rng hull))) as (db' & ctr' & b' & E & A & B); auto; [lia|apply Hs0|].
      exists db', ctr', b'. split; [exact E|]. split; [exact A|]. eapply step_trans; eauto. }
    assert (Htl : forall h, In h (tl rest) -> In h rest) by (intros h K; destruct rest; [destruct K|right; exact K]).
    cbn [aggregate].
    destruct (negb (rsize (n_rng hull) =? 1)) eqn:E1.
    { apply (Hnext copied) with (b0 := b); auto. apply step_same; auto. }
    destruct (zmem (rI (n_rng hull)) cvs && zmem (rJ (n_rng hull)) cvs).
    { apply (Hnext copied) with (b0 := b); auto. apply step_same; auto. }
    apply negb_false_iff, Z.eqb_eq in E1. cbv zeta.
    destruct (in_take hull b Hh) as [r1 Hp1].
    pose proof (bi_nodup _ _ _ _ _ _ Hi) as Hnd.
    assert (Hd1 : holds (remove db hull) r1) by (eapply holds_take; eauto).
    assert (Hnd1 : NoDup (map n_id r1)).
    { apply (Permutation_NoDup (Permutation_map n_id Hp1)) in Hnd. inversion Hnd; auto. }
    destruct (holds_neighbours (w_geom W) _ r1 hull epsilon_dist Hd1 (line_good ctr b hull Hi Hh)) as (ns & -> & Hns).
    cbn [bind].
    pose proof (neighbours_bag ctr b hull r1 ns Hi Hp1 Hns) as Hnb.
    destruct (neighbours hull ns) as [prev nxt]. destruct Hnb as [Hprev Hnxt].
    assert (Hin1 : forall h, In h r1 -> In h b) by (intros h K; apply (Permutation_in _ (Permutation_sym Hp1)); right; auto).
    destruct (try_merge_spec (negb (zmem (rI (n_rng hull)) cvs))
        (match prev with Some p => Some (p, hull) | None => None end) cache ctr) as (mprev & cache1 & ctr1 & -> & Hc1 & Hmp).
    { intros a c E. destruct prev as [p|]; [|discriminate]. injection E as <- <-. destruct (Hprev p eq_refl) as [Q1 Q2].
      split; [eapply line_hull; eauto|]. split; [eapply line_hull; eauto|]. split; [eapply line_inst; eauto|exact Q2]. }
    cbn [bind].
    destruct (try_merge_spec (negb (zmem (rJ (n_rng hull)) cvs))
        (match nxt with Some n => Some (hull, n) | None => None end) cache1 ctr1) as (mnext & cache2 & ctr2 & -> & Hc2 & Hmn).
    { intros a c E. destruct nxt as [p|]; [|discriminate]. injection E as <- <-. destruct (Hnxt p eq_refl) as [Q1 Q2].
      split; [eapply line_hull; eauto|]. split; [eapply line_hull; eauto|]. split; [eapply line_inst; eauto|auto]. }
    cbn [bind].
    assert (Hc02 : (ctr <= ctr2)%nat) by lia.
    assert (Hfull : forall x, In x b -> hullish x).
    { pose proof (inv_hullish W (fun _ => self) [c_id self] own _ _ Hi) as K. rewrite Forall_forall in K. exact K. }
    (* later hulls of the work list *)
    assert (Hlater : forall h, In h rest -> rJ (n_rng hull) <= rI (n_rng h)).
    { intros h Hx. apply (chain_above _ _ _ (n_rng h) Hch). apply in_map, Hx. }
    assert (Hlater2 : forall h, In h (tl rest) -> rJ (n_rng hull) < rI (n_rng h)).
    { intros h Hx. destruct rest as [|o t]; [destruct Hx|]. cbn [tl] in Hx. cbn [map chain] in Hch.
      destruct Hch as (_ & K & Hch'). pose proof (chain_above _ _ _ (n_rng h) Hch' (in_map n_rng _ _ Hx)). lia. }
    assert (Hhulllt : rI (n_rng hull) < rJ (n_rng hull)) by lia.
    (* the attempt to merge with the next hull: what the bag and the index hold after it *)
    assert (Hphase1 : exists db2 ins merged skip,
      match mnext, nxt with
      | Some m, Some n =>
          ok <- validate_merge W self (remove (remove db hull) n) m ;;
          (if ok : bool then
             match rest with
             | [] => Panic
             | o :: _ => Ok (remove (remove db hull) n, [m], true, (n_id o =? n_id n) && negb (zmem (n_id n) copied))
             end
           else Ok (remove (remove db hull) n, [n], false, false))
      | _, _ => Ok (remove db hull, [], false, false)
      end = Ok (db2, ins, merged, skip) /\
      exists base, holds db2 base /\
        ((merged = true /\ skip = true /\ exists m o t r, nxt = Some o /\ rest = o :: t /\ ins = [m] /\ base = r /\
           Permutation r1 (o :: r) /\ merge_of hull o m ctr1 ctr2 /\ passed m r /\ ~ In (rI (n_rng o)) cvs) \/
         (merged = false /\ skip = false /\ Permutation (base ++ ins) r1 /\
           (forall x, In x ins -> nxt = Some x)))).
    { destruct mnext as [m|]; [|exists (remove db hull), [], false, false; split; [reflexivity|]; exists r1; split; auto;
        right; split; auto; split; auto; rewrite app_nil_r; split; [reflexivity|intros x []]].
      destruct nxt as [n|]; [|exists (remove db hull), [], false, false; split; [reflexivity|]; exists r1; split; auto;
        right; split; auto; split; auto; rewrite app_nil_r; split; [reflexivity|intros x []]].
      destruct (Hnxt n eq_refl) as [Hn1 Hn2]. destruct (in_take n r1 Hn1) as [r2 Hp2].
      assert (Hd2 : holds (remove (remove db hull) n) r2) by (eapply holds_take; eauto).
      destruct (Hmn m eq_refl) as (Hen & a & c & E & Hm). injection E as <- <-.
      assert (Hl2 : Forall hullish r2).
      { apply Forall_forall. intros x Hx. apply Hfull, Hin1, (Permutation_in _ (Permutation_sym Hp2)). right; auto. }
      destruct (validate_merge_spec _ r2 ctr m Hd2 Hl2 (or_intror I)) as (ok & -> & Hpass); [apply Hm|apply Hm|].
      cbn [bind]. destruct ok.
      - destruct rest as [|o t] eqn:Erest.
        { exfalso. cbn [map chain] in Hch. pose proof (line_hull ctr b n Hi (Hin1 n Hn1)) as (_ & K1 & K2 & _). lia. }
        assert (Eo : o = n).
        { apply (line_start ctr b); auto; [apply Hrest; left; auto|]. cbn [map chain] in Hch. lia. }
        subst o. exists (remove (remove db hull) n), [m], true. eexists. split; [reflexivity|]. exists r2. split; [exact Hd2|]. left.
        rewrite Z.eqb_refl. split; [reflexivity|]. split.
        { cbn [andb]. destruct (zmem (n_id n) copied) eqn:Ez; auto. exfalso. apply (Hcop n); [left; auto|].
          apply zmem_in. exact Ez. }
        exists m, n, t, r2. repeat split; auto; try apply Hm; try (apply Hpass; reflexivity).
        rewrite Hn2. intros K. apply negb_true_iff in Hen. apply zmem_in in K. congruence.
      - exists (remove (remove db hull) n), [n], false, false. split; [reflexivity|]. exists r2. split; [exact Hd2|]. right.
        split; [reflexivity|]. split; [reflexivity|]. split; [rewrite Hp2; symmetry; apply Permutation_cons_append|].
        intros x [<- |[]]. reflexivity. }
    destruct Hphase1 as (db2 & ins & merged & skip & -> & base & Hbase & Hcase). cbn [bind].
    destruct Hcase as [(-> & -> & m & o & t & r & En & Erest & -> & -> & Hpr & Hm & Hpass & Hcv)|(-> & -> & Hpb & Hins)].
    - (* merged with the next hull *)
      cbn [bind].
      assert (Hgm : Forall good_item [m]) by (constructor; [apply fresh_good_item, Hm|constructor]).
      destruct (holds_load (w_hdb W) _ _ [m] (st_hdb _ _ _ _ St) Hbase Hgm) as (db3 & -> & Hd3). cbn [bind].
      rewrite Erest.
      assert (Hpfull : Permutation b (hull :: o :: r)) by (rewrite Hp1; constructor; exact Hpr).
      destruct (Hnxt o En) as [Ho1 Ho2].
      assert (Hm' : merge_of hull o m ctr ctr2).
      { destruct Hm as (A & B & C & j & Hj & D). repeat split; auto; try apply B. exists j. split; [lia|exact D]. }
      assert (Hstep : step_to cvs ctr ctr2 b (m :: r)).
      { eapply step_merge; eauto. }
      assert (Hch2 : chain (rJ (n_rng o)) (zlen (c_pts self) - 1) (map n_rng t)).
      { rewrite Erest in Hch. cbn [map chain] in Hch. apply Hch. }
      assert (Htr : incl t (m :: r)).
      { intros x Hx. right. assert (Hxb : In x b) by (apply Hrest; rewrite Erest; right; auto).
        apply (Permutation_in _ Hpfull) in Hxb.
        assert (rJ (n_rng hull) < rI (n_rng x)) by (apply Hlater2; rewrite Erest; exact Hx).
        destruct Hxb as [<- |[<- |K]]; [lia|lia|exact K]. }
      destruct (IH t db3 (m :: r) cache2 (map n_id [m] ++ copied) ctr2 (rJ (n_rng o))) as (db' & ctr' & b' & E & A & B); auto.
      + rewrite Erest in Hlen. cbn [length] in Hlen. lia.
      + eapply holds_perm; [|exact Hd3]. rewrite Permutation_app_comm. reflexivity.
      + apply Hstep.
      + intros h Hx. assert (Hxt : In h t) by (destruct t; [destruct Hx|right; exact Hx]).
        cbn [map app]. intros [K|K].
        * destruct Hm' as (_ & _ & _ & j & Hj & D). apply (bi_fresh _ _ _ _ _ _ Hi h j); [|lia|cbn; congruence].
          apply Hrest. rewrite Erest. right; auto.
        * apply (Hcop h); [rewrite Erest; right; auto|exact K].
      + exists db', ctr', b'. split; [exact E|]. split; [exact A|]. eapply step_trans; eauto.
    - (* not merged with the next hull *)
      assert (Hphase2 : exists db4 ins2 merged2,
        match mprev, prev with
        | Some m, Some p =>
            ok <- validate_merge W self (remove db2 p) m ;;
            (if ok : bool then Ok (remove db2 p, ins ++ [m], true) else Ok (remove db2 p, ins ++ [p], false))
        | _, _ => Ok (db2, ins, false)
        end = Ok (db4, ins2, merged2) /\
        exists base2, holds db4 base2 /\
          ((merged2 = true /\ exists m p r, prev = Some p /\ ins2 = ins ++ [m] /\ Permutation base (p :: base2) /\
              Permutation r1 (p :: r) /\ Permutation (base2 ++ ins) r /\ merge_of p hull m ctr ctr1 /\ passed m base2 /\
              ~ In (rI (n_rng hull)) cvs) \/
           (merged2 = false /\ Permutation (base2 ++ ins2) r1 /\ (forall x, In x ins2 -> nxt = Some x \/ prev = Some x)))).
      { assert (Hdef : exists db4 ins2 merged2, Ok (db2, ins, false) = Ok (db4, ins2, merged2) /\
          exists base2, holds db4 base2 /\
          ((merged2 = true /\ exists m p r, prev = Some p /\ ins2 = ins ++ [m] /\ Permutation base (p :: base2) /\
              Permutation r1 (p :: r) /\ Permutation (base2 ++ ins) r /\ merge_of p hull m ctr ctr1 /\ passed m base2 /\
              ~ In (rI (n_rng hull)) cvs) \/
           (merged2 = false /\ Permutation (base2 ++ ins2) r1 /\ (forall x, In x ins2 -> nxt = Some x \/ prev = Some x)))).
        { exists db2, ins, false. split; [reflexivity|]. exists base. split; [exact Hbase|]. right. auto. }
        destruct mprev as [m|]; [|exact Hdef]. destruct prev as [p|]; [|exact Hdef]. clear Hdef.
        destruct (Hprev p eq_refl) as [Hq1 Hq2].
        assert (Hpbase : In p base).
        { apply (Permutation_in _ (Permutation_sym Hpb)) in Hq1. apply in_app_iff in Hq1. destruct Hq1 as [K|K]; auto.
          exfalso. specialize (Hins p K). destruct (Hnxt p Hins) as [_ K2].
          pose proof (line_hull ctr b p Hi) as Z1. destruct Z1 as (_ & Z1 & _); [|lia].
          apply Hin1, (Permutation_in _ Hpb), in_or_app. auto. }
        destruct (in_take p base Hpbase) as [base2 Hpb2].
        assert (Hndb : NoDup (map n_id base)).
        { apply (Permutation_NoDup (Permutation_map n_id (Permutation_sym Hpb))) in Hnd1. rewrite map_app in Hnd1.
          apply nodup_app_inv in Hnd1. tauto. }
        assert (Hd4 : holds (remove db2 p) base2) by (eapply holds_take; eauto).
        destruct (Hmp m eq_refl) as (Hen & a & c & E & Hm). injection E as <- <-.
        assert (Hl2 : Forall hullish base2).
        { apply Forall_forall. intros x Hx. apply Hfull, Hin1, (Permutation_in _ Hpb), in_or_app. left.
          apply (Permutation_in _ (Permutation_sym Hpb2)). right; auto. }
        destruct (validate_merge_spec _ base2 ctr m Hd4 Hl2 (or_intror I)) as (ok & -> & Hpass); [apply Hm|apply Hm|].
        cbn [bind]. destruct ok.
        - exists (remove db2 p), (ins ++ [m]), true. split; [reflexivity|]. exists base2. split; [exact Hd4|]. left.
          split; [reflexivity|]. exists m, p, (base2 ++ ins).
          assert (Hr1 : Permutation r1 (p :: base2 ++ ins)) by (rewrite <- Hpb, Hpb2; reflexivity).
          split; [reflexivity|]. split; [reflexivity|]. split; [exact Hpb2|]. split; [exact Hr1|]. split; [reflexivity|].
          split; [exact Hm|]. split; [apply Hpass; reflexivity|].
          intros K. apply negb_true_iff in Hen. apply zmem_in in K. congruence.
        - exists (remove db2 p), (ins ++ [p]), false. split; [reflexivity|]. exists base2. split; [exact Hd4|]. right.
          split; [reflexivity|]. split.
          + rewrite <- Hpb, Hpb2. rewrite app_assoc, <- Permutation_cons_append. reflexivity.
          + intros x Hx. apply in_app_iff in Hx. destruct Hx as [Hx|[<- |[]]]; auto. }
      cbv iota.
      destruct Hphase2 as (db4 & ins2 & merged2 & -> & base2 & Hb2 & Hcase2). cbn [bind].
      destruct Hcase2 as [(-> & m & p & r & Ep & -> & Hpb2 & Hpr & Hpi & Hm & Hpass & Hcv)|(-> & Hpi & Hins2)].
      + (* merged with the previous hull *)
        destruct (Hprev p Ep) as [Hq1 Hq2].
        assert (Hins_b : forall x, In x ins -> In x r1) by (intros x Hx; apply (Permutation_in _ Hpb), in_or_app; auto).
        assert (Hg : Forall good_item (ins ++ [m])).
        { apply Forall_app. split; [|constructor; [apply fresh_good_item, Hm|constructor]].
          apply Forall_forall. intros x Hx. eapply line_good; [exact Hi|]. auto. }
        destruct (holds_load (w_hdb W) _ _ (ins ++ [m]) (st_hdb _ _ _ _ St) Hb2 Hg) as (db5 & -> & Hd5). cbn [bind].
        assert (Hpfull : Permutation b (p :: hull :: r)).
        { rewrite Hp1, Hpr. constructor. }
        assert (Hstep : step_to cvs ctr ctr1 b (m :: r)).
        { eapply step_merge; eauto. intros y Hy. apply (Permutation_in _ (Permutation_sym Hpi)) in Hy.
          apply in_app_iff in Hy. destruct Hy as [Hy|Hy]; auto. right; left. apply (Hnxt y), Hins, Hy. }
        assert (Hstep2 : step_to cvs ctr ctr2 b (m :: r)).
        { eapply step_trans; [exact Hstep|]. apply step_same; [apply Hstep|exact Hc2|reflexivity]. }
        eapply Hnext with (b0 := m :: r); auto.
        * intros h Hx K. rewrite map_app in K. apply in_app_iff in K. destruct K as [K|K]; [|apply (Hcop h); auto].
          apply in_app_iff in K. cbn [map In] in K. destruct K as [K|[K|[]]].
          -- apply in_map_iff in K. destruct K as (x & Ex & Hx'). specialize (Hins x Hx'). destruct (Hnxt x Hins) as [Z1 Z2].
             assert (x = h) by (apply (inv_id_inj _ _ _ _ _ _ _ _ Hi); auto). subst x.
             specialize (Hlater2 h Hx). lia.
          -- destruct Hm as (_ & _ & _ & j & Hj & D). apply (bi_fresh _ _ _ _ _ _ Hi h j); auto; [lia|cbn; congruence].
        * eapply holds_perm; [|exact Hd5]. rewrite app_assoc, Hpi, <- Permutation_cons_append. reflexivity.
        * intros x Hx. right. assert (Hxb : In x b) by auto. apply (Permutation_in _ Hpfull) in Hxb.
          specialize (Hlater x Hx). pose proof (line_hull ctr b p Hi (Hin1 p Hq1)) as (_ & Z1 & _).
          destruct Hxb as [<- |[<- |K]]; [lia|lia|exact K].
      + (* nothing merged *)
        assert (Hins_b : forall x, In x ins2 -> In x r1) by (intros x Hx; apply (Permutation_in _ Hpi), in_or_app; auto).
        assert (Hg : Forall good_item (ins2 ++ [hull])).
        { apply Forall_app. split; [|constructor; [eapply line_good; eauto|constructor]].
          apply Forall_forall. intros x Hx. eapply line_good; [exact Hi|]. auto. }
        destruct (holds_load (w_hdb W) _ _ (ins2 ++ [hull]) (st_hdb _ _ _ _ St) Hb2 Hg) as (db5 & -> & Hd5). cbn [bind].
        eapply Hnext with (b0 := b); auto.
        * intros h Hx K. rewrite map_app in K. apply in_app_iff in K. destruct K as [K|K]; [|apply (Hcop h); auto].
          apply in_app_iff in K. cbn [map In] in K. specialize (Hlater2 h Hx).
          destruct K as [K|[K|[]]].
          -- apply in_map_iff in K. destruct K as (x & Ex & Hx').
             assert (x = h) by (apply (inv_id_inj _ _ _ _ _ _ _ _ Hi); auto). subst x.
             destruct (Hins2 h Hx') as [Z1|Z1]; [destruct (Hnxt h Z1) as [_ Z2]; lia|].
             destruct (Hprev h Z1) as [Z3 Z2]. pose proof (line_hull ctr b h Hi (Hin1 h Z3)) as (_ & Z4 & _). lia.
          -- assert (hull = h) by (apply (inv_id_inj _ _ _ _ _ _ _ _ Hi); auto). subst h. lia.
        * eapply holds_perm; [|exact Hd5]. rewrite app_assoc, Hpi, Hp1, <- Permutation_cons_append. reflexivity.
        * apply step_same; auto.
  Qed.
End Aggregate.
