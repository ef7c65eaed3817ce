(** Two pictures of the same scene have the same reference result. *)
From Verif Require Import M_Base M_Float M_Rng M_Geom M_Offset M_Node M_Decompose M_Split M_Hdb M_Knn M_Lnr M_Homotopy M_Relate
  M_Deform M_Constrain M_ConstDP Spec Spec_Hdb Spec_Relate Spec_ConstDP Spec_Move
  P_Base P_Float P_Decompose P_Split P_Node P_Hdb P_Homotopy P_Relate P_Constrain P_DpTree P_Ref P_Twin.
Open Scope Z_scope.

Lemma Forall2_filter {A B} (R : A -> B -> Prop) f g l l' : (forall x y, R x y -> f x = g y) ->
  Forall2 R l l' -> Forall2 R (filter f l) (filter g l').
Proof.
  intros H. induction 1 as [|x y l l' Hxy Hl IH]; cbn [filter]; [constructor|]. rewrite (H x y Hxy). destruct (g y); [constructor|]; auto.
Qed.
Lemma Forall2_existsb {A B} (R : A -> B -> Prop) f g l l' : (forall x y, R x y -> f x = g y) ->
  Forall2 R l l' -> existsb f l = existsb g l'.
Proof. intros H. induction 1 as [|x y l l' Hxy Hl IH]; cbn [existsb]; [reflexivity|]. rewrite (H x y Hxy), IH. reflexivity. Qed.
Lemma Forall2_forallb {A B} (R : A -> B -> Prop) f g l l' : (forall x y, R x y -> f x = g y) ->
  Forall2 R l l' -> forallb f l = forallb g l'.
Proof. intros H. induction 1 as [|x y l l' Hxy Hl IH]; cbn [forallb]; [reflexivity|]. rewrite (H x y Hxy), IH. reflexivity. Qed.
Lemma Forall2_len {A B} (R : A -> B -> Prop) l l' : Forall2 R l l' -> zlen l' = zlen l.
Proof. unfold zlen. induction 1; cbn [length] in *; lia. Qed.
Lemma existsb_perm {A} (f : A -> bool) l l' : Permutation l l' -> existsb f l = existsb f l'.
Proof.
  intros H. apply eq_true_iff_eq. rewrite !existsb_exists. split; intros (x & Hx & K); exists x; split; auto;
    [apply (Permutation_in _ H)|apply (Permutation_in _ (Permutation_sym H))]; exact Hx.
Qed.
Lemma Forall2_nth {A B} (R : A -> B -> Prop) d d' l l' k : Forall2 R l l' -> (k < length l)%nat -> R (nth k l d) (nth k l' d').
Proof.
  intros H. revert k. induction H as [|x y l l' Hxy Hl IH]; intros k Hk; [cbn in Hk; lia|]. destruct k as [|k]; cbn [nth]; auto.
  apply IH. cbn in Hk. lia.
Qed.

Section Move.
  Variables (L L' : geomlib) (P : point -> point -> Prop) (C : geometry -> geometry -> Prop) (o o' : opts).
  Hypothesis HA : alike L L' P C o o'.
  Hypothesis HS : same_switches o o'.

  (** ** Two hulls *)

  Record img (a a' : node) : Prop := {
    im_rng : n_rng a' = n_rng a;
    im_two : 2 <= clen (n_coords a);
    im_len : clen (n_coords a') = clen (n_coords a);
    im_pts : Forall2 P (cpts (n_coords a)) (cpts (n_coords a'));
    im_hull : n_geom a = hull_geometry (gl_hull L (cpts (n_coords a)));
    im_hull' : n_geom a' = hull_geometry (gl_hull L' (cpts (n_coords a')))
  }.

  Lemma cpts_nth c k : 0 <= k < clen c -> cpt c k = nth (Z.to_nat k) (cpts c) origin.
  Proof.
    intros H. unfold cpt, cpts, clen, zlen in *.
    set (f := fun k => nth (Z.to_nat k) (cpnts c) origin). change (f (nth (Z.to_nat k) (cidxs c) 0) = nth (Z.to_nat k) (map f (cidxs c)) origin).
    rewrite <- (map_nth f). apply nth_indep. rewrite map_length. lia.
  Qed.
  Lemma cpts_len c : length (cpts c) = Z.to_nat (clen c).
  Proof. unfold cpts, clen, zlen. rewrite map_length. lia. Qed.
  Lemma img_cpt a a' k : img a a' -> 0 <= k < clen (n_coords a) -> P (cpt (n_coords a) k) (cpt (n_coords a') k).
  Proof.
    intros H Hk. rewrite !cpts_nth by (rewrite ?(im_len _ _ H); auto). apply Forall2_nth; [apply im_pts, H|]. rewrite cpts_len. lia.
  Qed.
  Lemma img_first a a' : img a a' -> P (cfirst (n_coords a)) (cfirst (n_coords a')).
  Proof. intros H. apply img_cpt; auto. pose proof (im_two _ _ H). lia. Qed.
  Lemma img_last a a' : img a a' -> P (clast (n_coords a)) (clast (n_coords a')).
  Proof. intros H. unfold clast. rewrite (im_len _ _ H). apply img_cpt; auto. pose proof (im_two _ _ H). lia. Qed.
  Lemma img_seg a a' : img a a' -> C (n_seg a) (n_seg a').
  Proof. intros H. apply (al_seg _ _ _ _ _ _ HA); [apply img_first|apply img_last]; auto. Qed.
  Lemma img_line a a' : img a a' -> C (n_line a) (n_line a').
  Proof. intros H. apply (al_line _ _ _ _ _ _ HA); [rewrite cpts_len; pose proof (im_two _ _ H); lia|apply im_pts, H]. Qed.
  Lemma img_geom a a' : img a a' -> C (n_geom a) (n_geom a') /\ same_kind (n_geom a) (n_geom a').
  Proof.
    intros H. rewrite (im_hull _ _ H), (im_hull' _ _ H).
    apply (al_hull _ _ _ _ _ _ HA); [rewrite cpts_len; pose proof (im_two _ _ H); lia|apply im_pts, H].
  Qed.
  Lemma kind_line g g' : same_kind g g' -> is_line g' = is_line g.
  Proof. destruct g, g'; cbn; tauto. Qed.

  Hypothesis Hav : o_avoid_self o = true.

  Lemma contig_exists M a b l : contig_loop M a b l false =
    ends_meet M a b && existsb (fun p => gl_eq2d M p (cfirst (n_coords a)) || gl_eq2d M p (clast (n_coords a)) ||
      (gl_eq2d M p (cfirst (n_coords b)) || gl_eq2d M p (clast (n_coords b)))) l.
  Proof.
    induction l as [|p l IH]; cbn [contig_loop existsb]; [rewrite andb_false_r; reflexivity|].
    destruct (gl_eq2d M p (cfirst (n_coords a)) || gl_eq2d M p (clast (n_coords a)) || _) eqn:E; cbn [orb].
    - rewrite andb_true_r. destruct (ends_meet M a b) eqn:Em; [reflexivity|]. rewrite IH. rewrite ?Em. reflexivity.
    - exact IH.
  Qed.

  Ltac rw_eq := rewrite !(al_same _ _ _ _ _ _ HA _ _ _ _) by eauto using img_first, img_last.

  Lemma ends_img a a' b b' : img a a' -> img b b' -> ends_meet L' a' b' = ends_meet L a b.
  Proof.
    intros Ha Hb. unfold ends_meet. pose proof (img_first _ _ Ha). pose proof (img_last _ _ Ha).
    pose proof (img_first _ _ Hb). pose proof (img_last _ _ Hb).
    f_equal; [f_equal; [f_equal|]|]; apply (al_same _ _ _ _ _ _ HA); auto.
  Qed.
  Lemma contig_img a a' b b' l l' l'' : img a a' -> img b b' -> Permutation l' l'' -> Forall2 P l l'' ->
    contig_loop L' a' b' l' false = contig_loop L a b l false.
  Proof.
    intros Ha Hb Hp Hl. rewrite !contig_exists. rewrite (ends_img a a' b b'), (existsb_perm _ _ _ Hp) by auto. f_equal.
    symmetry. apply (Forall2_existsb P); auto. intros p p' Hpp. pose proof (img_first _ _ Ha). pose proof (img_last _ _ Ha).
    pose proof (img_first _ _ Hb). pose proof (img_last _ _ Hb).
    symmetry. f_equal; f_equal; apply (al_same _ _ _ _ _ _ HA); auto.
  Qed.

  Lemma collapsible_img a a' b b' : img a a' -> img b b' -> collapsible L' a' b' = collapsible L a b.
  Proof.
    intros Ha Hb. unfold collapsible. rewrite (im_rng _ _ Ha). destruct (rsize (n_rng a) =? 1); [reflexivity|].
    destruct (img_geom _ _ Ha) as [_ Hk]. rewrite (kind_line _ _ Hk). destruct (is_line (n_geom a)); [reflexivity|].
    pose proof (img_first _ _ Ha) as A1. pose proof (img_last _ _ Ha) as A2.
    pose proof (img_first _ _ Hb) as B1. pose proof (img_last _ _ Hb) as B2. cbv zeta.
    rewrite (al_same _ _ _ _ _ _ HA _ _ _ _ A1 B1), (al_same _ _ _ _ _ _ HA _ _ _ _ A2 B1),
      (al_same _ _ _ _ _ _ HA _ _ _ _ A1 B2), (al_same _ _ _ _ _ _ HA _ _ _ _ A2 B2).
    assert (K : forall c c', P c c' ->
      match n_geom a' with GPoly (s :: _) => Ok (negb (gl_in_ring L' s (if gl_eq2d L' c' (clast (n_coords b')) then cfirst (n_coords b') else clast (n_coords b')))) | _ => Panic end =
      match n_geom a with GPoly (s :: _) => Ok (negb (gl_in_ring L s (if gl_eq2d L c (clast (n_coords b)) then cfirst (n_coords b) else clast (n_coords b)))) | _ => Panic end).
    { intros c c' Hc. rewrite (al_same _ _ _ _ _ _ HA _ _ _ _ Hc B2).
      destruct (n_geom a) as [?|?|? ?|rs] eqn:Eg, (n_geom a') as [?|?|? ?|rs'] eqn:Eg'; try (exfalso; exact Hk); try reflexivity.
      cbn in Hk. destruct rs as [|s hs], rs' as [|s' hs']; try discriminate; [reflexivity|].
      rewrite (im_hull _ _ Ha) in Eg. rewrite (im_hull' _ _ Ha) in Eg'. f_equal. f_equal.
      apply (al_inside _ _ _ _ _ _ HA Hav _ _ s s' hs hs' _ _ (im_pts _ _ Ha)); auto. destruct (gl_eq2d L c (clast (n_coords b))); auto. }
    destruct (gl_eq2d L (cfirst (n_coords a)) (cfirst (n_coords b)) || _); [apply K; auto|].
    destruct (gl_eq2d L (cfirst (n_coords a)) (clast (n_coords b)) || _); [apply K; auto|reflexivity].
  Qed.

  Lemma pair_img a a' b b' : img a a' -> img b b' ->
    flags (pair_candidates L' (o_non_planar_displacement o') false a' b') = flags (pair_candidates L (o_non_planar_displacement o) false a b).
  Proof.
    intros Ha Hb. unfold pair_candidates. cbn [negb orb]. unfold is_contiguous.
    destruct (img_geom _ _ Ha) as [Ga _]. destruct (img_geom _ _ Hb) as [Gb _].
    rewrite (al_isect _ _ _ _ _ _ HA _ _ _ _ Ga Gb).
    destruct (gl_isect L (n_geom a) (n_geom b)); cbn [negb]; [|reflexivity].
    destruct (al_meet _ _ _ _ _ _ HA Hav _ _ _ _ Ga Gb) as (l & Hp & Hl).
    rewrite (contig_img a a' b b' _ _ l Ha Hb Hp Hl).
    assert (El : zlen (gl_inter L' (n_geom a') (n_geom b')) = zlen (gl_inter L (n_geom a) (n_geom b))).
    { rewrite <- (Forall2_len P _ _ Hl). unfold zlen. rewrite (Permutation_length Hp). reflexivity. }
    rewrite El. destruct (contig_loop L a b _ false); cbn [andb negb].
    - destruct (1 <? _); [|reflexivity]. unfold contiguous_candidates. rewrite (collapsible_img a a' b b' Ha Hb), (collapsible_img b b' a a' Hb Ha).
      destruct (collapsible L a b) as [x| |]; cbn [bind]; try reflexivity.
      destruct (collapsible L b a) as [y| |]; cbn [bind]; try reflexivity. destruct x, y; reflexivity.
    - unfold non_contiguous_candidates. pose proof (img_seg _ _ Ha) as Sa. pose proof (img_seg _ _ Hb) as Sb.
      pose proof (img_line _ _ Ha) as La. pose proof (img_line _ _ Hb) as Lb.
      rewrite (al_isect _ _ _ _ _ _ HA _ _ _ _ Sa Sb), (al_isect _ _ _ _ _ _ HA _ _ _ _ Sa Lb),
        (al_isect _ _ _ _ _ _ HA _ _ _ _ Sb La), (al_isect _ _ _ _ _ _ HA _ _ _ _ La Lb).
      destruct (al_meet _ _ _ _ _ _ HA Hav _ _ _ _ La Lb) as (l1 & P1 & F1).
      destruct (al_meet _ _ _ _ _ _ HA Hav _ _ _ _ Sa Sb) as (l2 & P2 & F2).
      assert (E1 : zlen (gl_inter L' (n_line a') (n_line b')) = zlen (gl_inter L (n_line a) (n_line b))).
      { rewrite <- (Forall2_len P _ _ F1). unfold zlen. rewrite (Permutation_length P1). reflexivity. }
      assert (E2 : zlen (gl_inter L' (n_seg a') (n_seg b')) = zlen (gl_inter L (n_seg a) (n_seg b))).
      { rewrite <- (Forall2_len P _ _ F2). unfold zlen. rewrite (Permutation_length P2). reflexivity. }
      assert (E3 : existsb (fun p => existsb (fun q => fgt (gl_ptdist L' p q) (o_non_planar_displacement o')) (gl_inter L' (n_seg a') (n_seg b'))) (gl_inter L' (n_line a') (n_line b')) =
                   existsb (fun p => existsb (fun q => fgt (gl_ptdist L p q) (o_non_planar_displacement o)) (gl_inter L (n_seg a) (n_seg b))) (gl_inter L (n_line a) (n_line b))).
      { rewrite (existsb_perm _ _ _ P1). symmetry. apply (Forall2_existsb P); [|exact F1]. intros p p' Hpp.
        rewrite (existsb_perm _ _ _ P2). apply (Forall2_existsb P); [|exact F2]. intros q q' Hqq. symmetry.
        apply (al_moved _ _ _ _ _ _ HA Hav); auto. }
      rewrite E1, E2, E3.
      repeat match goal with |- context [if ?c then _ else _] => destruct c end; reflexivity.
  Qed.
End Move.

Section Valid.
  Variables (L L' : geomlib) (P : point -> point -> Prop) (C : geometry -> geometry -> Prop) (o o' : opts).
  Hypothesis HA : alike L L' P C o o'.
  Hypothesis HS : same_switches o o'.

  (** ** The relations to the constraints *)

  Lemma box_filter M c ctxs a b d : boxes_enclose M c ctxs -> 0 <= a < clen c -> 0 <= b < clen c -> 0 <= d < clen c ->
    tri_collapsible M (cpt c a) (cpt c b) (cpt c d) (filter (fun g => mbr_intersects (tri_box (cpt c a) (cpt c b) (cpt c d)) (gl_bounds M g)) ctxs) =
    tri_collapsible M (cpt c a) (cpt c b) (cpt c d) ctxs.
  Proof.
    intros Hb Ha Hb' Hd. unfold tri_collapsible. apply eq_true_iff_eq. rewrite !forallb_forall. split; intros H g Hg.
    - destruct (gl_isect M (GPoly [[cpt c a; cpt c b; cpt c d; cpt c a]]) g) eqn:E; [|reflexivity].
      specialize (H g). rewrite E in H. apply H. apply filter_In. split; [exact Hg|].
      apply (Hb _ _ _ _ (cpt_in c a Ha) (cpt_in c b Hb') (cpt_in c d Hd) Hg E).
    - apply H. apply filter_In in Hg. tauto.
  Qed.

  Lemma homotopy_img c c' ctxs ctxs' : 2 <= clen c -> clen c' = clen c -> Forall2 P (cpts c) (cpts c') -> Forall2 C ctxs ctxs' ->
    boxes_enclose L c ctxs -> boxes_enclose L' c' ctxs' -> homotopy L' c' ctxs' = homotopy L c ctxs.
  Proof.
    intros Hn En Hc Hctx B B'.
    assert (Hpt : forall k, 0 <= k < clen c -> P (cpt c k) (cpt c' k)).
    { intros k Hk. rewrite !cpts_nth by lia. apply Forall2_nth; [exact Hc|]. rewrite cpts_len. lia. }
    assert (Cl : C (GLine (cpts c)) (GLine (cpts c'))) by (apply (al_line _ _ _ _ _ _ HA); [rewrite cpts_len; lia|exact Hc]).
    assert (Cs : C (GSeg (cfirst c) (clast c)) (GSeg (cfirst c') (clast c'))).
    { unfold cfirst, clast. rewrite En. apply (al_seg _ _ _ _ _ _ HA); apply Hpt; lia. }
    assert (Eb : forall g g', C g g' -> ctx_both L c g = ctx_both L' c' g').
    { intros g g' Hg. unfold ctx_both. rewrite (al_isect _ _ _ _ _ _ HA _ _ _ _ Cl Hg), (al_isect _ _ _ _ _ _ HA _ _ _ _ Cs Hg). reflexivity. }
    assert (Ed : forall g g', C g g' -> ctx_disjoint L c g = ctx_disjoint L' c' g').
    { intros g g' Hg. unfold ctx_disjoint. rewrite (al_isect _ _ _ _ _ _ HA _ _ _ _ Cl Hg), (al_isect _ _ _ _ _ _ HA _ _ _ _ Cs Hg). reflexivity. }
    unfold homotopy, filter_context. cbv beta iota.
    pose proof (Forall2_filter C (fun g => negb (ctx_both L c g) && negb (ctx_disjoint L c g)) (fun g => negb (ctx_both L' c' g) && negb (ctx_disjoint L' c' g)) _ _
      (fun g g' Hg => f_equal2 (fun x y => negb x && negb y) (Eb g g' Hg) (Ed g g' Hg)) Hctx) as Fx.
    pose proof (Forall2_filter C (fun g => negb (ctx_both L c g) && ctx_disjoint L c g) (fun g => negb (ctx_both L' c' g) && ctx_disjoint L' c' g) _ _
      (fun g g' Hg => f_equal2 (fun x y => negb x && y) (Eb g g' Hg) (Ed g g' Hg)) Hctx) as Fd.
    destruct Fx; [|reflexivity].
    set (dj := filter (fun g => negb (ctx_both L c g) && ctx_disjoint L c g) ctxs) in *.
    set (dj' := filter (fun g => negb (ctx_both L' c' g) && ctx_disjoint L' c' g) ctxs') in *.
    assert (Bd : boxes_enclose L c dj).
    { intros x y z g Hx Hy Hz Hg. apply B; auto. apply filter_In in Hg. tauto. }
    assert (Bd' : boxes_enclose L' c' dj').
    { intros x y z g Hx Hy Hz Hg. apply B'; auto. apply filter_In in Hg. tauto. }
    assert (Ec : chain_deformation L' c' dj' = chain_deformation L c dj).
    { unfold chain_deformation. rewrite En. apply (ch_loop_inv (clen c)); [|lia|apply new_inv].
      intros st v Hst Hv. unfold collapse_vertex. destruct (Hst v) as [Hp Hq].
      destruct (ch_prev st v) as [a|]; [|reflexivity]. destruct (ch_next st v) as [d|]; [|reflexivity].
      unfold ptr_ok, in_range in *. rewrite (box_filter L' c' dj') by (auto; lia). rewrite (box_filter L c dj) by auto.
      unfold tri_collapsible. symmetry. apply (Forall2_forallb C); [|exact Fd]. intros g g' Hg. symmetry. f_equal.
      apply (al_isect _ _ _ _ _ _ HA); [apply (al_triangle _ _ _ _ _ _ HA); apply Hpt; auto|exact Hg]. }
    clearbody dj dj'. destruct Fd as [|g g' dj dj' Hg Fd]; [reflexivity|]. rewrite Ec.
    destruct (chain_deformation L c (g :: dj)) as [st| |] eqn:Es; cbn [bind]; try reflexivity.
    destruct (ch_size st =? 2); [|reflexivity]. destruct (ch_next st 0) as [k|] eqn:Ek; [|reflexivity].
    assert (Hk : 0 <= k < clen c).
    { destruct (deformation_spec L c (g :: dj)) as (st' & l & D1 & D2 & D3 & D4 & D5); [lia|].
      rewrite Es in D1. injection D1 as <-.
      assert (Hl : ch_inv (clen c) st).
      { assert (K : forall col inner fuel st0 st1, ch_inv (clen c) st0 -> ch_loop col inner fuel st0 = Ok st1 -> ch_inv (clen c) st1).
        { intros col inner. induction fuel as [|f IH]; intros st0 st1 H0 E; [discriminate|]. cbn [ch_loop] in E.
          destruct (2 <? ch_size st0); [|injection E as <-; exact H0].
          destruct (ch_pass col inner st0 (Some 0) false) as [[st2 b2]| |] eqn:Ep; try discriminate. cbn [bind] in E.
          assert (H2 : ch_inv (clen c) st2).
          { eapply (proj2 (ch_pass_inv (clen c) col col (fun _ _ _ _ => eq_refl) inner st0 (Some 0) false H0 ltac:(cbn; unfold in_range; lia))). exact Ep. }
          destruct b2; [eapply IH; eauto|injection E as <-; exact H2]. }
        eapply K; [|exact Es]. apply new_inv. }
      pose proof (proj2 (Hl 0)) as Hk. rewrite Ek in Hk. exact Hk. }
    rewrite En. rewrite !(al_same _ _ _ _ _ _ HA (cpt c 0) _ (cpt c 0) _ (Hpt 0 ltac:(lia)) (Hpt 0 ltac:(lia))).
    rewrite (al_same _ _ _ _ _ _ HA _ _ _ _ (Hpt (clen c - 1) ltac:(lia)) (Hpt k Hk)). reflexivity.
  Qed.

  Lemma geom_relate_all M h ctxs : geom_relate_valid M h ctxs =
    forallb (fun g => Bool.eqb (gl_isect M (n_line h) g) (gl_isect M (n_seg h) g)) ctxs.
  Proof.
    induction ctxs as [|g r IH]; cbn [geom_relate_valid forallb]; [reflexivity|]. rewrite IH.
    destruct (gl_isect M (n_seg h) g), (gl_isect M (n_line h) g); reflexivity.
  Qed.
  Lemma dist_relate_all M d h ctxs : dist_relate_valid M d h ctxs =
    forallb (fun g => fge (gl_dist M (n_seg h) g) d || flt (gl_dist M (n_line h) g) d) ctxs.
  Proof.
    induction ctxs as [|g r IH]; cbn [dist_relate_valid forallb]; [reflexivity|]. rewrite IH.
    destruct (fge _ _ || flt _ _); reflexivity.
  Qed.

  Lemma rel_ok_img a a' ctxs ctxs' : img L L' P a a' -> Forall2 C ctxs ctxs' ->
    boxes_enclose L (n_coords a) ctxs -> boxes_enclose L' (n_coords a') ctxs' -> rel_ok L' o' a' ctxs' = rel_ok L o a ctxs.
  Proof.
    intros Ha Hc B B'. unfold rel_ok. destruct HS as (_ & _ & _ & Eg & Ed & Er). rewrite Eg, Ed, Er.
    pose proof (img_line L L' P C o o' HA _ _ Ha) as Cl. pose proof (img_seg L L' P C o o' HA _ _ Ha) as Cs.
    rewrite (homotopy_img (n_coords a) (n_coords a') ctxs ctxs') by (try apply (im_two _ _ _ _ _ Ha); try apply (im_len _ _ _ _ _ Ha); try apply (im_pts _ _ _ _ _ Ha); auto).
    rewrite !geom_relate_all, !dist_relate_all. f_equal. f_equal; f_equal; symmetry; apply (Forall2_forallb C); auto; intros g g' Hg.
    - rewrite (al_isect _ _ _ _ _ _ HA _ _ _ _ Cl Hg), (al_isect _ _ _ _ _ _ HA _ _ _ _ Cs Hg). reflexivity.
    - destruct (al_dist _ _ _ _ _ _ HA _ _ _ _ Cl Hg) as (X1 & _ & _). destruct (al_dist _ _ _ _ _ _ HA _ _ _ _ Cs Hg) as (_ & _ & X2).
      unfold fge. unfold fle in X2. rewrite X1, X2. reflexivity.
  Qed.
End Valid.

(** Cutting a chain at forced vertices: the result depends on the set of vertices only. *)
Lemma chain_cut_eq l : forall lo hi l', chain lo hi l -> chain lo hi l' -> (forall x, cut l x <-> cut l' x) -> l = l'.
Proof.
  assert (Cb : forall l lo hi x, chain lo hi l -> cut l x -> lo < x).
  { intros k lo hi x H (r & Hr & <-). pose proof (chain_in _ _ _ _ H Hr). lia. }
  induction l as [|r l IH]; intros lo hi [|r' l'] H H' E; auto.
  - exfalso. destruct (proj2 (E (rJ r'))) as (q & [] & _). exists r'. split; [left|]; reflexivity.
  - exfalso. destruct (proj1 (E (rJ r))) as (q & [] & _). exists r. split; [left|]; reflexivity.
  - cbn [chain] in H, H'. destruct H as (A & B & C), H' as (A' & B' & C').
    assert (K : rJ r = rJ r').
    { destruct (proj1 (E (rJ r))) as (q & [<- |Hq] & Eq); [exists r; split; [left|]; reflexivity|auto|].
      destruct (proj2 (E (rJ r'))) as (q' & [<- |Hq'] & Eq'); [exists r'; split; [left|]; reflexivity|auto|].
      pose proof (chain_in _ _ _ _ C' Hq). pose proof (chain_in _ _ _ _ C Hq'). lia. }
    destruct r as [i j], r' as [i' j']. cbn [rI rJ] in *. subst. f_equal. apply (IH j' hi); auto.
    intros x. destruct (Z.eq_dec x j') as [-> |N].
    + split; intros K; [pose proof (Cb _ _ _ _ C K)|pose proof (Cb _ _ _ _ C' K)]; lia.
    + specialize (E x). unfold cut in *. cbn [In] in E. split; intros (q & Hq & Eq).
      * destruct (proj1 E) as (q' & [<- |Hq'] & Eq'); eauto. cbn in Eq'. congruence.
      * destruct (proj2 E) as (q' & [<- |Hq'] & Eq'); eauto. cbn in Eq'. congruence.
Qed.

Lemma cut_chain M ps p idxs : location_on_hulls M ps (p, idxs) -> forall ch lo hi, 0 <= lo -> hi < zlen ps -> chain lo hi ch ->
  chain lo hi (flat_map (r_cut M ps p idxs) ch) /\
  forall x, cut (flat_map (r_cut M ps p idxs) ch) x <-> cut ch x \/ (In x idxs /\ lo < x < hi).
Proof.
  intros Hon. induction ch as [|r ch IH]; intros lo hi Hlo Hhi H; cbn [chain flat_map] in *.
  - subst. split; [reflexivity|]. intros x. split; [auto|]. intros [K|[_ K]]; [exact K|lia].
  - destruct H as (A & B & C). pose proof (chain_le _ _ _ C) as Hle. destruct (IH (rJ r) hi ltac:(lia) Hhi C) as [I1 I2].
    assert (K : chain (rI r) (rJ r) (r_cut M ps p idxs r) /\
      forall x, cut (r_cut M ps p idxs r) x <-> x = rJ r \/ (In x idxs /\ rI r < x < rJ r)).
    { unfold r_cut.
      destruct (Exists_dec (fun x => rI r < x < rJ r) idxs) as [K|K].
      { intros x. destruct (Z_lt_dec (rI r) x), (Z_lt_dec x (rJ r)); [left|right|right|right]; lia. }
      - apply Exists_exists in K. pose proof K as (x & Hx & Hb).
        assert (F : fle (gl_dist M (GPoint p) (n_geom (hl M ps r))) epsilon_dist = true).
        { apply (Hon r x); [unfold piece; lia|exact Hx|exact Hb]. }
        rewrite F. destruct (rsplit_spec r idxs K) as [S1 S2]. destruct (rsplit r idxs) as [|q qs] eqn:E.
        + exfalso. destruct (proj2 (S2 (rJ r)) (or_introl eq_refl)) as (q & [] & _).
        + split; [exact S1|exact S2].
      - assert (N : rsplit r idxs = []) by (apply rsplit_nil; intros x Hx I; apply K, Exists_exists; eauto). rewrite N.
        assert (R : chain (rI r) (rJ r) [r] /\ forall x, cut [r] x <-> x = rJ r \/ (In x idxs /\ rI r < x < rJ r)).
        { split; [cbn [chain]; lia|]. intros x. split.
          - intros (q & [<- |[]] & <-). auto.
          - intros [-> |[X1 X2]]; [exists r; cbn; auto|]. exfalso. apply K, Exists_exists. eauto. }
        destruct (fle _ _); exact R. }
    destruct K as [K1 K2]. split.
    + apply chain_app. exists (rJ r). split; [subst; exact K1|exact I1].
    + intros x. assert (Ca : cut (r_cut M ps p idxs r ++ flat_map (r_cut M ps p idxs) ch) x <->
        cut (r_cut M ps p idxs r) x \/ cut (flat_map (r_cut M ps p idxs) ch) x).
      { unfold cut. split.
        - intros (q & Hq & E). apply in_app_iff in Hq. destruct Hq; [left|right]; eauto.
        - intros [(q & Hq & E)|(q & Hq & E)]; exists q; split; auto; apply in_app_iff; auto. }
      assert (Cc : cut (r :: ch) x <-> x = rJ r \/ cut ch x).
      { unfold cut. cbn [In]. split.
        - intros (q & [<- |Hq] & E); [left; auto|right; eauto].
        - intros [-> |(q & Hq & E)]; [exists r; auto|exists q; auto]. }
      rewrite Ca, Cc, K2, I2. split.
      * intros [[E|[E1 E2]]|[E|[E1 E2]]]; auto; right; split; auto; lia.
      * intros [[E|E]|[E1 E2]]; auto. destruct (Z_lt_dec x (rJ r)) as [X|X]; [left; right; split; auto; lia|].
        destruct (Z.eq_dec x (rJ r)) as [-> |X2]; [left; left; reflexivity|]. right. right. split; auto. lia.
Qed.

Lemma cuts_chain M ps inters : forall ch lo hi, 0 <= lo -> hi < zlen ps -> chain lo hi ch -> (forall c, In c inters -> location_on_hulls M ps c) ->
  chain lo hi (r_cuts M ps inters ch) /\
  forall x, cut (r_cuts M ps inters ch) x <-> cut ch x \/ (In x (flat_map snd inters) /\ lo < x < hi).
Proof.
  unfold r_cuts. induction inters as [|c inters IH]; intros ch lo hi Hlo Hhi H Hon; cbn [fold_left flat_map].
  - split; [exact H|]. intros x. cbn [In]. tauto.
  - destruct (cut_chain M ps (fst c) (snd c)) with (ch := ch) (lo := lo) (hi := hi) as [A B]; auto.
    { destruct c. apply Hon. left. reflexivity. }
    destruct (IH _ lo hi Hlo Hhi A) as [C D]; [intros; apply Hon; right; auto|]. split; [exact C|].
    intros x. rewrite D, B, in_app_iff. tauto.
Qed.

Section Run.
  Variables (L L' : geomlib) (P : point -> point -> Prop) (C : geometry -> geometry -> Prop) (o o' : opts).
  Hypothesis HA : alike L L' P C o o'.
  Hypothesis HS : same_switches o o'.
  Variables (pts pts' : list point) (cs cs' : list geometry) (score score' : scorefn) (rel rel' : f64 -> bool).
  Hypothesis Hpts : Forall2 P pts pts'.
  Hypothesis Hcs : Forall2 C cs cs'.
  Hypothesis HB : sound_boxes L pts cs.
  Hypothesis HB' : sound_boxes L' pts' cs'.
  Hypothesis Hsc : scores_alike pts pts' score score' rel rel'.
  Hypothesis Hsplit : splits_inside score rel.
  Hypothesis Hinner : forall r, piece pts r -> 1 < rJ r - rI r -> 0 < fst (score (sub_coords pts r)) < rJ r - rI r.

  Lemma len_eq : zlen pts' = zlen pts.
  Proof. apply (Forall2_len P). exact Hpts. Qed.
  Lemma piece_eq r : piece pts r -> piece pts' r.
  Proof. unfold piece. rewrite len_eq. auto. Qed.

  Lemma hl_img r : piece pts r -> img L L' P (hl L pts r) (hl L' pts' r).
  Proof.
    intros (A & B & D). split; cbn [hl create_node n_rng n_coords n_geom]; auto.
    - unfold clen, sub_coords. cbn [cidxs]. rewrite zseq_len by lia. lia.
    - unfold cpts, sub_coords. cbn [cidxs cpnts].
      assert (K : forall l, (forall k, In k l -> 0 <= k < zlen pts) ->
        Forall2 P (map (fun k => nth (Z.to_nat k) pts origin) l) (map (fun k => nth (Z.to_nat k) pts' origin) l)).
      { induction l as [|k l IH]; intros H; cbn [map]; constructor.
        - apply Forall2_nth; auto. specialize (H k (or_introl eq_refl)). unfold zlen in H. lia.
        - apply IH. intros; apply H; right; auto. }
      apply K. intros k Hk. apply zseq_mem in Hk. lia.
  Qed.

  Lemma hl_geom M ps r : n_geom (hl M ps r) = piece_hull M ps r.
  Proof. reflexivity. Qed.

  Lemma big_eq r : piece pts r -> r_big L' pts' r = r_big L pts r.
  Proof.
    intros H. unfold r_big. f_equal. f_equal. apply kind_line.
    exact (proj2 (img_geom L L' P C o o' HA _ _ (hl_img r H))).
  Qed.

  Lemma flags_eq a b : o_avoid_self o = true -> piece pts a -> piece pts b -> r_flags L' pts' o' a b = r_flags L pts o a b.
  Proof.
    intros Hav Ha Hb. unfold r_flags. rewrite (pair_img L L' P C o o' HA Hav _ _ _ _ (hl_img a Ha) (hl_img b Hb)). reflexivity.
  Qed.

  Lemma flags_meet M ps op a b : r_flags M ps op a b <> (false, false) -> gl_isect M (piece_hull M ps a) (piece_hull M ps b) = true.
  Proof.
    unfold r_flags, pair_candidates. cbn [negb orb]. unfold is_contiguous. rewrite !hl_geom.
    destruct (gl_isect M (piece_hull M ps a) (piece_hull M ps b)); [reflexivity|]. cbn. intros K. exfalso. apply K. reflexivity.
  Qed.

  Lemma near_meet M ps ks a b : sound_boxes M ps ks -> piece ps a -> piece ps b ->
    gl_isect M (piece_hull M ps a) (piece_hull M ps b) = true -> r_near M ps a b = negb (rng_eqb b a).
  Proof.
    intros H Ha Hb Hi. destruct (sb_near _ _ _ H a b Ha Hb Hi) as [E1 E2]. unfold r_near, hl, create_node. cbn [n_mbr n_geom].
    unfold piece_hull, points_of in *. unfold cpts, sub_coords. cbn [cidxs cpnts]. rewrite E1, E2. rewrite andb_true_r. reflexivity.
  Qed.

  Lemma near_flags a b (f : bool * bool -> bool) : f (false, false) = false -> o_avoid_self o = true -> piece pts a -> piece pts b ->
    r_near L' pts' a b && f (r_flags L' pts' o' a b) = r_near L pts a b && f (r_flags L pts o a b).
  Proof.
    intros Hf Hav Ha Hb. rewrite (flags_eq a b Hav Ha Hb). destruct (r_flags L pts o a b) as [x y] eqn:Efl.
    destruct (bool_dec (x || y) false) as [E|E].
    - destruct x, y; try discriminate. rewrite Hf, !andb_false_r. reflexivity.
    - assert (N : (x, y) <> (false, false)) by (intros K; injection K as -> ->; auto).
      rewrite (near_meet L pts cs a b HB Ha Hb). 2: { apply (flags_meet L pts o). rewrite Efl. exact N. }
      rewrite (near_meet L' pts' cs' a b HB' (piece_eq _ Ha) (piece_eq _ Hb)). 2: { apply (flags_meet L' pts' o'). rewrite (flags_eq a b Hav Ha Hb), Efl. exact N. }
      reflexivity.
  Qed.

  Lemma near_follow a b : piece pts a -> piece pts b -> rJ a = rI b \/ rJ b = rI a -> r_near L' pts' a b = r_near L pts a b.
  Proof.
    intros Ha Hb H. rewrite (near_meet L pts cs a b HB Ha Hb) by (apply (sb_follow _ _ _ HB); auto).
    rewrite (near_meet L' pts' cs' a b HB' (piece_eq _ Ha) (piece_eq _ Hb)) by (apply (sb_follow _ _ _ HB'); auto using piece_eq). reflexivity.
  Qed.

  Lemma enclose_sub M c k k' : boxes_enclose M c k -> (forall g, In g k' -> In g k) -> boxes_enclose M c k'.
  Proof. intros H Hk a b d g Ha Hb Hd Hg. apply H; auto. Qed.

  Lemma valid_eq r : piece pts r -> r_valid L' pts' o' cs' r = r_valid L pts o cs r.
  Proof.
    intros H. unfold r_valid. pose proof (img_geom L L' P C o o' HA _ _ (hl_img r H)) as [Cg _].
    apply (rel_ok_img L L' P C o o' HA HS); [apply hl_img; exact H| | |].
    - apply Forall2_filter; [|exact Hcs]. intros g g' Hg. exact (proj1 (proj2 (al_dist _ _ _ _ _ _ HA _ _ _ _ Cg Hg))).
    - eapply enclose_sub; [exact (sb_triangle _ _ _ HB r H)|]. intros g Hg. apply filter_In in Hg. tauto.
    - eapply enclose_sub; [exact (sb_triangle _ _ _ HB' r (piece_eq _ H))|]. intros g Hg. apply filter_In in Hg. tauto.
  Qed.

  Lemma existsb_eq {A} (f g : A -> bool) l : (forall x, In x l -> f x = g x) -> existsb f l = existsb g l.
  Proof. intros H. induction l as [|x l IH]; cbn; [reflexivity|]. rewrite H, IH; cbn; auto. intros; apply H; right; auto. Qed.
  Lemma forallb_eq {A} (f g : A -> bool) l : (forall x, In x l -> f x = g x) -> forallb f l = forallb g l.
  Proof. intros H. induction l as [|x l IH]; cbn; [reflexivity|]. rewrite H, IH; cbn; auto. intros; apply H; right; auto. Qed.
  Lemma flat_map_eq {A B} (f g : A -> list B) l : (forall x, In x l -> f x = g x) -> flat_map f l = flat_map g l.
  Proof. intros H. induction l as [|x l IH]; cbn; [reflexivity|]. rewrite H, IH; cbn; auto. intros; apply H; right; auto. Qed.
  Lemma find_eq {A} (f g : A -> bool) l : (forall x, In x l -> f x = g x) -> find f l = find g l.
  Proof. intros H. induction l as [|x l IH]; cbn; [reflexivity|]. rewrite H, IH; cbn; auto. intros; apply H; right; auto. Qed.

  Notation pieces := (Forall (piece pts)).

  Lemma checked_eq ch h r : pieces ch -> piece pts h -> r_checked L' pts' o' cs' ch h r = r_checked L pts o cs ch h r.
  Proof.
    intros Hch Hh. unfold r_checked. rewrite (big_eq h Hh), (valid_eq h Hh). destruct HS as (_ & _ & Ea & _). rewrite Ea.
    destruct (o_avoid_self o) eqn:Hav; cbn [andb]; [|reflexivity]. f_equal. f_equal.
    apply existsb_eq. intros x Hx. rewrite Forall_forall in Hch.
    apply (near_flags h x (fun p => (fst p && rng_eqb r h) || (snd p && rng_eqb r x))); auto.
  Qed.
  Lemma sel_eq D ch r : pieces D -> pieces ch -> r_sel L' pts' o' cs' D ch r = r_sel L pts o cs D ch r.
  Proof. intros HD Hch. unfold r_sel. apply existsb_eq. intros h Hh. rewrite Forall_forall in HD. apply checked_eq; auto. Qed.
  Lemma halves_eq r : piece pts r -> r_halves pts' score' r = r_halves pts score r.
  Proof. intros H. unfold r_halves. rewrite (proj1 (Hsc r H)). reflexivity. Qed.
  Lemma halves_pieces r : piece pts r -> pieces (r_halves pts score r).
  Proof.
    intros H. unfold r_halves. destruct (Z.ltb_spec 1 (rsize r)) as [K|K]; [|constructor; [exact H|constructor]].
    unfold rsize in K. pose proof (Hinner r H K) as I. cbv zeta. destruct H as (A & B & D).
    repeat constructor; cbn [rI rJ]; unfold piece; cbn [rI rJ]; lia.
  Qed.
  Lemma pieces_flat {A} (f : A -> list rng) l : (forall x, In x l -> pieces (f x)) -> pieces (flat_map f l).
  Proof. intros H. apply Forall_forall. intros x Hx. apply in_flat_map in Hx. destruct Hx as (y & Hy & Hx). specialize (H y Hy). rewrite Forall_forall in H. auto. Qed.
  Lemma pieces_filter f l : pieces l -> pieces (filter f l).
  Proof. intros H. rewrite Forall_forall in *. intros x Hx. apply filter_In in Hx. apply H. tauto. Qed.

  Lemma rounds_eq D ch c : r_rounds L pts o score cs D ch c -> pieces D -> pieces ch ->
    r_rounds L' pts' o' score' cs' D ch c /\ pieces c.
  Proof.
    induction 1 as [D ch H|D ch c H H1 IH]; intros HD Hch.
    - split; [|exact Hch]. constructor. rewrite <- H. apply filter_ext. intros r. apply sel_eq; auto.
    - assert (E : filter (r_sel L' pts' o' cs' D ch) ch = filter (r_sel L pts o cs D ch) ch) by (apply filter_ext; intros; apply sel_eq; auto).
      assert (E2 : filter (fun r => negb (r_sel L' pts' o' cs' D ch r)) ch = filter (fun r => negb (r_sel L pts o cs D ch r)) ch)
        by (apply filter_ext; intros; rewrite sel_eq by auto; reflexivity).
      assert (Hs : pieces (filter (r_sel L pts o cs D ch) ch)) by (apply pieces_filter; auto).
      assert (E3 : flat_map (r_halves pts' score') (filter (r_sel L pts o cs D ch) ch) = flat_map (r_halves pts score) (filter (r_sel L pts o cs D ch) ch)).
      { apply flat_map_eq. intros x Hx. apply halves_eq. rewrite Forall_forall in Hs. auto. }
      assert (Hh : pieces (flat_map (r_halves pts score) (filter (r_sel L pts o cs D ch) ch))).
      { apply pieces_flat. intros x Hx. apply halves_pieces. rewrite Forall_forall in Hs. auto. }
      destruct IH as [I1 I2]; auto; [apply Forall_app; split; auto; apply pieces_filter; auto|]. split; [|exact I2].
      apply R_next; rewrite E; auto. rewrite E2, E3. exact I1.
  Qed.

  Lemma tree_eq r l : tree pts score rel r l -> piece pts r -> tree pts' score' rel' r l /\ pieces l.
  Proof.
    induction 1 as [r A|r l1 l2 A H1 IH1 H2 IH2]; intros Hr; destruct (Hsc r Hr) as [S1 S2].
    - split; [|repeat constructor; apply Hr]. apply T_leaf. rewrite S2. exact A.
    - assert (K : 0 < fst (score (sub_coords pts r)) < rJ r - rI r).
      { assert (Ec : clen (sub_coords pts r) = rJ r - rI r + 1) by (unfold clen, sub_coords; cbn [cidxs]; destruct Hr as (? & ? & ?); apply zseq_len; lia).
        destruct (Hsplit (sub_coords pts r)) as [B|B]; [rewrite Ec; destruct Hr; lia|congruence|]. rewrite Ec in B. lia. }
      destruct IH1 as [I1 I2]; [destruct Hr as (? & ? & ?); unfold piece; cbn [rI rJ]; lia|].
      destruct IH2 as [J1 J2]; [destruct Hr as (? & ? & ?); unfold piece; cbn [rI rJ]; lia|].
      split; [|apply Forall_app; auto]. apply T_node; rewrite ?S1, ?S2; auto.
  Qed.

  (** Cuts at forced vertices. *)
  Lemma chain_pieces l : forall lo hi, 0 <= lo -> hi < zlen pts -> chain lo hi l -> pieces l.
  Proof.
    induction l as [|r l IH]; intros lo hi Hlo Hhi H; cbn [chain] in H; [constructor|]. destruct H as (A & B & D).
    pose proof (chain_le _ _ _ D). constructor; [unfold piece; lia|]. apply (IH (rJ r) hi); auto. lia.
  Qed.

  Variables N N' : lnr_oracle.
  Variable verts : list Z.
  Hypothesis Hverts : Forall (fun k => 0 <= k < zlen pts) verts.
  Let found := self_intersection L (lo_sort N) (lo_segx N) (lo_near N pts) true (o_non_planar_self o) pts.
  Let found' := self_intersection L' (lo_sort N') (lo_segx N') (lo_near N' pts') true (o_non_planar_self o') pts'.
  Hypothesis Hforced : o_planar_self o = true -> forall k, In k (flat_map snd found) <-> In k (flat_map snd found').
  Hypothesis Hon : o_planar_self o = true ->
    forall c, In c (found ++ map (fun k => (nth (Z.to_nat k) pts origin, [k])) verts) -> location_on_hulls L pts c.
  Hypothesis Hon' : o_planar_self o = true ->
    forall c, In c (found' ++ map (fun k => (nth (Z.to_nat k) pts' origin, [k])) verts) -> location_on_hulls L' pts' c.

  Lemma consts_set M ps fnd : Forall (fun k => 0 <= k < zlen ps) verts ->
    (forall c, In c (fnd ++ map (fun k => (nth (Z.to_nat k) ps origin, [k])) verts) -> location_on_hulls M ps c) ->
    exists vset inters, add_const_verts ps verts (flat_map snd fnd) fnd = Ok (vset, inters) /\
      (forall k, In k vset <-> In k (flat_map snd fnd) \/ In k verts) /\
      (forall k, In k (flat_map snd inters) <-> In k (flat_map snd fnd) \/ In k verts) /\
      (forall c, In c inters -> location_on_hulls M ps c).
  Proof.
    intros Hv Ho. destruct (add_const_spec ps verts (flat_map snd fnd) fnd Hv) as (vset & extra & E & A & B & D).
    exists vset, (fnd ++ extra). split; [exact E|]. split; [exact A|]. split.
    - intros k. rewrite flat_map_app, in_app_iff. split.
      + intros [K|K]; [auto|]. apply in_flat_map in K. destruct K as (c & Hc & Hk). destruct (D c Hc) as (m & p & -> & Hm & _).
        destruct Hk as [<- |[]]. auto.
      + intros K. apply A in K. destruct (B k K) as [K'|(c & Hc & Hk)]; [auto|]. right. apply in_flat_map. eauto.
    - intros c Hc. apply in_app_iff in Hc. apply Ho, in_app_iff. destruct Hc as [Hc|Hc]; [auto|]. right.
      destruct (D c Hc) as (m & p & -> & Hm & Hz). apply in_map_iff. exists m. split; [|exact Hm]. f_equal.
      unfold znth in Hz. destruct (m <? 0); [discriminate|]. apply nth_error_nth with (d := origin) in Hz. exact Hz.
  Qed.

  Lemma self_eq ch0 ch1 cvs : r_self L pts o N verts ch0 ch1 cvs -> chain 0 (zlen pts - 1) ch0 ->
    r_self L' pts' o' N' verts ch0 ch1 cvs /\ pieces ch1.
  Proof.
    intros H Hch. unfold r_self in *. destruct HS as (Ep & _). rewrite Ep. destruct (o_planar_self o) eqn:Hpl.
    - destruct H as (vset & inters & E & -> & ->). cbv zeta in E.
      destruct (consts_set L pts found Hverts (Hon eq_refl)) as (v1 & i1 & E1 & A1 & B1 & D1).
      change (add_const_verts pts verts (flat_map snd found) found = Ok (vset, inters)) in E. rewrite E1 in E. injection E as <- <-.
      assert (Hv' : Forall (fun k => 0 <= k < zlen pts') verts) by (rewrite len_eq; exact Hverts).
      destruct (consts_set L' pts' found' Hv' (Hon' eq_refl)) as (v2 & i2 & E2 & A2 & B2 & D2).
      destruct (cuts_chain L pts i1 ch0 0 (zlen pts - 1)) as [C1 C2]; auto; try lia.
      destruct (cuts_chain L' pts' i2 ch0 0 (zlen pts - 1)) as [F1 F2]; auto; try (rewrite ?len_eq; lia).
      split; [|apply (chain_pieces _ 0 (zlen pts - 1)); [lia|lia|exact C1]].
      exists v2, i2. cbv zeta. split; [exact E2|]. split.
      + apply increasing_ext; [apply zset_incr|apply zset_incr|]. intros k. rewrite !zset_in, A1, A2, (Hforced eq_refl k). reflexivity.
      + apply (chain_cut_eq _ 0 (zlen pts - 1)); auto. intros x. rewrite C2, F2, B1, B2, (Hforced eq_refl x). reflexivity.
    - destruct H as [-> ->]. split; [auto|]. apply (chain_pieces _ 0 (zlen pts - 1)); [lia|lia|exact Hch].
  Qed.

  (** Merging. *)
  Lemma merge_valid_eq base m : pieces base -> piece pts m -> r_merge_valid L' pts' o' cs' base m = r_merge_valid L pts o cs base m.
  Proof.
    intros Hb Hm. unfold r_merge_valid. rewrite (valid_eq m Hm). f_equal. destruct HS as (_ & _ & Ea & _). rewrite Ea.
    destruct (o_avoid_self o) eqn:Hav; cbn [negb orb]; [|reflexivity]. apply forallb_eq. intros x Hx. rewrite Forall_forall in Hb.
    pose proof (near_flags m x (fun p => fst p || snd p) eq_refl Hav Hm (Hb x Hx)) as K.
    destruct (r_near L' pts' m x), (r_near L pts m x), (r_flags L' pts' o' m x) as [[] []], (r_flags L pts o m x) as [[] []]; cbn in *; congruence.
  Qed.
  Lemma prev_eq r ch : piece pts r -> pieces ch -> r_prev L' pts' r ch = r_prev L pts r ch.
  Proof.
    intros Hr Hch. unfold r_prev. apply find_eq. intros x Hx. rewrite Forall_forall in Hch. destruct (Z.eqb_spec (rJ x) (rI r)) as [E|E].
    - rewrite near_follow; auto.
    - rewrite !andb_false_r. reflexivity.
  Qed.
  Lemma next_eq r ch : piece pts r -> pieces ch -> r_next L' pts' r ch = r_next L pts r ch.
  Proof.
    intros Hr Hch. unfold r_next. apply find_eq. intros x Hx. rewrite Forall_forall in Hch. destruct (Z.eqb_spec (rI x) (rJ r)) as [E|E].
    - rewrite near_follow; auto.
    - rewrite !andb_false_r. reflexivity.
  Qed.
  Lemma prev_piece r ch p : piece pts r -> pieces ch -> r_prev L pts r ch = Some p -> piece pts p /\ rJ p = rI r.
  Proof.
    intros Hr Hch E. apply find_some in E. destruct E as [E1 E2]. rewrite Forall_forall in Hch. apply andb_prop in E2. split; auto. lia.
  Qed.
  Lemma next_piece r ch p : piece pts r -> pieces ch -> r_next L pts r ch = Some p -> piece pts p /\ rI p = rJ r.
  Proof.
    intros Hr Hch E. apply find_some in E. destruct E as [E1 E2]. rewrite Forall_forall in Hch. apply andb_prop in E2. split; auto. lia.
  Qed.
  Lemma try_eq e ab cache : (forall a b, ab = Some (a, b) -> piece pts (Rng (rI a) (rJ b))) ->
    r_try pts' score' rel' e ab cache = r_try pts score rel e ab cache.
  Proof.
    intros H. unfold r_try. destruct e; [|reflexivity]. destruct ab as [[a b]|]; [|reflexivity]. destruct (existsb _ cache); [reflexivity|].
    rewrite (proj2 (Hsc _ (H a b eq_refl))). reflexivity.
  Qed.
  Lemma try_some e ab cache m : fst (r_try pts score rel e ab cache) = Some m -> exists a b, ab = Some (a, b) /\ m = Rng (rI a) (rJ b).
  Proof.
    unfold r_try. destruct e; [|discriminate]. destruct ab as [[a b]|]; [|discriminate]. destruct (existsb _ cache); [discriminate|].
    cbn [fst]. destruct (rel _); [|discriminate]. intros E. injection E as <-. eauto.
  Qed.
  Lemma without_pieces r ch : pieces ch -> pieces (r_without r ch).
  Proof. apply pieces_filter. Qed.

  Lemma step_eq cvs r rest ch cache : piece pts r -> pieces rest -> pieces ch ->
    r_step L' pts' o' score' rel' cs' cvs r rest ch cache = r_step L pts o score rel cs cvs r rest ch cache /\
    let '(rest2, ch2, _) := r_step L pts o score rel cs cvs r rest ch cache in pieces rest2 /\ pieces ch2.
  Proof.
    intros Hr Hrest Hch. unfold r_step. destruct (negb (rsize r =? 1)); [auto|]. destruct (zmem (rI r) cvs && zmem (rJ r) cvs); [auto|].
    cbv zeta. pose proof (without_pieces r ch Hch) as H1. rewrite (prev_eq r _ Hr H1), (next_eq r _ Hr H1).
    assert (Hprev : forall p, r_prev L pts r (r_without r ch) = Some p -> piece pts p /\ rJ p = rI r) by (intros p; apply prev_piece; auto).
    assert (Hnext : forall p, r_next L pts r (r_without r ch) = Some p -> piece pts p /\ rI p = rJ r) by (intros p; apply next_piece; auto).
    set (prev := r_prev L pts r (r_without r ch)) in *. set (nxt := r_next L pts r (r_without r ch)) in *. clearbody prev nxt.
    assert (G1 : forall a b, match prev with Some p => Some (p, r) | None => None end = Some (a, b) -> piece pts (Rng (rI a) (rJ b))).
    { intros a b E. destruct prev as [p|]; [|discriminate]. injection E as <- <-. destruct (Hprev p eq_refl) as [(A & B & D) F]. destruct Hr as (A' & B' & D').
      unfold piece. cbn [rI rJ]. lia. }
    assert (G2 : forall a b, match nxt with Some p => Some (r, p) | None => None end = Some (a, b) -> piece pts (Rng (rI a) (rJ b))).
    { intros a b E. destruct nxt as [p|]; [|discriminate]. injection E as <- <-. destruct (Hnext p eq_refl) as [(A & B & D) F]. destruct Hr as (A' & B' & D').
      unfold piece. cbn [rI rJ]. lia. }
    rewrite (try_eq _ _ cache G1).
    destruct (r_try pts score rel (negb (zmem (rI r) cvs)) _ cache) as [mprev cache1] eqn:T1.
    assert (M1 : forall m, mprev = Some m -> piece pts m).
    { intros m ->. destruct (try_some _ _ _ m (f_equal fst T1)) as (a & b & E & ->). apply G1. exact E. }
    rewrite (try_eq _ _ cache1 G2).
    destruct (r_try pts score rel (negb (zmem (rJ r) cvs)) _ cache1) as [mnext cache2] eqn:T2.
    assert (M2 : forall m, mnext = Some m -> piece pts m).
    { intros m ->. destruct (try_some _ _ _ m (f_equal fst T2)) as (a & b & E & ->). apply G2. exact E. }
    clear T1 T2 G1 G2.
    assert (Htl : pieces (tl rest)) by (destruct Hrest; cbn [tl]; auto).
    assert (Last : forall base, pieces base ->
      match mprev, prev with
      | Some m, Some p => if r_merge_valid L' pts' o' cs' (r_without p base) m then (rest, m :: r_without p (r_without r ch), cache2) else (rest, ch, cache2)
      | _, _ => (rest, ch, cache2) end =
      match mprev, prev with
      | Some m, Some p => if r_merge_valid L pts o cs (r_without p base) m then (rest, m :: r_without p (r_without r ch), cache2) else (rest, ch, cache2)
      | _, _ => (rest, ch, cache2) end /\
      let '(rest2, ch2, _) := match mprev, prev with
      | Some m, Some p => if r_merge_valid L pts o cs (r_without p base) m then (rest, m :: r_without p (r_without r ch), cache2) else (rest, ch, cache2)
      | _, _ => (rest, ch, cache2) end in pieces rest2 /\ pieces ch2).
    { intros base Hbase. destruct mprev as [m|]; [|auto]. destruct prev as [p|]; [|auto].
      rewrite merge_valid_eq by auto using without_pieces. split; [reflexivity|].
      destruct (r_merge_valid L pts o cs (r_without p base) m); auto. split; auto. constructor; auto. apply without_pieces; auto. }
    destruct mnext as [m|]; [|apply Last; auto]. destruct nxt as [n|]; [|apply Last; auto].
    rewrite merge_valid_eq by auto using without_pieces.
    destruct (r_merge_valid L pts o cs (r_without n (r_without r ch)) m).
    - split; [reflexivity|]. split; auto. constructor; auto using without_pieces.
    - apply Last. auto using without_pieces.
  Qed.

  Lemma agg_eq cvs fuel : forall objects ch cache, pieces objects -> pieces ch ->
    r_agg L' pts' o' score' rel' cs' fuel cvs objects ch cache = r_agg L pts o score rel cs fuel cvs objects ch cache.
  Proof.
    induction fuel as [|f IH]; intros objects ch cache Ho Hc; cbn [r_agg]; [reflexivity|]. destruct objects as [|r rest]; [reflexivity|].
    inversion Ho; subst. destruct (step_eq cvs r rest ch cache) as [E K]; auto. rewrite E.
    destruct (r_step L pts o score rel cs cvs r rest ch cache) as [[rest2 ch2] cache2]. destruct K. apply IH; auto.
  Qed.

  Lemma result_eq R : (2 <= length pts)%nat -> r_result L pts o score rel cs N verts R -> r_result L' pts' o' score' rel' cs' N' verts R.
  Proof.
    intros H2 (ch0 & ch1 & cvs & ch2 & sorted & A & B & D & E & F & ->).
    destruct (tree_eq _ _ A) as [A1 A2]; [unfold piece, zlen; cbn [rI rJ]; lia|].
    destruct (self_eq ch0 ch1 cvs B) as [B1 B2].
    { apply (tree_chain _ _ _ (Rng 0 (zlen pts - 1)) _ Hsplit A). cbn [rI rJ]. unfold zlen. lia. }
    destruct (rounds_eq _ _ _ D B2 B2) as [D1 D2].
    exists ch0, ch1, cvs, ch2, sorted. rewrite !len_eq. split; [exact A1|]. split; [exact B1|]. split; [exact D1|]. split; [exact E|]. split; [exact F|].
    symmetry. apply agg_eq; auto. rewrite Forall_forall in *. intros x Hx. apply D2. eapply Permutation_in; [symmetry; exact E|exact Hx].
  Qed.
End Run.
