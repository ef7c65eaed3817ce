(** The pairwise checks decide [line_conflict] and [class_conflict]. *)
From Verif Require Import M_Base M_Float M_Rng M_Geom M_Node M_Deform Spec_Deform P_Deform.
From Coq Require Import Lia ZArith.
Open Scope Z_scope.

Lemma ends_meet_iff L a b : ends_meet L a b = true <-> share_an_end L a b.
Proof.
  unfold ends_meet, share_an_end, is_end_of, same_place. rewrite !orb_true_iff. split.
  - intros [[[H|H]|H]|H]; eauto 8.
  - intros (p & q & [-> | ->] & [-> | ->] & H); auto.
Qed.

Lemma contig_loop_iff L a b pts : contig_loop L a b pts false = true <->
  share_an_end L a b /\ exists p q, In p pts /\ (is_end_of a q \/ is_end_of b q) /\ same_place L p q.
Proof.
  induction pts as [|x r IH]; cbn [contig_loop].
  - split; [discriminate|]. intros (_ & p & q & [] & _).
  - assert (Hx : ((gl_eq2d L x (cfirst (n_coords a)) || gl_eq2d L x (clast (n_coords a)))
              || (gl_eq2d L x (cfirst (n_coords b)) || gl_eq2d L x (clast (n_coords b)))) = true <->
              exists q, (is_end_of a q \/ is_end_of b q) /\ same_place L x q).
    { unfold is_end_of, same_place. rewrite !orb_true_iff. split.
      - intros [[H|H]|[H|H]]; eauto 8.
      - intros (q & [[-> | ->]|[-> | ->]] & H); auto. }
    destruct (_ || _) eqn:E.
    + destruct (proj1 Hx eq_refl) as (q & Hq). destruct (ends_meet L a b) eqn:Em.
      * apply ends_meet_iff in Em. split; [|auto]. intros _. split; [exact Em|]. exists x, q. cbn; tauto.
      * rewrite IH. rewrite <- ends_meet_iff, Em. split; intros (K & _); discriminate.
    + rewrite IH. split; intros (K & p & q & Hp & Hq & Hs); (split; [exact K|]).
      * exists p, q. cbn; auto.
      * destruct Hp as [<- |Hp]; [|exists p, q; auto]. exfalso.
        assert (false = true); [|discriminate]. apply Hx. exists q. auto.
Qed.

(** What is needed of the comparison of points: the ends of b compare equal to themselves. *)
Definition places_at (L : geomlib) (a b : node) : Prop :=
  forall p q, is_end_of a p -> is_end_of b q -> same_place L p q -> same_place L q q.

Lemma collapsible_iff L a b : places_at L a b -> hullish a ->
  (exists r, collapsible L a b = Ok r) -> (collapsible L a b = Ok false <-> swallows L a b).
Proof.
  intros Hs [x Hx] [r Hr]. unfold collapsible in *. unfold swallows.
  assert (R : rsize (n_rng a) = rJ (n_rng a) - rI (n_rng a)) by reflexivity. rewrite R in *.
  destruct (Z.eqb_spec (rJ (n_rng a) - rI (n_rng a)) 1) as [E|E].
  { split; [discriminate|]. intros (? & ? & ? & _ & K & _). contradiction. }
  destruct (is_line (n_geom a)) eqn:El.
  { split; [discriminate|]. intros (? & ? & ? & K & _). rewrite K in El. discriminate. }
  cbv zeta in *.
  set (ai := cfirst (n_coords a)) in *. set (aj := clast (n_coords a)) in *.
  set (bi := cfirst (n_coords b)) in *. set (bj := clast (n_coords b)) in *.
  assert (J : forall q, gl_eq2d L ai q || gl_eq2d L aj q = true <-> exists p, is_end_of a p /\ same_place L p q).
  { intros q. unfold is_end_of, same_place. fold ai aj. rewrite orb_true_iff. split; [intros [H|H]; eauto|].
    intros (p & [-> | ->] & H); auto. }
  assert (Lo : forall t, loose_end L a b t <->
     match (if gl_eq2d L ai bi || gl_eq2d L aj bi then Some bi
            else if gl_eq2d L ai bj || gl_eq2d L aj bj then Some bj else None) with
     | Some c => t = (if gl_eq2d L c bj then bi else bj) | None => False end).
  { intros t. unfold loose_end. cbv zeta. fold bi bj. pose proof (J bi) as Ji. pose proof (J bj) as Jj.
    unfold same_place in *.
    destruct (gl_eq2d L ai bi || gl_eq2d L aj bi) eqn:Ei.
    - assert (Q : exists p, is_end_of a p /\ gl_eq2d L p bi = true) by (apply Ji; reflexivity).
      destruct (gl_eq2d L bi bj) eqn:Eb; split; try tauto; intuition congruence.
    - destruct (gl_eq2d L ai bj || gl_eq2d L aj bj) eqn:Ej.
      + assert (Q : exists p, is_end_of a p /\ gl_eq2d L p bj = true) by (apply Jj; reflexivity).
        destruct Q as (p & Qp & Qe). pose proof (Hs p bj Qp (or_intror eq_refl) Qe) as Ebb. unfold same_place in Ebb. rewrite Ebb.
        assert (~ exists p, is_end_of a p /\ gl_eq2d L p bi = true) by (intros K; apply Ji in K; discriminate).
        split; [tauto|]. intros ->. right; right. split; [auto|]. split; [exists p; auto|reflexivity].
      + assert (~ exists p, is_end_of a p /\ gl_eq2d L p bi = true) by (intros K; apply Ji in K; discriminate).
        assert (~ exists p, is_end_of a p /\ gl_eq2d L p bj = true) by (intros K; apply Jj in K; discriminate).
        tauto. }
  destruct (if gl_eq2d L ai bi || gl_eq2d L aj bi then Some bi else _) as [c|] eqn:Ec.
  - destruct (n_geom a) as [| | |[|shell holes]] eqn:Eg; try discriminate.
    split.
    + intros K. injection K as K. apply negb_false_iff in K. exists shell, holes, (if gl_eq2d L c bj then bi else bj).
      split; [reflexivity|]. split; [exact E|]. split; [apply Lo; reflexivity|exact K].
    + intros (s & hl & t & K1 & _ & K2 & K3). injection K1 as <- <-. apply Lo in K2. subst t. rewrite K3. reflexivity.
  - split; [discriminate|]. intros (s & hl & t & _ & _ & K2 & _). apply Lo in K2. contradiction.
Qed.

Lemma non_contiguous_iff L disp a b v (nbrs : Prop) : ~ nbrs ->
  (fst (non_contiguous_candidates L disp a b) = Some v \/ snd (non_contiguous_candidates L disp a b) = Some v) <->
  must_change L disp nbrs a b v.
Proof.
  intros Hn. unfold non_contiguous_candidates.
  destruct (gl_isect L (n_line a) (n_line b)) eqn:Ell.
  - rewrite !andb_false_r. cbn [negb].
    assert (D : displaced L disp a b <->
      ((zlen (gl_inter L (n_seg a) (n_seg b)) =? 0) && (0 <? zlen (gl_inter L (n_line a) (n_line b))) = true \/
       existsb (fun p => existsb (fun q => fgt (gl_ptdist L p q) disp) (gl_inter L (n_seg a) (n_seg b)))
         (gl_inter L (n_line a) (n_line b)) = true)).
    { unfold displaced. rewrite Ell. rewrite andb_true_iff, Z.eqb_eq, Z.ltb_lt, existsb_exists. split.
      - intros (_ & [[K1 K2]|(p & q & K1 & K2 & K3)]).
        + left. rewrite K2. split; [reflexivity|]. unfold zlen. destruct (gl_inter L (n_line a) (n_line b)); [contradiction|cbn [length]; lia].
        + right. exists p. split; [exact K1|]. apply existsb_exists. eauto.
      - intros [[K1 K2]|(p & K1 & K2)]; (split; [reflexivity|]).
        + left. unfold zlen in *. split; [intros K; rewrite K in K2; cbn in K2; lia|].
          destruct (gl_inter L (n_seg a) (n_seg b)); [reflexivity|cbn [length] in K1; lia].
        + right. apply existsb_exists in K2. destruct K2 as (q & K2 & K3). eauto. }
    assert (M : must_change L disp nbrs a b v <-> displaced L disp a b /\ (v = a \/ v = b)).
    { split; [|intros [K1 K2]; apply mc_both; auto]. intros M.
      inversion M; subst; auto; try contradiction; unfold new_crossing in *; destruct H0; congruence. }
    rewrite M, D. destruct (_ && _); [cbn [fst snd]; intuition congruence|].
    destruct (existsb _ _); cbn [fst snd]; intuition congruence.
  - cbn [negb]. rewrite !andb_true_r.
    assert (M : must_change L disp nbrs a b v <->
      gl_isect L (n_seg a) (n_seg b) = true /\
      ((gl_isect L (n_seg a) (n_line b) = true /\ v = a) \/
       (gl_isect L (n_seg a) (n_line b) = false /\ gl_isect L (n_seg b) (n_line a) = true /\ v = b))).
    { split.
      - intros M. inversion M; subst; try contradiction.
        + destruct H0. auto.
        + destruct H0. auto.
        + destruct H0. congruence.
      - intros (K & [[K1 ->]|(K1 & K2 & ->)]).
        + apply mc_first; auto. split; auto.
        + apply mc_second; auto. split; auto. }
    rewrite M. destruct (gl_isect L (n_seg a) (n_seg b)), (gl_isect L (n_seg a) (n_line b)), (gl_isect L (n_seg b) (n_line a));
      cbn [andb fst snd]; intuition congruence.
Qed.

Lemma contiguous_iff L disp a b v (nbrs : Prop) : places_at L a b -> places_at L b a -> point_touch L -> hullish a -> hullish b ->
  nbrs -> (2 <= length (gl_inter L (n_geom a) (n_geom b)))%nat ->
  (exists sa sb, contiguous_candidates L a b = Ok (sa, sb) /\ (sa = Some v \/ sb = Some v)) <->
  must_change L disp nbrs a b v.
Proof.
  intros Hs Hs' Ht Ha Hb Hn Hlen.
  assert (Hpa : forall p, n_geom a <> GPoint p) by (intros p K; rewrite K in Hlen; destruct (Ht p (n_geom b)) as [K1 _]; lia).
  assert (Hpb : forall p, n_geom b <> GPoint p) by (intros p K; rewrite K in Hlen; destruct (Ht p (n_geom a)) as [_ K1]; lia).
  pose proof (collapsible_ok L a b Ha Hpa) as Ca. pose proof (collapsible_ok L b a Hb Hpb) as Cb.
  pose proof (collapsible_iff L a b Hs Ha Ca) as Ia. pose proof (collapsible_iff L b a Hs' Hb Cb) as Ib.
  assert (M : must_change L disp nbrs a b v <-> (swallows L a b /\ v = a) \/ (swallows L b a /\ v = b)).
  { split.
    - intros M. inversion M; subst; try contradiction; auto.
    - intros [[K ->]|[K ->]]; [apply mc_flip_first|apply mc_flip_second]; auto. }
  rewrite M, <- Ia, <- Ib. unfold contiguous_candidates. destruct Ca as [ra ->], Cb as [rb ->]. cbn [bind].
  split.
  - intros (sa & sb & K & K'). injection K as <- <-. destruct ra, rb; intuition congruence.
  - intros K. do 2 eexists. split; [reflexivity|]. destruct ra, rb; intuition congruence.
Qed.

Lemma two_lt l : (1 <? zlen l) = true <-> (2 <= @length point l)%nat.
Proof. unfold zlen. rewrite Z.ltb_lt. lia. Qed.

Lemma pair_iff_at L disp class_ a b v : places_at L a b -> places_at L b a -> point_touch L -> hullish a -> hullish b ->
  (exists sa sb, pair_candidates L disp class_ a b = Ok (sa, sb) /\ (sa = Some v \/ sb = Some v)) <->
  (if class_ then class_conflict L disp a b v else line_conflict L disp a b v).
Proof.
  intros Hs Hs' Ht Ha Hb. unfold pair_candidates.
  assert (One : negb class_ || (n_inst a =? n_inst b) = true ->
    ((if class_ then class_conflict L disp a b v else line_conflict L disp a b v) <-> line_conflict L disp a b v)).
  { destruct class_; [|tauto]. cbn [negb orb]. intros E. apply Z.eqb_eq in E.
    unfold class_conflict, line_conflict. intuition. }
  destruct (negb class_ || (n_inst a =? n_inst b)) eqn:Eo.
  - rewrite (One eq_refl). clear One. unfold is_contiguous, line_conflict.
    destruct (gl_isect L (n_geom a) (n_geom b)) eqn:Eg.
    2: { cbn [negb]. split; [|intros [K _]; discriminate]. intros (sa & sb & K & K'). injection K as <- <-. intuition discriminate. }
    cbn [negb]. pose proof (contig_loop_iff L a b (gl_inter L (n_geom a) (n_geom b))) as Hc.
    destruct (contig_loop _ _ _ _ _).
    + assert (Hm : meet_as_neighbours L a b) by (apply Hc; reflexivity). cbn [andb negb].
      destruct (1 <? _) eqn:E1.
      * rewrite (contiguous_iff L disp a b v _ Hs Hs' Ht Ha Hb Hm (proj1 (two_lt _) E1)). tauto.
      * assert (~ (2 <= length (gl_inter L (n_geom a) (n_geom b)))%nat) by (intros K; apply two_lt in K; congruence).
        split.
        -- intros (sa & sb & K & K'). injection K as <- <-. intuition discriminate.
        -- intros (_ & M). inversion M; subst; contradiction.
    + assert (Hm : ~ meet_as_neighbours L a b) by (intros K; apply Hc in K; discriminate). cbn [andb negb].
      rewrite <- (non_contiguous_iff L disp a b v _ Hm). destruct (non_contiguous_candidates L disp a b) as [x y]. cbn [fst snd]. split.
      * intros (sa & sb & K & K'). injection K as <- <-. auto.
      * intros (_ & K). exists x, y. auto.
  - destruct class_; [|discriminate]. cbn [negb orb] in Eo. clear One. apply Z.eqb_neq in Eo. unfold class_conflict.
    destruct (gl_isect L (n_geom a) (n_geom b)) eqn:Eg.
    2: { cbn [negb]. split; [|intros [K _]; discriminate]. intros (sa & sb & K & K'). injection K as <- <-. intuition discriminate. }
    assert (Z0 : (0 <? zlen (gl_inter L (n_geom a) (n_geom b))) = true <-> gl_inter L (n_geom a) (n_geom b) <> []).
    { unfold zlen. destruct (gl_inter L (n_geom a) (n_geom b)); cbn; split; congruence. }
    destruct (0 <? _) eqn:E0; cbn [negb andb].
    + assert (Hm : ~ False) by tauto. pose proof (proj1 Z0 eq_refl) as Z1.
      pose proof (non_contiguous_iff L disp a b v _ Hm) as NC.
      destruct (non_contiguous_candidates L disp a b) as [x y]. cbn [fst snd] in NC. split.
      * intros (sa & sb & K & K'). injection K as <- <-. split; [reflexivity|]. right. tauto.
      * intros (_ & [[K _]|(_ & _ & K)]); [contradiction|]. exists x, y. split; [reflexivity|]. tauto.
    + assert (Z1 : ~ gl_inter L (n_geom a) (n_geom b) <> []) by (intros K; apply Z0 in K; discriminate). split.
      * intros (sa & sb & K & K'). injection K as <- <-. intuition discriminate.
      * intros (_ & [[K _]|(_ & K & _)]); contradiction.
Qed.

Lemma pair_iff L disp class_ a b v : places_ok L -> point_touch L -> hullish a -> hullish b ->
  (exists sa sb, pair_candidates L disp class_ a b = Ok (sa, sb) /\ (sa = Some v \/ sb = Some v)) <->
  (if class_ then class_conflict L disp a b v else line_conflict L disp a b v).
Proof. intros Hs. apply pair_iff_at; intros p q _ _; apply Hs. Qed.

Lemma meet_sym L a b : even_handed L a b -> meet_as_neighbours L a b -> meet_as_neighbours L b a.
Proof.
  intros H ((p & q & Hp & Hq & Hs) & p' & q' & Hp' & Hq' & Hs'). split.
  - exists q, p. split; [exact Hq|]. split; [exact Hp|]. unfold same_place in *. rewrite <- (eh_ends _ _ _ H p q Hp Hq). exact Hs.
  - assert (E : existsb (fun p => gl_eq2d L p q') (gl_inter L (n_geom b) (n_geom a)) = true).
    { rewrite <- (eh_touch _ _ _ H q' Hq'). apply existsb_exists. exists p'. auto. }
    apply existsb_exists in E. destruct E as (p2 & Hp2 & Hs2). exists p2, q'. split; [exact Hp2|]. split; [tauto|exact Hs2].
Qed.

Lemma even_sym L a b : even_handed L a b -> even_handed L b a.
Proof.
  intros [A B C D D' E F G]. split; auto using Permutation_sym.
  - intros q Hq. symmetry. apply D'. tauto.
  - intros p q Hp Hq. symmetry. apply G; auto.
Qed.

Lemma conflict_sym L disp a b v : even_handed L a b -> line_conflict L disp a b v -> exists w, line_conflict L disp b a w.
Proof.
  intros H (Hg & M). pose proof (even_sym _ _ _ H) as H'.
  assert (Hn : meet_as_neighbours L a b <-> meet_as_neighbours L b a) by (split; apply meet_sym; auto).
  assert (Hl : length (gl_inter L (n_geom b) (n_geom a)) = length (gl_inter L (n_geom a) (n_geom b))).
  { exact (eh_count _ _ _ H'). }
  assert (G : forall w, must_change L disp (meet_as_neighbours L b a) b a w -> exists w, line_conflict L disp b a w).
  { intros w K. exists w. split; [rewrite <- (eh_hulls _ _ _ H); exact Hg|exact K]. }
  assert (NC : new_crossing L a b -> new_crossing L b a).
  { intros [K1 K2]. split; [rewrite <- (eh_lines _ _ _ H); exact K1|rewrite <- (eh_segs _ _ _ H); exact K2]. }
  destruct M as [N K1 K2|N K1 K2 K3|v N K1 K2|N K1 K2|N K1 K2].
  - destruct (gl_isect L (n_seg b) (n_line a)) eqn:E.
    + apply (G b), mc_first; auto. tauto.
    + apply (G a), mc_second; auto. tauto.
  - apply (G b), mc_first; auto. tauto.
  - apply (G b), mc_both; auto; [tauto|]. destruct K1 as (D1 & D2). split; [rewrite <- (eh_lines _ _ _ H); exact D1|].
    destruct D2 as [[D2 D3]|(p & q & D2 & D3 & D4)].
    + left. split.
      * intros K. apply D2. pose proof (eh_line_points _ _ _ H') as Q. rewrite K in Q. apply Permutation_nil in Q. exact Q.
      * pose proof (eh_seg_points _ _ _ H) as Q. rewrite D3 in Q. apply Permutation_nil in Q. exact Q.
    + right. exists p, q. split; [apply (Permutation_in _ (eh_line_points _ _ _ H)), D2|].
      split; [apply (Permutation_in _ (eh_seg_points _ _ _ H)), D3|exact D4].
  - apply (G a), mc_flip_second; auto; [tauto|lia].
  - apply (G b), mc_flip_first; auto; [tauto|lia].
Qed.

Lemma settled_clear L disp a b v : places_ok L -> point_touch L -> hullish a -> hullish b ->
  pair_candidates L disp false a b = Ok (None, None) -> ~ line_conflict L disp a b v.
Proof.
  intros Hs Ht Ha Hb E K. apply (pair_iff L disp false a b v Hs Ht Ha Hb) in K. destruct K as (sa & sb & E' & K).
  rewrite E in E'. injection E' as <- <-. intuition discriminate.
Qed.
