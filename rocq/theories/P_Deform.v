(** The selection of hulls in conflict. *)
From Verif Require Import M_Base M_Float M_Rng M_Geom M_Node M_Split M_Hdb M_Knn M_Relate M_Deform Spec Spec_Hdb
  P_Base P_Float P_Split P_Db P_Bag.
Open Scope Z_scope.

Lemma rng_eqb_eq a b : rng_eqb a b = true <-> a = b.
Proof.
  destruct a as [i j], b as [k l]; unfold rng_eqb; cbn. rewrite andb_true_iff, !Z.eqb_eq.
  split; [intros [-> ->]; auto|intros E; injection E; auto].
Qed.

(** ** The map keyed by range *)

Lemma dict_set_in v d x : In x (dict_set v d) -> x = v \/ In x d.
Proof.
  induction d as [|y r IH]; cbn; [intuition|]. destruct (rng_eqb _ _); cbn; intuition.
Qed.
Lemma dict_set_key v d : exists w, In w (dict_set v d) /\ n_rng w = n_rng v /\ w = v.
Proof.
  exists v. split; auto. induction d as [|y r IH]; cbn; auto. destruct (rng_eqb _ _); cbn; auto.
Qed.
Lemma dict_set_keep v d x : In x d -> In x (dict_set v d) \/ (n_rng x = n_rng v /\ In v (dict_set v d)).
Proof.
  induction d as [|y r IH]; cbn; [tauto|]. intros [<- |H].
  - destruct (rng_eqb (n_rng y) (n_rng v)) eqn:E; cbn; auto. apply rng_eqb_eq in E. auto.
  - destruct (rng_eqb (n_rng y) (n_rng v)) eqn:E; cbn; auto.
    destruct (IH H) as [K|[K1 K2]]; auto.
Qed.
Lemma dict_set_nodup v d : NoDup (map n_rng d) -> NoDup (map n_rng (dict_set v d)).
Proof.
  induction d as [|y r IH]; cbn; intros H; [repeat constructor; cbn; tauto|].
  inversion H as [|? ? H1 H2]; subst. destruct (rng_eqb (n_rng y) (n_rng v)) eqn:E.
  - apply rng_eqb_eq in E. cbn. rewrite <- E. exact H.
  - cbn. constructor; [|apply IH, H2]. intros K. apply in_map_iff in K. destruct K as (w & Ew & Hw).
    apply dict_set_in in Hw. destruct Hw as [-> |Hw].
    + assert (rng_eqb (n_rng y) (n_rng v) = true) by (apply rng_eqb_eq; auto). congruence.
    + apply H1. rewrite <- Ew. apply in_map, Hw.
Qed.

(** ** The pairwise checks *)

(** Intersections with a point have at most one point (plane geometry). *)
Definition point_touch (L : geomlib) : Prop :=
  forall p g, (length (gl_inter L (GPoint p) g) <= 1)%nat /\ (length (gl_inter L g (GPoint p)) <= 1)%nat.

(** Hull geometries as built by the program. *)
Definition hullish (h : node) : Prop := exists x, n_geom h = hull_geometry x.

Lemma fresh_hullish L pts i h : fresh_hull L pts i h -> hullish h.
Proof. intros (_ & E & _). eexists. exact E. Qed.

Lemma collapsible_ok L a b : hullish a -> (forall p, n_geom a <> GPoint p) ->
  exists r, collapsible L a b = Ok r.
Proof.
  intros [x Hx] Hp. unfold collapsible. destruct (_ =? 1); [eauto|]. destruct (is_line (n_geom a)) eqn:El; [eauto|].
  cbv zeta. match goal with |- context [match ?c with Some _ => _ | None => _ end] => destruct c as [c0|] end; [|eauto].
  destruct x as [p [|q [|r s]]]; cbn in Hx; rewrite Hx in *.
  - exfalso. apply (Hp p). reflexivity.
  - discriminate.
  - eauto.
Qed.

Lemma pair_spec L disp class_ a b : point_touch L -> hullish a -> hullish b ->
  exists sa sb, pair_candidates L disp class_ a b = Ok (sa, sb) /\
    (sa = None \/ sa = Some a) /\ (sb = None \/ sb = Some b).
Proof.
  intros Ht Ha Hb. unfold pair_candidates.
  assert (Hn : exists sa sb, Ok (non_contiguous_candidates L disp a b) = Ok (sa, sb) /\
     (sa = None \/ sa = Some a) /\ (sb = None \/ sb = Some b)).
  { unfold non_contiguous_candidates.
    repeat match goal with |- context [if ?c then _ else _] => destruct c end;
      do 2 eexists; (split; [reflexivity|]); auto. }
  assert (Hc : forall c n, is_contiguous L a b = (true, c, n) -> 1 < n ->
    exists sa sb, contiguous_candidates L a b = Ok (sa, sb) /\
      (sa = None \/ sa = Some a) /\ (sb = None \/ sb = Some b)).
  { intros c n E Hn1. unfold is_contiguous in E. destruct (gl_isect L (n_geom a) (n_geom b)); [|discriminate].
    injection E as _ En.
    assert (Hpa : forall p, n_geom a <> GPoint p).
    { intros p K. rewrite K in En. destruct (Ht p (n_geom b)) as [K1 _]. unfold zlen in En. lia. }
    assert (Hpb : forall p, n_geom b <> GPoint p).
    { intros p K. rewrite K in En. destruct (Ht p (n_geom a)) as [_ K1]. unfold zlen in En. lia. }
    unfold contiguous_candidates.
    destruct (collapsible_ok L a b Ha Hpa) as [ra ->]. destruct (collapsible_ok L b a Hb Hpb) as [rb ->].
    cbn [bind]. do 2 eexists. split; [reflexivity|]. destruct ra, rb; auto. }
  assert (Hfin : forall i c n, (i = true -> 1 < n -> c = true -> is_contiguous L a b = (i, c, n)) ->
    exists sa sb, (if negb i then Ok (None, None)
      else if c && (1 <? n) then contiguous_candidates L a b
      else if negb c then Ok (non_contiguous_candidates L disp a b) else Ok (None, None)) = Ok (sa, sb) /\
      (sa = None \/ sa = Some a) /\ (sb = None \/ sb = Some b)).
  { intros i c n H. destruct i; cbn [negb]; [|do 2 eexists; split; [reflexivity|]; auto].
    destruct c; cbn [andb negb].
    - destruct (Z.ltb_spec 1 n).
      + apply (Hc true n); auto.
      + do 2 eexists; split; [reflexivity|]; auto.
    - exact Hn. }
  destruct (negb class_ || (n_inst a =? n_inst b)).
  - destruct (is_contiguous L a b) as [[i c] n] eqn:E. apply Hfin. auto.
  - destruct (gl_isect L (n_geom a) (n_geom b)); apply Hfin; intros; discriminate.
Qed.

(** ** The loop over the neighbours *)

Section Select.
  Variable L : geomlib.
  Variable disp : f64.
  Variable class_ : bool.
  Variable hull : node.
  Hypothesis Ht : point_touch L.
  Hypothesis Hhull : hullish hull.

  (** v is selected by the check of the hull against h. *)
  Definition selected_by (h v : node) : Prop :=
    exists sa sb, pair_candidates L disp class_ hull h = Ok (sa, sb) /\ (sa = Some v \/ sb = Some v).

  Lemma select_loop_spec ctxs : forall dict, Forall hullish ctxs ->
    exists r, select_loop L disp class_ hull ctxs dict = Ok r /\
      (forall v, In v r -> In v dict \/ exists h, In h ctxs /\ selected_by h v) /\
      (forall v, (In v dict \/ exists h, In h ctxs /\ selected_by h v) ->
         exists w, In w r /\ n_rng w = n_rng v) /\
      (NoDup (map n_rng dict) -> NoDup (map n_rng r)).
  Proof.
    induction ctxs as [|h t IH]; intros dict Hf; cbn [select_loop].
    - exists dict. split; [reflexivity|]. split; [auto|]. split; [|auto].
      intros v [H|(h & [] & _)]. exists v; auto.
    - inversion Hf as [|? ? F1 F2]; subst.
      destruct (pair_spec L disp class_ hull h Ht Hhull F1) as (sa & sb & E & Ha & Hb).
      rewrite E. cbn [bind fst snd].
      set (d1 := dict_opt sb (dict_opt sa dict)).
      assert (D1 : forall v, In v d1 -> In v dict \/ sa = Some v \/ sb = Some v).
      { intros v Hv. unfold d1 in Hv. destruct sb as [y|]; cbn [dict_opt] in Hv.
        - apply dict_set_in in Hv. destruct Hv as [-> |Hv]; auto.
          destruct sa as [x|]; cbn [dict_opt] in Hv; auto.
          apply dict_set_in in Hv. destruct Hv as [-> |Hv]; auto.
        - destruct sa as [x|]; cbn [dict_opt] in Hv; auto.
          apply dict_set_in in Hv. destruct Hv as [-> |Hv]; auto. }
      assert (Hset : forall o d v, (exists w, In w d /\ n_rng w = n_rng v) ->
        exists w, In w (dict_opt o d) /\ n_rng w = n_rng v).
      { intros o d v (w & Hw & Ew). destruct o as [y|]; cbn [dict_opt]; [|eauto].
        destruct (dict_set_keep y d w Hw) as [K|[K1 K2]]; [eauto|]. exists y. split; auto. congruence. }
      assert (Hnew : forall x d, exists w, In w (dict_opt (Some x) d) /\ n_rng w = n_rng x).
      { intros x d. destruct (dict_set_key x d) as (w & A & B & _). eauto. }
      assert (D2 : forall v, (In v dict \/ sa = Some v \/ sb = Some v) -> exists w, In w d1 /\ n_rng w = n_rng v).
      { intros v [H|[-> | ->]]; unfold d1.
        - apply Hset, Hset. eauto.
        - apply Hset, Hnew.
        - apply Hnew. }
      destruct (IH d1 F2) as (r & Er & R1 & R2 & R3). exists r. split; [exact Er|]. split; [|split].
      + intros v Hv. destruct (R1 v Hv) as [K|(g & Hg & K)].
        * destruct (D1 v K) as [K1|K1]; auto. right. exists h. split; [left; auto|]. exists sa, sb. auto.
        * right. exists g. split; [right; auto|auto].
      + intros v Hv.
        assert (K : (exists w, In w d1 /\ n_rng w = n_rng v) \/ exists g, In g t /\ selected_by g v).
        { destruct Hv as [Hv|(g & [<- |Hg] & Hs)]; eauto.
          destruct Hs as (sa' & sb' & E' & K). rewrite E in E'. injection E' as <- <-. left. apply D2. tauto. }
        destruct K as [(w & Hw & Ew)|(g & Hg & Hs)]; [|apply R2; right; eauto].
        destruct (R2 w (or_introl Hw)) as (w' & Hw' & Ew'). exists w'. split; auto. congruence.
      + intros Hn. apply R3. unfold d1. destruct sa, sb; cbn [dict_opt]; auto using dict_set_nodup.
  Qed.

  Lemma selected_which ctxs h v : Forall hullish ctxs -> In h ctxs -> selected_by h v -> v = hull \/ v = h.
  Proof.
    intros Hf Hh (sa & sb & E & K). rewrite Forall_forall in Hf.
    destruct (pair_spec L disp class_ hull h Ht Hhull (Hf h Hh)) as (sa' & sb' & E' & Ha & Hb).
    rewrite E in E'. injection E' as <- <-.
    destruct K as [-> | ->].
    - destruct Ha as [Ha|Ha]; [discriminate|]. injection Ha as ->. auto.
    - destruct Hb as [Hb|Hb]; [discriminate|]. injection Hb as ->. auto.
  Qed.

  (** With distinct ranges nothing is overwritten. *)
  Lemma select_loop_exact ctxs : Forall hullish ctxs ->
    (forall a b, In a (hull :: ctxs) -> In b (hull :: ctxs) -> n_rng a = n_rng b -> a = b) ->
    exists r, select_loop L disp class_ hull ctxs [] = Ok r /\
      (forall v, In v r <-> exists h, In h ctxs /\ selected_by h v).
  Proof.
    intros Hf Hinj. destruct (select_loop_spec ctxs [] Hf) as (r & E & R1 & R2 & _).
    exists r. split; [exact E|]. intros v. split.
    - intros Hv. destruct (R1 v Hv) as [[]|K]; exact K.
    - intros (h & Hh & Hs). destruct (R2 v) as (w & Hw & Ew); [right; eauto|].
      assert (Hvv : In v (hull :: ctxs)).
      { destruct (selected_which ctxs h v Hf Hh Hs) as [-> | ->]; cbn; auto. }
      assert (Hww : In w (hull :: ctxs)).
      { destruct (R1 w Hw) as [[]|(g & Hg & K)].
        destruct (selected_which ctxs g w Hf Hg K) as [-> | ->]; cbn; auto. }
      rewrite (Hinj v w Hvv Hww) by auto. exact Hw.
  Qed.
End Select.
