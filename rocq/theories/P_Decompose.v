(** Proofs about the offset scan and the Douglas-Peucker decomposition. *)
From Verif Require Import M_Base M_Float M_Rng M_Geom M_Offset M_Node M_Decompose
  Spec P_Base P_Float.
From Coq Require Import Sorted.
Open Scope Z_scope.

(** ** The scan *)

Lemma scan_inv dist l : forall st,
  let r := fold_left (scan_step dist) l st in
  (r = st /\ forall k, In k l -> fle (snd st) (dist k) = false)
  \/
  (exists l1 l2, l = l1 ++ fst r :: l2 /\ snd r = dist (fst r) /\
     fle (snd st) (snd r) = true /\
     (forall k, In k l1 -> is_nan (dist k) = false -> fle (dist k) (snd r) = true) /\
     (forall k, In k l2 -> fle (snd r) (dist k) = false)).
Proof.
  induction l as [|x l IH]; intros st; cbn [fold_left].
  - left; split; [reflexivity|intros k []].
  - assert (Hst : scan_step dist st x = if fle (snd st) (dist x) then (x, dist x) else st)
      by reflexivity.
    cbv zeta in *; rewrite Hst; clear Hst.
    destruct (fle (snd st) (dist x)) eqn:E.
    + right; destruct (IH (x, dist x)) as [[Hr Hall]|(l1 & l2 & Hl & Hd & Hge & H1 & H2)];
        cbn [fst snd] in *.
      * rewrite Hr; cbn [fst snd]. exists [], l.
        repeat split; auto; try (intros k []).
      * exists (x :: l1), l2.
        split; [cbn [app]; f_equal; exact Hl|].
        split; [exact Hd|].
        split; [eapply fle_trans; eauto|].
        split; [|exact H2].
        intros k [<-|Hk] Hn; [exact Hge|auto].
    + destruct (IH st) as [[Hr Hall]|(l1 & l2 & Hl & Hd & Hge & H1 & H2)].
      * left; split; [exact Hr|]. intros k [<-|Hk]; auto.
      * right; exists (x :: l1), l2.
        split; [cbn [app]; f_equal; exact Hl|].
        split; [exact Hd|]. split; [exact Hge|].
        split; [|exact H2].
        intros k [<-|Hk] Hn; [|auto].
        eapply fle_trans; [|exact Hge].
        apply flt_le, fle_total; auto.
        eapply fle_nan_l; exact Hge.
Qed.

Lemma nodup_split {A} (x : A) p : forall q l1 l2,
  NoDup (p ++ x :: q) -> p ++ x :: q = l1 ++ x :: l2 -> l2 = q.
Proof.
  induction p as [|y p IH]; intros q [|z l1] l2 Hnd Hl; cbn in Hl, Hnd.
  - congruence.
  - injection Hl as E1 E2. inversion Hnd as [|? ? Hni _]; subst z.
    exfalso; apply Hni; rewrite E2; apply in_elt.
  - injection Hl as E1 E2. inversion Hnd as [|? ? Hni _]; subst y.
    exfalso; apply Hni; apply in_elt.
  - injection Hl as E1 E2; inversion Hnd; subst; eauto.
Qed.

Lemma max_offset_farthest distfn c :
  2 <= clen c ->
  let n := clen c - 1 in
  farthest (fun j => distfn (cpt c 0) (cpt c n) (cpt c j)) n
    (fst (max_offset distfn c)) (snd (max_offset distfn c)).
Proof.
  intros Hlen n; unfold max_offset; fold n.
  destruct (Z.leb_spec n 1).
  - left; cbn; repeat split; auto. intros j Hj; lia.
  - set (dist := fun j => distfn (cpt c 0) (cpt c n) (cpt c j)).
    destruct (scan_inv dist (zseq 1 (n - 1)) (n, fzero))
      as [[Hr Hall]|(l1 & l2 & Hl & Hd & Hge & H1 & H2)].
    + left; rewrite Hr; cbn [fst snd] in *; repeat split; auto.
      intros j Hj; apply Hall, zseq_in; lia.
    + right. remember (fold_left (scan_step dist) (zseq 1 (n - 1)) (n, fzero)) as r eqn:Er.
      assert (Hin : In (fst r) (zseq 1 (n - 1))) by (rewrite Hl; apply in_elt).
      apply zseq_in in Hin.
      assert (Hs : zseq 1 (n - 1) = zseq 1 (fst r - 1) ++ fst r :: zseq (fst r + 1) (n - 1)).
      { rewrite (zseq_app 1 (fst r - 1) (n - 1)) by lia.
        replace (fst r - 1 + 1) with (fst r) by lia.
        rewrite (zseq_cons (fst r)) by lia; reflexivity. }
      assert (Hnd : NoDup (zseq 1 (n - 1))).
      { unfold zseq; apply FinFun.Injective_map_NoDup; [|apply seq_NoDup].
        intros a b Hab; lia. }
      assert (Hl2 : l2 = zseq (fst r + 1) (n - 1)).
      { rewrite Hs in Hl, Hnd. eapply nodup_split; eauto. }
      cbn [fst snd] in *.
      split; [lia|]. split; [exact Hd|]. split; [exact Hge|]. split.
      * intros j Hj Hn.
        assert (Hjin : In j (zseq 1 (n - 1))) by (apply zseq_in; lia).
        rewrite Hl in Hjin; apply in_app_or in Hjin.
        destruct Hjin as [Hj1|[<-|Hj2]].
        -- apply H1; auto.
        -- change (fle (dist (fst r)) (snd r) = true); rewrite <- Hd; apply fle_refl.
           eapply fle_nan_r; exact Hge.
        -- apply flt_le, fle_total; auto; eapply fle_nan_r; exact Hge.
      * intros j Hj; apply H2; rewrite Hl2; apply zseq_in; lia.
Qed.

Lemma max_offset_range distfn c :
  2 <= clen c ->
  (fst (max_offset distfn c) = clen c - 1 /\ snd (max_offset distfn c) = fzero)
  \/ (0 < fst (max_offset distfn c) < clen c - 1 /\ fle fzero (snd (max_offset distfn c)) = true).
Proof.
  intros H; destruct (max_offset_farthest distfn c H) as [[H1 [H2 _]]|[H1 [_ [H3 _]]]].
  - left; auto.
  - right; split; [lia|exact H3].
Qed.

(** ** The decomposition loop *)

(** What the decomposition needs of a score function: when the relation rejects the
    score of a view with at least two vertices, the index is interior. *)
Definition splits_inside (score : scorefn) (rel : f64 -> bool) : Prop :=
  forall c, 2 <= clen c ->
    rel (snd (score c)) = true \/ 0 < fst (score c) < clen c - 1.

Lemma max_offset_splits distfn rel :
  rel fzero = true -> splits_inside (max_offset distfn) rel.
Proof.
  intros H0 c Hc; destruct (max_offset_range distfn c Hc) as [[_ Hv]|[Hk _]].
  - left; rewrite Hv; exact H0.
  - right; exact Hk.
Qed.

Lemma clen_sub pts r : rI r < rJ r -> clen (sub_coords pts r) = rJ r - rI r + 1.
Proof. intros H; unfold clen, sub_coords; cbn [cidxs]; apply zseq_len; lia. Qed.

Section Loop.
  Variables (L : geomlib) (gen : idgen) (pts : list point) (inst : Z).
  Variables (score : scorefn) (rel : f64 -> bool).

  Definition measure (st : list rng) : Z :=
    fold_right (fun r a => 2 * (rJ r - rI r) - 1 + a) 0 st.

  Definition dp_node_ok (h : node) : Prop :=
    n_coords h = sub_coords pts (n_rng h) /\
    n_geom h = hull_geometry (gl_hull L (cpts (n_coords h))) /\
    n_mbr h = gl_bounds L (n_geom h) /\
    n_inst h = inst /\
    rel (snd (score (n_coords h))) = true.

  (** Partial correctness: whatever the fuel, a returned list continues the stack. *)
  Lemma dp_loop_sound (Hs : splits_inside score rel) fuel : forall st acc ctr lo hi hs ctr',
    chain lo hi (map n_rng (rev acc) ++ st) ->
    Forall dp_node_ok acc ->
    dp_loop L gen pts inst score rel fuel st acc ctr = Ok (hs, ctr') ->
    chain lo hi (map n_rng hs) /\ Forall dp_node_ok hs.
  Proof.
    induction fuel as [|f IH]; intros st acc ctr lo hi hs ctr' Hc Hok Hrun; [discriminate|].
    cbn [dp_loop] in Hrun. destruct st as [|r st].
    - injection Hrun as <- <-. rewrite app_nil_r in Hc; split; [exact Hc|].
      apply Forall_rev; exact Hok.
    - destruct (score (sub_coords pts r)) as [k val] eqn:Esc.
      apply chain_app in Hc; destruct Hc as [m [Hc1 Hc2]].
      cbn [chain] in Hc2; destruct Hc2 as [Hr1 [Hr2 Hc2]].
      destruct (rel val) eqn:Erel.
      + eapply IH; [| |exact Hrun].
        * cbn [rev]; rewrite map_app, <- app_assoc; apply chain_app.
          exists m; split; [exact Hc1|]. cbn; auto.
        * constructor; [|exact Hok].
          unfold dp_node_ok; cbn; rewrite Esc; cbn; auto.
      + destruct (Hs (sub_coords pts r)) as [Hb|Hk].
        * rewrite clen_sub; lia.
        * rewrite Esc in Hb; cbn in Hb; congruence.
        * rewrite Esc, clen_sub in Hk by lia; cbn in Hk.
          eapply IH; [|exact Hok|exact Hrun].
          apply chain_app; exists m; split; [exact Hc1|].
          cbn; repeat split; auto; lia.
  Qed.

  (** Termination: the measure bounds the number of iterations. *)
  Lemma dp_loop_total (Hs : splits_inside score rel) fuel : forall st acc ctr,
    (forall r, In r st -> rI r < rJ r) ->
    (Z.to_nat (measure st) < fuel)%nat ->
    exists hs ctr', dp_loop L gen pts inst score rel fuel st acc ctr = Ok (hs, ctr').
  Proof.
    assert (Hpos : forall st, (forall r, In r st -> rI r < rJ r) -> 0 <= measure st).
    { unfold measure; induction st as [|r st IHst]; intros H; cbn [fold_right]; [lia|].
      assert (rI r < rJ r) by (apply H; left; auto).
      specialize (IHst (fun x Hx => H x (or_intror Hx))). lia. }
    induction fuel as [|f IH]; intros st acc ctr Hst Hf; [lia|].
    cbn [dp_loop]; destruct st as [|r st].
    - eauto.
    - destruct (score (sub_coords pts r)) as [k val] eqn:Esc.
      assert (Hr : rI r < rJ r) by (apply Hst; left; reflexivity).
      assert (Hst' : forall x, In x st -> rI x < rJ x) by (intros; apply Hst; right; auto).
      pose proof (Hpos _ Hst') as Hp.
      cbn [measure fold_right] in Hf; change (fold_right (fun r a => 2 * (rJ r - rI r) - 1 + a) 0 st) with (measure st) in Hf.
      destruct (rel val) eqn:Erel.
      + apply IH; [exact Hst'|lia].
      + destruct (Hs (sub_coords pts r)) as [Hb|Hk].
        * rewrite clen_sub; lia.
        * rewrite Esc in Hb; cbn in Hb; congruence.
        * rewrite Esc, clen_sub in Hk by lia; cbn in Hk.
          apply IH.
          -- intros x [<-|[<-|Hx]]; cbn; auto; lia.
          -- cbn [measure fold_right rI rJ].
             change (fold_right (fun r a => 2 * (rJ r - rI r) - 1 + a) 0 st) with (measure st). lia.
  Qed.

  (** Non-termination: if every score is rejected the loop never ends. *)
  Lemma dp_loop_rejects (Hrej : forall c, rel (snd (score c)) = false) fuel : forall st acc ctr,
    st <> [] -> dp_loop L gen pts inst score rel fuel st acc ctr = NoFuel.
  Proof.
    induction fuel as [|f IH]; intros st acc ctr Hst; [reflexivity|].
    cbn [dp_loop]; destruct st as [|r st]; [congruence|].
    pose proof (Hrej (sub_coords pts r)) as H.
    destruct (score (sub_coords pts r)) as [k val]; cbn in H; rewrite H.
    apply IH; discriminate.
  Qed.

  (** Ids are drawn consecutively, one per hull. *)
  Lemma dp_loop_ids fuel : forall st acc ctr hs ctr' base,
    dp_loop L gen pts inst score rel fuel st acc ctr = Ok (hs, ctr') ->
    map n_id (rev acc) = map gen (seq base (length acc)) -> (base + length acc = ctr)%nat ->
    map n_id hs = map gen (seq base (length hs)) /\ (base + length hs = ctr')%nat.
  Proof.
    induction fuel as [|f IH]; intros st acc ctr hs ctr' base Hrun Hid Hctr; [discriminate|].
    cbn [dp_loop] in Hrun. destruct st as [|r st].
    - injection Hrun as <- <-. rewrite rev_length; auto.
    - destruct (score (sub_coords pts r)) as [k val].
      destruct (rel val).
      + eapply IH; [exact Hrun| |cbn; lia].
        cbn [rev length]; rewrite map_app, Hid, seq_S, map_app; cbn; repeat f_equal; lia.
      + eapply IH; [exact Hrun|exact Hid|exact Hctr].
  Qed.
End Loop.

(** ** Statements about whole polylines *)

Lemma dp_node_hull_of L pts inst score rel lo hi h :
  0 <= lo -> hi < zlen pts -> lo <= rI (n_rng h) -> rI (n_rng h) < rJ (n_rng h) -> rJ (n_rng h) <= hi ->
  dp_node_ok L pts inst score rel h -> hull_of pts h.
Proof.
  intros H1 H2 H3 H4 H5 [Hc _]. unfold hull_of; repeat split; try lia. exact Hc.
Qed.

Lemma sq_nonneg_or_nan T : fle fzero (fmul T T) = true \/ is_nan (fmul T T) = true.
Proof.
  unfold fmul, SFmul, fprec, femax.
  destruct T as [s|s| |s m e]; try (left; destruct s; reflexivity); [right; reflexivity|].
  rewrite xorb_nilpotent.
  unfold binary_round_aux.
  destruct (shr_fexp 53 1024 (Z.pos (m * m)) (e + e) loc_Exact) as [mrs' e'] eqn:E1.
  destruct (shr_fexp 53 1024 (round_nearest_even (shr_m mrs') (loc_of_shr_record mrs')) e' loc_Exact)
    as [mrs'' e''] eqn:E2.
  destruct (shr_m mrs''); [left; reflexivity| |right; reflexivity].
  destruct (e'' <=? 1024 - 53); left; reflexivity.
Qed.

(** Tiling: every completed decomposition tiles the line (C01), honours the
    threshold relation (C03), and draws its ids in order. *)
Lemma decompose_sound L gen pts inst score rel fuel ctr hs ctr' :
  splits_inside score rel ->
  (2 <= length pts)%nat ->
  douglas_peucker L gen (create_polyline pts) inst score rel fuel ctr = Ok (hs, ctr') ->
  chain 0 (zlen pts - 1) (map n_rng hs) /\
  Forall (hull_of pts) hs /\
  Forall (dp_node_ok L pts inst score rel) hs /\
  map n_id hs = map gen (seq ctr (length hs)) /\ ctr' = (ctr + length hs)%nat.
Proof.
  intros Hs Hlen Hrun; unfold create_polyline in Hrun.
  destruct (Z.ltb_spec (zlen pts) 2); [unfold zlen in *; lia|].
  cbn [douglas_peucker] in Hrun.
  pose proof (dp_loop_ids _ _ _ _ _ _ _ _ _ _ _ _ ctr Hrun eq_refl ltac:(cbn; lia)) as [Hid Hc].
  apply dp_loop_sound with (lo := 0) (hi := zlen pts - 1) in Hrun; auto.
  - destruct Hrun as [Hch Hok]; repeat split; auto.
    rewrite Forall_forall in Hok |- *; intros h Hh.
    assert (Hin : In (n_rng h) (map n_rng hs)) by (apply in_map; exact Hh).
    apply (chain_in _ _ _ _ Hch) in Hin.
    eapply dp_node_hull_of with (lo := 0) (hi := zlen pts - 1); try lia; apply Hok; auto.
  - cbn; repeat split; lia.
Qed.

Lemma decompose_total L gen pts inst score rel fuel ctr :
  splits_inside score rel ->
  (2 * length pts - 3 < fuel)%nat ->
  exists hs ctr', douglas_peucker L gen (create_polyline pts) inst score rel fuel ctr = Ok (hs, ctr').
Proof.
  intros Hs Hf; unfold create_polyline.
  destruct (Z.ltb_spec (zlen pts) 2); cbn [douglas_peucker]; [eauto|].
  apply dp_loop_total; auto.
  - intros r [<-|[]]; cbn; lia.
  - cbn [measure fold_right pln_range rI rJ]; unfold zlen in *; lia.
Qed.

Lemma decompose_diverges L gen pts inst score rel fuel ctr :
  (forall c, rel (snd (score c)) = false) ->
  (2 <= length pts)%nat ->
  douglas_peucker L gen (create_polyline pts) inst score rel fuel ctr = NoFuel.
Proof.
  intros Hrej Hlen; unfold create_polyline.
  destruct (Z.ltb_spec (zlen pts) 2); [unfold zlen in *; lia|].
  cbn [douglas_peucker]; apply dp_loop_rejects; [exact Hrej|discriminate].
Qed.

Lemma max_offset_nonneg distfn c : fle fzero (snd (max_offset distfn c)) = true.
Proof.
  unfold max_offset; cbv zeta. destruct (Z.leb_spec (clen c - 1) 1) as [H|H].
  - reflexivity.
  - destruct (max_offset_range distfn c ltac:(lia)) as [[_ Hv]|[_ Hv]];
      unfold max_offset in Hv; cbv zeta in Hv;
      (destruct (Z.leb_spec (clen c - 1) 1) in Hv; [lia|]).
    + rewrite Hv; reflexivity.
    + exact Hv.
Qed.

Lemma threshold_rejects_all distfn T c :
  fle fzero T = false -> score_rel T (snd (max_offset distfn c)) = false.
Proof.
  intros HT; unfold score_rel.
  destruct (fle (snd (max_offset distfn c)) T) eqn:E; auto.
  pose proof (fle_trans _ _ _ (max_offset_nonneg distfn c) E); congruence.
Qed.

(** A squared threshold is never negative: it accepts 0 unless it is NaN. *)
Lemma square_threshold_ok T : is_nan T = false -> is_nan (fmul T T) = false -> square_score_rel T fzero = true.
Proof.
  intros H1 H2; unfold square_score_rel.
  destruct (sq_nonneg_or_nan T); congruence.
Qed.

Lemma splits_or_rejects distfn T :
  splits_inside (max_offset distfn) (score_rel T)
  \/ forall c, score_rel T (snd (max_offset distfn c)) = false.
Proof.
  destruct (fle fzero T) eqn:E.
  - left; apply max_offset_splits; exact E.
  - right; intros c; apply threshold_rejects_all; exact E.
Qed.

(** ** The set of kept vertices *)

Lemma point_set_gen l : forall s, increasing s ->
  let r := fold_left (fun s h => zset_ins (rJ (n_rng h)) (zset_ins (rI (n_rng h)) s)) l s in
  increasing r /\
  forall x, In x r <-> In x s \/ exists h, In h l /\ (x = rI (n_rng h) \/ x = rJ (n_rng h)).
Proof.
  induction l as [|h l IH]; intros s Hs; cbn [fold_left].
  - split; [exact Hs|]. intros x; split; [auto|]. intros [H|[h [[] _]]]; exact H.
  - destruct (IH (zset_ins (rJ (n_rng h)) (zset_ins (rI (n_rng h)) s))) as [Hi Hin].
    { apply zset_ins_incr, zset_ins_incr, Hs. }
    split; [exact Hi|]. intros x; rewrite Hin, !zset_ins_in; split.
    + intros [[->|[->|H]]|[h' [Hh H]]].
      * right; exists h; cbn; auto.
      * right; exists h; cbn; auto.
      * auto.
      * right; exists h'; cbn; auto.
    + intros [H|[h' [[<-|Hh] H]]]; [tauto|tauto|].
      right; exists h'; auto.
Qed.

Lemma point_set_spec l :
  increasing (point_set l) /\
  forall x, In x (point_set l) <-> exists h, In h l /\ (x = rI (n_rng h) \/ x = rJ (n_rng h)).
Proof.
  destruct (point_set_gen l [] ltac:(constructor)) as [H1 H2]; split; [exact H1|].
  intros x; unfold point_set; rewrite H2; cbn; intuition.
Qed.

(** The ends of a chain: its start followed by the end of every range. *)
Lemma chain_ends rs : forall lo hi, chain lo hi rs ->
  increasing (lo :: map rJ rs) /\ last (lo :: map rJ rs) 0 = hi /\
  forall x, In x (lo :: map rJ rs) <-> x = lo \/ exists r, In r rs /\ (x = rI r \/ x = rJ r).
Proof.
  induction rs as [|r t IH]; cbn [chain map]; intros lo hi H.
  - subst; repeat split.
    + repeat constructor.
    + intros [->|[]]; auto.
    + intros [->|[r [[] _]]]; left; auto.
  - destruct H as [H1 [H2 H3]]. destruct (IH _ _ H3) as [Ha [Hb Hc]].
    split; [|split].
    + constructor; [exact Ha|]. constructor; [lia|].
      inversion Ha as [|? ? Hs Hf]; subst. eapply Forall_impl; [|exact Hf]; cbn; intros; lia.
    + change (last (lo :: rJ r :: map rJ t) 0) with (last (rJ r :: map rJ t) 0); exact Hb.
    + intros x; split.
      * intros [->|Hx]; [auto|]. right. apply Hc in Hx.
        destruct Hx as [->|[r' [Hr' Hx]]].
        -- exists r; cbn; auto.
        -- exists r'; cbn; auto.
      * intros [->|[r' [[<-|Hr'] Hx]]].
        -- left; auto.
        -- destruct Hx as [-> | ->]; [left; auto|right; left; auto].
        -- right; apply Hc; right; exists r'; auto.
Qed.

Lemma point_set_chain hs lo hi :
  lo < hi -> chain lo hi (map n_rng hs) ->
  point_set hs = lo :: map (fun h => rJ (n_rng h)) hs.
Proof.
  intros Hlt Hc. destruct (point_set_spec hs) as [Hi Hin].
  destruct (chain_ends _ _ _ Hc) as [He [Hl Hm]].
  rewrite map_map in He, Hm, Hl.
  apply increasing_ext; auto.
  intros x; rewrite Hin, Hm; split.
  - intros [h [Hh Hx]]; right; exists (n_rng h); split; [apply in_map; exact Hh|exact Hx].
  - intros [->|[r [Hr Hx]]].
    + destruct hs as [|h hs]; cbn in Hc; [lia|].
      exists h; split; [left; auto|]; left; symmetry; apply Hc.
    + apply in_map_iff in Hr; destruct Hr as [h [<- Hh]]; exists h; auto.
Qed.
