(** The description of class runs (Spec_Class.v) does not depend on the ids given to the lines, nor on the order of the constraints. *)
From Verif Require Import M_Base M_Float M_Rng M_Geom M_Offset M_Node M_Decompose M_Hdb M_Knn M_Lnr M_Homotopy M_Relate
  M_Deform M_Constrain M_ConstDP M_IO Spec Spec_Hdb Spec_Lnr Spec_Relate Spec_Deform Spec_ConstDP Spec_IO Spec_Run Spec_Out Spec_Modes Spec_Move Spec_Exact
  Spec_Whole Spec_Class P_Base P_Ref.
Open Scope Z_scope.

(** A node of another line. *)
Definition relabel (h : Z -> Z) (n : node) : node :=
  Node (n_id n) (n_coords n) (n_rng n) (n_mbr n) (n_geom n) (h (n_inst n)).

Lemma must_relabel L disp h (nb nb' : Prop) a b v : (nb <-> nb') -> must_change L disp nb a b v ->
  must_change L disp nb' (relabel h a) (relabel h b) (relabel h v).
Proof.
  intros E H. destruct H as [H1 H2 H3|H1 H2 H3 H4|v H1 H2 H3|H1 H2 H3|H1 H2 H3].
  - apply mc_first; [tauto|exact H2|exact H3].
  - apply mc_second; [tauto|exact H2|exact H3|exact H4].
  - apply mc_both; [tauto|exact H2|]. destruct H3 as [-> | ->]; auto.
  - apply mc_flip_first; [tauto|exact H2|exact H3].
  - apply mc_flip_second; [tauto|exact H2|exact H3].
Qed.
Lemma must_one_of L disp nb a b v : must_change L disp nb a b v -> v = a \/ v = b.
Proof. destruct 1; auto. Qed.
Lemma conflict_relabel L disp h a b v : (h (n_inst a) = h (n_inst b) -> n_inst a = n_inst b) -> class_conflict L disp a b v ->
  class_conflict L disp (relabel h a) (relabel h b) (relabel h v).
Proof.
  intros Hi (H & K). split; [exact H|]. destruct K as [[K1 K2]|(K1 & K2 & K3)]; [left|right].
  - split; [cbn; congruence|]. eapply must_relabel; [|exact K2]. reflexivity.
  - split; [cbn; auto|]. split; [exact K2|]. eapply must_relabel; [|exact K3]. reflexivity.
Qed.

(** Ids [ids] and [ids'] for the same lines, translated to each other by g and g'. *)
Record renames (ids ids' : list Z) (pts pts' : Z -> list point) (g g' : Z -> Z) : Prop := {
  rn_to : forall i, In i ids' -> In (g i) ids /\ g' (g i) = i /\ pts (g i) = pts' i;
  rn_back : forall i, In i ids -> In (g' i) ids' /\ g (g' i) = i /\ pts' (g' i) = pts i
}.
Lemma renames_sym ids ids' pts pts' g g' : renames ids ids' pts pts' g g' -> renames ids' ids pts' pts g' g.
Proof. intros [A B]. split; auto. Qed.

Lemma renames_exist pts pts' : forall ids ids', NoDup ids -> NoDup ids' -> map pts ids = map pts' ids' ->
  exists g g', renames ids ids' pts pts' g g'.
Proof.
  induction ids as [|x ids IH]; intros [|y ids'] N N' E; try discriminate.
  - exists (fun i => i), (fun i => i). split; intros i [].
  - cbn [map] in E. injection E as E1 E2. inversion N as [|? ? Nx Nr]; subst. inversion N' as [|? ? Ny Nr']; subst.
    destruct (IH ids' Nr Nr' E2) as (g & g' & [A B]).
    exists (fun i => if i =? y then x else g i), (fun i => if i =? x then y else g' i). split.
    + intros i [<- |Hi].
      * rewrite Z.eqb_refl, Z.eqb_refl. split; [left; reflexivity|]. auto.
      * destruct (Z.eqb_spec i y) as [-> |Hn]; [contradiction|]. destruct (A i Hi) as (A1 & A2 & A3).
        destruct (Z.eqb_spec (g i) x) as [Ex|_]; [exfalso; apply Nx; rewrite <- Ex; exact A1|]. split; [right; exact A1|]. auto.
    + intros i [<- |Hi].
      * rewrite Z.eqb_refl, Z.eqb_refl. split; [left; reflexivity|]. auto.
      * destruct (Z.eqb_spec i x) as [-> |Hn]; [contradiction|]. destruct (B i Hi) as (A1 & A2 & A3).
        destruct (Z.eqb_spec (g' i) y) as [Ex|_]; [exfalso; apply Ny; rewrite <- Ex; exact A1|]. split; [right; exact A1|]. auto.
Qed.

Lemma renames_perm pts pts' ids ids' : NoDup ids -> NoDup ids' -> Permutation (map pts ids) (map pts' ids') ->
  exists g g', renames ids ids' pts pts' g g'.
Proof.
  intros N N' H. apply Permutation_sym, Permutation_map_inv in H. destruct H as (l & E & Hl).
  destruct (renames_exist pts pts' l ids' (Permutation_NoDup Hl N) N' (eq_sym E)) as (g & g' & [A B]). exists g, g'. split.
  - intros i Hi. destruct (A i Hi) as (X & Y). split; [|exact Y]. eapply Permutation_in; [exact (Permutation_sym Hl)|exact X].
  - intros i Hi. apply B. eapply Permutation_in; [exact Hl|exact Hi].
Qed.

Section Rename.
  Variables (L : geomlib) (o : opts) (dist : point -> point -> point -> f64) (cs : list geometry).

  Lemma part_relabel pts pts' h i r : pts' (h i) = pts i -> relabel h (class_part L pts i r) = class_part L pts' (h i) r.
  Proof. intros E. unfold class_part, relabel. cbn. rewrite E. reflexivity. Qed.

  Lemma conflict_ids pts i r j q k v : conflict_between L o pts i r j q k v -> k = i \/ k = j.
  Proof.
    intros (_ & _ & _ & _ & _ & [[_ K]|(_ & _ & K)]); apply must_one_of in K;
      (destruct K as [K|K]; apply (f_equal n_inst) in K; cbn in K; auto).
  Qed.

  Lemma conflict_renamed ids ids' pts pts' g g' i r j q k v : renames ids ids' pts pts' g g' -> In i ids -> In j ids ->
    conflict_between L o pts i r j q k v -> conflict_between L o pts' (g' i) r (g' j) q (g' k) v.
  Proof.
    intros [A B] Hi Hj H. pose proof (conflict_ids _ _ _ _ _ _ _ H) as Hk. destruct H as (H1 & H2 & H3 & H4 & H5).
    assert (Hik : In k ids) by (destruct Hk as [-> | ->]; assumption).
    destruct (B i Hi) as (Bi & Gi & Pi), (B j Hj) as (Bj & Gj & Pj), (B k Hik) as (Bk & Gk & Pk).
    split; [exact H1|]. split; [intros (E1 & E2); apply H2; split; [congruence|exact E2]|].
    rewrite Pi, Pj. split; [exact H3|]. split; [exact H4|].
    rewrite <- (part_relabel pts pts' g' i r Pi), <- (part_relabel pts pts' g' j q Pj), <- (part_relabel pts pts' g' k v Pk).
    apply conflict_relabel; [|exact H5]. cbn [n_inst class_part]. congruence.
  Qed.

  Section Two.
    Variables (ids ids' : list Z) (pts pts' : Z -> list point) (g g' : Z -> Z).
    Hypothesis HR : renames ids ids' pts pts' g g'.

    Lemma examined_renamed i r : In i ids' -> (examined (class_part L pts (g i) r) <-> examined (class_part L pts' i r)).
    Proof. intros Hi. destruct (rn_to _ _ _ _ _ _ HR i Hi) as (_ & _ & E). unfold examined, class_part. cbn [n_rng n_geom]. rewrite E. reflexivity. Qed.

    Section State.
      Variables (ch ch' : Z -> Prop) (before before' now now' : Z -> list Z).
      Hypothesis Hc : forall i, In i ids' -> (ch' i <-> ch (g i)).
      Hypothesis Hb : forall i, In i ids' -> before' i = before (g i).
      Hypothesis Hn : forall i, In i ids' -> now' i = now (g i).

      Lemma checked_renamed i r : In i ids' -> (checked L ids pts before now (g i) r <-> checked L ids' pts' before' now' i r).
      Proof.
        intros Hi. unfold checked. rewrite (examined_renamed i r Hi), (Hb i Hi), (Hn i Hi). destruct (rn_to _ _ _ _ _ _ HR i Hi) as (A & _ & _). tauto.
      Qed.
      Lemma asks_renamed i r k v : In i ids' -> In k ids' ->
        (asks L o ids pts ch now (g i) r (g k) v <-> asks L o ids' pts' ch' now' i r k v).
      Proof.
        intros Hi Hk. destruct (rn_to _ _ _ _ _ _ HR i Hi) as (Ai & Gi & Pi), (rn_to _ _ _ _ _ _ HR k Hk) as (Ak & Gk & Pk). split.
        - intros (j & q & Hj & Hq & Hd & Hf). destruct (rn_back _ _ _ _ _ _ HR j Hj) as (Bj & Gj & Pj). exists (g' j), q.
          split; [exact Bj|]. rewrite (Hn _ Bj), Gj. split; [exact Hq|].
          split; [destruct Hd as [Hd|Hd]; [left; intros E; apply Hd; congruence|right; apply Hc; assumption]|].
          pose proof (conflict_renamed ids ids' pts pts' g g' _ r _ q _ v HR Ai Hj Hf) as X. rewrite Gi, Gk in X. exact X.
        - intros (j & q & Hj & Hq & Hd & Hf). destruct (rn_to _ _ _ _ _ _ HR j Hj) as (Bj & Gj & Pj). exists (g j), q.
          split; [exact Bj|]. rewrite (Hn _ Hj) in Hq. split; [exact Hq|].
          split; [destruct Hd as [Hd|Hd]; [left; intros E; apply Hd; congruence|right; apply Hc; assumption]|].
          exact (conflict_renamed ids' ids pts' pts g' g i r j q k v (renames_sym _ _ _ _ _ _ HR) Hi Hj Hf).
      Qed.
      Lemma asks_id i r k v : In i ids' -> asks L o ids' pts' ch' now' i r k v -> In k ids'.
      Proof. intros Hi (j & q & Hj & _ & _ & Hf). destruct (conflict_ids _ _ _ _ _ _ _ Hf) as [-> | ->]; assumption. Qed.
      Lemma asks_id0 i r k v : In i ids -> asks L o ids pts ch now i r k v -> In k ids.
      Proof. intros Hi (j & q & Hj & _ & _ & Hf). destruct (conflict_ids _ _ _ _ _ _ _ Hf) as [-> | ->]; assumption. Qed.

      Lemma split_renamed split : split_in_round L o cs ids pts ch before now split ->
        split_in_round L o cs ids' pts' ch' before' now' (fun k v => In k ids' /\ split (g k) v).
      Proof.
        intros (taken & T1 & T2 & T3 & T4). exists (fun i r k v => In i ids' /\ In k ids' /\ taken (g i) r (g k) v).
        split; [|split; [|split]].
        - intros i r k v (Hi & Hk & T). destruct (T1 _ _ _ _ T) as [X Ha]. split; [apply checked_renamed; assumption|apply asks_renamed; assumption].
        - intros i r k v X Ha. pose proof (proj1 X) as Hi. pose proof (asks_id _ _ _ _ Hi Ha) as Hk.
          apply (checked_renamed i r Hi) in X. apply (asks_renamed i r k v Hi Hk) in Ha.
          destruct (T2 _ _ _ _ X Ha) as (k0 & T). assert (Hk0 : In k0 ids) by (eapply asks_id0; [exact (proj1 X)|exact (proj2 (T1 _ _ _ _ T))]).
          destruct (rn_back _ _ _ _ _ _ HR k0 Hk0) as (B & G & _). exists (g' k0). rewrite G. auto.
        - intros i r k k' v (Hi & Hk & T) (_ & Hk' & T'). pose proof (T3 _ _ _ _ _ T T') as E.
          destruct (rn_to _ _ _ _ _ _ HR k Hk) as (_ & G & _), (rn_to _ _ _ _ _ _ HR k' Hk') as (_ & G' & _). congruence.
        - intros k v. split.
          + intros (Hk & Sp). apply T4 in Sp. destruct (rn_to _ _ _ _ _ _ HR k Hk) as (A & G & P). destruct Sp as (_ & S2 & S3 & S4).
            split; [exact Hk|]. rewrite (Hn k Hk). split; [exact S2|]. split; [exact S3|]. destruct S4 as [(i & r & T)|[C1 C2]].
            * left. pose proof (proj1 (proj1 (T1 _ _ _ _ T))) as Hi. destruct (rn_back _ _ _ _ _ _ HR i Hi) as (B & Gi & _).
              exists (g' i), r. rewrite Gi. auto.
            * right. split; [apply checked_renamed; assumption|]. rewrite <- P. exact C2.
          + intros (Hk & S2 & S3 & S4). split; [exact Hk|]. destruct (rn_to _ _ _ _ _ _ HR k Hk) as (A & G & P). apply T4.
            rewrite (Hn k Hk) in S2. split; [exact A|]. split; [exact S2|]. split; [exact S3|]. destruct S4 as [(i & r & _ & _ & T)|[C1 C2]]; [left; eauto|right].
            split; [apply checked_renamed; assumption|]. rewrite P. exact C2.
      Qed.
    End State.

    Lemma settle_renamed ch before now result : settle_class L o dist cs ids pts ch before now result ->
      forall (ch' : Z -> Prop) before' now', (forall i, In i ids' -> (ch' i <-> ch (g i))) ->
      (forall i, In i ids' -> before' i = before (g i)) -> (forall i, In i ids' -> now' i = now (g i)) ->
      settle_class L o dist cs ids' pts' ch' before' now' (fun i => result (g i)).
    Proof.
      induction 1 as [ch before now split result S1 S2 S3|ch before now split next result S1 S2 S3 S4 IH]; intros ch' before' now' Hc Hb Hn.
      - eapply sc_done; [eapply split_renamed; eauto|intros k v (_ & K); exact (S2 _ _ K)|].
        intros i Hi. rewrite (Hn i Hi). apply S3. apply (rn_to _ _ _ _ _ _ HR i Hi).
      - destruct S2 as (k & v & K).
        assert (Hk : In k ids) by (destruct S1 as (taken & _ & _ & _ & T4); apply T4 in K; apply K).
        destruct (rn_back _ _ _ _ _ _ HR k Hk) as (B & G & _).
        apply (sc_round L o dist cs ids' pts' ch' before' now' (fun k v => In k ids' /\ split (g k) v) (fun i => next (g i))).
        + eapply split_renamed; eauto.
        + exists (g' k), v. rewrite G. auto.
        + intros i Hi. destruct (rn_to _ _ _ _ _ _ HR i Hi) as (A & _ & P). destruct (S3 _ A) as [I1 I2]. split; [exact I1|].
          intros x. rewrite I2, (Hn i Hi), <- P. split; (intros [X|(w & X1 & X2)]; [auto|right; exists w; tauto]).
        + apply IH; [|exact Hn|reflexivity]. intros i Hi. rewrite (Hc i Hi). split; (intros [X|(w & X)]; [auto|right; exists w; tauto]).
    Qed.

    Lemma forced_renamed W score i k : In i ids' ->
      (lines_forced W o score ids pts (g i) k <-> lines_forced W o score ids' pts' i k).
    Proof.
      intros Hi. unfold lines_forced. cbv zeta. destruct (rn_to _ _ _ _ _ _ HR i Hi) as (A & G & P). rewrite P.
      set (fc := map (fun i => (i, pts i)) ids). set (fc' := map (fun i => (i, pts' i)) ids').
      assert (V : forall i k p, In i ids' -> (vertex_at fc (g i) k p <-> vertex_at fc' i k p)).
      { intros j l p Hj. destruct (rn_to _ _ _ _ _ _ HR j Hj) as (Aj & _ & Pj). split; intros (c & Hin & Ez).
        - unfold fc in Hin. apply in_map_iff in Hin. destruct Hin as (x & Ex & _). injection Ex as -> <-. exists (pts (g j)). split; [|exact Ez].
          rewrite Pj. unfold fc'. apply in_map_iff. eauto.
        - unfold fc' in Hin. apply in_map_iff in Hin. destruct Hin as (x & Ex & _). injection Ex as -> <-. exists (pts' j). split; [|exact Ez].
          rewrite <- Pj. unfold fc. apply in_map_iff. eauto. }
      assert (V0 : forall j l p, vertex_at fc j l p -> In j ids).
      { intros j l p (c & Hin & _). unfold fc in Hin. apply in_map_iff in Hin. destruct Hin as (x & Ex & Hx). injection Ex as <- _. exact Hx. }
      assert (V1 : forall j l p, vertex_at fc' j l p -> In j ids').
      { intros j l p (c & Hin & _). unfold fc' in Hin. apply in_map_iff in Hin. destruct Hin as (x & Ex & Hx). injection Ex as <- _. exact Hx. }
      assert (Sh : forall k p, shared_vertex fc (g i) k p <-> shared_vertex fc' i k p).
      { intros l p. split; intros (j & l' & q & Hne & Hv & Hl).
        - destruct (rn_back _ _ _ _ _ _ HR j (V0 _ _ _ Hv)) as (B & Gj & _). exists (g' j), l', q.
          split; [intros E; injection E as E1 E2; apply Hne; congruence|]. split; [|exact Hl]. apply V; [exact B|]. rewrite Gj. exact Hv.
        - pose proof (V1 _ _ _ Hv) as Hj. destruct (rn_to _ _ _ _ _ _ HR j Hj) as (_ & Gj & _). exists (g j), l', q.
          split; [intros E; injection E as E1 E2; apply Hne; congruence|]. split; [|exact Hl]. apply V; assumption. }
      assert (Ec : forall q, In q (class_points fc) <-> In q (class_points fc')).
      { intros q. unfold class_points. rewrite !in_flat_map. split; intros (x & Hx & Hq); apply in_map_iff in Hx; destruct Hx as (j & <- & Hj); cbn [snd] in Hq.
        - destruct (rn_back _ _ _ _ _ _ HR j Hj) as (B & _ & Pj). exists (g' j, pts' (g' j)). split; [apply in_map_iff; eauto|]. cbn [snd]. rewrite Pj. exact Hq.
        - destruct (rn_to _ _ _ _ _ _ HR j Hj) as (B & _ & Pj). exists (g j, pts (g j)). split; [apply in_map_iff; eauto|]. cbn [snd]. rewrite Pj. exact Hq. }
      split; intros (Hp & [K|(p & K1 & K2 & (q & K3 & K4))]); (split; [exact Hp|]); auto; right; exists p;
        (split; [apply (V i k p Hi), K1|]); (split; [apply Sh, K2|exists q; split; [apply Ec, K3|exact K4]]).
    Qed.
  End Two.
End Rename.

(** ** The description depends on the set of constraints only *)

Lemma homotopy_any_set L c a b : (forall g, In g a <-> In g b) -> homotopy L c a = homotopy L c b.
Proof.
  intros Hab. destruct (Z_le_gt_dec 2 (clen c)) as [Hn|Hn]; [apply homotopy_set; assumption|].
  assert (E : forall d, chain_deformation L c d = Ok (new_chain (clen c))).
  { intros d. unfold chain_deformation. cbn [ch_loop].
    assert (Es : ch_size (new_chain (clen c)) = clen c).
    { unfold new_chain. assert (El : zseq 1 (clen c - 1) = []) by (apply zseq_nil; lia). rewrite El. reflexivity. }
    rewrite Es. destruct (Z.ltb_spec 2 (clen c)); [lia|reflexivity]. }
  unfold homotopy, filter_context. cbv beta iota.
  assert (Hf : forall f g, In g (filter f a) <-> In g (filter f b)) by (intros f g; rewrite !filter_In, Hab; reflexivity).
  match goal with |- match filter ?x a with _ => _ end = _ => pose proof (Hf x) as Hx; destruct (filter x a) as [|x1 r1], (filter x b) as [|x2 r2] end; auto.
  2: { exfalso. apply (proj2 (Hx x2)). left; auto. }
  2: { exfalso. apply (proj1 (Hx x1)). left; auto. }
  match goal with |- match filter ?x a with _ => _ end = _ => pose proof (Hf x) as Hd; destruct (filter x a) as [|g1 s1], (filter x b) as [|g2 s2] end; auto.
  - exfalso. apply (proj2 (Hd g2)). left; auto.
  - exfalso. apply (proj1 (Hd g1)). left; auto.
  - rewrite !E. reflexivity.
Qed.

Section SameSet.
  Variables (L : geomlib) (o : opts) (dist : point -> point -> point -> f64) (cs cs' : list geometry).
  Hypothesis Hcs : forall g, In g cs <-> In g cs'.

  Lemma chord_set pts a b : chord_ok L o cs pts a b = chord_ok L o cs' pts a b.
  Proof.
    unfold chord_ok. cbv zeta.
    assert (Hn : forall g, In g (nearby_constraints L o cs pts a b) <-> In g (nearby_constraints L o cs' pts a b))
      by (intros g; unfold nearby_constraints; rewrite !filter_In, Hcs; reflexivity).
    rewrite (homotopy_any_set L _ _ _ Hn).
    assert (Hf : forall f, forallb f (nearby_constraints L o cs pts a b) = forallb f (nearby_constraints L o cs' pts a b)).
    { intros f. apply eq_true_iff_eq. rewrite !forallb_forall. split; intros H g Hg; apply H, Hn, Hg. }
    rewrite !Hf. reflexivity.
  Qed.

  Lemma must_split_set pts before now r : must_split L o cs pts before now r <-> must_split L o cs' pts before now r.
  Proof.
    unfold must_split. split; intros (A & B & h & C & D & E & F); split; auto; split; auto; exists h; split; auto; split; auto; split; auto;
      (destruct F as [[F1 F2]|F]; [left; split; [exact F1|]|right; exact F]); [rewrite <- chord_set|rewrite chord_set]; exact F2.
  Qed.
  Lemma settle_set pts before now r : settle L o dist cs pts before now r -> settle L o dist cs' pts before now r.
  Proof.
    induction 1 as [before now H|before now next r (v & H) Hi Hn _ IH].
    - apply se_done. intros v K. apply (H v), must_split_set, K.
    - eapply se_round; [exists v; apply must_split_set, H|exact Hi| |exact IH].
      intros k. rewrite Hn. split; (intros [K|(w & K1 & K2)]; [auto|right; exists w; split; [apply must_split_set, K1|exact K2]]).
  Qed.
  Lemma whole_set pts forced r : whole_result L o dist cs pts forced r -> whole_result L o dist cs' pts forced r.
  Proof.
    intros (dp & wf & sp & fixed & clear & A & B & C & D & E & F). exists dp, wf, sp, fixed, clear.
    split; [exact A|]. split; [exact B|]. split; [apply settle_set, C|]. split; [exact D|]. split; [|exact F].
    intros others a b. rewrite E. unfold clear_of. rewrite chord_set. reflexivity.
  Qed.
  Lemma round_set ids pts ch before now split : split_in_round L o cs ids pts ch before now split -> split_in_round L o cs' ids pts ch before now split.
  Proof.
    intros (taken & A & B & C & D). exists taken. split; [exact A|]. split; [exact B|]. split; [exact C|].
    intros k v. rewrite D, chord_set. reflexivity.
  Qed.
  Lemma clearly_set ids pts ch before now r : settle_clearly L o dist cs ids pts ch before now r -> settle_clearly L o dist cs' ids pts ch before now r.
  Proof. induction 1; [eapply sy_done|eapply sy_round]; eauto using round_set. Qed.
  Lemma class_clear_set ids pts forced r : class_result_clear L o dist cs ids pts forced r -> class_result_clear L o dist cs' ids pts forced r.
  Proof. intros (alone & A & B). exists alone. split; [intros i Hi; apply whole_set, A, Hi|apply clearly_set, B]. Qed.
End SameSet.
