(** R-tree: where an entry goes and where an overfull node is cut. *)
From Coq Require Sorting.Sorted.
From Verif Require Import M_Base M_Float M_Rng M_Geom M_Node M_Hdb Spec Spec_Hdb Spec_HdbShape P_Base P_Float P_FSub P_Hdb P_HdbIns P_HdbLoad P_HdbQuery P_Tame P_HdbHist P_Sed.
Open Scope nat_scope.

Lemma real_box_all b : real_box b -> box_all (mag 483) b.
Proof. intros ((A & _) & (B & _) & (C & _) & (D & _)). repeat split; assumption. Qed.

Lemma mag_fin D x : mag D x -> is_fin x = true.
Proof. destruct x; cbn; auto; tauto. Qed.

Lemma common_is a b : num_box a -> num_box b -> intersection_area a b = common_area a b.
Proof.
  intros A B. unfold intersection_area, common_area. rewrite (meet_intersects a b A B).
  destruct (boxes_meet a b); reflexivity.
Qed.

Lemma within_of_in a b : box_in a b -> box_within a b = true.
Proof. intros H. rewrite within_contains. exact H. Qed.

Lemma dist_surrounds l : (forall c, In c l -> box_nonan (db_bbox c)) -> surrounds (dist_bbox l) l.
Proof.
  intros H. split.
  - intros c Hc. apply within_of_in. apply dist_bbox_in; auto.
  - intros B HB Hl. apply within_of_in. apply dist_bbox_lub; [exact HB|].
    intros c Hc. unfold box_in. rewrite <- within_contains. apply Hl, Hc.
Qed.

(** ** The cut *)
Definition ov (c : list dbnode) (i : nat) : f64 := intersection_area (dist_bbox (firstn i c)) (dist_bbox (skipn i c)).

Lemma cut_fold c : forall l st done,
  (forall i, In i l -> is_nan (ov c i) = false) ->
  let '(idx, mo, _) := st in
  In idx done -> feq (ov c idx) mo = true -> (forall j, In j done -> fle mo (ov c j) = true) ->
  let '(idx', mo', _) := fold_left (split_index_step c) l st in
  In idx' (done ++ l) /\ feq (ov c idx') mo' = true /\ forall j, In j (done ++ l) -> fle mo' (ov c j) = true.
Proof.
  induction l as [|i l IH]; intros [[idx mo] ma] done Hn; intros H1 H2 H3; cbn [fold_left].
  { rewrite app_nil_r. auto. }
  assert (Hs : exists idx' mo' ma', split_index_step c (idx, mo, ma) i = (idx', mo', ma') /\
    In idx' (done ++ [i]) /\ feq (ov c idx') mo' = true /\ forall j, In j (done ++ [i]) -> fle mo' (ov c j) = true).
  { pose proof (Hn i (or_introl eq_refl)) as Ni.
    assert (Nm : is_nan mo = false) by (apply feq_key in H2; tauto).
    unfold split_index_step. cbv zeta. fold (ov c i).
    assert (R : forall x, is_nan x = false -> feq x x = true) by (intros x Hx; apply feq_key; unfold keq; auto).
    destruct (flt (ov c i) mo) eqn:L.
    - do 3 eexists. split; [reflexivity|]. split; [apply in_or_app; right; left; reflexivity|]. split; [apply R, Ni|].
      intros j Hj. apply in_app_or in Hj. destruct Hj as [Hj|[<-|[]]]; [|apply fle_refl, Ni].
      eapply fle_trans; [apply flt_le; exact L|apply H3, Hj].
    - apply flt_total in L; auto.
      assert (G : forall j, In j (done ++ [i]) -> fle mo (ov c j) = true).
      { intros j Hj. apply in_app_or in Hj. destruct Hj as [Hj|[<-|[]]]; [apply H3, Hj|exact L]. }
      destruct (feq (ov c i) mo) eqn:Q.
      + match goal with |- context [if ?x then (i, mo, _) else _] => destruct x end.
        * do 3 eexists. split; [reflexivity|]. split; [apply in_or_app; right; left; reflexivity|]. auto.
        * do 3 eexists. split; [reflexivity|]. split; [apply in_or_app; left; exact H1|]. auto.
      + do 3 eexists. split; [reflexivity|]. split; [apply in_or_app; left; exact H1|]. auto. }
  destruct Hs as (idx' & mo' & ma' & -> & G1 & G2 & G3).
  specialize (IH (idx', mo', ma') (done ++ [i]) (fun j Hj => Hn j (or_intror Hj)) G1 G2 G3).
  destruct (fold_left (split_index_step c) l (idx', mo', ma')) as [[a b] d].
  rewrite <- app_assoc in IH. exact IH.
Qed.

Lemma ov_num P c m i : tame P -> 1 <= m -> 2 * m <= length c -> (forall x, In x c -> box_all P (db_bbox x)) ->
  m <= i <= length c - m -> is_nan (ov c i) = false /\ is_fin (ov c i) = true.
Proof.
  intros HP Hm Hlen Hc Hi. assert (F : is_fin (ov c i) = true).
  { apply (intersection_area_fin P HP).
    - apply dist_bbox_all; auto.
      + intros E. apply (f_equal (@length _)) in E. rewrite firstn_length in E. cbn in E. lia.
      + intros x Hx. apply Hc. eapply firstn_In; eauto.
    - apply dist_bbox_all; auto.
      + intros E. apply (f_equal (@length _)) in E. rewrite skipn_length in E. cbn in E. lia.
      + intros x Hx. apply Hc. eapply skipn_In; eauto. }
  split; [apply fin_not_nan|]; exact F.
Qed.

Lemma cut_least P c m : tame P -> 1 <= m -> 2 * m <= length c -> (forall x, In x c -> box_all P (db_bbox x)) ->
  let k := choose_split_index c m (length c) in
  m <= k <= length c - m /\ forall j, m <= j <= length c - m -> fle (ov c k) (ov c j) = true.
Proof.
  intros HP Hm Hlen Hc k. split; [apply (split_index_range P HP); auto|].
  unfold k, choose_split_index. replace (length c - m + 1 - m) with (S (length c - 2 * m)) by lia. cbn [seq fold_left].
  assert (N : forall i, m <= i <= length c - m -> is_nan (ov c i) = false /\ is_fin (ov c i) = true).
  { intros i Hi. eapply ov_num; eauto. }
  assert (H0 : exists ma, split_index_step c (0, finf, finf) m = (m, ov c m, ma)).
  { unfold split_index_step. cbv zeta. fold (ov c m). rewrite (fin_lt_inf _ (proj2 (N m ltac:(lia)))). eauto. }
  destruct H0 as (ma & ->).
  pose proof (cut_fold c (seq (S m) (length c - 2 * m)) (m, ov c m, ma) [m]) as H. cbv beta iota in H.
  destruct (fold_left (split_index_step c) (seq (S m) (length c - 2 * m)) (m, ov c m, ma)) as [[idx mo] ma'].
  destruct H as (H1 & H2 & H3).
  - intros i Hi. apply in_seq in Hi. apply N. lia.
  - left. reflexivity.
  - apply feq_key. unfold keq. pose proof (proj1 (N m ltac:(lia))). auto.
  - intros j [<-|[]]. apply fle_refl, N. lia.
  - intros j Hj. specialize (H3 j). eapply fle_trans; [|apply H3].
    + apply feq_key in H2. apply fle_key. tauto.
    + cbn [app]. destruct (Nat.eq_dec j m) as [->|Hne]; [left; reflexivity|]. right. apply in_seq. lia.
Qed.

(** ** Cuts with the same overlap *)
Definition ar (c : list dbnode) (i : nat) : f64 := fadd (mbr_area (dist_bbox (firstn i c))) (mbr_area (dist_bbox (skipn i c))).

Lemma area_sum_num a b : box_all (mag 483) a -> box_all (mag 483) b -> is_fin (fadd (box_area a) (box_area b)) = true.
Proof.
  assert (K : forall x, box_all (mag 483) x -> mag 971 (box_area x)).
  { intros x (A & B & C & D). unfold box_area. apply (mul_mag 485); try lia; apply (sub_mag 483); auto; lia. }
  intros A B. apply (mag_fin 973). apply (add_mag 971); auto; lia.
Qed.

Lemma tie_fold c : forall l st done,
  (forall i, In i l -> is_nan (ov c i) = false /\ is_nan (ar c i) = false /\ forall j, In j done -> j < i) -> Sorted.StronglySorted lt l ->
  let '(idx, mo, ma) := st in
  In idx done -> feq (ov c idx) mo = true -> (forall j, In j done -> fle mo (ov c j) = true) ->
  (forall j, In j done -> feq (ov c j) mo = true -> fle ma (ar c j) = true) ->
  (exists i, In i done /\ i <= idx /\ ma = ar c i) ->
  (forall j, In j done -> j < idx -> feq (ov c j) mo = true -> flt (ar c idx) (ar c j) = true) ->
  let '(idx', mo', ma') := fold_left (split_index_step c) l st in
  feq (ov c idx') mo' = true /\
  (forall j, In j (done ++ l) -> feq (ov c j) mo' = true -> fle ma' (ar c j) = true) /\
  (exists i, In i (done ++ l) /\ i <= idx' /\ ma' = ar c i) /\
  (forall j, In j (done ++ l) -> j < idx' -> feq (ov c j) mo' = true -> flt (ar c idx') (ar c j) = true).
Proof.
  induction l as [|i l IH]; intros [[idx mo] ma] done Hn Hso; intros H1 H2 H3 H4 H5 H6; cbn [fold_left].
  { rewrite app_nil_r. auto. }
  destruct (Hn i (or_introl eq_refl)) as (Ni & Na & Hlt). inversion Hso as [|? ? S1 S2]; subst.
  assert (Nm : is_nan mo = false) by (apply feq_key in H2; tauto).
  assert (R : forall x, is_nan x = false -> feq x x = true) by (intros x Hx; apply feq_key; unfold keq; auto).
  assert (G0 : forall j, In j l -> is_nan (ov c j) = false /\ is_nan (ar c j) = false /\ forall k, In k (done ++ [i]) -> k < j).
  { intros j Hj. destruct (Hn j (or_intror Hj)) as (A & B & C). split; [exact A|]. split; [exact B|].
    intros k Hk. apply in_app_or in Hk. destruct Hk as [Hk|[<-|[]]]; [auto|]. rewrite Forall_forall in S2. apply S2, Hj. }
  assert (Hs : exists idx' mo' ma', split_index_step c (idx, mo, ma) i = (idx', mo', ma') /\
    In idx' (done ++ [i]) /\ feq (ov c idx') mo' = true /\ (forall j, In j (done ++ [i]) -> fle mo' (ov c j) = true) /\
    (forall j, In j (done ++ [i]) -> feq (ov c j) mo' = true -> fle ma' (ar c j) = true) /\
    (exists k, In k (done ++ [i]) /\ k <= idx' /\ ma' = ar c k) /\
    (forall j, In j (done ++ [i]) -> j < idx' -> feq (ov c j) mo' = true -> flt (ar c idx') (ar c j) = true)).
  { destruct H5 as (k0 & K1 & K2 & K3). assert (Nma : is_nan ma = false).
    { specialize (H4 idx H1 H2). apply fle_key in H4. tauto. }
    unfold split_index_step. cbv zeta. fold (ov c i). fold (ar c i).
    destruct (flt (ov c i) mo) eqn:L.
    - assert (NT : forall j, In j done -> feq (ov c j) (ov c i) <> true).
      { intros j Hj E. specialize (H3 j Hj). rewrite flt_key in L. rewrite fle_key in H3. rewrite feq_key in E. unfold keq, klt in *. lia. }
      do 3 eexists. split; [reflexivity|]. split; [apply in_or_app; right; left; reflexivity|]. split; [apply R, Ni|].
      split; [|split; [|split]].
      + intros j Hj. apply in_app_or in Hj. destruct Hj as [Hj|[<-|[]]]; [|apply fle_refl, Ni].
        eapply fle_trans; [apply flt_le; exact L|apply H3, Hj].
      + intros j Hj E. apply in_app_or in Hj. destruct Hj as [Hj|[<-|[]]]; [exfalso; exact (NT j Hj E)|].
        destruct (flt (ar c i) ma) eqn:La; [apply fle_refl, Na|apply flt_total in La; auto].
      + destruct (flt (ar c i) ma).
        * exists i. split; [apply in_or_app; right; left; reflexivity|]. auto.
        * exists k0. split; [apply in_or_app; left; exact K1|]. split; [apply Nat.lt_le_incl, Hlt, K1|exact K3].
      + intros j Hj Hji E. apply in_app_or in Hj. destruct Hj as [Hj|[<-|[]]]; [exfalso; exact (NT j Hj E)|lia].
    - apply flt_total in L; auto.
      assert (G : forall j, In j (done ++ [i]) -> fle mo (ov c j) = true).
      { intros j Hj. apply in_app_or in Hj. destruct Hj as [Hj|[<-|[]]]; [apply H3, Hj|exact L]. }
      destruct (feq (ov c i) mo) eqn:Q.
      + destruct (flt (ar c i) ma) eqn:La.
        * do 3 eexists. split; [reflexivity|]. split; [apply in_or_app; right; left; reflexivity|]. split; [exact Q|]. split; [exact G|].
          split; [|split].
          -- intros j Hj E. apply in_app_or in Hj. destruct Hj as [Hj|[<-|[]]]; [|apply fle_refl, Na].
             eapply fle_trans; [apply flt_le; exact La|apply H4; auto].
          -- exists i. split; [apply in_or_app; right; left; reflexivity|]. auto.
          -- intros j Hj Hji E. apply in_app_or in Hj. destruct Hj as [Hj|[<-|[]]]; [|lia].
             specialize (H4 j Hj E). rewrite flt_key in La |- *. rewrite fle_key in H4. destruct La as (? & ? & ?), H4 as (? & ? & ?). split; [assumption|]. split; [assumption|]. unfold klt, keq in *. lia.
        * do 3 eexists. split; [reflexivity|]. split; [apply in_or_app; left; exact H1|]. split; [exact H2|]. split; [exact G|].
          split; [|split].
          -- intros j Hj E. apply in_app_or in Hj. destruct Hj as [Hj|[<-|[]]]; [apply H4; auto|]. apply flt_total in La; auto.
          -- exists k0. split; [apply in_or_app; left; exact K1|]. auto.
          -- intros j Hj Hji E. apply in_app_or in Hj. destruct Hj as [Hj|[<-|[]]]; [apply H6; auto|]. specialize (Hlt idx H1). lia.
      + do 3 eexists. split; [reflexivity|]. split; [apply in_or_app; left; exact H1|]. split; [exact H2|]. split; [exact G|].
        split; [|split].
        -- intros j Hj E. apply in_app_or in Hj. destruct Hj as [Hj|[<-|[]]]; [apply H4; auto|congruence].
        -- exists k0. split; [apply in_or_app; left; exact K1|]. auto.
        -- intros j Hj Hji E. apply in_app_or in Hj. destruct Hj as [Hj|[<-|[]]]; [apply H6; auto|congruence]. }
  destruct Hs as (idx' & mo' & ma' & -> & G1 & G2 & G3 & G4 & G5 & G6).
  specialize (IH (idx', mo', ma') (done ++ [i]) G0 S1 G1 G2 G3 G4 G5 G6).
  destruct (fold_left (split_index_step c) l (idx', mo', ma')) as [[a b] d].
  rewrite <- app_assoc in IH. exact IH.
Qed.

Lemma cut_ties c m : 1 <= m -> 2 * m <= length c -> (forall x, In x c -> box_all (mag 483) (db_bbox x)) ->
  let k := choose_split_index c m (length c) in
  forall j, m <= j <= length c - m -> feq (ov c j) (ov c k) = true ->
  (j < k -> flt (ar c k) (ar c j) = true) /\ exists i, m <= i <= k /\ fle (ar c i) (ar c j) = true.
Proof.
  intros Hm Hlen Hc k. pose proof (split_index_range (mag 483) tame_483 c m Hm Hlen Hc) as Hk. fold k in Hk.
  assert (N : forall i, m <= i <= length c - m -> is_nan (ov c i) = false /\ is_fin (ov c i) = true).
  { intros i Hi. eapply ov_num; eauto. apply tame_483. }
  assert (A : forall i, m <= i <= length c - m -> is_fin (ar c i) = true).
  { intros i Hi. apply area_sum_num; apply dist_bbox_all; try exact tame_483.
    - intros X. apply (f_equal (@length _)) in X. rewrite firstn_length in X. cbn in X. lia.
    - intros x Hx. apply Hc. eapply firstn_In; eauto.
    - intros X. apply (f_equal (@length _)) in X. rewrite skipn_length in X. cbn in X. lia.
    - intros x Hx. apply Hc. eapply skipn_In; eauto. }
  unfold k, choose_split_index in *. clear k.
  assert (H0 : split_index_step c (0, finf, finf) m = (m, ov c m, ar c m)).
  { unfold split_index_step. cbv zeta. fold (ov c m). fold (ar c m). rewrite (fin_lt_inf _ (proj2 (N m ltac:(lia)))).
    rewrite (fin_lt_inf _ (A m ltac:(lia))). reflexivity. }
  revert Hk. replace (length c - m + 1 - m) with (S (length c - 2 * m)) by lia. cbn [seq fold_left]. rewrite H0.
  pose proof (tie_fold c (seq (S m) (length c - 2 * m)) (m, ov c m, ar c m) [m]) as H. cbv beta iota in H.
  destruct (fold_left (split_index_step c) (seq (S m) (length c - 2 * m)) (m, ov c m, ar c m)) as [[idx mo] ma'].
  intros Hk. destruct H as (H2 & H4 & H5 & H6).
  - intros i Hi. apply in_seq in Hi. split; [apply N; lia|]. split; [apply fin_not_nan, A; lia|]. intros j [<-|[]]. lia.
  - generalize (S m) as a. induction (length c - 2 * m) as [|n IH]; intros a; cbn [seq]; constructor; [apply IH|].
    apply Forall_forall. intros x Hx. apply in_seq in Hx. lia.
  - left. reflexivity.
  - apply feq_key. unfold keq. pose proof (proj1 (N m ltac:(lia))). auto.
  - intros j [<-|[]]. apply fle_refl, N. lia.
  - intros j [<-|[]] _. apply fle_refl, fin_not_nan, A. lia.
  - exists m. split; [left; reflexivity|]. auto.
  - intros j [<-|[]] X. lia.
  - intros j Hj E.
    assert (Hin : In j ([m] ++ seq (S m) (length c - 2 * m))).
    { cbn [app]. destruct (Nat.eq_dec j m) as [->|Hne]; [left; reflexivity|]. right. apply in_seq. lia. }
    assert (E' : feq (ov c j) mo = true).
    { rewrite feq_key in E, H2 |- *. unfold keq in *. intuition congruence. }
    split; [intros Hjk; apply H6; auto|].
    destruct H5 as (i & I1 & I2 & ->). exists i. split; [|apply H4; auto].
    cbn [app] in I1. destruct I1 as [<-|I1]; [lia|]. apply in_seq in I1. lia.
Qed.

(** ** The child to go to *)
Definition grown (b : mbr) (d : dbnode) : f64 := stretched_area b (db_bbox d).

Lemma grown_num b d : real_box b -> real_box (db_bbox d) -> f_num (grown b d) = true.
Proof.
  intros A B. pose proof (real_box_all _ A) as A'. pose proof (real_box_all _ B) as B'. unfold f_num. apply andb_true_intro. split.
  - unfold grown, stretched_area, box_area. cbn [minx miny maxx maxy]. apply (tame_area (mag 483) tame_483); unfold f_min, f_max.
    all: match goal with |- mag _ (if ?c then _ else _) => destruct c end.
    all: first [apply A'|apply B'].
  - destruct A as (A1 & A2 & A3 & A4), B as (B1 & B2 & B3 & B4).
    unfold grown, stretched_area, box_area. cbn [minx miny maxx maxy]. apply mul_valid; apply sub_valid; unfold f_min, f_max.
    all: match goal with |- _ (if ?c then _ else _) = _ => destruct c end; tauto.
Qed.

Lemma step_is eps b st c : choose_step eps b st c =
  let '(min_area, min_enl, target, i) := st in
  let area := box_area (db_bbox c) in
  let d := fsub (grown b c) min_enl in
  if flt d fzero then ((if flt area min_area then area else min_area), grown b c, Some i, S i)
  else if feq d fzero || flt (fabs d) eps then
    if flt area min_area then (area, min_enl, Some i, S i) else (min_area, min_enl, target, S i)
  else (min_area, min_enl, target, S i).
Proof. destruct st as [[[a e] t] i]. reflexivity. Qed.

Lemma choose_fold_least eps b (H0 : real_box b) : forall l st done,
  (forall c, In c l -> real_box (db_bbox c)) -> (forall c, In c done -> real_box (db_bbox c)) ->
  let '(_, me, t, i) := st in
  i = length done ->
  (exists k c, t = Some k /\ nth_error done k = Some c /\
     (grown b c = me \/ feq (fsub (grown b c) me) fzero = true \/ flt (fabs (fsub (grown b c) me)) eps = true)) ->
  (exists c, In c done /\ grown b c = me) -> (forall c, In c done -> fle me (grown b c) = true) ->
  let '(_, me', t', i') := fold_left (choose_step eps b) l st in
  (exists k c, t' = Some k /\ nth_error (done ++ l) k = Some c /\
     (grown b c = me' \/ feq (fsub (grown b c) me') fzero = true \/ flt (fabs (fsub (grown b c) me')) eps = true)) /\
  (exists c, In c (done ++ l) /\ grown b c = me') /\ forall c, In c (done ++ l) -> fle me' (grown b c) = true.
Proof.
  induction l as [|c l IH]; intros [[[ma me] t] i] done Hl Hd; intros E1 E2 E3 E4; cbn [fold_left].
  { rewrite app_nil_r. auto. }
  assert (Rc : real_box (db_bbox c)) by (apply Hl; left; reflexivity).
  assert (Gc : f_num (grown b c) = true) by (apply grown_num; auto).
  assert (Gm : f_num me = true) by (destruct E3 as (x & X1 & <-); apply grown_num; auto).
  assert (Hs : exists ma' me' t', choose_step eps b (ma, me, t, i) c = (ma', me', t', S i) /\
    (exists k x, t' = Some k /\ nth_error (done ++ [c]) k = Some x /\
       (grown b x = me' \/ feq (fsub (grown b x) me') fzero = true \/ flt (fabs (fsub (grown b x) me')) eps = true)) /\
    (exists x, In x (done ++ [c]) /\ grown b x = me') /\ (forall x, In x (done ++ [c]) -> fle me' (grown b x) = true)).
  { rewrite step_is. cbv beta iota zeta. rewrite (fsub_lt _ _ Gc Gm).
    assert (Hk : nth_error (done ++ [c]) i = Some c).
    { rewrite E1, nth_error_app2, Nat.sub_diag by lia. reflexivity. }
    assert (Ho : exists k x, t = Some k /\ nth_error (done ++ [c]) k = Some x /\
       (grown b x = me \/ feq (fsub (grown b x) me) fzero = true \/ flt (fabs (fsub (grown b x) me)) eps = true)).
    { destruct E2 as (k & x & A & B & C). exists k, x. split; [exact A|]. split; [|exact C].
      rewrite nth_error_app1; [exact B|]. apply nth_error_Some. congruence. }
    assert (Hm : exists x, In x (done ++ [c]) /\ grown b x = me).
    { destruct E3 as (x & A & B). exists x. split; [apply in_or_app; left; exact A|exact B]. }
    destruct (flt (grown b c) me) eqn:L.
    - do 3 eexists. split; [reflexivity|]. split; [exists i, c; auto|].
      split; [exists c; split; [apply in_or_app; right; left; reflexivity|reflexivity]|].
      intros x Hx. apply in_app_or in Hx. destruct Hx as [Hx|[<-|[]]]; [|apply fle_refl, f_num_nan, Gc].
      eapply fle_trans; [apply flt_le; exact L|apply E4, Hx].
    - apply flt_total in L; [|apply f_num_nan, Gc|apply f_num_nan, Gm].
      assert (K : forall x, In x (done ++ [c]) -> fle me (grown b x) = true).
      { intros x Hx. apply in_app_or in Hx. destruct Hx as [Hx|[<-|[]]]; [apply E4, Hx|exact L]. }
      destruct (feq (fsub (grown b c) me) fzero || flt (fabs (fsub (grown b c) me)) eps) eqn:Q.
      + apply orb_true_iff in Q. match goal with |- context [if ?x then (_, _, _, _) else _] => destruct x end.
        * do 3 eexists. split; [reflexivity|]. split; [exists i, c; tauto|]. auto.
        * do 3 eexists. split; [reflexivity|]. auto.
      + do 3 eexists. split; [reflexivity|]. auto. }
  destruct Hs as (ma' & me' & t' & -> & F1 & F2 & F3).
  specialize (IH (ma', me', t', S i) (done ++ [c]) (fun x Hx => Hl x (or_intror Hx))).
  cbv beta iota in IH. rewrite <- app_assoc in IH. apply IH; auto.
  - intros x Hx. apply in_app_or in Hx. destruct Hx as [Hx|[<-|[]]]; auto.
  - rewrite app_length. cbn. lia.
Qed.

Lemma choose_least eps b l : real_box b -> l <> [] -> (forall c, In c l -> real_box (db_bbox c)) ->
  exists i c least, choose_child eps b l = Some i /\ nth_error l i = Some c /\
    (exists d, In d l /\ grown b d = least) /\ (forall d, In d l -> fle least (grown b d) = true) /\
    (fle (grown b c) least = true \/ flt (fabs (fsub (grown b c) least)) eps = true).
Proof.
  intros Hb Hne Hl. destruct l as [|c0 l]; [congruence|]. unfold choose_child. cbn [fold_left].
  assert (R0 : real_box (db_bbox c0)) by (apply Hl; left; reflexivity).
  assert (G0 : f_num (grown b c0) = true) by (apply grown_num; auto).
  assert (H0 : exists ma, choose_step eps b (finf, finf, None, 0) c0 = (ma, grown b c0, Some 0, 1)).
  { rewrite step_is. cbv beta iota zeta. rewrite fsub_inf by (unfold f_num in G0; apply andb_prop in G0; tauto).
    change (flt fninf fzero) with true. eauto. }
  destruct H0 as (ma & ->).
  pose proof (choose_fold_least eps b Hb l (ma, grown b c0, Some 0, 1) [c0] (fun x Hx => Hl x (or_intror Hx))) as H.
  cbv beta iota in H. specialize (H ltac:(intros x [<-|[]]; exact R0) eq_refl).
  destruct (fold_left (choose_step eps b) l (ma, grown b c0, Some 0, 1)) as [[[ma' me] t] i].
  destruct H as ((k & c & T1 & T2 & T3) & T4 & T5).
  - exists 0, c0. cbn. auto.
  - exists c0. split; [left; reflexivity|reflexivity].
  - intros x [<-|[]]. apply fle_refl, f_num_nan, G0.
  - cbn [app] in *. exists k, c, me. split; [exact T1|]. split; [exact T2|]. split; [exact T4|]. split; [exact T5|].
    assert (Gm : f_num me = true) by (destruct T4 as (x & X1 & <-); apply grown_num; auto).
    assert (Gc : f_num (grown b c) = true) by (apply grown_num; [exact Hb|apply Hl; eapply nth_error_In; eauto]).
    destruct T3 as [T|[T|T]]; [left|left|right; exact T].
    + rewrite T. apply fle_refl, f_num_nan, Gm.
    + unfold feq, SFeqb in T. rewrite fsub_compare in T by assumption. unfold fle, SFleb.
      destruct (SFcompare (grown b c) me) as [[]|]; auto; discriminate.
Qed.

(** ** The axis *)
Lemma surrounds_expand b g x g' : box_nonan b -> box_nonan (db_bbox x) -> surrounds b g ->
  (forall y, In y g' <-> In y g \/ y = x) -> surrounds (expand b (db_bbox x)) g'.
Proof.
  intros Nb Nx [H1 H2] Hg. split.
  - intros c Hc. apply within_of_in. apply Hg in Hc. destruct Hc as [Hc| ->].
    + eapply box_in_trans; [|apply expand_l; assumption]. unfold box_in. rewrite <- within_contains. apply H1, Hc.
    + apply expand_r; assumption.
  - intros B HB Hl. apply within_of_in. apply expand_lub; unfold box_in; rewrite <- within_contains.
    + apply H2; [exact HB|]. intros c Hc. apply Hl, Hg. left. exact Hc.
    + apply Hl, Hg. right. reflexivity.
Qed.

Lemma expand_nonan a b : box_nonan a -> box_nonan b -> box_nonan (expand a b).
Proof.
  intros (A1 & A2 & A3 & A4) (B1 & B2 & B3 & B4). unfold box_nonan. cbn [expand minx miny maxx maxy].
  repeat split; match goal with |- context [if ?c then _ else _] => destruct c end; assumption.
Qed.

Lemma skipn_plus {A} (c : list A) m n : skipn n (skipn m c) = skipn (m + n) c.
Proof. revert c. induction m as [|m IH]; intros c; [reflexivity|]. destruct c as [|x c]; [apply skipn_nil|]. apply IH. Qed.

(** Groups that grow by one entry at a time. *)
Fixpoint growing (g : list dbnode) (mid : list dbnode) (gs : list (list dbnode)) : Prop :=
  match mid, gs with
  | [], [] => True
  | x :: mid, g' :: gs => (forall y, In y g' <-> In y g \/ y = x) /\ growing g' mid gs
  | _, _ => False
  end.

Definition margin_step (st : mbr * f64) (ch : dbnode) : mbr * f64 :=
  let b := expand (fst st) (db_bbox ch) in (b, fadd (snd st) (bbox_margin b)).

Lemma grow mid : forall gs g b s, (forall x, In x mid -> box_nonan (db_bbox x)) -> box_nonan b -> surrounds b g -> growing g mid gs ->
  exists bs, Forall2 surrounds bs gs /\ snd (fold_left margin_step mid (b, s)) = fold_left fadd (map half_girth bs) s.
Proof.
  induction mid as [|x mid IH]; intros gs g b s Hn Nb Hb Hg; destruct gs as [|g' gs]; cbn [growing] in Hg; try tauto.
  - exists []. split; [constructor|reflexivity].
  - destruct Hg as [Hx Hg]. pose proof (Hn x (or_introl eq_refl)) as Nx.
    destruct (IH gs g' (expand b (db_bbox x)) (fadd s (bbox_margin (expand b (db_bbox x)))))
      as (bs & F & E); auto.
    + intros y Hy. apply Hn. right. exact Hy.
    + apply expand_nonan; assumption.
    + eapply surrounds_expand; eauto.
    + exists (expand b (db_bbox x) :: bs). split; [constructor; [eapply surrounds_expand; eauto|exact F]|exact E].
Qed.

Lemma skipn_next {A} (c : list A) j : j < length c -> exists x, skipn j c = x :: skipn (S j) c /\ firstn (S j) c = firstn j c ++ [x].
Proof.
  revert j. induction c as [|y c IH]; intros j Hj; cbn in Hj; [lia|]. destruct j as [|j]; [exists y; auto|].
  destruct (IH j ltac:(lia)) as (x & E1 & E2). exists x. cbn [skipn]. rewrite E1. split; [reflexivity|].
  change (firstn (S (S j)) (y :: c)) with (y :: firstn (S j) c). rewrite E2. reflexivity.
Qed.

Lemma growing_front c n : forall m, m + n <= length c ->
  growing (firstn m c) (firstn n (skipn m c)) (map (fun j => firstn j c) (seq (S m) n)).
Proof.
  induction n as [|n IH]; intros m Hm; [exact I|].
  destruct (skipn_next c m ltac:(lia)) as (x & E1 & E2). rewrite E1. cbn [firstn seq map growing]. split.
  - intros y. change (In y (firstn (S m) c) <-> In y (firstn m c) \/ y = x). rewrite E2. rewrite in_app_iff. cbn. intuition.
  - exact (IH (S m) ltac:(lia)).
Qed.

Lemma growing_back c n : forall m, m + n <= length c ->
  growing (skipn (m + n) c) (rev (firstn n (skipn m c))) (map (fun j => skipn j c) (rev (seq m n))).
Proof.
  induction n as [|n IH]; intros m Hm; [exact I|].
  assert (Hl : n < length (skipn m c)) by (rewrite skipn_length; lia).
  destruct (skipn_next (skipn m c) n Hl) as (x & E1 & E2). rewrite E2, rev_app_distr, seq_S, rev_app_distr. cbn [rev app map growing].
  assert (E3 : skipn (m + n) c = x :: skipn (m + S n) c).
  { rewrite !skipn_plus in E1. exact E1. }
  split.
  - intros y. rewrite E3. cbn. intuition.
  - apply IH. lia.
Qed.

Lemma dist_nonan l : (forall c, In c l -> box_nonan (db_bbox c)) -> box_nonan (dist_bbox l).
Proof.
  intros H. unfold dist_bbox. assert (G : forall l b, (forall c, In c l -> box_nonan (db_bbox c)) -> box_nonan b ->
    box_nonan (fold_left (fun b c => expand b (db_bbox c)) l b)); [|apply G; [exact H|exact empty_nonan]].
  clear. induction l as [|x l IH]; intros b Hl Hb; cbn [fold_left]; [exact Hb|]. apply IH.
  - intros c Hc. apply Hl. right. exact Hc.
  - apply expand_nonan; [exact Hb|apply Hl; left; reflexivity].
Qed.

Lemma margin_is c m : m + m <= length c -> (forall x, In x c -> box_nonan (db_bbox x)) ->
  exists bs, Forall2 surrounds bs (groups m c) /\ all_dist_margin c m (length c) = total_girth bs.
Proof.
  intros Hm Hn. unfold all_dist_margin. cbv zeta.
  change (fun (st : mbr * f64) ch => (expand (fst st) (db_bbox ch), fadd (snd st) (bbox_margin (expand (fst st) (db_bbox ch))))) with margin_step.
  rewrite (firstn_all2 (n := m) (skipn (length c - m) c)) by (rewrite skipn_length; lia).
  set (n := length c - m - m). set (mid := firstn n (skipn m c)).
  assert (Nf : forall j x, In x (firstn j c) -> box_nonan (db_bbox x)) by (intros j x Hx; apply Hn; eapply firstn_In; eauto).
  assert (Ns : forall j x, In x (skipn j c) -> box_nonan (db_bbox x)) by (intros j x Hx; apply Hn; eapply skipn_In; eauto).
  assert (Nm : forall x, In x mid -> box_nonan (db_bbox x)) by (intros x Hx; apply (Ns m); eapply firstn_In; eauto).
  set (bl := dist_bbox (firstn m c)). set (br := dist_bbox (skipn (length c - m) c)).
  set (s0 := fadd (bbox_margin bl) (bbox_margin br)).
  destruct (grow mid (map (fun j => firstn j c) (seq (S m) n)) (firstn m c) bl s0) as (b1 & F1 & E1); auto.
  { apply dist_nonan, Nf. } { apply dist_surrounds, Nf. } { apply growing_front. lia. }
  destruct (fold_left margin_step mid (bl, s0)) as [q s1]. cbn [snd] in E1. subst s1.
  destruct (grow (rev mid) (map (fun j => skipn j c) (rev (seq m n))) (skipn (length c - m) c) br (fold_left fadd (map half_girth b1) s0)) as (b2 & F2 & E2).
  { intros x Hx. apply Nm, in_rev, Hx. } { apply dist_nonan, Ns. } { apply dist_surrounds, Ns. }
  { replace (length c - m) with (m + n) by lia. apply growing_back. lia. }
  destruct (fold_left margin_step (rev mid) _) as [q' s2]. cbn [snd] in E2. subst s2.
  exists (bl :: br :: b1 ++ b2). split.
  - constructor; [apply dist_surrounds, Nf|]. constructor; [apply dist_surrounds, Ns|]. apply Forall2_app; assumption.
  - unfold total_girth. cbn [map fold_left]. rewrite map_app, fold_left_app. reflexivity.
Qed.
