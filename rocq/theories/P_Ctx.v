(** Lemmas about collections of contexts. *)
From Coq Require Import String.
From Verif Require Import M_Base M_Slice M_Ctx Spec_Ctx P_Slice.
Open Scope Z_scope.

Lemma h_write_length m p i xs : length (h_write m p i xs) = length m.
Proof. revert p. induction m as [|a r IH]; intros [|p]; cbn [h_write length]; congruence. Qed.
Lemma h_write_other m p i xs q : q <> p -> nth q (h_write m p i xs) [] = nth q m [].
Proof.
  revert p q. induction m as [|a r IH]; intros [|p] [|q] H; cbn [h_write nth]; try reflexivity; try congruence.
  apply IH. congruence.
Qed.
Lemma h_write_same m p i xs : (p < length m)%nat -> nth p (h_write m p i xs) [] = a_write (nth p m []) i xs.
Proof.
  revert p. induction m as [|a r IH]; intros [|p] H; cbn [length] in H; try lia; cbn [h_write nth]; [reflexivity|].
  apply IH. lia.
Qed.
Lemma a_write_length a i xs : (i + length xs <= length a)%nat -> length (a_write a i xs) = length a.
Proof. intros H. unfold a_write. rewrite !app_length, firstn_length, skipn_length. lia. Qed.

Lemma firstn_split {A} (l : list A) n k : firstn (n + k) l = firstn n l ++ firstn k (skipn n l).
Proof.
  revert n. induction l as [|x r IH]; intros [|n]; cbn [firstn skipn plus app]; try reflexivity.
  - rewrite firstn_nil. reflexivity.
  - rewrite IH. reflexivity.
Qed.

(** Writing inside the window [off, off+n) at position [i] of the window. *)
Lemma window_write a off n i xs :
  (off + i + length xs <= length a)%nat -> (i <= n)%nat -> (i + length xs <= n \/ i = n)%nat ->
  firstn (Nat.max n (i + length xs)) (skipn off (a_write a (off + i) xs)) =
  firstn i (skipn off a) ++ xs ++ firstn (n - (i + length xs)) (skipn (off + i + length xs) a).
Proof.
  intros H1 H2 H3. unfold a_write. rewrite (firstn_split a off i).
  rewrite <- app_assoc, skipn_app.
  assert (L : length (firstn off a) = off) by (rewrite firstn_length; lia).
  assert (L2 : length (firstn i (skipn off a)) = i) by (rewrite firstn_length, skipn_length; lia).
  rewrite (skipn_all2 (firstn off a)) by lia. rewrite L, Nat.sub_diag. cbn [skipn app].
  rewrite firstn_app, L2. rewrite firstn_all2 by lia. f_equal.
  rewrite firstn_app. rewrite firstn_all2 by lia. f_equal. f_equal. lia.
Qed.

(** A slice header that can be used: nothing behind it, or a window of an array. *)
Definition sl_ok (m : heap) (s : slice) : Prop := s_cap s = 0%nat /\ s_len s = 0%nat \/ s_ok m s.

(** Every collection has an array of its own. *)
Definition apart (m : heap) (cols : list slice) : Prop :=
  Forall (sl_ok m) cols /\
  forall k k' s s', nth_error cols k = Some s -> nth_error cols k' = Some s' ->
    s_cap s <> 0%nat -> s_cap s' <> 0%nat -> s_arr s = s_arr s' -> k = k'.

Lemma sl_read_nil m s : s_len s = 0%nat -> s_read m s = [].
Proof. intros H. unfold s_read. rewrite H. reflexivity. Qed.
Lemma sl_ok_grow m a s : sl_ok m s -> sl_ok (m ++ [a]) s.
Proof.
  intros [H|(A & B & C)]; [left; exact H|]. right. split; [rewrite app_length; cbn [length]; lia|].
  split; [exact B|]. rewrite app_nth1 by exact A. exact C.
Qed.
Lemma sl_read_grow m a s : sl_ok m s -> s_read (m ++ [a]) s = s_read m s.
Proof. intros [[_ H]|(A & B & C)]; [rewrite !sl_read_nil by exact H; reflexivity|]. apply read_app. exact A. Qed.
Lemma sl_len m s : sl_ok m s -> length (s_read m s) = s_len s.
Proof. intros [[_ H]|H]; [rewrite sl_read_nil by exact H; rewrite H; reflexivity|]. apply s_read_len. exact H. Qed.

(** Appending to a usable slice. *)
Inductive appended (m : heap) (s : slice) (xs : list Z) : heap -> slice -> Prop :=
| ap_place : s_ok m s -> (s_len s + length xs <= s_cap s)%nat ->
    appended m s xs (h_write m (s_arr s) (s_off s + s_len s) xs) (Slice (s_arr s) (s_off s) (s_len s + length xs) (s_cap s))
| ap_none : xs = [] -> s_cap s = 0%nat -> s_len s = 0%nat -> appended m s xs (h_write m (s_arr s) (s_off s + s_len s) []) s
| ap_new a c : (s_len s + length xs <= c)%nat -> length a = c -> firstn (s_len s + length xs) a = s_read m s ++ xs ->
    appended m s xs (m ++ [a]) (Slice (length m) 0 (s_len s + length xs) c).

Lemma s_append_cases grow m s xs m' s' : sl_ok m s -> s_append grow m s xs = (m', s') -> appended m s xs m' s'.
Proof.
  intros Hs. unfold s_append. destruct (Nat.leb_spec (s_len s + length xs) (s_cap s)) as [Hc|Hc]; intros E; injection E as <- <-.
  - destruct Hs as [[H1 H2]|Hs]; [|apply ap_place; assumption].
    assert (xs = []) as -> by (destruct xs; [reflexivity|cbn [length] in Hc; lia]).
    destruct s as [ar of ln cp]. cbn [s_arr s_off s_len s_cap length] in *. subst.
    replace (of + 0)%nat with (s_off (Slice ar of 0 0) + s_len (Slice ar of 0 0))%nat by reflexivity.
    exact (ap_none m (Slice ar of 0 0) [] eq_refl eq_refl eq_refl).
  - apply ap_new; [lia| |].
    + rewrite !app_length, repeat_length, (sl_len _ _ Hs). lia.
    + rewrite app_assoc, firstn_app, app_length, (sl_len _ _ Hs), Nat.sub_diag. cbn [firstn]. rewrite app_nil_r.
      apply firstn_all2. rewrite app_length, (sl_len _ _ Hs). lia.
Qed.

Lemma h_write_nil m p i : h_write m p i [] = m.
Proof.
  revert p. induction m as [|a r IH]; intros [|p]; cbn [h_write]; try reflexivity.
  - unfold a_write. cbn [length app]. rewrite Nat.add_0_r, firstn_skipn. reflexivity.
  - rewrite IH. reflexivity.
Qed.
Lemma write_ok m p i xs s : (i + length xs <= length (nth p m []))%nat -> sl_ok m s -> sl_ok (h_write m p i xs) s.
Proof.
  intros Hi [H|(A & B & C)]; [left; exact H|]. right. split; [rewrite h_write_length; exact A|]. split; [exact B|].
  destruct (Nat.eq_dec (s_arr s) p) as [<-|Hp].
  - rewrite h_write_same by exact A. rewrite a_write_length by exact Hi. exact C.
  - rewrite h_write_other by exact Hp. exact C.
Qed.

Lemma appended_ok m s xs m' s' : sl_ok m s -> appended m s xs m' s' ->
  sl_ok m' s' /\ s_read m' s' = s_read m s ++ xs.
Proof.
  intros Hs H. destruct H as [Ho Hc| -> Hc Hl|a c Hc Ha Hf].
  - destruct Ho as (A & B & C). split.
    + right. split; [rewrite h_write_length; exact A|]. cbn [s_arr s_off s_len s_cap]. split; [exact Hc|].
      rewrite h_write_same by exact A. rewrite a_write_length by lia. exact C.
    + unfold s_read. cbn [s_arr s_off s_len s_cap]. rewrite h_write_same by exact A.
      pose proof (window_write (nth (s_arr s) m []) (s_off s) (s_len s) (s_len s) xs) as W.
      rewrite Nat.max_r in W by lia. rewrite W by lia. f_equal.
      replace (s_len s - (s_len s + length xs))%nat with 0%nat by lia. cbn [firstn]. apply app_nil_r.
  - rewrite h_write_nil, app_nil_r. split; [exact Hs|reflexivity].
  - split.
    + right. split; [rewrite app_length; cbn [length s_arr]; lia|]. cbn [s_arr s_off s_len s_cap]. split; [lia|].
      rewrite app_nth2, Nat.sub_diag by lia. cbn [nth]. lia.
    + unfold s_read at 1. cbn [s_arr s_off s_len s_cap]. rewrite app_nth2, Nat.sub_diag by lia. cbn [nth skipn]. exact Hf.
Qed.

(** A slice on another array, or one that ends before the place written to, is not affected. *)
Lemma appended_other m s xs m' s' t : sl_ok m s -> appended m s xs m' s' -> sl_ok m t ->
  (s_cap s <> 0%nat -> s_cap t <> 0%nat -> s_arr s = s_arr t -> (s_off t + s_len t <= s_off s + s_len s)%nat) ->
  sl_ok m' t /\ s_read m' t = s_read m t.
Proof.
  intros Hs H Ht Hd. destruct H as [Ho Hc| -> Hc Hl|a c Hc Ha Hf].
  - destruct Ho as (A & B & C). split; [apply write_ok; [lia|exact Ht]|].
    destruct Ht as [[H1 H2]|(A' & B' & C')]; [rewrite !sl_read_nil by exact H2; reflexivity|].
    destruct (Nat.eq_dec (s_cap s) 0) as [Hz|Hz].
    { assert (xs = []) as -> by (destruct xs; [reflexivity|cbn [length] in Hc; lia]). rewrite h_write_nil. reflexivity. }
    destruct (Nat.eq_dec (s_cap t) 0) as [Hz'|Hz']; [rewrite !sl_read_nil by lia; reflexivity|].
    unfold s_read. destruct (Nat.eq_dec (s_arr t) (s_arr s)) as [E|E].
    + rewrite E, h_write_same by exact A. specialize (Hd Hz Hz' (eq_sym E)).
      rewrite E in C'. set (a := nth (s_arr s) m []) in *. unfold a_write. rewrite skipn_app, firstn_app.
      rewrite skipn_length, firstn_length, Nat.min_l by lia.
      replace (s_len t - (s_off s + s_len s - s_off t))%nat with 0%nat by lia. cbn [firstn]. rewrite app_nil_r.
      rewrite <- (firstn_skipn (s_off s + s_len s) a) at 2. rewrite skipn_app, firstn_app.
      rewrite skipn_length, firstn_length, Nat.min_l by lia.
      replace (s_len t - (s_off s + s_len s - s_off t))%nat with 0%nat by lia. cbn [firstn]. rewrite app_nil_r. reflexivity.
    + rewrite h_write_other by exact E. reflexivity.
  - rewrite h_write_nil. split; [exact Ht|reflexivity].
  - split; [apply sl_ok_grow; exact Ht|apply sl_read_grow; exact Ht].
Qed.
Lemma appended_arr m s xs m' s' : sl_ok m s -> appended m s xs m' s' -> s_cap s' <> 0%nat ->
  (s_arr s' = s_arr s /\ s_off s' = s_off s /\ s_cap s <> 0%nat) \/ s_arr s' = length m.
Proof.
  intros Hs H Hc'. destruct H as [Ho Hc| -> Hc Hl|a c Hc Ha Hf]; cbn [s_arr s_off s_len s_cap] in *.
  - left. split; [reflexivity|]. split; [reflexivity|exact Hc'].
  - congruence.
  - right. reflexivity.
Qed.

Lemma nth_set_same {A} (l : list A) k x y : nth_error l k = Some y -> nth_error (set_nth l k x) k = Some x.
Proof. revert k. induction l as [|z r IH]; intros [|k] H; cbn [nth_error set_nth] in *; try discriminate; [reflexivity|]. apply IH. exact H. Qed.
Lemma nth_set_other {A} (l : list A) k x k' : k' <> k -> nth_error (set_nth l k x) k' = nth_error l k'.
Proof.
  revert k k'. induction l as [|z r IH]; intros [|k] [|k'] H; cbn [nth_error set_nth]; try reflexivity; try congruence.
  apply IH. congruence.
Qed.
Lemma set_nth_length {A} (l : list A) k x : length (set_nth l k x) = length l.
Proof. revert k. induction l as [|y r IH]; intros [|k]; cbn [set_nth length]; congruence. Qed.
Lemma set_nth_split {A} (l : list A) k x y : nth_error l k = Some y ->
  exists a b, l = a ++ y :: b /\ set_nth l k x = a ++ x :: b /\ length a = k.
Proof.
  revert k. induction l as [|z r IH]; intros [|k] H; cbn [nth_error set_nth] in *; try discriminate.
  - injection H as ->. exists [], r. repeat split.
  - destruct (IH k H) as (a & b & -> & -> & <-). exists (z :: a), b. repeat split.
Qed.
Lemma Forall_nth {A} (P : A -> Prop) l k x : Forall P l -> nth_error l k = Some x -> P x.
Proof. intros H E. apply nth_error_In in E. rewrite Forall_forall in H. apply H. exact E. Qed.
Lemma arr_lt m s : sl_ok m s -> s_cap s <> 0%nat -> (s_arr s < length m)%nat.
Proof. intros [[H _]|(A & _)] Hc; [congruence|exact A]. Qed.

(** Arrays that do not change for anybody. *)
Lemma apart_grow m a cols : apart m cols -> apart (m ++ [a]) cols.
Proof. intros [H1 H2]. split; [|exact H2]. eapply Forall_impl; [|exact H1]. intros s. apply sl_ok_grow. Qed.

(** A new collection with a new array. *)
Lemma apart_add m cols s : apart m cols -> sl_ok m s ->
  (forall k t, nth_error cols k = Some t -> s_cap t <> 0%nat -> s_cap s <> 0%nat -> s_arr t <> s_arr s) ->
  apart m (cols ++ [s]).
Proof.
  intros [H1 H2] Hs Hd. split; [apply Forall_app; split; [exact H1|constructor; [exact Hs|constructor]]|].
  intros k k' t t' E E' C C' Ea.
  assert (Hk : forall k t, nth_error (cols ++ [s]) k = Some t -> nth_error cols k = Some t \/ k = length cols /\ t = s).
  { intros j u Hj. destruct (Nat.lt_ge_cases j (length cols)) as [L|L].
    - rewrite nth_error_app1 in Hj by exact L. left. exact Hj.
    - rewrite nth_error_app2 in Hj by exact L. right. destruct (j - length cols)%nat as [|d] eqn:Ed; [|destruct d; discriminate Hj].
      injection Hj as <-. split; [lia|reflexivity]. }
  destruct (Hk _ _ E) as [F|[-> ->]]; destruct (Hk _ _ E') as [F'|[-> ->]].
  - exact (H2 _ _ _ _ F F' C C' Ea).
  - exfalso. exact (Hd _ _ F C C' Ea).
  - exfalso. exact (Hd _ _ F' C' C (eq_sym Ea)).
  - reflexivity.
Qed.

(** Appending to collection [k]. *)
Lemma apart_append m cols k s xs m' s' : apart m cols -> nth_error cols k = Some s -> appended m s xs m' s' ->
  apart m' (set_nth cols k s') /\
  forall k' t, nth_error cols k' = Some t -> k' <> k -> s_read m' t = s_read m t.
Proof.
  intros [H1 H2] E H. pose proof (Forall_nth _ _ _ _ H1 E) as Hs.
  assert (Ho : forall k' t, nth_error cols k' = Some t -> k' <> k -> sl_ok m' t /\ s_read m' t = s_read m t).
  { intros k' t E' Hk. apply (appended_other m s xs m' s' t Hs H (Forall_nth _ _ _ _ H1 E')).
    intros C C' Ea. exfalso. apply Hk. symmetry. exact (H2 _ _ _ _ E E' C C' Ea). }
  split; [|intros k' t E' Hk; exact (proj2 (Ho k' t E' Hk))].
  assert (Hc : forall j t, nth_error (set_nth cols k s') j = Some t -> j = k /\ t = s' \/ j <> k /\ nth_error cols j = Some t).
  { intros j t Hj. destruct (Nat.eq_dec j k) as [->|Hn].
    - left. rewrite (nth_set_same _ _ _ _ E) in Hj. injection Hj as <-. split; reflexivity.
    - right. rewrite nth_set_other in Hj by exact Hn. split; assumption. }
  split.
  - apply Forall_forall. intros t Ht. apply In_nth_error in Ht. destruct Ht as [j Hj].
    destruct (Hc _ _ Hj) as [[-> ->]|[Hn Hj']]; [exact (proj1 (appended_ok _ _ _ _ _ Hs H))|exact (proj1 (Ho _ _ Hj' Hn))].
  - intros j j' t t' Ej Ej' C C' Ea.
    assert (Hx : forall i u, i <> k -> nth_error cols i = Some u -> s_cap u <> 0%nat -> s_cap s' <> 0%nat -> s_arr s' <> s_arr u).
    { intros i u Hi Eu Cu Cs Ex. destruct (appended_arr _ _ _ _ _ Hs H Cs) as [(A1 & _ & A3)|A].
      - apply Hi. symmetry. apply (H2 _ _ _ _ E Eu A3 Cu). congruence.
      - pose proof (arr_lt _ _ (Forall_nth _ _ _ _ H1 Eu) Cu). lia. }
    destruct (Hc _ _ Ej) as [[-> ->]|[Hn Fj]]; destruct (Hc _ _ Ej') as [[-> ->]|[Hn' Fj']].
    + reflexivity.
    + exfalso. exact (Hx _ _ Hn' Fj' C' C Ea).
    + exfalso. exact (Hx _ _ Hn Fj C C' (eq_sym Ea)).
    + exact (H2 _ _ _ _ Fj Fj' C C' Ea).
Qed.

(** The memory and the lists agree. *)
Definition agrees (w : cmem) (cols : list (list Z)) : Prop :=
  apart (cm_heap w) (cm_cols w) /\ cols = map (s_read (cm_heap w)) (cm_cols w).

Lemma fresh_ok m ps m' s : s_fresh m ps = (m', s) -> m' = m ++ [ps] /\ sl_ok m' s /\ s_read m' s = ps /\ s_arr s = length m.
Proof.
  intros E. injection E as <- <-. split; [reflexivity|]. split; [|split; [|reflexivity]].
  - right. split; [rewrite app_length; cbn [length s_arr]; lia|]. cbn [s_arr s_off s_len s_cap]. split; [lia|].
    rewrite app_nth2, Nat.sub_diag by lia. cbn [nth]. lia.
  - unfold s_read. cbn [s_arr s_off s_len]. rewrite app_nth2, Nat.sub_diag by lia. cbn [nth skipn]. apply firstn_all.
Qed.

Lemma map_read_grow m a cols : Forall (sl_ok m) cols -> map (s_read (m ++ [a])) cols = map (s_read m) cols.
Proof. intros H. apply map_ext_in. intros s Hs. rewrite Forall_forall in H. apply sl_read_grow, H, Hs. Qed.

Lemma src_ok w x m t cols : agrees w cols -> src_slice w x = Ok (m, t) ->
  src_list cols x = Some (s_read m t) /\ sl_ok m t /\ agrees (Cmem m (cm_cols w)) cols /\
  (exists tail, m = cm_heap w ++ tail) /\
  forall ps, x = Fresh ps -> s_arr t = length (cm_heap w).
Proof.
  intros [Ha ->] E. destruct x as [ps|k]; cbn [src_slice src_list] in *.
  - destruct (s_fresh (cm_heap w) ps) as [m0 s0] eqn:F. injection E as <- <-. apply fresh_ok in F. destruct F as (-> & A & B & C).
    rewrite B. split; [reflexivity|]. split; [exact A|]. split.
    + split; cbn [cm_heap cm_cols]; [apply apart_grow; exact Ha|]. symmetry. apply map_read_grow. exact (proj1 Ha).
    + split; [exists [ps]; reflexivity|]. intros _ _. exact C.
  - unfold data_view in E. destruct (nth_error (cm_cols w) k) as [s|] eqn:Es; cbn [bind] in E; [|discriminate].
    injection E as <- <-. split; [apply map_nth_error; exact Es|]. split; [exact (Forall_nth _ _ _ _ (proj1 Ha) Es)|].
    split; [split; [exact Ha|reflexivity]|]. split; [exists []; symmetry; apply app_nil_r|]. discriminate.
Qed.

Lemma append_at w cols k s xs m' s' : agrees w cols -> nth_error (cm_cols w) k = Some s ->
  appended (cm_heap w) s xs m' s' ->
  exists l cols', only_at k l (l ++ xs) cols cols' /\ agrees (Cmem m' (set_nth (cm_cols w) k s')) cols'.
Proof.
  intros [Ha ->] E H. destruct (apart_append _ _ _ _ _ _ _ Ha E H) as [A B].
  pose proof (appended_ok _ _ _ _ _ (Forall_nth _ _ _ _ (proj1 Ha) E) H) as [_ R].
  exists (s_read (cm_heap w) s), (map (s_read m') (set_nth (cm_cols w) k s')). split; [|split; [exact A|reflexivity]].
  destruct (set_nth_split _ _ s' _ E) as (a & b & Ec & Es & Ek).
  exists (map (s_read (cm_heap w)) a), (map (s_read (cm_heap w)) b). rewrite map_length. split; [rewrite Ec, map_app; reflexivity|].
  split; [|exact Ek]. rewrite Es, map_app. cbn [map]. rewrite R. f_equal; [|f_equal].
  - apply map_ext_in. intros t Ht. apply In_nth_error in Ht. destruct Ht as [j Hj].
    assert (j < length a)%nat by (apply nth_error_Some; congruence). apply (B j t); [|lia].
    rewrite Ec, nth_error_app1 by lia. exact Hj.
  - apply map_ext_in. intros t Ht. apply In_nth_error in Ht. destruct Ht as [j Hj].
    apply (B (length a + S j)%nat t); [|lia].
    rewrite Ec, nth_error_app2 by lia. replace (length a + S j - length a)%nat with (S j) by lia. exact Hj.
Qed.

(** Overwriting one element. *)
Lemma firstn_set {A} (l : list A) i x y : nth_error l i = Some y -> firstn i l ++ x :: skipn (S i) l = set_nth l i x.
Proof.
  revert i. induction l as [|z r IH]; intros [|i] H; cbn [nth_error firstn skipn set_nth app] in *; try discriminate; [reflexivity|].
  f_equal. apply IH. exact H.
Qed.
Lemma skipn_firstn {A} (l : list A) i n : firstn (n - i) (skipn i l) = skipn i (firstn n l).
Proof. revert i n. induction l as [|x r IH]; intros [|i] [|n]; cbn [firstn skipn Nat.sub]; try reflexivity; [rewrite firstn_nil; reflexivity|apply IH]. Qed.
Lemma firstn_of_firstn {A} (l : list A) i n : (i <= n)%nat -> firstn i (firstn n l) = firstn i l.
Proof. intros H. rewrite firstn_firstn, Nat.min_l by exact H. reflexivity. Qed.
Lemma read_set m s i b y : s_ok m s -> nth_error (s_read m s) i = Some y ->
  s_read (h_write m (s_arr s) (s_off s + i) [b]) s = set_nth (s_read m s) i b.
Proof.
  intros (A & B & C) H.
  assert (Hi : (i < s_len s)%nat) by (rewrite <- (s_read_len m s) by (repeat split; assumption); apply nth_error_Some; congruence).
  rewrite <- (firstn_set _ _ _ _ H). unfold s_read. rewrite h_write_same by exact A.
  pose proof (window_write (nth (s_arr s) m []) (s_off s) (s_len s) i [b]) as W. cbn [length] in W.
  rewrite Nat.max_l in W by lia. rewrite W by lia. rewrite firstn_of_firstn by lia. cbn [app]. f_equal. f_equal.
  rewrite <- skipn_firstn. replace (i + 1)%nat with (S i) by lia. f_equal.
  rewrite <- Nat.add_assoc. replace (i + 1)%nat with (S i) by lia. rewrite Nat.add_comm.
  clear. generalize (nth (s_arr s) m []). intros l. revert l. induction (s_off s) as [|n IH]; intros l.
  - rewrite Nat.add_0_r. reflexivity.
  - rewrite Nat.add_succ_r. destruct l as [|x r]; [rewrite !skipn_nil; reflexivity|]. cbn [skipn]. apply IH.
Qed.
Lemma set_perm {A} (l : list A) i a b : nth_error l i = Some a -> Permutation (a :: set_nth l i b) (b :: l).
Proof.
  intros H. destruct (set_nth_split _ _ b _ H) as (x & y & -> & -> & _).
  rewrite <- (Permutation_middle x y b). rewrite <- (Permutation_middle x y a). apply perm_swap.
Qed.
Lemma swap_perm {A} (l : list A) i j a b : nth_error l i = Some a -> nth_error l j = Some b ->
  Permutation l (set_nth (set_nth l i b) j a).
Proof.
  intros Hi Hj.
  assert (H1 : nth_error (set_nth l i b) j = Some b).
  { destruct (Nat.eq_dec j i) as [->|Hn]; [exact (nth_set_same _ _ _ _ Hi)|rewrite nth_set_other by exact Hn; exact Hj]. }
  apply (Permutation_cons_inv (a := b)). transitivity (a :: set_nth l i b); [symmetry; exact (set_perm _ _ _ _ Hi)|].
  symmetry. exact (set_perm _ _ _ _ H1).
Qed.

(** Writing to the array of collection [k] only. *)
Lemma write_at w cols k s i b y : agrees w cols -> nth_error (cm_cols w) k = Some s ->
  nth_error (s_read (cm_heap w) s) i = Some y ->
  exists cols', only_at k (s_read (cm_heap w) s) (set_nth (s_read (cm_heap w) s) i b) cols cols' /\
    agrees (Cmem (h_write (cm_heap w) (s_arr s) (s_off s + i) [b]) (cm_cols w)) cols'.
Proof.
  intros [Ha ->] E Hy. pose proof (Forall_nth _ _ _ _ (proj1 Ha) E) as Hs.
  assert (Ho : s_ok (cm_heap w) s).
  { destruct Hs as [[_ Z]|Hs]; [|exact Hs]. rewrite sl_read_nil in Hy by exact Z. destruct i; discriminate Hy. }
  assert (Hi : (i < s_len s)%nat) by (rewrite <- (s_read_len _ _ Ho); apply nth_error_Some; congruence).
  destruct Ho as (A & B & C). set (m' := h_write (cm_heap w) (s_arr s) (s_off s + i) [b]).
  assert (Hr : forall j t, nth_error (cm_cols w) j = Some t -> j <> k -> s_read m' t = s_read (cm_heap w) t).
  { intros j t Ej Hj. destruct (Nat.eq_dec (s_cap t) 0) as [Z|Z].
    - pose proof (Forall_nth _ _ _ _ (proj1 Ha) Ej) as [[_ L]|(_ & L & _)]; rewrite !sl_read_nil by lia; reflexivity.
    - unfold s_read, m'. rewrite h_write_other; [reflexivity|]. intros Ea. apply Hj. apply (proj2 Ha _ _ _ _ Ej E); [exact Z|lia|exact Ea]. }
  exists (map (s_read m') (cm_cols w)). split.
  - destruct (set_nth_split _ _ s _ E) as (a & c & Ec & _ & Ek).
    exists (map (s_read (cm_heap w)) a), (map (s_read (cm_heap w)) c). rewrite map_length. split; [rewrite Ec, map_app; reflexivity|].
    split; [|exact Ek]. rewrite Ec, map_app. cbn [map]. f_equal; [|f_equal].
    + apply map_ext_in. intros t Ht. apply In_nth_error in Ht. destruct Ht as [j Hj].
      assert (j < length a)%nat by (apply nth_error_Some; congruence). apply (Hr j t); [|lia].
      rewrite Ec, nth_error_app1 by lia. exact Hj.
    + apply (read_set (cm_heap w) s i b y); [repeat split; assumption|exact Hy].
    + apply map_ext_in. intros t Ht. apply In_nth_error in Ht. destruct Ht as [j Hj].
      apply (Hr (length a + S j)%nat t); [|lia].
      rewrite Ec, nth_error_app2 by lia. replace (length a + S j - length a)%nat with (S j) by lia. exact Hj.
  - split; cbn [cm_heap cm_cols]; [|reflexivity]. split; [|exact (proj2 Ha)].
    eapply Forall_impl; [|exact (proj1 Ha)]. intros t. apply write_ok. cbn [length]. lia.
Qed.

Lemma only_at_trans k l1 l2 l3 l2' c1 c2 c3 : only_at k l1 l2 c1 c2 -> only_at k l2' l3 c2 c3 -> l2 = l2' /\ only_at k l1 l3 c1 c3.
Proof.
  intros (a & b & -> & -> & La) (a' & b' & E & -> & La').
  assert (Ha : a = a').
  { assert (F : firstn k (a ++ l2 :: b) = firstn k (a' ++ l2' :: b')) by (rewrite E; reflexivity).
    rewrite <- La in F at 1. rewrite <- La' in F. rewrite !firstn_app, !firstn_all, !Nat.sub_diag in F. cbn [firstn] in F.
    rewrite !app_nil_r in F. exact F. }
  subst a'. apply app_inv_head in E. injection E as -> ->. split; [reflexivity|]. exists a, b'. repeat split. exact La.
Qed.
Lemma only_at_read w cols k s l l' cols' : agrees w cols -> nth_error (cm_cols w) k = Some s ->
  only_at k l l' cols cols' -> l = s_read (cm_heap w) s.
Proof.
  intros [_ ->] E (a & b & Ec & _ & <-). apply (map_nth_error (s_read (cm_heap w))) in E. rewrite Ec in E.
  rewrite nth_error_app2, Nat.sub_diag in E by lia. injection E as ->. reflexivity.
Qed.

Lemma swap_ok w cols k i j w' : agrees w cols -> swap w k i j = Ok w' ->
  exists l l' cols', only_at k l l' cols cols' /\ Permutation l l' /\ agrees w' cols' /\ cm_cols w' = cm_cols w.
Proof.
  intros Ha. unfold swap, data_view. destruct (nth_error (cm_cols w) k) as [s|] eqn:E; cbn [bind]; [|discriminate].
  destruct (nth_error (s_read (cm_heap w) s) i) as [a|] eqn:Ei; [|discriminate].
  destruct (nth_error (s_read (cm_heap w) s) j) as [b|] eqn:Ej; [|discriminate].
  intros H. injection H as <-.
  destruct (write_at _ _ _ _ _ b _ Ha E Ei) as (c1 & O1 & A1).
  set (w1 := Cmem (h_write (cm_heap w) (s_arr s) (s_off s + i) [b]) (cm_cols w)) in *.
  assert (R1 : s_read (cm_heap w1) s = set_nth (s_read (cm_heap w) s) i b).
  { apply (read_set _ _ _ _ a); [|exact Ei]. pose proof (Forall_nth _ _ _ _ (proj1 (proj1 Ha)) E) as [[_ Z]|Hs]; [|exact Hs].
    rewrite sl_read_nil in Ei by exact Z. destruct i; discriminate Ei. }
  assert (Ej' : exists y, nth_error (s_read (cm_heap w1) s) j = Some y).
  { rewrite R1. destruct (nth_error (set_nth (s_read (cm_heap w) s) i b) j) as [y|] eqn:Ey; [exists y; reflexivity|].
    apply nth_error_None in Ey. rewrite set_nth_length in Ey. apply nth_error_None in Ey. congruence. }
  destruct Ej' as [y Ey]. destruct (write_at w1 c1 k s j a y A1 E Ey) as (c2 & O2 & A2).
  destruct (only_at_trans _ _ _ _ _ _ _ _ O1 O2) as [_ O].
  eexists _, _, c2. split; [exact O|]. split; [|split; [exact A2|reflexivity]].
  rewrite R1. apply swap_perm; assumption.
Qed.
Lemma swaps_ok w cols k sw w' : agrees w cols -> (exists s, nth_error (cm_cols w) k = Some s) -> swaps w k sw = Ok w' ->
  exists l l' cols', only_at k l l' cols cols' /\ Permutation l l' /\ agrees w' cols' /\ cm_cols w' = cm_cols w.
Proof.
  revert w cols. induction sw as [|[i j] r IH]; intros w cols Ha [s Es]; cbn [swaps].
  - intros H. injection H as <-. exists (s_read (cm_heap w) s), (s_read (cm_heap w) s), cols. split; [|split; [reflexivity|split; [exact Ha|reflexivity]]].
    destruct Ha as [_ ->]. destruct (set_nth_split _ _ s _ Es) as (a & b & Ec & _ & Ek).
    exists (map (s_read (cm_heap w)) a), (map (s_read (cm_heap w)) b). rewrite Ec, map_app, map_length. repeat split. exact Ek.
  - destruct (swap w k i j) as [w1| |] eqn:E1; cbn [bind]; try discriminate. intros H.
    destruct (swap_ok _ _ _ _ _ _ Ha E1) as (l1 & l2 & c1 & O1 & P1 & A1 & C1).
    destruct (IH w1 c1 A1) as (l3 & l4 & c2 & O2 & P2 & A2 & C2); [exists s; congruence|exact H|].
    destruct (only_at_trans _ _ _ _ _ _ _ _ O1 O2) as [<- O].
    exists l1, l4, c2. split; [exact O|]. split; [transitivity l2; assumption|]. split; [exact A2|congruence].
Qed.

Lemma append_each_ok ps : forall m s, s_ok m s -> (s_len s + length ps <= s_cap s)%nat ->
  (forall t, sl_ok m t -> (s_cap t <> 0%nat -> s_arr t <> s_arr s) ->
     sl_ok (fst (append_each m s ps)) t /\ s_read (fst (append_each m s ps)) t = s_read m t) /\
  sl_ok (fst (append_each m s ps)) (snd (append_each m s ps)) /\
  s_read (fst (append_each m s ps)) (snd (append_each m s ps)) = s_read m s ++ ps /\
  s_arr (snd (append_each m s ps)) = s_arr s.
Proof.
  induction ps as [|p r IH]; intros m s Hs Hc; cbn [append_each].
  - cbn [fst snd]. rewrite app_nil_r. split; [intros t Ht _; split; [exact Ht|reflexivity]|]. split; [right; exact Hs|]. split; reflexivity.
  - destruct (s_append 0 m s [p]) as [m1 s1] eqn:E. cbn [length] in Hc.
    assert (E1 : m1 = h_write m (s_arr s) (s_off s + s_len s) [p] /\ s1 = Slice (s_arr s) (s_off s) (s_len s + 1) (s_cap s)).
    { unfold s_append in E. cbn [length] in E. destruct (Nat.leb_spec (s_len s + 1) (s_cap s)); [|lia]. injection E as <- <-. split; reflexivity. }
    assert (Hp : appended m s [p] m1 s1) by (apply (s_append_cases 0); [right; exact Hs|exact E]).
    destruct (appended_ok _ _ _ _ _ (or_intror Hs) Hp) as [O1 R1].
    destruct E1 as [-> ->]. set (s1 := Slice (s_arr s) (s_off s) (s_len s + 1) (s_cap s)) in *. set (m1 := h_write _ _ _ _) in *.
    destruct (IH m1 s1) as (A & B & C & D).
    { destruct O1 as [[Z _]|O1]; [|exact O1]. cbn [s_cap s1] in Z. lia. }
    { cbn [s_len s_cap s1]. lia. }
    split; [|split; [exact B|split; [|exact D]]].
    + intros t Ht Hd. destruct (appended_other m s [p] m1 s1 t (or_intror Hs) Hp Ht) as [T1 T2].
      { intros _ Z Ea. exfalso. apply (Hd Z). congruence. }
      destruct (A t T1 Hd) as [T3 T4]. split; [exact T3|congruence].
    + rewrite C, R1, <- app_assoc. reflexivity.
Qed.

Lemma all_some_map {A} (l : list (option A)) ps : all_some l = Some ps -> l = map Some ps.
Proof.
  revert ps. induction l as [|[x|] r IH]; intros ps; cbn [all_some]; [intros H; injection H as <-; reflexivity| |discriminate].
  destruct (all_some r) as [q|]; cbn [option_map]; [|discriminate]. intros H. injection H as <-. cbn [map]. f_equal. apply IH. reflexivity.
Qed.

Lemma agrees_add w cols m s : agrees w cols ->
  (forall k t, nth_error (cm_cols w) k = Some t -> sl_ok m t /\ s_read m t = s_read (cm_heap w) t) ->
  sl_ok m s -> (forall k t, nth_error (cm_cols w) k = Some t -> s_cap t <> 0%nat -> s_cap s <> 0%nat -> s_arr t <> s_arr s) ->
  agrees (Cmem m (cm_cols w ++ [s])) (cols ++ [s_read m s]).
Proof.
  intros [Ha ->] Hk Hs Hd. split; cbn [cm_heap cm_cols].
  - apply apart_add; [|exact Hs|exact Hd]. split; [|exact (proj2 Ha)].
    apply Forall_forall. intros t Ht. apply In_nth_error in Ht. destruct Ht as [k Et]. exact (proj1 (Hk k t Et)).
  - rewrite map_app. cbn [map]. f_equal. apply map_ext_in. intros t Ht. apply In_nth_error in Ht. destruct Ht as [k Et].
    symmetry. exact (proj2 (Hk k t Et)).
Qed.
Lemma agrees_set w cols m k s s' : agrees w cols -> nth_error (cm_cols w) k = Some s ->
  (forall j t, nth_error (cm_cols w) j = Some t -> sl_ok m t /\ s_read m t = s_read (cm_heap w) t) ->
  sl_ok m s' -> (forall j t, nth_error (cm_cols w) j = Some t -> s_cap t <> 0%nat -> s_cap s' <> 0%nat -> s_arr t <> s_arr s') ->
  exists cols', only_at k (s_read (cm_heap w) s) (s_read m s') cols cols' /\ agrees (Cmem m (set_nth (cm_cols w) k s')) cols'.
Proof.
  intros [Ha ->] E Hk Hs Hd. exists (map (s_read m) (set_nth (cm_cols w) k s')).
  destruct (set_nth_split _ _ s' _ E) as (a & b & Ec & Es & Ek). split.
  - exists (map (s_read (cm_heap w)) a), (map (s_read (cm_heap w)) b). rewrite map_length. split; [rewrite Ec, map_app; reflexivity|].
    split; [|exact Ek]. rewrite Es, map_app. cbn [map].
    f_equal; [|f_equal]; apply map_ext_in; intros t Ht.
    + assert (Hin : In t (cm_cols w)) by (rewrite Ec; apply in_or_app; left; exact Ht).
      apply In_nth_error in Hin. destruct Hin as [j Ej]. exact (proj2 (Hk j t Ej)).
    + assert (Hin : In t (cm_cols w)) by (rewrite Ec; apply in_or_app; right; right; exact Ht).
      apply In_nth_error in Hin. destruct Hin as [j Ej]. exact (proj2 (Hk j t Ej)).
  - split; cbn [cm_heap cm_cols]; [|reflexivity].
    assert (Hc : forall j t, nth_error (set_nth (cm_cols w) k s') j = Some t -> j = k /\ t = s' \/ j <> k /\ nth_error (cm_cols w) j = Some t).
    { intros j t Hj. destruct (Nat.eq_dec j k) as [->|Hn].
      - left. rewrite (nth_set_same _ _ _ _ E) in Hj. injection Hj as <-. split; reflexivity.
      - right. rewrite nth_set_other in Hj by exact Hn. split; assumption. }
    split.
    + apply Forall_forall. intros t Ht. apply In_nth_error in Ht. destruct Ht as [j Hj].
      destruct (Hc _ _ Hj) as [[-> ->]|[_ Hj']]; [exact Hs|exact (proj1 (Hk _ _ Hj'))].
    + intros j j' t t' Ej Ej' C C' Ea.
      destruct (Hc _ _ Ej) as [[-> ->]|[Hn Fj]]; destruct (Hc _ _ Ej') as [[-> ->]|[Hn' Fj']].
      * reflexivity.
      * exfalso. exact (Hd _ _ Fj' C' C (eq_sym Ea)).
      * exfalso. exact (Hd _ _ Fj C C' Ea).
      * exact (proj2 Ha _ _ _ _ Fj Fj' C C' Ea).
Qed.

Lemma in_order_list fi w cols k s l : agrees w cols -> nth_error (cm_cols w) k = Some s -> l = s_read (cm_heap w) s ->
  in_order fi w k -> forall i a b, nth_error l i = Some a -> nth_error l (S i) = Some b ->
  exists x y, fi a = Some x /\ fi b = Some y /\ x <= y.
Proof.
  intros [Ha _] E -> H i a b Hi Hj. pose proof (Forall_nth _ _ _ _ (proj1 Ha) E) as Hs.
  assert (L : (S i < s_len s)%nat) by (rewrite <- (sl_len _ _ Hs); apply nth_error_Some; congruence).
  specialize (H i (Z.of_nat (s_len s))). unfold col_len, less, data_view in H. rewrite E in H. cbn [bind] in H.
  specialize (H eq_refl (proj1 (Nat2Z.inj_lt _ _) L)). rewrite Hi, Hj in H.
  destruct (fi b) as [y|]; [|discriminate]. destruct (fi a) as [x|]; [|discriminate].
  exists x, y. split; [reflexivity|]. split; [reflexivity|]. injection H as H. apply Z.ltb_ge in H. exact H.
Qed.

(** One call. *)
Lemma call_ok fi w cols o w' : agrees w cols -> keeps_apart o -> call w o = Ok w' ->
  (forall k sw, o = OSort k sw -> in_order fi w' k) ->
  exists cols', effect fi o cols cols' /\ agrees w' cols'.
Proof.
  intros Ha Hk Hc Ho. destruct o as [x| |objs|p x g|k p g|k x g|k sw|k x]; cbn [call effect keeps_apart] in *.
  - unfold new_contexts in Hc. destruct (src_slice w x) as [[m s]| |] eqn:Ex; cbn [bind] in Hc; try discriminate. injection Hc as <-.
    destruct (src_ok _ _ _ _ _ Ha Ex) as (L & O & A & (tl & ->) & F). destruct x as [ps|j]; [|contradiction].
    exists (cols ++ [s_read (cm_heap w ++ tl) s]). split; [exists (s_read (cm_heap w ++ tl) s); split; [exact L|reflexivity]|].
    apply (agrees_add w cols); [exact Ha| |exact O|].
    + intros k t Et. split; [exact (Forall_nth _ _ _ _ (proj1 (proj1 A)) Et)|].
      destruct Ha as [_ ->]. destruct A as [_ A]. cbn [cm_heap cm_cols] in A.
      pose proof (map_nth_error (s_read (cm_heap w)) _ _ Et) as M1. rewrite A in M1. rewrite (map_nth_error _ _ _ Et) in M1. injection M1 as ->. reflexivity.
    + intros k t Et C _. rewrite (F ps eq_refl). pose proof (arr_lt _ _ (Forall_nth _ _ _ _ (proj1 (proj1 Ha)) Et) C). lia.
  - injection Hc as <-. exists (cols ++ [[]]). split; [reflexivity|].
    apply (agrees_add w cols (cm_heap w) s_nil Ha); [|left; split; reflexivity|].
    + intros k t Et. split; [exact (Forall_nth _ _ _ _ (proj1 (proj1 Ha)) Et)|reflexivity].
    + intros k t _ _ C. exfalso. apply C. reflexivity.
  - unfold from_objects in Hc. destruct (all_some objs) as [ps|] eqn:Ep; [|discriminate].
    pose proof (all_some_map _ _ Ep) as Em.
    set (m0 := cm_heap w ++ [repeat 0 (length objs)]) in Hc. set (s0 := Slice (length (cm_heap w)) 0 0 (length objs)) in Hc.
    assert (L0 : length objs = length ps) by (rewrite Em, map_length; reflexivity).
    destruct (append_each_ok ps m0 s0) as (A & B & C & D).
    { split; [unfold m0; rewrite app_length; cbn [length s_arr s0]; lia|]. cbn [s0 s_arr s_off s_len s_cap]. split; [lia|].
      unfold m0. rewrite app_nth2, Nat.sub_diag by lia. cbn [nth]. rewrite repeat_length. lia. }
    { cbn [s0 s_len s_cap]. lia. }
    destruct (append_each m0 s0 ps) as [m1 s1]. cbn [fst snd] in *. injection Hc as <-.
    exists (cols ++ [ps]). split; [exists ps; split; [exact Em|reflexivity]|].
    assert (Hr : s_read m1 s1 = ps) by (rewrite C; reflexivity). rewrite <- Hr.
    apply (agrees_add w cols m1 s1 Ha); [|exact B|].
    + intros k t Et. pose proof (Forall_nth _ _ _ _ (proj1 (proj1 Ha)) Et) as Ht.
      destruct (A t) as [T1 T2]; [apply sl_ok_grow; exact Ht|intros Z; cbn [s0 s_arr]; pose proof (arr_lt _ _ Ht Z); lia|].
      split; [exact T1|]. rewrite T2. apply sl_read_grow. exact Ht.
    + intros k t Et Z _. rewrite D. cbn [s0 s_arr]. pose proof (arr_lt _ _ (Forall_nth _ _ _ _ (proj1 (proj1 Ha)) Et) Z). lia.
  - unfold as_contexts in Hc. destruct (src_slice w x) as [[m t]| |] eqn:Ex; cbn [bind] in Hc; try discriminate.
    destruct (src_ok _ _ _ _ _ Ha Ex) as (L & O & A & (tl & Em) & F).
    destruct (s_fresh m [p]) as [m1 s1] eqn:Ef. apply fresh_ok in Ef. destruct Ef as (-> & O1 & R1 & A1).
    assert (Rt : s_read (m ++ [[p]]) t = s_read m t) by (apply sl_read_grow; exact O). rewrite Rt in Hc.
    destruct (s_append g (m ++ [[p]]) s1 (s_read m t)) as [m2 s2] eqn:E2. injection Hc as <-.
    pose proof (s_append_cases _ _ _ _ _ _ O1 E2) as Hp. destruct (appended_ok _ _ _ _ _ O1 Hp) as [O2 R2]. rewrite R1 in R2.
    exists (cols ++ [p :: s_read m t]). split; [exists (s_read m t); split; [exact L|reflexivity]|].
    replace (p :: s_read m t) with (s_read m2 s2) by exact R2.
    assert (Hold : forall k u, nth_error (cm_cols w) k = Some u -> sl_ok m u /\ s_read m u = s_read (cm_heap w) u).
    { intros k u Eu. split; [exact (Forall_nth _ _ _ _ (proj1 (proj1 A)) Eu)|].
      destruct Ha as [_ ->]. destruct A as [_ A]. cbn [cm_heap cm_cols] in A.
      pose proof (map_nth_error (s_read (cm_heap w)) _ _ Eu) as M1. rewrite A in M1. rewrite (map_nth_error _ _ _ Eu) in M1. injection M1 as ->. reflexivity. }
    apply (agrees_add w cols m2 s2 Ha); [|exact O2|].
    + intros k u Eu. destruct (Hold k u Eu) as [U1 U2].
      destruct (appended_other _ _ _ _ _ u O1 Hp (sl_ok_grow _ _ _ U1)) as [V1 V2].
      { intros _ Z Ea. exfalso. pose proof (arr_lt _ _ U1 Z). lia. }
      split; [exact V1|]. rewrite V2, sl_read_grow by exact U1. exact U2.
    + intros k u Eu Z Z2. destruct (Hold k u Eu) as [U1 _]. pose proof (arr_lt _ _ U1 Z).
      destruct (appended_arr _ _ _ _ _ O1 Hp Z2) as [(Q & _)|Q]; [lia|]. rewrite Q, app_length. cbn [length]. lia.
  - unfold push, data_view in Hc. destruct (nth_error (cm_cols w) k) as [s|] eqn:E; cbn [bind] in Hc; [|discriminate].
    destruct (s_append g (cm_heap w) s [p]) as [m' s'] eqn:Es. injection Hc as <-.
    pose proof (s_append_cases _ _ _ _ _ _ (Forall_nth _ _ _ _ (proj1 (proj1 Ha)) E) Es) as Hp.
    destruct (append_at _ _ _ _ _ _ _ Ha E Hp) as (l & c' & O1 & A1). exists c'. split; [exists l; exact O1|exact A1].
  - unfold extend in Hc. destruct (src_slice w x) as [[m t]| |] eqn:Ex; cbn [bind] in Hc; try discriminate.
    destruct (src_ok _ _ _ _ _ Ha Ex) as (L & O & A & _ & _).
    unfold data_view in Hc. destruct (nth_error (cm_cols w) k) as [s|] eqn:E; cbn [bind] in Hc; [|discriminate].
    destruct (s_append g m s (s_read m t)) as [m' s'] eqn:Es. injection Hc as <-.
    pose proof (s_append_cases _ _ _ _ _ _ (Forall_nth _ _ _ _ (proj1 (proj1 A)) E) Es) as Hp.
    destruct (append_at _ _ _ _ _ _ _ A E Hp) as (l & c' & O1 & A1). exists c'. split; [exists l, (s_read m t); split; [exact L|exact O1]|exact A1].
  - pose proof (Ho k sw eq_refl) as Hi. unfold col_len, data_view in Hc.
    destruct (nth_error (cm_cols w) k) as [s|] eqn:Es; cbn [bind] in Hc; [|discriminate].
    destruct (swaps_ok _ _ _ _ _ Ha (ex_intro _ s Es) Hc) as (l & l' & c' & O1 & P1 & A1 & C1).
    exists c'. split; [|exact A1]. exists l, l'. split; [exact O1|]. split; [exact P1|].
    rewrite <- C1 in Es. apply (in_order_list fi w' c' k s); [exact A1|exact Es| |exact Hi].
    destruct O1 as (a & b & _ & Ec & Ek). destruct A1 as [_ A1]. rewrite Ec in A1.
    apply (map_nth_error (s_read (cm_heap w'))) in Es. rewrite <- A1, <- Ek in Es. rewrite nth_error_app2, Nat.sub_diag in Es by lia.
    injection Es as ->. reflexivity.
  - unfold set_data, data_view in Hc. destruct (nth_error (cm_cols w) k) as [s|] eqn:E; cbn [bind] in Hc; [|discriminate].
    destruct (src_slice w x) as [[m s']| |] eqn:Ex; cbn [bind] in Hc; try discriminate. injection Hc as <-.
    destruct (src_ok _ _ _ _ _ Ha Ex) as (L & O & A & _ & F). destruct x as [ps|j]; [|contradiction].
    destruct (agrees_set w cols m k s s' Ha E) as (c' & O1 & A1); [|exact O| |].
    + intros j t Et. split; [exact (Forall_nth _ _ _ _ (proj1 (proj1 A)) Et)|].
      destruct Ha as [_ ->]. destruct A as [_ A]. cbn [cm_heap cm_cols] in A.
      pose proof (map_nth_error (s_read (cm_heap w)) _ _ Et) as M1. rewrite A in M1. rewrite (map_nth_error _ _ _ Et) in M1. injection M1 as ->. reflexivity.
    + intros j t Et C _. rewrite (F ps eq_refl). pose proof (arr_lt _ _ (Forall_nth _ _ _ _ (proj1 (proj1 Ha)) Et) C). lia.
    + exists c'. split; [exists (s_read (cm_heap w) s), (s_read m s'); split; [exact L|exact O1]|exact A1].
Qed.
