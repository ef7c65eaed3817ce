(** Proofs about the index in memory: representation, frames, insertion. *)
From Verif Require Import M_Base M_Float M_Rng M_Geom M_Node M_Slice M_Hdb M_HdbMem Spec_Hdb Spec_HdbMem.
Open Scope nat_scope.

Scheme rep_ind2 := Induction for rep Sort Prop
with reps_ind2 := Induction for reps Sort Prop.
Combined Scheme rep_reps_ind from rep_ind2, reps_ind2.

(** ** Lists *)

Lemma replace_len {A} i (x : A) l : length (replace_nth i x l) = length l.
Proof. revert i. induction l as [|a l IH]; intros [|i]; cbn; auto. Qed.
Lemma replace_same {A} i (x : A) l : i < length l -> nth_error (replace_nth i x l) i = Some x.
Proof. revert i. induction l as [|a l IH]; intros [|i] H; cbn in *; try lia; auto. apply IH. lia. Qed.
Lemma replace_other {A} i j (x : A) l : i <> j -> nth_error (replace_nth i x l) j = nth_error l j.
Proof. revert i j. induction l as [|a l IH]; intros [|i] [|j] H; cbn; auto; try lia. Qed.
Lemma replace_app_l {A} i (x : A) l r : i < length l -> replace_nth i x (l ++ r) = replace_nth i x l ++ r.
Proof. revert i. induction l as [|a l IH]; intros [|i] H; cbn in *; try lia; auto. rewrite IH; [auto|lia]. Qed.
Lemma replace_split {A} i (x : A) l : i < length l -> replace_nth i x l = firstn i l ++ x :: skipn (S i) l.
Proof. revert i. induction l as [|a l IH]; intros [|i] H; cbn [replace_nth firstn skipn app length] in *; try lia; auto. rewrite IH by lia. reflexivity. Qed.
Lemma replace_out {A} i (x : A) l : length l <= i -> replace_nth i x l = l.
Proof. revert i. induction l as [|a l IH]; intros [|i] H; cbn in *; try lia; auto. rewrite IH; [auto|lia]. Qed.
Lemma replace_nth_error {A} i (x : A) l : nth_error l i = Some x -> replace_nth i x l = l.
Proof. revert i. induction l as [|a l IH]; intros [|i] H; cbn in *; try discriminate; [congruence|]. rewrite IH; auto. Qed.
Lemma replace_twice {A} i (x y : A) l : replace_nth i x (replace_nth i y l) = replace_nth i x l.
Proof. revert i. induction l as [|a l IH]; intros [|i]; cbn; auto. rewrite IH; auto. Qed.
Lemma firstn_replace {A} n i (x : A) l : i < n -> firstn n (replace_nth i x l) = replace_nth i x (firstn n l).
Proof. revert i l. induction n as [|n IH]; intros [|i] [|a l] H; try lia; cbn; auto. rewrite IH; [auto|lia]. Qed.
Lemma firstn_replace_ge {A} n i (x : A) l : n <= i -> firstn n (replace_nth i x l) = firstn n l.
Proof. revert i l. induction n as [|n IH]; intros i l H; cbn; auto. destruct l as [|a l]; destruct i; cbn; auto; try lia. rewrite IH; [auto|lia]. Qed.
Lemma firstn_snoc {A} n (l : list A) x : n < length l -> firstn (S n) (replace_nth n x l) = firstn n l ++ [x].
Proof. revert l. induction n as [|n IH]; intros [|a l] H; cbn in *; try lia; auto. f_equal. apply (IH l). lia. Qed.

Lemma nth_of_error {A} (l : list (list A)) a : nth a l [] = match nth_error l a with Some x => x | None => [] end.
Proof. revert a. induction l as [|x l IH]; intros [|a]; cbn; auto. Qed.

Lemma nodup_app_iff {A} (l r : list A) : NoDup (l ++ r) <-> NoDup l /\ NoDup r /\ forall a, In a l -> ~ In a r.
Proof.
  induction l as [|x l IH]; cbn.
  - split; [intros H; split; [constructor|split; auto]|tauto].
  - split.
    + intros H. inversion H; subst. apply IH in H3. destruct H3 as (A1 & A2 & A3). rewrite in_app_iff in H2.
      split; [constructor; tauto|]. split; auto. intros a [<- |Ha]; [tauto|auto].
    + intros (H1 & H2 & H3). inversion H1; subst. constructor; [rewrite in_app_iff; intros [K|K]; [tauto|exact (H3 x (or_introl eq_refl) K)]|].
      apply IH. split; [assumption|]. split; [assumption|]. intros a Ha. apply H3. right; exact Ha.
Qed.

Lemma nodup_swap {A} (X f f' Y : list A) : NoDup (X ++ f ++ Y) -> NoDup f' ->
  (forall a, In a f' -> In a f \/ ~ In a X /\ ~ In a Y) -> NoDup (X ++ f' ++ Y).
Proof.
  rewrite !nodup_app_iff. intros (H1 & (H2 & H3 & H4) & H5) Hf Hs. split; [auto|]. split.
  - split; [auto|]. split; [auto|]. intros a Ha Hy. destruct (Hs a Ha) as [K|[_ K]]; [exact (H4 a K Hy)|tauto].
  - intros a Ha Hb. apply in_app_iff in Hb. specialize (H5 a Ha). rewrite in_app_iff in H5. destruct Hb as [Hb|Hb]; [|tauto].
    destruct (Hs a Hb) as [K|[K _]]; tauto.
Qed.

(** ** Representation *)

Lemma kids_len m s : k_ok m s -> length (kids_of m s) = s_len s.
Proof.
  intros (H0 & H1 & H2). unfold kids_of. rewrite H0. cbn [skipn]. rewrite firstn_length.
  destruct (Nat.eq_dec (s_cap s) 0) as [E|E]; [lia|]. destruct (H2 E). lia.
Qed.

Lemma kids_frame m m' s : k_ok m s -> (forall a, In a (own s) -> nth_error m' a = nth_error m a) ->
  k_ok m' s /\ kids_of m' s = kids_of m s.
Proof.
  intros (H0 & H1 & H2) H. unfold own in H. destruct (Nat.eqb_spec (s_cap s) 0) as [E|E].
  - split; [split; [auto|split; [auto|lia]]|]. unfold kids_of. replace (s_len s) with 0 by lia. reflexivity.
  - assert (K : nth (s_arr s) m' [] = nth (s_arr s) m []) by (rewrite !nth_of_error, H by (left; auto); reflexivity).
    destruct (H2 E) as (K1 & K2). split; [|unfold kids_of; rewrite K; reflexivity].
    split; [auto|]. split; [auto|]. intros _. rewrite K. split; [|auto].
    apply nth_error_Some. rewrite H by (left; auto). apply nth_error_Some. exact K1.
Qed.

Lemma frames m m' :
  (forall t c f, rep m t c f -> (forall a, In a f -> nth_error m' a = nth_error m a) -> rep m' t c f) /\
  (forall ts cs fs, reps m ts cs fs -> (forall a, In a (concat fs) -> nth_error m' a = nth_error m a) -> reps m' ts cs fs).
Proof.
  apply rep_reps_ind.
  - intros ch it h l b s fs Hk _ IH Hn H. destruct (kids_frame m m' s Hk) as (K1 & K2); [intros a Ha; apply H, in_app_iff; auto|].
    constructor; auto. rewrite K2. apply IH. intros a Ha. apply H, in_app_iff. auto.
  - constructor.
  - intros t ts c cs f fs _ IH1 _ IH2 H. cbn [concat] in H. constructor; [apply IH1|apply IH2]; intros a Ha; apply H, in_app_iff; auto.
Qed.
Definition rep_frame m m' := proj1 (frames m m').
Definition reps_frame m m' := proj2 (frames m m').

Lemma allocated m :
  (forall t c f, rep m t c f -> forall a, In a f -> a < length m) /\
  (forall ts cs fs, reps m ts cs fs -> forall a, In a (concat fs) -> a < length m).
Proof.
  apply rep_reps_ind.
  - intros ch it h l b s fs (H0 & H1 & H2) _ IH Hn a Ha. apply in_app_iff in Ha. destruct Ha as [Ha|Ha]; [|auto].
    unfold own in Ha. destruct (Nat.eqb_spec (s_cap s) 0) as [E|E]; [destruct Ha|]. destruct Ha as [<- |[]]. apply H2. exact E.
  - intros a [].
  - intros t ts c cs f fs _ IH1 _ IH2 a Ha. cbn [concat] in Ha. apply in_app_iff in Ha. destruct Ha; auto.
Qed.
Definition rep_alloc m := proj1 (allocated m).
Definition reps_alloc m := proj2 (allocated m).

Lemma rep_nodup m t c f : rep m t c f -> NoDup f.
Proof. intros H. destruct H; auto. Qed.

Lemma reps_length m ts cs fs : reps m ts cs fs -> length cs = length ts /\ length fs = length ts.
Proof. intros H. induction H as [|t ts c cs f fs H1 H2 [E1 E2]]; cbn; auto. Qed.

Lemma reps_nth m ts cs fs i t : reps m ts cs fs -> nth_error ts i = Some t ->
  exists c f, nth_error cs i = Some c /\ nth_error fs i = Some f /\ rep m t c f.
Proof.
  intros H. revert i. induction H as [|t' ts c cs f fs H1 H2 IH]; intros [|i] E; cbn in *; try discriminate; eauto.
  injection E as <-. eauto.
Qed.

Lemma reps_replace m m' ts cs fs i t' c' f' : reps m ts cs fs -> rep m' t' c' f' ->
  (forall j f a, j <> i -> nth_error fs j = Some f -> In a f -> nth_error m' a = nth_error m a) ->
  reps m' (replace_nth i t' ts) (replace_nth i c' cs) (replace_nth i f' fs).
Proof.
  intros H Hr. revert i. induction H as [|t ts c cs f fs H1 H2 IH]; intros [|i] Hf; cbn [replace_nth]; try constructor; auto.
  - eapply reps_frame; [exact H2|]. intros a Ha. apply in_concat in Ha. destruct Ha as (g & Hg & Ha).
    apply In_nth_error in Hg. destruct Hg as (j & Hj). exact (Hf (S j) g a ltac:(lia) Hj Ha).
  - eapply rep_frame; [exact H1|]. intros a Ha. exact (Hf 0 f a ltac:(lia) eq_refl Ha).
  - apply IH. intros j g a Hj Hg Ha. exact (Hf (S j) g a ltac:(lia) Hg Ha).
Qed.

Lemma reps_app m ts cs fs ts' cs' fs' : reps m ts cs fs -> reps m ts' cs' fs' -> reps m (ts ++ ts') (cs ++ cs') (fs ++ fs').
Proof. intros H. induction H; cbn; auto. constructor; auto. Qed.

Lemma reps_firstn m ts cs fs n : reps m ts cs fs -> reps m (firstn n ts) (firstn n cs) (firstn n fs).
Proof. intros H. revert n. induction H; intros [|n]; cbn; constructor; auto. Qed.
Lemma reps_skipn m ts cs fs n : reps m ts cs fs -> reps m (skipn n ts) (skipn n cs) (skipn n fs).
Proof. intros H. revert n. induction H; intros [|n]; cbn [skipn]; try constructor; auto. Qed.

Lemma reps_pick m ts cs fs dt dc ks : reps m ts cs fs -> Forall (fun k => k < length ts) ks ->
  reps m (map (fun k => nth k ts dt) ks) (map (fun k => nth k cs dc) ks) (map (fun k => nth k fs []) ks).
Proof.
  intros H Hk. induction Hk as [|k ks Hk _ IH]; cbn [map]; constructor; auto.
  destruct (nth_error ts k) as [t|] eqn:E; [|apply nth_error_None in E; lia].
  destruct (reps_nth _ _ _ _ _ _ H E) as (c & f & E1 & E2 & R).
  rewrite (nth_error_nth _ _ dt E), (nth_error_nth _ _ dc E1), (nth_error_nth _ _ [] E2). exact R.
Qed.

Lemma reps_boxes m ts cs fs : reps m ts cs fs -> map c_bbox cs = map db_bbox ts.
Proof. intros H. induction H as [|t ts c cs f fs H1 H2 IH]; cbn; auto. f_equal; auto. destruct H1; reflexivity. Qed.
Lemma bare_boxes cs : map db_bbox (map bare cs) = map c_bbox cs.
Proof. rewrite map_map. apply map_ext. intros c. reflexivity. Qed.

(** ** Functions of boxes *)

Lemma fold_boxes {S} (g : S -> mbr -> S) l l' st : map db_bbox l = map db_bbox l' ->
  fold_left (fun s c => g s (db_bbox c)) l st = fold_left (fun s c => g s (db_bbox c)) l' st.
Proof.
  revert l' st. induction l as [|a l IH]; intros [|a' l'] st E; try discriminate E; cbn; auto. cbn in E. injection E as E1 E2.
  rewrite E1. auto.
Qed.
Lemma dist_bbox_same l l' : map db_bbox l = map db_bbox l' -> dist_bbox l = dist_bbox l'.
Proof. apply (fold_boxes (fun b => expand b)). Qed.
Lemma firstn_same l l' n : map db_bbox l = map db_bbox l' -> map db_bbox (firstn n l) = map db_bbox (firstn n l').
Proof. intros E. rewrite <- !firstn_map, E. reflexivity. Qed.
Lemma skipn_same l l' n : map db_bbox l = map db_bbox l' -> map db_bbox (skipn n l) = map db_bbox (skipn n l').
Proof. intros E. rewrite <- !skipn_map, E. reflexivity. Qed.
Lemma choose_child_same eps b l l' : map db_bbox l = map db_bbox l' -> choose_child eps b l = choose_child eps b l'.
Proof.
  intros E. unfold choose_child. replace (fold_left (choose_step eps b) l (finf, finf, None, 0)) with (fold_left (choose_step eps b) l' (finf, finf, None, 0)); [reflexivity|].
  symmetry. apply (fold_boxes (fun st cb => choose_step eps b st (DbNode [] None 0 false cb)) l l'). exact E.
Qed.
Lemma margin_same l l' m M : map db_bbox l = map db_bbox l' -> all_dist_margin l m M = all_dist_margin l' m M.
Proof.
  intros E. unfold all_dist_margin. cbv zeta.
  rewrite (dist_bbox_same (firstn m l) (firstn m l') (firstn_same _ _ _ E)).
  rewrite (dist_bbox_same (firstn m (skipn (M - m) l)) (firstn m (skipn (M - m) l')) (firstn_same _ _ _ (skipn_same _ _ _ E))).
  assert (K : map db_bbox (firstn (M - m - m) (skipn m l)) = map db_bbox (firstn (M - m - m) (skipn m l'))) by apply firstn_same, skipn_same, E.
  assert (K' : map db_bbox (rev (firstn (M - m - m) (skipn m l))) = map db_bbox (rev (firstn (M - m - m) (skipn m l')))) by (rewrite !map_rev, K; reflexivity).
  set (g := fun (st : mbr * f64) cb => let b := expand (fst st) cb in (b, fadd (snd st) (bbox_margin b))).
  rewrite (fold_boxes g _ _ _ K : fold_left (fun st ch => let b := expand (fst st) (db_bbox ch) in (b, fadd (snd st) (bbox_margin b))) _ _ = _).
  unfold g at 1.
  destruct (fold_left _ (firstn (M - m - m) (skipn m l')) _) as [x y].
  rewrite (fold_boxes g _ _ _ K' : fold_left (fun st ch => let b := expand (fst st) (db_bbox ch) in (b, fadd (snd st) (bbox_margin b))) _ _ = _). reflexivity.
Qed.
Lemma split_index_same l l' m M : map db_bbox l = map db_bbox l' -> choose_split_index l m M = choose_split_index l' m M.
Proof.
  intros E. unfold choose_split_index.
  assert (K : forall is st, fold_left (split_index_step l) is st = fold_left (split_index_step l') is st).
  { intros is. induction is as [|i is IH]; intros st; cbn [fold_left]; [reflexivity|]. rewrite IH. f_equal. unfold split_index_step.
    rewrite (dist_bbox_same (firstn i l) (firstn i l') (firstn_same _ _ _ E)), (dist_bbox_same (skipn i l) (skipn i l') (skipn_same _ _ _ E)). reflexivity. }
  rewrite K. reflexivity.
Qed.
Lemma boxes_reps m ts cs fs : reps m ts cs fs -> boxes cs = dist_bbox ts.
Proof. intros H. apply dist_bbox_same. rewrite bare_boxes. eapply reps_boxes. exact H. Qed.

(** ** Pointers *)

Definition parr (p : ptr) : option nat := match p with PRoot => None | PCell a _ => Some a end.

(** Between the two states only the arrays in [F] and the place [p] may have changed. *)
Record frame (st st' : mstate) (F : list nat) (p : ptr) : Prop := {
  fr_len : length (ms_heap st) <= length (ms_heap st');
  fr_arr : forall a, a < length (ms_heap st) -> ~ In a F -> parr p <> Some a -> nth_error (ms_heap st') a = nth_error (ms_heap st) a;
  fr_self : forall a i, p = PCell a i -> ~ In a F ->
    length (nth a (ms_heap st') []) = length (nth a (ms_heap st) []) /\
    forall j, j <> i -> nth_error (nth a (ms_heap st') []) j = nth_error (nth a (ms_heap st) []) j;
  fr_root : p <> PRoot -> ms_root st' = ms_root st
}.

Lemma frame_refl st F p : frame st st F p.
Proof. split; auto. Qed.

Lemma frame_trans st st1 st2 F F2 p : frame st st1 F p -> frame st1 st2 F2 p ->
  (forall a, parr p = Some a -> a < length (ms_heap st) -> ~ In a F) -> (forall a i, p = PCell a i -> a < length (ms_heap st)) ->
  (forall a, In a F2 -> In a F \/ length (ms_heap st) <= a) -> frame st st2 F p.
Proof.
  intros [A1 A2 A3 A4] [B1 B2 B3 B4] Hp Hal H. split.
  - lia.
  - intros a Ha Hn Hq. rewrite B2; [apply A2; auto|lia| |exact Hq]. intros K. destruct (H a K); [tauto|lia].
  - intros a i E Hn. destruct (A3 a i E Hn) as (C1 & C2). destruct (B3 a i E) as (D1 & D2).
    { intros K. destruct (H a K); [tauto|]. pose proof (Hal a i E). lia. }
    split; [lia|]. intros j Hj. rewrite D2, C2; auto.
  - intros E. rewrite B4, A4; auto.
Qed.

Lemma frame_weaken st st' F F' p : frame st st' F p -> (forall a, In a F -> In a F' \/ length (ms_heap st) <= a) ->
  (forall a i, p = PCell a i -> a < length (ms_heap st)) -> frame st st' F' p.
Proof.
  intros [A1 A2 A3 A4] H Hal. split; auto.
  - intros a Ha Hn Hq. apply A2; auto. intros K. destruct (H a K); [tauto|lia].
  - intros a i E Hn. apply (A3 a i E). intros K. destruct (H a K); [tauto|]. pose proof (Hal a i E). lia.
Qed.

Lemma deref_place st a i c : deref st (PCell a i) = Ok c -> a < length (ms_heap st) /\ nth_error (nth a (ms_heap st) []) i = Some c.
Proof.
  cbn. destruct (nth_error (nth a (ms_heap st) []) i) as [x|] eqn:E; [|discriminate]. intros H. injection H as ->. split; [|reflexivity].
  destruct (Nat.lt_ge_cases a (length (ms_heap st))) as [L|L]; [exact L|]. rewrite nth_overflow in E by exact L. destruct i; discriminate.
Qed.

Lemma nth_replace {A} (l : list (list A)) a x : a < length l -> nth a (replace_nth a x l) [] = x.
Proof. intros H. rewrite nth_of_error, replace_same by exact H. reflexivity. Qed.
Lemma nth_replace_other {A} (l : list (list A)) a b x : a <> b -> nth b (replace_nth a x l) [] = nth b l [].
Proof. intros H. rewrite !nth_of_error, replace_other by exact H. reflexivity. Qed.

Lemma store_deref st p c0 c : deref st p = Ok c0 -> deref (store st p c) p = Ok c.
Proof.
  destruct p as [|a i]; [reflexivity|]. intros H. apply deref_place in H. destruct H as (H1 & H2).
  cbn. rewrite nth_replace by exact H1. rewrite replace_same; [reflexivity|]. apply nth_error_Some. rewrite H2. discriminate.
Qed.

Lemma store_frame st p c : frame st (store st p c) [] p.
Proof.
  destruct p as [|a i]; split; cbn [store ms_heap ms_root]; auto; try discriminate; try (intros; congruence).
  - rewrite replace_len. auto.
  - intros b Hb _ Hp. apply replace_other. cbn in Hp. congruence.
  - intros b j E _. injection E as <- <-. destruct (Nat.lt_ge_cases a (length (ms_heap st))) as [L|L].
    + rewrite nth_replace by exact L. rewrite replace_len. split; [reflexivity|]. intros j Hj. apply replace_other. auto.
    + rewrite replace_out by exact L. auto.
Qed.

Lemma store_heap st p c a : parr p <> Some a -> nth_error (ms_heap (store st p c)) a = nth_error (ms_heap st) a.
Proof. destruct p as [|b i]; cbn; [reflexivity|]. intros H. apply replace_other. congruence. Qed.
Lemma store_length st p c : length (ms_heap (store st p c)) = length (ms_heap st).
Proof. destruct p as [|b i]; cbn; [reflexivity|]. apply replace_len. Qed.

(** What the place [p] holds is not in an array of the tree [f]. *)
Definition apart (p : ptr) (f : list nat) : Prop := forall a, parr p = Some a -> ~ In a f.

Lemma rep_store m r p c0 t c f : deref (MState m r) p = Ok c0 -> rep m t c f -> apart p f -> rep (ms_heap (store (MState m r) p c0)) t c f.
Proof.
  intros _ H Hp. eapply rep_frame; [exact H|]. intros a Ha. apply (store_heap (MState m r)). intros K. exact (Hp a K Ha).
Qed.

(** ** Appending a child *)

Lemma append_rep O m t c f x xc fx m' s' : rep m t c f -> rep m x xc fx -> (forall a, In a f -> ~ In a fx) ->
  append_kid O m (c_kids c) xc = (m', s') ->
  exists f', rep m' (set_children t (db_children t ++ [x])) (with_kids c s') f' /\ length m <= length m' /\
    (forall a, a < length m -> ~ In a f -> nth_error m' a = nth_error m a) /\
    (forall a, In a f' -> In a f \/ In a fx \/ length m <= a).
Proof.
  intros H Hx Hd E. destruct H as [ch it h l b s fs Hk Hr Hn]. cbn [c_kids] in E. unfold append_kid in E.
  cbn [set_children db_children with_kids c_item c_height c_leaf c_bbox].
  pose proof Hk as (K0 & K1 & K2). pose proof (rep_alloc m _ _ _ Hx) as Ax. pose proof (reps_alloc m _ _ _ Hr) as Ar.
  destruct (Nat.ltb_spec (s_len s) (s_cap s)) as [L|L].
  - injection E as <- <-. assert (Ec : s_cap s <> 0) by lia. destruct (K2 Ec) as (K3 & K4).
    assert (Eo : own s = [s_arr s]) by (unfold own; destruct (Nat.eqb_spec (s_cap s) 0); [lia|reflexivity]).
    rewrite Eo in *. cbn [app] in *. inversion Hn as [|? ? Hn1 Hn2]; subst.
    assert (Hsx : ~ In (s_arr s) fx) by (apply Hd; left; auto).
    exists (s_arr s :: concat (fs ++ [fx])). split; [|split; [|split]].
    + set (m' := replace_nth (s_arr s) _ m).
      assert (Ek : kids_of m' (Slice (s_arr s) (s_off s) (S (s_len s)) (s_cap s)) = kids_of m s ++ [xc]).
      { unfold kids_of. cbn [s_len s_off s_arr]. rewrite K0. cbn [skipn]. unfold m'. rewrite nth_replace by exact K3. rewrite K0. cbn [Nat.add].
        apply firstn_snoc. lia. }
      change (s_arr s :: concat (fs ++ [fx])) with ([s_arr s] ++ concat (fs ++ [fx])). rewrite <- Eo.
      replace (own s) with (own (Slice (s_arr s) (s_off s) (S (s_len s)) (s_cap s))) by reflexivity. constructor.
      * split; [exact K0|]. cbn [s_len s_cap s_arr]. split; [lia|]. intros _. unfold m'. rewrite replace_len, nth_replace by exact K3. rewrite replace_len. auto.
      * rewrite Ek. apply reps_app.
        -- eapply reps_frame; [exact Hr|]. intros a Ha. apply replace_other. intros <-. tauto.
        -- constructor; [|constructor]. eapply rep_frame; [exact Hx|]. intros a Ha. apply replace_other. intros <-. tauto.
      * replace (own _) with [s_arr s] by (rewrite <- Eo; reflexivity). cbn [app]. constructor.
        -- rewrite concat_app, in_app_iff. cbn [concat]. rewrite app_nil_r. tauto.
        -- rewrite concat_app. cbn [concat]. rewrite app_nil_r. apply nodup_app_iff. split; [exact Hn2|]. split; [eapply rep_nodup; exact Hx|].
           intros a Ha. apply Hd. right; exact Ha.
    + rewrite replace_len. auto.
    + intros a Ha Hna. apply replace_other. intros <-. apply Hna. left; auto.
    + intros a [<- |Ha]; [left; left; auto|]. rewrite concat_app, in_app_iff in Ha. cbn [concat] in Ha. rewrite app_nil_r in Ha. destruct Ha; auto. left. right; auto.
  - injection E as <- <-. set (g := mo_grow O m). set (m' := m ++ _).
    assert (Fr : forall a, a < length m -> nth_error m' a = nth_error m a) by (intros a Ha; apply nth_error_app1; exact Ha).
    assert (Em : nth (length m) m' [] = kids_of m s ++ xc :: repeat zero_cell g) by (unfold m'; rewrite app_nth2, Nat.sub_diag by lia; reflexivity).
    pose proof (kids_len m s Hk) as Lk. exists ([length m] ++ concat (fs ++ [fx])). split; [|split; [|split]].
    + replace [length m] with (own (Slice (length m) 0 (S (s_len s)) (S (s_len s) + g))) by reflexivity. constructor.
      * split; [reflexivity|]. cbn [s_len s_cap s_arr]. split; [lia|]. intros _. rewrite Em. unfold m'. rewrite !app_length. cbn [length]. rewrite repeat_length. lia.
      * replace (kids_of m' _) with (kids_of m s ++ [xc]).
        2:{ unfold kids_of at 2. cbn [s_len s_off s_arr skipn]. rewrite Em. rewrite <- Lk. rewrite firstn_app, (firstn_all2 (kids_of m s)) by lia.
            replace (S (length (kids_of m s)) - length (kids_of m s)) with 1 by lia. reflexivity. }
        apply reps_app; [eapply reps_frame; [exact Hr|]; auto|]. constructor; [|constructor]. eapply rep_frame; [exact Hx|]. auto.
      * change (own _) with [length m]. cbn [app]. rewrite concat_app. cbn [concat]. rewrite app_nil_r. constructor.
        -- rewrite in_app_iff. intros [K|K]; [specialize (Ar _ K)|specialize (Ax _ K)]; lia.
        -- apply nodup_app_iff in Hn. destruct Hn as (_ & Hn2 & _). apply nodup_app_iff. split; [exact Hn2|]. split; [eapply rep_nodup; exact Hx|].
           intros a Ha. apply Hd, in_app_iff. auto.
    + unfold m'. rewrite app_length. lia.
    + intros a Ha _. auto.
    + intros a Ha. rewrite concat_app in Ha. cbn [concat app] in Ha. rewrite app_nil_r in Ha. destruct Ha as [<- |Ha]; [lia|].
      apply in_app_iff in Ha. rewrite in_app_iff. tauto.
Qed.

(** ** Splitting *)

Lemma split_index_le c m M : choose_split_index c m M <= M.
Proof.
  unfold choose_split_index.
  assert (K : forall is st, (forall i, In i is -> i <= M) -> fst (fst st) <= M -> fst (fst (fold_left (split_index_step c) is st)) <= M).
  { intros is. induction is as [|i is IH]; intros st Hi Hst; cbn [fold_left]; [exact Hst|]. apply IH; [intros j Hj; apply Hi; right; auto|].
    destruct st as [[k o] a]. cbn [fst] in Hst. pose proof (Hi i (or_introl eq_refl)). unfold split_index_step. cbv zeta.
    repeat match goal with |- context [if ?x then _ else _] => destruct x end; cbn [fst]; auto. }
  specialize (K (seq m (M - m + 1 - m)) (0, finf, finf)).
  destruct (fold_left _ _ _) as [[k o] a]. cbn [fst] in K. apply K; [|lia]. intros i Hi. apply in_seq in Hi. lia.
Qed.

Section Mem.
  Variable O : m_oracle.
  Hypothesis HO : forall ax bs, Permutation (mo_sort O ax bs) (seq 0 (length bs)).
  Let V := value_oracle O.

  Lemma sort_reps m ax ts cs fs : reps m ts cs fs ->
    exists fs', reps m (o_sort V ax ts) (m_sort O ax cs) fs' /\ Permutation fs fs'.
  Proof.
    intros H. pose proof (reps_boxes _ _ _ _ H) as Eb. destruct (reps_length _ _ _ _ H) as (L1 & L2).
    unfold m_sort. cbn [V value_oracle o_sort]. rewrite Eb. set (ks := mo_sort O ax (map db_bbox ts)).
    assert (P : Permutation ks (seq 0 (length ts))) by (unfold ks; rewrite <- (map_length db_bbox ts); apply HO).
    exists (map (fun k => nth k fs []) ks). split.
    - apply reps_pick; [exact H|]. apply Forall_forall. intros k Hk. apply (Permutation_in _ P) in Hk. apply in_seq in Hk. lia.
    - symmetry. rewrite P. rewrite <- L2. clear. induction fs as [|f fs IH] using rev_ind; [reflexivity|].
      rewrite app_length. cbn [length]. rewrite Nat.add_1_r, seq_S, map_app. cbn [map]. apply Permutation_app.
      + etransitivity; [|exact IH]. erewrite map_ext_in; [reflexivity|]. intros k Hk. apply in_seq in Hk. cbn beta. apply app_nth1. lia.
      + cbn [Nat.add]. rewrite app_nth2, Nat.sub_diag by lia. reflexivity.
  Qed.

  Lemma axis_reps m ts cs fs mn M : reps m ts cs fs ->
    exists fs', reps m (choose_split_axis V ts mn M) (m_split_axis O cs mn M) fs' /\ Permutation fs fs'.
  Proof.
    intros H. unfold choose_split_axis, m_split_axis. cbv zeta.
    destruct (sort_reps m true ts cs fs H) as (f1 & R1 & P1). destruct (sort_reps m false _ _ _ R1) as (f2 & R2 & P2).
    rewrite (margin_same (map bare (m_sort O true cs)) (o_sort V true ts)) by (rewrite bare_boxes; eapply reps_boxes; exact R1).
    rewrite (margin_same (map bare (m_sort O false (m_sort O true cs))) (o_sort V false (o_sort V true ts))) by (rewrite bare_boxes; eapply reps_boxes; exact R2).
    destruct (flt _ _).
    - destruct (sort_reps m true _ _ _ R2) as (f3 & R3 & P3). exists f3. split; [exact R3|]. rewrite P1, P2. exact P3.
    - exists f2. split; [exact R2|]. rewrite P1. exact P2.
  Qed.

  Lemma concat_perm {A} (l l' : list (list A)) : Permutation l l' -> Permutation (concat l) (concat l').
  Proof.
    intros H. induction H as [|x l l' H IH|x y l|l l' l'' H1 IH1 H2 IH2]; cbn [concat]; auto.
    - apply Permutation_app_head. exact IH.
    - rewrite !app_assoc. apply Permutation_app_tail. apply Permutation_app_comm.
    - etransitivity; eauto.
  Qed.

  Lemma cut_rep mn st p c t f a s : deref st p = Ok c -> rep (ms_heap st) t c f -> apart p f -> db_children t <> [] ->
    split_node V mn t = (a, s) ->
    exists st2 c' f' sc fs, m_cut O mn st p = Ok (st2, sc) /\ deref st2 p = Ok c' /\
      rep (ms_heap st2) a c' f' /\ rep (ms_heap st2) s sc fs /\ NoDup (f' ++ fs) /\
      (forall b, In b (f' ++ fs) -> In b f \/ length (ms_heap st) <= b) /\ frame st st2 f p.
  Proof.
    intros Ed H Hp Hne Es. unfold m_cut. rewrite Ed. cbn [bind]. destruct H as [ch it h l b sl fs Hk Hr Hn].
    cbn [c_kids c_item c_height c_leaf]. pose proof Hk as (K0 & K1 & K2). pose proof (kids_len _ _ Hk) as Lk.
    destruct (reps_length _ _ _ _ Hr) as (L1 & L2). cbn [db_children] in Hne.
    assert (Ec : s_cap sl <> 0). { destruct ch; [congruence|]. cbn [length] in L1. lia. }
    destruct (K2 Ec) as (K3 & K4).
    assert (Eo : own sl = [s_arr sl]) by (unfold own; destruct (Nat.eqb_spec (s_cap sl) 0); [lia|reflexivity]).
    unfold split_node in Es. cbn [db_children db_height db_leaf] in Es. cbv zeta in Es.
    replace (s_len sl) with (length ch) by lia.
    destruct (axis_reps (ms_heap st) ch _ fs mn (length ch) Hr) as (fs' & R & P).
    set (tc := choose_split_axis V ch mn (length ch)) in *. set (cc := m_split_axis O (kids_of (ms_heap st) sl) mn (length ch)) in *.
    rewrite (split_index_same (map bare cc) tc) by (rewrite bare_boxes; eapply reps_boxes; exact R).
    set (k := choose_split_index tc mn (length ch)) in *.
    assert (Hle : k <= length ch) by apply split_index_le.
    destruct (reps_length _ _ _ _ R) as (L3 & L4).
    assert (Lc : length cc = length ch). { rewrite L3, <- L4, <- (Permutation_length P). exact L2. }
    injection Es as <- <-. cbn [set_children calc_bbox create_dbnode].
    set (m1 := write_kids (ms_heap st) sl (firstn k cc ++ repeat zero_cell (length ch - k))).
    assert (Lm1 : length m1 = length (ms_heap st)) by (unfold m1, write_kids; apply replace_len).
    assert (Em1 : nth (s_arr sl) m1 [] = firstn k cc ++ repeat zero_cell (length ch - k) ++ skipn (s_len sl) (nth (s_arr sl) (ms_heap st) [])).
    { unfold m1, write_kids. rewrite nth_replace by exact K3. rewrite K0. cbn [firstn app Nat.add]. rewrite <- app_assoc. reflexivity. }
    rewrite (boxes_reps _ _ _ _ (reps_firstn _ _ _ _ k R)), (boxes_reps _ _ _ _ (reps_skipn _ _ _ _ k R)).
    set (ext := skipn k cc). set (c1 := Cell (Slice (s_arr sl) (s_off sl) k (s_cap sl)) it h l (dist_bbox (firstn k tc))).
    set (oc := Cell (Slice (length m1) 0 (length ext) (length ext)) None h l (dist_bbox (skipn k tc))).
    assert (Hpa : parr p <> Some (s_arr sl)) by (intros K; apply (Hp _ K); rewrite Eo; left; reflexivity).
    assert (Dp : exists c0, deref (MState (m1 ++ [ext]) (ms_root st)) p = Ok c0).
    { destruct p as [|pa pi]; [cbn; eauto|]. apply deref_place in Ed. destruct Ed as (D1 & D2). cbn [deref ms_heap].
      rewrite app_nth1 by lia. unfold m1, write_kids. rewrite nth_replace_other by (cbn in Hpa; congruence). rewrite D2. eauto. }
    destruct Dp as (c0 & Dp).
    assert (Fa : forall x, x < length (ms_heap st) -> x <> s_arr sl -> parr p <> Some x ->
      nth_error (ms_heap (store (MState (m1 ++ [ext]) (ms_root st)) p c1)) x = nth_error (ms_heap st) x).
    { intros x Hx Hxa Hxp. rewrite store_heap by exact Hxp. cbn [ms_heap]. rewrite nth_error_app1 by lia. unfold m1, write_kids. apply replace_other. congruence. }
    assert (Pc : Permutation (concat fs) (concat (firstn k fs') ++ concat (skipn k fs'))).
    { rewrite <- concat_app, firstn_skipn. apply concat_perm. exact P. }
    pose proof (reps_alloc _ _ _ _ Hr) as Ar. rewrite Eo in Hn, Hp. cbn [app] in Hn. inversion Hn as [|? ? Hn1 Hn2]; subst x l0.
    assert (Ff : forall x, In x (concat (firstn k fs') ++ concat (skipn k fs')) ->
      nth_error (ms_heap (store (MState (m1 ++ [ext]) (ms_root st)) p c1)) x = nth_error (ms_heap st) x).
    { intros x Hx. apply (Permutation_in _ (Permutation_sym Pc)) in Hx. apply Fa; [auto|congruence|]. intros K. apply (Hp _ K). right; exact Hx. }
    assert (Ea : nth_error (ms_heap (store (MState (m1 ++ [ext]) (ms_root st)) p c1)) (s_arr sl) = nth_error m1 (s_arr sl)).
    { rewrite store_heap by exact Hpa. cbn [ms_heap]. apply nth_error_app1. lia. }
    assert (Ex : nth_error (ms_heap (store (MState (m1 ++ [ext]) (ms_root st)) p c1)) (length m1) = Some ext).
    { rewrite store_heap. 2:{ destruct p as [|pa pi]; [discriminate|]. apply deref_place in Ed. cbn. intros K. injection K as K. lia. }
      cbn [ms_heap]. rewrite nth_error_app2, Nat.sub_diag by lia. reflexivity. }
    exists (store (MState (m1 ++ [ext]) (ms_root st)) p c1), c1, ([s_arr sl] ++ concat (firstn k fs')), oc, (own (c_kids oc) ++ concat (skipn k fs')).
    assert (Lst : length (ms_heap (store (MState (m1 ++ [ext]) (ms_root st)) p c1)) = S (length (ms_heap st))).
    { rewrite store_length. cbn [ms_heap]. rewrite app_length. cbn [length]. lia. }
    assert (Ho : forall x, In x (own (c_kids oc)) -> x = length (ms_heap st)).
    { intros x. unfold own. cbn [c_kids oc s_cap s_arr]. destruct (Nat.eqb_spec (length ext) 0); [intros []|]. intros [<- |[]]. lia. }
    assert (Nd : NoDup (([s_arr sl] ++ concat (firstn k fs')) ++ own (c_kids oc) ++ concat (skipn k fs'))).
    { apply (Permutation_NoDup (l := own (c_kids oc) ++ s_arr sl :: concat fs)).
      - rewrite Pc. cbn [app]. rewrite (Permutation_app_comm (concat (firstn k fs')) (own (c_kids oc) ++ _)), <- app_assoc.
        rewrite <- Permutation_middle. constructor. apply Permutation_app_head. apply Permutation_app_comm.
      - apply nodup_app_iff. split; [|split; [constructor; auto|]].
        + unfold own. destruct (Nat.eqb _ 0); repeat constructor; cbn; tauto.
        + intros x Hx K. apply Ho in Hx. subst x. destruct K as [K|K]; [lia|]. specialize (Ar _ K). lia. }
    split; [reflexivity|]. split; [eapply store_deref; exact Dp|].
    assert (Nd' := Nd). apply nodup_app_iff in Nd'. destruct Nd' as (Nd1 & Nd2 & _).
    split; [|split; [|split; [exact Nd|split]]].
    - replace [s_arr sl] with (own (Slice (s_arr sl) (s_off sl) k (s_cap sl))) by (rewrite <- Eo; reflexivity).
      unfold c1 at 2. constructor.
      + split; [exact K0|]. cbn [s_len s_cap s_arr]. split; [lia|]. intros _. rewrite nth_of_error, Ea, <- nth_of_error, Em1, Lst. split; [lia|].
        rewrite !app_length, repeat_length, skipn_length, firstn_length. lia.
      + replace (kids_of _ _) with (firstn k cc).
        2:{ unfold kids_of. cbn [s_len s_off s_arr]. rewrite nth_of_error, Ea, <- nth_of_error, Em1, K0. cbn [skipn].
            rewrite firstn_app, firstn_firstn, Nat.min_id, firstn_length. replace (k - Nat.min k (length cc)) with 0 by lia. cbn [firstn]. symmetry. apply app_nil_r. }
        eapply reps_frame; [apply reps_firstn; exact R|]. intros x Hx. apply Ff, in_app_iff. auto.
      + replace (own _) with [s_arr sl] by (rewrite <- Eo; reflexivity). exact Nd1.
    - change (own (c_kids oc)) with (own (Slice (length m1) 0 (length ext) (length ext))). unfold oc. constructor.
      + split; [reflexivity|]. cbn [s_len s_cap s_arr]. split; [lia|]. intros _. rewrite nth_of_error, Ex, Lst. lia.
      + replace (kids_of _ _) with ext.
        2:{ unfold kids_of. cbn [s_len s_off s_arr skipn]. rewrite nth_of_error, Ex. symmetry. apply firstn_all2. lia. }
        eapply reps_frame; [apply reps_skipn; exact R|]. intros x Hx. apply Ff, in_app_iff. auto.
      + exact Nd2.
    - intros x Hx. rewrite !in_app_iff in Hx. rewrite Eo. destruct Hx as [[[<- |[]]|Hx]|[Hx|Hx]].
      + left. left. reflexivity.
      + left. right. apply (Permutation_in _ (Permutation_sym Pc)), in_app_iff. auto.
      + right. apply Ho in Hx. lia.
      + left. right. apply (Permutation_in _ (Permutation_sym Pc)), in_app_iff. auto.
    - split.
      + lia.
      + intros x Hx Hxf Hxp. apply Fa; auto. intros ->. apply Hxf. rewrite Eo. left; reflexivity.
      + intros pa pi -> Hpf. apply deref_place in Ed. destruct Ed as (D1 & D2).
        assert (En : nth pa (ms_heap (store (MState (m1 ++ [ext]) (ms_root st)) (PCell pa pi) c1)) [] = replace_nth pi c1 (nth pa (ms_heap st) [])).
        { cbn [store ms_heap]. rewrite nth_replace by (rewrite app_length; lia). rewrite app_nth1 by lia. unfold m1, write_kids.
          rewrite nth_replace_other by (cbn in Hpa; congruence). reflexivity. }
        rewrite En, replace_len. split; [reflexivity|]. intros j Hj. apply replace_other. auto.
      + intros Hr0. destruct p; [congruence|reflexivity].
  Qed.

  (** ** Insertion *)

  Variable mx mn : nat.
  Definition finish (st : mstate) (b : mbr) (path : list ptr) : res mstate :=
    '(st, path) <- m_overflow O mx mn st path ;; m_adjust st b path.

  (** What a call has made of the place [p] (the footprint of the subtree was [f], that of the new node [fx]). *)
  Definition outcome (st st1 : mstate) (b : mbr) (p : ptr) (F : list nat) (pre : list ptr) (nd' : dbnode) (o : option dbnode) : Prop :=
    exists st2 c' f', deref st2 p = Ok c' /\ rep (ms_heap st2) nd' c' f' /\ frame st st2 F p /\
    match o with
    | None => (forall above, finish st1 b (pre ++ p :: above) = m_adjust st2 b above) /\
              (forall a, In a f' -> In a F \/ length (ms_heap st) <= a)
    | Some s => exists sc fs,
        (forall above, finish st1 b (pre ++ p :: above) = (st3 <- m_attach O st2 p above sc ;; finish st3 b above)) /\
        rep (ms_heap st2) s sc fs /\ NoDup (f' ++ fs) /\
        (forall a, In a (f' ++ fs) -> In a F \/ length (ms_heap st) <= a)
    end.

  Lemma rep_store_bbox st p t c f b c0 : deref st p = Ok c0 -> rep (ms_heap st) t c f -> apart p f ->
    rep (ms_heap (store st p (with_bbox c b))) (set_bbox t b) (with_bbox c b) f.
  Proof.
    intros _ H Hp. destruct H as [ch it h l bb s fs Hk Hr Hn]. unfold with_bbox. cbn [set_bbox c_kids c_item c_height c_leaf].
    set (c1 := Cell s it h l b). assert (F : forall a, In a (own s ++ concat fs) -> nth_error (ms_heap (store st p c1)) a = nth_error (ms_heap st) a).
    { intros a Ha. apply store_heap. intros K. exact (Hp a K Ha). }
    destruct (kids_frame (ms_heap st) (ms_heap (store st p c1)) s Hk) as (K1 & K2); [intros a Ha; apply F, in_app_iff; auto|].
    unfold c1 at 2. constructor; [exact K1| |exact Hn]. rewrite K2. eapply reps_frame; [exact Hr|]. intros a Ha. apply F, in_app_iff. auto.
  Qed.

  Lemma rep_len m t c f : rep m t c f -> s_len (c_kids c) = length (db_children t).
  Proof.
    intros H. destruct H as [ch it h l bb s fs Hk Hr Hn]. cbn. rewrite <- (kids_len m s Hk). apply (reps_length _ _ _ _ Hr).
  Qed.
  Lemma rep_bbox m t c f : rep m t c f -> c_bbox c = db_bbox t.
  Proof. intros H. destruct H; reflexivity. Qed.

  Lemma tail_ok st st1 b p c1 t1 f1 F nd' o : deref st1 p = Ok c1 -> rep (ms_heap st1) t1 c1 f1 ->
    frame st st1 F p -> (forall a, In a f1 -> In a F \/ length (ms_heap st) <= a) -> apart p F -> (forall a i, p = PCell a i -> a < length (ms_heap st)) ->
    (if Nat.ltb mx (length (db_children t1)) then let '(a, s) := split_node V mn t1 in Ok (a, Some s)
     else Ok (set_bbox t1 (expand (db_bbox t1) b), None)) = Ok (nd', o) ->
    outcome st st1 b p F [] nd' o.
  Proof.
    intros Ed H Hfr Hf1 Hp Hal E.
    assert (Hp1 : apart p f1).
    { intros a Ea Ha. destruct (Hf1 a Ha) as [K|K]; [exact (Hp a Ea K)|]. destruct p as [|pa pi]; [discriminate|]. cbn in Ea. injection Ea as ->. pose proof (Hal a pi eq_refl). lia. }
    assert (Hl := fr_len _ _ _ _ Hfr).
    destruct (Nat.ltb mx (length (db_children t1))) eqn:Em.
    - destruct (split_node V mn t1) as [a s] eqn:Es. injection E as <- <-.
      assert (Hne : db_children t1 <> []) by (intros K; rewrite K in Em; discriminate).
      destruct (cut_rep mn st1 p c1 t1 f1 a s Ed H Hp1 Hne Es) as (st2 & c' & f' & sc & fs & E1 & E2 & R1 & R2 & N & Hs & Fr).
      exists st2, c', f'. split; [exact E2|]. split; [exact R1|]. split.
      { eapply frame_trans; [exact Hfr|exact Fr| |exact Hal|exact Hf1]. intros b0 Hb _. exact (Hp b0 Hb). }
      exists sc, fs. split; [|split; [exact R2|split; [exact N|]]].
      + intros above. unfold finish. cbn [app m_overflow]. rewrite Ed. cbn [bind]. rewrite (rep_len _ _ _ _ H), Em. unfold m_split. rewrite E1. cbn [bind].
        destruct (m_attach O st2 p above sc); reflexivity.
      + intros b0 Hb. destruct (Hs b0 Hb) as [K|K]; [auto|]. right. lia.
    - injection E as <- <-. exists (store st1 p (with_bbox c1 (expand (c_bbox c1) b))), (with_bbox c1 (expand (c_bbox c1) b)), f1.
      split; [eapply store_deref; exact Ed|]. split.
      { rewrite (rep_bbox _ _ _ _ H). eapply rep_store_bbox; eauto. }
      split.
      { eapply frame_trans; [exact Hfr|apply store_frame| |exact Hal|intros a []]. intros b0 Hb _. exact (Hp b0 Hb). }
      split; [|exact Hf1].
      intros above. unfold finish. cbn [app m_overflow]. rewrite Ed. cbn [bind]. rewrite (rep_len _ _ _ _ H), Em. cbn [bind m_adjust]. rewrite Ed. reflexivity.
  Qed.

  Lemma list_replaced {A} (l l' : list A) i x : length l' = length l -> (forall j, j <> i -> nth_error l' j = nth_error l j) ->
    nth_error l' i = Some x -> l' = replace_nth i x l.
  Proof.
    revert l' i. induction l as [|a l IH]; intros [|a' l'] i E H Hx; try discriminate E; [destruct i; discriminate|].
    destruct i as [|i]; cbn in *.
    - injection Hx as ->. f_equal. assert (K : forall j, nth_error l' j = nth_error l j) by (intros j; exact (H (S j) ltac:(lia))).
      clear -K E. injection E as E. revert l' E K. induction l as [|b l IH]; intros [|b' l'] E K; try discriminate E; auto.
      pose proof (K 0) as K0. cbn in K0. injection K0 as ->. f_equal. apply IH; [auto|]. intros j. exact (K (S j)).
    - pose proof (H 0 ltac:(lia)) as H0. cbn in H0. injection H0 as ->. f_equal. apply IH; [auto| |exact Hx]. intros j Hj. exact (H (S j) ltac:(lia)).
  Qed.

  Lemma concat_split {A} (l : list (list A)) i x : nth_error l i = Some x -> concat l = concat (firstn i l) ++ x ++ concat (skipn (S i) l).
  Proof. revert i. induction l as [|a l IH]; intros [|i] E; try discriminate; [injection E as <-; reflexivity|]. cbn [concat firstn skipn]. rewrite (IH i E), app_assoc. reflexivity. Qed.
  Lemma concat_replace {A} (l : list (list A)) i x : i < length l -> concat (replace_nth i x l) = concat (firstn i l) ++ x ++ concat (skipn (S i) l).
  Proof. intros H. rewrite replace_split by exact H. rewrite concat_app. reflexivity. Qed.

  (** A child of a node of the tree, and the node after the child has changed. *)
  Lemma child_place st p ch it h l bb s fs i ti : rep (ms_heap st) (DbNode ch it h l bb) (Cell s it h l bb) (own s ++ concat fs) ->
    k_ok (ms_heap st) s -> reps (ms_heap st) ch (kids_of (ms_heap st) s) fs -> NoDup (own s ++ concat fs) -> apart p (own s ++ concat fs) ->
    nth_error ch i = Some ti ->
    exists ci fi, deref st (kid s i) = Ok ci /\ nth_error fs i = Some fi /\ rep (ms_heap st) ti ci fi /\ own s = [s_arr s] /\
      apart (kid s i) fi /\ incl fi (own s ++ concat fs).
  Proof.
    intros _ Hk Hr Hn Hp Ei. destruct (reps_nth _ _ _ _ _ _ Hr Ei) as (ci & fi & E1 & E2 & R).
    pose proof Hk as (K0 & K1 & K2). assert (Hlt : i < s_len s) by (rewrite <- (kids_len _ _ Hk); apply nth_error_Some; rewrite E1; discriminate).
    assert (Eo : own s = [s_arr s]) by (unfold own; destruct (Nat.eqb_spec (s_cap s) 0); [lia|reflexivity]).
    assert (Hin : incl fi (concat fs)) by (intros a Ha; apply in_concat; exists fi; split; [eapply nth_error_In; exact E2|exact Ha]).
    exists ci, fi. split; [|split; [exact E2|split; [exact R|split; [exact Eo|split]]]].
    - cbn [deref kid]. rewrite K0. cbn [Nat.add]. unfold kids_of in E1. rewrite K0 in E1. cbn [skipn] in E1.
      rewrite <- (firstn_skipn (s_len s) (nth (s_arr s) (ms_heap st) [])). rewrite nth_error_app1, E1; [reflexivity|].
      apply nth_error_Some. rewrite E1. discriminate.
    - intros a Ea Ha. cbn in Ea. injection Ea as <-. rewrite Eo in Hn. inversion Hn as [|? ? N1 N2]; subst. apply N1, Hin. exact Ha.
    - intros a Ha. apply in_app_iff. right. apply Hin. exact Ha.
  Qed.

  Lemma parent_frame st st' p s i fi f fx : frame st st' (fi ++ fx) (kid s i) -> own s = [s_arr s] -> incl fi f -> In (s_arr s) f ->
    (forall a j, p = PCell a j -> a < length (ms_heap st)) -> frame st st' (f ++ fx) p.
  Proof.
    intros [A1 A2 A3 A4] Eo Hi Hs Hal.
    assert (K : forall a, a < length (ms_heap st) -> ~ In a (f ++ fx) -> nth_error (ms_heap st') a = nth_error (ms_heap st) a).
    { intros a Ha Hn. apply A2; auto.
      - intros Hb. apply Hn. apply in_app_iff in Hb. apply in_app_iff. destruct Hb; auto.
      - cbn. intros E. injection E as <-. apply Hn, in_app_iff. auto. }
    split; auto.
    - intros a j E Hn. rewrite !nth_of_error, K; auto. eapply Hal. exact E.
    - intros _. apply A4. discriminate.
  Qed.

  Lemma parent_rep st st' ch it h l bb s fs i ci' ti' fi fi' fx : k_ok (ms_heap st) s -> reps (ms_heap st) ch (kids_of (ms_heap st) s) fs ->
    NoDup (own s ++ concat fs) -> own s = [s_arr s] -> i < length ch -> nth_error fs i = Some fi -> frame st st' (fi ++ fx) (kid s i) ->
    (forall a, In a (own s ++ concat fs) -> ~ In a fx) ->
    deref st' (kid s i) = Ok ci' -> rep (ms_heap st') ti' ci' fi' -> (forall a, In a fi' -> In a (fi ++ fx) \/ length (ms_heap st) <= a) ->
    rep (ms_heap st') (DbNode (replace_nth i ti' ch) it h l bb) (Cell s it h l bb) (own s ++ concat (replace_nth i fi' fs)).
  Proof.
    intros Hk Hr Hn Eo Hi Ef Hfr Hd Ed R Hs. pose proof Hk as (K0 & K1 & K2). destruct (reps_length _ _ _ _ Hr) as (L1 & L2).
    pose proof (kids_len _ _ Hk) as Lk. assert (Hil : i < s_len s) by lia. assert (Ec : s_cap s <> 0) by lia. destruct (K2 Ec) as (K3 & K4).
    pose proof (reps_alloc _ _ _ _ Hr) as Ar.
    assert (Nself : ~ In (s_arr s) (fi ++ fx)).
    { rewrite in_app_iff. intros [K|K].
      - rewrite Eo in Hn. inversion Hn as [|? ? N1 N2]; subst. apply N1, in_concat. exists fi. split; [eapply nth_error_In; exact Ef|exact K].
      - apply (Hd (s_arr s)); [rewrite Eo; left; reflexivity|exact K]. }
    destruct (fr_self _ _ _ _ Hfr (s_arr s) (s_off s + i) eq_refl Nself) as (S1 & S2).
    apply deref_place in Ed. destruct Ed as (D1 & D2).
    pose proof (list_replaced _ _ _ _ S1 S2 D2) as El.
    assert (Ek : kids_of (ms_heap st') s = replace_nth i ci' (kids_of (ms_heap st) s)).
    { unfold kids_of. rewrite El, K0. cbn [Nat.add skipn]. apply firstn_replace. exact Hil. }
    assert (Hoth : forall a, In a (concat (firstn i fs)) \/ In a (concat (skipn (S i) fs)) -> In a (concat fs) /\ ~ In a fi /\ a <> s_arr s).
    { intros a Ha. assert (Hc : In a (concat fs)) by (rewrite (concat_split fs i fi Ef), !in_app_iff; tauto).
      split; [exact Hc|]. rewrite Eo in Hn. cbn [app] in Hn. inversion Hn as [|? ? N1 N2]; subst. split; [|intros ->; tauto].
      rewrite (concat_split fs i fi Ef) in N2. rewrite !nodup_app_iff in N2. destruct N2 as (_ & (_ & _ & N3) & N4). intros Hf.
      destruct Ha as [Ha|Ha]; [apply (N4 a Ha), in_app_iff; auto|exact (N3 a Hf Ha)]. }
    constructor.
    - split; [exact K0|]. split; [exact K1|]. intros _. rewrite El, replace_len. split; [|exact K4]. pose proof (fr_len _ _ _ _ Hfr). lia.
    - rewrite Ek. eapply reps_replace; [exact Hr|exact R|]. intros j f a Hj Hf Ha.
      assert (Hx : In a (concat (firstn i fs)) \/ In a (concat (skipn (S i) fs))).
      { destruct (Nat.lt_ge_cases j i) as [Lt|Ge].
        - left. apply in_concat. exists f. split; [|exact Ha]. apply (nth_error_In _ j). rewrite <- Hf.
          rewrite <- (firstn_skipn i fs) at 2. rewrite nth_error_app1; [reflexivity|]. rewrite firstn_length. lia.
        - right. apply in_concat. exists f. split; [|exact Ha]. apply (nth_error_In _ (j - S i)). rewrite <- Hf.
          rewrite <- (firstn_skipn (S i) fs) at 2. rewrite nth_error_app2; [f_equal|]; rewrite firstn_length; lia. }
      destruct (Hoth a Hx) as (Q1 & Q2 & Q3). apply (fr_arr _ _ _ _ Hfr); [auto| |cbn; congruence].
      rewrite in_app_iff. intros [K|K]; [tauto|]. apply (Hd a); [apply in_app_iff; auto|exact K].
    - rewrite concat_replace by lia. rewrite (concat_split fs i fi Ef) in Hn.
      rewrite app_assoc in *. eapply nodup_swap; [exact Hn|eapply rep_nodup; exact R|].
      intros a Ha. destruct (Hs a Ha) as [K|K].
      + apply in_app_iff in K. destruct K as [K|K]; [auto|]. right.
        assert (Q : ~ In a (own s ++ concat fs)) by (intros Q; exact (Hd a Q K)).
        rewrite (concat_split fs i fi Ef) in Q. rewrite !in_app_iff in Q. rewrite in_app_iff. tauto.
      + right. split.
        * rewrite in_app_iff. intros [Q|Q]; [rewrite Eo in Q; destruct Q as [<- |[]]; lia|]. destruct (Hoth a (or_introl Q)) as (Q1 & _). specialize (Ar a Q1). lia.
        * intros Q. destruct (Hoth a (or_intror Q)) as (Q1 & _). specialize (Ar a Q1). lia.
  Qed.

  Lemma deref_alloc st p c : deref st p = Ok c -> forall a i, p = PCell a i -> a < length (ms_heap st).
  Proof. intros E a i ->. apply deref_place in E. tauto. Qed.

  Lemma deref_kept st st' p c : deref st p = Ok c -> (p = PRoot -> ms_root st' = ms_root st) ->
    (forall a, parr p = Some a -> nth_error (ms_heap st') a = nth_error (ms_heap st) a) -> deref st' p = Ok c.
  Proof.
    intros E H1 H2. destruct p as [|a i]; cbn [deref] in *; [rewrite H1 by reflexivity; exact E|].
    rewrite !nth_of_error in *. rewrite (H2 a eq_refl). exact E.
  Qed.

  Lemma add_ok st p c t f x xc fx m s b' : deref st p = Ok c -> rep (ms_heap st) t c f -> rep (ms_heap st) x xc fx ->
    (forall a, In a f -> ~ In a fx) -> apart p (f ++ fx) -> append_kid O (ms_heap st) (c_kids c) xc = (m, s) ->
    let st1 := store (MState m (ms_root st)) p (with_bbox (with_kids c s) b') in
    exists f1, deref st1 p = Ok (with_bbox (with_kids c s) b') /\
      rep (ms_heap st1) (set_bbox (set_children t (db_children t ++ [x])) b') (with_bbox (with_kids c s) b') f1 /\
      frame st st1 (f ++ fx) p /\ (forall a, In a f1 -> In a (f ++ fx) \/ length (ms_heap st) <= a).
  Proof.
    intros Ed H Hx Hd Hp E st1. destruct (append_rep O _ _ _ _ _ _ _ _ _ H Hx Hd E) as (f1 & R & L & Fr & Sub).
    assert (Sub' : forall a, In a f1 -> In a (f ++ fx) \/ length (ms_heap st) <= a).
    { intros a Ha. destruct (Sub a Ha) as [K|[K|K]]; [left; apply in_app_iff; auto|left; apply in_app_iff; auto|auto]. }
    assert (Hal := deref_alloc _ _ _ Ed).
    assert (Ed' : deref (MState m (ms_root st)) p = Ok c).
    { eapply deref_kept; [exact Ed|reflexivity|]. intros a Ea. cbn [ms_heap]. apply Fr.
      - destruct p as [|pa pi]; [discriminate|]. injection Ea as ->. eapply Hal. reflexivity.
      - intros K. apply (Hp a Ea), in_app_iff. auto. }
    assert (Hp1 : apart p f1).
    { intros a Ea Ha. destruct (Sub' a Ha) as [K|K]; [exact (Hp a Ea K)|]. destruct p as [|pa pi]; [discriminate|]. injection Ea as ->. pose proof (Hal a pi eq_refl). lia. }
    assert (Fr1 : frame st (MState m (ms_root st)) (f ++ fx) p).
    { split; cbn [ms_heap ms_root]; auto.
      - intros a Ha Hn _. apply Fr; [exact Ha|]. intros K. apply Hn, in_app_iff. auto.
      - intros a i Ep Hn. rewrite !nth_of_error, Fr; auto; [eapply Hal; exact Ep|]. intros K. apply Hn, in_app_iff. auto. }
    exists f1. split; [eapply store_deref; exact Ed'|]. split; [|split; [|exact Sub']].
    - unfold st1. eapply rep_store_bbox; eauto.
    - eapply frame_trans; [exact Fr1|apply store_frame| |exact Hal|intros a []]. intros a Ea _. exact (Hp a Ea).
  Qed.

  Lemma insert_core x xc fx : forall rem nd nd' o st p c f target path0,
    ins V mx mn rem nd x = Ok (nd', o) -> deref st p = Ok c -> rep (ms_heap st) nd c f -> rep (ms_heap st) x xc fx ->
    (forall a, In a f -> ~ In a fx) -> apart p (f ++ fx) ->
    exists q pre cq, m_walk O (c_bbox xc) st rem p target path0 = Ok (q, pre ++ p :: path0) /\ length pre = rem /\ deref st q = Ok cq /\
      forall m s, append_kid O (ms_heap st) (c_kids cq) xc = (m, s) ->
        outcome st (store (MState m (ms_root st)) q (with_bbox (with_kids cq s) (expand (c_bbox cq) (c_bbox xc)))) (c_bbox xc) p (f ++ fx) pre nd' o.
  Proof.
    induction rem as [|rem IH]; intros nd nd' o st p c f target path0 E Ed H Hx Hd Hp; cbn [ins] in E; cbn [m_walk]; rewrite Ed; cbn [bind].
    - exists p, [], c. repeat (split; [reflexivity || exact Ed|]). intros m s Ea.
      destruct (add_ok st p c nd f x xc fx m s (expand (c_bbox c) (c_bbox xc)) Ed H Hx Hd Hp Ea) as (f1 & D1 & R1 & F1 & S1).
      rewrite <- (rep_bbox _ _ _ _ Hx), <- (rep_bbox _ _ _ _ H) in E.
      eapply tail_ok; [exact D1|exact R1|exact F1|exact S1|exact Hp|apply (deref_alloc _ _ _ Ed)|exact E].
    - pose proof H as H'. destruct H' as [ch it h l bb s fs Hk Hr Hn]. cbn [db_leaf db_children] in E. cbn [c_leaf c_kids].
      destruct l; [discriminate|].
      assert (Ec : choose_child (mo_eps O) (c_bbox xc) (map bare (kids_of (ms_heap st) s)) = choose_child (o_eps V) (db_bbox x) ch).
      { rewrite (rep_bbox _ _ _ _ Hx). cbn [V value_oracle o_eps]. apply choose_child_same. rewrite bare_boxes. apply (reps_boxes _ _ _ _ Hr). }
      rewrite Ec. destruct (choose_child (o_eps V) (db_bbox x) ch) as [i|]; [|discriminate].
      destruct (nth_error ch i) as [ti|] eqn:Ei; [|discriminate].
      destruct (ins V mx mn rem ti x) as [[ti' oi]| |] eqn:Ein; try discriminate. cbn [bind] in E.
      assert (Hpf : apart p (own s ++ concat fs)) by (intros a Ea Ha; apply (Hp a Ea), in_app_iff; auto).
      destruct (child_place _ _ _ _ _ _ _ _ _ _ _ H Hk Hr Hn Hpf Ei) as (ci & fi & Dc & Ef & Ri & Eo & Ai & Inc).
      assert (Harr : In (s_arr s) (own s ++ concat fs)) by (rewrite Eo; left; reflexivity).
      assert (Hil : i < length ch) by (apply nth_error_Some; rewrite Ei; discriminate).
      destruct (IH ti ti' oi st (kid s i) ci fi (Some (kid s i)) (p :: path0) Ein Dc Ri Hx) as (q & pre & cq & W & Lp & Dq & Out).
      { intros a Ha. apply Hd, Inc, Ha. }
      { intros a Ea Ha. apply in_app_iff in Ha. destruct Ha as [Ha|Ha]; [exact (Ai a Ea Ha)|]. cbn in Ea. injection Ea as <-. exact (Hd _ Harr Ha). }
      exists q, (pre ++ [kid s i]), cq. split; [rewrite W, <- app_assoc; reflexivity|]. split; [rewrite app_length; cbn; lia|]. split; [exact Dq|].
      intros m s' Ea. destruct (Out m s' Ea) as (st2 & c2 & f2 & D2 & R2 & F2 & Rest). clear Out IH W.
      pose proof (deref_alloc _ _ _ Ed) as Hal.
      assert (Pf : frame st st2 ((own s ++ concat fs) ++ fx) p) by (eapply parent_frame; eauto).
      assert (Dp : deref st2 p = Ok (Cell s it h false bb)).
      { eapply deref_kept; [exact Ed|intros _; apply (fr_root _ _ _ _ F2); discriminate|].
        intros a Epa. assert (La : a < length (ms_heap st)) by (destruct p as [|pa pi]; [discriminate|]; injection Epa as ->; eapply Hal; reflexivity).
        apply (fr_arr _ _ _ _ F2); [exact La| |].
        - intros K. apply (Hp a Epa). apply in_app_iff in K. apply in_app_iff. destruct K as [K|K]; [left; apply Inc, K|auto].
        - cbn. intros K. injection K as <-. apply (Hpf _ Epa Harr). }
      assert (Hfx : forall a, In a fx -> a < length (ms_heap st)) by (apply (rep_alloc _ _ _ _ Hx)).
      assert (Hfa : forall a, In a (own s ++ concat fs) -> a < length (ms_heap st)) by (apply (rep_alloc _ _ _ _ H)).
      assert (Ecc : forall a, In a (own s ++ concat (replace_nth i f2 fs)) -> In a (own s ++ concat fs) \/ In a f2).
      { intros a. rewrite concat_replace by (destruct (reps_length _ _ _ _ Hr); lia). rewrite (concat_split fs i fi Ef), !in_app_iff. tauto. }
      destruct oi as [s2|].
      + destruct Rest as (sc & fs2 & Fin & Rs & N2 & Sub2).
        assert (Sub : forall a, In a f2 -> In a (fi ++ fx) \/ length (ms_heap st) <= a) by (intros a Ha; apply Sub2, in_app_iff; auto).
        pose proof (parent_rep _ _ _ it h false bb _ _ _ _ _ _ _ _ Hk Hr Hn Eo Hil Ef F2 Hd D2 R2 Sub) as Rp.
        set (f3 := own s ++ concat (replace_nth i f2 fs)) in *.
        assert (Sub3 : forall a, In a (f3 ++ fs2) -> In a ((own s ++ concat fs) ++ fx) \/ length (ms_heap st) <= a).
        { intros a Ha. apply in_app_iff in Ha. assert (Q : In a (own s ++ concat fs) \/ In a (f2 ++ fs2)).
          { destruct Ha as [Ha|Ha]; [destruct (Ecc a Ha) as [K|K]; [left; exact K|]|]; right; apply in_app_iff; auto. }
          destruct Q as [Q|Q]; [left; apply in_app_iff; auto|]. destruct (Sub2 a Q) as [K|K]; [|auto]. left.
          apply in_app_iff in K. apply in_app_iff. destruct K as [K|K]; [left; apply Inc, K|auto]. }
        destruct (append_kid O (ms_heap st2) s sc) as [m3 s3] eqn:Ea3.
        destruct (add_ok st2 p (Cell s it h false bb) _ f3 s2 sc fs2 m3 s3 bb Dp Rp Rs) as (f4 & D4 & R4 & F4 & S4).
        { intros a Ha Hb. apply nodup_app_iff in N2. destruct N2 as (N3 & N4 & N5).
          destruct (Ecc a Ha) as [K|K]; [|exact (N5 a K Hb)].
          destruct (Sub2 a (proj2 (in_app_iff _ _ _) (or_intror Hb))) as [Q|Q]; [|specialize (Hfa a K); lia].
          apply in_app_iff in Q. destruct Q as [Q|Q]; [|exact (Hd a K Q)].
          unfold f3 in Ha. rewrite concat_replace in Ha by (destruct (reps_length _ _ _ _ Hr); lia).
          rewrite (concat_split fs i fi Ef) in Hn. rewrite !nodup_app_iff in Hn. destruct Hn as (_ & (_ & (_ & _ & M1) & M2) & M3).
          rewrite !in_app_iff in Ha. destruct Ha as [Ha|[Ha|[Ha|Ha]]].
          - apply (M3 a Ha). rewrite !in_app_iff. auto.
          - apply (M2 a Ha). rewrite in_app_iff. auto.
          - exact (N5 a Ha Hb).
          - exact (M1 a Q Ha). }
        { intros a Epa Ha. destruct (Sub3 a Ha) as [K|K]; [exact (Hp a Epa K)|]. destruct p as [|pa pi]; [discriminate|]. injection Epa as ->. pose proof (Hal a pi eq_refl). lia. }
        { exact Ea3. }
        set (st3 := store (MState m3 (ms_root st2)) p (with_bbox (with_kids (Cell s it h false bb) s3) bb)) in *.
        assert (T : outcome st st3 (c_bbox xc) p ((own s ++ concat fs) ++ fx) [] nd' o).
        { eapply tail_ok; [exact D4|exact R4| | |exact Hp|exact Hal|].
          - eapply frame_trans; [exact Pf|exact F4| |exact Hal|exact Sub3]. intros a Epa _. exact (Hp a Epa).
          - intros a Ha. destruct (S4 a Ha) as [K|K]; [exact (Sub3 a K)|]. right. pose proof (fr_len _ _ _ _ Pf). lia.
          - rewrite (rep_bbox _ _ _ _ Hx). exact E. }
        assert (Step : forall above, finish (store (MState m (ms_root st)) q (with_bbox (with_kids cq s') (expand (c_bbox cq) (c_bbox xc)))) (c_bbox xc)
                  ((pre ++ [kid s i]) ++ p :: above) = finish st3 (c_bbox xc) ([] ++ p :: above)).
        { intros above. rewrite <- app_assoc. cbn [app]. rewrite Fin. cbn [m_attach]. rewrite Dp. cbn [bind c_kids]. rewrite Ea3. reflexivity. }
        destruct T as (stf & cf & ff & T1 & T2 & T3 & T4). exists stf, cf, ff. split; [exact T1|]. split; [exact T2|]. split; [exact T3|].
        destruct o as [so|].
        * destruct T4 as (sc' & fs' & T5 & T6). exists sc', fs'. split; [|exact T6]. intros above. rewrite Step. apply T5.
        * destruct T4 as (T5 & T6). split; [|exact T6]. intros above. rewrite Step. apply T5.
      + destruct Rest as (Fin & Sub). injection E as <- <-.
        pose proof (parent_rep _ _ _ it h false bb _ _ _ _ _ _ _ _ Hk Hr Hn Eo Hil Ef F2 Hd D2 R2 Sub) as Rp.
        set (f3 := own s ++ concat (replace_nth i f2 fs)) in *.
        assert (Sub3 : forall a, In a f3 -> In a ((own s ++ concat fs) ++ fx) \/ length (ms_heap st) <= a).
        { intros a Ha. destruct (Ecc a Ha) as [Q|Q]; [left; apply in_app_iff; auto|]. destruct (Sub a Q) as [K|K]; [|auto]. left.
          apply in_app_iff in K. apply in_app_iff. destruct K as [K|K]; [left; apply Inc, K|auto]. }
        assert (Hp3 : apart p f3).
        { intros a Epa Ha. destruct (Sub3 a Ha) as [K|K]; [exact (Hp a Epa K)|]. destruct p as [|pa pi]; [discriminate|]. injection Epa as ->. pose proof (Hal a pi eq_refl). lia. }
        set (c3 := with_bbox (Cell s it h false bb) (expand bb (c_bbox xc))).
        exists (store st2 p c3), c3, f3. split; [eapply store_deref; exact Dp|]. split.
        { rewrite <- (rep_bbox _ _ _ _ Hx). unfold c3. exact (rep_store_bbox _ _ _ _ _ (expand bb (c_bbox xc)) _ Dp Rp Hp3). }
        split; [eapply frame_trans; [exact Pf|apply store_frame| |exact Hal|intros a []]; intros a Epa _; exact (Hp a Epa)|].
        split; [|exact Sub3]. intros above. rewrite <- app_assoc. cbn [app]. rewrite Fin. cbn [m_adjust]. rewrite Dp. reflexivity.
  Qed.

  Lemma split_root_rep st a b ca cb fa fb : rep (ms_heap st) a ca fa -> rep (ms_heap st) b cb fb -> NoDup (fa ++ fb) ->
    holds (m_split_root st ca cb) (split_root a b).
  Proof.
    intros Ha Hb Hn. set (m := ms_heap st) in *. exists ([length m] ++ concat [fa; fb]). unfold m_split_root. fold m. cbn [ms_heap ms_root].
    assert (Eh : db_height a = c_height ca) by (destruct Ha; reflexivity).
    assert (Eb : boxes [ca; cb] = dist_bbox [a; b]).
    { eapply boxes_reps. constructor; [exact Ha|]. constructor; [exact Hb|constructor]. }
    assert (Fr : forall x, In x (fa ++ fb) -> nth_error (m ++ [[ca; cb]]) x = nth_error m x).
    { intros x Hx. apply nth_error_app1. apply in_app_iff in Hx. destruct Hx as [Hx|Hx]; [apply (rep_alloc _ _ _ _ Ha)|apply (rep_alloc _ _ _ _ Hb)]; exact Hx. }
    unfold split_root. cbn [calc_bbox create_dbnode]. rewrite Eh, <- Eb.
    apply (Rep _ [a; b] None _ false _ (Slice (length m) 0 2 2) [fa; fb]).
    - split; [reflexivity|]. split; [auto|]. intros _. cbn [s_arr s_cap]. rewrite app_length. cbn [length].
      rewrite app_nth2, Nat.sub_diag by lia. cbn [nth length]. lia.
    - unfold kids_of. cbn [s_arr s_len s_off]. rewrite app_nth2, Nat.sub_diag by lia. cbn [nth firstn skipn].
      constructor; [|constructor; [|constructor]]; (eapply rep_frame; [eassumption|]); intros x Hx; apply Fr, in_app_iff; auto.
    - cbn [own s_cap s_arr Nat.eqb concat]. rewrite app_nil_r. cbn [app]. constructor; [|exact Hn]. intros K. apply in_app_iff in K.
      destruct K as [K|K]; [apply (rep_alloc _ _ _ _ Ha) in K|apply (rep_alloc _ _ _ _ Hb) in K]; fold m in K; lia.
  Qed.

  Lemma insert_holds st t x xc f fx rem t' : rep (ms_heap st) t (ms_root st) f -> rep (ms_heap st) x xc fx -> (forall a, In a f -> ~ In a fx) ->
    ins_root V (Hdb t mx mn) rem x = Ok t' -> exists st', m_insert O mx mn st rem xc = Ok st' /\ holds st' (h_root t') /\ h_max t' = mx /\ h_min t' = mn.
  Proof.
    intros H Hx Hd E. unfold ins_root in E. cbn [h_max h_min h_root] in E.
    destruct (ins V mx mn rem t x) as [[a o]| |] eqn:Ei; try discriminate. cbn [bind] in E.
    destruct (insert_core x xc fx rem t a o st PRoot (ms_root st) f None [] Ei eq_refl H Hx Hd) as (q & pre & cq & W & Lp & Dq & Out).
    { intros b Eb. discriminate. }
    unfold m_insert. rewrite W. cbn [bind]. rewrite Dq. cbn [bind].
    destruct (append_kid O (ms_heap st) (c_kids cq) xc) as [m s] eqn:Ea. specialize (Out m s eq_refl).
    rewrite app_length, Lp. cbn [length]. rewrite Nat.add_1_r, Nat.eqb_refl. cbn [negb].
    destruct Out as (st2 & c' & f' & D2 & R2 & F2 & Rest). cbn [deref] in D2. injection D2 as <-.
    destruct o as [s2|].
    - destruct Rest as (sc & fs & Fin & Rs & N & Sub). injection E as <-. specialize (Fin []).
      unfold finish in Fin. rewrite Fin. cbn [m_attach deref bind m_overflow m_adjust].
      eexists. split; [reflexivity|]. split; [|auto]. cbn [h_root]. eapply split_root_rep; eauto.
    - destruct Rest as (Fin & Sub). injection E as <-. specialize (Fin []). unfold finish in Fin. rewrite Fin. cbn [m_adjust].
      exists st2. split; [reflexivity|]. split; [|auto]. exists f'. exact R2.
  Qed.

  Lemma leaf_rep m it : rep m (new_leaf it) (leaf_cell it) [].
  Proof.
    apply (Rep m [] (Some it) 1 true (n_mbr it) nil_slice []).
    - split; [reflexivity|]. split; [auto|]. cbn. congruence.
    - unfold kids_of. cbn. constructor.
    - constructor.
  Qed.

  Lemma insert_all_holds items : forall st t t', holds st t -> insert_all V (Hdb t mx mn) items = Ok t' ->
    exists st', m_insert_all O mx mn st items = Ok st' /\ holds st' (h_root t') /\ h_max t' = mx /\ h_min t' = mn.
  Proof.
    induction items as [|it items IH]; intros st t t' (f & H) E; cbn [insert_all m_insert_all] in *.
    - injection E as <-. exists st. split; [reflexivity|]. split; [exists f; exact H|auto].
    - destruct (insert V (Hdb t mx mn) it) as [t1| |] eqn:Ei; try discriminate. cbn [bind] in E. unfold insert in Ei. cbn [h_root] in Ei.
      destruct (insert_holds st t (new_leaf it) (leaf_cell it) f [] _ t1 H (leaf_rep _ it) (fun a _ K => K) Ei) as (st1 & E1 & H1 & M1 & M2).
      assert (Eh : db_height t = c_height (ms_root st)) by (destruct H; reflexivity). rewrite <- Eh, E1. cbn [bind].
      destruct t1 as [r1 a1 b1]. cbn [h_root h_max h_min] in *. subst a1 b1. apply (IH st1 r1 t' H1 E).
  Qed.

  Definition grown (m m' : mheap) : Prop := length m <= length m' /\ forall a, a < length m -> nth_error m' a = nth_error m a.

  Lemma leaves_reps m items : reps m (map new_leaf items) (map leaf_cell items) (map (fun _ => []) items).
  Proof. induction items; cbn; constructor; [apply leaf_rep|assumption]. Qed.
  Lemma concat_nils {A B} (l : list A) : concat (map (fun _ => []) l) = @nil B.
  Proof. induction l; cbn; auto. Qed.

  Lemma build_kids_rep (g : mheap -> list node -> res (mheap * cell)) (k : list node -> res dbnode) m0 :
    forall tiles ts m s acc fp h bb, mapM k tiles = Ok ts ->
    (forall tile t m, k tile = Ok t -> exists m' c f, g m tile = Ok (m', c) /\ rep m' t c f /\ grown m m' /\ forall a, In a f -> length m <= a) ->
    rep m (DbNode acc None h false bb) (Cell s None h false bb) fp -> grown m0 m -> (forall a, In a fp -> length m0 <= a) ->
    exists m' s' f', m_build_kids O g m s tiles = Ok (m', s') /\ rep m' (DbNode (acc ++ ts) None h false bb) (Cell s' None h false bb) f' /\
      grown m0 m' /\ forall a, In a f' -> length m0 <= a.
  Proof.
    induction tiles as [|tile tiles IH]; intros ts m s acc fp h bb E Hg R Hm Hf; cbn [mapM m_build_kids] in *.
    - injection E as <-. exists m, s, fp. rewrite app_nil_r. auto.
    - destruct (k tile) as [t| |] eqn:Ek; try discriminate. cbn [bind] in E. destruct (mapM k tiles) as [ts'| |] eqn:Em; try discriminate. injection E as <-.
      destruct (Hg tile t m Ek) as (m1 & c & f & E1 & R1 & (G1 & G2) & Hf1). rewrite E1. cbn [bind].
      destruct (append_kid O m1 s c) as [m2 s2] eqn:Ea.
      assert (R' : rep m1 (DbNode acc None h false bb) (Cell s None h false bb) fp).
      { eapply rep_frame; [exact R|]. intros a Ha. apply G2. exact (rep_alloc _ _ _ _ R a Ha). }
      destruct (append_rep O m1 _ _ _ _ _ _ m2 s2 R' R1) as (f2 & R2 & L2 & Fr2 & S2).
      { intros a Ha Hb. apply Hf1 in Hb. apply (rep_alloc _ _ _ _ R) in Ha. lia. }
      { exact Ea. }
      destruct Hm as (M1 & M2).
      destruct (IH ts' m2 s2 (acc ++ [t]) f2 h bb eq_refl Hg R2) as (m' & s' & f' & Q1 & Q2 & Q3).
      + split; [lia|]. intros a Ha. rewrite Fr2; [rewrite G2 by lia; apply M2, Ha|lia|]. intros K. apply Hf in K. lia.
      + intros a Ha. destruct (S2 a Ha) as [K|[K|K]]; [apply Hf, K|apply Hf1 in K; lia|lia].
      + exists m', s', f'. split; [exact Q1|]. split; [|exact Q3]. rewrite <- app_assoc in Q2. exact Q2.
  Qed.

  Lemma build_rep M : forall fuel m items height t, build V M fuel items height = Ok t ->
    exists m' c f, m_build O M fuel m items height = Ok (m', c) /\ rep m' t c f /\ grown m m' /\ forall a, In a f -> length m <= a.
  Proof.
    induction fuel as [|fuel IH]; intros m items height t E; [discriminate|]. cbn [build m_build] in *.
    destruct (Nat.leb (length items) M).
    - injection E as <-. set (l := map leaf_cell items). set (n := length items).
      exists (m ++ [l]), (Cell (Slice (length m) 0 n n) None 1 true (boxes l)), (own (Slice (length m) 0 n n) ++ concat (map (fun _ => []) items)).
      split; [reflexivity|].
      assert (Ek : kids_of (m ++ [l]) (Slice (length m) 0 n n) = l).
      { unfold kids_of. cbn [s_arr s_len s_off skipn]. rewrite app_nth2, Nat.sub_diag by lia. cbn [nth]. unfold n. rewrite <- (map_length leaf_cell items). apply firstn_all. }
      split; [|split].
      + cbn [calc_bbox create_dbnode]. replace (dist_bbox (map new_leaf items)) with (boxes l) by (eapply boxes_reps; apply (leaves_reps m)).
        constructor; [|rewrite Ek; apply leaves_reps|rewrite concat_nils, app_nil_r; unfold own; cbn [s_cap]; destruct (Nat.eqb n 0); repeat constructor; intros []].
        split; [reflexivity|]. split; [auto|]. cbn [s_arr s_cap]. intros _. rewrite app_length. cbn [length]. rewrite app_nth2, Nat.sub_diag by lia. cbn [nth].
        unfold l. rewrite map_length. fold n. lia.
      + split; [rewrite app_length; lia|]. intros a Ha. apply nth_error_app1. exact Ha.
      + intros a. rewrite concat_nils, app_nil_r. unfold own. cbn [s_cap s_arr]. destruct (Nat.eqb n 0); [intros []|]. intros [<- |[]]. lia.
    - cbv zeta in *. cbn [V value_oracle o_height o_msel] in E. 
      set (h := if Nat.eqb height 0 then mo_height O M (length items) else height) in *.
      set (tiles := flat_map _ _) in *.
      destruct (mapM (fun tile => build V M fuel tile (h - 1)) tiles) as [ts| |] eqn:Em; try discriminate. injection E as <-.
      assert (R0 : rep m (DbNode [] None h false empty_mbr) (Cell nil_slice None h false empty_mbr) []).
      { apply (Rep m [] None h false empty_mbr nil_slice []); [split; [reflexivity|]; split; [auto|]; cbn; congruence|unfold kids_of; cbn; constructor|constructor]. }
      destruct (build_kids_rep (fun m tile => m_build O M fuel m tile (h - 1)) (fun tile => build V M fuel tile (h - 1)) m tiles ts m nil_slice [] [] h empty_mbr Em) as (m' & s' & f' & Q1 & Q2 & Q3 & Q4).
      + intros tile t m1 Et. apply (IH m1 tile (h - 1) t Et).
      + exact R0.
      + split; auto.
      + intros a [].
      + rewrite Q1. cbn [bind]. exists m', (Cell s' None h false (boxes (kids_of m' s'))), f'. split; [reflexivity|]. split; [|split; [exact Q3|exact Q4]].
        cbn [app] in Q2. inversion Q2 as [ch it h0 l b s fs Hk Hr Hn]; subst. cbn [calc_bbox create_dbnode].
        rewrite (boxes_reps _ _ _ _ Hr). constructor; assumption.
  Qed.

  Lemma load_holds st t items t' : holds st t -> load V (Hdb t mx mn) items = Ok t' ->
    exists st', m_load O mx mn st items = Ok st' /\ holds st' (h_root t') /\ h_max t' = mx /\ h_min t' = mn.
  Proof.
    intros (f & H) E. unfold load, m_load in *. cbn [h_root h_max h_min] in E.
    destruct (Nat.ltb (length items) mn); [apply (insert_all_holds items st t); [exists f; exact H|exact E]|].
    destruct (build V mx (S (S (length items))) items 0) as [nd| |] eqn:Eb; try discriminate.
    destruct (build_rep mx _ (ms_heap st) items 0 nd Eb) as (m' & c & fn & E1 & R1 & (G1 & G2) & S1). rewrite E1. cbn [bind] in *.
    assert (Rt : rep m' t (ms_root st) f).
    { eapply rep_frame; [exact H|]. intros a Ha. apply G2. exact (rep_alloc _ _ _ _ H a Ha). }
    assert (D : forall a, In a f -> ~ In a fn) by (intros a Ha Hb; apply S1 in Hb; apply (rep_alloc _ _ _ _ H) in Ha; lia).
    rewrite (rep_len _ _ _ _ H).
    assert (Eh : db_height t = c_height (ms_root st)) by (destruct H; reflexivity).
    assert (En : db_height nd = c_height c) by (destruct R1; reflexivity).
    destruct (db_children t) as [|c0 r0] eqn:Ec; cbn [length Nat.eqb].
    - injection E as <-. eexists. split; [reflexivity|]. split; [exists fn; exact R1|auto].
    - rewrite <- Eh, <- En. destruct (Nat.eqb (db_height t) (db_height nd)).
      + injection E as <-. eexists. split; [reflexivity|]. split; [|auto]. cbn [h_root].
        apply (split_root_rep (MState m' (ms_root st)) _ _ _ _ f fn Rt R1).
        apply nodup_app_iff. split; [eapply rep_nodup; exact Rt|]. split; [eapply rep_nodup; exact R1|exact D].
      + destruct (Nat.ltb (db_height t) (db_height nd)).
        * apply (insert_holds (MState m' c) nd t (ms_root st) fn f); [exact R1|exact Rt| |exact E]. intros a Ha Hb. exact (D a Hb Ha).
        * apply (insert_holds (MState m' (ms_root st)) t nd c f fn); [exact Rt|exact R1|exact D|exact E].
  Qed.
End Mem.
