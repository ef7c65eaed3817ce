(** Proofs about the node queue. *)
From Verif Require Import M_Base M_Rng M_Node M_Queue Spec_Queue.
Open Scope nat_scope.

Lemma history_snoc_ok q l q1 i o q2 r : history q l q1 -> dq q1 o q2 r -> history q (l ++ [(i, o, Some r)]) q2.
Proof.
  induction 1; cbn; intros D.
  - econstructor; [exact D|constructor].
  - econstructor; eauto.
  - econstructor; eauto.
Qed.
Lemma history_snoc_empty q l i o : history q l [] -> needs_item o -> history q (l ++ [(i, o, None)]) [].
Proof.
  intros H D. remember [] as q1 eqn:E in H. revert E. induction H; cbn; intros E.
  - subst. apply h_empty; [exact D|constructor].
  - econstructor; eauto.
  - apply h_empty; auto.
Qed.

Lemma changes_writes o : changes o -> qwrites o = true.
Proof. intros (q & q' & r & H & N). destruct H; cbn; congruence. Qed.

Lemma rev_case {A} (q : list A) : q = [] \/ exists q' x, q = q' ++ [x].
Proof. destruct q using rev_ind; [auto|right; eauto]. Qed.

Lemma deque_do_spec o q :
  (exists r, snd (deque_do o q) = Some r /\ dq q o (fst (deque_do o q)) r)
  \/ (snd (deque_do o q) = None /\ needs_item o /\ q = [] /\ fst (deque_do o q) = []).
Proof.
  destruct o; cbn.
  - left. eexists. split; [reflexivity|constructor].
  - left. eexists. split; [reflexivity|apply dq_append_left].
  - destruct (rev_case q) as [-> | (q' & x & ->)]; [right; cbn; auto|left].
    rewrite rev_app_distr. cbn. rewrite rev_involutive. eexists. split; [reflexivity|constructor; reflexivity].
  - destruct q as [|x q']; [right; cbn; auto|left]. cbn. eexists. split; [reflexivity|constructor; reflexivity].
  - left. eexists. split; [reflexivity|constructor].
  - left. eexists. split; [reflexivity|constructor].
  - destruct q as [|x q']; [right; cbn; auto|left]. cbn. eexists. split; [reflexivity|econstructor; reflexivity].
  - destruct (rev_case q) as [-> | (q' & x & ->)]; [right; cbn; auto|left].
    rewrite rev_app_distr. cbn. eexists. split; [reflexivity|econstructor; reflexivity].
Qed.

(** ** Updating a thread *)

Lemma qset_split i t u l : nth_error l i = Some u ->
  exists a b, l = a ++ u :: b /\ qset i t l = a ++ t :: b /\ length a = i.
Proof.
  revert i. induction l as [|z r IH]; intros [|i] H; cbn in *; try discriminate.
  - injection H as ->. exists [], r. auto.
  - destruct (IH i H) as (a & b & -> & E & L). exists (z :: a), b. cbn. rewrite E, L. auto.
Qed.
Lemma nth_qset i j t l : nth_error (qset i t l) j =
  if Nat.eqb i j then match nth_error l i with Some _ => Some t | None => None end else nth_error l j.
Proof.
  revert i j. induction l as [|z r IH]; intros [|i] [|j]; cbn; try reflexivity.
  - destruct (Nat.eqb i j); reflexivity.
  - apply IH.
Qed.

(** ** What a thread holds *)

Definition holds_lock (p : qphase) : option bool :=
  match p with
  | Out => None
  | Inside o | Did o _ | Dead o => Some (qwrites o)
  end.
Definition nwrite (t : qthread) : nat := match holds_lock (q_phase t) with Some true => 1 | _ => 0 end.
Definition nread (t : qthread) : nat := match holds_lock (q_phase t) with Some false => 1 | _ => 0 end.
Arguments nwrite !t /. Arguments nread !t /.
Fixpoint total (f : qthread -> nat) (l : list qthread) : nat :=
  match l with [] => 0 | x :: r => f x + total f r end.
Lemma total_app f a b : total f (a ++ b) = total f a + total f b.
Proof. induction a; cbn; [reflexivity|lia]. Qed.
Lemma total_in f l i t : nth_error l i = Some t -> f t <= total f l.
Proof.
  revert i. induction l as [|z r IH]; intros [|i] H; cbn in *; try discriminate.
  - injection H as ->. lia.
  - specialize (IH i H). lia.
Qed.
Lemma total_two f l i j t u : nth_error l i = Some t -> nth_error l j = Some u -> i <> j ->
  f t + f u <= total f l.
Proof.
  revert i j. induction l as [|z r IH]; intros [|i] [|j] H K N; cbn in *; try discriminate; try congruence.
  - injection H as ->. pose proof (total_in f r j u K). lia.
  - injection K as ->. pose proof (total_in f r i t H). lia.
  - specialize (IH i j H K ltac:(congruence)). lia.
Qed.

(** The operations thread t has called the deque with, the one it is about to call excluded. *)
Definition in_hand (t : qthread) : list (qop * option qret) :=
  match q_phase t with
  | Did o r => [(o, r)]
  | Dead o => [(o, None)]
  | _ => []
  end.
Definition to_do (t : qthread) : list qop :=
  match q_phase t with Inside o => o :: q_prog t | _ => q_prog t end.

Record qgood (progs : list (list qop)) (s : qstate) : Prop := {
  qg_hist : history [] (q_log s) (q_items s);
  qg_w : (if q_writer s then 1 else 0) = total nwrite (q_threads s);
  qg_r : q_readers s = total nread (q_threads s);
  qg_x : q_writer s = true -> q_readers s = 0;
  qg_progs : length (q_threads s) = length progs;
  qg_calls : forall i t p, nth_error (q_threads s) i = Some t -> nth_error progs i = Some p ->
    exists done : list (qop * qret),
      map snd done = q_rets t /\
      calls_of i (q_log s) = map (fun c => (fst c, Some (snd c))) done ++ in_hand t /\
      p = map fst (calls_of i (q_log s)) ++ to_do t;
  qg_dead : forall i t o, nth_error (q_threads s) i = Some t -> q_phase t = Dead o -> needs_item o
}.

Arguments calls_of : simpl never.
Lemma calls_snoc i l j o r : calls_of i (l ++ [(j, o, r)])
  = calls_of i l ++ (if Nat.eqb j i then [(o, r)] else []).
Proof.
  unfold calls_of. rewrite filter_app, map_app. cbn. destruct (Nat.eqb j i); reflexivity.
Qed.

Lemma total_map_out f progs : f = nwrite \/ f = nread -> total f (map (fun p => QThread p Out []) progs) = 0.
Proof. intros [-> | ->]; induction progs; cbn; auto. Qed.

Lemma qgood_start progs : qgood progs (qstart progs).
Proof.
  constructor; cbn.
  - constructor.
  - rewrite total_map_out; auto.
  - rewrite total_map_out; auto.
  - congruence.
  - apply map_length.
  - intros i t p Ht Hp. rewrite nth_error_map in Ht. rewrite Hp in Ht. cbn in Ht. injection Ht as <-.
    exists []. auto.
  - intros i t o Ht Hp. rewrite nth_error_map in Ht. destruct (nth_error progs i); cbn in Ht; [|discriminate].
    injection Ht as <-. discriminate.
Qed.

Lemma None_needs o q : snd (deque_do o q) = None -> needs_item o.
Proof. destruct o; cbn; try congruence; auto. Qed.

(** The history is extended only by the call of the deque. *)
Lemma qgood_step progs i s s' : qgood progs s ->
  (forall j t o, nth_error (q_threads s) j = Some t -> q_phase t = Did o None -> needs_item o) ->
  qstep i s = Some s' ->
  qgood progs s' /\ (forall j t o, nth_error (q_threads s') j = Some t -> q_phase t = Did o None -> needs_item o).
Proof.
  intros [Hh Hw Hr Hx Hp Hc Hd] Hn E. unfold qstep in E.
  destruct (nth_error (q_threads s) i) as [t|] eqn:Ei; [|discriminate].
  destruct t as [pr ph rets]. cbn [q_phase q_prog q_rets] in E.
  assert (Tot : forall f u, total f (qset i u (q_threads s)) + f (QThread pr ph rets)
                            = total f (q_threads s) + f u).
  { intros f u. destruct (qset_split i u _ _ Ei) as (a & b & E1 & E2 & _).
    rewrite E2. rewrite E1 at 1. rewrite !total_app. cbn. lia. }
  assert (Len : forall u, length (qset i u (q_threads s)) = length (q_threads s)).
  { intros u. destruct (qset_split i u _ _ Ei) as (a & b & E1 & E2 & _).
    rewrite E2, E1, !app_length. reflexivity. }
  destruct ph as [|o|o [r|]|o].
  - destruct pr as [|o r]; [discriminate|].
    destruct (q_writer s) eqn:Ew; [discriminate|].
    destruct (qwrites o) eqn:Eo.
    + destruct (Nat.eqb_spec (q_readers s) 0) as [Hz|]; [|discriminate]. injection E as <-.
      pose proof (Tot nwrite (QThread r (Inside o) rets)) as T1.
      pose proof (Tot nread (QThread r (Inside o) rets)) as T2.
      cbn in T1, T2. rewrite Eo in T1, T2.
      split; [constructor|]; cbn; auto.
      * lia.
      * lia.
      * rewrite Len. auto.
      * intros j t p Hj Hpj. rewrite nth_qset in Hj. destruct (Nat.eqb_spec i j) as [->|Nj].
        -- rewrite Ei in Hj. injection Hj as <-. destruct (Hc j _ p Ei Hpj) as (dn & A & B & C).
           exists dn. cbn in *. auto.
        -- exact (Hc j t p Hj Hpj).
      * intros j t o' Hj Hph. rewrite nth_qset in Hj. destruct (Nat.eqb_spec i j) as [->|Nj].
        -- rewrite Ei in Hj. injection Hj as <-. discriminate.
        -- exact (Hd j t o' Hj Hph).
      * intros j t o' Hj Hph. rewrite nth_qset in Hj. destruct (Nat.eqb_spec i j) as [->|Nj].
        -- rewrite Ei in Hj. injection Hj as <-. discriminate.
        -- exact (Hn j t o' Hj Hph).
    + injection E as <-.
      pose proof (Tot nwrite (QThread r (Inside o) rets)) as T1.
      pose proof (Tot nread (QThread r (Inside o) rets)) as T2.
      cbn in T1, T2. rewrite Eo in T1, T2.
      split; [constructor|]; cbn; auto.
      * lia.
      * lia.
      * congruence.
      * rewrite Len. auto.
      * intros j t p Hj Hpj. rewrite nth_qset in Hj. destruct (Nat.eqb_spec i j) as [->|Nj].
        -- rewrite Ei in Hj. injection Hj as <-. destruct (Hc j _ p Ei Hpj) as (dn & A & B & C).
           exists dn. cbn in *. auto.
        -- exact (Hc j t p Hj Hpj).
      * intros j t o' Hj Hph. rewrite nth_qset in Hj. destruct (Nat.eqb_spec i j) as [->|Nj].
        -- rewrite Ei in Hj. injection Hj as <-. discriminate.
        -- exact (Hd j t o' Hj Hph).
      * intros j t o' Hj Hph. rewrite nth_qset in Hj. destruct (Nat.eqb_spec i j) as [->|Nj].
        -- rewrite Ei in Hj. injection Hj as <-. discriminate.
        -- exact (Hn j t o' Hj Hph).
  - pose proof (deque_do_spec o (q_items s)) as Sp.
    destruct (deque_do o (q_items s)) as [q' r] eqn:Ed. injection E as <-. cbn in Sp.
    pose proof (Tot nwrite (QThread pr (Did o r) rets)) as T1.
    pose proof (Tot nread (QThread pr (Did o r) rets)) as T2.
    cbn in T1, T2.
    split; [constructor|]; cbn; auto.
    + destruct Sp as [(r0 & -> & D) | (-> & N & Eq & ->)].
      * eapply history_snoc_ok; eauto.
      * rewrite Eq in Hh. apply history_snoc_empty; auto.
    + lia.
    + lia.
    + rewrite Len. auto.
    + intros j t p Hj Hpj. rewrite nth_qset in Hj. rewrite calls_snoc.
      destruct (Nat.eqb_spec i j) as [->|Nj].
      * rewrite Ei in Hj. injection Hj as <-. destruct (Hc j _ p Ei Hpj) as (dn & A & B & C).
        exists dn. cbn in *. rewrite B, app_nil_r. split; [exact A|]. split; [reflexivity|].
        rewrite C, B, app_nil_r, map_app, <- app_assoc. reflexivity.
      * rewrite app_nil_r. exact (Hc j t p Hj Hpj).
    + intros j t o' Hj Hph. rewrite nth_qset in Hj. destruct (Nat.eqb_spec i j) as [->|Nj].
      * rewrite Ei in Hj. injection Hj as <-. discriminate.
      * exact (Hd j t o' Hj Hph).
    + intros j t o' Hj Hph. rewrite nth_qset in Hj. destruct (Nat.eqb_spec i j) as [->|Nj].
      * rewrite Ei in Hj. injection Hj as <-. cbn in Hph. injection Hph as -> ->.
        destruct Sp as [(r0 & K & _) | (_ & N & _)]; [discriminate|exact N].
      * exact (Hn j t o' Hj Hph).
  - pose proof (Tot nwrite (QThread pr Out (rets ++ [r]))) as T1.
    pose proof (Tot nread (QThread pr Out (rets ++ [r]))) as T2.
    assert (Hcalls : forall j t p, nth_error (qset i (QThread pr Out (rets ++ [r])) (q_threads s)) j = Some t ->
       nth_error progs j = Some p -> exists done : list (qop * qret),
      map snd done = q_rets t /\
      calls_of j (q_log s) = map (fun c => (fst c, Some (snd c))) done ++ in_hand t /\
      p = map fst (calls_of j (q_log s)) ++ to_do t).
    { intros j t p Hj Hpj. rewrite nth_qset in Hj. destruct (Nat.eqb_spec i j) as [->|Nj].
      * rewrite Ei in Hj. injection Hj as <-. destruct (Hc j _ p Ei Hpj) as (dn & A & B & C).
        exists (dn ++ [(o, r)]). cbn in *. rewrite !map_app, A, B, app_nil_r. cbn. split; [reflexivity|].
        split; [reflexivity|]. rewrite C, B. reflexivity.
      * exact (Hc j t p Hj Hpj). }
    assert (Hdd : forall j t o', nth_error (qset i (QThread pr Out (rets ++ [r])) (q_threads s)) j = Some t ->
       q_phase t = Dead o' -> needs_item o').
    { intros j t o' Hj Hph. rewrite nth_qset in Hj. destruct (Nat.eqb_spec i j) as [->|Nj].
      * rewrite Ei in Hj. injection Hj as <-. discriminate.
      * exact (Hd j t o' Hj Hph). }
    assert (Hnn : forall j t o', nth_error (qset i (QThread pr Out (rets ++ [r])) (q_threads s)) j = Some t ->
       q_phase t = Did o' None -> needs_item o').
    { intros j t o' Hj Hph. rewrite nth_qset in Hj. destruct (Nat.eqb_spec i j) as [->|Nj].
      * rewrite Ei in Hj. injection Hj as <-. discriminate.
      * exact (Hn j t o' Hj Hph). }
    pose proof (total_in nwrite _ _ _ Ei) as U1. pose proof (total_in nread _ _ _ Ei) as U2.
    cbn in T1, T2, U1, U2.
    destruct (qwrites o) eqn:Eo; injection E as <-.
    + split; [constructor|]; cbn; auto; try congruence.
      * destruct (q_writer s); lia.
      * destruct (q_writer s); lia.
    + split; [constructor|]; cbn; auto.
      * lia.
      * lia.
      * intros K. specialize (Hx K). lia.
      * rewrite Len. auto.
  - injection E as <-.
    pose proof (Tot nwrite (QThread pr (Dead o) rets)) as T1.
    pose proof (Tot nread (QThread pr (Dead o) rets)) as T2.
    cbn in T1, T2.
    split; [constructor|]; cbn; auto.
    + lia.
    + lia.
    + rewrite Len. auto.
    + intros j t p Hj Hpj. rewrite nth_qset in Hj. destruct (Nat.eqb_spec i j) as [->|Nj].
      * rewrite Ei in Hj. injection Hj as <-. destruct (Hc j _ p Ei Hpj) as (dn & A & B & C).
        exists dn. cbn in *. auto.
      * exact (Hc j t p Hj Hpj).
    + intros j t o' Hj Hph. rewrite nth_qset in Hj. destruct (Nat.eqb_spec i j) as [->|Nj].
      * rewrite Ei in Hj. injection Hj as <-. cbn in Hph. injection Hph as <-. exact (Hn j _ o Ei eq_refl).
      * exact (Hd j t o' Hj Hph).
    + intros j t o' Hj Hph. rewrite nth_qset in Hj. destruct (Nat.eqb_spec i j) as [->|Nj].
      * rewrite Ei in Hj. injection Hj as <-. discriminate.
      * exact (Hn j t o' Hj Hph).
  - discriminate.
Qed.

Lemma qgood_run progs sched : forall s s', qgood progs s ->
  (forall j t o, nth_error (q_threads s) j = Some t -> q_phase t = Did o None -> needs_item o) ->
  qrun sched s = Some s' -> qgood progs s'.
Proof.
  induction sched as [|i r IH]; cbn; intros s s' G N E.
  - injection E as <-. exact G.
  - destruct (qstep i s) as [s1|] eqn:E1; [|discriminate].
    destruct (qgood_step progs i s s1 G N E1) as (G1 & N1). eauto.
Qed.

Lemma qgood_reach progs sched s : qrun sched (qstart progs) = Some s -> qgood progs s.
Proof.
  intros E. refine (qgood_run progs sched _ s (qgood_start progs) _ E).
  intros j t o Ht Hp. cbn in Ht. rewrite nth_error_map in Ht. destruct (nth_error progs j); cbn in Ht; [|discriminate].
  injection Ht as <-. discriminate.
Qed.

(** ** No deadlock while no call fails *)

Lemma qprogress progs s : qgood progs s ->
  (forall i t o, nth_error (q_threads s) i = Some t -> q_phase t <> Dead o) ->
  (exists i t, nth_error (q_threads s) i = Some t /\ ~ (q_phase t = Out /\ q_prog t = [])) ->
  exists i s', qstep i s = Some s'.
Proof.
  intros [Hh Hw Hr Hx Hp Hc Hd] Nd (i & t & Ei & Nf).
  assert (Act : (exists j u, nth_error (q_threads s) j = Some u /\ q_phase u <> Out)
             \/ (forall j u, nth_error (q_threads s) j = Some u -> q_phase u = Out)).
  { generalize (q_threads s). intros l. induction l as [|x r IH].
    - right. intros [|j] u K; discriminate.
    - destruct (q_phase x) eqn:Ex.
      2-4: left; exists 0, x; split; [reflexivity|rewrite Ex; discriminate].
      destruct IH as [(j & u & A & B)|IH].
      + left. exists (S j), u. auto.
      + right. intros [|j] u K; cbn in K; [injection K as <-; exact Ex|exact (IH j u K)]. }
  destruct Act as [(j & u & Ej & No)|All].
  - exists j. unfold qstep. rewrite Ej. destruct (q_phase u) as [|o|o [r|]|o] eqn:Eu.
    + congruence.
    + destruct (deque_do o (q_items s)) as [q' r]. eexists. reflexivity.
    + destruct (qwrites o); eexists; reflexivity.
    + eexists. reflexivity.
    + exfalso. exact (Nd j u o Ej Eu).
  - assert (W : total nwrite (q_threads s) = 0 /\ total nread (q_threads s) = 0).
    { clear - All. revert All. generalize (q_threads s). intros l. induction l as [|x r IH]; intros All; cbn; auto.
      assert (Ex : q_phase x = Out) by (apply (All 0 x); reflexivity).
      destruct IH as (A & B); [intros j u K; exact (All (S j) u K)|].
      rewrite A, B. unfold nwrite, nread. rewrite Ex. auto. }
    destruct W as (W1 & W2). rewrite W1 in Hw. rewrite W2 in Hr.
    assert (Ew : q_writer s = false) by (destruct (q_writer s); [discriminate|reflexivity]).
    exists i. unfold qstep. rewrite Ei, (All i t Ei).
    destruct (q_prog t) as [|o r] eqn:Ep; [exfalso; apply Nf; split; [exact (All i t Ei)|reflexivity]|].
    rewrite Ew, Hr. destruct (qwrites o); cbn; eexists; reflexivity.
Qed.

(** ** After a failed call the lock stays taken *)

Definition dead_writer (s : qstate) : Prop :=
  exists i t o, nth_error (q_threads s) i = Some t /\ q_phase t = Dead o /\ qwrites o = true.

Lemma dead_blocks progs s i : qgood progs s -> dead_writer s -> qstep i s = None.
Proof.
  intros G (j & t & o & Ej & Ed & Eo). unfold qstep.
  pose proof (qg_w _ _ G) as Hw. pose proof (qg_x _ _ G) as Hx. pose proof (qg_r _ _ G) as Hr.
  assert (Nt : nwrite t = 1) by (unfold nwrite; rewrite Ed; cbn; rewrite Eo; reflexivity).
  pose proof (total_in nwrite _ _ _ Ej) as L.
  assert (Ew : q_writer s = true) by (destruct (q_writer s); [reflexivity|lia]).
  rewrite Ew in *. specialize (Hx eq_refl). rewrite Hx in Hr.
  destruct (nth_error (q_threads s) i) as [u|] eqn:Ei; [|reflexivity].
  destruct (Nat.eq_dec i j) as [->|Nij].
  - rewrite Ei in Ej. injection Ej as ->. rewrite Ed. reflexivity.
  - pose proof (total_two nwrite _ _ _ _ _ Ei Ej Nij) as L2.
    pose proof (total_in nread _ _ _ Ei) as L3.
    assert (Hu : holds_lock (q_phase u) = None).
    { unfold nwrite, nread in *. destruct (holds_lock (q_phase u)) as [[|]|]; try reflexivity; exfalso; lia. }
    destruct (q_phase u) as [|o'|o' r|o']; cbn in Hu; try discriminate.
    destruct (q_prog u); reflexivity.
Qed.
