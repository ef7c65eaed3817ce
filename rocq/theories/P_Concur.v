(** Proofs about the goroutines of M_Concur. *)
From Coq Require Import Permutation.
From Verif Require Import M_Base M_Rng M_Node M_ConstDP M_Concur.
Open Scope nat_scope.
Arguments Nat.ltb : simpl never.

(** ** Chunks *)

Lemma chunks_concat {A} size : 0 < size -> forall fuel (l : list A), length l <= fuel ->
  concat (chunks_of size fuel l) = l.
Proof.
  intros Hs fuel. induction fuel as [|f IH]; intros l Hl.
  - destruct l; [reflexivity|cbn in Hl; lia].
  - destruct l as [|x r]; [reflexivity|].
    change (chunks_of size (S f) (x :: r))
      with (firstn size (x :: r) :: chunks_of size f (skipn size (x :: r))).
    change (concat (firstn size (x :: r) :: chunks_of size f (skipn size (x :: r))))
      with (firstn size (x :: r) ++ concat (chunks_of size f (skipn size (x :: r)))).
    rewrite IH; [apply firstn_skipn|].
    rewrite skipn_length. cbn [length] in *. lia.
Qed.

Lemma chunk_tasks_concat {A} (l : list A) k : concat (chunk_tasks l k) = l.
Proof.
  unfold chunk_tasks. apply chunks_concat; [|lia].
  destruct (Nat.eqb_spec (length l / k) 0); lia.
Qed.

Lemma chunks_nonempty {A} size : 0 < size -> forall fuel (l : list A), Forall (fun c => c <> [] /\ length c <= size) (chunks_of size fuel l).
Proof.
  intros Hs fuel. induction fuel as [|f IH]; intros l.
  - destruct l; constructor.
  - destruct l as [|x r]; [constructor|]. cbn [chunks_of]. constructor; [|apply IH].
    destruct size; [lia|]. split; [cbn; congruence|]. rewrite firstn_length. lia.
Qed.

(** ** set_nth *)

Lemma set_nth_split {A} i (x y : A) l : nth_error l i = Some y ->
  exists a b, l = a ++ y :: b /\ set_nth i x l = a ++ x :: b.
Proof.
  revert i. induction l as [|z r IH]; intros [|i] H; cbn in *; try discriminate.
  - injection H as ->. exists [], r. split; reflexivity.
  - destruct (IH i H) as (a & b & -> & E). exists (z :: a), b. cbn. rewrite E. split; reflexivity.
Qed.

Lemma nth_error_mid {A} (a : list A) x b : nth_error (a ++ x :: b) (length a) = Some x.
Proof. rewrite nth_error_app2, Nat.sub_diag by lia. reflexivity. Qed.

Fixpoint sumn (l : list nat) : nat := match l with [] => 0 | x :: r => x + sumn r end.
Lemma sum_app (a b : list nat) : sumn (a ++ b) = sumn a + sumn b.
Proof. induction a as [|x r IH]; cbn; [reflexivity|lia]. Qed.

(** ** The pool *)

Section Pool.
  Variables A B : Type.
  Variable work : A -> list B.
  Variable cap : nat.
  Hypothesis Hcap : 0 < cap.

  Notation pool := (pool A B).
  Notation pool_step := (pool_step A B work cap).
  Notation pool_run := (pool_run A B work cap).

  Definition wout (w : worker A B) : list B :=
    match w with Running ts s => s ++ flat_map work ts | Stopped => [] end.
  Definition alive (w : worker A B) : nat := match w with Running _ _ => 1 | Stopped => 0 end.

  (** Everything received, buffered, to be sent or to be computed. *)
  Definition outputs (s : pool) : list B :=
    p_got _ _ s ++ p_chan _ _ s ++ flat_map wout (p_workers _ _ s)
      ++ flat_map work (concat (p_waiting _ _ s)).

  Record good (all : list B) (s : pool) : Prop := {
    g_out : Permutation (outputs s) all;
    g_wg : p_wg _ _ s = length (p_waiting _ _ s) + sumn (map alive (p_workers _ _ s));
    g_closed : p_closed _ _ s = true -> p_wg _ _ s = 0;
    g_done : p_done _ _ s = true -> p_closed _ _ s = true /\ p_chan _ _ s = [];
    g_room : length (p_chan _ _ s) <= cap;
    g_panic : p_panic _ _ s = false
  }.

  Definition tcost (t : A) : nat := 1 + 2 * length (work t).
  Definition wcost (w : worker A B) : nat :=
    match w with
    | Running ts s => 1 + 2 * length s + sumn (map tcost ts)
    | Stopped => 0
    end.
  Definition ccost (c : list A) : nat := 2 + sumn (map tcost c).
  Definition flag (b : bool) : nat := if b then 0 else 1.

  (** The number of steps left. *)
  Definition left (s : pool) : nat :=
    sumn (map ccost (p_waiting _ _ s)) + sumn (map wcost (p_workers _ _ s))
    + length (p_chan _ _ s) + flag (p_closed _ _ s) + flag (p_done _ _ s).

  Lemma good_start chunks : good (flat_map work (concat chunks)) (pool_start A B chunks).
  Proof.
    constructor; cbn; try congruence; try lia. unfold outputs. cbn. apply Permutation_refl.
  Qed.

  Lemma no_alive ws : sumn (map alive ws) = 0 -> Forall (fun w => w = Stopped) ws.
  Proof.
    induction ws as [|w r IH]; intros H; [constructor|]; constructor; cbn in H.
    - destruct w; [cbn in H; lia|reflexivity].
    - apply IH. lia.
  Qed.
  Lemma stopped_out ws : Forall (fun w => w = Stopped) ws -> flat_map wout ws = [].
  Proof. induction 1 as [|w r -> _ IH]; cbn; congruence. Qed.
  Lemma stopped_cost ws : Forall (fun w => w = Stopped) ws -> sumn (map wcost ws) = 0.
  Proof. induction 1 as [|w r -> _ IH]; cbn; congruence. Qed.

  Lemma good_step all c s s' : good all s -> pool_step c s = Some s' -> good all s' /\ left s = S (left s').
  Proof.
    intros [Ho Hw Hc Hd Hr Hp] E. unfold M_Concur.pool_step in E. rewrite Hp in E.
    destruct s as [wt ws wg ch cl got dn pn]. cbn in *. subst pn.
    destruct c as [|i| | |].
    - destruct wt as [|c r]; [discriminate|]. injection E as <-. split.
      + constructor; cbn in *; auto; try lia.
        * unfold outputs in *. cbn in *. eapply Permutation_trans; [|exact Ho].
          rewrite !flat_map_app. cbn. rewrite app_nil_r, !app_assoc. apply Permutation_refl.
        * rewrite map_app, sum_app. cbn. lia.
      + unfold left. cbn. rewrite map_app, sum_app. cbn. unfold ccost. lia.
    - unfold worker_step in E. cbn in E.
      destruct (nth_error ws i) as [[ts [|v r]|]|] eqn:Ei; try discriminate.
      + destruct ts as [|t ts].
        * destruct (set_nth_split i Stopped _ _ Ei) as (a & b & -> & Es). rewrite Es in E.
          assert (P : 0 < wg) by (rewrite map_app, sum_app in Hw; cbn in Hw; lia).
          injection E as <-. split.
          -- constructor; cbn in *; auto; try lia.
             ++ unfold outputs in *. cbn in *. rewrite flat_map_app in *. exact Ho.
             ++ rewrite map_app, sum_app in *. cbn in *. lia.
             ++ intros K. specialize (Hc K). lia.
             ++ destruct (Nat.eqb_spec wg 0); [lia|reflexivity].
          -- unfold left. cbn. rewrite !map_app, !sum_app. cbn. lia.
        * destruct (set_nth_split i (Running ts (work t)) _ _ Ei) as (a & b & -> & Es). rewrite Es in E.
          injection E as <-. split.
          -- constructor; cbn in *; auto; try lia.
             ++ unfold outputs in *. cbn in *. rewrite flat_map_app in *. cbn in *. exact Ho.
             ++ rewrite map_app, sum_app in *. cbn in *. lia.
          -- unfold left. cbn. rewrite !map_app, !sum_app. cbn. unfold tcost. lia.
      + assert (P : 0 < wg).
        { destruct (set_nth_split i Stopped _ _ Ei) as (a & b & -> & _).
          rewrite map_app, sum_app in Hw. cbn in Hw. lia. }
        destruct cl; [specialize (Hc eq_refl); lia|].
        assert (E2 : (if length ch <? cap then Some (Pool _ _ wt (set_nth i (Running ts r) ws) wg (ch ++ [v])
                       false got dn false) else None) = Some s') by (destruct ts; exact E).
        clear E. rename E2 into E.
        destruct (Nat.ltb_spec (length ch) cap) as [Hl|]; [|discriminate].
        destruct (set_nth_split i (Running ts r) _ _ Ei) as (a & b & -> & Es). rewrite Es in E.
        injection E as <-. split.
        * constructor; cbn in *; auto; try lia.
          -- unfold outputs in *. cbn in *. rewrite flat_map_app in *. cbn in *.
             eapply Permutation_trans; [|exact Ho].
             apply Permutation_app_head.
             rewrite <- !app_assoc. cbn [app]. rewrite <- !app_assoc. apply Permutation_app_head.
             apply Permutation_middle.
          -- rewrite map_app, sum_app in *. cbn in *. lia.
          -- intros Hdn. destruct (Hd Hdn). discriminate.
          -- rewrite app_length. cbn. lia.
        * unfold left. cbn. rewrite !map_app, !sum_app, app_length. cbn. lia.
    - destruct (Nat.eqb_spec wg 0) as [Hz|]; [|discriminate].
      destruct cl; [discriminate|]. cbn in E. injection E as <-. split.
      + constructor; cbn in *; auto; try lia.
        intros Hdn. destruct (Hd Hdn). discriminate.
      + unfold left. cbn. lia.
    - destruct dn; [discriminate|]. destruct ch as [|v r]; [discriminate|].
      injection E as <-. split.
      + constructor; cbn in *; auto; try lia; try congruence.
        unfold outputs in *. cbn in *. rewrite <- app_assoc. exact Ho.
      + unfold left. cbn. lia.
    - destruct dn; [discriminate|]. destruct ch as [|v r]; [|discriminate].
      destruct cl; [|discriminate]. injection E as <-. split.
      + constructor; cbn in *; auto.
      + unfold left. cbn. lia.
  Qed.

  Lemma good_run all sched : forall s s', good all s -> pool_run sched s = Some s' ->
    good all s' /\ left s = length sched + left s'.
  Proof.
    induction sched as [|c r IH]; cbn [M_Concur.ipool_run M_Concur.pool_run length]; intros s s' G E.
    - injection E as <-. split; [exact G|lia].
    - destruct (pool_step c s) as [s1|] eqn:E1; [|discriminate].
      destruct (good_step all c s s1 G E1) as (G1 & L1).
      destruct (IH s1 s' G1 E) as (G2 & L2). split; [exact G2|lia].
  Qed.

  Lemma good_final all s : good all s -> p_done _ _ s = true ->
    Permutation (p_got _ _ s) all /\ left s = 0.
  Proof.
    intros [Ho Hw Hc Hd Hr Hp] Hdn. destruct (Hd Hdn) as (Hcl & Hch).
    specialize (Hc Hcl). rewrite Hc in Hw.
    assert (Hwt : p_waiting _ _ s = []).
    { destruct (p_waiting _ _ s); [reflexivity|cbn in Hw; lia]. }
    rewrite Hwt in *. cbn in Hw. symmetry in Hw. apply no_alive in Hw.
    unfold outputs in Ho. rewrite Hch, Hwt, (stopped_out _ Hw) in Ho. cbn in Ho. rewrite app_nil_r in Ho.
    split; [exact Ho|]. unfold left. rewrite Hwt, Hcl, Hdn, Hch, (stopped_cost _ Hw). reflexivity.
  Qed.

  Lemma alive_find ws : sumn (map alive ws) <> 0 -> exists i ts s, nth_error ws i = Some (Running ts s).
  Proof.
    induction ws as [|w r IH]; cbn; intros H; [lia|].
    destruct w as [ts s|]; [exists 0, ts, s; reflexivity|].
    destruct IH as (i & ts & s & E); [cbn in H; lia|]. exists (S i), ts, s. exact E.
  Qed.

  Lemma good_progress all s : good all s -> p_done _ _ s = false -> exists c s', pool_step c s = Some s'.
  Proof.
    intros [Ho Hw Hc Hd Hr Hp] Hdn.
    destruct (p_chan _ _ s) as [|v r] eqn:Ech.
    2: { exists Recv. unfold M_Concur.pool_step. rewrite Hp, Hdn, Ech. eauto. }
    destruct (p_waiting _ _ s) as [|c r] eqn:Ewt.
    2: { exists Launch. unfold M_Concur.pool_step. rewrite Hp, Ewt. eauto. }
    destruct (Nat.eq_dec (sumn (map alive (p_workers _ _ s))) 0) as [Hz|Hz].
    - cbn in Hw. rewrite Hz in Hw. destruct (p_closed _ _ s) eqn:Ecl.
      + exists Leave. unfold M_Concur.pool_step. rewrite Hp, Hdn, Ech, Ecl. eauto.
      + exists CloseOut. unfold M_Concur.pool_step. rewrite Hp, Ecl, Hw. cbn. eauto.
    - destruct (alive_find _ Hz) as (i & ts & snd & Ei).
      assert (Hcl : p_closed _ _ s = false).
      { destruct (p_closed _ _ s); [|reflexivity]. specialize (Hc eq_refl). cbn in Hw. lia. }
      exists (Step i). unfold M_Concur.pool_step, worker_step. rewrite Hp, Ei.
      destruct snd as [|v r], ts; try (eexists; reflexivity); rewrite Hcl, Ech; cbn [length];
        (destruct (Nat.ltb_spec 0 cap); [eexists; reflexivity|lia]).
  Qed.
End Pool.

(** ** The instances *)

Section Instances.
  Variables A B : Type.
  Variable work : A -> B.
  Variable procs : nat.
  Hypothesis Hprocs : 0 < procs.

  Notation ipool := (ipool A B).
  Notation ipool_step := (ipool_step A B work procs).
  Notation ipool_run := (ipool_run A B work procs).

  Definition wbusy (w : iworker A) : list A := match w with Busy a => [a] | _ => [] end.
  Definition wsend (w : iworker A) : list A := match w with Sending a => [a] | _ => [] end.
  Definition ialive (w : iworker A) : nat := match w with Finished => 0 | _ => 1 end.
  Definition iwcost (w : iworker A) : nat :=
    match w with Idle => 1 | Busy _ => 4 | Sending _ => 3 | Finished => 0 end.

  Record igood (all : list A) (s : ipool) : Prop := {
    ig_log : Forall (fun p => snd p = work (fst p)) (i_log _ _ s);
    ig_todo : Permutation (map fst (i_log _ _ s) ++ flat_map wbusy (i_workers _ _ s) ++ i_todo _ _ s) all;
    ig_out : Permutation (i_got _ _ s ++ i_chan _ _ s ++ flat_map wsend (i_workers _ _ s)) (map fst (i_log _ _ s));
    ig_wg : i_wg _ _ s = i_tostart _ _ s + sumn (map ialive (i_workers _ _ s));
    ig_some : procs = i_tostart _ _ s + length (i_workers _ _ s);
    ig_closed : i_closed _ _ s = true -> i_todo _ _ s = [];
    ig_fin : In Finished (i_workers _ _ s) -> i_closed _ _ s = true;
    ig_oclosed : i_outclosed _ _ s = true -> i_wg _ _ s = 0;
    ig_done : i_done _ _ s = true -> i_outclosed _ _ s = true /\ i_chan _ _ s = [];
    ig_panic : i_panic _ _ s = false
  }.

  Definition ileft (s : ipool) : nat :=
    4 * length (i_todo _ _ s) + 2 * i_tostart _ _ s + sumn (map iwcost (i_workers _ _ s))
    + length (i_chan _ _ s) + flag (i_closed _ _ s) + flag (i_outclosed _ _ s) + flag (i_done _ _ s).

  Lemma igood_start selfs : igood selfs (ipool_start A B procs selfs).
  Proof. constructor; cbn; try congruence; try lia; auto. Qed.

  Lemma ino_alive ws : sumn (map ialive ws) = 0 -> Forall (fun w => w = Finished) ws.
  Proof.
    induction ws as [|w r IH]; intros H; [constructor|]; constructor; cbn in H.
    - destruct w; cbn in H; try lia. reflexivity.
    - apply IH. lia.
  Qed.
  Lemma fin_none ws : Forall (fun w => w = Finished) ws ->
    flat_map wbusy ws = [] /\ flat_map wsend ws = [] /\ sumn (map iwcost ws) = 0.
  Proof. induction 1 as [|w r -> _ (IH1 & IH2 & IH3)]; cbn; auto. Qed.

  Lemma ialive_mid a w b : ialive w = 1 -> 0 < sumn (map ialive (a ++ w :: b)).
  Proof. intros H. rewrite map_app, sum_app. cbn. lia. Qed.

  Lemma igood_step all c s s' : igood all s -> ipool_step c s = Some s' ->
    igood all s' /\ ileft s = S (ileft s').
  Proof.
    intros [Hl Ht Ho Hw Hs Hc Hf Hoc Hd Hp] E. unfold M_Concur.ipool_step in E. rewrite Hp in E.
    destruct s as [td cl ts ws lg wg ch oc got dn pn]. cbn in *. subst pn.
    destruct c as [|i| |i| | |].
    - destruct ts as [|k]; [discriminate|]. injection E as <-. split.
      + constructor; cbn in *; auto; try lia.
        * rewrite flat_map_app. cbn. rewrite app_nil_r. exact Ht.
        * rewrite flat_map_app. cbn. rewrite app_nil_r. exact Ho.
        * rewrite map_app, sum_app. cbn. lia.
        * rewrite app_length. cbn. lia.
        * intros K. apply in_app_iff in K. destruct K as [K|[K|[]]]; [auto|discriminate].
      + unfold ileft. cbn. rewrite map_app, sum_app. cbn. lia.
    - destruct td as [|x r]; [discriminate|].
      destruct (nth_error ws i) as [[| | |]|] eqn:Ei; try discriminate.
      destruct (set_nth_split i (Busy x) _ _ Ei) as (a & b & -> & Es). rewrite Es in E.
      injection E as <-. split.
      + constructor; cbn in *; auto; try lia.
        * eapply Permutation_trans; [|exact Ht]. rewrite !flat_map_app. cbn.
          apply Permutation_app_head. rewrite <- !app_assoc. apply Permutation_app_head. cbn.
          apply Permutation_middle.
        * rewrite flat_map_app in *. exact Ho.
        * rewrite map_app, sum_app in *. cbn in *. lia.
        * rewrite app_length in *. cbn in *. lia.
        * intros K. specialize (Hc K). discriminate.
        * intros K. apply Hf. apply in_app_iff in K. apply in_app_iff.
          destruct K as [K|[K|K]]; [auto|discriminate|right; right; auto].
      + unfold ileft. cbn. rewrite !map_app, !sum_app. cbn. lia.
    - destruct td as [|x r]; [|discriminate]. destruct cl; [discriminate|]. injection E as <-. split.
      + constructor; cbn in *; auto.
      + unfold ileft. cbn. lia.
    - unfold iact in E. cbn in E. destruct (nth_error ws i) as [[|x|x|]|] eqn:Ei; try discriminate.
      + destruct cl; [|discriminate].
        destruct (set_nth_split i Finished _ _ Ei) as (a & b & -> & Es). rewrite Es in E.
        pose proof (ialive_mid a Idle b eq_refl) as P.
        injection E as <-. split.
        * constructor; cbn in *; auto; try lia.
          -- rewrite flat_map_app in *. exact Ht.
          -- rewrite flat_map_app in *. exact Ho.
          -- rewrite map_app, sum_app in *. cbn in *. lia.
          -- rewrite app_length in *. cbn in *. lia.
          -- intros K. specialize (Hoc K). lia.
          -- destruct (Nat.eqb_spec wg 0); [lia|reflexivity].
        * unfold ileft. cbn. rewrite !map_app, !sum_app. cbn. lia.
      + destruct (set_nth_split i (Sending x) _ _ Ei) as (a & b & -> & Es). rewrite Es in E.
        injection E as <-. split.
        * constructor; cbn in *; auto; try lia.
          -- apply Forall_app. auto.
          -- eapply Permutation_trans; [|exact Ht]. rewrite map_app, !flat_map_app. cbn.
             rewrite <- !app_assoc. apply Permutation_app_head. cbn. apply Permutation_middle.
          -- rewrite map_app. cbn. eapply Permutation_trans; [|apply Permutation_app_tail; exact Ho].
             rewrite !flat_map_app. cbn. rewrite <- !app_assoc. do 2 apply Permutation_app_head. 
             apply Permutation_app_head. apply Permutation_cons_append.
          -- rewrite map_app, sum_app in *. cbn in *. lia.
          -- rewrite app_length in *. cbn in *. lia.
          -- intros K. apply Hf. apply in_app_iff in K. apply in_app_iff.
             destruct K as [K|[K|K]]; [auto|discriminate|right; right; auto].
        * unfold ileft. cbn. rewrite !map_app, !sum_app. cbn. lia.
      + assert (P : oc = false).
        { destruct oc; [|reflexivity]. specialize (Hoc eq_refl).
          destruct (set_nth_split i Finished _ _ Ei) as (a & b & -> & _).
          pose proof (ialive_mid a (Sending x) b eq_refl). lia. }
        subst oc. match type of E with (if ?b then _ else _) = _ => destruct b; [|discriminate] end.
        destruct (set_nth_split i Idle _ _ Ei) as (a & b & -> & Es). rewrite Es in E.
        injection E as <-. split.
        * constructor; cbn in *; auto; try lia.
          -- rewrite flat_map_app in *. exact Ht.
          -- eapply Permutation_trans; [|exact Ho].
             rewrite !flat_map_app. cbn. rewrite <- !app_assoc. do 2 apply Permutation_app_head. cbn.
             apply Permutation_middle.
          -- rewrite map_app, sum_app in *. cbn in *. lia.
          -- rewrite app_length in *. cbn in *. lia.
          -- intros K. apply Hf. apply in_app_iff in K. apply in_app_iff.
             destruct K as [K|[K|K]]; [auto|discriminate|right; right; auto].
          -- intros K. destruct (Hd K). discriminate.
        * unfold ileft. cbn. rewrite !map_app, !sum_app, app_length. cbn. lia.
    - destruct (Nat.eqb_spec wg 0) as [Hz|]; [|discriminate].
      destruct oc; [discriminate|]. cbn in E. injection E as <-. split.
      + constructor; cbn in *; auto. intros K. destruct (Hd K). discriminate.
      + unfold ileft. cbn. lia.
    - destruct dn; [discriminate|]. destruct ch as [|v r]; [discriminate|]. injection E as <-. split.
      + constructor; cbn in *; auto; try congruence. rewrite <- app_assoc. exact Ho.
      + unfold ileft. cbn. lia.
    - destruct dn; [discriminate|]. destruct ch as [|v r]; [|discriminate].
      destruct oc; [|discriminate]. injection E as <-. split.
      + constructor; cbn in *; auto.
      + unfold ileft. cbn. lia.
  Qed.

  Lemma igood_run all sched : forall s s', igood all s -> ipool_run sched s = Some s' ->
    igood all s' /\ ileft s = length sched + ileft s'.
  Proof.
    induction sched as [|c r IH]; cbn [M_Concur.ipool_run M_Concur.pool_run length]; intros s s' G E.
    - injection E as <-. split; [exact G|lia].
    - destruct (ipool_step c s) as [s1|] eqn:E1; [|discriminate].
      destruct (igood_step all c s s1 G E1) as (G1 & L1).
      destruct (IH s1 s' G1 E) as (G2 & L2). split; [exact G2|lia].
  Qed.

  Lemma igood_final all s : igood all s -> i_done _ _ s = true ->
    Permutation (map fst (i_log _ _ s)) all /\ Permutation (i_got _ _ s) all /\ ileft s = 0.
  Proof.
    intros [Hl Ht Ho Hw Hs Hc Hf Hoc Hd Hp] Hdn. destruct (Hd Hdn) as (Hcl & Hch).
    specialize (Hoc Hcl). rewrite Hoc in Hw.
    assert (Hz : sumn (map ialive (i_workers _ _ s)) = 0) by lia.
    assert (Hts : i_tostart _ _ s = 0) by lia.
    apply ino_alive in Hz. destruct (fin_none _ Hz) as (F1 & F2 & F3).
    assert (Hsc : i_closed _ _ s = true).
    { apply Hf. destruct (i_workers _ _ s) as [|w r]; [cbn in Hs; lia|].
      inversion Hz; subst. left. reflexivity. }
    specialize (Hc Hsc). rewrite F1, Hc in Ht. rewrite F2, Hch in Ho. cbn in Ht, Ho.
    rewrite app_nil_r in Ht, Ho. repeat split.
    - exact Ht.
    - eapply Permutation_trans; [exact Ho|exact Ht].
    - unfold ileft. rewrite Hc, Hts, F3, Hch, Hsc, Hcl, Hdn. reflexivity.
  Qed.

  Lemma ialive_find ws : sumn (map ialive ws) <> 0 -> exists i w, nth_error ws i = Some w /\ w <> Finished.
  Proof.
    induction ws as [|w r IH]; cbn; intros H; [lia|].
    destruct w as [|x|x|]; try (exists 0; eexists; split; [reflexivity|discriminate]).
    destruct IH as (i & w & E & N); [cbn in H; lia|]. exists (S i), w. auto.
  Qed.

  Lemma igood_progress all s : igood all s -> i_done _ _ s = false -> exists c s', ipool_step c s = Some s'.
  Proof.
    intros [Hl Ht Ho Hw Hs Hc Hf Hoc Hd Hp] Hdn.
    destruct (i_chan _ _ s) as [|v r] eqn:Ech.
    2: { exists RecvI. unfold M_Concur.ipool_step. rewrite Hp, Hdn, Ech. eauto. }
    destruct (i_tostart _ _ s) as [|k] eqn:Ets.
    2: { exists Spawn. unfold M_Concur.ipool_step. rewrite Hp, Ets. eauto. }
    destruct (Nat.eq_dec (sumn (map ialive (i_workers _ _ s))) 0) as [Hz|Hz].
    - cbn in Hw. rewrite Hz in Hw. destruct (i_outclosed _ _ s) eqn:Ecl.
      + exists LeaveI. unfold M_Concur.ipool_step. rewrite Hp, Hdn, Ech, Ecl. eauto.
      + exists CloseOutI. unfold M_Concur.ipool_step. rewrite Hp, Ecl, Hw. cbn. eauto.
    - destruct (ialive_find _ Hz) as (i & w & Ei & Nf).
      assert (Hcl : i_outclosed _ _ s = false).
      { destruct (i_outclosed _ _ s); [|reflexivity]. specialize (Hoc eq_refl). lia. }
      destruct w as [|x|x|]; [| | |congruence].
      + destruct (i_todo _ _ s) as [|x r] eqn:Etd.
        * destruct (i_closed _ _ s) eqn:Esc.
          -- exists (Act i). unfold M_Concur.ipool_step, iact. rewrite Hp, Ei, Esc. eauto.
          -- exists CloseStream. unfold M_Concur.ipool_step. rewrite Hp, Etd, Esc. eauto.
        * exists (Hand i). unfold M_Concur.ipool_step. rewrite Hp, Etd, Ei. eauto.
      + exists (Act i). unfold M_Concur.ipool_step, iact. rewrite Hp, Ei. eauto.
      + exists (Act i). unfold M_Concur.ipool_step, iact. rewrite Hp, Ei, Hcl, Ech. cbn. unfold icap.
        destruct (Nat.ltb_spec 0 (procs + (procs + 0))); [eauto|lia].
  Qed.
End Instances.
