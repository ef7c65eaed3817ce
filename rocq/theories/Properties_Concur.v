(** C36 to C38: goroutines and the shared queue, under every schedule. *)
From Coq Require Import Permutation.
From Verif Require Import M_Base M_Float M_Rng M_Geom M_Offset M_Node M_Decompose M_Split M_Hdb M_Knn
  M_Lnr M_Relate M_Deform M_Constrain M_ConstDP P_HdbHist Toy Toy_Box Properties_ConstDP
  M_Concur P_Concur M_Queue Spec_Queue P_Queue.
Open Scope nat_scope.

(** ** C36: parallel hull checking *)

(** What the worker sends for one hull. *)
Definition sent (W : world) (env : Z -> cdp) (dirty : Z -> bool) (db : hdb) (h : node) : list node :=
  get [] (check_hull W env dirty db h).
(** findDeformableNodes under a schedule: ConcurProcs chunks, a channel of twice that size. *)
Definition check_in_parallel (W : world) (env : Z -> cdp) (dirty : Z -> bool) (db : hdb) (hulls : list node)
    (sched : list choice) : option (pool node node) :=
  pool_run node node (sent W env dirty db) (2 * concur_procs) sched
    (pool_start node node (chunk_tasks hulls concur_procs)).

Lemma mapM_map {A B} (f : A -> res B) (g : A -> B) l ys :
  mapM f l = Ok ys -> (forall x y, f x = Ok y -> g x = y) -> map g l = ys.
Proof.
  intros H G. revert ys H. induction l as [|x r IH]; cbn; intros ys H.
  - injection H as <-. reflexivity.
  - destruct (f x) as [y| |] eqn:E; cbn in H; try discriminate.
    destruct (mapM f r) as [zs| |] eqn:E2; cbn in H; try discriminate.
    injection H as <-. rewrite (G x y E), (IH zs eq_refl). reflexivity.
Qed.

Lemma dedup_same l id : In id (map n_id (dedup_ids l)) <-> In id (map n_id l).
Proof.
  induction l as [|h r IH]; cbn; [tauto|].
  rewrite <- IH. split.
  - intros [E|K]; [auto|]. right. apply in_map_iff in K. destruct K as (x & <- & Kx).
    apply filter_In in Kx. apply in_map. tauto.
  - intros [E|K]; [auto|]. destruct (Z.eq_dec (n_id h) id) as [E|N]; [auto|right].
    apply in_map_iff in K. destruct K as (x & <- & Kx). apply in_map. apply filter_In. split; [exact Kx|].
    destruct (Z.eqb_spec (n_id x) (n_id h)); [congruence|reflexivity].
Qed.

(** Every schedule that reaches the end collects the hulls the sequential check finds, and
    no schedule panics on the way. *)
Theorem C36_every_schedule_collects_the_same :
  forall W env dirty db hulls found sched s,
    find_deformable W env dirty hulls db = Ok found ->
    check_in_parallel W env dirty db hulls sched = Some s ->
    p_panic _ _ s = false /\
    (p_done _ _ s = true -> forall id, In id (map n_id (p_got _ _ s)) <-> In id (map n_id found)).
Proof.
  intros W env dirty db hulls found sched s Hf Hrun. unfold check_in_parallel in Hrun.
  assert (Hcap : 0 < 2 * concur_procs) by (unfold concur_procs; lia).
  pose proof (good_start node node (sent W env dirty db) (2 * concur_procs) Hcap (chunk_tasks hulls concur_procs)) as G0.
  destruct (good_run _ _ _ _ Hcap _ _ _ _ G0 Hrun) as (G & _).
  split; [exact (g_panic _ _ _ _ _ _ G)|]. intros Hd.
  destruct (good_final _ _ _ _ Hcap _ _ G Hd) as (P & _).
  rewrite chunk_tasks_concat in P. intros id.
  unfold find_deformable in Hf. destruct (mapM (check_hull W env dirty db) hulls) as [sels| |] eqn:Em; cbn in Hf; try discriminate.
  injection Hf as <-. rewrite dedup_same.
  assert (E : flat_map (sent W env dirty db) hulls = concat sels).
  { rewrite flat_map_concat_map. f_equal.
    apply (mapM_map _ _ _ _ Em). intros x y Exy. unfold sent. rewrite Exy. reflexivity. }
  rewrite E in P. split; intros K; eapply Permutation_in; try exact K; apply Permutation_map; [exact P|].
  apply Permutation_sym. exact P.
Qed.
Print Assumptions C36_every_schedule_collects_the_same.

(** No deadlock and no infinite schedule: before the end some step is always possible, and all
    schedules that reach the end have the same length, which no schedule exceeds. *)
Theorem C36_parallel_check_completes :
  forall W env dirty db hulls, exists total, forall sched s,
    check_in_parallel W env dirty db hulls sched = Some s ->
    length sched <= total /\
    (length sched = total <-> p_done _ _ s = true) /\
    (p_done _ _ s = false -> exists c s', check_in_parallel W env dirty db hulls (sched ++ [c]) = Some s').
Proof.
  intros W env dirty db hulls. set (work := sent W env dirty db).
  assert (Hcap : 0 < 2 * concur_procs) by (unfold concur_procs; lia).
  set (s0 := pool_start node node (chunk_tasks hulls concur_procs)).
  exists (left node node work s0). intros sched s Hrun. unfold check_in_parallel in *. fold work s0 in Hrun |- *.
  pose proof (good_start node node work (2 * concur_procs) Hcap (chunk_tasks hulls concur_procs)) as G0.
  fold s0 in G0. destruct (good_run _ _ _ _ Hcap _ _ _ _ G0 Hrun) as (G & L).
  assert (App : forall c, pool_run node node work (2 * concur_procs) (sched ++ [c]) s0
                          = pool_step node node work (2 * concur_procs) c s).
  { intros c. clear - Hrun. revert Hrun. generalize s0. induction sched as [|d r IH]; cbn [pool_run app]; intros z Hz.
    - injection Hz as ->. destruct (pool_step node node work (2 * concur_procs) c s); reflexivity.
    - destruct (pool_step node node work (2 * concur_procs) d z) as [z1|]; [|discriminate]. apply IH. exact Hz. }
  assert (Prog : p_done _ _ s = false -> exists c s', pool_step node node work (2 * concur_procs) c s = Some s').
  { exact (good_progress _ _ _ _ Hcap _ _ G). }
  split; [lia|]. split; [split|].
  - intros E. destruct (p_done _ _ s) eqn:Ed; [reflexivity|]. destruct (Prog eq_refl) as (c & s' & Ec).
    destruct (good_step _ _ _ _ Hcap _ _ _ _ G Ec) as (_ & L2). lia.
  - intros Ed. destruct (good_final _ _ _ _ Hcap _ _ G Ed) as (_ & Z). lia.
  - intros Ed. destruct (Prog Ed) as (c & s' & Ec). exists c, s'. rewrite App. exact Ec.
Qed.
Print Assumptions C36_parallel_check_completes.

(** A scheduler that takes the first possible choice of a list, over and over. *)
Fixpoint first_choice {C S} (step : C -> S -> option S) (cs : list C) (s : S) : option (C * S) :=
  match cs with
  | [] => None
  | c :: r => match step c s with Some s' => Some (c, s') | None => first_choice step r s end
  end.
Fixpoint greedy {C S} (step : C -> S -> option S) (cs : list C) (fuel : nat) (s : S) : list C :=
  match fuel with
  | O => []
  | S f => match first_choice step cs s with Some (c, s') => c :: greedy step cs f s' | None => [] end
  end.

Definition zig_hulls : list node :=
  [create_node toy 100 (sub_coords zig (Rng 0 2)) (Rng 0 2) 7; create_node toy 101 (sub_coords zig (Rng 2 4)) (Rng 2 4) 7;
   create_node toy 102 (sub_coords zig (Rng 0 4)) (Rng 0 4) 7].
Definition zig_hdb : hdb := Eval vm_compute in get new_hdb_default (load plain_oracle new_hdb_default zig_hulls).
Definition eager : list choice := [Recv; Step 0; Step 1; Step 2; Launch; CloseOut; Leave].
Definition lazy : list choice := [Launch; Step 2; Step 1; Step 0; CloseOut; Recv; Leave].
Definition zig_sched (cs : list choice) : list choice :=
  greedy (pool_step node node (sent exW (fun _ => zig_dp) (fun _ => true) zig_hdb) (2 * concur_procs)) cs 100
    (pool_start node node (chunk_tasks zig_hulls concur_procs)).
Example C36_case :
  exists found, find_deformable exW (fun _ => zig_dp) (fun _ => true) zig_hulls zig_hdb = Ok found /\
    map n_id found = [100; 102]%Z /\
    Forall (fun cs => exists s,
      check_in_parallel exW (fun _ => zig_dp) (fun _ => true) zig_hdb zig_hulls (zig_sched cs) = Some s /\
      p_done _ _ s = true /\ length (p_got _ _ s) >= 2) [eager; lazy] /\
    zig_sched eager <> zig_sched lazy.
Proof.
  eexists. split; [vm_compute; reflexivity|]. split; [vm_compute; reflexivity|]. split.
  - constructor; [|constructor; [|constructor]]; (eexists; split; [vm_compute; reflexivity|]);
      (split; [vm_compute; reflexivity|vm_compute; lia]).
  - vm_compute. intros K. discriminate K.
Qed.

(** ** C37: simplifying instances in parallel *)

(** What Simplify leaves in one instance. *)
Definition simplified (W : world) (gens : Z -> idgen) (ords : Z -> nat -> list node -> list node)
    (junctions : Z -> list Z) (fuel : nat) (self : cdp) : list node :=
  fst (get ([], 0) (simplify (World (w_geom W) (gens (c_id self)) (w_hdb W) (w_pop W) (w_lnr W))
                      (ords (c_id self)) self (junctions (c_id self)) fuel 0)).
(** SimplifyInstances under a schedule. *)
Definition instances_in_parallel (W : world) (gens : Z -> idgen) (ords : Z -> nat -> list node -> list node)
    (junctions : Z -> list Z) (fuel : nat) (selfs : list cdp) (sched : list ichoice)
    : option (ipool cdp (list node)) :=
  ipool_run cdp (list node) (simplified W gens ords junctions fuel) concur_procs sched
    (ipool_start cdp (list node) concur_procs selfs).

Lemma simplify_instances_map W gens ords junctions fuel selfs outs :
  simplify_instances W gens ords junctions fuel selfs = Ok outs ->
  outs = map (fun s => (s, simplified W gens ords junctions fuel s)) selfs.
Proof.
  revert outs. induction selfs as [|self r IH]; intros outs H; cbn [simplify_instances] in H.
  - injection H as <-. reflexivity.
  - cbn [map]. unfold simplified at 1.
    destruct (simplify (World (w_geom W) (gens (c_id self)) (w_hdb W) (w_pop W) (w_lnr W)) (ords (c_id self)) self
                (junctions (c_id self)) fuel 0) as [[hs c]| |]; cbn in H; try discriminate.
    destruct (simplify_instances W gens ords junctions fuel r) as [rest| |]; cbn in H; try discriminate.
    injection H as <-. cbn. f_equal. apply IH. reflexivity.
Qed.

(** At every moment no instance has been simplified twice; when the call returns each has
    been simplified once, with the result it has when simplified alone. *)
Theorem C37_each_instance_once :
  forall W gens ords junctions fuel selfs sched s,
    instances_in_parallel W gens ords junctions fuel selfs sched = Some s ->
    i_panic _ _ s = false /\
    (exists rest, Permutation (map fst (i_log _ _ s) ++ rest) selfs) /\
    (i_done _ _ s = true -> Permutation (map fst (i_log _ _ s)) selfs) /\
    (forall outs, i_done _ _ s = true ->
       simplify_instances W gens ords junctions fuel selfs = Ok outs -> Permutation (i_log _ _ s) outs).
Proof.
  intros W gens ords junctions fuel selfs sched s Hrun. unfold instances_in_parallel in Hrun.
  assert (Hp : 0 < concur_procs) by (unfold concur_procs; lia).
  pose proof (igood_start _ _ (simplified W gens ords junctions fuel) _ Hp selfs) as G0.
  destruct (igood_run _ _ _ _ Hp _ _ _ _ G0 Hrun) as (G & _).
  split; [exact (ig_panic _ _ _ _ _ _ G)|].
  split; [eexists; exact (ig_todo _ _ _ _ _ _ G)|].
  split; [intros Hd; exact (proj1 (igood_final _ _ _ _ Hp _ _ G Hd))|].
  intros outs Hd Ho. rewrite (simplify_instances_map _ _ _ _ _ _ _ Ho).
  destruct (igood_final _ _ _ _ Hp _ _ G Hd) as (P & _).
  assert (E : i_log _ _ s = map (fun x => (x, simplified W gens ords junctions fuel x)) (map fst (i_log _ _ s))).
  { pose proof (ig_log _ _ _ _ _ _ G) as F. clear P. induction F as [|[a b] r Hab _ IH]; [reflexivity|].
    cbn in *. subst b. f_equal. exact IH. }
  rewrite E. apply Permutation_map. exact P.
Qed.
Print Assumptions C37_each_instance_once.

Theorem C37_instances_complete :
  forall W gens ords junctions fuel selfs, exists total, forall sched s,
    instances_in_parallel W gens ords junctions fuel selfs sched = Some s ->
    length sched <= total /\
    (length sched = total <-> i_done _ _ s = true) /\
    (i_done _ _ s = false ->
       exists c s', instances_in_parallel W gens ords junctions fuel selfs (sched ++ [c]) = Some s').
Proof.
  intros W gens ords junctions fuel selfs. set (work := simplified W gens ords junctions fuel).
  assert (Hp : 0 < concur_procs) by (unfold concur_procs; lia).
  set (s0 := ipool_start cdp (list node) concur_procs selfs).
  exists (ileft cdp (list node) s0). intros sched s Hrun. unfold instances_in_parallel in *.
  fold work s0 in Hrun |- *.
  pose proof (igood_start _ _ work _ Hp selfs) as G0. fold s0 in G0.
  destruct (igood_run _ _ _ _ Hp _ _ _ _ G0 Hrun) as (G & L).
  assert (App : forall c, ipool_run cdp (list node) work concur_procs (sched ++ [c]) s0
                          = ipool_step cdp (list node) work concur_procs c s).
  { intros c. clear - Hrun. revert Hrun. generalize s0. induction sched as [|d r IH]; cbn [ipool_run app]; intros z Hz.
    - injection Hz as ->. destruct (ipool_step cdp (list node) work concur_procs c s); reflexivity.
    - destruct (ipool_step cdp (list node) work concur_procs d z) as [z1|]; [|discriminate]. apply IH. exact Hz. }
  assert (Prog : i_done _ _ s = false -> exists c s', ipool_step cdp (list node) work concur_procs c s = Some s').
  { exact (igood_progress _ _ _ _ Hp _ _ G). }
  split; [lia|]. split; [split|].
  - intros E. destruct (i_done _ _ s) eqn:Ed; [reflexivity|]. destruct (Prog eq_refl) as (c & s' & Ec).
    destruct (igood_step _ _ _ _ Hp _ _ _ _ G Ec) as (_ & L2). lia.
  - intros Ed. destruct (igood_final _ _ _ _ Hp _ _ G Ed) as (_ & _ & Z). lia.
  - intros Ed. destruct (Prog Ed) as (c & s' & Ec). exists c, s'. rewrite App. exact Ec.
Qed.
Print Assumptions C37_instances_complete.

Definition icases (n : nat) : list ichoice :=
  map Act (seq 0 n) ++ [Spawn] ++ map Hand (seq 0 n) ++ [CloseStream; RecvI; CloseOutI; LeaveI].
Definition two_feats (sched : list ichoice) : option (ipool cdp (list node)) :=
  instances_in_parallel exW ex_gens (fun _ => in_turn) (fun _ => []) 20 [feat1; feat2] sched.
Definition feats_sched (cs : list ichoice) : list ichoice :=
  greedy (ipool_step cdp (list node) (simplified exW ex_gens (fun _ => in_turn) (fun _ => []) 20) concur_procs)
    cs 100 (ipool_start cdp (list node) concur_procs [feat1; feat2]).
(** Two schedules that finish the two instances in opposite orders. *)
Definition swap_sched : list ichoice :=
  [Spawn; Spawn; Hand 0; Hand 1; Act 1; Act 0; Act 1; Act 0; CloseStream; RecvI; RecvI] ++ repeat Spawn 6 ++
  map Act (seq 0 8) ++ [CloseOutI; LeaveI].
Definition finished_in_order (r : option (ipool cdp (list node))) (ids : list Z) : bool :=
  match r with
  | Some s => i_done _ _ s && (if list_eq_dec Z.eq_dec (map (fun p => c_id (fst p)) (i_log _ _ s)) ids
                               then true else false)
  | None => false
  end.
Example C37_case :
  match simplify_instances exW ex_gens (fun _ => in_turn) (fun _ => []) 20 [feat1; feat2] with
  | Ok outs => map (fun o => simple_set (snd o)) outs = [[0; 1; 4]; [0; 2]]%Z
  | _ => False
  end /\
  finished_in_order (two_feats (feats_sched (icases 8))) [7; 8]%Z = true /\
  finished_in_order (two_feats swap_sched) [8; 7]%Z = true.
Proof. split; [vm_compute; reflexivity|]. split; vm_compute; reflexivity. Qed.

(** ** C38: the queue *)

(** Whatever the schedule, the calls form a history of a double-ended queue in which every
    goroutine's calls appear in its own order; and a goroutine inside a method that changes the
    queue is alone inside. *)
Theorem C38_double_ended_queue :
  forall progs sched s, qrun sched (qstart progs) = Some s ->
    history [] (q_log s) (q_items s) /\
    (forall i t p, nth_error (q_threads s) i = Some t -> nth_error progs i = Some p ->
       exists rest, p = map fst (calls_of i (q_log s)) ++ rest /\
       exists last, map Some (q_rets t) ++ last = map snd (calls_of i (q_log s)) /\ length last <= 1 /\
         (q_phase t = Out -> last = [])) /\
    (forall i j t u o, i <> j -> nth_error (q_threads s) i = Some t -> nth_error (q_threads s) j = Some u ->
       q_phase t = Inside o -> changes o -> q_phase u = Out).
Proof.
  intros progs sched s Hrun. pose proof (qgood_reach progs sched s Hrun) as G.
  split; [exact (qg_hist _ _ G)|]. split.
  - intros i t p Hi Hp. destruct (qg_calls _ _ G i t p Hi Hp) as (dn & A & B & C).
    destruct t as [pr ph rets]. unfold in_hand, to_do in *. cbn in *.
    exists (match ph with Inside o => o :: pr | _ => pr end).
    split; [exact C|]. rewrite B, map_app, map_map, <- A, map_map. cbn.
    eexists. split; [reflexivity|]. destruct ph; cbn; split; try lia; try congruence; auto.
  - intros i j t u o N Hi Hj Ht Ho. apply changes_writes in Ho.
    pose proof (qg_w _ _ G) as Hw. pose proof (qg_x _ _ G) as Hx. pose proof (qg_r _ _ G) as Hr.
    pose proof (total_two nwrite _ _ _ _ _ Hi Hj N) as L. pose proof (total_in nread _ _ _ Hj) as L2.
    assert (Et : nwrite t = 1) by (unfold nwrite; rewrite Ht; cbn; rewrite Ho; reflexivity).
    destruct (q_writer s); [specialize (Hx eq_refl)|lia].
    unfold nwrite at 2 in L. unfold nread at 1 in L2.
    destruct (q_phase u) as [|o'|o' r|o']; cbn in L, L2; [reflexivity|destruct (qwrites o'); lia..].
Qed.
Print Assumptions C38_double_ended_queue.

(** As long as no goroutine has asked an empty queue for an element, nothing blocks for ever. *)
Theorem C38_usable_partial :
  forall progs sched s, qrun sched (qstart progs) = Some s ->
    (forall i o, ~ In (i, o, None) (q_log s)) ->
    (forall i t, nth_error (q_threads s) i = Some t -> q_phase t = Out /\ q_prog t = [])
    \/ exists i s', qstep i s = Some s'.
Proof.
  intros progs sched s Hrun Hno. pose proof (qgood_reach progs sched s Hrun) as G.
  assert (Dec : (forall i t, nth_error (q_threads s) i = Some t -> q_phase t = Out /\ q_prog t = [])
    \/ (exists i t, nth_error (q_threads s) i = Some t /\ ~ (q_phase t = Out /\ q_prog t = []))).
  { generalize (q_threads s). intros l. induction l as [|x r IH].
    - left. intros [|i] t K; discriminate.
    - destruct IH as [IH|(i & t & A & B)]; [|right; exists (S i), t; auto].
      destruct x as [[|o pr] ph rets].
      + destruct ph.
        * left. intros [|i] t K; cbn in K; [injection K as <-; auto|exact (IH i t K)].
        * right. exists 0. eexists. split; [reflexivity|]. cbn. intros [K _]. discriminate.
        * right. exists 0. eexists. split; [reflexivity|]. cbn. intros [K _]. discriminate.
        * right. exists 0. eexists. split; [reflexivity|]. cbn. intros [K _]. discriminate.
      + right. exists 0. eexists. split; [reflexivity|]. cbn. intros [_ K]. discriminate. }
  destruct Dec as [D|D]; [left; exact D|right]. apply (qprogress progs s G); [|exact D].
  intros i t o Hi Hd. assert (Hl : i < length progs).
  { rewrite <- (qg_progs _ _ G). apply nth_error_Some. congruence. }
  destruct (nth_error progs i) as [p|] eqn:Ep; [|apply nth_error_None in Ep; lia].
  destruct (qg_calls _ _ G i t p Hi Ep) as (dn & A & B & C).
  apply (Hno i o). unfold in_hand in B. rewrite Hd in B.
  assert (K : In (o, None) (calls_of i (q_log s))) by (rewrite B; apply in_or_app; right; left; reflexivity).
  unfold calls_of in K. apply in_map_iff in K. destruct K as ([[j o'] r] & E & F). cbn in E.
  injection E as -> ->. apply filter_In in F. destruct F as (F & Fj). cbn in Fj.
  apply Nat.eqb_eq in Fj. subst j. exact F.
Qed.
Print Assumptions C38_usable_partial.

(** The property fails otherwise: popping an empty queue panics with the lock held, and then no
    goroutine can ever take another step. *)
Theorem C38_lock_never_released :
  forall progs sched s i t o, qrun sched (qstart progs) = Some s ->
    nth_error (q_threads s) i = Some t -> q_phase t = Dead o -> changes o ->
    forall j, qstep j s = None.
Proof.
  intros progs sched s i t o Hrun Hi Hd Ho j. apply changes_writes in Ho.
  apply (dead_blocks progs); [exact (qgood_reach progs sched s Hrun)|]. exists i, t, o. auto.
Qed.
Print Assumptions C38_lock_never_released.

Definition q_ex (k : Z) : node := create_node toy k (sub_coords zig (Rng 0 2)) (Rng 0 2) 7.
Theorem C38_empty_pop_refuted :
  exists progs sched s, qrun sched (qstart progs) = Some s /\
    progs = [[QPop]; [QAppend (q_ex 1)]] /\ map q_prog (q_threads s) = [[]; [QAppend (q_ex 1)]] /\
    forall more, more <> [] -> qrun more s = None.
Proof.
  exists [[QPop]; [QAppend (q_ex 1)]], [0; 0; 0]. eexists. split; [reflexivity|].
  split; [reflexivity|]. split; [reflexivity|].
  intros [|i more] N; [congruence|]. cbn [qrun].
  assert (Hc : changes QPop) by (exists [q_ex 1], [], (RNode (q_ex 1)); split; [apply (dq_pop _ []); reflexivity|discriminate]).
  rewrite (C38_lock_never_released [[QPop]; [QAppend (q_ex 1)]] [0; 0; 0] _ 0 _ QPop eq_refl eq_refl eq_refl Hc i).
  reflexivity.
Qed.
Print Assumptions C38_empty_pop_refuted.

(** A reader is kept out while goroutine 1 pops; and a complete run. *)
Example C38_case :
  match qrun [0; 0; 0; 1; 1; 1; 0; 0; 0; 1; 2; 2; 1; 1]
     (qstart [[QAppend (q_ex 1); QAppendLeft (q_ex 2)]; [QAppend (q_ex 3); QPopLeft]; [QSize; QLast]]) with
  | Some s => False
  | None => True
  end /\
  match qrun [0; 0; 0; 1; 1; 1; 0; 0; 0; 1; 1; 1; 2; 2; 2; 2; 2; 2]
     (qstart [[QAppend (q_ex 1); QAppendLeft (q_ex 2)]; [QAppend (q_ex 3); QPopLeft]; [QSize; QLast]]) with
  | Some s => map (fun t => q_rets t) (q_threads s) =
      [[RQueue; RQueue]; [RQueue; RNode (q_ex 2)]; [RSize 2; RNode (q_ex 3)]]
  | None => False
  end.
Proof. vm_compute. auto. Qed.
