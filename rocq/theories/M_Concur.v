(** Model of the goroutines of package constdp: the worker pool of
    constdp/simple_0.go:11-80 and of constdp/fc_simplify.go:71-106, as state machines whose
    steps a schedule chooses.  Go's runtime is reduced to: buffered channels with a capacity,
    unbuffered hand-over, close, and WaitGroup counters.  What a worker does with one task
    is one step and a pure function of the task: the workers of simple_0.go only read the
    index, those of fc_simplify.go only write to their own instance; ids come from
    iter.Igen (external), whose calls are taken to be atomic. *)
From Verif Require Import M_Base M_Rng M_Node M_ConstDP.
Open Scope Z_scope.

(** constdp/common.go:11 ConcurProcs. *)
Definition concur_procs : nat := 8.

(** constdp/simple_0.go:82-105 chunkTasks and 106-128 chunkInstances: the loop over idx.
    Each pass takes at least one task, so the number of tasks is enough fuel. *)
Fixpoint chunks_of {A} (size : nat) (fuel : nat) (vals : list A) : list (list A) :=
  match vals, fuel with
  | [], _ => []
  | _, O => []
  | _, S f => firstn size vals :: chunks_of size f (skipn size vals)
  end.
Definition chunk_tasks {A} (vals : list A) (concurrency : nat) : list (list A) :=
  let size := (length vals / concurrency)%nat in
  chunks_of (if (size =? 0)%nat then 1%nat else size) (length vals) vals.

Fixpoint set_nth {A} (i : nat) (x : A) (l : list A) : list A :=
  match l, i with
  | [], _ => []
  | _ :: r, O => x :: r
  | y :: r, S j => y :: set_nth j x r
  end.

(** ** The pool of simple_0.go *)

Section Pool.
  Variables A B : Type.
  (** The hulls the worker selects for one hull: lines 33-60. *)
  Variable work : A -> list B.
  (** The capacity of the channel out: line 26. *)
  Variable cap : nat.

  (** A worker: the tasks it still has, and what it has still to send. *)
  Inductive worker := Running (tasks : list A) (tosend : list B) | Stopped.

  Record pool := Pool {
    p_waiting : list (list A);  (* chunks the launcher has not started: lines 64-68 *)
    p_workers : list worker;
    p_wg : nat;                 (* the WaitGroup *)
    p_chan : list B;            (* buffered values of out *)
    p_closed : bool;            (* out is closed *)
    p_got : list B;             (* values received by the caller: lines 75-78 *)
    p_done : bool;              (* the caller left its loop *)
    p_panic : bool              (* a send on a closed channel, or a negative WaitGroup *)
  }.

  (** Lines 16-26: the state when the goroutines are started. *)
  Definition pool_start (chunks : list (list A)) : pool :=
    Pool chunks [] (length chunks) [] false [] false false.

  Inductive choice := Launch | Step (i : nat) | CloseOut | Recv | Leave.

  (** One step of worker i: take the next hull and check it (lines 33-60), send one selected
      hull (57-59, blocks while the channel is full), or return and call wg.Done (line 29). *)
  Definition worker_step (i : nat) (s : pool) : option pool :=
    match nth_error (p_workers s) i with
    | Some (Running tasks (v :: r)) =>
      if p_closed s then
        Some (Pool (p_waiting s) (p_workers s) (p_wg s) (p_chan s) true (p_got s) (p_done s) true)
      else if (length (p_chan s) <? cap)%nat then
        Some (Pool (p_waiting s) (set_nth i (Running tasks r) (p_workers s)) (p_wg s) (p_chan s ++ [v])
                   (p_closed s) (p_got s) (p_done s) (p_panic s))
      else None
    | Some (Running (t :: r) []) =>
      Some (Pool (p_waiting s) (set_nth i (Running r (work t)) (p_workers s)) (p_wg s) (p_chan s)
                 (p_closed s) (p_got s) (p_done s) (p_panic s))
    | Some (Running [] []) =>
      Some (Pool (p_waiting s) (set_nth i Stopped (p_workers s)) (pred (p_wg s)) (p_chan s)
                 (p_closed s) (p_got s) (p_done s) (p_panic s || (p_wg s =? 0)%nat))
    | _ => None
    end.

  Definition pool_step (c : choice) (s : pool) : option pool :=
    if p_panic s then None else
    match c with
    | Launch => (* lines 64-68 *)
      match p_waiting s with
      | [] => None
      | ch :: r => Some (Pool r (p_workers s ++ [Running ch []]) (p_wg s) (p_chan s) (p_closed s)
                              (p_got s) (p_done s) (p_panic s))
      end
    | Step i => worker_step i s
    | CloseOut => (* lines 70-73: wg.Wait returns at 0 *)
      if (p_wg s =? 0)%nat && negb (p_closed s)
      then Some (Pool (p_waiting s) (p_workers s) (p_wg s) (p_chan s) true (p_got s) (p_done s) (p_panic s))
      else None
    | Recv => (* lines 76-78 *)
      if p_done s then None else
      match p_chan s with
      | [] => None
      | v :: r => Some (Pool (p_waiting s) (p_workers s) (p_wg s) r (p_closed s) (p_got s ++ [v])
                             (p_done s) (p_panic s))
      end
    | Leave => (* line 76: range ends when out is closed and drained *)
      if p_done s then None else
      match p_chan s with
      | [] => if p_closed s
              then Some (Pool (p_waiting s) (p_workers s) (p_wg s) [] true (p_got s) true (p_panic s))
              else None
      | _ => None
      end
    end.

  (** A schedule is a list of choices, all of which must be possible when made. *)
  Fixpoint pool_run (sched : list choice) (s : pool) : option pool :=
    match sched with
    | [] => Some s
    | c :: r => match pool_step c s with Some s' => pool_run r s' | None => None end
    end.
End Pool.

Arguments Running {A B}. Arguments Stopped {A B}.

(** ** The pool of fc_simplify.go *)

Section Instances.
  Variables A B : Type.
  (** self.Simplify: line 88. *)
  Variable work : A -> B.
  Variable procs : nat.
  Definition icap : nat := (2 * procs)%nat.

  Inductive iworker := Idle | Busy (a : A) | Sending (a : A) | Finished.

  Record ipool := IPool {
    i_todo : list A;            (* instances not yet handed over: lines 78-83 *)
    i_closed : bool;            (* stream is closed *)
    i_tostart : nat;            (* workers not yet started: lines 93-97 *)
    i_workers : list iworker;
    i_log : list (A * B);       (* instances simplified, in the order this happened *)
    i_wg : nat;
    i_chan : list A;            (* buffered values of out *)
    i_outclosed : bool;
    i_got : list A;
    i_done : bool;
    i_panic : bool
  }.

  Definition ipool_start (selfs : list A) : ipool :=
    IPool selfs false procs [] [] procs [] false [] false false.

  Inductive ichoice := Spawn | Hand (i : nat) | CloseStream | Act (i : nat) | CloseOutI | RecvI | LeaveI.

  Definition iact (i : nat) (s : ipool) : option ipool :=
    match nth_error (i_workers s) i with
    | Some (Busy a) => (* line 88 *)
      Some (IPool (i_todo s) (i_closed s) (i_tostart s) (set_nth i (Sending a) (i_workers s))
                  (i_log s ++ [(a, work a)]) (i_wg s) (i_chan s) (i_outclosed s) (i_got s) (i_done s) (i_panic s))
    | Some (Sending a) => (* line 89 *)
      if i_outclosed s then
        Some (IPool (i_todo s) (i_closed s) (i_tostart s) (i_workers s) (i_log s) (i_wg s) (i_chan s)
                    true (i_got s) (i_done s) true)
      else if (length (i_chan s) <? icap)%nat then
        Some (IPool (i_todo s) (i_closed s) (i_tostart s) (set_nth i Idle (i_workers s)) (i_log s) (i_wg s)
                    (i_chan s ++ [a]) (i_outclosed s) (i_got s) (i_done s) (i_panic s))
      else None
    | Some Idle => (* line 87: range ends when stream is closed; 86: wg.Done *)
      if i_closed s then
        Some (IPool (i_todo s) (i_closed s) (i_tostart s) (set_nth i Finished (i_workers s)) (i_log s)
                    (pred (i_wg s)) (i_chan s) (i_outclosed s) (i_got s) (i_done s)
                    (i_panic s || (i_wg s =? 0)%nat))
      else None
    | _ => None
    end.

  Definition ipool_step (c : ichoice) (s : ipool) : option ipool :=
    if i_panic s then None else
    match c with
    | Spawn => (* lines 93-97 *)
      match i_tostart s with
      | O => None
      | S k => Some (IPool (i_todo s) (i_closed s) k (i_workers s ++ [Idle]) (i_log s) (i_wg s) (i_chan s)
                           (i_outclosed s) (i_got s) (i_done s) (i_panic s))
      end
    | Hand i => (* lines 79-81 with 87: unbuffered hand-over to a waiting worker *)
      match i_todo s, nth_error (i_workers s) i with
      | a :: r, Some Idle =>
        Some (IPool r (i_closed s) (i_tostart s) (set_nth i (Busy a) (i_workers s)) (i_log s) (i_wg s)
                    (i_chan s) (i_outclosed s) (i_got s) (i_done s) (i_panic s))
      | _, _ => None
      end
    | CloseStream => (* line 82 *)
      match i_todo s with
      | [] => if i_closed s then None
              else Some (IPool [] true (i_tostart s) (i_workers s) (i_log s) (i_wg s) (i_chan s)
                               (i_outclosed s) (i_got s) (i_done s) (i_panic s))
      | _ => None
      end
    | Act i => iact i s
    | CloseOutI => (* lines 99-102 *)
      if (i_wg s =? 0)%nat && negb (i_outclosed s)
      then Some (IPool (i_todo s) (i_closed s) (i_tostart s) (i_workers s) (i_log s) (i_wg s) (i_chan s) true
                       (i_got s) (i_done s) (i_panic s))
      else None
    | RecvI => (* lines 104-105 *)
      if i_done s then None else
      match i_chan s with
      | [] => None
      | v :: r => Some (IPool (i_todo s) (i_closed s) (i_tostart s) (i_workers s) (i_log s) (i_wg s) r
                              (i_outclosed s) (i_got s ++ [v]) (i_done s) (i_panic s))
      end
    | LeaveI =>
      if i_done s then None else
      match i_chan s with
      | [] => if i_outclosed s
              then Some (IPool (i_todo s) (i_closed s) (i_tostart s) (i_workers s) (i_log s) (i_wg s) []
                               true (i_got s) true (i_panic s))
              else None
      | _ => None
      end
    end.

  Fixpoint ipool_run (sched : list ichoice) (s : ipool) : option ipool :=
    match sched with
    | [] => Some s
    | c :: r => match ipool_step c s with Some s' => ipool_run r s' | None => None end
    end.
End Instances.

Arguments Idle {A}. Arguments Busy {A}. Arguments Sending {A}. Arguments Finished {A}.
