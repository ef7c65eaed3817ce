(** Model of node/queue.go: a double-ended queue guarded by a sync.RWMutex, used by several
    goroutines.  The deque (github.com/intdxdt/deque, external) is taken to be a list whose Pop,
    PopLeft, First and Last give nil when it is empty. *)
From Verif Require Import M_Base M_Rng M_Node.

(** The methods of Queue: node/queue.go:20-73. *)
Inductive qop :=
| QAppend (n : node) | QAppendLeft (n : node) | QPop | QPopLeft | QClear | QSize | QFirst | QLast.
Inductive qret := RQueue | RNode (n : node) | RSize (k : nat).

(** Lock (true) or RLock (false): lines 21, 28, 35, 42, 49 and 56, 63, 70. *)
Definition qwrites (o : qop) : bool :=
  match o with QSize | QFirst | QLast => false | _ => true end.

(** The call to the deque and the type assertion on its result, which panics on nil:
    lines 22, 29, 36, 43, 50, 57, 64, 71.  None is the panic. *)
Definition as_node (x : option node) : option qret :=
  match x with Some n => Some (RNode n) | None => None end.
Definition deque_do (o : qop) (q : list node) : list node * option qret :=
  match o with
  | QAppend n => (q ++ [n], Some RQueue)
  | QAppendLeft n => (n :: q, Some RQueue)
  | QPop => (rev (tl (rev q)), as_node (hd_error (rev q)))
  | QPopLeft => (tl q, as_node (hd_error q))
  | QClear => ([], Some RQueue)
  | QSize => (q, Some (RSize (length q)))
  | QFirst => (q, as_node (hd_error q))
  | QLast => (q, as_node (hd_error (rev q)))
  end.

(** Where a goroutine is inside a method: before the lock, holding it, holding it with the
    result of the deque, or ended by a panic (no unlock is deferred, so it keeps the lock). *)
Inductive qphase := Out | Inside (o : qop) | Did (o : qop) (r : option qret) | Dead (o : qop).

Record qthread := QThread { q_prog : list qop; q_phase : qphase; q_rets : list qret }.

Record qstate := QState {
  q_items : list node;
  q_writer : bool;          (* the write lock is held *)
  q_readers : nat;          (* number of read locks held *)
  q_threads : list qthread;
  q_log : list (nat * qop * option qret)  (* calls to the deque, oldest first *)
}.

Fixpoint qset (i : nat) (t : qthread) (l : list qthread) : list qthread :=
  match l, i with
  | [], _ => []
  | _ :: r, O => t :: r
  | x :: r, S j => x :: qset j t r
  end.

(** One step of goroutine i: Lock or RLock (blocks), the call, Unlock or RUnlock (or the
    panic).  Go lets a waiting writer hold back new readers; the model lets readers in, which
    only adds schedules. *)
Definition qstep (i : nat) (s : qstate) : option qstate :=
  match nth_error (q_threads s) i with
  | None => None
  | Some t =>
    match q_phase t with
    | Out =>
      match q_prog t with
      | [] => None
      | o :: r =>
        let t' := QThread r (Inside o) (q_rets t) in
        if q_writer s then None
        else if qwrites o then
          if (q_readers s =? 0)%nat
          then Some (QState (q_items s) true 0 (qset i t' (q_threads s)) (q_log s))
          else None
        else Some (QState (q_items s) false (S (q_readers s)) (qset i t' (q_threads s)) (q_log s))
      end
    | Inside o =>
      let '(q', r) := deque_do o (q_items s) in
      Some (QState q' (q_writer s) (q_readers s) (qset i (QThread (q_prog t) (Did o r) (q_rets t)) (q_threads s))
                   (q_log s ++ [(i, o, r)]))
    | Did o (Some r) =>
      let t' := QThread (q_prog t) Out (q_rets t ++ [r]) in
      if qwrites o then Some (QState (q_items s) false (q_readers s) (qset i t' (q_threads s)) (q_log s))
      else Some (QState (q_items s) (q_writer s) (pred (q_readers s)) (qset i t' (q_threads s)) (q_log s))
    | Did o None =>
      Some (QState (q_items s) (q_writer s) (q_readers s)
                   (qset i (QThread (q_prog t) (Dead o) (q_rets t)) (q_threads s)) (q_log s))
    | Dead _ => None
    end
  end.

Fixpoint qrun (sched : list nat) (s : qstate) : option qstate :=
  match sched with
  | [] => Some s
  | i :: r => match qstep i s with Some s' => qrun r s' | None => None end
  end.

(** node/queue.go:15-17 NewQueue, with goroutines about to call the given methods. *)
Definition qstart (progs : list (list qop)) : qstate :=
  QState [] false 0 (map (fun p => QThread p Out []) progs) [].
