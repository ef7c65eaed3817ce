(** What a double-ended queue does, independent of M_Queue's functions. *)
From Verif Require Import M_Base M_Rng M_Node M_Queue.

(** [dq q o q' r]: on contents [q], operation [o] leaves [q'] and returns [r]. *)
Inductive dq (q : list node) : qop -> list node -> qret -> Prop :=
| dq_append n : dq q (QAppend n) (q ++ [n]) RQueue
| dq_append_left n : dq q (QAppendLeft n) ([n] ++ q) RQueue
| dq_pop q' n : q = q' ++ [n] -> dq q QPop q' (RNode n)
| dq_pop_left q' n : q = [n] ++ q' -> dq q QPopLeft q' (RNode n)
| dq_clear : dq q QClear [] RQueue
| dq_size : dq q QSize q (RSize (length q))
| dq_first q' n : q = [n] ++ q' -> dq q QFirst q (RNode n)
| dq_last q' n : q = q' ++ [n] -> dq q QLast q (RNode n).

(** Operations that can change the contents. *)
Definition changes (o : qop) : Prop := exists q q' r, dq q o q' r /\ q' <> q.

(** Operations that need an element. *)
Definition needs_item (o : qop) : Prop :=
  match o with QPop | QPopLeft | QFirst | QLast => True | _ => False end.

(** A sequential history: every call in turn either does what a double-ended queue does, or is a
    request for an element of an empty queue, which fails and leaves it empty. *)
Inductive history : list node -> list (nat * qop * option qret) -> list node -> Prop :=
| h_nil q : history q [] q
| h_ok q i o q1 r l q2 : dq q o q1 r -> history q1 l q2 -> history q ((i, o, Some r) :: l) q2
| h_empty i o l q2 : needs_item o -> history [] l q2 -> history [] ((i, o, None) :: l) q2.

(** The calls goroutine i made, with what they returned. *)
Definition calls_of (i : nat) (l : list (nat * qop * option qret)) : list (qop * option qret) :=
  map (fun c => (snd (fst c), snd c)) (filter (fun c => Nat.eqb (fst (fst c)) i) l).
