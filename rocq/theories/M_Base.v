(** Shared vocabulary of the model: results, list helpers, integer sets. *)
From Coq Require Export List ZArith Lia Bool Permutation.
Export ListNotations.
Open Scope Z_scope.

(** Outcome of a Go call.  [Panic] is a run-time panic; [NoFuel] means that a
    loop modelled with fuel did not finish within the fuel. *)
Inductive res (A : Type) : Type :=
| Ok (a : A)
| Panic
| NoFuel.
Arguments Ok {A} a.
Arguments Panic {A}.
Arguments NoFuel {A}.

Definition bind {A B} (x : res A) (f : A -> res B) : res B :=
  match x with
  | Ok a => f a
  | Panic => Panic
  | NoFuel => NoFuel
  end.

Notation "x <- e ;; k" := (bind e (fun x => k))
  (at level 100, e at next level, right associativity).
Notation "' p <- e ;; k" := (bind e (fun p => k))
  (at level 100, p pattern, e at next level, right associativity).

Definition is_ok {A} (x : res A) : bool :=
  match x with Ok _ => true | _ => false end.

(** Sequential evaluation of a list of calls, left to right. *)
Fixpoint mapM {A B} (f : A -> res B) (l : list A) : res (list B) :=
  match l with
  | [] => Ok []
  | x :: r => y <- f x ;; ys <- mapM f r ;; Ok (y :: ys)
  end.

(** Go: [for i := lo; i <= hi; i++] collected in a slice. *)
Definition zseq (lo hi : Z) : list Z :=
  map (fun k => lo + Z.of_nat k) (seq 0 (Z.to_nat (hi - lo + 1))).

(** Length of a slice as a Go int. *)
Definition zlen {A} (l : list A) : Z := Z.of_nat (length l).

(** Slice element access [a[i]]; [None] is Go's index-out-of-range panic. *)
Definition znth {A} (l : list A) (i : Z) : option A :=
  if i <? 0 then None else nth_error l (Z.to_nat i).

(** [sort.Ints]: ascending sort of a slice of ints (Go standard library). *)
Fixpoint zins (x : Z) (l : list Z) : list Z :=
  match l with
  | [] => [x]
  | y :: r => if x <=? y then x :: l else y :: zins x r
  end.
Definition zsort (l : list Z) : list Z := fold_right zins [] l.

(** Insertion in a sorted set of ints: [sset.SSet] with [cmp.Int], and
    [iter.SortedIntsSet] (external modules): ascending, no duplicates. *)
Fixpoint zset_ins (x : Z) (l : list Z) : list Z :=
  match l with
  | [] => [x]
  | y :: r => if x <? y then x :: l
              else if x =? y then l
              else y :: zset_ins x r
  end.
Definition zset (l : list Z) : list Z := fold_right zset_ins [] l.

(** [iter.SortedSearchInts] (external): membership in a sorted slice. *)
Definition zmem (x : Z) (l : list Z) : bool := existsb (Z.eqb x) l.
