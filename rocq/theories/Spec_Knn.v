(** Vocabulary of claim C89: what a nearest-first query with a limit and a predicate answers. *)
From Verif Require Import M_Base M_Float M_Rng M_Geom M_Node.
From Coq Require Import Sorted.
Open Scope Z_scope.

Section Answer.
  (** [nearer x y]: x is nearer to the query than y (by more than the queue's tolerance, when it has one);
      [take x], [stop x]: the two answers of the predicate about x. *)
  Variables (nearer : node -> node -> Prop) (take stop : node -> bool) (limit : Z).

  (** After the items [seen], the last of which is [x], the query has all it wants. *)
  Definition enough (seen : list node) (x : node) : Prop :=
    stop x = true \/ (limit <> 0 /\ Z.of_nat (length (filter take seen)) = limit).

  (** The items are looked at from near to far; the answer is those that are taken, in that order; the query looks at
      no item after it has enough, and leaves items out only when it has enough. *)
  Definition answers (bag result : list node) : Prop :=
    exists looked rest,
      Permutation bag (looked ++ rest) /\
      StronglySorted (fun x y => ~ nearer y x) looked /\
      (forall x y, In x looked -> In y rest -> ~ nearer y x) /\
      result = filter take looked /\
      (forall before x after, looked = before ++ x :: after -> enough (before ++ [x]) x -> after = []) /\
      (rest <> [] -> exists before x, looked = before ++ [x] /\ enough looked x).
End Answer.
