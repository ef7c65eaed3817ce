(** Vocabulary of the selection theorems. *)
From Verif Require Import M_Base M_Float.
Open Scope Z_scope.

(** Positions outside [l..r] hold what they held before. *)
Definition only_within {A} (l r : Z) (a a' : list A) : Prop :=
  forall p, p < l \/ r < p -> znth a' p = znth a p.

(** The item at position k of [l..r] is where a full sort of [l..r] could have put it:
    no item before it is greater and no item after it is smaller. *)
Definition selected {A} (key : A -> f64) (a : list A) (k l r : Z) : Prop :=
  forall p q x y, l <= p <= k -> k <= q <= r ->
    znth a p = Some x -> znth a q = Some y -> fle (key x) (key y) = true.

(** Groups of n consecutive items from [l] on, in order. *)
Definition in_groups {A} (key : A -> f64) (a : list A) (l r n : Z) : Prop :=
  forall p q x y, l <= p <= r -> l <= q <= r -> (p - l) / n < (q - l) / n ->
    znth a p = Some x -> znth a q = Some y -> fle (key x) (key y) = true.

(** Sample ranges of hdb/select.go:40-50 contain k, lie within the bounds and are
    shorter than them. *)
Definition sample_ok (samp : Z -> Z -> Z -> Z * Z) : Prop :=
  forall l r k, l <= k <= r -> 600 < r - l ->
    let '(a, b) := samp l r k in l <= a <= k /\ k <= b <= r /\ b - a < r - l.
