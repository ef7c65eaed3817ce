(** Vocabulary for C79: a line and its reversal. *)
From Verif Require Import M_Base M_Float M_Geom Spec_Out.
Open Scope Z_scope.

(** The vertices of a line of n vertices, numbered from the other end. *)
Definition mirror (n : Z) (s : list Z) : list Z := rev (map (fun k => n - 1 - k) s).

(** The distance of a point from a segment does not depend on the order of the segment's ends. *)
Definition either_way (dist : point -> point -> point -> f64) : Prop := forall a b p, dist a b p = dist b a p.

(** No two vertices between i and j that are farther than T from the segment i-j are equally far. *)
Definition no_ties (dist : point -> point -> point -> f64) (T : f64) (pts : list point) : Prop :=
  forall i j k m, 0 <= i -> i < k -> k < m -> m < j -> j < zlen pts ->
  let d x := dist (vertex pts i) (vertex pts j) (vertex pts x) in
  flt T (d k) = true -> feq (d k) (d m) = false.
