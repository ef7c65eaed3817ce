(** Specification vocabulary used in the statements of the properties.  It depends
    only on the data types of the model, not on its functions. *)
From Verif Require Import M_Base M_Float M_Rng M_Geom M_Node.
From Coq Require Import Sorted.
Open Scope Z_scope.

(** [chain lo hi rs]: the ranges rs are non-degenerate, each starts where the one
    before it ends, the first starts at lo and the last ends at hi. *)
Fixpoint chain (lo hi : Z) (rs : list rng) : Prop :=
  match rs with
  | [] => lo = hi
  | r :: t => rI r = lo /\ lo < rJ r /\ chain (rJ r) hi t
  end.

(** [tiling lo hi rs]: some ordering of rs is a chain from lo to hi. *)
Definition tiling (lo hi : Z) (rs : list rng) : Prop :=
  exists rs', Permutation rs rs' /\ chain lo hi rs'.

(** The points a range selects in a polyline. *)
Definition points_of (pts : list point) (r : rng) : list point :=
  map (fun k => nth (Z.to_nat k) pts origin) (zseq (rI r) (rJ r)).

(** A hull over polyline [pts] whose range is within the line and which carries
    exactly the vertices of its range, all from that polyline. *)
Definition hull_of (pts : list point) (h : node) : Prop :=
  0 <= rI (n_rng h) /\ rI (n_rng h) < rJ (n_rng h) /\ rJ (n_rng h) < zlen pts /\
  n_coords h = Coords pts (zseq (rI (n_rng h)) (rJ (n_rng h))).

(** Strictly increasing lists of integers. *)
Definition increasing (l : list Z) : Prop := StronglySorted Z.lt l.

(** [farthest dist n k d]: among the interior positions 1..n-1, k is the last one at
    the greatest distance and d is that distance; distances that are NaN or negative
    are ignored, and if all are, the answer is the end position n with distance 0. *)
Definition farthest (dist : Z -> f64) (n k : Z) (d : f64) : Prop :=
  (k = n /\ d = fzero /\ forall j, 1 <= j < n -> fle fzero (dist j) = false)
  \/
  (1 <= k < n /\ d = dist k /\ fle fzero d = true /\
   (forall j, 1 <= j < n -> is_nan (dist j) = false -> fle (dist j) d = true) /\
   (forall j, k < j < n -> fle d (dist j) = false)).
