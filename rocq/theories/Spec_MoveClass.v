(** Vocabulary for C94 over the lines of a class, on top of Spec_Move.v and Spec_Class.v. *)
From Verif Require Import M_Base M_Float M_Rng M_Geom M_Node M_Hdb M_Knn M_Lnr M_Relate M_Deform Spec Spec_Hdb Spec_Lnr Spec_ConstDP.
Open Scope Z_scope.

(** Parts of the lines, also of different ones, that meet are near each other. *)
Definition meet_near (L : geomlib) (ids : list Z) (pts : Z -> list point) : Prop :=
  forall i j r q, In i ids -> In j ids -> piece (pts i) r -> piece (pts j) q ->
    gl_isect L (piece_hull L (pts i) r) (piece_hull L (pts j) q) = true ->
    boxes_meet (gl_bounds L (piece_hull L (pts i) r)) (gl_bounds L (piece_hull L (pts j) q)) = true /\
    fle (gl_dist L (piece_hull L (pts j) q) (piece_hull L (pts i) r)) epsilon_dist = true.

(** No two vertices of the lines lie at their greatest place (first by x, then by y). *)
Definition class_greatest_alone (fc : list (Z * list point)) : Prop :=
  forall i k p, vertex_at fc i k p -> shared_vertex fc i k p -> not_greatest (class_points fc) p.
