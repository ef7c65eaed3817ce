(** Specification vocabulary for the relation checks. *)
From Verif Require Import M_Base M_Float M_Rng M_Geom M_Node M_Hdb M_Homotopy Spec_Hdb.
Open Scope Z_scope.

(** [shrinks free l l']: l' is obtained from l by removing interior elements one at a
    time; when b is removed between its current neighbours a and c, [free a b c] holds. *)
Inductive shrinks {A} (free : A -> A -> A -> Prop) : list A -> list A -> Prop :=
| shrinks_done l : shrinks free l l
| shrinks_step u a b c w l :
    free a b c -> shrinks free (u ++ a :: c :: w) l -> shrinks free (u ++ a :: b :: c :: w) l.

(** Constraint g touches neither the line c nor its replacement segment. *)
Definition clear_of (L : geomlib) (c : coords) (g : geometry) : Prop :=
  gl_isect L (GLine (cpts c)) g = false /\ gl_isect L (GSeg (cfirst c) (clast c)) g = false.

(** Removing b between a and d sweeps a triangle that touches none of the constraints
    clear of the line. *)
Definition sweeps_free (L : geomlib) (c : coords) (ctxs : list geometry) (a b d : point) : Prop :=
  forall g, In g ctxs -> clear_of L c g -> gl_isect L (GPoly [[a; b; d; a]]) g = false.

(** A triangle touches a geometry only where its box meets the geometry's box (plane
    geometry and rounding-free boxes of the external library). *)
Definition boxes_enclose (L : geomlib) (c : coords) (ctxs : list geometry) : Prop :=
  forall a b d g, In a (cpts c) -> In b (cpts c) -> In d (cpts c) -> In g ctxs ->
    gl_isect L (GPoly [[a; b; d; a]]) g = true ->
    mbr_intersects (tri_box a b d) (gl_bounds L g) = true.

(** The hull geometry of the sub-line encloses the sub-line, its segment and every triangle
    of its vertices: what touches one of them is at distance 0 from the hull, and the hull
    is never farther than the segment. *)
Definition hull_encloses (L : geomlib) (h : node) (g : geometry) : Prop :=
  (gl_isect L (n_line h) g = true -> fle (gl_dist L (n_geom h) g) fzero = true) /\
  (gl_isect L (n_seg h) g = true -> fle (gl_dist L (n_geom h) g) fzero = true) /\
  (forall a b d, In a (cpts (n_coords h)) -> In b (cpts (n_coords h)) -> In d (cpts (n_coords h)) ->
     gl_isect L (GPoly [[a; b; d; a]]) g = true -> fle (gl_dist L (n_geom h) g) fzero = true) /\
  fle (gl_dist L (n_geom h) g) (gl_dist L (n_seg h) g) = true.

(** The distance from a query to a box never exceeds the distance to a geometry inside. *)
Definition box_distance_ok (L : geomlib) (query : geometry) (g : geometry) (b0 : mbr) : Prop :=
  forall b, box_within b0 b = true -> fle (gl_dist L query (mbr_polygon b)) (gl_dist L query g) = true.

(** What the enabled relations demand of a hull, over all the constraints. *)
Definition geom_relation_holds (L : geomlib) (h : node) (geoms : list geometry) : Prop :=
  forall g, In g geoms -> gl_isect L (n_line h) g = gl_isect L (n_seg h) g.
Definition dist_relation_holds (L : geomlib) (md : f64) (h : node) (geoms : list geometry) : Prop :=
  forall g, In g geoms ->
    fle md (gl_dist L (n_seg h) g) = true \/ flt (gl_dist L (n_line h) g) md = true.
