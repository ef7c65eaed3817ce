(** Specification vocabulary for constrained simplification: what is assumed of the external
    libraries and of the input, in plain terms. *)
From Verif Require Import M_Base M_Float M_Rng M_Geom M_Offset M_Node M_Decompose M_Hdb M_Knn M_Lnr M_Relate M_Deform
  M_Constrain M_ConstDP Spec Spec_Hdb P_HdbIns P_Knn P_Deform.
Open Scope Z_scope.

(** The external pieces behave: the R-tree's sorting choices are sorts, the heap pops a
    least element, a point touches a geometry in at most one point, ids are never reused. *)
Record libs_ok (W : world) : Prop := {
  lb_rtree : oracle_ok (w_hdb W);
  lb_heap : pop_ok (fun a b => flt a b = true) (w_pop W);
  lb_touch : point_touch (w_geom W);
  lb_ids : forall j k, w_gen W j = w_gen W k -> j = k
}.

(** A piece of the line: at least one segment, inside the line. *)
Definition piece (pts : list point) (r : rng) : Prop := 0 <= rI r /\ rI r < rJ r /\ rJ r < zlen pts.

(** An ordered box with coordinates below 2^483. *)
Definition good_bounds (b : mbr) : Prop :=
  below_pow2 483 (minx b) /\ below_pow2 483 (miny b) /\ below_pow2 483 (maxx b) /\ below_pow2 483 (maxy b) /\
  fle (minx b) (maxx b) = true /\ fle (miny b) (maxy b) = true.

(** What one line, its options and its score function must satisfy. *)
Record line_ok (L : geomlib) (s : cdp) : Prop := {
  lk_two : (2 <= length (c_pts s))%nat;
  (* bounding boxes of convex hulls of pieces are ordinary boxes *)
  lk_box : forall r, piece (c_pts s) r ->
    good_bounds (gl_bounds L (hull_geometry (gl_hull L (points_of (c_pts s) r))));
  (* the score of a sub-line is accepted, or names an interior vertex *)
  lk_splits : forall c, 2 <= clen c ->
    dp_relation (o_threshold (c_opts s)) (c_sq s) (snd (dp_score (c_score s) (c_sq s) c)) = true \/
    0 < fst (dp_score (c_score s) (c_sq s) c) < clen c - 1;
  (* on pieces with an interior vertex it always names one *)
  lk_score : forall r, piece (c_pts s) r -> 1 < rJ r - rI r ->
    0 < fst (dp_score (c_score s) (c_sq s) (sub_coords (c_pts s) r)) < rJ r - rI r
}.

(** The index of the constraints of an instance was built by its constructor. *)
Definition built_from (W : world) (s : cdp) (constraints : list geometry) : Prop :=
  build_context_db (w_geom W) (w_hdb W) (c_id s) constraints = Ok (c_ctxdb s) /\
  Forall (fun g => good_bounds (gl_bounds (w_geom W) g)) constraints.

(** The iteration order of a Go map is any order. *)
Definition any_order (ord : nat -> list node -> list node) : Prop := forall k l, Permutation (ord k l) l.

(** The convex hull of a piece, as the geometry the program gives it. *)
Definition piece_hull (L : geomlib) (pts : list point) (r : rng) : geometry :=
  hull_geometry (gl_hull L (points_of pts r)).

(** No part of line [a] has a hull that is near the hull of a part of line [b]. *)
Definition never_near (L : geomlib) (a b : list point) : Prop :=
  forall r q, piece a r -> piece b q ->
    boxes_meet (gl_bounds L (piece_hull L a r)) (gl_bounds L (piece_hull L b q)) = false \/
    fle (gl_dist L (piece_hull L b q) (piece_hull L a r)) epsilon_dist = false.

(** Two lists of constraints hold the same geometries near the line: the same ones that are
    not farther than [d] from the hull of a piece of it. *)
Definition agree_near (L : geomlib) (d : f64) (pts : list point) (cs cs' : list geometry) : Prop :=
  forall r g, piece pts r -> fle (gl_dist L (piece_hull L pts r) g) d = true -> (In g cs <-> In g cs').

(** Geometry around a constrained location [fst c] that forces the vertices [snd c]: a piece
    with such a vertex strictly inside touches the location, and a box is never farther from
    the location than the hulls it encloses. *)
Definition location_on_hulls (L : geomlib) (pts : list point) (c : point * list Z) : Prop :=
  forall r k, piece pts r -> In k (snd c) -> rI r < k < rJ r ->
    fle (gl_dist L (GPoint (fst c)) (piece_hull L pts r)) epsilon_dist = true.
Definition boxes_not_farther (L : geomlib) (pts : list point) (c : point * list Z) : Prop :=
  forall r b, piece pts r -> box_within (gl_bounds L (piece_hull L pts r)) b = true ->
    fle (gl_dist L (GPoint (fst c)) (mbr_polygon b)) (gl_dist L (GPoint (fst c)) (piece_hull L pts r)) = true.

(** Self-intersections reported for a line when planar_self is on: location and vertices. *)
Definition self_intersections (W : world) (s : cdp) : list (point * list Z) :=
  self_intersection (w_geom W) (lo_sort (w_lnr W)) (lo_segx (w_lnr W)) (lo_near (w_lnr W) (c_pts s)) true
    (o_non_planar_self (c_opts s)) (c_pts s).

(** A hull is examined when it has more than one segment and is not collinear. *)
Definition examined (h : node) : Prop := rJ (n_rng h) - rI (n_rng h) <> 1 /\ is_line (n_geom h) = false.
