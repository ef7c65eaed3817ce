(** Points of the plane and what it means that a geometry library computes plane geometry. *)
From Coq Require Import QArith.
From Verif Require Import M_Base M_Float M_Rng M_Geom M_Lnr M_Knn M_Relate M_Deform M_Constrain M_ConstDP
  M_IO Spec Spec_Lnr Spec_ConstDP Spec_Relate Spec_Out.
Open Scope Z_scope.

(** The value of a float in units of 2^-1074, the smallest positive one, so that every float is
    an integer: m * 2^e is m * 2^(e+1074) units.  The infinite ones are beyond all the others.
    (Triples that encode no float are moved to a neighbouring value, which keeps the order.) *)
Definition magnitude (m : positive) (e : Z) : Z :=
  if e <? -1074 then 0 else if 971 <? e then 2 ^ 2098
  else Z.max (if e =? -1074 then 0 else 2 ^ 52) (Z.min (Z.pos m) (2 ^ 53)) * 2 ^ (e + 1074).
Definition units (x : f64) : Z :=
  match x with
  | S754_zero _ | S754_nan => 0
  | S754_infinity s => if s then - 2 ^ 2098 else 2 ^ 2098
  | S754_finite s m e => if s then - magnitude m e else magnitude m e
  end.

(** A place of the plane. *)
Definition place : Type := Q * Q.
Definition xof (p : point) : Q := inject_Z (units (px p)).
Definition yof (p : point) : Q := inject_Z (units (py p)).

(** [weighted ws l f]: the sum of w * f p over the weights and points in step. *)
Fixpoint weighted (ws : list Q) (l : list point) (f : point -> Q) : Q :=
  match ws, l with
  | w :: ws, p :: l => (w * f p + weighted ws l f)%Q
  | _, _ => 0%Q
  end.

(** The convex hull: weighted averages of the points. *)
Definition in_hull (l : list point) (q : place) : Prop :=
  exists ws, length ws = length l /\ Forall (fun w => (0 <= w)%Q) ws /\
    (weighted ws l (fun _ => 1%Q) == 1)%Q /\
    (weighted ws l xof == fst q)%Q /\ (weighted ws l yof == snd q)%Q.

(** The segments of a polyline. *)
Definition on_polyline (l : list point) (q : place) : Prop :=
  exists u a b w, l = u ++ a :: b :: w /\ in_hull [a; b] q.

(** The closed box. *)
Definition in_box (b : mbr) (q : place) : Prop :=
  (inject_Z (units (minx b)) <= fst q)%Q /\ (fst q <= inject_Z (units (maxx b)))%Q /\
  (inject_Z (units (miny b)) <= snd q)%Q /\ (snd q <= inject_Z (units (maxy b)))%Q.

(** The coordinates of a geometry are numbers; there is at least one, two on a line. *)
Definition geometry_pts (g : geometry) : list point :=
  match g with GPoint p => [p] | GSeg a b => [a; b] | GLine l => l | GPoly rs => concat rs end.
Definition number_geometry (g : geometry) : Prop :=
  geometry_pts g <> [] /\ Forall num_pt (geometry_pts g) /\
  match g with GLine l => (2 <= length l)%nat | _ => True end.

(** A float of the machine: not NaN and in the standard form. *)
Definition machine (x : f64) : Prop := is_nan x = false /\ valid_binary fprec femax x = true.
Definition machine_pt (p : point) : Prop := machine (px p) /\ machine (py p).
Definition machine_box (b : mbr) : Prop :=
  machine (minx b) /\ machine (miny b) /\ machine (maxx b) /\ machine (maxy b).

(** The library computes plane geometry: [D g] is the set of places of the geometry [g].
    - A point, a segment and a polyline are what they are; a triangle and the polygon of a box
      are closed regions; the geometry of the computed hull is the convex hull.
    - Bounding boxes are boxes around the set.  (Any other polygon may be any set in its box.)
    - Two geometries intersect if the sets have a place in common.
    - The distance of sets that meet is not above zero, and it does not grow when one
      of the sets grows.  (It may be rounded, as long as rounding keeps the order.)
    - Points are equal if x and y are. *)
Record plane_library (L : geomlib) (D : geometry -> place -> Prop) : Prop := {
  pl_point : forall p q, D (GPoint p) q <-> in_hull [p] q;
  pl_seg : forall a b q, D (GSeg a b) q <-> in_hull [a; b] q;
  pl_line : forall l q, (2 <= length l)%nat -> (D (GLine l) q <-> on_polyline l q);
  pl_triangle : forall a b c q, D (GPoly [[a; b; c; a]]) q <-> in_hull [a; b; c] q;
  pl_box : forall b q, units (minx b) <= units (maxx b) -> units (miny b) <= units (maxy b) ->
    (D (mbr_polygon b) q <-> in_box b q);
  pl_hull : forall l q, l <> [] -> (D (hull_geometry (gl_hull L l)) q <-> in_hull l q);
  pl_hull_num : forall l, l <> [] -> Forall num_pt l -> number_geometry (hull_geometry (gl_hull L l));
  pl_hull_machine : forall l, l <> [] -> Forall machine_pt l -> Forall machine_pt (geometry_pts (hull_geometry (gl_hull L l)));
  pl_bounds : forall g q, number_geometry g -> D g q -> in_box (gl_bounds L g) q;
  pl_bounds_machine : forall g, geometry_pts g <> [] -> Forall machine_pt (geometry_pts g) -> machine_box (gl_bounds L g);
  pl_isect : forall g h, number_geometry g -> number_geometry h ->
    (gl_isect L g h = true <-> exists q, D g q /\ D h q);
  pl_touch : forall g h q, number_geometry g -> number_geometry h -> D g q -> D h q ->
    fle (gl_dist L g h) fzero = true;
  pl_closer : forall g g' h h', number_geometry g -> number_geometry g' -> number_geometry h -> number_geometry h' ->
    (forall q, D g q -> D g' q) -> (forall q, D h q -> D h' q) ->
    fle (gl_dist L g' h') (gl_dist L g h) = true;
  pl_eq : forall p q, num_pt p -> num_pt q -> gl_eq2d L p q = loc_eq p q
}.

(** Crossings reported for two segments are within EpsilonDist of both. *)
Definition crossings_near (L : geomlib) (segx : point -> point -> point -> point -> list interpoint) : Prop :=
  forall a b c d ip, num_pt a -> num_pt b -> num_pt c -> num_pt d -> In ip (segx a b c d) ->
    num_pt (ip_pt ip) /\
    fle (gl_dist L (GPoint (ip_pt ip)) (GSeg a b)) epsilon_dist = true /\
    fle (gl_dist L (GPoint (ip_pt ip)) (GSeg c d)) epsilon_dist = true.

(** Sets of places that meet. *)
Definition meets (A B : place -> Prop) : Prop := exists q, A q /\ B q.

(** The part of the line between two vertices is not within a segment. *)
Definition bends (pts : list point) (a b : Z) : Prop :=
  ~ exists u v, forall p, In p (points_of pts (Rng a b)) -> in_hull [u; v] (xof p, yof p).

(** Every chord that replaces a part with a bend meets the constraints the part meets and no
    other, keeps the minimum distance unless the part did not, and the part can be brought to
    it by removing vertices one at a time such that no triangle swept contains a place of a
    constraint that meets neither of the two. *)
Definition keeps_relations (L : geomlib) (D : geometry -> place -> Prop) (o : opts) (constraints : list geometry)
    (pts : list point) (s : list Z) : Prop :=
  forall a b, next_kept s a b -> b - a <> 1 -> bends pts a b ->
  let line := on_polyline (points_of pts (Rng a b)) in
  let chord := in_hull [Spec_Out.vertex pts a; Spec_Out.vertex pts b] in
  (o_geom o = true -> forall g, In g constraints -> (meets line (D g) <-> meets chord (D g))) /\
  (o_dist o = true -> forall g, In g constraints ->
     fle (o_min_dist o) (gl_dist L (GSeg (Spec_Out.vertex pts a) (Spec_Out.vertex pts b)) g) = true \/
     flt (gl_dist L (GLine (points_of pts (Rng a b))) g) (o_min_dist o) = true) /\
  (o_dir o = true -> shrinks (fun u v w => forall g, In g constraints ->
        ~ meets line (D g) -> ~ meets chord (D g) -> ~ meets (in_hull [u; v; w]) (D g))
     (points_of pts (Rng a b)) [Spec_Out.vertex pts a; Spec_Out.vertex pts b]).

(** The geometry of a run: the library computes plane geometry, coordinates are numbers, and with planar_self
    the finder of self-intersections works (sorting, segment index, intersections of two segments). *)
Record plane_run (S : setup) (D : geometry -> place -> Prop) (o : opts) (lines : list (list point))
    (constraints : list geometry) : Prop := {
  pr_lib : plane_library (w_geom (su_world S)) D;
  pr_lines : Forall (Forall num_pt) lines;
  pr_constraints : Forall number_geometry constraints;
  pr_finder : o_planar_self o = true ->
    sorts (lo_sort (w_lnr (su_world S))) /\
    (forall pts, In pts lines -> finds_segments (lo_near (w_lnr (su_world S)) pts) pts) /\
    segx_sym (lo_segx (w_lnr (su_world S))) /\
    crossings_near (w_geom (su_world S)) (lo_segx (w_lnr (su_world S)))
}.
