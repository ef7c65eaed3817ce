(** Points, coordinate views, geometries, and the interface of the external
    geometry library (github.com/intdxdt/geom, github.com/intdxdt/mbr). *)
From Verif Require Import M_Base M_Float M_Rng.
Open Scope Z_scope.

(** geom.Point: [3]float64 indexed by geom.X, geom.Y, geom.Z (external). *)
Record point := Pt { px : f64; py : f64; pz : f64 }.
Definition origin : point := Pt fzero fzero fzero.

(** mbr.MBR (external): exported fields used in hdb/insert.go:70-104. *)
Record mbr := MBR { minx : f64; miny : f64; maxx : f64; maxy : f64 }.

(** geom.Coords (external): a slice of points and a slice of indices into it,
    used as such in geometry/pln.go:59-66, merge/merge.go:48-52. *)
Record coords := Coords { cpnts : list point; cidxs : list Z }.

(** Coords.Len (external): number of indices. *)
Definition clen (c : coords) : Z := zlen (cidxs c).

(** Coords.Pt(i) (external): the point at the i-th index.  Total version: it is
    only used with 0 <= i < Len; [coords_ok] below makes every such access
    in range. *)
Definition cpt (c : coords) (i : Z) : point :=
  nth (Z.to_nat (nth (Z.to_nat i) (cidxs c) 0)) (cpnts c) origin.

(** All the points a coordinate view denotes, in order. *)
Definition cpts (c : coords) : list point :=
  map (fun k => nth (Z.to_nat k) (cpnts c) origin) (cidxs c).

(** Every index of the view is a valid index of the point slice. *)
Definition coords_ok (c : coords) : Prop :=
  Forall (fun k => 0 <= k < zlen (cpnts c)) (cidxs c).

(** Coords.First / Coords.Last (external). *)
Definition cfirst (c : coords) : point := cpt c 0.
Definition clast (c : coords) : point := cpt c (clen c - 1).

(** Coords.Slice(i,j) (external): [Idxs[i:j]]; panics outside the slice (the
    model also rejects re-slicing beyond the length, which Go only rejects
    beyond the capacity; the proofs show neither happens). *)
Definition cslice (c : coords) (i j : Z) : res coords :=
  if (0 <=? i) && (i <=? j) && (j <=? clen c) then
    Ok (Coords (cpnts c)
          (firstn (Z.to_nat (j - i)) (skipn (Z.to_nat i) (cidxs c))))
  else Panic.

(** geometry/pln.go:59-66 SubCoordinates; common/common.go:51-58. *)
Definition sub_coords (pts : list point) (r : rng) : coords :=
  Coords pts (zseq (rI r) (rJ r)).

(** geom.AsCoordinates-style full view of a point list: indices 0..n-1
    (geometry/pln.go:19-24 wraps it in a LineString). *)
Definition full_coords (pts : list point) : coords :=
  Coords pts (zseq 0 (zlen pts - 1)).

(** Geometries as used by the repository.  [GSeg] is *geom.Segment, [GPoly] a
    polygon given by its rings. *)
Inductive geometry :=
| GPoint (p : point)
| GLine (l : list point)
| GSeg (a b : point)
| GPoly (rings : list (list point)).

(** The functions of the external geometry library called by the repository.
    Theorems quantify over every such record; facts of plane geometry they
    need are explicit hypotheses.  [gl_hull] returns a non-empty list by type:
    geom.ConvexHull of a non-empty coordinate view is non-empty. *)
Record geomlib := GeomLib {
  gl_hull : list point -> point * list point;        (* geom.ConvexHull *)
  gl_isect : geometry -> geometry -> bool;           (* g.Intersects(o) *)
  gl_inter : geometry -> geometry -> list point;     (* g.Intersection(o) *)
  gl_dist : geometry -> geometry -> f64;             (* g.Distance(o) *)
  gl_bounds : geometry -> mbr;                       (* g.Bounds() *)
  gl_eq2d : point -> point -> bool;                  (* p.Equals2D(q) *)
  gl_in_ring : list point -> point -> bool;          (* Shell.PointCompletelyInRing *)
  gl_ptdist : point -> point -> f64                  (* p.Distance(q) *)
}.

(** common/common.go:18-28 Geometry applied to the convex hull. *)
Definition hull_geometry (h : point * list point) : geometry :=
  let (p, r) := h in
  match r with
  | [] => GPoint p
  | [q] => GLine [p; q]
  | _ => GPoly [p :: r]
  end.

(** Type().IsLineString() and the type switch on *geom.LineString. *)
Definition is_line (g : geometry) : bool :=
  match g with GLine _ => true | _ => false end.

(** box/box.go:8-18 MBRToPolygon: the closed ring of the four corners. *)
Definition mbr_polygon (b : mbr) : geometry :=
  GPoly [[ Pt (minx b) (miny b) fzero; Pt (minx b) (maxy b) fzero;
           Pt (maxx b) (maxy b) fzero; Pt (maxx b) (miny b) fzero;
           Pt (minx b) (miny b) fzero ]].
