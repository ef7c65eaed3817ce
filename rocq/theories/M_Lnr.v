(** Model of package lnr: vertex coincidences of a feature class, planar and
    non-planar self-intersections of a line. *)
From Verif Require Import M_Base M_Float M_Rng M_Geom.
Open Scope Z_scope.

(** lnr/vertices.go:8-12 type vertex. *)
Record vertex := Vertex { v_pt : point; v_idx : Z; v_fid : Z }.

(** lnr/vertices.go:17-21 Less: lexicographic order of x and y. *)
Definition v_less (a b : vertex) : bool :=
  flt (px (v_pt a)) (px (v_pt b)) ||
  (feq (px (v_pt a)) (px (v_pt b)) && flt (py (v_pt a)) (py (v_pt b))).

(** lnr/vertices.go:38-43 appendVertices, starting from an empty slice; the view is
    given by the points it denotes. *)
Fixpoint number_vertices (fid i : Z) (pts : list point) : list vertex :=
  match pts with
  | [] => []
  | p :: r => Vertex p i fid :: number_vertices fid (i + 1) r
  end.

(** lnr/fc.go:25-27: the vertices of all the lines, one line after the other. *)
Definition class_vertices (fc : list (Z * list point)) : list vertex :=
  flat_map (fun f => number_vertices (fst f) 0 (snd f)) fc.

(** lnr/fc.go:31-58 and lnr/self.go:32-59: the scan over the sorted vertices with the
    counter [d] and the collected run [run].  [out] lists, for each flushed run, the
    vertex points[i] at which it was flushed and the collected vertices. *)
Fixpoint scan_runs (L : geomlib) (d : Z) (run : list vertex)
    (out : list (vertex * list vertex)) (l : list vertex) : list (vertex * list vertex) :=
  match l with
  | a :: ((b :: _) as r) =>
    if gl_eq2d L (v_pt a) (v_pt b) then
      if d =? 0 then scan_runs L (d + 2) (run ++ [a; b]) out r
      else scan_runs L (d + 1) (run ++ [b]) out r
    else scan_runs L 0 [] (if 1 <? d then out ++ [(a, run)] else out) r
  | _ => out
  end.

(** lnr/fc.go:17-60 FCPlanarSelfIntersection: the entry of the result map for feature
    [fid].  [srt] is vertices.Sort (lnr/vertices.go:34-36, sort.Sort, not stable). *)
Definition fc_junctions (L : geomlib) (srt : list vertex -> list vertex)
    (fc : list (Z * list point)) (fid : Z) : list Z :=
  map v_idx
    (filter (fun v => v_fid v =? fid)
       (flat_map snd (scan_runs L 0 [] [] (srt (class_vertices fc))))).

(** lnr/common.go:10 NullFId. *)
Definition null_fid : Z := -9.

(** lnr/self.go:25-61 planarIntersects: for each context its point and its vertex
    indices.  iter.SortedIntsSet (external) is [zset] and returns a fresh slice. *)
Definition planar_intersects (L : geomlib) (srt : list vertex -> list vertex)
    (pts : list point) : list (point * list Z) :=
  map (fun g => (v_pt (fst g), zset (map v_idx (snd g))))
    (scan_runs L 0 [] [] (srt (number_vertices null_fid 0 pts))).

(** lnr/self.go:106-111 cacheKey of the segments (i,i+1) and (j,j+1);
    geometry/pln.go:27-41 SegmentBounds gives segment d the ends d and d+1. *)
Definition cache_key (a b : Z) : Z * Z * Z * Z :=
  if b <? a then (b, b + 1, a, a + 1) else (a, a + 1, b, b + 1).

Definition key_eqb (k l : Z * Z * Z * Z) : bool :=
  let '(a, b, c, d) := k in let '(e, f, g, h) := l in
  (a =? e) && (b =? f) && (c =? g) && (d =? h).

(** lnr/self.go:71-101, the two loops: [cache] is the map of keys, [seen] the pairs
    (s, o) handed to SegSegIntersection, in order. *)
Fixpoint pairs_inner (s : Z) (ns : list Z) (cache : list (Z * Z * Z * Z)) (seen : list (Z * Z))
  : list (Z * Z * Z * Z) * list (Z * Z) :=
  match ns with
  | [] => (cache, seen)
  | o :: r =>
    if s =? o then pairs_inner s r cache seen
    else
      let k := cache_key s o in
      if existsb (key_eqb k) cache then pairs_inner s r cache seen
      else pairs_inner s r (k :: cache) (seen ++ [(s, o)])
  end.
Fixpoint pairs_outer (near : Z -> list Z) (ds : list Z) (cache : list (Z * Z * Z * Z))
    (seen : list (Z * Z)) : list (Z * Z) :=
  match ds with
  | [] => seen
  | s :: r =>
    let '(cache, seen) := pairs_inner s (near s) cache seen in
    pairs_outer near r cache seen
  end.
Definition examined_pairs (near : Z -> list Z) (pts : list point) : list (Z * Z) :=
  pairs_outer near (zseq 0 (zlen pts - 2)) [] [].

(** geom.InterPoint (external): the point, IsVertex and IsVerteXOR. *)
Record interpoint := InterPoint { ip_pt : point; ip_vertex : bool; ip_xor : bool }.

(** lnr/self.go:63-103 nonPlanarIntersection: contexts in order.  [near s] is
    tree.Search(s.MBR) on the segment index; [segx] is geom.SegSegIntersection. *)
Definition non_planar_intersects (segx : point -> point -> point -> point -> list interpoint)
    (near : Z -> list Z) (pts : list point) : list (point * list Z) :=
  let at_ i := nth (Z.to_nat i) pts origin in
  flat_map (fun so : Z * Z =>
    let (s, o) := so in
    map (fun ip => (ip_pt ip, zset [s; s + 1; o; o + 1]))
      (filter (fun ip => negb (ip_vertex ip && negb (ip_xor ip)))
         (segx (at_ s) (at_ (s + 1)) (at_ o) (at_ (o + 1)))))
    (examined_pairs near pts).

(** lnr/self.go:13-22 SelfIntersection. *)
Definition self_intersection (L : geomlib) (srt : list vertex -> list vertex)
    (segx : point -> point -> point -> point -> list interpoint) (near : Z -> list Z)
    (planar non_planar : bool) (pts : list point) : list (point * list Z) :=
  (if planar then planar_intersects L srt pts else []) ++
  (if non_planar then non_planar_intersects segx near pts else []).
