(** Two pictures of the same scene: every vertex of one answers to a vertex of the other, and
    every question the program asks about one has the same answer about the other. *)
From Coq Require Import QArith.
From Verif Require Import M_Base M_Float M_Rng M_Geom M_Offset M_Node M_Decompose M_Hdb M_Knn M_Lnr M_Relate M_Deform M_Constrain M_ConstDP
  M_IO Spec Spec_Hdb Spec_Lnr Spec_Relate Spec_ConstDP Spec_IO Spec_Run Spec_Out Spec_Plane.
Open Scope Z_scope.

(** A number and a bound compare alike. *)
Definition compare_alike (x d x' d' : f64) : Prop :=
  flt x d = flt x' d' /\ fle x d = fle x' d' /\ fle d x = fle d' x'.

Definition same_kind (g g' : geometry) : Prop :=
  match g, g' with
  | GPoint _, GPoint _ | GSeg _ _, GSeg _ _ | GLine _, GLine _ => True
  | GPoly rs, GPoly rs' => length rs = length rs'
  | _, _ => False
  end.

(** The switches of the two runs are the same; the thresholds may differ. *)
Definition same_switches (o o' : opts) : Prop :=
  o_planar_self o' = o_planar_self o /\ o_non_planar_self o' = o_non_planar_self o /\
  o_avoid_self o' = o_avoid_self o /\ o_geom o' = o_geom o /\ o_dist o' = o_dist o /\ o_dir o' = o_dir o.

(** [P] pairs the points and [C] the geometries of the two pictures. *)
Record alike (L L' : geomlib) (P : point -> point -> Prop) (C : geometry -> geometry -> Prop) (o o' : opts) : Prop := {
  al_point : forall p p', P p p' -> C (GPoint p) (GPoint p');
  al_seg : forall a a' b b', P a a' -> P b b' -> C (GSeg a b) (GSeg a' b');
  al_line : forall l l', (2 <= length l)%nat -> Forall2 P l l' -> C (GLine l) (GLine l');
  al_triangle : forall a a' b b' c c', P a a' -> P b b' -> P c c' -> C (GPoly [[a; b; c; a]]) (GPoly [[a'; b'; c'; a']]);
  al_hull : forall l l', (2 <= length l)%nat -> Forall2 P l l' ->
    C (hull_geometry (gl_hull L l)) (hull_geometry (gl_hull L' l')) /\
    same_kind (hull_geometry (gl_hull L l)) (hull_geometry (gl_hull L' l'));
  (* the same geometries meet, the same points coincide *)
  al_isect : forall g g' h h', C g g' -> C h h' -> gl_isect L' g' h' = gl_isect L g h;
  al_same : forall p p' q q', P p p' -> P q q' -> gl_eq2d L' p' q' = gl_eq2d L p q;
  (* distances are on the same side of the minimum distance *)
  al_dist : forall g g' h h', C g g' -> C h h' ->
    compare_alike (gl_dist L g h) (o_min_dist o) (gl_dist L' g' h') (o_min_dist o');
  (* with avoid_self: they meet in the same points, the same points are inside the hulls, and points are
     displaced alike *)
  al_meet : o_avoid_self o = true -> forall g g' h h', C g g' -> C h h' ->
    exists l, Permutation (gl_inter L' g' h') l /\ Forall2 P (gl_inter L g h) l;
  al_inside : o_avoid_self o = true -> forall l l' s s' hs hs' p p', Forall2 P l l' -> P p p' ->
    hull_geometry (gl_hull L l) = GPoly (s :: hs) -> hull_geometry (gl_hull L' l') = GPoly (s' :: hs') ->
    gl_in_ring L' s' p' = gl_in_ring L s p;
  al_moved : o_avoid_self o = true -> forall p p' q q', P p p' -> P q q' ->
    fgt (gl_ptdist L' p' q') (o_non_planar_displacement o') = fgt (gl_ptdist L p q) (o_non_planar_displacement o)
}.

(** Within one picture: parts that meet are near each other, parts that follow one another meet,
    and what a triangle of vertices meets is in its box. *)
Record sound_boxes (L : geomlib) (pts : list point) (constraints : list geometry) : Prop := {
  sb_near : forall r q, piece pts r -> piece pts q -> gl_isect L (piece_hull L pts r) (piece_hull L pts q) = true ->
    boxes_meet (gl_bounds L (piece_hull L pts r)) (gl_bounds L (piece_hull L pts q)) = true /\
    fle (gl_dist L (piece_hull L pts q) (piece_hull L pts r)) epsilon_dist = true;
  sb_follow : forall r q, piece pts r -> piece pts q -> rJ r = rI q \/ rJ q = rI r ->
    gl_isect L (piece_hull L pts r) (piece_hull L pts q) = true;
  sb_triangle : forall r, piece pts r -> boxes_enclose L (sub_coords pts r) constraints
}.

(** The scores of corresponding parts split at the same place and are accepted alike. *)
Definition scores_alike (pts pts' : list point) (score score' : scorefn) (accept accept' : f64 -> bool) : Prop :=
  forall r, piece pts r ->
    fst (score' (sub_coords pts' r)) = fst (score (sub_coords pts r)) /\
    accept' (snd (score' (sub_coords pts' r))) = accept (snd (score (sub_coords pts r))).

(** The vertices where the line is reported to meet itself are forced to stay. *)
Definition forced_by (found : list (point * list Z)) (k : Z) : Prop := exists c, In c found /\ In k (snd c).

(** No two vertices lie at the greatest place (first by x, then by y) of the line. *)
Definition greatest_alone (pts : list point) : Prop :=
  forall k p k' q, znth pts k = Some p -> znth pts k' = Some q -> k' <> k -> loc_eq p q = true -> not_greatest pts p.

(** One line with its constraints can be simplified: the usual conditions on the libraries, the
    line, the constraints and the distances to bounding boxes. *)
Record ready (W : world) (ord : nat -> list node -> list node) (s : cdp) (constraints : list geometry) (verts : list Z)
    (fuel : nat) : Prop := {
  rd_libs : libs_ok W;
  rd_ord : any_order ord;
  rd_line : line_ok (w_geom W) s;
  rd_built : built_from W s constraints;
  rd_verts : Forall (fun k => 0 <= k < zlen (c_pts s)) verts;
  rd_fuel : (2 * length (c_pts s) - 3 < fuel)%nat;
  rd_min : is_nan (o_min_dist (c_opts s)) = false;
  rd_box : forall r g, piece (c_pts s) r -> In g constraints ->
    box_distance_ok (w_geom W) (piece_hull (w_geom W) (c_pts s) r) g (gl_bounds (w_geom W) g);
  rd_far : o_planar_self (c_opts s) = true ->
    forall c, In c (self_intersections W s ++ map (fun k => (nth (Z.to_nat k) (c_pts s) origin, [k])) verts) ->
    boxes_not_farther (w_geom W) (c_pts s) c /\ location_on_hulls (w_geom W) (c_pts s) c
}.

(** How the offsets of the vertices of two pictures compare: which of two is larger, and which are within
    the threshold. *)
Definition offsets_alike (pts pts' : list point) (dist dist' : point -> point -> point -> f64) (T T' : f64) : Prop :=
  let at_ l k := nth (Z.to_nat k) l origin in
  fle fzero T' = fle fzero T /\
  forall i j, 0 <= i -> i < j -> j < zlen pts ->
    (forall k, i < k < j ->
       fle fzero (dist' (at_ pts' i) (at_ pts' j) (at_ pts' k)) = fle fzero (dist (at_ pts i) (at_ pts j) (at_ pts k)) /\
       fle (dist' (at_ pts' i) (at_ pts' j) (at_ pts' k)) T' = fle (dist (at_ pts i) (at_ pts j) (at_ pts k)) T) /\
    (forall k l, i < k < j -> i < l < j ->
       fle (dist' (at_ pts' i) (at_ pts' j) (at_ pts' k)) (dist' (at_ pts' i) (at_ pts' j) (at_ pts' l)) =
       fle (dist (at_ pts i) (at_ pts j) (at_ pts k)) (dist (at_ pts i) (at_ pts j) (at_ pts l))).

(** ** In the plane *)

(** An affine map of the plane: shifts, turns, mirrors, scalings, shears. *)
Record affine := Affine { af_a : Q; af_b : Q; af_c : Q; af_d : Q; af_e : Q; af_f : Q }.
Definition carries (t : affine) (q q' : place) : Prop :=
  (fst q' == af_a t * fst q + af_b t * snd q + af_e t)%Q /\ (snd q' == af_c t * fst q + af_d t * snd q + af_f t)%Q.
Definition invertible (t : affine) : Prop := ~ (af_a t * af_d t - af_b t * af_c t == 0)%Q.

(** The map takes one point exactly to the other. *)
Definition moved (t : affine) (p p' : point) : Prop :=
  machine_pt p /\ machine_pt p' /\ carries t (xof p, yof p) (xof p', yof p').
(** The map takes the places of one geometry to those of the other. *)
Definition moved_geometry (D D' : geometry -> place -> Prop) (t : affine) (g g' : geometry) : Prop :=
  number_geometry g /\ number_geometry g' /\ Forall machine_pt (geometry_pts g) /\ Forall machine_pt (geometry_pts g') /\
  forall q q', carries t q q' -> (D g q <-> D' g' q').

(** What is left to the library and the thresholds when the map is given: lengths compare alike with the thresholds,
    flat hulls stay flat, crossings move along. *)
Record moves_along (L L' : geomlib) (D D' : geometry -> place -> Prop) (t : affine) (o o' : opts) : Prop := {
  mv_flat : forall l l', (2 <= length l)%nat -> Forall2 (moved t) l l' ->
    same_kind (hull_geometry (gl_hull L l)) (hull_geometry (gl_hull L' l'));
  mv_dist : forall g g' h h', moved_geometry D D' t g g' -> moved_geometry D D' t h h' ->
    compare_alike (gl_dist L g h) (o_min_dist o) (gl_dist L' g' h') (o_min_dist o');
  mv_meet : o_avoid_self o = true -> forall g g' h h', moved_geometry D D' t g g' -> moved_geometry D D' t h h' ->
    exists l, Permutation (gl_inter L' g' h') l /\ Forall2 (moved t) (gl_inter L g h) l;
  mv_inside : o_avoid_self o = true -> forall l l' s s' hs hs' p p', Forall2 (moved t) l l' -> moved t p p' ->
    hull_geometry (gl_hull L l) = GPoly (s :: hs) -> hull_geometry (gl_hull L' l') = GPoly (s' :: hs') ->
    gl_in_ring L' s' p' = gl_in_ring L s p;
  mv_displaced : o_avoid_self o = true -> forall p p' q q', moved t p p' -> moved t q q' ->
    fgt (gl_ptdist L' p' q') (o_non_planar_displacement o') = fgt (gl_ptdist L p q) (o_non_planar_displacement o)
}.

(** Corresponding parts of two features: moved vertices, scores and forced vertices alike. *)
Definition moved_part {P} (lib : jsonlib P) (S S' : setup) (t : affine) (o o' : opts) (score score' : scorefn)
    (c c' : list (list f64)) : Prop :=
  let pts := map (jl_point lib) c in let pts' := map (jl_point lib) c' in
  Forall2 (moved t) pts pts' /\
  scores_alike pts pts' score score' (fun v => fle v (o_threshold o)) (fun v => fle v (o_threshold o')) /\
  (o_planar_self o = true -> forall k, forced_by (self_intersections (su_world S) (proto o score pts)) k <->
     forced_by (self_intersections (su_world S') (proto o' score' pts')) k).

(** The vertices of the parts of a feature at the given indices. *)
Definition vertices_at {P} (lib : jsonlib P) (parts : list (list (list f64))) (ss : list (list Z)) : list (list point) :=
  map (fun cs => map (vertex (map (jl_point lib) (fst cs))) (snd cs)) (combine parts ss).
