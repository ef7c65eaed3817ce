(** What the lines written by a run satisfy: vocabulary for C56-C60. *)
From Coq Require Import Ascii String.
From Verif Require Import M_Base M_Float M_Rng M_Geom M_Offset M_Node M_Decompose M_Hdb M_Knn M_Lnr M_Homotopy M_Relate
  M_Constrain M_ConstDP M_Text M_IO Spec Spec_Lnr Spec_Relate Spec_ConstDP Spec_Text Spec_IO Spec_Run.
Open Scope Z_scope.

(** Two kept vertices with no kept vertex between them. *)
Definition next_kept (s : list Z) (a b : Z) : Prop :=
  In a s /\ In b s /\ a < b /\ forall x, In x s -> ~ a < x < b.

Definition vertex (pts : list point) (k : Z) : point := nth (Z.to_nat k) pts origin.

(** The part of a line between two vertices with its convex hull and its chord. *)
Definition part (L : geomlib) (pts : list point) (a b : Z) : node :=
  create_node L 0 (sub_coords pts (Rng a b)) (Rng a b) 0.

(** Every chord that replaces a part of the line that is not straight stands in the enabled
    relations to all constraints: it meets those the part meets and no other, it keeps the
    minimum distance unless the part did not, and it passes them on the same side. *)
Definition honours (L : geomlib) (o : opts) (constraints : list geometry) (pts : list point) (s : list Z) : Prop :=
  forall a b, next_kept s a b -> b - a <> 1 -> is_line (piece_hull L pts (Rng a b)) = false ->
  let line := GLine (points_of pts (Rng a b)) in
  let chord := GSeg (vertex pts a) (vertex pts b) in
  (o_geom o = true -> forall g, In g constraints -> gl_isect L line g = gl_isect L chord g) /\
  (o_dist o = true -> forall g, In g constraints ->
     fle (o_min_dist o) (gl_dist L chord g) = true \/ flt (gl_dist L line g) (o_min_dist o) = true) /\
  (o_dir o = true -> homotopy L (sub_coords pts (Rng a b)) constraints = Ok true).

(** Every dropped vertex is within the threshold of the chord that replaces it. *)
Definition within_threshold (distfn : point -> point -> point -> f64) (T : f64) (pts : list point) (s : list Z) : Prop :=
  forall a b k, next_kept s a b -> a < k < b ->
  let d := distfn (vertex pts a) (vertex pts b) (vertex pts k) in is_nan d = false -> fle d T = true.

(** Every dropped vertex is within the threshold of a chord of the line: of a segment between
    two vertices of the input, one at or before the kept vertex before it, one at or after the
    kept vertex after it, that all the vertices between those two are within the threshold of. *)
Definition near_a_chord (distfn : point -> point -> point -> f64) (T : f64) (pts : list point) (s : list Z) : Prop :=
  forall a b, next_kept s a b -> exists i j, 0 <= i <= a /\ b <= j < zlen pts /\
    forall k, i < k < j ->
    let d := distfn (vertex pts i) (vertex pts j) (vertex pts k) in is_nan d = false -> fle d T = true.

(** What the geometry library promises about a line and the constraints (see C25): a point is
    at its own location; hulls enclose what they are hulls of; boxes are not farther than
    what is in them. *)
Definition geometry_ok (L : geomlib) (constraints : list geometry) (pts : list point) : Prop :=
  (forall p, In p pts -> gl_eq2d L p p = true) /\
  forall a b g, 0 <= a -> a < b -> b < zlen pts -> In g constraints ->
    hull_encloses L (part L pts a b) g /\ box_distance_ok L (piece_hull L pts (Rng a b)) g (gl_bounds L g).

(** The line simplified on its own: [s] is what constrained simplification of [pts] keeps, with
    the ids and the map orders the run gives to the line numbered [id]. *)
Definition simplified_alone (S : setup) (o : opts) (score : scorefn) (constraints : list geometry)
    (pts : list point) (s : list Z) : Prop :=
  exists id db hs n,
    let W := su_world S in
    build_context_db (w_geom W) (w_hdb W) id constraints = Ok db /\
    simplify (World (w_geom W) (su_gens S id) (w_hdb W) (w_pop W) (w_lnr W)) (su_ords S id)
      (Cdp id pts o score None db) [] (su_fuel S) 0 = Ok (hs, n) /\
    s = simple_set hs.

(** [kept] are the vertices of [pts] at indices that are kept and satisfy [R]. *)
Definition kept_with (R : list point -> list Z -> Prop) (pts kept : list point) : Prop :=
  exists s, kept_ok (zlen pts) s /\ R pts s /\ kept = map (vertex pts) s.

(** A run on an input file that holds the features [fs], one per line, and a constraint file
    that holds the geometries [constraints]. *)
Record run_input {P} (lib : jsonlib P) (S : setup) (is_class : bool) (o : opts) (score : scorefn)
    (input cinput : list bytes) (fs : list (jfeat P)) (constraints : list geometry) : Prop := {
  ri_json : json_ok lib;
  ri_setup : setup_ok S;
  (* the input file: lines that are geometries or features with at least one line *)
  ri_lines : Forall (fun l => ~ In newline l) input;
  ri_docs : exists toks docs, lines_kept input toks /\ Forall2 (reads lib) toks docs /\ Forall2 one_feature docs fs;
  ri_few : zlen fs < 2 ^ 63;
  ri_parts : Forall (fun f => zlen (feature_parts f) < 2 ^ 63) fs;
  (* the constraint file *)
  ri_clines : Forall (fun l => ~ In newline l) cinput;
  ri_cdocs : exists toks docs, lines_kept cinput toks /\ Forall2 (reads lib) toks docs /\
    Forall has_geometry (flat_map doc_features docs) /\
    flat_map (constraint_parts lib) (flat_map doc_features docs) = map Some constraints;
  ri_boxes : Forall (fun g => good_bounds (gl_bounds (w_geom (su_world S)) g)) constraints;
  (* the lines can be simplified *)
  ri_ok : Forall (fun pts => line_ok (w_geom (su_world S)) (proto o score pts))
    (map (map (jl_point lib)) (flat_map feature_parts fs));
  ri_class : is_class = true -> class_ok S (map (map (jl_point lib)) (flat_map feature_parts fs));
  ri_fuel : (2 * length (concat (map (map (jl_point lib)) (flat_map feature_parts fs))) + 2 <= su_fuel S)%nat
}.

(** The run writes one feature for each feature read, with its properties, and for every part
    the vertices at indices that satisfy [R]. *)
Definition writes {P} (lib : jsonlib P) (S : setup) (is_class : bool) (o : opts) (score : scorefn)
    (input cinput : list bytes) (fs : list (jfeat P)) (R : list point -> list Z -> Prop) : Prop :=
  exists outs, run lib S is_class o score (unlines input) (unlines cinput) = Ok outs /\
    length outs = length fs /\
    forall i f, nth_error fs i = Some f -> exists ot kept, nth_error outs i = Some ot /\
      of_props ot = props_or_empty lib f /\
      Forall2 (fun c k => kept_with R (map (jl_point lib) c) k) (feature_parts f) kept /\
      written_parts (jl_zero lib) kept (of_geom ot).

(** A written feature as a document: its geometry has the type and the coordinates written. *)
Definition written_feature {P} (ot : @ofeature P) : jfeat P :=
  JFeat (Some (match of_geom ot with
               | OLine cs => JGeom (named "LineString") [] [] cs [] [] []
               | OMulti css => JGeom (named "MultiLineString") [] [] [] css [] []
               end)) (Some (of_props ot)).
(** The text of a feature is one line that is not blank, starts and ends with no white space,
    and is read as that feature. *)
Definition json_text {P} (lib : jsonlib P) (write : @ofeature P -> bytes) (ot : @ofeature P) : Prop :=
  ~ In newline (write ot) /\ ~ blank (write ot) /\ trimmed (write ot) (write ot) /\
  reads lib (write ot) (DFeature (written_feature ot)).
