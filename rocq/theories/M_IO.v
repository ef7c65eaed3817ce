(** Model of the reading of GeoJSON lines, the writing of features and the main program. *)
From Coq Require Import Ascii String.
From Verif Require Import M_Base M_Float M_Rng M_Geom M_Offset M_Node M_Hdb M_Lnr M_Relate M_ConstDP M_Text.
Open Scope Z_scope.

(** go.geojson Geometry (external): its type and one field per type. *)
Record jgeom := JGeom {
  jg_type : bytes;
  jg_point : list f64;
  jg_multipoint : list (list f64);
  jg_line : list (list f64);
  jg_multiline : list (list (list f64));
  jg_polygon : list (list (list f64));
  jg_multipolygon : list (list (list (list f64)))
}.
(** go.geojson Feature (external): a geometry, nil for null, and properties, nil when absent.
    A null feature of a collection is one without geometry: both panic at the first use. *)
Record jfeat (P : Type) := JFeat { jf_geom : option jgeom; jf_props : option P }.
Arguments JFeat {P}. Arguments jf_geom {P}. Arguments jf_props {P}.

(** The JSON libraries (external).  [P]: decoded non-nil property maps.  [None] of a decoder is
    its error.  [jl_marshal] has no error on decoded maps. *)
Record jsonlib (P : Type) := JsonLib {
  jl_type : bytes -> option bytes;                (* json.Unmarshal into JSONType: the "type" *)
  jl_geometry : bytes -> option jgeom;            (* geojson.UnmarshalGeometry *)
  jl_feature : bytes -> option (jfeat P);         (* geojson.UnmarshalFeature *)
  jl_collection : bytes -> option (list (jfeat P)); (* geojson.UnmarshalFeatureCollection *)
  jl_marshal : option P -> bytes;                 (* json.Marshal of Properties *)
  jl_unmarshal : bytes -> option P;               (* json.Unmarshal into a map *)
  jl_empty : P;                                   (* make(map[string]interface{}, 0) *)
  jl_point : list f64 -> point;                   (* geom.CreatePoint, also in AsCoordinates *)
  jl_zero : f64 -> bool                           (* math.FloatEqual(x, 0) *)
}.
Arguments jl_type {P}. Arguments jl_geometry {P}. Arguments jl_feature {P}. Arguments jl_collection {P}.
Arguments jl_marshal {P}. Arguments jl_unmarshal {P}. Arguments jl_empty {P}. Arguments jl_point {P}.
Arguments jl_zero {P}. Arguments JsonLib {P}.

(** geometry/utils.go:4-8 checkError. *)
Definition check {A} (x : option A) : res A := match x with Some a => Ok a | None => Panic end.

(** geometry/geojson.go:12-21. *)
Definition TPoint := str "Point".
Definition TLineString := str "LineString".
Definition TPolygon := str "Polygon".
Definition TMultiPoint := str "MultiPoint".
Definition TMultiLineString := str "MultiLineString".
Definition TMultiPolygon := str "MultiPolygon".
Definition TFeature := str "Feature".
Definition TFeatureCollection := str "FeatureCollection".

(** geometry/jsontype.go:8-11 isGeometryType. *)
Definition is_geometry_type (t : bytes) : bool :=
  bytes_eqb t TPoint || bytes_eqb t TLineString || bytes_eqb t TPolygon ||
  bytes_eqb t TMultiPoint || bytes_eqb t TMultiLineString || bytes_eqb t TMultiPolygon.

Definition is_type (g : jgeom) (t : bytes) : bool := bytes_eqb (jg_type g) t.

(** geometry/pln.go:11-16 Polyline: id, meta, points (the LineString is nil when there are
    fewer than two), indices of the simplified points. *)
Record polyline := Pln { pl_id : bytes; pl_meta : bytes; pl_pts : list point; pl_simple : list Z }.

(** [for pos, x := range l]. *)
Definition numbered {A} (l : list A) : list (Z * A) := combine (zseq 0 (zlen l - 1)) l.

Section Lib.
  Context {P : Type} (lib : jsonlib P).

  (** geometry/geojson.go:142-145 createPolyline. *)
  Definition mk_polyline (id : bytes) (coords : list (list f64)) (meta : bytes) : polyline :=
    Pln id meta (map (jl_point lib) coords) [].

  (** geometry/geojson_geom.go:29-46 lineStringFromFeature, with createPolyline. *)
  Definition line_strings (idx : Z) (g : jgeom) (meta : bytes) : list polyline :=
    if is_type g TLineString then [mk_polyline (compose_id idx 0) (jg_line g) meta]
    else if is_type g TMultiLineString
    then map (fun pc => mk_polyline (compose_id idx (fst pc)) (snd pc) meta) (numbered (jg_multiline g))
    else [].

  (** geometry/geojson.go:106-115 createPolylineGeoms. *)
  Definition create_polylines (idx : Z) (feat : jfeat P) : res (list polyline) :=
    match jf_geom feat with
    | None => Panic
    | Some g =>
      if is_type g TLineString || is_type g TMultiLineString
      then Ok (line_strings idx g (jl_marshal lib (jf_props feat)))
      else Ok []
    end.

  (** The features of one line of text: the common part of geometry/geojson.go:49-75 and 77-104. *)
  Definition features_of (fjson : bytes) : res (list (jfeat P)) :=
    t <- check (jl_type lib fjson) ;;
    if is_geometry_type t then
      g <- check (jl_geometry lib fjson) ;; Ok [JFeat (Some g) None]
    else if bytes_eqb t TFeature then
      f <- check (jl_feature lib fjson) ;; Ok [f]
    else if bytes_eqb t TFeatureCollection then check (jl_collection lib fjson)
    else Ok [].

  (** geometry/geojson.go:49-75 parseInputLinearFeatures from line [idx] on. *)
  Fixpoint parse_from (idx : Z) (inputs : list bytes) : res (list polyline) :=
    match inputs with
    | [] => Ok []
    | fjson :: r =>
      fs <- features_of fjson ;;
      ls <- mapM (create_polylines idx) fs ;;
      rest <- parse_from (idx + 1) r ;;
      Ok (concat ls ++ rest)
    end.
  Definition parse_input (inputs : list bytes) : res (list polyline) := parse_from 0 inputs.

  (** geometry/geojson.go:117-136 createIGeom and geojson_geom.go:8-29, 49-66, with createPoint,
      createPolyline and createPolygon.  Ids and meta of constraints are never read.  [None] is
      a polyline of fewer than two coordinates, which has no geometry. *)
  Definition line_constraint (coords : list (list f64)) : option geometry :=
    if zlen coords <? 2 then None else Some (GLine (map (jl_point lib) coords)).
  Definition polygon_constraint (rings : list (list (list f64))) : option geometry :=
    Some (GPoly (map (map (jl_point lib)) rings)).
  Definition create_constraints (feat : jfeat P) : res (list (option geometry)) :=
    match jf_geom feat with
    | None => Panic
    | Some g =>
      Ok (if is_type g TPoint then [Some (GPoint (jl_point lib (jg_point g)))]
          else if is_type g TMultiPoint
          then map (fun c => Some (GPoint (jl_point lib c))) (jg_multipoint g)
          else if is_type g TLineString then [line_constraint (jg_line g)]
          else if is_type g TMultiLineString then map line_constraint (jg_multiline g)
          else if is_type g TPolygon then [polygon_constraint (jg_polygon g)]
          else if is_type g TMultiPolygon then map polygon_constraint (jg_multipolygon g)
          else [])
    end.
  (** geometry/geojson.go:77-104 parseConstraintFeatures. *)
  Fixpoint parse_constraints (inputs : list bytes) : res (list (option geometry)) :=
    match inputs with
    | [] => Ok []
    | fjson :: r =>
      fs <- features_of fjson ;;
      gs <- mapM create_constraints fs ;;
      rest <- parse_constraints r ;;
      Ok (concat gs ++ rest)
    end.

  (** ** Output features *)

  Inductive ogeom :=
  | OLine (coords : list (list f64))
  | OMulti (parts : list (list (list f64))).
  (** geometry/types.go:25-29 LineStringFeature, before json.Marshal. *)
  Record ofeature := OFeat { of_props : P; of_geom : ogeom }.

  (** encode.go:52-61 isCoords3D. *)
  Fixpoint is_3d (pts : list point) : bool :=
    match pts with
    | [] => false
    | p :: r => if negb (jl_zero lib (pz p)) then true else is_3d r
    end.
  (** encode.go:63-74 extractCoords. *)
  Definition extract_coords (pts : list point) : list (list f64) :=
    let d3 := is_3d pts in
    map (fun p => if negb d3 then [px p; py p] else [px p; py p; pz p]) pts.

  (** encode.go:76-88 getMeta. *)
  Definition get_meta (p : polyline) : res P :=
    if bytes_eqb (pl_meta p) (str "null") then Ok (jl_empty lib)
    else check (jl_unmarshal lib (pl_meta p)).

  (** gpoly.geom.Simple.Points(). *)
  Definition simple_points (p : polyline) : list point := cpts (Coords (pl_pts p) (pl_simple p)).

  (** encode.go:90-127 createGeoJSONString; featLns[0] of nothing panics. *)
  Definition create_geojson (lns : list polyline) : res ofeature :=
    match lns with
    | [] => Panic
    | [p] => meta <- get_meta p ;; Ok (OFeat meta (OLine (extract_coords (simple_points p))))
    | p :: _ =>
      meta <- get_meta p ;;
      Ok (OFeat meta (OMulti (map (fun q => extract_coords (simple_points q)) lns)))
    end.

  (** encode.go:15-19 PolyGeom and 28-35 groupById: (index, pos, polyline) in order. *)
  Definition entry : Type := Z * Z * polyline.
  Definition e_index (e : entry) : Z := fst (fst e).
  Definition e_pos (e : entry) : Z := snd (fst e).
  Definition entries (plns : list polyline) : res (list entry) :=
    mapM (fun p => ip <- index_pos (pl_id p) ;; Ok (ip, p)) plns.
  Definition at_index (es : list entry) (k : Z) : list entry := filter (fun e => e_index e =? k) es.
  (** encode.go:129-136 indices. *)
  Definition indices (es : list entry) : list Z := zset (map e_index es).

  (** sort.SliceStable by position. *)
  Fixpoint pos_ins (x : entry) (l : list entry) : list entry :=
    match l with
    | [] => [x]
    | y :: r => if e_pos x <=? e_pos y then x :: l else y :: pos_ins x r
    end.
  Definition pos_sort (l : list entry) : list entry := fold_right pos_ins [] l.

  (** encode.go:37-50 groupPlnsAsGeoJSONS: idx runs over the positions of indxs. *)
  Definition group_plns (plns : list polyline) : res (list ofeature) :=
    es <- entries plns ;;
    mapM (fun idx => create_geojson (map snd (pos_sort (at_index es idx))))
         (zseq 0 (zlen (indices es) - 1)).

  (** ** The program *)

  (** Constraint geometries for NewConstDP: one without geometry panics when it is used, which
      happens as soon as there is a polyline. *)
  Fixpoint all_geoms (l : list (option geometry)) : res (list geometry) :=
    match l with
    | [] => Ok []
    | None :: _ => Panic
    | Some g :: r => gs <- all_geoms r ;; Ok (g :: gs)
    end.

  (** simplify.go:14-22 and 31-38: one instance per polyline, [ids] drawn in turn. *)
  Fixpoint forest (W : world) (ids : nat -> Z) (k : nat) (plns : list polyline) (cs : list (option geometry))
      (o : opts) (score : scorefn) : res (list cdp) :=
    match plns with
    | [] => Ok []
    | p :: r =>
      gs <- all_geoms cs ;;
      c <- new_const_dp (w_geom W) (w_hdb W) (ids k) (pl_pts p) gs o score None ;;
      rest <- forest W ids (S k) r cs o score ;;
      Ok (c :: rest)
    end.

  (** The instance a hull belongs to (node.Instance). *)
  Definition env_of (d : cdp) (selfs : list cdp) (i : Z) : cdp :=
    match find (fun s => c_id s =? i) selfs with Some s => s | None => d end.

  (** simplify.go:42-51 setSimpleCoords; a nil LineString panics. *)
  Fixpoint set_simple (plns : list polyline) (out : list (cdp * list node)) : res (list polyline) :=
    match plns, out with
    | p :: r, (_, hs) :: s =>
      if zlen (pl_pts p) <? 2 then Panic
      else rest <- set_simple r s ;; Ok (Pln (pl_id p) (pl_meta p) (pl_pts p) (simple_set hs) :: rest)
    | _, _ => Ok []
    end.

  (** Everything a run draws from outside: geometry and index libraries, ids of instances and
      hulls, map iteration orders; and the fuel. *)
  Record setup := Setup {
    su_world : world;
    su_ids : nat -> Z;
    su_gens : Z -> idgen;
    su_ords : Z -> nat -> list node -> list node;
    su_ord : nat -> list node -> list node;
    su_fuel : nat
  }.

  (** main.go:63-97 from the contents of the two files to the features written; simplify.go:11-40.
      With no polyline there is nothing to simplify. *)
  Definition run (S : setup) (is_class : bool) (o : opts) (score : scorefn)
      (input constraints : bytes) : res (list ofeature) :=
    plns <- parse_input (read_json_tokens input) ;;
    cs <- parse_constraints (read_json_tokens constraints) ;;
    selfs <- forest (su_world S) (su_ids S) 0 plns cs o score ;;
    done <- (match selfs with
             | [] => Ok []
             | d :: _ =>
               if is_class
               then simplify_feature_class (su_world S) (su_gens S) (su_ords S) (su_ord S)
                      (env_of d selfs) selfs o (su_fuel S)
               else simplify_instances (su_world S) (su_gens S) (su_ords S) (fun _ => []) (su_fuel S) selfs
             end) ;;
    plns <- set_simple plns done ;;
    group_plns plns.
End Lib.
Arguments OFeat {P}. Arguments of_props {P}. Arguments of_geom {P}.

(** main.go:98 strings.Join(output, "\n").  [write] is json.Marshal of a feature (external) as
    used in encode.go:105-106 and 124-125: its error is ignored and then there is no text. *)
Fixpoint join_lines (l : list bytes) : bytes :=
  match l with
  | [] => []
  | x :: r => match r with [] => x | _ => x ++ nl :: join_lines r end
  end.
Definition output_text {P} (write : @ofeature P -> bytes) (outs : list (@ofeature P)) : bytes :=
  join_lines (map write outs).

(** ** Configuration *)

(** cfg.go:10-25 ArgObj. *)
Record config := Config {
  g_input : bytes; g_output : bytes; g_constraints : bytes; g_type : bytes;
  g_threshold : f64; g_min_dist : f64; g_displacement : f64;
  g_class : bool; g_planar : bool; g_non_planar : bool; g_avoid : bool;
  g_geom : bool; g_dist : bool; g_side : bool
}.
(** cfg.go:35-47 optsFromCfg. *)
Definition opts_of (c : config) : opts :=
  Opts (g_threshold c) (g_min_dist c) (g_displacement c) (g_planar c) (g_non_planar c) (g_avoid c)
    (g_geom c) (g_dist c) (g_side c).

(** main.go:22-103.  [file] is the file system: the contents of a path that is a file.
    [decode] is json.Unmarshal into ArgObj.  The result is the path written and the features
    written to it; exits and panics write nothing. *)
Definition program {P} (lib : jsonlib P) (decode : bytes -> option config) (file : bytes -> option bytes)
    (S : setup) (dp sed : scorefn) (b f : bytes) : res (bytes * list (@ofeature P)) :=
  text <- config_text file b f ;;
  c <- check (decode text) ;;
  let o := opts_of c in
  score <- (match offset_fn (g_type c) with
            | Some DP => Ok dp
            | Some SED => Ok sed
            | None => Panic
            end) ;;
  input <- check (file (trim (g_input c))) ;;
  if bytes_eqb (trim (g_output c)) [] then Panic
  else
    cs <- (match file (trim (g_constraints c)) with
           | Some t => Ok t
           | None => if bytes_eqb (trim (g_constraints c)) [] then Ok [] else Panic
           end) ;;
    feats <- run lib S (g_class c) o score input cs ;;
    Ok (trim (g_output c), feats).
