(** Model of the readers and writers of io.go and parser.go that no command uses: WKT files and
    TOML files.  Files are their contents; errors of the file system other than a missing file are
    not modelled. *)
From Coq Require Import Ascii String.
From Verif Require Import M_Base M_Float M_Geom M_Text.
Open Scope Z_scope.

(** ** WKT *)

(** What io.go calls of the external package geom: WKTType, ReadWKT with ToCoordinates for
    line strings, and ReadGeometry; the last two panic on text they cannot read. *)
Record wktlib := WktLib {
  wl_type : bytes -> bytes;
  wl_coords : bytes -> res (list (list point));
  wl_geometry : bytes -> res geometry
}.

(** The error a reader returns: io.EOF of ReadString at the end of the file (io.go:98-113 never
    clears it), or the error of os.Open. *)
Inductive rerror := EOF | NotFound.

(** main.go:16-18. *)
Definition wkt_point : bytes := str "point".
Definition wkt_polygon : bytes := str "polygon".
Definition wkt_linestring : bytes := str "linestring".

(** io.go:16-33 readWKTInput. *)
Definition read_wkt_input (lib : wktlib) (file : option bytes) : res (list (list point) * rerror) :=
  match file with
  | None => Ok ([], NotFound)
  | Some data =>
    cs <- mapM (fun line => if bytes_eqb (wl_type lib line) wkt_linestring then wl_coords lib line else Ok [])
            (read_lines data) ;;
    Ok (concat cs, EOF)
  end.

(** io.go:80-96 readConstraints. *)
Definition read_wkt_constraints (lib : wktlib) (file : option bytes) : res (list geometry * rerror) :=
  match file with
  | None => Ok ([], NotFound)
  | Some data =>
    gs <- mapM (fun line =>
            let t := wl_type lib line in
            if bytes_eqb t wkt_point || bytes_eqb t wkt_linestring || bytes_eqb t wkt_polygon
            then g <- wl_geometry lib line ;; Ok [g] else Ok [])
            (read_lines data) ;;
    Ok (concat gs, EOF)
  end.

(** io.go:115-136 writeCoords: the contents of the file when nothing fails.  [writer] is the
    argument, applied to a line string. *)
Fixpoint write_coords (writer : list point -> bytes) (coords : list (list point)) : bytes :=
  match coords with
  | [] => []
  | o :: r => writer o ++ [nl] ++ write_coords writer r
  end.

(** ** TOML *)

(** Values toml.Unmarshal (external) puts into an interface{}.  A float32 is given by its value;
    [TOther] stands for every other type. *)
Inductive tval :=
| TF64 (x : f64)
| TF32 (x : f64)
| TI64 (z : Z)
| TI32 (z : Z)
| TArr (l : list tval)
| TOther.

(** parser.go:24-39 parseFloat. *)
Definition parse_float (o : tval) : res f64 :=
  match o with
  | TF64 x => Ok x
  | TF32 x => Ok x
  | TI64 z => Ok (f_of_Z z)
  | TI32 z => Ok (f_of_Z z)
  | TArr _ | TOther => Panic
  end.
(** The type assertion pt.([]interface{}). *)
Definition as_array (v : tval) : res (list tval) := match v with TArr l => Ok l | _ => Panic end.
(** parser.go:16-22 parsePointArray. *)
Definition parse_point_array (pt : tval) : res (list f64) := l <- as_array pt ;; mapM parse_float l.
(** parser.go:7-14 parseLinearArray. *)
Definition parse_linear_array (array : tval) : res (list (list f64)) :=
  row <- as_array array ;; mapM parse_point_array row.

(** Constructors of the external package geom; they may panic. *)
Record toml_geom := TomlGeom {
  tg_point : list f64 -> res geometry;
  tg_line : list (list f64) -> res geometry;
  tg_polygon : list (list (list f64)) -> res geometry
}.
(** io.go:157-161 ConstToml: the three maps, as their entries in the order a range yields them. *)
Record const_toml := ConstToml {
  ct_polylines : list (bytes * tval);
  ct_polygons : list (bytes * tval);
  ct_points : list (bytes * tval)
}.
(** io.go:177-183 parsePoints. *)
Definition parse_points (lib : toml_geom) (c : const_toml) : res (list geometry) :=
  mapM (fun e => a <- parse_point_array (snd e) ;; tg_point lib a) (ct_points c).
(** io.go:185-192 parsePolylines. *)
Definition parse_polylines (lib : toml_geom) (c : const_toml) : res (list geometry) :=
  mapM (fun e => a <- parse_linear_array (snd e) ;; tg_line lib a) (ct_polylines c).
(** io.go:194-204 parsePolygons. *)
Definition parse_polygons (lib : toml_geom) (c : const_toml) : res (list geometry) :=
  mapM (fun e => shells <- as_array (snd e) ;; cs <- mapM parse_linear_array shells ;; tg_polygon lib cs)
    (ct_polygons c).
(** io.go:163-175 Geometries. *)
Definition toml_geometries (lib : toml_geom) (c : const_toml) : res (list geometry) :=
  a <- parse_points lib c ;;
  b <- parse_polylines lib c ;;
  d <- parse_polygons lib c ;;
  Ok (a ++ b ++ d).

(** io.go:35-58 readTomlInput: the map given to the callback, in the order of the entries. *)
Definition toml_input (coords : list (list f64) -> res (list point)) (data : list (bytes * tval))
  : res (list (bytes * list point)) :=
  mapM (fun e => a <- parse_linear_array (snd e) ;; c <- coords a ;; Ok (fst e, c)) data.
