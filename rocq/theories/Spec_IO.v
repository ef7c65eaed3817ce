(** Specification vocabulary for reading and writing GeoJSON. *)
From Coq Require Import Ascii String.
From Verif Require Import M_Base M_Float M_Geom M_Text M_IO.
Open Scope Z_scope.

Definition named (s : string) : list ascii := list_ascii_of_string s.

(** What a line of text is for the JSON libraries. *)
Inductive document (P : Type) :=
| DGeometry (g : jgeom)
| DFeature (f : jfeat P)
| DCollection (fs : list (jfeat P))
| DOther.
Arguments DGeometry {P}. Arguments DFeature {P}. Arguments DCollection {P}. Arguments DOther {P}.

Definition geometry_types : list (list ascii) :=
  map named ["Point"; "LineString"; "Polygon"; "MultiPoint"; "MultiLineString"; "MultiPolygon"]%string.

Inductive reads {P} (lib : jsonlib P) (s : bytes) : document P -> Prop :=
| R_geometry t g : jl_type lib s = Some t -> In t geometry_types -> jl_geometry lib s = Some g ->
    reads lib s (DGeometry g)
| R_feature f : jl_type lib s = Some (named "Feature") -> jl_feature lib s = Some f -> reads lib s (DFeature f)
| R_collection fs : jl_type lib s = Some (named "FeatureCollection") -> jl_collection lib s = Some fs ->
    reads lib s (DCollection fs)
| R_other t : jl_type lib s = Some t -> ~ In t geometry_types -> t <> named "Feature" ->
    t <> named "FeatureCollection" -> reads lib s DOther.

(** Geometries of a document, with their properties. *)
Definition doc_features {P} (d : document P) : list (jfeat P) :=
  match d with
  | DGeometry g => [JFeat (Some g) None]
  | DFeature f => [f]
  | DCollection fs => fs
  | DOther => []
  end.
Definition has_geometry {P} (f : jfeat P) : Prop := jf_geom f <> None.

(** The lines of a geometry: one for a LineString, the parts of a MultiLineString, else none. *)
Definition linear_parts (g : jgeom) : list (list (list f64)) :=
  if list_eq_dec ascii_dec (jg_type g) (named "LineString") then [jg_line g]
  else if list_eq_dec ascii_dec (jg_type g) (named "MultiLineString") then jg_multiline g
  else [].
Definition feature_parts {P} (f : jfeat P) : list (list (list f64)) :=
  match jf_geom f with Some g => linear_parts g | None => [] end.

(** The constraint geometries of a feature: every point, line and polygon in it. *)
Definition constraint_parts {P} (lib : jsonlib P) (f : jfeat P) : list (option geometry) :=
  match jf_geom f with
  | None => []
  | Some g =>
    let is t := if list_eq_dec ascii_dec (jg_type g) (named t) then true else false in
    let pts := map (jl_point lib) in
    let line c := match pts c with p :: q :: r => Some (GLine (p :: q :: r)) | _ => None end in
    if is "Point"%string then [Some (GPoint (jl_point lib (jg_point g)))]
    else if is "MultiPoint"%string then map (fun p => Some (GPoint p)) (pts (jg_multipoint g))
    else if is "LineString"%string then [line (jg_line g)]
    else if is "MultiLineString"%string then map line (jg_multiline g)
    else if is "Polygon"%string then [Some (GPoly (map pts (jg_polygon g)))]
    else if is "MultiPolygon"%string then map (fun rs => Some (GPoly (map pts rs))) (jg_multipolygon g)
    else []
  end.

(** A document that stands for one input line: a geometry or a feature with at least one part. *)
Definition one_feature {P} (d : document P) (f : jfeat P) : Prop :=
  (d = DFeature f \/ exists g, d = DGeometry g /\ f = JFeat (Some g) None) /\ feature_parts f <> [].

(** Coordinates as written: the third number only if one of the points has a non-zero one. *)
Inductive written (zero : f64 -> bool) (pts : list point) : list (list f64) -> Prop :=
| W3 : Exists (fun p => zero (pz p) = false) pts -> written zero pts (map (fun p => [px p; py p; pz p]) pts)
| W2 : Forall (fun p => zero (pz p) = true) pts -> written zero pts (map (fun p => [px p; py p]) pts).

(** A geometry written for parts: a LineString for one part, a MultiLineString otherwise. *)
Inductive written_parts (zero : f64 -> bool) : list (list point) -> ogeom -> Prop :=
| WP_one pts cs : written zero pts cs -> written_parts zero [pts] (OLine cs)
| WP_many parts css : length parts <> 1%nat -> Forall2 (written zero) parts css ->
    written_parts zero parts (OMulti css).

(** The points of [pts] at the indices [s]. *)
Definition pick {A} (d : A) (pts : list A) (s : list Z) : list A := map (fun k => nth (Z.to_nat k) pts d) s.

(** Properties survive the trip through JSON text; only absent properties give "null". *)
Record json_ok {P} (lib : jsonlib P) : Prop := {
  jo_trip : forall p, jl_unmarshal lib (jl_marshal lib (Some p)) = Some p;
  jo_null : jl_marshal lib None = named "null";
  jo_some : forall p, jl_marshal lib (Some p) <> named "null"
}.
Definition props_or_empty {P} (lib : jsonlib P) (f : jfeat P) : P :=
  match jf_props f with Some p => p | None => jl_empty lib end.
