(** Model of packages opts, relate, the relation wrappers of constrain, and of
    ConstDP.ValidateContextRelation. *)
From Verif Require Import M_Base M_Float M_Rng M_Geom M_Node M_Hdb M_Knn M_Homotopy.
Open Scope Z_scope.

(** opts/opts.go:6-16 type Opts. *)
Record opts := Opts {
  o_threshold : f64;
  o_min_dist : f64;
  o_non_planar_displacement : f64;
  o_planar_self : bool;
  o_non_planar_self : bool;
  o_avoid_self : bool;
  o_geom : bool;
  o_dist : bool;
  o_dir : bool
}.

(** relate/geom.go:9-28 IsGeomRelateValid; constrain/bygeom.go:9-11. *)
Fixpoint geom_relate_valid (L : geomlib) (hull : node) (ctxs : list geometry) : bool :=
  match ctxs with
  | [] => true
  | g :: r =>
    let ln_inter := gl_isect L (n_line hull) g in
    let seg_inter := gl_isect L (n_seg hull) g in
    if negb ((seg_inter && negb ln_inter) || (negb seg_inter && ln_inter))
    then geom_relate_valid L hull r else false
  end.

(** relate/dist.go:10-33 IsDistRelateValid; constrain/bymindist.go:10-12. *)
Fixpoint dist_relate_valid (L : geomlib) (min_dist : f64) (hull : node) (ctxs : list geometry)
  : bool :=
  match ctxs with
  | [] => true
  | g :: r =>
    let original := gl_dist L (n_line hull) g in
    let simple := gl_dist L (n_seg hull) g in
    if fge simple min_dist || flt original min_dist
    then dist_relate_valid L min_dist hull r else false
  end.

(** constrain/byside.go:9-11, relate/dir.go:9-11. *)
Definition dir_relate_valid (L : geomlib) (hull : node) (ctxs : list geometry) : res bool :=
  homotopy L (n_coords hull) ctxs.

(** constdp/constructor.go:38-50 BuildContextDB: constraints become entries with the zero
    id, range and polyline. *)
Definition context_node (L : geomlib) (inst : Z) (g : geometry) : node :=
  Node 0 (Coords [] []) (Rng 0 0) (gl_bounds L g) g inst.
Definition build_context_db (L : geomlib) (O : hdb_oracle) (inst : Z) (geoms : list geometry)
  : res hdb :=
  load O new_hdb_default (map (context_node L inst) geoms).

(** constdp/validate.go:33-67 ValidateContextRelation: the answer; the hull is appended to
    the selections exactly when it is false. *)
Definition validate_context (L : geomlib) (pop : popfn) (o : opts) (ctxdb : hdb) (hull : node)
  : res bool :=
  if negb (o_geom o || o_dist o || o_dir o) then Ok true
  else
    objs <- context_neighbours L pop ctxdb (n_geom hull) (o_min_dist o) ;;
    let ctxs := map n_geom objs in
    let bln := true in
    let bln := if bln && o_geom o then geom_relate_valid L hull ctxs else bln in
    let bln := if bln && o_dist o then dist_relate_valid L (o_min_dist o) hull ctxs else bln in
    if bln && o_dir o then dir_relate_valid L hull ctxs else Ok bln.
