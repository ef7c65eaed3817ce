(** Model of package node (hulls). *)
From Verif Require Import M_Base M_Float M_Rng M_Geom.
Open Scope Z_scope.

(** node/node.go:12-19 type Node.  [n_coords] is Polyline.Coordinates, [n_inst]
    the Id of the Instance.  For constraint entries (constdp/constructor.go:42-46)
    Id, Range and Polyline are Go zero values. *)
Record node := Node {
  n_id : Z;
  n_coords : coords;
  n_rng : rng;
  n_mbr : mbr;
  n_geom : geometry;
  n_inst : Z
}.

(** node/node.go:22-33 CreateNode with geomFn = common.Geometry; [i] is the value
    returned by id.Next(). *)
Definition create_node (L : geomlib) (i : Z) (c : coords) (r : rng) (inst : Z) : node :=
  let g := hull_geometry (gl_hull L (cpts c)) in
  Node i c r (gl_bounds L g) g inst.

(** Id generator [iter.Igen] as an arbitrary stream of ids; a counter says how many
    were drawn. *)
Definition idgen : Type := nat -> Z.

(** node/node.go:71-75 Segment: first and last vertex. *)
Definition n_seg (h : node) : geometry := GSeg (cfirst (n_coords h)) (clast (n_coords h)).

(** node.Polyline.Geometry(): the original sub-line. *)
Definition n_line (h : node) : geometry := GLine (cpts (n_coords h)).

(** node/contig.go:5-32 IsContiguous: (intersects, contiguous, count).  The Go loop
    breaks at the first intersection point that touches an end of a or b provided
    the ends coincide; the assigned value does not depend on the point. *)
Definition ends_meet (L : geomlib) (a b : node) : bool :=
  let ai := cfirst (n_coords a) in let aj := clast (n_coords a) in
  let bi := cfirst (n_coords b) in let bj := clast (n_coords b) in
  gl_eq2d L aj bi || gl_eq2d L aj bj || gl_eq2d L ai bj || gl_eq2d L ai bi.

Fixpoint contig_loop (L : geomlib) (a b : node) (pts : list point) (contig : bool) : bool :=
  match pts with
  | [] => contig
  | p :: r =>
    let on_a := gl_eq2d L p (cfirst (n_coords a)) || gl_eq2d L p (clast (n_coords a)) in
    let on_b := gl_eq2d L p (cfirst (n_coords b)) || gl_eq2d L p (clast (n_coords b)) in
    let contig := if on_a || on_b then ends_meet L a b else contig in
    if contig then true else contig_loop L a b r contig
  end.

Definition is_contiguous (L : geomlib) (a b : node) : bool * bool * Z :=
  if gl_isect L (n_geom a) (n_geom b) then
    let pts := gl_inter L (n_geom a) (n_geom b) in
    (true, contig_loop L a b pts false, zlen pts)
  else (false, false, 0).

(** node/contig.go:35-53 Neighbours: previous and next hull.  [h != hull] compares
    pointers: ids in the model. *)
Fixpoint nbrs_loop (hull : node) (l : list node) (prev nxt : option node)
  : option node * option node :=
  match l with
  | [] => (prev, nxt)
  | h :: r =>
    let '(prev, nxt) :=
      if n_id h =? n_id hull then (prev, nxt)
      else if rI (n_rng hull) =? rJ (n_rng h) then (Some h, nxt)
      else if rJ (n_rng hull) =? rI (n_rng h) then (prev, Some h)
      else (prev, nxt) in
    match prev, nxt with
    | Some _, Some _ => (prev, nxt)
    | _, _ => nbrs_loop hull r prev nxt
    end
  end.
Definition neighbours (hull : node) (l : list node) : option node * option node :=
  nbrs_loop hull l None None.

(** node/collapse.go:9-40 Collapsible; the last case is the explicit Go panic. *)
Definition collapsible (L : geomlib) (a other : node) : res bool :=
  if rsize (n_rng a) =? 1 then Ok true
  else if is_line (n_geom a) then Ok true
  else
    let ai := cfirst (n_coords a) in let aj := clast (n_coords a) in
    let bi := cfirst (n_coords other) in let bj := clast (n_coords other) in
    let c := if gl_eq2d L ai bi || gl_eq2d L aj bi then Some bi
             else if gl_eq2d L ai bj || gl_eq2d L aj bj then Some bj
             else None in
    match c with
    | None => Ok true
    | Some c =>
      let t := if gl_eq2d L c bj then bi else bj in
      match n_geom a with
      | GPoly (shell :: _) => Ok (negb (gl_in_ring L shell t))
      | _ => Panic
      end
    end.

(** node/nodes.go:36-42 AsPointSet and dp/dp.go:82-94 Simple: the sorted set of
    the ends of all hulls. *)
Definition point_set (l : list node) : list Z :=
  fold_left (fun s h => zset_ins (rJ (n_rng h)) (zset_ins (rI (n_rng h)) s)) l [].

(** sort.Sort(node.NodePtrs) / sort.Sort(node.Nodes) (node/nodes.go:18-20, 32-34):
    ascending by Range.I.  Go's sort is not stable; the hulls sorted by the callers
    have distinct Range.I, where every correct sort gives the same list. *)
Fixpoint node_ins (x : node) (l : list node) : list node :=
  match l with
  | [] => [x]
  | y :: r => if rI (n_rng x) <=? rI (n_rng y) then x :: l else y :: node_ins x r
  end.
Definition node_sort (l : list node) : list node := fold_right node_ins [] l.
