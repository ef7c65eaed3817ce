(** Model of package deform and of the intersection constraints of package constrain. *)
From Verif Require Import M_Base M_Float M_Rng M_Geom M_Node M_Hdb M_Knn M_Relate.
Open Scope Z_scope.

(** knn/knn.go:11 and constrain/split.go:13 EpsilonDist = 1.0e-5: the nearest binary64,
    5902958103587057 * 2^-69. *)
Definition epsilon_dist : f64 := S754_finite false 5902958103587057 (-69).

(** deform/contig.go:8-26 contiguousCandidates. *)
Definition contiguous_candidates (L : geomlib) (a b : node) : res (option node * option node) :=
  ca <- collapsible L a b ;;
  cb <- collapsible L b a ;;
  Ok (if ca then None else Some a, if cb then None else Some b).

(** deform/noncontig.go:9-50 nonContiguousCandidates.  The nested loops over the two lists
    of points stop at the first pair farther apart than the displacement. *)
Definition non_contiguous_candidates (L : geomlib) (disp : f64) (a b : node)
  : option node * option node :=
  let aseg_bseg := gl_isect L (n_seg a) (n_seg b) in
  let aseg_bln := gl_isect L (n_seg a) (n_line b) in
  let bseg_aln := gl_isect L (n_seg b) (n_line a) in
  let aln_bln := gl_isect L (n_line a) (n_line b) in
  if aseg_bseg && aseg_bln && negb aln_bln then (Some a, None)
  else if aseg_bseg && bseg_aln && negb aln_bln then (None, Some b)
  else if aln_bln then
    let pt_lns := gl_inter L (n_line a) (n_line b) in
    let at_seg := gl_inter L (n_seg a) (n_seg b) in
    if (zlen at_seg =? 0) && (0 <? zlen pt_lns) then (Some a, Some b)
    else if existsb (fun p => existsb (fun q => fgt (gl_ptdist L p q) disp) at_seg) pt_lns
    then (Some a, Some b)
    else (None, None)
  else (None, None).

(** The body of the loops of deform/cls.go:35-71 and deform/ln.go:19-42: the hulls selected
    when [hull] is checked against neighbour [h].  [class_] tells the two functions apart:
    SelectFeatureClass treats hulls of different features as never contiguous. *)
Definition pair_candidates (L : geomlib) (disp : f64) (class_ : bool) (hull h : node)
  : res (option node * option node) :=
  let '(inters, contig, n) :=
    if negb class_ || (n_inst hull =? n_inst h) then is_contiguous L hull h
    else if gl_isect L (n_geom hull) (n_geom h) then
      let pts := gl_inter L (n_geom hull) (n_geom h) in
      (0 <? zlen pts, false, zlen pts)
    else (false, false, 0) in
  if negb inters then Ok (None, None)
  else if contig && (1 <? n) then contiguous_candidates L hull h
  else if negb contig then Ok (non_contiguous_candidates L disp hull h)
  else Ok (None, None).

(** dict[k] = v on the map[[2]int]*node.Node of deform/cls.go:29 and deform/ln.go:15. *)
Fixpoint dict_set (v : node) (d : list node) : list node :=
  match d with
  | [] => [v]
  | x :: r => if rng_eqb (n_rng x) (n_rng v) then v :: r else x :: dict_set v r
  end.
Definition dict_opt (o : option node) (d : list node) : list node :=
  match o with Some v => dict_set v d | None => d end.

Fixpoint select_loop (L : geomlib) (disp : f64) (class_ : bool) (hull : node) (ctxs : list node)
    (dict : list node) : res (list node) :=
  match ctxs with
  | [] => Ok dict
  | h :: r =>
    s <- pair_candidates L disp class_ hull h ;;
    select_loop L disp class_ hull r (dict_opt (snd s) (dict_opt (fst s) dict))
  end.

(** deform/cls.go:10-22 optimizeNeighbours; [dirty] is the state of the hull's instance
    (state/state.go:3-19). *)
Definition optimize_neighbours (dirty : bool) (hull : node) (l : list node) : list node :=
  if dirty then l else filter (fun o => negb (n_inst hull =? n_inst o)) l.

(** deform/cls.go:25-79 SelectFeatureClass.  The values of the map come out in an
    unspecified order in Go; the callers only use the set of values. *)
Definition select_feature_class (L : geomlib) (disp : f64) (dirty : bool) (db : hdb) (hull : node)
  : res (list node) :=
  ctxs <- node_neighbours L db hull epsilon_dist ;;
  select_loop L disp true hull (optimize_neighbours dirty hull ctxs) [].

(** deform/ln.go:11-50 Select. *)
Definition select_line (L : geomlib) (disp : f64) (db : hdb) (hull : node) : res (list node) :=
  ctxs <- node_neighbours L db hull epsilon_dist ;;
  select_loop L disp false hull ctxs [].

(** constrain/bycls.go:12-27 ByFeatureClassIntersection and constrain/byself.go:12-28
    BySelfIntersection: the answer and the hulls appended to the selections.  [h == hull]
    compares pointers: ids in the model. *)
Definition by_selection (hull : node) (hulls : list node) : bool * list node :=
  (negb (existsb (fun h => n_id h =? n_id hull) hulls), hulls).
Definition by_class (L : geomlib) (disp : f64) (dirty : bool) (db : hdb) (hull : node)
  : res (bool * list node) :=
  hulls <- select_feature_class L disp dirty db hull ;; Ok (by_selection hull hulls).
Definition by_self (L : geomlib) (disp : f64) (db : hdb) (hull : node) : res (bool * list node) :=
  hulls <- select_line L disp db hull ;; Ok (by_selection hull hulls).
