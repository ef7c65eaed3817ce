(** Model of package constdp: constrained simplification of a line and of a feature class. *)
From Verif Require Import M_Base M_Float M_Rng M_Geom M_Offset M_Node M_Decompose M_Split M_Hdb M_Knn
  M_Lnr M_Relate M_Deform M_Constrain.
Open Scope Z_scope.

(** constdp/constructor.go:14-17 ConstDP and dp/dp.go:19-29 DouglasPeucker: the parts that
    Simplify reads.  The polyline is given by its points (at least two). *)
Record cdp := Cdp {
  c_id : Z;
  c_pts : list point;
  c_opts : opts;
  c_score : scorefn;
  c_sq : option scorefn;
  c_ctxdb : hdb
}.

(** constdp/constructor.go:21-50 NewConstDP. *)
Definition new_const_dp (L : geomlib) (O : hdb_oracle) (id : Z) (pts : list point)
    (constraints : list geometry) (o : opts) (score : scorefn) (sq : option scorefn) : res cdp :=
  db <- build_context_db L O id constraints ;;
  Ok (Cdp id pts o score sq db).

(** Everything external that the package calls: geometry, id generator, R-tree choices,
    heap, lnr choices. *)
Record world := World {
  w_geom : geomlib;
  w_gen : idgen;
  w_hdb : hdb_oracle;
  w_pop : popfn;
  w_lnr : lnr_oracle
}.

(** constdp/common.go:25-33 CacheKey: the six numbers in ascending order. *)
Definition const_key (a b : node) : list Z :=
  zsort [rI (n_rng a); rJ (n_rng a); rI (n_rng b); rJ (n_rng b); n_inst a; n_inst b].
Fixpoint zlist_eqb (a b : list Z) : bool :=
  match a, b with
  | [], [] => true
  | x :: r, y :: s => (x =? y) && zlist_eqb r s
  | _, _ => false
  end.

(** constdp/simple_0.go:33-61, the body of the worker for one hull: the hulls it sends.
    [env] finds the instance of a hull, [dirty] its state. *)
Definition check_hull (W : world) (env : Z -> cdp) (dirty : Z -> bool) (db : hdb) (hull : node)
  : res (list node) :=
  let self := env (n_inst hull) in
  let o := c_opts self in
  if rsize (n_rng hull) =? 1 then Ok []
  else if is_line (n_geom hull) then Ok []
  else
    '(bln, sel) <-
      (if o_avoid_self o
       then by_class (w_geom W) (o_non_planar_displacement o) (dirty (n_inst hull)) db hull
       else Ok (true, [])) ;;
    if bln : bool then
      ok <- validate_context (w_geom W) (w_pop W) o (c_ctxdb self) hull ;;
      Ok (if ok : bool then sel else sel ++ [hull])
    else Ok sel.

(** The keys of the map of constdp/simple_0.go:75-78; pointers are ids. *)
Fixpoint dedup_ids (l : list node) : list node :=
  match l with
  | [] => []
  | h :: r => h :: filter (fun x => negb (n_id x =? n_id h)) (dedup_ids r)
  end.

(** constdp/simple_0.go:11-80 findDeformableNodes run sequentially (M_Concur treats the
    goroutines). *)
Definition find_deformable (W : world) (env : Z -> cdp) (dirty : Z -> bool) (hulls : list node) (db : hdb)
  : res (list node) :=
  sels <- mapM (check_hull W env dirty db) hulls ;;
  Ok (dedup_ids (concat sels)).

(** constdp/simple_1.go:11-32 deformNodes over the hulls in the order the map yields them. *)
Fixpoint deform_nodes (W : world) (env : Z -> cdp) (sel : list node) (ctr : nat)
  : res (list node * nat) :=
  match sel with
  | [] => Ok ([], ctr)
  | hull :: r =>
    let self := env (n_inst hull) in
    if 1 <? rsize (n_rng hull) then
      '(ha, hb, ctr1) <-
        at_score_selection (w_geom W) (w_gen W) hull (dp_score (c_score self) (c_sq self)) ctr ;;
      '(rest, ctr') <- deform_nodes W env r ctr1 ;;
      Ok (ha :: hb :: rest, ctr')
    else
      '(rest, ctr') <- deform_nodes W env r ctr ;;
      Ok (hull :: rest, ctr')
  end.
(** State().MarkDirty() of simple_1.go:26. *)
Definition mark_dirty (dirty : Z -> bool) (sel : list node) (i : Z) : bool :=
  dirty i || existsb (fun h => (1 <? rsize (n_rng h)) && (n_inst h =? i)) sel.

(** constdp/simple_2.go:8-12 cleanUpDB. *)
Definition clean_up (db : hdb) (sel : list node) : hdb := fold_left remove sel db.

(** The split loop of constdp/simplify.go:41-55 and constdp/fc_simplify.go:51-66.  [ord k] is
    the order of the k-th iteration over a map of selected hulls; each round iterates twice. *)
Fixpoint split_loop (W : world) (env : Z -> cdp) (ord : nat -> list node -> list node)
    (fuel : nat) (round : nat) (dirty : Z -> bool) (deformables : list node) (db : hdb) (ctr : nat)
  : res (hdb * nat) :=
  match deformables with
  | [] => Ok (db, ctr)
  | _ =>
    match fuel with
    | 0%nat => NoFuel
    | S f =>
      found <- find_deformable W env dirty deformables db ;;
      match ord (2 * round)%nat found with
      | [] => Ok (db, ctr)
      | sel =>
        '(defs, ctr') <- deform_nodes W env sel ctr ;;
        db' <- load (w_hdb W) (clean_up db (ord (S (2 * round)) found)) defs ;;
        split_loop W env ord f (S round) (mark_dirty dirty sel) defs db' ctr'
      end
    end
  end.

(** constdp/validate.go:11-28 ValidateMerge. *)
Definition validate_merge (W : world) (self : cdp) (db : hdb) (hull : node) : res bool :=
  let o := c_opts self in
  '(bln, side) <-
    (if o_avoid_self o then by_self (w_geom W) (o_non_planar_displacement o) db hull
     else Ok (true, [])) ;;
  if negb (zlen side =? 0) || negb bln then Ok false
  else validate_context (w_geom W) (w_pop W) o (c_ctxdb self) hull.

(** constdp/node_aggregates.go:62-80: one attempt to merge [a] and [b]; the cache of keys
    already tried is consulted and updated. *)
Definition try_merge (W : world) (self : cdp) (enabled : bool) (ab : option (node * node))
    (cache : list (list Z)) (ctr : nat) : res (option node * list (list Z) * nat) :=
  match enabled, ab with
  | true, Some (a, b) =>
    let key := const_key a b in
    if existsb (zlist_eqb key) cache then Ok (None, cache, ctr)
    else
      '(m, ctr') <- fragments_at_threshold (w_geom W) (w_gen W) (dp_score (c_score self) (c_sq self)) a b
                      (dp_relation (o_threshold (c_opts self)) (c_sq self)) ctr ;;
      Ok (m, key :: cache, ctr')
  | _, _ => Ok (None, cache, ctr)
  end.

(** constdp/node_aggregates.go:14-117 AggregateSimpleSegments.  [copied] lists the ids of
    hulls re-inserted by value: the index then holds a new pointer for them, so that
    [objects[0] == nxt] (line 88) is equality of ids of hulls not copied. *)
Fixpoint aggregate (W : world) (self : cdp) (cvs : list Z) (objects : list node) (db : hdb)
    (cache : list (list Z)) (copied : list Z) (ctr : nat) : res (hdb * nat) :=
  match objects with
  | [] => Ok (db, ctr)
  | hull :: rest =>
    if negb (rsize (n_rng hull) =? 1) then aggregate W self cvs rest db cache copied ctr
    else if zmem (rI (n_rng hull)) cvs && zmem (rJ (n_rng hull)) cvs
    then aggregate W self cvs rest db cache copied ctr
    else
      let with_next := negb (zmem (rJ (n_rng hull)) cvs) in
      let with_prev := negb (zmem (rI (n_rng hull)) cvs) in
      let db := remove db hull in
      ns <- node_neighbours (w_geom W) db hull epsilon_dist ;;
      let '(prev, nxt) := neighbours hull ns in
      '(mprev, cache, ctr) <- try_merge W self with_prev
          (match prev with Some p => Some (p, hull) | None => None end) cache ctr ;;
      '(mnext, cache, ctr) <- try_merge W self with_next
          (match nxt with Some n => Some (hull, n) | None => None end) cache ctr ;;
      '(db, ins, merged, skip) <-
        match mnext, nxt with
        | Some m, Some n =>
          let db := remove db n in
          ok <- validate_merge W self db m ;;
          if ok : bool then
            match rest with
            | [] => Panic
            | o :: _ => Ok (db, [m], true, (n_id o =? n_id n) && negb (zmem (n_id n) copied))
            end
          else Ok (db, [n], false, false)
        | _, _ => Ok (db, [], false, false)
        end ;;
      '(db, ins, merged) <-
        match (if merged : bool then None else mprev), prev with
        | Some m, Some p =>
          let db := remove db p in
          ok <- validate_merge W self db m ;;
          if ok : bool then Ok (db, ins ++ [m], true) else Ok (db, ins ++ [p], false)
        | _, _ => Ok (db, ins, merged)
        end ;;
      let ins := if merged : bool then ins else ins ++ [hull] in
      db <- load (w_hdb W) db ins ;;
      aggregate W self cvs
        (if skip : bool then match rest with [] => rest | _ :: more => more end else rest)
        db cache (map n_id ins ++ copied) ctr
  end.

(** constdp/simplify.go:11-76 Simplify: the hulls and the id counter.  [fuel] bounds the
    decomposition and the split rounds. *)
Definition simplify (W : world) (ord : nat -> list node -> list node) (self : cdp)
    (const_verts : list Z) (fuel : nat) (ctr : nat) : res (list node * nat) :=
  '(hs, ctr) <- dp_decompose (w_geom W) (w_gen W) (create_polyline (c_pts self)) (c_id self)
      (o_threshold (c_opts self)) (c_score self) (c_sq self) fuel ctr ;;
  '(hs, cvs, ctr) <- to_self_intersects (w_geom W) (w_gen W) (w_hdb W) (w_pop W) (w_lnr W)
      hs (c_pts self) (c_opts self) const_verts ctr ;;
  db <- load (w_hdb W) new_hdb_default hs ;;
  '(db, ctr) <- split_loop W (fun _ => self) ord fuel 0 (fun _ => true) hs db ctr ;;
  objects <- all db ;;
  '(db, ctr) <- aggregate W self cvs (node_sort objects) db [] [] ctr ;;
  hs <- all db ;;
  Ok (hs, ctr).

(** The simplified vertex set: SimpleSet of constdp/simplify.go:62-70 (SSet, external). *)
Definition simple_set (hs : list node) : list Z := point_set hs.

(** constdp/fc_simplify.go:32-36. *)
Definition constrained (o : opts) : bool :=
  o_avoid_self o || o_planar_self o || o_geom o || o_dir o || o_dist o.

(** constdp/fc_group.go:9-43 groupHullsByFC: the hulls of one instance. *)
Definition group_hulls (hs : list node) (id : Z) : list node := filter (fun h => n_inst h =? id) hs.

(** constdp/fc_simplify.go:38-68, after SimplifyInstances: [hulls] are the hulls of the
    instances, one instance after the other, all in the clean state. *)
Definition class_phase (W : world) (env : Z -> cdp) (ord : nat -> list node -> list node)
    (hulls : list node) (fuel : nat) (ctr : nat) : res (list node * nat) :=
  db <- load (w_hdb W) new_hdb_default hulls ;;
  '(db, ctr) <- split_loop W env ord fuel 0 (fun _ => false) hulls db ctr ;;
  hs <- all db ;;
  Ok (hs, ctr).

(** constdp/fc_simplify.go:71-106 SimplifyInstances run one instance after the other (M_Concur
    treats the goroutines).  [gens i] is the stream of ids drawn by instance i. *)
Fixpoint simplify_instances (W : world) (gens : Z -> idgen) (ords : Z -> nat -> list node -> list node)
    (junctions : Z -> list Z) (fuel : nat) (selfs : list cdp) : res (list (cdp * list node)) :=
  match selfs with
  | [] => Ok []
  | self :: r =>
    let i := c_id self in
    '(hs, _) <- simplify (World (w_geom W) (gens i) (w_hdb W) (w_pop W) (w_lnr W)) (ords i) self
                  (junctions i) fuel 0%nat ;;
    rest <- simplify_instances W gens ords junctions fuel r ;;
    Ok ((self, hs) :: rest)
  end.

(** constdp/fc_simplify.go:14-69 SimplifyFeatureClass: the hulls of every instance. *)
Definition simplify_feature_class (W : world) (gens : Z -> idgen)
    (ords : Z -> nat -> list node -> list node) (ord : nat -> list node -> list node)
    (env : Z -> cdp) (selfs : list cdp) (o : opts) (fuel : nat) : res (list (cdp * list node)) :=
  let junctions i :=
    if o_planar_self o
    then fc_junctions (w_geom W) (lo_sort (w_lnr W)) (map (fun s => (c_id s, c_pts s)) selfs) i
    else [] in
  done <- simplify_instances W gens ords junctions fuel selfs ;;
  if constrained o then
    '(hs, _) <- class_phase W env ord (flat_map snd done) fuel 0%nat ;;
    Ok (map (fun s => (s, group_hulls hs (c_id s))) selfs)
  else Ok done.
