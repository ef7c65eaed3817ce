(** Model of hdb.Knn and package knn. *)
From Verif Require Import M_Base M_Float M_Rng M_Geom M_Node M_Hdb.
Open Scope Z_scope.

(** hdb/kobj.go:10-15 type KObj (the MBR field is the node's box). *)
Record kobj := KObj { k_nd : dbnode; k_dist : f64 }.

(** hdb/knn.go:34 IsItem. *)
Definition k_item (k : kobj) : bool :=
  match db_children (k_nd k) with [] => true | _ => false end.

(** github.com/intdxdt/heap (external): the queue is a bag and [pop] takes one element
    out.  hdb/kobj.go:27-37 compares distances with a tolerance; which of nearly equal
    elements comes out first is left to the oracle. *)
Definition popfn := list kobj -> option (kobj * list kobj).

(** hdb/knn.go:41-55 the inner loop; the boolean tells that the query is finished. *)
Fixpoint knn_drain (pop : popfn) (pred : kobj -> bool * bool) (limit : Z)
    (fuel : nat) (queue : list kobj) (result : list node) : res (bool * list kobj * list node) :=
  match fuel with
  | 0%nat => NoFuel
  | S f =>
    match pop queue with
    | None => Ok (false, queue, result)
    | Some (c, queue') =>
      if k_item c then
        let '(p, stop) := pred c in
        let result := if p then result ++ item_of (k_nd c) else result in
        if stop then Ok (true, queue', result)
        else if negb (limit =? 0) && (zlen result =? limit) then Ok (true, queue', result)
        else knn_drain pop pred limit f queue' result
      else Ok (false, queue, result)
    end
  end.

(** hdb/knn.go:28-66. *)
Fixpoint knn_loop (pop : popfn) (score : dbnode -> f64) (pred : kobj -> bool * bool) (limit : Z)
    (fuel : nat) (nd : dbnode) (queue : list kobj) (result : list node) : res (list node) :=
  match fuel with
  | 0%nat => NoFuel
  | S f =>
    let queue := queue ++ map (fun c => KObj c (score c)) (db_children nd) in
    r <- knn_drain pop pred limit (S (length queue)) queue result ;;
    let '(fin, queue, result) := r in
    if (fin : bool) then Ok result
    else match pop queue with
         | None => Ok result
         | Some (k, queue') => knn_loop pop score pred limit f (k_nd k) queue' result
         end
  end.
Definition knn (pop : popfn) (t : hdb) (limit : Z) (score : dbnode -> f64)
    (pred : kobj -> bool * bool) : res (list node) :=
  knn_loop pop score pred limit (db_size (h_root t)) (h_root t) [] [].

(** hdb/knn.go:9-11 predicate: what Knn uses when no predicate is given. *)
Definition default_predicate (_ : kobj) : bool * bool := (true, false).

(** hdb/knn.go:13-20 the variadic parameter of Knn: the first predicate counts, the others are ignored. *)
Definition knn_call (pop : popfn) (t : hdb) (limit : Z) (score : dbnode -> f64)
    (predicates : list (kobj -> bool * bool)) : res (list node) :=
  knn pop t limit score (match predicates with [] => default_predicate | p :: _ => p end).

(** knn/knn.go:30-42 ScoreFn. *)
Definition score_fn (L : geomlib) (query : geometry) (d : dbnode) : f64 :=
  match db_item d with
  | None => gl_dist L query (mbr_polygon (db_bbox d))
  | Some it => gl_dist L query (n_geom it)
  end.

(** knn/knn.go:45-52 PredicateFn. *)
Definition predicate_fn (dist : f64) (c : kobj) : bool * bool :=
  if fle (k_dist c) dist then (true, false) else (false, true).

(** knn/neighbours.go:10-12 ContextNeighbours, knn/knn.go:14-27 find. *)
Definition context_neighbours (L : geomlib) (pop : popfn) (t : hdb) (query : geometry) (dist : f64)
  : res (list node) :=
  knn pop t (-1) (score_fn L query) (predicate_fn dist).

(** knn/neighbours.go:15-24 NodeNeighbours. *)
Definition node_neighbours (L : geomlib) (t : hdb) (hull : node) (dist : f64) : res (list node) :=
  inters <- search t (n_mbr hull) ;;
  Ok (filter (fun nd => negb (n_id nd =? n_id hull) && fle (gl_dist L (n_geom nd) (n_geom hull)) dist) inters).
