(** hdb.Knn on the nodes in memory: the queue holds pointers to nodes. *)
From Verif Require Import M_Base M_Float M_Rng M_Geom M_Node M_Slice M_Hdb M_HdbMem.
Open Scope nat_scope.

(** hdb/kobj.go:10-15 type KObj: a pointer to a node (the field MBR points into the same node), whether it was a stored hull
    when the object was made, and the distance. *)
Record mkobj := MKObj { mk_ptr : ptr; mk_item : bool; mk_dist : f64 }.

(** What a score function of another package sees of a KObj: GetNode(), *MBR and IsItem. *)
Definition mscore := option node -> mbr -> bool -> f64.
(** What a predicate sees: GetNode(), *MBR, IsItem and Distance; its answers are (take, stop). *)
Definition mpredicate := option node -> mbr -> bool -> f64 -> bool * bool.

(** github.com/intdxdt/heap (external): it compares distances only.  The positions of the queue in the order it has after a pop, the
    element that comes out first. *)
Definition mpop := list f64 -> list nat.
Definition m_pop (kp : mpop) (queue : list mkobj) : option (mkobj * list mkobj) :=
  match map (fun k => nth k queue (MKObj PRoot false fzero)) (kp (map mk_dist queue)) with
  | [] => None
  | x :: r => Some (x, r)
  end.

(** hdb/knn.go:30-39: an object for every child, by its address. *)
Definition m_push (score : mscore) (m : mheap) (s : slice) : list mkobj :=
  map (fun '(k, c) =>
    let is_item := Nat.eqb (s_len (c_kids c)) 0 in
    MKObj (kid s k) is_item (score (c_item c) (c_bbox c) is_item))
  (combine (seq 0 (s_len s)) (kids_of m s)).

(** hdb/knn.go:41-55 the inner loop; the boolean tells that the query is finished.  The answer holds the item pointers, here
    the hulls they point to (an absent hull would be a nil pointer in the answer and cannot be told apart here from none). *)
Fixpoint m_drain (kp : mpop) (pred : mpredicate) (limit : Z) (st : mstate) (fuel : nat) (queue : list mkobj) (result : list node)
  : res (bool * list mkobj * list node) :=
  match fuel with
  | 0 => NoFuel
  | S f =>
    match m_pop kp queue with
    | None => Ok (false, queue, result)
    | Some (o, queue') =>
      if mk_item o then
        c <- deref st (mk_ptr o) ;;
        let '(p, stop) := pred (c_item c) (c_bbox c) (mk_item o) (mk_dist o) in
        let result := if p then result ++ match c_item c with Some it => [it] | None => [] end else result in
        if stop then Ok (true, queue', result)
        else if negb (limit =? 0)%Z && (zlen result =? limit)%Z then Ok (true, queue', result)
        else m_drain kp pred limit st f queue' result
      else Ok (false, queue, result)
    end
  end.

(** hdb/knn.go:28-66. *)
Fixpoint m_knn_loop (kp : mpop) (score : mscore) (pred : mpredicate) (limit : Z) (st : mstate) (fuel : nat) (nd : ptr)
    (queue : list mkobj) (result : list node) : res (list node) :=
  match fuel with
  | 0 => NoFuel
  | S f =>
    c <- deref st nd ;;
    let queue := queue ++ m_push score (ms_heap st) (c_kids c) in
    r <- m_drain kp pred limit st (S (length queue)) queue result ;;
    let '(fin, queue, result) := r in
    if (fin : bool) then Ok result
    else match m_pop kp queue with
         | None => Ok result
         | Some (o, queue') => m_knn_loop kp score pred limit st f (mk_ptr o) queue' result
         end
  end.

(** hdb/knn.go:9-26 Knn: the first predicate counts; without one everything is taken. *)
Definition m_knn (fuel : nat) (kp : mpop) (st : mstate) (limit : Z) (score : mscore) (predicates : list mpredicate) : res (list node) :=
  m_knn_loop kp score (match predicates with [] => fun _ _ _ _ => (true, false) | p :: _ => p end) limit st fuel PRoot [] [].
