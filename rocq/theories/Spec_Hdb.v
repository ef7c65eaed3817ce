(** Specification vocabulary for the spatial index: bags of hulls, boxes, balanced trees. *)
From Verif Require Import M_Base M_Float M_Rng M_Geom M_Node M_Hdb.
Open Scope Z_scope.

(** Closed boxes share a point. *)
Definition boxes_meet (a b : mbr) : bool :=
  fle (minx a) (maxx b) && fle (minx b) (maxx a) && fle (miny a) (maxy b) && fle (miny b) (maxy a).

(** Box [a] lies in box [b]. *)
Definition box_within (a b : mbr) : bool :=
  fle (minx b) (minx a) && fle (maxx a) (maxx b) && fle (miny b) (miny a) && fle (maxy a) (maxy b).

(** A finite number of magnitude below 2^D. *)
Definition below_pow2 (D : Z) (x : f64) : Prop :=
  match x with
  | S754_zero _ => True
  | S754_finite _ m e => e <= D /\ Zpos m < 2 ^ (D - e)
  | _ => False
  end.

(** A hull whose bounding box is ordered and has coordinates below 2^483 (so that no box
    area overflows). *)
Definition good_item (it : node) : Prop :=
  let b := n_mbr it in
  below_pow2 483 (minx b) /\ below_pow2 483 (miny b) /\ below_pow2 483 (maxx b) /\ below_pow2 483 (maxy b) /\
  fle (minx b) (maxx b) = true /\ fle (miny b) (maxy b) = true.

(** Query boxes: no NaN. *)
Definition num_box (q : mbr) : Prop :=
  is_nan (minx q) = false /\ is_nan (miny q) = false /\ is_nan (maxx q) = false /\ is_nan (maxy q) = false.

(** Operation histories. *)
Inductive db_op :=
| OpLoad (items : list node)
| OpRemove (it : node).

Definition good_op (o : db_op) : Prop :=
  match o with OpLoad items => Forall good_item items | OpRemove _ => True end.

(** What each operation may do to the bag of stored hulls.  Removal takes out one hull with
    the given id; it may leave the bag alone only if no stored hull of that id has a box
    around the given one. *)
Inductive bag_step : list node -> db_op -> list node -> Prop :=
| BagLoad b items b' : Permutation b' (b ++ items) -> bag_step b (OpLoad items) b'
| BagRemove b it x b' : n_id x = n_id it -> Permutation b (x :: b') -> bag_step b (OpRemove it) b'
| BagKeep b it : (forall x, In x b -> n_id x = n_id it -> box_within (n_mbr it) (n_mbr x) = false) ->
    bag_step b (OpRemove it) b.

Inductive bag_run : list node -> list db_op -> list node -> Prop :=
| BagDone b : bag_run b [] b
| BagStep b o b1 ops b2 : bag_step b o b1 -> bag_run b1 ops b2 -> bag_run b (o :: ops) b2.

(** The operations of the model. *)
Fixpoint run_ops (O : hdb_oracle) (t : hdb) (ops : list db_op) : res hdb :=
  match ops with
  | [] => Ok t
  | OpLoad items :: r => t' <- load O t items ;; run_ops O t' r
  | OpRemove it :: r => run_ops O (remove t it) r
  end.

(** A tree whose items all hang at depth [h], with non-empty nodes of at most M children,
    and boxes enclosing the boxes below them. *)
Inductive balanced (M : nat) : nat -> dbnode -> Prop :=
| BalItem it : balanced M 0 (DbNode [] (Some it) 1 true (n_mbr it))
| BalNode h ch bb :
    ch <> [] -> (length ch <= M)%nat ->
    Forall (fun c => balanced M h c /\ box_within (db_bbox c) bb = true) ch ->
    balanced M (S h) (DbNode ch None (S h) (Nat.eqb h 0) bb).

(** The index as a whole: empty, or balanced with at least one level. *)
Definition index_ok (M : nat) (t : hdb) : Prop :=
  db_children (h_root t) = [] \/ exists h, balanced M (S h) (h_root t).

(** Tidy histories: hulls are loaded with ids not in use, and a hull is removed by giving a
    box inside the one it was stored with (the same hull, in the program).  The bag is then a
    function of the history. *)
Fixpoint bag_of (b : list node) (ops : list db_op) : list node :=
  match ops with
  | [] => b
  | OpLoad items :: r => bag_of (b ++ items) r
  | OpRemove it :: r => bag_of (filter (fun x => negb (n_id x =? n_id it)) b) r
  end.

Fixpoint tidy (b : list node) (ops : list db_op) : Prop :=
  match ops with
  | [] => True
  | OpLoad items :: r => NoDup (map n_id (b ++ items)) /\ tidy (b ++ items) r
  | OpRemove it :: r =>
      (forall x, In x b -> n_id x = n_id it -> box_within (n_mbr it) (n_mbr x) = true) /\
      tidy (filter (fun x => negb (n_id x =? n_id it)) b) r
  end.
