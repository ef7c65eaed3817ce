(** Vocabulary for nearest-first queries of the index in memory. *)
From Verif Require Import M_Base M_Float M_Rng M_Geom M_Node M_Hdb M_HdbMem M_KnnMem Spec_Hdb Spec_HdbMem Spec_Knn.
Open Scope nat_scope.

(** A queue: what comes out first is not above the others ([below] = smaller by more than the queue's tolerance), and nothing is lost.
    Nothing is said of the order when a distance is not a number. *)
Record queue_ok (below : f64 -> f64 -> Prop) (kp : mpop) : Prop := {
  qo_all : forall ds, Permutation (kp ds) (seq 0 (length ds));
  qo_first : forall ds i r j, Forall (fun d => is_nan d = false) ds -> kp ds = i :: r -> In j r -> ~ below (nth j ds fzero) (nth i ds fzero)
}.

(** The score of a stored hull; a box of the tree is never farther than a loaded hull it encloses. *)
Definition hull_score (score : mscore) (it : node) : f64 := score (Some it) (n_mbr it) true.
Definition boxes_not_farther (ops : list db_op) (score : mscore) : Prop :=
  forall b it flag, (exists items, In (OpLoad items) ops /\ In it items) -> box_within (n_mbr it) b = true ->
    fle (score None b flag) (hull_score score it) = true.
