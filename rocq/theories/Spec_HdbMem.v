(** Specification vocabulary for the index in memory. *)
From Verif Require Import M_Base M_Float M_Rng M_Geom M_Node M_Slice M_Hdb M_HdbMem Spec_Hdb.
Open Scope nat_scope.

(** The operations on the index in memory; [fuel] bounds the steps of one removal. *)
Fixpoint m_run (O : m_oracle) (fuel mx mn : nat) (st : mstate) (ops : list db_op) : res mstate :=
  match ops with
  | [] => Ok st
  | OpLoad items :: r => st <- m_load O mx mn st items ;; m_run O fuel mx mn st r
  | OpRemove it :: r => st <- m_remove fuel st it ;; m_run O fuel mx mn st r
  end.

(** The same choices, for the model on values. *)
Definition value_oracle (O : m_oracle) : hdb_oracle :=
  HdbOracle (fun ax l => map (fun k => nth k l (bare zero_cell)) (mo_sort O ax (map db_bbox l)))
    (mo_msel O) (mo_height O) (mo_eps O).

(** sort.Sort permutes; selection permutes; the height is as computed by logarithms. *)
Record m_oracle_ok (O : m_oracle) : Prop := {
  mok_sort : forall ax bs, Permutation (mo_sort O ax bs) (seq 0 (length bs));
  mok_msel : forall ax n l, Permutation l (mo_msel O ax n l);
  mok_height : forall M N, 4 <= M -> M < N -> 1 <= mo_height O M N /\ M ^ (mo_height O M N - 1) <= N <= M ^ mo_height O M N
}.

(** A slice header that fits its array; all slices of nodes start at the first element of their array. *)
Definition k_ok (m : mheap) (s : slice) : Prop :=
  s_off s = 0 /\ s_len s <= s_cap s /\
  (s_cap s <> 0 -> s_arr s < length m /\ s_cap s <= length (nth (s_arr s) m [])).

(** The array a slice can write to. *)
Definition own (s : slice) : list nat := if Nat.eqb (s_cap s) 0 then [] else [s_arr s].

(** [rep m t c f]: the node [c] in memory is the root of the tree [t], and [f] lists the arrays of the tree, no array
    belonging to two nodes. *)
Inductive rep (m : mheap) : dbnode -> cell -> list nat -> Prop :=
| Rep ch it h l b s fs :
    k_ok m s -> reps m ch (kids_of m s) fs -> NoDup (own s ++ concat fs) ->
    rep m (DbNode ch it h l b) (Cell s it h l b) (own s ++ concat fs)
with reps (m : mheap) : list dbnode -> list cell -> list (list nat) -> Prop :=
| Reps_nil : reps m [] [] []
| Reps_cons t ts c cs f fs : rep m t c f -> reps m ts cs fs -> reps m (t :: ts) (c :: cs) (f :: fs).

(** The index in memory holds the tree [t]. *)
Definition holds (st : mstate) (t : dbnode) : Prop := exists f, rep (ms_heap st) t (ms_root st) f.
