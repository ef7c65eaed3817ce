(** The hulls of constdp objects in memory: which arrays the field Hulls, the index and the
    intermediate slices use.  A number stands for the value of a hull; what the values are is the
    subject of M_ConstDP and is here a parameter of every run. *)
From Verif Require Import M_Base M_Slice.
Open Scope Z_scope.

(** The pointer &items[i]. *)
Record cell := Cell { p_arr : nat; p_idx : nat }.
Definition deref (m : heap) (p : cell) : Z := nth (p_idx p) (nth (p_arr p) m []) 0.

(** hdb/load.go:19-53 Load: the index keeps a pointer to every element of the slice it is given. *)
Definition cells (s : slice) : list cell :=
  map (fun i => Cell (s_arr s) (s_off s + i)) (seq 0 (s_len s)).

(** A slice filled by appending to an empty one.  Its spare capacity is up to the runtime: [g] gives it
    for every array. *)
Definition s_new (g : nat -> nat) (m : heap) (xs : list Z) : heap * slice :=
  (m ++ [xs ++ repeat 0 (g (length m))], Slice (length m) 0 (length xs) (length xs + g (length m))).

(** node/nodes.go:54-56 Clear: the slice is cut to length 0 and keeps its array. *)
Definition clear (s : slice) : slice := Slice (s_arr s) (s_off s) 0 (s_cap s).

(** The elements of [l] at the given positions: what is left of the index after removals, in the order
    in which the index lists it. *)
Definition pick {A} (l : list A) (pos : list nat) : list A :=
  flat_map (fun i => match nth_error l i with Some x => [x] | None => [] end) pos.

(** What happens to the index between loading and the final listing: some hulls are removed and a new slice
    of hulls is loaded, again and again.  constdp/simplify.go:41-55 (deformNodes makes a new slice,
    constdp/simple_1.go:14), constdp/node_aggregates.go:82, 115 (insertList), constdp/fc_simplify.go:51-66. *)
Definition rounds : Type := list (list nat * list Z).
Fixpoint rounds_mem (g : nat -> nat) (m : heap) (db : list cell) (rs : rounds) : heap * list cell :=
  match rs with
  | [] => (m, db)
  | (pos, vals) :: r =>
    let '(m, s) := s_new g m vals in rounds_mem g m (pick (db ++ cells s) pos) r
  end.

(** [for i := range nodes { hulls = append(hulls, *nodes[i]) }]: every hull is read when its turn comes. *)
Fixpoint append_deref (g : nat -> nat) (m : heap) (s : slice) (ps : list cell) : heap * slice :=
  match ps with
  | [] => (m, s)
  | p :: r => let '(m, s) := s_append (g (length m)) m s [deref m p] in append_deref g m s r
  end.

(** The values a run of Simplify computes: the hulls of the decomposition, those of
    constrain.ToSelfIntersects when it makes new ones (constrain/toself.go:54-57; without PlanarSelf it returns
    its argument, line 21), and what the rounds do. *)
Record plan := Plan { sp_dec : list Z; sp_con : option (list Z); sp_rounds : rounds }.

(** constdp/simplify.go:23-70: the heap and the field Hulls afterwards. *)
Definition simplify_mem (g : nat -> nat) (m : heap) (p : plan) : heap * slice :=
  let '(m, hulls) := s_new g m (sp_dec p) in
  let '(m, hulls) := match sp_con p with None => (m, hulls) | Some l => s_new g m l end in
  let '(m, deformables) := s_new g m (s_read m hulls) in
  let hulls := clear hulls in
  let '(m, db) := rounds_mem g m (cells deformables) (sp_rounds p) in
  let hulls := clear hulls in
  append_deref g m hulls db.

(** constdp/fc_simplify.go:30, 71-106, one object after the other: they share no array. *)
Fixpoint simplify_all (g : nat -> nat) (m : heap) (ps : list plan) : heap * list slice :=
  match ps with
  | [] => (m, [])
  | p :: r => let '(m, s) := simplify_mem g m p in let '(m, ss) := simplify_all g m r in (m, s :: ss)
  end.

(** constdp/fc_group.go:15-24: the lists of the map, one per object ([owner] of a hull: the position of its
    object). *)
Fixpoint group_lists (g : nat -> nat) (m : heap) (db : list cell) (owner : Z -> nat) (k n : nat)
  : heap * list slice :=
  match n with
  | O => (m, [])
  | S n' =>
    let '(m, s) := s_new g m (filter (fun v => Nat.eqb (owner v) k) (map (deref m) db)) in
    let '(m, ss) := group_lists g m db owner (S k) n' in (m, s :: ss)
  end.
(** constdp/fc_group.go:26-33, in the order of the objects (the map yields them in any order). *)
Fixpoint group_set (g : nat -> nat) (m : heap) (hulls lists : list slice) : heap * list slice :=
  match hulls, lists with
  | h :: hr, l :: lr =>
    let '(m, s) := append_deref g m (clear h) (cells l) in
    let '(m, ss) := group_set g m hr lr in (m, s :: ss)
  | _, _ => (m, [])
  end.

(** constdp/fc_simplify.go:14-69 SimplifyFeatureClass on objects with the given plans. *)
Definition class_mem (g : nat -> nat) (m : heap) (ps : list plan) (constrained : bool) (rs : rounds)
    (owner : Z -> nat) : heap * list slice :=
  let '(m, hulls) := simplify_all g m ps in
  if constrained then
    let '(m, deformables) := s_new g m (flat_map (s_read m) hulls) in
    let hulls := map clear hulls in
    let '(m, db) := rounds_mem g m (cells deformables) rs in
    let '(m, lists) := group_lists g m db owner 0 (length hulls) in
    group_set g m hulls lists
  else (m, hulls).

(** A program that runs objects, one at a time or all of them as a class. *)
Inductive hcall :=
| HSimplify (k : nat) (p : plan)
| HClass (ps : list plan) (constrained : bool) (rs : rounds) (owner : Z -> nat).

Fixpoint h_set {A} (l : list A) (k : nat) (x : A) : list A :=
  match l, k with
  | [], _ => []
  | _ :: r, O => x :: r
  | y :: r, S k' => y :: h_set r k' x
  end.
(** The memory: arrays, and the field Hulls of every object. *)
Definition hmem : Type := heap * list slice.
Definition hrun (g : nat -> nat) (w : hmem) (c : hcall) : hmem :=
  let '(m, hulls) := w in
  match c with
  | HSimplify k p => let '(m, s) := simplify_mem g m p in (m, h_set hulls k s)
  | HClass ps b rs owner => class_mem g m ps b rs owner
  end.
Definition hruns (g : nat -> nat) (w : hmem) (cs : list hcall) : hmem := fold_left (hrun g) cs w.
(** Objects fresh from NewConstDP: Hulls is nil. *)
Definition hstart (n : nat) : hmem := ([], repeat (Slice 0 0 0 0) n).
