(** Go slices of ints over shared arrays, and merge.ContiguousCoordinates at that level. *)
From Verif Require Import M_Base M_Rng.
Open Scope Z_scope.

(** The heap: arrays by address.  Addresses below the length are allocated. *)
Definition heap := list (list Z).

(** A slice header: address, offset, length and capacity. *)
Record slice := Slice { s_arr : nat; s_off : nat; s_len : nat; s_cap : nat }.

(** The elements of a slice. *)
Definition s_read (m : heap) (s : slice) : list Z :=
  firstn (s_len s) (skipn (s_off s) (nth (s_arr s) m [])).

(** A slice header that fits an allocated array. *)
Definition s_ok (m : heap) (s : slice) : Prop :=
  (s_arr s < length m)%nat /\ (s_len s <= s_cap s)%nat /\
  (s_off s + s_cap s <= length (nth (s_arr s) m []))%nat.

(** [s[:n:n]]: length and capacity n. *)
Definition s_full3 (s : slice) (n : nat) : slice := Slice (s_arr s) (s_off s) n n.

(** Overwriting [len xs] elements of an array from position i on. *)
Definition a_write (a : list Z) (i : nat) (xs : list Z) : list Z :=
  firstn i a ++ xs ++ skipn (i + length xs) a.

Fixpoint h_write (m : heap) (p : nat) (i : nat) (xs : list Z) : heap :=
  match m, p with
  | [], _ => []
  | a :: r, O => a_write a i xs :: r
  | a :: r, S p' => a :: h_write r p' i xs
  end.

(** Built-in append: in place when the capacity suffices, otherwise a new array (its spare
    capacity, chosen by the runtime, is [grow]). *)
Definition s_append (grow : nat) (m : heap) (s : slice) (xs : list Z) : heap * slice :=
  let n := (s_len s + length xs)%nat in
  if Nat.leb n (s_cap s) then
    (h_write m (s_arr s) (s_off s + s_len s) xs, Slice (s_arr s) (s_off s) n (s_cap s))
  else
    (m ++ [s_read m s ++ xs ++ repeat 0 grow], Slice (length m) 0 n (n + grow)).

(** A hull seen by merge/merge.go:39-52: its range and its index slice. *)
Record shull := SHull { sh_rng : rng; sh_idxs : slice }.

(** merge/merge.go:39-52 ContiguousCoordinates. *)
Definition contiguous_idxs (grow : nat) (m : heap) (ha hb : shull) : res (heap * slice) :=
  if negb (rcontig (sh_rng ha) (sh_rng hb)) then Panic
  else
    let '(ha, hb) :=
      if (rI (sh_rng hb) <? rJ (sh_rng ha)) && (rJ (sh_rng hb) =? rI (sh_rng ha))
      then (hb, ha) else (ha, hb) in
    match s_len (sh_idxs ha) with
    | 0%nat => Panic
    | S n => Ok (s_append grow m (s_full3 (sh_idxs ha) n) (s_read m (sh_idxs hb)))
    end.
