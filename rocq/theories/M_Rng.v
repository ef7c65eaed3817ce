(** Model of package rng. *)
From Verif Require Import M_Base.
Open Scope Z_scope.

(** rng/rng.go:8-11 type Rng; rng/rng.go:14-16 Range. *)
Record rng := Rng { rI : Z; rJ : Z }.

(** rng/rng.go:24-26 Equals; also key equality of [AsArray] (rng/array.go:4-6). *)
Definition rng_eqb (a b : rng) : bool := (rI a =? rI b) && (rJ a =? rJ b).

(** rng/rng.go:29-31 Size. *)
Definition rsize (r : rng) : Z := rJ r - rI r.

(** rng/array.go:9-12 AsSlice. *)
Definition rslice (r : rng) : list Z := [rI r; rJ r].

(** rng/contig.go:4-6 Contiguous. *)
Definition rcontig (o r : rng) : bool :=
  ((rI o <? rJ r) && (rJ o =? rI r)) || ((rI r <? rJ o) && (rJ r =? rI o)).

(** rng/split.go:6-27 Split.  The loop keeps [sub] in reverse order ([acc]), so
    the Go expression [sub[len(sub)-1].J] is the J of the head of [acc]. *)
Definition split_step (i j : Z) (acc : list rng) (idx : Z) : list rng :=
  if (i <? idx) && (idx <? j) then
    let s := match acc with [] => i | h :: _ => rJ h end in
    Rng s idx :: acc
  else acc.

Definition rsplit (o : rng) (idxs : list Z) : list rng :=
  let sub := fold_left (split_step (rI o) (rJ o)) (zset idxs) [] in
  match sub with
  | [] => []
  | h :: _ => if rJ h <? rJ o then rev (Rng (rJ h) (rJ o) :: sub) else rev sub
  end.
