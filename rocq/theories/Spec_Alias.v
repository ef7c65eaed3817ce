(** The same runs on values: no arrays, no pointers. *)
From Verif Require Import M_Base M_Alias.
Open Scope Z_scope.

(** Removals and insertions on a list of values. *)
Fixpoint v_rounds (vs : list Z) (rs : rounds) : list Z :=
  match rs with
  | [] => vs
  | (pos, vals) :: r => v_rounds (pick (vs ++ vals) pos) r
  end.
Definition v_simplify (p : plan) : list Z :=
  v_rounds (match sp_con p with None => sp_dec p | Some l => l end) (sp_rounds p).
(** Every object of a class gets the hulls that are its own. *)
Definition v_class (ps : list plan) (constrained : bool) (rs : rounds) (owner : Z -> nat) : list (list Z) :=
  let each := map v_simplify ps in
  if constrained
  then map (fun k => filter (fun v => Nat.eqb (owner v) k) (v_rounds (concat each) rs)) (seq 0 (length ps))
  else each.
(** The k-th of a list of values replaced. *)
Definition v_replace (hs : list (list Z)) (k : nat) (v : list Z) : list (list Z) :=
  map (fun x => if Nat.eqb (fst x) k then v else snd x) (combine (seq 0 (length hs)) hs).
Definition v_run (hs : list (list Z)) (c : hcall) : list (list Z) :=
  match c with
  | HSimplify k p => v_replace hs k (v_simplify p)
  | HClass ps b rs owner => v_class ps b rs owner
  end.
