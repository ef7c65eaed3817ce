(** Model of package decompose and of the plain Douglas-Peucker type (package dp). *)
From Verif Require Import M_Base M_Float M_Rng M_Geom M_Offset M_Node.
Open Scope Z_scope.

(** decompose/decompose.go:34-49: the stack loop.  The Go stack grows at its end; the
    model's top of stack is the head of the list.  Returned hulls are accumulated in
    reverse.  [ctr] counts the ids drawn so far. *)
Fixpoint dp_loop (L : geomlib) (gen : idgen) (pts : list point) (inst : Z)
    (score : scorefn) (rel : f64 -> bool)
    (fuel : nat) (stack : list rng) (acc : list node) (ctr : nat)
  : res (list node * nat) :=
  match fuel with
  | O => NoFuel
  | S f =>
    match stack with
    | [] => Ok (rev acc, ctr)
    | r :: st =>
      let c := sub_coords pts r in
      let (k, val) := score c in
      let k := rI r + k in
      if rel val then
        dp_loop L gen pts inst score rel f st
          (create_node L (gen ctr) c r inst :: acc) (S ctr)
      else
        dp_loop L gen pts inst score rel f (Rng (rI r) k :: Rng k (rJ r) :: st) acc ctr
    end
  end.

(** geometry/pln.go:19-24 CreatePolyline: fewer than two coordinates give a nil
    LineString, represented by [None]. *)
Definition create_polyline (pts : list point) : option (list point) :=
  if zlen pts <? 2 then None else Some pts.

(** geometry/pln.go:44-46 Range of the whole polyline (indices 0..n-1). *)
Definition pln_range (pts : list point) : rng := Rng 0 (zlen pts - 1).

(** decompose/decompose.go:14-51 DouglasPeucker. *)
Definition douglas_peucker (L : geomlib) (gen : idgen) (pln : option (list point))
    (inst : Z) (score : scorefn) (rel : f64 -> bool) (fuel ctr : nat)
  : res (list node * nat) :=
  match pln with
  | None => Ok ([], ctr)
  | Some pts => dp_loop L gen pts inst score rel fuel [pln_range pts] [] ctr
  end.

(** dp/dp.go:56-58 ScoreRelation, 60-62 SquareScoreRelation. *)
Definition score_rel (T : f64) (v : f64) : bool := fle v T.
Definition square_score_rel (T : f64) (v : f64) : bool := fle v (fmul T T).

(** dp/dp.go:64-75 Decompose: the squared score and relation are used when a squared
    score function was given. *)
Definition dp_score (score : scorefn) (sq : option scorefn) : scorefn :=
  match sq with Some s => s | None => score end.
Definition dp_relation (T : f64) (sq : option scorefn) : f64 -> bool :=
  match sq with Some _ => square_score_rel T | None => score_rel T end.

Definition dp_decompose (L : geomlib) (gen : idgen) (pln : option (list point))
    (inst : Z) (T : f64) (score : scorefn) (sq : option scorefn) (fuel ctr : nat) :=
  douglas_peucker L gen pln inst (dp_score score sq) (dp_relation T sq) fuel ctr.

(** dp/dp.go:77-80 Simplify followed by dp/dp.go:82-94 Simple. *)
Definition dp_simple (L : geomlib) (gen : idgen) (pln : option (list point))
    (inst : Z) (T : f64) (score : scorefn) (sq : option scorefn) (fuel ctr : nat)
  : res (list Z) :=
  '(hs, _) <- dp_decompose L gen pln inst T score sq fuel ctr ;;
  Ok (point_set hs).
