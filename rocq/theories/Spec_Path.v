(** Paths in the plane, their deformations and their crossings with a ray. *)
From Coq Require Import QArith.
From Verif Require Import M_Base M_Geom Spec_Plane.
Open Scope Z_scope.

(** The place of a vertex. *)
Definition spot (p : point) : place := (xof p, yof p).

(** On the way from p to q at time s, 0 <= s <= 1. *)
Definition toward (s : Q) (p q : place) : place :=
  ((1 - s) * fst p + s * fst q, (1 - s) * snd p + s * snd q)%Q.
Definition time (s : Q) : Prop := (0 <= s)%Q /\ (s <= 1)%Q.
Definition same_place (p q : place) : Prop := (fst p == fst q)%Q /\ (snd p == snd q)%Q.

(** The places of the path that goes straight from one place of the list to the next. *)
Definition on_path (l : list place) (q : place) : Prop :=
  exists u a b w t, l = u ++ a :: b :: w /\ time t /\ same_place q (toward t a b).

(** One path is deformed into the other, its ends fixed, and all the time all its places are free: a corner of the path
    moves straight to another place, again and again; a corner that has come to the corner before it merges with it. *)
Inductive deforms (free : place -> Prop) : list place -> list place -> Prop :=
| deforms_done l : deforms free l l
| deforms_move u a b b' c w l :
    (forall s q, time s -> on_path (u ++ a :: toward s b b' :: c :: w) q -> free q) ->
    deforms free (u ++ a :: b' :: c :: w) l -> deforms free (u ++ a :: b :: c :: w) l
| deforms_merge u a w l :
    deforms free (u ++ a :: w) l -> deforms free (u ++ a :: a :: w) l.

(** Twice the signed area of the triangle a b z: positive if z is to the left of the way from a to b. *)
Definition side (a b z : place) : Q :=
  ((fst b - fst a) * (snd z - snd a) - (snd b - snd a) * (fst z - fst a))%Q.
(** The way from a to b crosses the ray from z in the direction of growing x: upwards +1, downwards -1. *)
Definition crossing (z a b : place) : Z :=
  if Qle_bool (snd a) (snd z) then
    if Qle_bool (snd b) (snd z) then 0 else if Qle_bool (side a b z) 0 then 0 else 1
  else
    if Qle_bool (snd b) (snd z) then if Qle_bool 0 (side a b z) then 0 else -1 else 0.
(** All crossings of a path. *)
Fixpoint crossings (z : place) (l : list place) : Z :=
  match l with
  | a :: ((b :: _) as r) => crossing z a b + crossings z r
  | _ => 0
  end.

(** A line passes the constraints that neither it nor its replacement touches on the same side: it can be deformed into
    the replacement in the free plane, and crosses every ray from a place of such a constraint as often (a crossing from
    the other side takes one back). *)
Definition passes_alike (D : geometry -> place -> Prop) (constraints : list geometry) (line other : list point) : Prop :=
  let clear g := In g constraints /\ ~ meets (on_polyline line) (D g) /\ ~ meets (on_polyline other) (D g) in
  deforms (fun q => forall g, clear g -> ~ D g q) (map spot line) (map spot other) /\
  forall g z, clear g -> D g z -> crossings z (map spot line) = crossings z (map spot other).
