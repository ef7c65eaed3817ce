(** The rational value of a float, used to say how accurate a computed distance is. *)
From Coq Require Import QArith.
From Verif Require Import M_Base M_Float M_Geom M_Offset.
Open Scope Q_scope.

(** The size of a finite float is m * 2^e; [qval] has its sign. *)
Definition qsize (x : f64) : Q :=
  match x with S754_finite _ m e => inject_Z (Z.pos m) * 2 ^ e | _ => 0 end.
Definition qval (x : f64) : Q :=
  match x with S754_finite true _ _ => - qsize x | _ => qsize x end.

(** A number of the binary64 format with |x| < 2^100. *)
Definition moderate (x : f64) : Prop :=
  is_fin x = true /\ valid_binary fprec femax x = true /\ qsize x < 2 ^ 100.

(** The coordinate, at time t, of a point that moves evenly from x0 at time t0 to x1 at time t1. *)
Definition synchronized (x0 x1 t0 t1 t : Q) : Q := x0 + (t - t0) / (t1 - t0) * (x1 - x0).

(** What the synchronized distance is computed from: the first and last fixes [a] and [b] of a
    trajectory, a fix [p] between them in time, and the length and direction of a->b as the
    trigonometric functions give them, off by at most [mu]; coordinates are at most [N]. *)
Definition size_at_most (N : Q) (x : f64) : Prop := qsize x <= N.
Definition fix_ok (N : Q) (p : point) : Prop :=
  moderate (px p) /\ moderate (py p) /\ moderate (pz p) /\ size_at_most N (px p) /\ size_at_most N (py p).
Definition length_off (mu : Q) (len dir x0 x1 : f64) : Prop :=
  is_fin dir = true /\ valid_binary fprec femax dir = true /\ qsize dir <= 1 /\
  - mu <= qval len * qval dir - (qval x1 - qval x0) <= mu.
Definition sed_input (t : trig) (mu N : Q) (a b p : point) : Prop :=
  fix_ok N a /\ fix_ok N b /\ fix_ok N p /\
  qval (pz a) + 2 ^ (-100) <= qval (pz b) /\ qval (pz a) <= qval (pz p) <= qval (pz b) /\
  moderate (tr_mag t a b) /\ length_off mu (tr_mag t a b) (tr_dx t a b) (px a) (px b) /\
  length_off mu (tr_mag t a b) (tr_dy t a b) (py a) (py b).

(** [displaced del d p s]: d is the difference p - s up to del. *)
Definition displaced (del d p s : Q) : Prop := - del <= d - (p - s) <= del.

(** The distance h is that of the two differences up to a factor 1 + 2^-48 (of the squares). *)
Definition distance_of (h dx dy : Q) : Prop :=
  h * h <= (1 + 2 ^ (-48)) * (dx * dx + dy * dy) + 2 ^ (-2050) /\
  dx * dx + dy * dy <= (1 + 2 ^ (-48)) * (h * h) + 2 ^ (-2050).
Definition square_distance_of (h dx dy : Q) : Prop :=
  h <= (1 + 2 ^ (-50)) * (dx * dx + dy * dy) + 2 ^ (-1071) /\
  dx * dx + dy * dy <= (1 + 2 ^ (-50)) * h + 2 ^ (-1071).
