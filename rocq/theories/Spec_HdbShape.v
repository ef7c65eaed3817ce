(** Specification vocabulary for the shape of the spatial index: its depth, and where nodes go and are cut. *)
From Verif Require Import M_Base M_Float M_Rng M_Geom M_Node M_Hdb Spec_Hdb.
Open Scope nat_scope.

(** How many hulls a history hands to the index in all, whatever it removes in between. *)
Fixpoint loaded (ops : list db_op) : nat :=
  match ops with
  | [] => 0
  | OpLoad items :: r => length items + loaded r
  | OpRemove _ :: r => loaded r
  end.

(** A box of float64 numbers below 2^483. *)
Definition real_box (b : mbr) : Prop :=
  (below_pow2 483 (minx b) /\ valid_binary fprec femax (minx b) = true) /\
  (below_pow2 483 (miny b) /\ valid_binary fprec femax (miny b) = true) /\
  (below_pow2 483 (maxx b) /\ valid_binary fprec femax (maxx b) = true) /\
  (below_pow2 483 (maxy b) /\ valid_binary fprec femax (maxy b) = true).

(** The smallest box around the boxes of some entries. *)
Definition surrounds (B : mbr) (l : list dbnode) : Prop :=
  (forall c, In c l -> box_within (db_bbox c) B = true) /\
  (forall B', num_box B' -> (forall c, In c l -> box_within (db_bbox c) B' = true) -> box_within B B' = true).

Definition f_max (a b : f64) : f64 := if flt a b then b else a.
Definition f_min (a b : f64) : f64 := if flt b a then b else a.

(** The area, in float64, of what two boxes have in common; of a box; of a box stretched over another. *)
Definition box_area (a : mbr) : f64 := fmul (fsub (maxx a) (minx a)) (fsub (maxy a) (miny a)).
Definition common_area (a b : mbr) : f64 :=
  if boxes_meet a b then
    box_area (MBR (f_max (minx a) (minx b)) (f_max (miny a) (miny b)) (f_min (maxx a) (maxx b)) (f_min (maxy a) (maxy b)))
  else fzero.
Definition stretched_area (a b : mbr) : f64 :=
  box_area (MBR (f_min (minx a) (minx b)) (f_min (miny a) (miny b)) (f_max (maxx a) (maxx b)) (f_max (maxy a) (maxy b))).

(** Entries in order of their lower corners along an axis (true: x). *)
Definition low (ax : bool) (b : mbr) : f64 := if ax then minx b else miny b.
Fixpoint in_order (ax : bool) (l : list dbnode) : Prop :=
  match l with
  | [] => True
  | c :: r => (forall d, In d r -> fle (low ax (db_bbox c)) (low ax (db_bbox d)) = true) /\ in_order ax r
  end.

(** The groups that the admissible cuts of a list of entries make, each group once: the first m entries, the last m, then
    more and more from the front, more and more from the back. *)
Definition groups (m : nat) (c : list dbnode) : list (list dbnode) :=
  firstn m c :: skipn (length c - m) c ::
  map (fun j => firstn j c) (seq (S m) (length c - m - m)) ++
  map (fun j => skipn j c) (rev (seq m (length c - m - m))).
(** Half the length of the boundary of a box, and the sum over some boxes, in float64. *)
Definition half_girth (b : mbr) : f64 := fadd (fsub (maxx b) (minx b)) (fsub (maxy b) (miny b)).
Definition total_girth (bs : list mbr) : f64 :=
  match map half_girth bs with
  | [] => fzero
  | g :: r => fold_left fadd r g
  end.
