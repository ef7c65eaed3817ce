(** Vocabulary of the fragment merging theorems. *)
From Verif Require Import M_Base M_Float M_Rng M_Geom M_Offset M_Node Spec.
Open Scope Z_scope.

(** [m] is the hull that replaces the contiguous hulls [s] and [h] of the line [pts]: they
    meet at a vertex outside [vset], one of them ([h]) has the given size, [m] spans both and
    the score of its vertices is acceptable. *)
Definition joined (pts : list point) (vset : Z -> bool) (size : Z) (valid : f64 -> bool)
    (score : coords -> Z * f64) (p : node * node) (m : node) : Prop :=
  let '(s, h) := p in
  let a := n_rng s in let b := n_rng h in
  rJ b - rI b = size /\
  ((rJ a = rI b /\ vset (rI b) = false /\ n_rng m = Rng (rI a) (rJ b)) \/
   (rJ b = rI a /\ vset (rI a) = false /\ n_rng m = Rng (rI b) (rJ a))) /\
  hull_of pts m /\ n_inst m = n_inst h /\ valid (snd (score (n_coords m))) = true.

(** The hulls of a list of pairs, in order. *)
Definition both (ps : list (node * node)) : list node := flat_map (fun p => [fst p; snd p]) ps.

(** Two hulls that meet at a vertex outside [vset]. *)
Definition meet_outside (vset : Z -> bool) (a b : rng) : Prop :=
  (rJ a = rI b /\ vset (rI b) = false) \/ (rJ b = rI a /\ vset (rI a) = false).

(** The vertices of two contiguous ranges. *)
Definition both_points (pts : list point) (a b : rng) : coords :=
  Coords pts (zseq (Z.min (rI a) (rI b)) (Z.max (rJ a) (rJ b))).
