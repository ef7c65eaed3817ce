(** When two hulls conflict, in terms of their sub-lines, their replacement segments and
    their hull geometries only. *)
From Verif Require Import M_Base M_Float M_Rng M_Geom M_Node.
Open Scope Z_scope.

Section Conflict.
  Variable L : geomlib.

  Definition same_place (p q : point) : Prop := gl_eq2d L p q = true.
  Definition is_end_of (h : node) (p : point) : Prop :=
    p = cfirst (n_coords h) \/ p = clast (n_coords h).

  (** Some end of one is at some end of the other. *)
  Definition share_an_end (a b : node) : Prop :=
    exists p q, is_end_of a p /\ is_end_of b q /\ same_place p q.

  (** The hulls meet at an end of one of them, and the sub-lines share an end. *)
  Definition meet_as_neighbours (a b : node) : Prop :=
    share_an_end a b /\
    exists p q, In p (gl_inter L (n_geom a) (n_geom b)) /\ (is_end_of a q \/ is_end_of b q) /\ same_place p q.

  (** The end of b that is not joined to a. *)
  Definition loose_end (a b : node) (t : point) : Prop :=
    let joined q := exists p, is_end_of a p /\ same_place p q in
    let bi := cfirst (n_coords b) in let bj := clast (n_coords b) in
    (joined bi /\ ~ same_place bi bj /\ t = bj) \/
    (joined bi /\ same_place bi bj /\ t = bi) \/
    (~ joined bi /\ joined bj /\ t = bi).

  (** The loose end of b is inside the hull of a, which stands for more than one segment. *)
  Definition swallows (a b : node) : Prop :=
    exists shell holes t, n_geom a = GPoly (shell :: holes) /\ rJ (n_rng a) - rI (n_rng a) <> 1 /\
      loose_end a b t /\ gl_in_ring L shell t = true.

  (** The replacement segments cross although the sub-lines do not. *)
  Definition new_crossing (a b : node) : Prop :=
    gl_isect L (n_line a) (n_line b) = false /\ gl_isect L (n_seg a) (n_seg b) = true.

  (** The sub-lines cross, and the segments do not, or not near enough. *)
  Definition displaced (disp : f64) (a b : node) : Prop :=
    gl_isect L (n_line a) (n_line b) = true /\
    ((gl_inter L (n_line a) (n_line b) <> [] /\ gl_inter L (n_seg a) (n_seg b) = []) \/
     exists p q, In p (gl_inter L (n_line a) (n_line b)) /\ In q (gl_inter L (n_seg a) (n_seg b)) /\
       fgt (gl_ptdist L p q) disp = true).

  (** The hull that has to change when a is checked against b; [nbrs] says whether they may
      count as neighbours on one line. *)
  Inductive must_change (disp : f64) (nbrs : Prop) (a b : node) : node -> Prop :=
  | mc_first : ~ nbrs -> new_crossing a b -> gl_isect L (n_seg a) (n_line b) = true ->
      must_change disp nbrs a b a
  | mc_second : ~ nbrs -> new_crossing a b -> gl_isect L (n_seg a) (n_line b) = false ->
      gl_isect L (n_seg b) (n_line a) = true -> must_change disp nbrs a b b
  | mc_both v : ~ nbrs -> displaced disp a b -> v = a \/ v = b -> must_change disp nbrs a b v
  | mc_flip_first : nbrs -> (2 <= length (gl_inter L (n_geom a) (n_geom b)))%nat -> swallows a b ->
      must_change disp nbrs a b a
  | mc_flip_second : nbrs -> (2 <= length (gl_inter L (n_geom a) (n_geom b)))%nat -> swallows b a ->
      must_change disp nbrs a b b.

  (** Checked on one line, or across the features of a class. *)
  Definition line_conflict (disp : f64) (a b v : node) : Prop :=
    gl_isect L (n_geom a) (n_geom b) = true /\
    must_change disp (meet_as_neighbours a b) a b v.
  Definition class_conflict (disp : f64) (a b v : node) : Prop :=
    gl_isect L (n_geom a) (n_geom b) = true /\
    ((n_inst a = n_inst b /\ must_change disp (meet_as_neighbours a b) a b v) \/
     (n_inst a <> n_inst b /\ gl_inter L (n_geom a) (n_geom b) <> [] /\ must_change disp False a b v)).

  (** A point at the same place as some point is at the same place as itself (IEEE
      comparison is reflexive except on NaN). *)
  Definition places_ok : Prop := forall p q, same_place p q -> same_place q q.
End Conflict.

(** The library treats the two hulls alike in both orders. *)
Record even_handed (L : geomlib) (a b : node) : Prop := {
  eh_hulls : gl_isect L (n_geom a) (n_geom b) = gl_isect L (n_geom b) (n_geom a);
  eh_lines : gl_isect L (n_line a) (n_line b) = gl_isect L (n_line b) (n_line a);
  eh_segs : gl_isect L (n_seg a) (n_seg b) = gl_isect L (n_seg b) (n_seg a);
  eh_count : length (gl_inter L (n_geom a) (n_geom b)) = length (gl_inter L (n_geom b) (n_geom a));
  eh_touch : forall q, is_end_of a q \/ is_end_of b q ->
    existsb (fun p => gl_eq2d L p q) (gl_inter L (n_geom a) (n_geom b)) =
    existsb (fun p => gl_eq2d L p q) (gl_inter L (n_geom b) (n_geom a));
  eh_line_points : Permutation (gl_inter L (n_line a) (n_line b)) (gl_inter L (n_line b) (n_line a));
  eh_seg_points : Permutation (gl_inter L (n_seg a) (n_seg b)) (gl_inter L (n_seg b) (n_seg a));
  eh_ends : forall p q, is_end_of a p -> is_end_of b q -> gl_eq2d L p q = gl_eq2d L q p
}.
