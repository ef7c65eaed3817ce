(** Vocabulary for C98: the result of simplifying a class of lines together, on top of Spec_Whole.v.  A state gives, for
    the id of every line, the increasing list of its kept vertices. *)
From Verif Require Import M_Base M_Float M_Rng M_Geom M_Offset M_Node M_Decompose M_Hdb M_Knn M_Lnr M_Homotopy M_Relate
  M_Deform M_Constrain M_ConstDP M_IO Spec Spec_Hdb Spec_Lnr Spec_Relate Spec_Deform Spec_ConstDP Spec_IO Spec_Run Spec_Out Spec_Modes Spec_Move Spec_Exact
  Spec_Whole.
Open Scope Z_scope.

Section Class.
  Variables (L : geomlib) (o : opts) (dist : point -> point -> point -> f64) (constraints : list geometry).
  (** The lines: their ids and the vertices of each. *)
  Variables (ids : list Z) (pts : Z -> list point).

  (** The part r of line i with its hull. *)
  Definition class_part (i : Z) (r : rng) : node :=
    Node 0 (sub_coords (pts i) r) r (gl_bounds L (piece_hull L (pts i) r)) (piece_hull L (pts i) r) i.

  (** With avoid_self, checking the part r of line i against another part q of line j near it asks for a change of the part v
      of line k, one of the two. *)
  Definition conflict_between (i : Z) (r : rng) (j : Z) (q : rng) (k : Z) (v : rng) : Prop :=
    o_avoid_self o = true /\ ~ (j = i /\ q = r) /\
    boxes_meet (gl_bounds L (piece_hull L (pts i) r)) (gl_bounds L (piece_hull L (pts j) q)) = true /\
    fle (gl_dist L (piece_hull L (pts j) q) (piece_hull L (pts i) r)) epsilon_dist = true /\
    class_conflict L (o_non_planar_displacement o) (class_part i r) (class_part j q) (class_part k v).

  Section Round.
    (** Lines that were changed in an earlier round; the states before and after that round. *)
    Variables (changed : Z -> Prop) (before now : Z -> list Z).

    (** A round checks the parts that are new, if they are longer than a segment and their hulls are not flat. *)
    Definition checked (i : Z) (r : rng) : Prop :=
      In i ids /\ In r (parts (now i)) /\ ~ In r (parts (before i)) /\ examined (class_part i r).

    (** A part is checked against the parts of other lines, and against those of its own line if that was changed. *)
    Definition asks (i : Z) (r : rng) (k : Z) (v : rng) : Prop :=
      exists j q, In j ids /\ In q (parts (now j)) /\ (j <> i \/ changed i) /\ conflict_between i r j q k v.

    (** The parts split in a round.  Of the changes that one check asks for, each range is taken for one line only: the
        program notes them by range. *)
    Definition split_in_round (split : Z -> rng -> Prop) : Prop :=
      exists taken : Z -> rng -> Z -> rng -> Prop,
        (forall i r k v, taken i r k v -> checked i r /\ asks i r k v) /\
        (forall i r k v, checked i r -> asks i r k v -> exists k', taken i r k' v) /\
        (forall i r k k' v, taken i r k v -> taken i r k' v -> k = k') /\
        (forall k v, split k v <->
           In k ids /\ In v (parts (now k)) /\ 1 < rJ v - rI v /\
           ((exists i r, taken i r k v) \/ (checked k v /\ chord_ok L o constraints (pts k) (rI v) (rJ v) = false))).

    (** No check asks for a change of parts with the same range on two lines. *)
    Definition unambiguous : Prop :=
      forall i r k k' v, checked i r -> asks i r k v -> asks i r k' v -> k = k'.
  End Round.

  (** Rounds until one splits nothing.  Each puts back the farthest vertex of every part that is split. *)
  Inductive settle_class : (Z -> Prop) -> (Z -> list Z) -> (Z -> list Z) -> (Z -> list Z) -> Prop :=
  | sc_done changed before now split result :
      split_in_round changed before now split -> (forall k v, ~ split k v) ->
      (forall i, In i ids -> result i = now i) -> settle_class changed before now result
  | sc_round changed before now split next result :
      split_in_round changed before now split -> (exists k v, split k v) ->
      (forall i, In i ids -> increasing (next i) /\
         forall k, In k (next i) <-> In k (now i) \/ exists v, split i v /\ farthest_vertex dist (pts i) (rI v) (rJ v) k) ->
      settle_class (fun i => changed i \/ exists v, split i v) now next result ->
      settle_class changed before now result.

  (** The same when every round is unambiguous. *)
  Inductive settle_clearly : (Z -> Prop) -> (Z -> list Z) -> (Z -> list Z) -> (Z -> list Z) -> Prop :=
  | sy_done changed before now split result :
      unambiguous changed before now ->
      split_in_round changed before now split -> (forall k v, ~ split k v) ->
      (forall i, In i ids -> result i = now i) -> settle_clearly changed before now result
  | sy_round changed before now split next result :
      unambiguous changed before now ->
      split_in_round changed before now split -> (exists k v, split k v) ->
      (forall i, In i ids -> increasing (next i) /\
         forall k, In k (next i) <-> In k (now i) \/ exists v, split i v /\ farthest_vertex dist (pts i) (rI v) (rJ v) k) ->
      settle_clearly (fun i => changed i \/ exists v, split i v) now next result ->
      settle_clearly changed before now result.

  (** Every line by itself (with its forced vertices, which include those shared with other lines), then rounds
      over all lines together, without another attempt to drop vertices. *)
  Definition class_result (forced : Z -> Z -> Prop) (result : Z -> list Z) : Prop :=
    exists alone : Z -> list Z,
      (forall i, In i ids -> whole_result L o dist constraints (pts i) (forced i) (alone i)) /\
      settle_class (fun _ => False) (fun _ => []) alone result.
  Definition class_result_clear (forced : Z -> Z -> Prop) (result : Z -> list Z) : Prop :=
    exists alone : Z -> list Z,
      (forall i, In i ids -> whole_result L o dist constraints (pts i) (forced i) (alone i)) /\
      settle_clearly (fun _ => False) (fun _ => []) alone result.
End Class.

(** The vertices of a line of a class that are forced with planar_self: its crossings and touchings of itself, and the vertices
    where it meets another vertex of the class (without those at the greatest location, see C17). *)
Definition class_forced (W : world) (selfs : list cdp) (s : cdp) (k : Z) : Prop :=
  let fc := map (fun s => (c_id s, c_pts s)) selfs in
  o_planar_self (c_opts s) = true /\
  (forced_by (self_intersections W s) k \/
   exists p, vertex_at fc (c_id s) k p /\ shared_vertex fc (c_id s) k p /\ not_greatest (class_points fc) p).

(** The same for lines given by their ids and vertices, with options and offsets of the run. *)
Definition lines_forced (W : world) (o : opts) (score : scorefn) (ids : list Z) (pts : Z -> list point) (i k : Z) : Prop :=
  let fc := map (fun i => (i, pts i)) ids in
  o_planar_self o = true /\
  (forced_by (self_intersections W (proto o score (pts i))) k \/
   exists p, vertex_at fc i k p /\ shared_vertex fc i k p /\ not_greatest (class_points fc) p).
