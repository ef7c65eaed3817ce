(** Vocabulary for C96: the result of simplifying one line, described without the program's data
    structures.  A result is the increasing list of the indices of the kept vertices; two
    consecutive ones bound a part of the line, whose chord replaces it. *)
From Verif Require Import M_Base M_Float M_Rng M_Geom M_Offset M_Node M_Decompose M_Hdb M_Knn M_Lnr M_Homotopy M_Relate
  M_Deform M_Constrain M_ConstDP M_IO Spec Spec_Hdb Spec_Relate Spec_ConstDP Spec_IO Spec_Run Spec_Out Spec_Modes Spec_Move.
Open Scope Z_scope.

Section Exact.
  Variables (L : geomlib) (o : opts) (dist : point -> point -> point -> f64) (constraints : list geometry) (pts : list point).

  (** The distance of vertex m from the chord of the vertices a and b. *)
  Definition offset (a b m : Z) : f64 := dist (vertex pts a) (vertex pts b) (vertex pts m).

  (** The vertex between a and b that is farthest from their chord, the last one if several are equally far. *)
  Definition farthest_vertex (a b k : Z) : Prop :=
    a < k < b /\ is_nan (offset a b k) = false /\
    (forall m, a < m < b -> flt (offset a b k) (offset a b m) = false) /\
    (forall m, k < m < b -> fle (offset a b k) (offset a b m) = false).

  (** No vertex between a and b is farther than the threshold from their chord. *)
  Definition all_close (a b : Z) : bool :=
    forallb (fun m => negb (flt (o_threshold o) (offset a b m))) (zseq (a + 1) (b - 1)).

  (** The constraints within the minimum distance of the convex hull of the part a-b. *)
  Definition nearby_constraints (a b : Z) : list geometry :=
    filter (fun g => fle (gl_dist L (piece_hull L pts (Rng a b)) g) (o_min_dist o)) constraints.

  (** The chord of a and b keeps the relations asked for with every nearby constraint:
      it meets a constraint iff the part does, it comes no nearer than the minimum distance unless the part does,
      and the part can be pulled straight to the chord (the question of C24 and C90). *)
  Definition chord_ok (a b : Z) : bool :=
    let line := GLine (points_of pts (Rng a b)) in
    let chord := GSeg (vertex pts a) (vertex pts b) in
    let near := nearby_constraints a b in
    (negb (o_geom o) || forallb (fun g => Bool.eqb (gl_isect L line g) (gl_isect L chord g)) near) &&
    (negb (o_dist o) ||
     forallb (fun g => fge (gl_dist L chord g) (o_min_dist o) || flt (gl_dist L line g) (o_min_dist o)) near) &&
    (negb (o_dir o) || match homotopy L (sub_coords pts (Rng a b)) near with Ok b => b | _ => false end).

  (** A part that need not be split: a segment of the line, a part with a flat hull, or one whose chord will do. *)
  Definition part_fine (a b : Z) : bool :=
    (b - a =? 1) || is_line (piece_hull L pts (Rng a b)) || chord_ok a b.

  (** Splitting a part until all its parts are fine. *)
  Inductive split_until_fine : Z -> Z -> list Z -> Prop :=
  | su_fine a b : part_fine a b = true -> split_until_fine a b [a; b]
  | su_split a b k left right : part_fine a b = false -> farthest_vertex a b k ->
      split_until_fine a k left -> split_until_fine k b (k :: right) -> split_until_fine a b (left ++ right).

  (** Splitting every part between consecutive vertices of a list. *)
  Inductive split_parts : list Z -> list Z -> Prop :=
  | sp_end a : split_parts [a] [a]
  | sp_part a b rest left right : split_until_fine a b left -> split_parts (b :: rest) (b :: right) ->
      split_parts (a :: b :: rest) (left ++ right).

  (** The chord of a and b may replace what is between them. *)
  Definition may_replace (a b : Z) : bool := all_close a b && chord_ok a b.

  (** One pass along the kept vertices that tries to drop one end of every part of a single segment.
      [front] are the vertices already passed, the last one first; [i] the vertex reached; [todo] what follows.
      The end of the segment is dropped if it is not fixed and the chord to the vertex after it may be drawn; otherwise
      its beginning is dropped if that is not fixed and the chord from the vertex before it may be drawn. *)
  Fixpoint drop_ends (fixed : Z -> bool) (front : list Z) (i : Z) (todo : list Z) : list Z :=
    match todo with
    | [] => rev (i :: front)
    | j :: rest =>
      let drop_begin :=
        match front with
        | p :: _ => if (j =? i + 1) && negb (fixed i) && may_replace p j then drop_ends fixed front j rest
                    else drop_ends fixed (i :: front) j rest
        | [] => drop_ends fixed (i :: front) j rest
        end in
      match rest with
      | k :: rest' => if (j =? i + 1) && negb (fixed j) && may_replace i k then drop_ends fixed (i :: front) k rest' else drop_begin
      | [] => drop_begin
      end
    end.

  (** The four steps: Douglas-Peucker, the forced vertices, splitting until every part is fine, dropping
      ends of single segments. *)
  Definition exact_result (forced : Z -> Prop) (result : list Z) : Prop :=
    exists dp with_forced split fixed,
      textbook dist (o_threshold o) pts 0 (zlen pts - 1) dp /\
      (increasing with_forced /\ forall k, In k with_forced <-> In k dp \/ (forced k /\ 0 <= k < zlen pts)) /\
      split_parts with_forced split /\
      (forall k, fixed k = true <-> forced k) /\
      exists first others, split = first :: others /\ result = drop_ends fixed [] first others.
End Exact.

(** The vertices forced to stay: those asked for and those where the line is reported to meet itself, if
    planar_self is on. *)
Definition forced_vertices (W : world) (s : cdp) (verts : list Z) (k : Z) : Prop :=
  o_planar_self (c_opts s) = true /\ (In k verts \/ forced_by (self_intersections W s) k).

(** Parts that follow one another are found near each other: the hulls share a vertex. *)
Definition neighbours_meet (L : geomlib) (pts : list point) : Prop :=
  forall r q, piece pts r -> piece pts q -> rJ r = rI q \/ rJ q = rI r ->
    boxes_meet (gl_bounds L (piece_hull L pts r)) (gl_bounds L (piece_hull L pts q)) = true /\
    fle (gl_dist L (piece_hull L pts q) (piece_hull L pts r)) epsilon_dist = true.
