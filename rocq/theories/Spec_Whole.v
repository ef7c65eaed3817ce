(** Vocabulary for C97: the result of simplifying one line with every option, avoid_self included, on top of
    Spec_Exact.v.  With avoid_self a part can also be in conflict with another part, so that splitting goes
    in rounds and dropping an end looks at the other parts. *)
From Verif Require Import M_Base M_Float M_Rng M_Geom M_Offset M_Node M_Decompose M_Hdb M_Knn M_Lnr M_Homotopy M_Relate
  M_Deform M_Constrain M_ConstDP M_IO Spec Spec_Hdb Spec_Relate Spec_Deform Spec_ConstDP Spec_IO Spec_Run Spec_Out Spec_Modes Spec_Move Spec_Exact.
Open Scope Z_scope.

(** The parts between consecutive vertices of a list. *)
Fixpoint parts (s : list Z) : list rng :=
  match s with
  | a :: (b :: _) as t => Rng a b :: parts t
  | _ => []
  end.

Section Whole.
  Variables (L : geomlib) (o : opts) (dist : point -> point -> point -> f64) (constraints : list geometry) (pts : list point).

  (** The part r with its hull.  (Its id and its line play no role here.) *)
  Definition part (r : rng) : node :=
    Node 0 (sub_coords pts r) r (gl_bounds L (piece_hull L pts r)) (piece_hull L pts r) 0.

  (** Parts are near each other: their boxes meet and their hulls are within EpsilonDist. *)
  Definition near_parts (r q : rng) : Prop :=
    boxes_meet (gl_bounds L (piece_hull L pts r)) (gl_bounds L (piece_hull L pts q)) = true /\
    fle (gl_dist L (piece_hull L pts q) (piece_hull L pts r)) epsilon_dist = true.

  (** With avoid_self, checking r against another part q near it asks for a change of v, one of the two. *)
  Definition conflict (r q v : rng) : Prop :=
    o_avoid_self o = true /\ piece pts r /\ piece pts q /\ q <> r /\ near_parts r q /\
    line_conflict L (o_non_planar_displacement o) (part r) (part q) (part v).

  (** In a round only the parts [h] that are new are checked, if they are longer than a segment and their hulls are not flat.
      A part of several segments is split if its chord will not do or a check asks for it. *)
  Definition must_split (before now : list Z) (r : rng) : Prop :=
    In r (parts now) /\ 1 < rJ r - rI r /\
    exists h, In h (parts now) /\ ~ In h (parts before) /\ examined (part h) /\
      ((r = h /\ chord_ok L o constraints pts (rI h) (rJ h) = false) \/
       exists q, In q (parts now) /\ conflict h q r).

  (** Rounds of splitting, until none is needed.  Each one puts back the farthest vertex of every part to be split. *)
  Inductive settle : list Z -> list Z -> list Z -> Prop :=
  | se_done before now : (forall r, ~ must_split before now r) -> settle before now now
  | se_round before now next result :
      (exists r, must_split before now r) ->
      increasing next ->
      (forall k, In k next <-> In k now \/ exists r, must_split before now r /\ farthest_vertex dist pts (rI r) (rJ r) k) ->
      settle now next result -> settle before now result.

  (** The chord of a and b will do and asks for no change next to the given other parts. *)
  Definition clear_of (others : list rng) (a b : Z) : Prop :=
    chord_ok L o constraints pts a b = true /\ forall q v, In q others -> ~ conflict (Rng a b) q v.

  (** One pass along the kept vertices that tries to drop one end of every part of a single segment, as in Spec_Exact.v.
      The end j of a segment i-j is dropped if it is not fixed, the vertices up to the next vertex k are close to the
      chord, and the chord is clear of all the other parts.  Otherwise its beginning i is dropped, if it is not fixed, the
      part before is longer than a segment (else i has been tried as an end already), the vertices are close to the chord
      from the vertex p before, and the chord is clear of the other parts; but if the chord i-k was close and not clear,
      the part j-k is left out of those. *)
  Fixpoint drop_ends_clear (fixed : Z -> bool) (clear : list rng -> Z -> Z -> bool) (front : list Z) (i : Z) (todo : list Z)
    : list Z :=
    match todo with
    | [] => rev (i :: front)
    | j :: rest =>
      let drop_begin behind :=
        match front with
        | p :: _ =>
          if (j =? i + 1) && negb (fixed i) && (p + 1 <? i) && all_close o dist pts p j && clear (parts (rev front) ++ behind) p j
          then drop_ends_clear fixed clear front j rest
          else drop_ends_clear fixed clear (i :: front) j rest
        | [] => drop_ends_clear fixed clear (i :: front) j rest
        end in
      match rest with
      | k :: rest' =>
        if (j =? i + 1) && negb (fixed j) && all_close o dist pts i k then
          if clear (parts (rev (i :: front)) ++ parts rest) i k then drop_ends_clear fixed clear (i :: front) k rest'
          else drop_begin (parts rest)
        else drop_begin (parts todo)
      | [] => drop_begin (parts todo)
      end
    end.

  (** The four steps: Douglas-Peucker, the forced vertices, rounds of splitting, dropping ends of single segments. *)
  Definition whole_result (forced : Z -> Prop) (result : list Z) : Prop :=
    exists dp with_forced split fixed clear,
      textbook dist (o_threshold o) pts 0 (zlen pts - 1) dp /\
      (increasing with_forced /\ forall k, In k with_forced <-> In k dp \/ (forced k /\ 0 <= k < zlen pts)) /\
      settle [] with_forced split /\
      (forall k, fixed k = true <-> forced k) /\
      (forall others a b, clear others a b = true <-> clear_of others a b) /\
      exists first others, split = first :: others /\ result = drop_ends_clear fixed clear [] first others.
End Whole.
