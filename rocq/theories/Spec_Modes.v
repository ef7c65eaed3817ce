(** Vocabulary for C66-C72: the textbook algorithm and results compared with it. *)
From Coq Require Import Ascii String.
From Verif Require Import M_Base M_Float M_Rng M_Geom M_Offset M_Node M_Decompose M_Hdb M_Knn M_Lnr M_Homotopy M_Relate
  M_Constrain M_ConstDP M_Text M_IO Spec Spec_Lnr Spec_Relate Spec_ConstDP Spec_Text Spec_IO Spec_Run Spec_Out Spec_Docs.
Open Scope Z_scope.

(** Douglas-Peucker as in the textbook.  [textbook i j s]: of the vertices i..j the algorithm
    keeps [s].  If no vertex between i and j is farther than [T] from the segment i-j, only i
    and j are kept.  Otherwise the part is split at the vertex farthest from the segment (the
    last one if several are equally far) and both parts are treated alike.  A distance that is
    NaN is not farther than anything. *)
Inductive textbook (dist : point -> point -> point -> f64) (T : f64) (pts : list point) : Z -> Z -> list Z -> Prop :=
| tb_keep_ends i j :
    (forall m, i < m < j -> flt T (dist (vertex pts i) (vertex pts j) (vertex pts m)) = false) ->
    textbook dist T pts i j [i; j]
| tb_split i j k left right :
    let d m := dist (vertex pts i) (vertex pts j) (vertex pts m) in
    i < k < j -> flt T (d k) = true ->
    (forall m, i < m < j -> flt (d k) (d m) = false) ->
    (forall m, k < m < j -> fle (d k) (d m) = false) ->
    textbook dist T pts i k left -> textbook dist T pts k j (k :: right) ->
    textbook dist T pts i j (left ++ right).

(** [s] keeps only vertices the textbook algorithm keeps, and leaves out only vertices next to
    which the textbook algorithm keeps another one. *)
Definition thinner_than_textbook (dist : point -> point -> point -> f64) (T : f64) (pts : list point) (s : list Z) : Prop :=
  exists s0, textbook dist T pts 0 (zlen pts - 1) s0 /\
    (forall k, In k s -> In k s0) /\
    (forall k, In k s0 -> ~ In k s -> In (k - 1) s0 \/ In (k + 1) s0).

(** A line of which no vertex is farther than the threshold from the segment between its ends. *)
Definition nearly_straight (dist : point -> point -> point -> f64) (T : f64) (pts : list point) : Prop :=
  forall m, 0 < m < zlen pts - 1 -> flt T (dist (vertex pts 0) (vertex pts (zlen pts - 1)) (vertex pts m)) = false.

(** Both files can be read: every line that is not blank is a document, every feature has a
    geometry, and the constraints are [constraints].  Nothing is said about the lines, the
    options or how long the run takes. *)
Record readable {P} (lib : jsonlib P) (S : setup) (input cinput : list bytes)
    (docs : list (document P)) (constraints : list geometry) : Prop := {
  re_setup : setup_ok S;
  re_lines : Forall (fun l => ~ In newline l) input;
  re_docs : exists toks, lines_kept input toks /\ Forall2 (reads lib) toks docs;
  re_geom : Forall has_geometry (flat_map doc_features docs);
  re_clines : Forall (fun l => ~ In newline l) cinput;
  re_cdocs : exists toks cdocs, lines_kept cinput toks /\ Forall2 (reads lib) toks cdocs /\
    Forall has_geometry (flat_map doc_features cdocs) /\
    flat_map (constraint_parts lib) (flat_map doc_features cdocs) = map Some constraints;
  re_boxes : Forall (fun g => good_bounds (gl_bounds (w_geom (su_world S)) g)) constraints
}.

(** The lines at any two places of the list are nowhere near each other. *)
Definition lines_apart (L : geomlib) (lines : list (list point)) : Prop :=
  forall i j a b, i <> j -> nth_error lines i = Some a -> nth_error lines j = Some b -> never_near L a b.

(** None of the options that compare with the constraints is on. *)
Definition constraints_unused (o : opts) : Prop := o_geom o = false /\ o_dist o = false /\ o_dir o = false.
