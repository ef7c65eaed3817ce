(** What a run writes for input lines that hold any documents (C64). *)
From Coq Require Import Ascii String.
From Verif Require Import M_Base M_Float M_Rng M_Geom M_Offset M_Node M_Decompose M_Hdb M_Knn M_Lnr M_Homotopy M_Relate
  M_Constrain M_ConstDP M_Text M_IO Spec Spec_Lnr Spec_Relate Spec_ConstDP Spec_Text Spec_IO Spec_Run Spec_Out.
Open Scope Z_scope.

(** The k-th entries of rows of different lengths; and all entries, column after column. *)
Definition column {A} (k : nat) (rows : list (list A)) : list A :=
  flat_map (fun row => match nth_error row k with Some x => [x] | None => [] end) rows.
Definition columns {A} (rows : list (list A)) : list A :=
  flat_map (fun k => column k rows) (seq 0 (list_max (map (@length A) rows))).

(** The lines of a document: the parts of its features. *)
Definition doc_parts {P} (d : document P) : list (list (list f64)) := flat_map feature_parts (doc_features d).

(** Exactly the first [m] documents have a part. *)
Definition linear_first {P} (docs : list (document P)) (m : nat) : Prop :=
  (m <= length docs)%nat /\
  forall i d, nth_error docs i = Some d -> (doc_parts d <> [] <-> (i < m)%nat).
(** A document without a part comes before one with a part. *)
Definition gap {P} (docs : list (document P)) : Prop :=
  exists i j d e, (i < j)%nat /\ nth_error docs i = Some d /\ nth_error docs j = Some e /\
    doc_parts d = [] /\ doc_parts e <> [].

(** The first feature with a part. *)
Definition first_linear {P} (fs : list (jfeat P)) (f : jfeat P) : Prop :=
  exists before after, fs = before ++ f :: after /\ Forall (fun g => feature_parts g = []) before /\ feature_parts f <> [].

(** A run on an input file that holds [docs], one per line, and a constraint file that holds
    the geometries [constraints].  Every feature has a geometry, which need not be linear. *)
Record run_docs {P} (lib : jsonlib P) (S : setup) (is_class : bool) (o : opts) (score : scorefn)
    (input cinput : list bytes) (docs : list (document P)) (constraints : list geometry) : Prop := {
  rd_json : json_ok lib;
  rd_setup : setup_ok S;
  rd_lines : Forall (fun l => ~ In newline l) input;
  rd_docs : exists toks, lines_kept input toks /\ Forall2 (reads lib) toks docs;
  rd_geom : Forall has_geometry (flat_map doc_features docs);
  rd_few : zlen docs < 2 ^ 63;
  rd_parts : Forall (fun f => zlen (feature_parts f) < 2 ^ 63) (flat_map doc_features docs);
  rd_clines : Forall (fun l => ~ In newline l) cinput;
  rd_cdocs : exists toks cdocs, lines_kept cinput toks /\ Forall2 (reads lib) toks cdocs /\
    Forall has_geometry (flat_map doc_features cdocs) /\
    flat_map (constraint_parts lib) (flat_map doc_features cdocs) = map Some constraints;
  rd_boxes : Forall (fun g => good_bounds (gl_bounds (w_geom (su_world S)) g)) constraints;
  rd_ok : Forall (fun pts => line_ok (w_geom (su_world S)) (proto o score pts)) (map (map (jl_point lib)) (flat_map doc_parts docs));
  rd_class : is_class = true -> class_ok S (map (map (jl_point lib)) (flat_map doc_parts docs));
  rd_fuel : (2 * length (concat (map (map (jl_point lib)) (flat_map doc_parts docs))) + 2 <= su_fuel S)%nat
}.

(** One feature is written for each of the first [m] documents, in order: with the properties
    of its first feature that has a part, and for every part of its features the vertices at
    kept indices that satisfy [R]: first parts of all features, then second parts, and so on. *)
Definition writes_docs {P} (lib : jsonlib P) (docs : list (document P)) (m : nat)
    (outs : list (@ofeature P)) (R : list point -> list Z -> Prop) : Prop :=
  length outs = m /\
  forall i d, (i < m)%nat -> nth_error docs i = Some d -> exists ot f kept,
    nth_error outs i = Some ot /\ first_linear (doc_features d) f /\ of_props ot = props_or_empty lib f /\
    Forall2 (fun g rows => Forall2 (fun c k => kept_with R (map (jl_point lib) c) k) (feature_parts g) rows) (doc_features d) kept /\
    written_parts (jl_zero lib) (columns kept) (of_geom ot).
