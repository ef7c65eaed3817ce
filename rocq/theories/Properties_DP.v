(** Claims C54 and C55: simplifying a simplified line, and simplifying with a larger
    threshold.  Vocabulary: Spec.v.  Proofs: P_DpTree.v. *)
From Verif Require Import M_Base M_Float M_Rng M_Geom M_Offset M_Node M_Decompose M_Split
  Spec P_Base P_Float P_Decompose P_Split P_Node P_DpTree Toy Properties_Core.
Open Scope Z_scope.

(** The vertices of [pts] at the indices [s]: the simplified line. *)
Definition vertices_at (pts : list point) (s : list Z) : list point :=
  map (fun k => nth (Z.to_nat k) pts origin) s.

(** ** C54 *)

(** Simplifying the simplified line with the same threshold succeeds and keeps all of it. *)
Theorem C54_simplified_again :
  forall L gen pts inst distfn T fuel ctr s L' gen' inst' fuel' ctr',
  (2 <= length pts)%nat -> fle fzero T = true ->
  dp_simple L gen (create_polyline pts) inst T (max_offset distfn) None fuel ctr = Ok s ->
  (2 * length s - 3 < fuel')%nat ->
  dp_simple L' gen' (create_polyline (vertices_at pts s)) inst' T (max_offset distfn) None fuel' ctr' =
    Ok (zseq 0 (zlen s - 1)).
Proof.
  intros L gen pts inst distfn T fuel ctr s L' gen' inst' fuel' ctr' H2 HT Hr Hf.
  unfold dp_simple, dp_decompose in Hr |- *. cbn [dp_score dp_relation] in Hr |- *.
  destruct (douglas_peucker L gen (create_polyline pts) inst (max_offset distfn) (score_rel T) fuel ctr)
    as [[hs c']| |] eqn:E; try discriminate. cbn in Hr. injection Hr as <-.
  destruct (simplify_again (score_rel T) distfn L gen pts inst fuel ctr hs c' L' gen' inst' fuel' ctr' HT H2 E Hf)
    as (hs' & c2 & E' & Ep).
  unfold vertices_at. rewrite E'. cbn. rewrite Ep. reflexivity.
Qed.

Theorem C54_simplified_again_squared :
  forall L gen pts inst score distfn T fuel ctr s L' gen' inst' fuel' ctr',
  (2 <= length pts)%nat -> is_nan T = false ->
  dp_simple L gen (create_polyline pts) inst T score (Some (max_offset distfn)) fuel ctr = Ok s ->
  (2 * length s - 3 < fuel')%nat ->
  dp_simple L' gen' (create_polyline (vertices_at pts s)) inst' T score (Some (max_offset distfn)) fuel' ctr' =
    Ok (zseq 0 (zlen s - 1)).
Proof.
  intros L gen pts inst score distfn T fuel ctr s L' gen' inst' fuel' ctr' H2 HT Hr Hf.
  unfold dp_simple, dp_decompose in Hr |- *. cbn [dp_score dp_relation] in Hr |- *.
  destruct (douglas_peucker L gen (create_polyline pts) inst (max_offset distfn) (square_score_rel T) fuel ctr)
    as [[hs c']| |] eqn:E; try discriminate. cbn in Hr. injection Hr as <-.
  destruct (simplify_again (square_score_rel T) distfn L gen pts inst fuel ctr hs c' L' gen' inst' fuel' ctr'
    (square_accepts_zero T HT) H2 E Hf) as (hs' & c2 & E' & Ep).
  unfold vertices_at. rewrite E'. cbn. rewrite Ep. reflexivity.
Qed.

Example C54_case :
  fle fzero ex_T = true /\
  dp_simple toy ex_gen (create_polyline ex_line) 7 ex_T toy_score None 20 0 = Ok [0; 1; 2; 4] /\
  vertices_at ex_line [0; 1; 2; 4] = [P2 0 0; P2 2 5; P2 4 0; P2 10 0] /\
  dp_simple toy ex_gen (create_polyline (vertices_at ex_line [0; 1; 2; 4])) 7 ex_T toy_score None 20 0 = Ok [0; 1; 2; 3].
Proof. vm_compute. repeat split. Qed.

(** ** C55 *)

(** What is kept with a larger threshold is kept with a smaller one. *)
Theorem C55_larger_threshold_keeps_less :
  forall L gen pts inst distfn T1 T2 fuel ctr s1 L' gen' inst' fuel' ctr' s2,
  (2 <= length pts)%nat -> fle fzero T1 = true -> fle T1 T2 = true ->
  dp_simple L gen (create_polyline pts) inst T1 (max_offset distfn) None fuel ctr = Ok s1 ->
  dp_simple L' gen' (create_polyline pts) inst' T2 (max_offset distfn) None fuel' ctr' = Ok s2 ->
  forall k, In k s2 -> In k s1.
Proof.
  intros L gen pts inst distfn T1 T2 fuel ctr s1 L' gen' inst' fuel' ctr' s2 H2 H0 H12 R1 R2.
  unfold dp_simple, dp_decompose in R1, R2. cbn [dp_score dp_relation] in R1, R2.
  destruct (douglas_peucker L gen (create_polyline pts) inst (max_offset distfn) (score_rel T1) fuel ctr)
    as [[h1 c1]| |] eqn:E1; try discriminate. cbn in R1. injection R1 as <-.
  destruct (douglas_peucker L' gen' (create_polyline pts) inst' (max_offset distfn) (score_rel T2) fuel' ctr')
    as [[h2 c2]| |] eqn:E2; try discriminate. cbn in R2. injection R2 as <-.
  refine (larger_keeps_less (score_rel T1) (score_rel T2) (max_offset distfn) _ _ _ _ _ _ _ _ _ _ _ _ _ _ _ _ _ H2 E1 E2).
  - exact (max_offset_splits distfn (score_rel T1) H0).
  - intros v Hv. exact (fle_trans v T1 T2 Hv H12).
Qed.

Theorem C55_larger_threshold_keeps_less_squared :
  forall L gen pts inst score distfn T1 T2 fuel ctr s1 L' gen' inst' fuel' ctr' s2,
  (2 <= length pts)%nat -> is_nan T1 = false -> fle (fmul T1 T1) (fmul T2 T2) = true ->
  dp_simple L gen (create_polyline pts) inst T1 score (Some (max_offset distfn)) fuel ctr = Ok s1 ->
  dp_simple L' gen' (create_polyline pts) inst' T2 score (Some (max_offset distfn)) fuel' ctr' = Ok s2 ->
  forall k, In k s2 -> In k s1.
Proof.
  intros L gen pts inst score distfn T1 T2 fuel ctr s1 L' gen' inst' fuel' ctr' s2 H2 H0 H12 R1 R2.
  unfold dp_simple, dp_decompose in R1, R2. cbn [dp_score dp_relation] in R1, R2.
  destruct (douglas_peucker L gen (create_polyline pts) inst (max_offset distfn) (square_score_rel T1) fuel ctr)
    as [[h1 c1]| |] eqn:E1; try discriminate. cbn in R1. injection R1 as <-.
  destruct (douglas_peucker L' gen' (create_polyline pts) inst' (max_offset distfn) (square_score_rel T2) fuel' ctr')
    as [[h2 c2]| |] eqn:E2; try discriminate. cbn in R2. injection R2 as <-.
  refine (larger_keeps_less (square_score_rel T1) (square_score_rel T2) (max_offset distfn) _ _ _ _ _ _ _ _ _ _ _ _ _ _ _ _ _ H2 E1 E2).
  - exact (max_offset_splits distfn (square_score_rel T1) (square_accepts_zero T1 H0)).
  - intros v Hv. exact (fle_trans v _ _ Hv H12).
Qed.

Example C55_case :
  fle (f_of_Z 0) ex_T = true /\ fle ex_T (f_of_Z 6) = true /\
  fle fzero (f_of_Z 0) = true /\
  dp_simple toy ex_gen (create_polyline ex_line) 7 (f_of_Z 0) toy_score None 20 0 = Ok [0; 1; 2; 3; 4] /\
  dp_simple toy ex_gen (create_polyline ex_line) 7 ex_T toy_score None 20 0 = Ok [0; 1; 2; 4] /\
  dp_simple toy ex_gen (create_polyline ex_line) 7 (f_of_Z 6) toy_score None 20 0 = Ok [0; 4].
Proof. vm_compute. repeat split. Qed.

Print Assumptions C54_simplified_again.
Print Assumptions C54_simplified_again_squared.
Print Assumptions C55_larger_threshold_keeps_less.
Print Assumptions C55_larger_threshold_keeps_less_squared.
