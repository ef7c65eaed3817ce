(** Claims C72 and C62 for the class of lines whose convex hulls are apart, from the one assumption that the geometry
    library computes plane geometry.  Vocabulary: Spec_Plane.v. *)
From Coq Require Import Ascii String QArith.
From Verif Require Import M_Base M_Float M_Rng M_Geom M_Offset M_Node M_Decompose M_Hdb M_Knn M_Lnr M_Homotopy M_Relate M_Deform M_Constrain M_ConstDP
  M_Text M_IO Spec Spec_Hdb Spec_Lnr Spec_Relate Spec_ConstDP Spec_Text Spec_IO Spec_Run Spec_Out Spec_Docs Spec_Modes Spec_Plane
  P_Base P_Float P_Decompose P_Node P_Lnr P_Bag P_ConstDP P_Relate P_Text P_IO P_Run P_Out P_Docs P_Plane P_HdbHist Toy Toy_Box Toy_Plane
  Properties_Core Properties_Lnr Properties_Relate Properties_ConstDP Properties_IO Properties_Run Properties_Docs Properties_Modes Properties_Near Properties_Plane.
Open Scope Z_scope.

(** The convex hulls of the lines at any two places of the list are farther apart than EpsilonDist. *)
Definition hulls_apart (L : geomlib) (lines : list (list point)) : Prop :=
  forall i j a b, i <> j -> nth_error lines i = Some a -> nth_error lines j = Some b ->
    flt epsilon_dist (gl_dist L (hull_geometry (gl_hull L a)) (hull_geometry (gl_hull L b))) = true.

Lemma hulls_lines_apart L D lines : plane_library L D -> Forall (Forall num_pt) lines -> hulls_apart L lines -> lines_apart L lines.
Proof.
  intros HP Hn Ha i j a b Hij Ei Ej [i1 j1] [i2 j2] (R1 & R2 & R3) (Q1 & Q2 & Q3). cbn [rI rJ] in *. right.
  rewrite Forall_forall in Hn. pose proof (Hn a (nth_error_In _ _ Ei)) as Na. pose proof (Hn b (nth_error_In _ _ Ej)) as Nb.
  destruct (part_points a i1 j1 R1 R2 R3 Na) as (_ & Ne1 & Num1 & In1). destruct (part_points b i2 j2 Q1 Q2 Q3 Nb) as (_ & Ne2 & Num2 & In2).
  assert (Ca : a <> []) by (intros ->; unfold zlen in R3; cbn in R3; lia).
  assert (Cb : b <> []) by (intros ->; unfold zlen in Q3; cbn in Q3; lia).
  destruct (fle (gl_dist L (piece_hull L b (Rng i2 j2)) (piece_hull L a (Rng i1 j1))) epsilon_dist) eqn:E; [|reflexivity].
  pose proof (flt_not_le _ _ (Ha j i b a (not_eq_sym Hij) Ej Ei)) as F.
  rewrite <- F. symmetry. eapply fle_trans; [|exact E].
  apply (pl_closer L D HP); try (apply (pl_hull_num L D HP); assumption).
  - intros q. unfold piece_hull. rewrite !(pl_hull L D HP) by assumption. apply hull_sub. exact In2.
  - intros q. unfold piece_hull. rewrite !(pl_hull L D HP) by assumption. apply hull_sub. exact In1.
Qed.

(** Lines whose hulls are apart are simplified with the class option as each of them alone. *)
Theorem C72_in_the_plane :
  forall {P} (lib : jsonlib P) S o score input cinput docs constraints m D,
  let lines := map (map (jl_point lib)) (flat_map doc_parts docs) in
  run_docs lib S true o score input cinput docs constraints -> linear_first docs m ->
  o_planar_self o = false -> plane_library (w_geom (su_world S)) D -> Forall (Forall num_pt) lines ->
  hulls_apart (w_geom (su_world S)) lines ->
  exists outs, run lib S true o score (unlines input) (unlines cinput) = Ok outs /\
    writes_docs lib docs m outs (simplified_alone S o score constraints).
Proof.
  intros P lib S o score input cinput docs cs m D lines H Hm Hp HL Hn Ha.
  apply (C72_lines_apart_do_not_interact lib S o score input cinput docs cs m H Hm Hp). eapply hulls_lines_apart; eauto.
Qed.

(** Such files give the same output whatever the schedule, the identifiers and the order of the constraints, and the
    same with and without the class option. *)
Theorem C72_class_option_without_effect :
  forall {P} (lib : jsonlib P) S S' is_class o score input input' cinput cinput' docs constraints constraints' m D,
  let lines := map (map (jl_point lib)) (flat_map doc_parts docs) in
  run_docs lib S true o score input cinput docs constraints ->
  run_docs lib S' is_class o score input' cinput' docs constraints' -> linear_first docs m ->
  w_geom (su_world S') = w_geom (su_world S) -> w_lnr (su_world S') = w_lnr (su_world S) -> is_nan (o_min_dist o) = false ->
  (forall g, In g constraints <-> In g constraints') ->
  o_planar_self o = false -> plane_run S D o lines constraints -> hulls_apart (w_geom (su_world S)) lines ->
  exists outs, run lib S true o score (unlines input) (unlines cinput) = Ok outs /\
    run lib S' is_class o score (unlines input') (unlines cinput') = Ok outs.
Proof.
  intros P lib S S' is_class o score input input' cinput cinput' docs cs cs' m D lines H H' Hm EL EN Hnan Hcs Hp Hpr Ha.
  pose proof Hpr as [HP Hn Hc _].
  destruct (C72_in_the_plane lib S o score input cinput docs cs m D H Hm Hp HP Hn Ha) as (outs & E & W).
  assert (W' : exists outs', run lib S' is_class o score (unlines input') (unlines cinput') = Ok outs' /\
    writes_docs lib docs m outs' (simplified_alone S' o score cs')).
  { destruct is_class; [|exact (C57_any_documents lib S' o score input' cinput' docs cs' m H' Hm)].
    apply (C72_in_the_plane lib S' o score input' cinput' docs cs' m D H' Hm Hp); try rewrite EL; assumption. }
  destruct W' as (outs' & E' & W'). exists outs. split; [exact E|]. rewrite E'. f_equal. symmetry. eapply writes_docs_fun; eauto.
  intros pts k k' Hin Hk Hk'. destruct (plane_agree S D o lines cs score pts Hpr Hin) as (G1 & G2).
  apply (alone_unique lib true is_class S S' o score input input' cinput cinput' docs docs cs cs' H H' EL EN Hnan pts k k' Hin Hin); auto.
  - intros r g _ _. apply Hcs.
  - intros r g Hr [Hg|Hg]; apply G1; auto. apply Hcs, Hg.
Qed.

(** [folded] and a copy of it a thousand units away. *)
Lemma far_zig_machine : Forall machine_pt zig /\ Forall machine_pt far_zig.
Proof.
  split; [unfold zig|let v := eval vm_compute in far_zig in change far_zig with v];
    repeat (apply Forall_cons; [split; (split; vm_compute; reflexivity)|]); apply Forall_nil.
Qed.
Lemma split_by_x l l' k : l <> [] -> l' <> [] -> (forall p, In p l -> units (px p) <= k) -> (forall p, In p l' -> k < units (px p)) ->
  ~ meets (in_hull l) (in_hull l').
Proof.
  intros _ _ A B (q & (ws & L1 & P1 & S1 & X1 & _) & (vs & L2 & P2 & S2 & X2 & _)).
  assert (E1 : (weighted ws l xof <= inject_Z k * 1)%Q).
  { rewrite <- S1. apply weighted_le; auto. intros p Hp. unfold xof. rewrite <- Zle_Qle. auto. }
  assert (E2 : (inject_Z (k + 1) * 1 <= weighted vs l' xof)%Q).
  { rewrite <- S2. apply weighted_ge; auto. intros p Hp. unfold xof. rewrite <- Zle_Qle. specialize (B p Hp). lia. }
  rewrite X1, Qmult_1_r in E1. rewrite X2, Qmult_1_r in E2. pose proof (Qle_trans _ _ _ E2 E1) as E. rewrite <- Zle_Qle in E. lia.
Qed.
Lemma not_apart a b : a <> [] -> b <> [] -> meets (in_hull a) (in_hull b) ->
  flt epsilon_dist (gl_dist exact_lib (hull_geometry (gl_hull exact_lib a)) (hull_geometry (gl_hull exact_lib b))) <> true.
Proof.
  intros Ha Hb (q & X1 & X2). cbn [exact_lib gl_dist].
  assert (E : ex_isect (hull_geometry (gl_hull exact_lib a)) (hull_geometry (gl_hull exact_lib b)) = true).
  { apply ex_isect_ok. exists q. split; (apply (pl_hull exact_lib places exact_lib_ok); assumption). }
  cbn [exact_lib] in E |- *. rewrite E. discriminate.
Qed.
Example C72_plane_case :
  let docs := [DFeature far_feat] in
  let lines := map (map (jl_point far_lib)) (flat_map doc_parts docs) in
  run_docs far_lib exP_setup true add_opts toy_score [str "f"] [str "p"] docs [ex_constraint] /\
  run_docs far_lib exP_setup false add_opts toy_score [str "f"] [str "p"] docs [ex_constraint] /\
  linear_first docs 1 /\ is_nan (o_min_dist add_opts) = false /\ o_planar_self add_opts = false /\
  plane_run exP_setup places add_opts lines [ex_constraint] /\ hulls_apart exact_lib lines /\
  ~ hulls_apart exact_lib [zig; zig].
Proof.
  cbv zeta. assert (El : map (map (jl_point far_lib)) (flat_map doc_parts [DFeature far_feat]) = [zig; far_zig]) by (vm_compute; reflexivity).
  destruct far_zig_machine as [M1 M2].
  assert (N1 : Forall num_pt zig) by (eapply Forall_impl; [|exact M1]; intros p; apply machine_num).
  assert (N2 : Forall num_pt far_zig) by (eapply Forall_impl; [|exact M2]; intros p; apply machine_num).
  destruct C72_case as (H & Hm & _). destruct H as [A B C E F G I J K M N O Q].
  assert (R : forall b, run_docs far_lib exP_setup b add_opts toy_score [str "f"] [str "p"] [DFeature far_feat] [ex_constraint]).
  { intros b. split; [exact A|exact exP_setup_ok|exact C|exact E|exact F|exact G|exact I|exact J|exact K| | | |exact Q]; try rewrite El.
    - constructor; [|constructor]. vm_compute. repeat split; try reflexivity; discriminate.
    - constructor; [|constructor; [|constructor]]; line_ok_compute (f_of_Z 10).
    - intros _. split; [exact v_sort_sorts| |reflexivity]. cbn [concat]. rewrite app_nil_r. apply Forall_app. split; assumption. }
  rewrite El. split; [apply R|]. split; [apply R|]. split; [exact Hm|]. split; [reflexivity|]. split; [reflexivity|]. split; [|split].
  - split; [exact exact_lib_ok| | |discriminate].
    + constructor; [exact N1|constructor; [exact N2|constructor]].
    + constructor; [|constructor]. split; [discriminate|]. split; [|exact Logic.I]. repeat constructor; reflexivity.
  - assert (S : forall q q', In q zig -> In q' far_zig -> units (px q) <= units (f_of_Z 500) < units (px q')).
    { intros q q' Hq Hq'. split.
      - revert q Hq. apply Forall_forall. unfold zig. repeat (apply Forall_cons; [vm_compute; discriminate|]). apply Forall_nil.
      - revert q' Hq'. apply Forall_forall. let v := eval vm_compute in far_zig in change far_zig with v.
        repeat (apply Forall_cons; [vm_compute; reflexivity|]). apply Forall_nil. }
    assert (X : ~ meets (in_hull zig) (in_hull far_zig)).
    { apply (split_by_x _ _ (units (f_of_Z 500))); [discriminate|discriminate| |].
      - intros p Hp. apply (S p (nth 0 far_zig origin) Hp). vm_compute. auto.
      - intros p Hp. apply (S (nth 0 zig origin) p); [vm_compute; auto|exact Hp]. }
    assert (Y : forall a b, a <> [] -> b <> [] -> ~ meets (in_hull a) (in_hull b) ->
      flt epsilon_dist (gl_dist exact_lib (hull_geometry (gl_hull exact_lib a)) (hull_geometry (gl_hull exact_lib b))) = true).
    { intros a b Ha Hb Hab. cbn [exact_lib gl_dist]. destruct (ex_isect _ _) eqn:Ei; [|reflexivity]. exfalso. apply Hab.
      apply ex_isect_ok in Ei. destruct Ei as (q & X1 & X2). exists q.
      split; [apply (pl_hull exact_lib places exact_lib_ok); assumption|apply (pl_hull exact_lib places exact_lib_ok); assumption]. }
    assert (X' : ~ meets (in_hull far_zig) (in_hull zig)) by (intros (q & X1 & X2); apply X; exists q; split; assumption).
    assert (Z1 : zig <> []) by discriminate. assert (Z2 : far_zig <> []) by discriminate. clear - X X' Y Z1 Z2.
    intros [|[|i]] [|[|j]] a b Hij Ha Hb; cbn [nth_error] in Ha, Hb;
      try (exfalso; apply Hij; reflexivity); try (destruct i; discriminate); try (destruct j; discriminate).
    + injection Ha as <-. injection Hb as <-. exact (Y _ _ Z1 Z2 X).
    + injection Ha as <-. injection Hb as <-. exact (Y _ _ Z2 Z1 X').
  - intros H. apply (not_apart zig zig); [discriminate|discriminate| |exact (H 0%nat 1%nat zig zig ltac:(lia) eq_refl eq_refl)].
    exists (xof (nth 0 zig origin), yof (nth 0 zig origin)). split; apply in_hull_member; left; reflexivity.
Qed.

Print Assumptions C72_in_the_plane.
Print Assumptions C72_class_option_without_effect.
