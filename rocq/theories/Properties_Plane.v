(** Claim C84 and the geometric claims of a run (C56, C62, C73, C78) from one assumption: the
    geometry library computes plane geometry.  Vocabulary: Spec_Plane.v. *)
From Coq Require Import Ascii String QArith.
From Verif Require Import M_Base M_Float M_Rng M_Geom M_Offset M_Node M_Decompose M_Hdb M_Knn M_Lnr M_Homotopy M_Relate M_Deform M_Constrain M_ConstDP
  M_Text M_IO Spec Spec_Hdb Spec_Lnr Spec_Relate Spec_ConstDP Spec_Text Spec_IO Spec_Run Spec_Out Spec_Docs Spec_Modes Spec_Plane
  P_Base P_Float P_Decompose P_Node P_Lnr P_Bag P_ConstDP P_Relate P_Text P_IO P_Run P_Out P_Docs P_Plane P_HdbHist Toy Toy_Box Toy_Plane
  Properties_Core Properties_Lnr Properties_Relate Properties_ConstDP Properties_IO Properties_Run Properties_Docs Properties_Modes Properties_Near.
Open Scope Z_scope.

Lemma writes_docs_kept {P} (lib : jsonlib P) docs m outs (R R' : list point -> list Z -> Prop) :
  (forall pts k, In pts (map (map (jl_point lib)) (flat_map doc_parts docs)) -> kept_ok (zlen pts) k -> R pts k -> R' pts k) ->
  writes_docs lib docs m outs R -> writes_docs lib docs m outs R'.
Proof.
  intros H (El & Ho). split; [exact El|].
  intros i d Him Hid. destruct (Ho i d Him Hid) as (ot & f & kept & A & B & C & D & E). exists ot, f, kept.
  split; [exact A|]. split; [exact B|]. split; [exact C|]. split; [|exact E].
  assert (Hin : forall g c, In g (doc_features d) -> In c (feature_parts g) ->
    In (map (jl_point lib) c) (map (map (jl_point lib)) (flat_map doc_parts docs))).
  { intros g c Hg Hc. apply in_map. apply in_flat_map. exists d. split; [eapply nth_error_In; exact Hid|].
    unfold doc_parts. apply in_flat_map. eauto. }
  clear -D Hin H. induction D as [|g ks gs kss Hg D IH]; constructor.
  - assert (Hc : forall c, In c (feature_parts g) -> In (map (jl_point lib) c) (map (map (jl_point lib)) (flat_map doc_parts docs))).
    { intros c. apply Hin. left. reflexivity. }
    clear -Hg Hc H. induction Hg as [|c k cs ks (s & Hk & Hr & Ek) C IH]; constructor.
    + exists s. split; [exact Hk|]. split; [|exact Ek]. apply H; [apply Hc; left; auto|exact Hk|exact Hr].
    + apply IH. intros x Hx. apply Hc. right; auto.
  - apply IH. intros x c Hx. apply Hin. right; auto.
Qed.

(** A part whose hull is a line has no bend. *)
Lemma bend_not_line L D pts a b : plane_library L D -> points_of pts (Rng a b) <> [] -> bends pts a b -> is_line (piece_hull L pts (Rng a b)) = false.
Proof.
  intros HP Hne Hb. destruct (is_line (piece_hull L pts (Rng a b))) eqn:E; [|reflexivity]. exfalso. apply Hb.
  pose proof (pl_hull L D HP (points_of pts (Rng a b))) as K. unfold piece_hull in E.
  destruct (gl_hull L (points_of pts (Rng a b))) as [u [|v [|w r]]]; cbn [hull_geometry is_line] in *; try discriminate.
  exists u, v. intros p Hp. assert (Q1 : D (GLine [u; v]) (xof p, yof p)) by (apply K; [exact Hne|apply in_hull_member; exact Hp]).
  apply (pl_line L D HP) in Q1; [|cbn; lia]. apply polyline_in_hull. exact Q1.
Qed.

Lemma plane_relations L D o cs pts s : plane_library L D -> Forall machine_pt pts ->
  Forall (fun g => number_geometry g /\ Forall machine_pt (geometry_pts g)) cs ->
  kept_ok (zlen pts) s -> honours L o cs pts s -> keeps_relations L D o cs pts s.
Proof.
  intros HP Hm Hc Hk H a b Hab H1 Hb. destruct Hk as (_ & _ & _ & Hr). rewrite Forall_forall in Hr.
  pose proof Hab as (Ia & Ib & Hlt & _). pose proof (Hr a Ia) as Ra. pose proof (Hr b Ib) as Rb. cbv beta in Ra, Rb.
  assert (Hn : Forall num_pt pts) by (eapply Forall_impl; [|exact Hm]; intros p; apply machine_num).
  destruct (part_points pts a b (proj1 Ra) Hlt (proj2 Rb) Hn) as (L2 & Hne & Hnum & Hin).
  destruct (H a b Hab H1 (bend_not_line L D pts a b HP Hne Hb)) as (G1 & G2 & G3).
  cbv zeta in *. rewrite Forall_forall in Hc.
  pose proof (line_number _ L2 Hnum) as Nl.
  assert (Nv : forall k, 0 <= k < zlen pts -> num_pt (Spec_Out.vertex pts k)).
  { intros k Hkk. rewrite Forall_forall in Hn. apply Hn, nth_In. unfold zlen in Hkk. lia. }
  pose proof (seg_number _ _ (Nv a Ra) (Nv b Rb)) as Ns.
  assert (Ml : forall g, In g cs -> (gl_isect L (GLine (points_of pts (Rng a b))) g = true <-> meets (on_polyline (points_of pts (Rng a b))) (D g))).
  { intros g Hg. rewrite (pl_isect L D HP _ g Nl (proj1 (Hc g Hg))). unfold meets. split; intros (q & A & B); exists q; split; auto; apply (pl_line L D HP); auto. }
  assert (Ms : forall g, In g cs -> (gl_isect L (GSeg (Spec_Out.vertex pts a) (Spec_Out.vertex pts b)) g = true <->
     meets (in_hull [Spec_Out.vertex pts a; Spec_Out.vertex pts b]) (D g))).
  { intros g Hg. rewrite (pl_isect L D HP _ g Ns (proj1 (Hc g Hg))). unfold meets. split; intros (q & A & B); exists q; split; auto; apply (pl_seg L D HP); auto. }
  split; [|split].
  - intros Ho g Hg. rewrite <- (Ml g Hg), <- (Ms g Hg), (G1 Ho g Hg). reflexivity.
  - exact G2.
  - intros Ho. specialize (G3 Ho).
    assert (Ecl : clen (sub_coords pts (Rng a b)) = b - a + 1) by (apply clen_sub; cbn; lia).
    destruct (homotopy_sound L (sub_coords pts (Rng a b)) cs) as (_ & Hs); [lia| |exact G3|].
    { apply (plane_boxes_enclose L D HP).
      - apply Forall_forall. intros p Hp. rewrite Forall_forall in Hm. apply Hm, Hin. exact Hp.
      - apply Forall_forall. exact Hc. }
    change (cpts (sub_coords pts (Rng a b))) with (points_of pts (Rng a b)) in Hs.
    assert (Ef : cfirst (sub_coords pts (Rng a b)) = Spec_Out.vertex pts a).
    { unfold cfirst, cpt, sub_coords, Spec_Out.vertex. cbn [cidxs cpnts rI rJ]. rewrite (zseq_app a a b) by lia.
      unfold zseq. replace (Z.to_nat (a - a + 1)) with 1%nat by lia. cbn. do 2 f_equal. lia. }
    assert (El : clast (sub_coords pts (Rng a b)) = Spec_Out.vertex pts b).
    { unfold clast, cpt. rewrite Ecl. unfold sub_coords, Spec_Out.vertex. cbn [cidxs cpnts rI rJ].
      replace (nth (Z.to_nat (b - a + 1 - 1)) (zseq a b) 0) with b; [reflexivity|].
      unfold zseq. rewrite (nth_indep _ 0 (a + Z.of_nat 0)) by (rewrite map_length, seq_length; lia).
      rewrite (map_nth (fun k => a + Z.of_nat k)), seq_nth by lia. lia. }
    rewrite Ef, El in Hs.
    assert (Hsub : Forall (fun p => In p (points_of pts (Rng a b))) (points_of pts (Rng a b))) by (apply Forall_forall; auto).
    revert Hs Hsub. generalize [Spec_Out.vertex pts a; Spec_Out.vertex pts b] at 1 3 as e.
    assert (K : forall l e, shrinks (sweeps_free L (sub_coords pts (Rng a b)) cs) l e -> Forall (fun p => In p (points_of pts (Rng a b))) l ->
      shrinks (fun u v w => forall g, In g cs -> ~ meets (on_polyline (points_of pts (Rng a b))) (D g) ->
        ~ meets (in_hull [Spec_Out.vertex pts a; Spec_Out.vertex pts b]) (D g) -> ~ meets (in_hull [u; v; w]) (D g)) l e); [|intros e; apply K].
    intros l e Hs. induction Hs as [l|u x y z w l Hf Hs IH]; intros Hsub.
    + apply shrinks_done.
    + apply Forall_app in Hsub. destruct Hsub as [Su Sw]. inversion Sw as [|? ? Sx Sw1]; subst. inversion Sw1 as [|? ? Sy Sw2]; subst.
      inversion Sw2 as [|? ? Sz Sw3]; subst. apply shrinks_step.
      2:{ apply IH. apply Forall_app. split; [exact Su|]. constructor; [exact Sx|]. constructor; [exact Sz|exact Sw3]. }
      intros g Hg N1 N2 (q & Q1 & Q2).
      assert (K : gl_isect L (GPoly [[x; y; z; x]]) g = false).
      { apply Hf; [exact Hg|]. split.
        - change (cpts (sub_coords pts (Rng a b))) with (points_of pts (Rng a b)).
          destruct (gl_isect L (GLine (points_of pts (Rng a b))) g) eqn:E; [|reflexivity]. exfalso. apply N1, Ml; auto.
        - rewrite Ef, El. destruct (gl_isect L (GSeg (Spec_Out.vertex pts a) (Spec_Out.vertex pts b)) g) eqn:E; [|reflexivity].
          exfalso. apply N2, Ms; auto. }
      rewrite Forall_forall in Hnum.
      assert (gl_isect L (GPoly [[x; y; z; x]]) g = true); [|congruence].
      apply (pl_isect L D HP); [apply triangle_number; auto|apply Hc; auto|]. exists q. split; [|exact Q2]. apply (pl_triangle L D HP). exact Q1.
Qed.

(** ** C84 *)

(** Every line written by a run keeps the relations to all constraints, as sets of places. *)
Theorem C84_relations_in_the_plane :
  forall {P} (lib : jsonlib P) S is_class o score input cinput docs constraints m D,
  let lines := map (map (jl_point lib)) (flat_map doc_parts docs) in
  run_docs lib S is_class o score input cinput docs constraints -> linear_first docs m ->
  plane_run S D o lines constraints -> fle fzero (o_min_dist o) = true ->
  Forall (Forall machine_pt) lines -> Forall (fun g => Forall machine_pt (geometry_pts g)) constraints ->
  exists outs, run lib S is_class o score (unlines input) (unlines cinput) = Ok outs /\
    writes_docs lib docs m outs (keeps_relations (w_geom (su_world S)) D o constraints).
Proof.
  intros P lib S is_class o score input cinput docs gs m D lines H Hm Hp Hmd Hl Hg. destruct Hp as [HP Hn Hc _].
  destruct (C59_any_documents lib S is_class o score input cinput docs gs m H Hm Hmd) as (outs & E & W).
  { eapply Forall_impl; [|exact Hn]. intros pts Hpts. apply (plane_geometry_ok _ D HP); auto. }
  exists outs. split; [exact E|]. eapply writes_docs_kept; [|exact W]. intros pts k Hin Hk. rewrite Forall_forall in Hl.
  apply plane_relations; auto. rewrite Forall_forall in *. intros g Hgg. split; auto.
Qed.

(** Without the restriction to floats in standard form, in the terms of the library. *)
Theorem C84_library_relations :
  forall {P} (lib : jsonlib P) S is_class o score input cinput docs constraints m D,
  let lines := map (map (jl_point lib)) (flat_map doc_parts docs) in
  run_docs lib S is_class o score input cinput docs constraints -> linear_first docs m ->
  plane_run S D o lines constraints -> fle fzero (o_min_dist o) = true ->
  exists outs, run lib S is_class o score (unlines input) (unlines cinput) = Ok outs /\
    writes_docs lib docs m outs (honours (w_geom (su_world S)) o constraints).
Proof.
  intros P lib S is_class o score input cinput docs gs m D lines H Hm Hp Hmd. destruct Hp as [HP Hn Hc _].
  apply (C59_any_documents lib S is_class o score input cinput docs gs m H Hm Hmd).
  eapply Forall_impl; [|exact Hn]. intros pts Hpts. apply (plane_geometry_ok _ D HP); auto.
Qed.

(** ** C56 *)

Lemma plane_finder S D o lines cs : plane_run S D o lines cs -> o_planar_self o = true -> Forall (finder_ok (su_world S)) lines.
Proof.
  intros [HP Hn _ Hf] Ho. destruct (Hf Ho) as (F1 & F2 & F3 & _). rewrite Forall_forall in *. intros pts Hin. split; auto.
  intros p q Hpp Hq. specialize (Hn pts Hin). rewrite Forall_forall in Hn. apply (pl_eq _ D HP); auto.
Qed.

Lemma vertex_loc pts k q : znth pts k = Some q -> Spec_Out.vertex pts k = q /\ In q pts.
Proof.
  unfold znth, Spec_Out.vertex. destruct (k <? 0); [discriminate|]. intros E. split; [apply nth_error_nth; exact E|eapply nth_error_In; exact E].
Qed.

Lemma plane_locations S D o lines cs pts c : plane_run S D o lines cs -> o_planar_self o = true -> In pts lines ->
  repeated_location pts c \/ (o_non_planar_self o = true /\ crossing_location (lo_segx (w_lnr (su_world S))) pts c) \/
     (exists k, 0 <= k < zlen pts /\ c = (Spec_Out.vertex pts k, [k])) ->
  location_on_hulls (w_geom (su_world S)) pts c /\ boxes_not_farther (w_geom (su_world S)) pts c.
Proof.
  intros [HP Hn _ Hf] Ho Hin Hc. destruct (Hf Ho) as (_ & _ & _ & F4). rewrite Forall_forall in Hn. specialize (Hn pts Hin).
  assert (Hv := Hn). rewrite Forall_forall in Hv.
  assert (K : num_pt (fst c) /\ location_on_hulls (w_geom (su_world S)) pts c).
  { destruct Hc as [(R1 & _ & _ & R4)|[(_ & Hc)|(k & Hk & ->)]].
    - split; [auto|]. apply (plane_vertex_location _ D HP); auto. intros k Hk. apply R4 in Hk. destruct Hk as (q & Eq & Hl).
      destruct (vertex_loc pts k q Eq) as [-> _]. exact Hl.
    - exact (plane_crossing_location _ D HP _ pts c F4 Hn Hc).
    - assert (Nv : num_pt (Spec_Out.vertex pts k)) by (apply Hv, nth_In; unfold zlen in Hk; lia). split; [exact Nv|].
      apply (plane_vertex_location _ D HP); auto. intros j [<- |[]]. apply loc_eq_self. exact Nv. }
  destruct K as [Nc Hloc]. split; [exact Hloc|]. apply (plane_not_farther _ D HP); auto.
Qed.

(** Vertices visited twice, ends of crossed segments and, with the class option, vertices shared between lines are in
    the output; except at the greatest location (C17, C18, C56). *)
Theorem C56_in_the_plane_partial :
  forall {P} (lib : jsonlib P) S is_class o score input cinput docs constraints m D,
  let lines := map (map (jl_point lib)) (flat_map doc_parts docs) in
  run_docs lib S is_class o score input cinput docs constraints -> linear_first docs m ->
  o_planar_self o = true -> plane_run S D o lines constraints ->
  exists outs, run lib S is_class o score (unlines input) (unlines cinput) = Ok outs /\
    writes_docs lib docs m outs (fun pts kept => forall k, must_survive S is_class o lines pts k -> In k kept).
Proof.
  intros P lib S is_class o score input cinput docs gs m D lines H Hm Hps Hp.
  apply (C56_shared_and_crossed_in_output_partial lib S is_class o score input cinput docs gs m H Hm Hps); [eapply plane_finder; eauto|].
  intros pts c Hin Hc. eapply plane_locations; eauto.
Qed.

(** ** C73, C62, C78 *)

Lemma plane_agree S D o lines cs score pts : plane_run S D o lines cs -> In pts lines ->
  (forall r g, piece pts r -> In g cs -> box_distance_ok (w_geom (su_world S)) (piece_hull (w_geom (su_world S)) pts r) g (gl_bounds (w_geom (su_world S)) g)) /\
  (o_planar_self o = true -> forall c, In c (self_intersections (su_world S) (proto o score pts)) -> boxes_not_farther (w_geom (su_world S)) pts c).
Proof.
  intros Hp Hin. pose proof Hp as [HP Hn Hc _]. rewrite Forall_forall in Hn, Hc. split.
  - intros r g Hr Hg. apply (plane_box_distance _ D HP); auto. apply (piece_number _ D HP); auto.
  - intros Ho c Hsi. eapply plane_locations; eauto.
    pose proof (plane_finder _ _ _ _ _ Hp Ho) as F. rewrite Forall_forall in F. destruct (F pts Hin) as [F1 F2 F3 F4 F5].
    destruct (C19_flags_select (w_geom (su_world S)) (lo_sort (w_lnr (su_world S))) (lo_segx (w_lnr (su_world S)))
      (lo_near (w_lnr (su_world S)) pts) true (o_non_planar_self o) pts F1 F2 F3 F4 F5) as (S1 & _).
    destruct (S1 c Hsi) as [(_ & R & _)|R]; auto.
Qed.

(** Constraints that are not within the minimum distance of a part of a line have no influence. *)
Theorem C73_in_the_plane :
  forall {P} (lib : jsonlib P) (S S' : setup) o score input input' cinput cinput' docs constraints constraints' m D,
  let lines := map (map (jl_point lib)) (flat_map doc_parts docs) in
  let L := w_geom (su_world S) in
  run_docs lib S false o score input cinput docs constraints ->
  run_docs lib S' false o score input' cinput' docs constraints' -> linear_first docs m ->
  w_geom (su_world S') = L -> w_lnr (su_world S') = w_lnr (su_world S) -> is_nan (o_min_dist o) = false ->
  plane_run S D o lines (constraints ++ constraints') ->
  (forall pts, In pts lines -> agree_near L (o_min_dist o) pts constraints constraints') ->
  exists outs, run lib S false o score (unlines input) (unlines cinput) = Ok outs /\
    run lib S' false o score (unlines input') (unlines cinput') = Ok outs.
Proof.
  intros P lib S S' o score input input' cinput cinput' docs cs cs' m D lines L H H' Hm EL EN Hnan Hp Ha.
  apply (C73_far_constraints_do_not_change_output lib S S' o score input input' cinput cinput' docs cs cs' m H H' Hm EL EN Hnan).
  intros pts Hin. destruct (plane_agree S D o lines (cs ++ cs') score pts Hp Hin) as (G1 & G2). split; [apply Ha, Hin|]. split; [|exact G2].
  intros r g Hr Hg. apply G1; auto. apply in_or_app. exact Hg.
Qed.

(** Files with the same documents and the same constraints, in any order and number, give the same output. *)
Theorem C62_in_the_plane :
  forall {P} (lib : jsonlib P) (S S' : setup) o score input input' cinput cinput' docs constraints constraints' m D,
  let lines := map (map (jl_point lib)) (flat_map doc_parts docs) in
  let L := w_geom (su_world S) in
  run_docs lib S false o score input cinput docs constraints ->
  run_docs lib S' false o score input' cinput' docs constraints' -> linear_first docs m ->
  w_geom (su_world S') = L -> w_lnr (su_world S') = w_lnr (su_world S) -> is_nan (o_min_dist o) = false ->
  (forall g, In g constraints <-> In g constraints') -> plane_run S D o lines constraints ->
  exists outs, run lib S false o score (unlines input) (unlines cinput) = Ok outs /\
    run lib S' false o score (unlines input') (unlines cinput') = Ok outs.
Proof.
  intros P lib S S' o score input input' cinput cinput' docs cs cs' m D lines L H H' Hm EL EN Hnan Hcs Hp.
  apply (C62_any_documents lib S S' o score input input' cinput cinput' docs cs cs' m H H' Hm EL EN Hnan Hcs).
  intros pts Hin. exact (plane_agree S D o lines cs score pts Hp Hin).
Qed.

Theorem C78_in_the_plane :
  forall {P} (lib : jsonlib P) (S S1 S2 : setup) o score input1 input2 cinput cinput1 cinput2 docs1 docs2
         constraints constraints1 constraints2 m D,
  let lines := map (map (jl_point lib)) (flat_map doc_parts (docs1 ++ docs2)) in
  let L := w_geom (su_world S) in
  run_docs lib S1 false o score input1 cinput1 docs1 constraints1 ->
  run_docs lib S2 false o score input2 cinput2 docs2 constraints2 ->
  run_docs lib S false o score (input1 ++ input2) cinput (docs1 ++ docs2) constraints ->
  linear_first docs1 (length docs1) -> linear_first docs2 m ->
  w_geom (su_world S1) = L -> w_lnr (su_world S1) = w_lnr (su_world S) ->
  w_geom (su_world S2) = L -> w_lnr (su_world S2) = w_lnr (su_world S) -> is_nan (o_min_dist o) = false ->
  (forall g, In g constraints1 <-> In g constraints) -> (forall g, In g constraints2 <-> In g constraints) ->
  plane_run S D o lines constraints ->
  exists outs1 outs2,
    run lib S1 false o score (unlines input1) (unlines cinput1) = Ok outs1 /\
    run lib S2 false o score (unlines input2) (unlines cinput2) = Ok outs2 /\
    run lib S false o score (unlines (input1 ++ input2)) (unlines cinput) = Ok (outs1 ++ outs2).
Proof.
  intros P lib S S1 S2 o score input1 input2 cinput cinput1 cinput2 docs1 docs2 cs cs1 cs2 m D lines L H1 H2 H Hl1 Hl2 E1 E2 E3 E4 Hnan C1 C2 Hp.
  apply (C78_files_can_be_split lib S S1 S2 o score input1 input2 cinput cinput1 cinput2 docs1 docs2 cs cs1 cs2 m H1 H2 H Hl1 Hl2 E1 E2 E3 E4 Hnan C1 C2).
  intros pts Hin. exact (plane_agree S D o lines cs score pts Hp Hin).
Qed.

(** ** Cases *)

(** The exact library of Toy_Plane.v, with a finder that reports the ends of one segment that lie on the other. *)
Definition on_ends (p c d : point) : interpoint := InterPoint p true (negb (loc_eq p c || loc_eq p d)).
Definition tee_segx (a b c d : point) : list interpoint :=
  map (fun p => on_ends p c d) (filter (fun p => hulls_meet [p] [c; d]) [a; b]) ++
  map (fun p => on_ends p a b) (filter (fun p => hulls_meet [p] [a; b]) [c; d]).
Definition exP : world := World exact_lib ex_gen plain_oracle plain_pop (LnrOracle v_sort tee_segx scan_near).
Lemma exP_ok : libs_ok exP.
Proof.
  destruct exB_ok as [A B _ D]. split; [exact A|exact B| |exact D]. intros p g. cbn [w_geom exP exact_lib gl_inter].
  split; cbn; lia.
Qed.
Definition exP_setup : setup := Setup exP (fun k => Z.of_nat k) ex_gens (fun _ => in_turn) in_turn 60.
Lemma exP_setup_ok : setup_ok exP_setup.
Proof. destruct exB_setup_ok as [_ B C D E F]. split; [exact exP_ok|exact B|exact C|exact D|exact E|exact F]. Qed.

Lemma tee_sym : segx_sym tee_segx.
Proof. intros a b c d. unfold tee_segx. apply Permutation_app_comm. Qed.
Lemma tee_near : crossings_near exact_lib tee_segx.
Proof.
  intros a b c d ip Na Nb Nc Nd H.
  assert (K : forall p u v, In p [u; v] -> hulls_meet [p] [u; v] = true).
  { intros p u v Hp. apply hulls_meet_ok. exists (xof p, yof p). split; apply in_hull_member; [cbn; auto|exact Hp]. }
  assert (E : forall p u v, hulls_meet [p] [u; v] = true -> fle (gl_dist exact_lib (GPoint p) (GSeg u v)) epsilon_dist = true).
  { intros p u v Hp. cbn [exact_lib gl_dist]. unfold ex_isect. cbn [convex_parts existsb]. rewrite Hp. reflexivity. }
  unfold tee_segx in H. apply in_app_iff in H. destruct H as [H|H]; apply in_map_iff in H; destruct H as (p & <- & H);
    apply filter_In in H; destruct H as [H M]; cbn [on_ends ip_pt]; (split; [destruct H as [<- |[<- |[]]]; assumption|]); split; apply E; auto.
Qed.

(** The fourth vertex lies on the first segment: the ends of the segments there must survive.  The constraint is
    enclosed by the last bend. *)
Definition tee : list point := [P2 0 0; P2 10 0; P2 10 8; P2 5 0; P2 2 (-6); P2 6 (-8); P2 9 (-9); P2 20 0].
Definition tee_opts : opts := Opts (f_of_Z 40) fzero fzero true true true true true true.
Definition tee_pin : point := P2 9 (-6).
Definition tee_lib : jsonlib bool := JsonLib
  (jl_type ex_lib) (fun s => if bytes_eqb s (str "l") then Some (jline tee) else Some (jpoint tee_pin))
  (jl_feature ex_lib) (jl_collection ex_lib) (jl_marshal ex_lib) (jl_unmarshal ex_lib) (jl_empty ex_lib) (jl_point ex_lib) (jl_zero ex_lib).
Lemma tee_machine : Forall machine_pt tee.
Proof. unfold tee. repeat (apply Forall_cons; [split; (split; vm_compute; reflexivity)|]). apply Forall_nil. Qed.
Lemma pin_machine : machine_pt tee_pin.
Proof. split; (split; vm_compute; reflexivity). Qed.

Example C84_case :
  let docs := [@DGeometry bool (jline tee)] in
  let lines := map (map (jl_point tee_lib)) (flat_map doc_parts docs) in
  run_docs tee_lib exP_setup true tee_opts toy_score [str "l"] [str "p"] docs [GPoint tee_pin] /\ linear_first docs 1 /\
  plane_run exP_setup places tee_opts lines [GPoint tee_pin] /\ fle fzero (o_min_dist tee_opts) = true /\
  Forall (Forall machine_pt) lines /\ Forall (fun g => Forall machine_pt (geometry_pts g)) [GPoint tee_pin] /\
  is_nan (o_min_dist tee_opts) = false /\ o_planar_self tee_opts = true /\
  must_survive exP_setup true tee_opts lines tee 3 /\
  meets (in_hull [P2 2 (-6); P2 9 (-9); P2 20 0]) (places (GPoint tee_pin)) /\
  ~ meets (in_hull [P2 0 0; P2 10 0; P2 10 8]) (places (GPoint tee_pin)).
Proof.
  cbv zeta. assert (Hp : map (map (jl_point tee_lib)) (flat_map doc_parts [@DGeometry bool (jline tee)]) = [tee]) by (vm_compute; reflexivity).
  rewrite Hp.
  assert (Hn : Forall num_pt tee) by (eapply Forall_impl; [|exact tee_machine]; intros p; apply machine_num).
  split; [|split; [|split; [|split; [reflexivity|split; [|split; [|split; [reflexivity|split; [reflexivity|split; [|split]]]]]]]]].
  - split; try rewrite Hp.
    + destruct ex_json_ok as [A B C]. split; assumption.
    + exact exP_setup_ok.
    + repeat constructor; vm_compute; intros H; repeat (destruct H as [H|H]; [discriminate H|]); exact H.
    + exists [str "l"]. split.
      { assert (K : lines_kept [str "l"] (keep [str "l"])) by apply keep_kept. vm_compute in K. exact K. }
      constructor; [eapply R_geometry; [reflexivity|cbn; tauto|reflexivity]|constructor].
    + repeat constructor; discriminate.
    + vm_compute. reflexivity.
    + repeat constructor.
    + repeat constructor; vm_compute; intros H; repeat (destruct H as [H|H]; [discriminate H|]); exact H.
    + exists [str "p"], [DGeometry (jpoint tee_pin)]. split.
      { assert (K : lines_kept [str "p"] (keep [str "p"])) by apply keep_kept. vm_compute in K. exact K. }
      split; [constructor; [eapply R_geometry; [reflexivity|cbn; tauto|reflexivity]|constructor]|]. split; [|vm_compute; reflexivity].
      constructor; [|constructor]. vm_compute. discriminate.
    + constructor; [|constructor]. vm_compute. repeat split; try reflexivity; discriminate.
    + constructor; [line_ok_compute (f_of_Z 40)|constructor].
    + intros _. split; [exact v_sort_sorts| |reflexivity]. cbn [concat app]. rewrite app_nil_r. exact Hn.
    + vm_compute. lia.
  - split; [cbn; lia|]. intros [|i] d H; [|destruct i; discriminate]. injection H as <-. split; [lia|vm_compute; discriminate].
  - split.
    + exact exact_lib_ok.
    + constructor; [exact Hn|constructor].
    + constructor; [|constructor]. apply point_number. apply machine_num, pin_machine.
    + intros _. split; [exact v_sort_sorts|]. split; [intros pts _; apply scan_near_finds|]. split; [exact tee_sym|exact tee_near].
  - constructor; [exact tee_machine|constructor].
  - constructor; [|constructor]. constructor; [exact pin_machine|constructor].
  - exists (P2 5 0). split; [reflexivity|]. right. left. split; [reflexivity|]. exists 2, 0, (P2 5 0). split; [|right; reflexivity].
    split; [split; vm_compute; discriminate|]. split; [split; vm_compute; discriminate|]. split; [discriminate|]. split; [vm_compute; reflexivity|].
    cbv zeta. exists (InterPoint (P2 5 0) true true). split; [vm_compute; tauto|]. split; [reflexivity|]. right. reflexivity.
  - assert (K : hulls_meet [P2 2 (-6); P2 9 (-9); P2 20 0] [tee_pin] = true) by (vm_compute; reflexivity).
    apply hulls_meet_ok in K. destruct K as (q & A & B). exists q. split; [exact A|]. exists [tee_pin]. split; [cbn; auto|exact B].
  - intros (q & A & (c & [<- |[]] & B)).
    assert (K : hulls_meet [P2 0 0; P2 10 0; P2 10 8] [tee_pin] = true) by (apply hulls_meet_ok; eauto). vm_compute in K. discriminate.
Qed.

(** The same line in two files with the constraint given twice in one of them. *)
Example C62_plane_case :
  let docs := [@DGeometry bool (jline tee)] in
  run_docs tee_lib exP_setup false tee_opts toy_score [str "l"] [str "p"] docs [GPoint tee_pin] /\
  run_docs tee_lib exP_setup false tee_opts toy_score [str "l"] [str "p"; str " p"] docs [GPoint tee_pin; GPoint tee_pin] /\
  (forall g, In g [GPoint tee_pin] <-> In g [GPoint tee_pin; GPoint tee_pin]) /\
  (forall pts, agree_near exact_lib (o_min_dist tee_opts) pts [GPoint tee_pin] [GPoint tee_pin; GPoint tee_pin]).
Proof.
  cbv zeta. destruct C84_case as (H & _). cbv zeta in H. destruct H as [A B C E F G I J K M N O Q].
  split; [|split; [|split]].
  - split; auto.
  - split; auto.
    + repeat constructor; vm_compute; intros H; repeat (destruct H as [H|H]; [discriminate H|]); exact H.
    + exists [str "p"; str "p"], [DGeometry (jpoint tee_pin); DGeometry (jpoint tee_pin)]. split.
      { assert (Q1 : lines_kept [str "p"; str " p"] (keep [str "p"; str " p"])) by apply keep_kept. vm_compute in Q1. exact Q1. }
      split; [repeat (constructor; [eapply R_geometry; [reflexivity|cbn; tauto|reflexivity]|]); constructor|]. split; [|vm_compute; reflexivity].
      repeat constructor; vm_compute; discriminate.
    + inversion M; subst. constructor; [assumption|]. constructor; [assumption|constructor].
  - cbn. tauto.
  - intros pts r g _ _. cbn. tauto.
Qed.

(** Two files, each with the line, and both together. *)
Example C78_plane_case :
  let docs := [@DGeometry bool (jline tee)] in
  run_docs tee_lib exP_setup false tee_opts toy_score [str "l"; str "l"] [str "p"] (docs ++ docs) [GPoint tee_pin] /\
  linear_first docs 1 /\
  plane_run exP_setup places tee_opts (map (map (jl_point tee_lib)) (flat_map doc_parts (docs ++ docs))) [GPoint tee_pin].
Proof.
  cbv zeta. destruct C84_case as (H & Hl & Hp & _). cbv zeta in H, Hl, Hp. destruct H as [A B C E F G I J K M N O Q].
  split; [|split; [exact Hl|]].
  - split; [exact A|exact B| | | | | |exact J|exact K|exact M| |discriminate|].
    + repeat constructor; vm_compute; intros H; repeat (destruct H as [H|H]; [discriminate H|]); exact H.
    + exists [str "l"; str "l"]. split.
      { assert (Q1 : lines_kept [str "l"; str "l"] (keep [str "l"; str "l"])) by apply keep_kept. vm_compute in Q1. exact Q1. }
      repeat (constructor; [eapply R_geometry; [reflexivity|cbn; tauto|reflexivity]|]); constructor.
    + repeat constructor; discriminate.
    + vm_compute. reflexivity.
    + repeat constructor.
    + rewrite flat_map_app, map_app. apply Forall_app. split; exact N.
    + vm_compute. lia.
  - destruct Hp as [P1 P2 P3 P4]. split; [exact P1| |exact P3|].
    + rewrite flat_map_app, map_app. apply Forall_app. split; exact P2.
    + intros Ho. destruct (P4 Ho) as (Q1 & Q2 & Q3 & Q4). split; [exact Q1|]. split; [|auto].
      intros pts Hin. apply Q2. rewrite flat_map_app, map_app in Hin. apply in_app_iff in Hin. destruct Hin; assumption.
Qed.

Print Assumptions C84_relations_in_the_plane.
Print Assumptions C84_library_relations.
Print Assumptions C56_in_the_plane_partial.
Print Assumptions C73_in_the_plane.
Print Assumptions C62_in_the_plane.
Print Assumptions C78_in_the_plane.
