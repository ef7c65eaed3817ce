(** Claims C66 to C72: the class option, the textbook algorithm, runs without constraint options
    and runs that do not end.  Vocabulary: Spec_Modes.v, Spec_Docs.v, Spec_Out.v. *)
From Coq Require Import Ascii String.
From Verif Require Import M_Base M_Float M_Rng M_Geom M_Offset M_Node M_Decompose M_Hdb M_Knn M_Lnr M_Homotopy M_Relate M_Constrain M_ConstDP
  M_Text M_IO Spec Spec_Hdb Spec_Lnr Spec_Relate Spec_ConstDP Spec_Text Spec_IO Spec_Run Spec_Out Spec_Docs Spec_Modes
  P_Base P_Float P_Decompose P_DpTree P_Split P_Node P_Lnr P_Bag P_ConstDP P_Simplify P_Class P_Text P_IO P_Run P_Out P_Docs P_Modes Toy Toy_Box
  Properties_Core Properties_Lnr Properties_Relate Properties_ConstDP Properties_IO Properties_Run Properties_Chord Properties_Docs.
Open Scope Z_scope.

(** ** C66 *)

(** Whatever the files hold, valid or not: without a constraint option the class option changes nothing. *)
Theorem C66_class_option_alone_changes_nothing :
  forall {P} (lib : jsonlib P) S o score input cinput,
  o_planar_self o = false -> o_avoid_self o = false -> o_geom o = false -> o_dist o = false -> o_dir o = false ->
  run lib S true o score input cinput = run lib S false o score input cinput.
Proof.
  intros P lib S o score input cinput H1 H2 H3 H4 H5. apply run_class_same. unfold constrained. rewrite H1, H2, H3, H4, H5. reflexivity.
Qed.

(** With constraint options it does change the result. *)
Example C66_case :
  (exists outs, run ex_lib exB_setup true free_opts toy_score (unlines mixed_input) (unlines [str "p"]) = Ok outs /\ outs <> []) /\
  run ex_lib exB_setup true free_opts toy_score (unlines gap_input) (unlines [str "p"]) = Panic /\
  run ex_lib exB_setup true fc_opts toy_score (unlines mixed_input) (unlines [str "p"]) <>
  run ex_lib exB_setup false fc_opts toy_score (unlines mixed_input) (unlines [str "p"]).
Proof.
  split; [|split].
  - destruct (run ex_lib exB_setup true free_opts toy_score (unlines mixed_input) (unlines [str "p"])) as [outs| |] eqn:E; vm_compute in E; try discriminate.
    injection E as <-. eexists. split; [reflexivity|discriminate].
  - vm_compute. reflexivity.
  - intros H. vm_compute in H. discriminate.
Qed.

(** ** C67 *)

Lemma line_adds S o score gs lines selfs pts k : in_run S true o score gs lines selfs -> o_planar_self o = false ->
  result_of S true o selfs pts k ->
  exists k0, simplified_alone S o score gs pts k0 /\ forall x, In x k0 -> In x k.
Proof.
  intros H Hp (s & hs & Hs & <- & Ho & ->).
  destruct Ho as [(h0 & n & E & Hsub & _) _ _ _]. unfold class_junctions in E. rewrite Hp in E. cbn [andb] in E.
  destruct (ir_made _ _ _ _ _ _ _ H s Hs) as [(Eo & Es & Eq & Hb) _].
  exists (simple_set h0). split; [|exact Hsub].
  exists (c_id s), (c_ctxdb s), h0, n. cbv zeta. split; [exact (proj1 Hb)|]. split; [|reflexivity].
  rewrite <- Eo, <- Es, <- Eq. destruct s as [a b c d e f]. exact E.
Qed.

(** With the class option every line keeps what it keeps without the option, and maybe more. *)
Theorem C67_class_option_only_adds_vertices :
  forall {P} (lib : jsonlib P) S o score input cinput docs constraints m,
  run_docs lib S true o score input cinput docs constraints -> linear_first docs m ->
  o_planar_self o = false ->
  exists outs, run lib S true o score (unlines input) (unlines cinput) = Ok outs /\
    writes_docs lib docs m outs (fun pts s =>
      exists s0, simplified_alone S o score constraints pts s0 /\ forall k, In k s0 -> In k s).
Proof.
  intros P lib S o score input cinput docs gs m H Hm Hp.
  destruct (docs_in_run lib S true o score input cinput docs gs H) as (selfs & Hr & Hw & _).
  destruct (Hw m Hm) as (outs & E & W). exists outs. split; [exact E|]. eapply writes_docs_impl; [|exact W].
  intros pts k _. exact (line_adds _ _ _ _ _ _ pts k Hr Hp).
Qed.

Definition add_opts : opts := Opts (f_of_Z 10) fzero fzero false false true false false false.
Example C67_case :
  run_docs ex_lib exB_setup true add_opts toy_score mixed_input [str "p"] mixed_docs [ex_constraint] /\
  linear_first mixed_docs 2 /\
  (exists outs, run ex_lib exB_setup false add_opts toy_score (unlines mixed_input) (unlines [str "p"]) = Ok outs /\
    outs = [OFeat false (OLine (map flat (pick origin zig [0; 4])));
      OFeat true (OMulti [map flat (pick origin zig [0; 4]); map flat (pick origin feat2_pts [0; 2]); map flat (pick origin feat2_pts [0; 2])])]) /\
  (exists outs, run ex_lib exB_setup true add_opts toy_score (unlines mixed_input) (unlines [str "p"]) = Ok outs /\
    outs = [OFeat false (OLine (map flat zig)); OFeat true (OMulti [map flat zig; map flat feat2_pts; map flat feat2_pts])]).
Proof.
  split; [apply mixed_run_docs; line_ok_compute (f_of_Z 10)|]. split; [exact mixed_first|]. split.
  - eexists. vm_compute. split; reflexivity.
  - eexists. vm_compute. split; reflexivity.
Qed.

(** ** C72 *)

Lemma line_apart S o score gs lines selfs pts k : in_run S true o score gs lines selfs -> o_planar_self o = false ->
  lines_apart (w_geom (su_world S)) lines ->
  result_of S true o selfs pts k -> simplified_alone S o score gs pts k.
Proof.
  intros H Hp Ha (s & hs & Hs & <- & Ho & ->). pose proof (ir_lines _ _ _ _ _ _ _ H) as Ep.
  destruct Ho as [(h0 & n & E & _ & _ & Eh) _ _ _]. unfold class_junctions in E. rewrite Hp in E. cbn [andb] in E.
  rewrite Eh.
  - destruct (ir_made _ _ _ _ _ _ _ H s Hs) as [(Eo & Es & Eq & Hb) _].
    exists (c_id s), (c_ctxdb s), h0, n. cbv zeta. split; [exact (proj1 Hb)|]. split; [|reflexivity].
    rewrite <- Eo, <- Es, <- Eq. destruct s as [a b c d e f]. exact E.
  - intros x y Hx Hy Hne. apply In_nth_error in Hx as [i Hi]. apply In_nth_error in Hy as [j Hj].
    apply (Ha i j); [congruence|rewrite <- Ep; apply map_nth_error; assumption..].
Qed.

(** A class whose lines are nowhere near each other is simplified line by line. *)
Theorem C72_lines_apart_do_not_interact :
  forall {P} (lib : jsonlib P) S o score input cinput docs constraints m,
  run_docs lib S true o score input cinput docs constraints -> linear_first docs m ->
  o_planar_self o = false -> lines_apart (w_geom (su_world S)) (map (map (jl_point lib)) (flat_map doc_parts docs)) ->
  exists outs, run lib S true o score (unlines input) (unlines cinput) = Ok outs /\
    writes_docs lib docs m outs (simplified_alone S o score constraints).
Proof.
  intros P lib S o score input cinput docs gs m H Hm Hp Ha.
  destruct (docs_in_run lib S true o score input cinput docs gs H) as (selfs & Hr & Hw & _).
  destruct (Hw m Hm) as (outs & E & W). exists outs. split; [exact E|]. eapply writes_docs_impl; [|exact W].
  intros pts k _. exact (line_apart _ _ _ _ _ _ pts k Hr Hp Ha).
Qed.

(** [zig] and the same line a thousand units away; near [feat2_pts] the class option does keep more of [zig]. *)
Definition far_zig : list point := map (fun p => Pt (fadd (px p) (f_of_Z 1000)) (py p) (pz p)) zig.
Definition far_feat : jfeat bool := JFeat (Some (jmulti [zig; far_zig])) (Some true).
Definition far_lib : jsonlib bool := JsonLib ex_type (jl_geometry ex_lib) (fun _ => Some far_feat) (jl_collection ex_lib)
  (jl_marshal ex_lib) (jl_unmarshal ex_lib) (jl_empty ex_lib) (jl_point ex_lib) (jl_zero ex_lib).
Definition pieces_of (n : nat) : list rng :=
  flat_map (fun i => map (fun j => Rng (Z.of_nat i) (Z.of_nat j)) (seq (i + 1) (n - 1 - i))) (seq 0 n).
Lemma pieces_all pts r : piece pts r -> In r (pieces_of (length pts)).
Proof.
  destruct r as [i j]. unfold piece, zlen. cbn [rI rJ]. intros (A & B & C). unfold pieces_of. apply in_flat_map.
  exists (Z.to_nat i). split; [apply in_seq; lia|]. apply in_map_iff. exists (Z.to_nat j). split; [f_equal; lia|apply in_seq; lia].
Qed.
Lemma never_near_check L a b :
  forallb (fun r => forallb (fun q => negb (boxes_meet (gl_bounds L (piece_hull L a r)) (gl_bounds L (piece_hull L b q))))
    (pieces_of (length b))) (pieces_of (length a)) = true -> never_near L a b.
Proof.
  intros H r q Hr Hq. left. rewrite forallb_forall in H. specialize (H r (pieces_all a r Hr)). cbv beta in H.
  rewrite forallb_forall in H. specialize (H q (pieces_all b q Hq)). apply negb_true_iff in H. exact H.
Qed.
Example C72_case :
  run_docs far_lib exB_setup true add_opts toy_score [str "f"] [str "p"] [DFeature far_feat] [ex_constraint] /\
  linear_first [DFeature far_feat] 1 /\
  lines_apart boxy (map (map (jl_point far_lib)) (flat_map doc_parts [DFeature far_feat])) /\
  (exists outs, run far_lib exB_setup true add_opts toy_score (unlines [str "f"]) (unlines [str "p"]) = Ok outs /\
    outs = [OFeat true (OMulti [map flat (pick origin zig [0; 4]); map flat (pick origin far_zig [0; 4])])]) /\
  ~ lines_apart boxy [zig; feat2_pts].
Proof.
  assert (El : map (map (jl_point far_lib)) (flat_map doc_parts [DFeature far_feat]) = [zig; far_zig]) by (vm_compute; reflexivity).
  split; [split|split; [|split; [|split]]].
  - split; [intros []; reflexivity|reflexivity|intros []; discriminate].
  - exact exB_setup_ok.
  - repeat constructor; vm_compute; intros H; repeat (destruct H as [H|H]; [discriminate H|]); exact H.
  - exists [str "f"]. split.
    { assert (K : lines_kept [str "f"] (keep [str "f"])) by apply keep_kept. vm_compute in K. exact K. }
    constructor; [apply R_feature; reflexivity|constructor].
  - repeat constructor; discriminate.
  - vm_compute. reflexivity.
  - repeat constructor.
  - repeat constructor; vm_compute; intros H; repeat (destruct H as [H|H]; [discriminate H|]); exact H.
  - exists [str "p"], [DGeometry (jpoint (P2 3 4))]. split.
    { assert (K : lines_kept [str "p"] (keep [str "p"])) by apply keep_kept. vm_compute in K. exact K. }
    split; [constructor; [eapply R_geometry; [reflexivity|cbn; tauto|reflexivity]|constructor]|]. split; [|vm_compute; reflexivity].
    constructor; [|constructor]. vm_compute. discriminate.
  - constructor; [|constructor]. vm_compute. repeat split; try reflexivity; discriminate.
  - rewrite El. constructor; [|constructor; [|constructor]]; line_ok_compute (f_of_Z 10).
  - rewrite El. intros _. split.
    + exact v_sort_sorts.
    + apply Forall_forall. intros p Hp. vm_compute in Hp; repeat (destruct Hp as [<- |Hp]; [split; reflexivity|]); destruct Hp.
    + intros p q _ _. reflexivity.
  - rewrite El. vm_compute. lia.
  - split; [cbn; lia|]. intros [|i] d H; [injection H as <-; split; [lia|vm_compute; discriminate]|destruct i; discriminate].
  - rewrite El. intros [|[|i]] [|[|j]] a b Hij Ha Hb; try (exfalso; apply Hij; reflexivity);
      try (destruct i; discriminate); try (destruct j; discriminate); injection Ha as <-; injection Hb as <-;
      apply never_near_check; vm_compute; reflexivity.
  - eexists. vm_compute. split; reflexivity.
  - intros H. destruct (H 0%nat 1%nat zig feat2_pts ltac:(lia) eq_refl eq_refl (Rng 0 4) (Rng 0 2)) as [K|K];
      [vm_compute; repeat split; discriminate|vm_compute; repeat split; discriminate|vm_compute in K; discriminate..].
Qed.

(** ** C68 *)

Lemma decompose_textbook dist rel T L gen pts inst fuel ctr hs ctr' : (forall v, rel v = score_rel T v) ->
  (2 <= length pts)%nat -> fle fzero T = true ->
  douglas_peucker L gen (create_polyline pts) inst (max_offset dist) rel fuel ctr = Ok (hs, ctr') ->
  textbook dist T pts 0 (zlen pts - 1) (point_set hs).
Proof.
  intros Hrel Hl HT E. assert (Hs : splits_inside (max_offset dist) rel) by (apply max_offset_splits; rewrite Hrel; exact HT).
  destruct (decompose_sound _ _ _ _ _ _ _ _ _ _ Hs Hl E) as (Hch & _ & _ & _ & _).
  pose proof (dp_tree _ _ _ _ _ _ _ _ _ _ Hl E) as Ht.
  assert (Hn : 0 < zlen pts - 1) by (unfold zlen; lia).
  rewrite (point_set_chain hs 0 (zlen pts - 1) Hn Hch), <- (map_map n_rng rJ).
  apply (tree_textbook dist T pts HT (Rng 0 (zlen pts - 1))); [|cbn; lia..].
  clear -Ht Hrel. induction Ht as [r A|r l1 l2 A H1 IH1 H2 IH2].
  - apply T_leaf. rewrite <- Hrel. exact A.
  - apply T_node; auto. rewrite <- Hrel. exact A.
Qed.

(** Plain Douglas-Peucker is the textbook algorithm: it ends and keeps exactly what that keeps. *)
Theorem C68_plain_is_textbook :
  forall L gen pts inst distfn T fuel ctr s,
  (2 <= length pts)%nat -> fle fzero T = true -> (2 * length pts - 3 < fuel)%nat ->
  dp_simple L gen (create_polyline pts) inst T (max_offset distfn) None fuel ctr = Ok s <->
  textbook distfn T pts 0 (zlen pts - 1) s.
Proof.
  intros L gen pts inst distfn T fuel ctr s Hl HT Hf.
  destruct (C02_terminates L gen pts inst distfn T fuel ctr HT Hf) as (hs & c & E).
  pose proof (decompose_textbook distfn (score_rel T) T L gen pts inst fuel ctr hs c (fun _ => eq_refl) Hl HT E) as K.
  unfold dp_simple. rewrite E. cbn [bind]. split.
  - intros H. injection H as <-. exact K.
  - intros H. f_equal. exact (textbook_unique _ _ _ _ _ _ K _ H).
Qed.

(** With squared distances the textbook algorithm is the one with the squared threshold. *)
Theorem C68_squared_is_textbook :
  forall L gen pts inst score distfn T fuel ctr s,
  (2 <= length pts)%nat -> fle fzero (fmul T T) = true -> (2 * length pts - 3 < fuel)%nat ->
  dp_simple L gen (create_polyline pts) inst T score (Some (max_offset distfn)) fuel ctr = Ok s <->
  textbook distfn (fmul T T) pts 0 (zlen pts - 1) s.
Proof.
  intros L gen pts inst score distfn T fuel ctr s Hl HT Hf.
  assert (HN : is_nan T = false) by (destruct T; auto; discriminate HT).
  destruct (C02_terminates_squared L gen pts inst score distfn T fuel ctr HN Hf) as (hs & c & E).
  pose proof (decompose_textbook distfn (square_score_rel T) (fmul T T) L gen pts inst fuel ctr hs c (fun _ => eq_refl) Hl HT E) as K.
  unfold dp_simple. rewrite E. cbn [bind]. split.
  - intros H. injection H as <-. exact K.
  - intros H. f_equal. exact (textbook_unique _ _ _ _ _ _ K _ H).
Qed.

(** A line with two vertices equally far from the chord is split at the second of them; at a
    threshold not below the greatest distance it is not split. *)
Definition tie_pts : list point := [P2 0 0; P2 2 5; P2 4 5; P2 6 0].
Example C68_case :
  textbook toy_ptseg (f_of_Z 1) tie_pts 0 3 [0; 1; 2; 3] /\
  textbook toy_ptseg (f_of_Z 4) tie_pts 0 3 [0; 2; 3] /\
  textbook toy_ptseg (f_of_Z 5) tie_pts 0 3 [0; 3] /\
  ~ textbook toy_ptseg (f_of_Z 4) tie_pts 0 3 [0; 1; 3].
Proof.
  assert (K : forall T s, (fle fzero T = true) ->
    dp_simple toy (fun k => Z.of_nat k) (create_polyline tie_pts) 0 T (max_offset toy_ptseg) None 20 0 = Ok s <-> textbook toy_ptseg T tie_pts 0 3 s).
  { intros T s HT. apply (C68_plain_is_textbook toy (fun k => Z.of_nat k) tie_pts 0 toy_ptseg T 20 0 s); [cbn; lia|exact HT|cbn; lia]. }
  split; [|split; [|split]].
  - apply K; vm_compute; reflexivity.
  - apply K; vm_compute; reflexivity.
  - apply K; vm_compute; reflexivity.
  - intros H. apply K in H; [|vm_compute; reflexivity]. vm_compute in H. discriminate.
Qed.

(** ** C69 *)

(** Constrained simplification without constraint options: nothing is kept that the textbook
    algorithm drops, and what is dropped in addition was next to a kept vertex. *)
Theorem C69_thinner_than_textbook :
  forall (W : world) ord (self : cdp) constraints verts fuel ctr hs ctr' distfn,
  let o := c_opts self in
  libs_ok W -> any_order ord -> line_ok (w_geom W) self -> built_from W self constraints ->
  Forall (fun k => 0 <= k < zlen (c_pts self)) verts ->
  (2 * length (c_pts self) - 3 < fuel)%nat ->
  c_score self = max_offset distfn -> c_sq self = None -> fle fzero (o_threshold o) = true ->
  o_planar_self o = false -> o_avoid_self o = false -> o_geom o = false -> o_dist o = false -> o_dir o = false ->
  simplify W ord self verts fuel ctr = Ok (hs, ctr') ->
  thinner_than_textbook distfn (o_threshold o) (c_pts self) (simple_set hs).
Proof.
  intros W ord self cs verts fuel ctr hs ctr' distfn o HW Ho Hl Hb Hv Hf Es Eq HT O1 O2 O3 O4 O5 E.
  pose proof (one_setting W self cs (fun _ => True) HW Hl Hb (fun _ => I)) as St.
  destruct (simplify_free W self _ ord Ho St (lk_two _ _ Hl) (lk_splits _ _ Hl) verts fuel ctr) as (hs0 & c0 & hs1 & c1 & E0 & E1 & A & B & I0 & I1); auto.
  { unfold free. auto. }
  rewrite E in E1. injection E1 as <- <-. unfold dp_decompose in E0. rewrite Es, Eq in E0. cbn [dp_score dp_relation] in E0.
  exists (point_set hs0). split; [|split].
  - apply (decompose_textbook distfn (score_rel (o_threshold o)) _ _ _ _ _ _ _ _ _ (fun _ => eq_refl) (lk_two _ _ Hl) HT E0).
  - intros k Hk. apply (point_cut _ _ _ I1) in Hk. apply (point_cut _ _ _ I0). auto.
  - intros k Hk Hn. apply (point_cut _ _ _ I0) in Hk. destruct (B k Hk) as [K|(h & Hh & H1 & Hend)].
    + destruct Hn. apply (point_cut _ _ _ I1). exact K.
    + unfold rsize in H1. destruct Hend as [K|K]; [right|left]; apply point_set_spec; exists h; (split; [exact Hh|]); [right|left]; lia.
Qed.

Lemma line_thinner S is_class o distfn gs lines selfs pts k : in_run S is_class o (max_offset distfn) gs lines selfs ->
  o_planar_self o = false -> o_avoid_self o = false -> o_geom o = false -> o_dist o = false -> o_dir o = false ->
  fle fzero (o_threshold o) = true ->
  result_of S is_class o selfs pts k -> thinner_than_textbook distfn (o_threshold o) pts k.
Proof.
  intros H O1 O2 O3 O4 O5 HT (s & hs & Hs & <- & Ho & ->). destruct (ir_made _ _ _ _ _ _ _ H s Hs) as [(Eo & Es & Eq & Hb) Hl].
  pose proof (ir_lines _ _ _ _ _ _ _ H) as Ep. pose proof (ir_nodup _ _ _ _ _ _ _ H) as Hnd.
  destruct Ho as [(h0 & n & E & _ & Eh & _) _ _ _].
  assert (Hc : constrained o = false) by (unfold constrained; rewrite O1, O2, O3, O4, O5; reflexivity).
  rewrite Hc, andb_false_r in Eh. rewrite (Eh eq_refl) in *. clear Eh hs.
  pose proof (ir_setup _ _ _ _ _ _ _ H) as HS.
  assert (Hc' : is_class = true -> class_ok S (map c_pts selfs)) by (rewrite Ep; exact (ir_class _ _ _ _ _ _ _ H)).
  pose proof (junctions_in_range S is_class o selfs HS Hnd Hc' s Hs) as HJ.
  assert (Hfu : (2 * length (c_pts s) - 3 < su_fuel S)%nat).
  { pose proof (ir_fuel _ _ _ _ _ _ _ H) as Hfu. rewrite <- Ep in Hfu.
    pose proof (length_concat_in (map c_pts selfs) (c_pts s) (in_map _ _ _ Hs)). lia. }
  rewrite <- Eo in *.
  exact (C69_thinner_than_textbook (line_world S (c_id s)) (su_ords S (c_id s)) s gs _ (su_fuel S) 0 h0 n distfn
    (world_i_ok S (c_id s) HS) (so_ords _ HS (c_id s)) Hl Hb HJ Hfu Es Eq HT O1 O2 O3 O4 O5 E).
Qed.

Theorem C69_thinner_in_output :
  forall {P} (lib : jsonlib P) S is_class o distfn input cinput docs constraints m,
  run_docs lib S is_class o (max_offset distfn) input cinput docs constraints -> linear_first docs m ->
  o_planar_self o = false -> o_avoid_self o = false -> o_geom o = false -> o_dist o = false -> o_dir o = false ->
  fle fzero (o_threshold o) = true ->
  exists outs, run lib S is_class o (max_offset distfn) (unlines input) (unlines cinput) = Ok outs /\
    writes_docs lib docs m outs (thinner_than_textbook distfn (o_threshold o)).
Proof.
  intros P lib S is_class o distfn input cinput docs gs m H Hm O1 O2 O3 O4 O5 HT.
  destruct (docs_in_run lib S is_class o _ input cinput docs gs H) as (selfs & Hr & Hw & _).
  destruct (Hw m Hm) as (outs & E & W). exists outs. split; [exact E|]. eapply writes_docs_impl; [|exact W].
  intros pts k _. exact (line_thinner _ _ _ _ _ _ _ pts k Hr O1 O2 O3 O4 O5 HT).
Qed.

(** [zig] at threshold 4: the textbook algorithm splits at vertex 1 only; keeping vertex 3 as well is
    not thinner. *)
Example C69_case :
  run_docs ex_lib exB_setup true free_opts toy_score mixed_input [str "p"] mixed_docs [ex_constraint] /\ linear_first mixed_docs 2 /\
  match run ex_lib exB_setup true free_opts toy_score (unlines mixed_input) (unlines [str "p"]) with
  | Ok outs => hd_error outs = Some (OFeat false (OLine (map flat (pick origin zig [0; 1; 4]))))
  | _ => False
  end /\ ~ thinner_than_textbook toy_ptseg (f_of_Z 4) zig [0; 1; 3; 4].
Proof.
  split; [apply mixed_run_docs; line_ok_compute (f_of_Z 4)|]. split; [exact mixed_first|]. split; [vm_compute; reflexivity|].
  intros (s0 & K & A & _).
  apply (C68_plain_is_textbook toy (fun k => Z.of_nat k) zig 0 toy_ptseg (f_of_Z 4) 20 0 s0) in K; [|cbn; lia|vm_compute; reflexivity|cbn; lia].
  vm_compute in K. injection K as <-. specialize (A 3 ltac:(cbn; auto)). cbn in A. lia.
Qed.

(** ** C70 *)

(** Without constraint options, a line that stays within the threshold of the segment between
    its ends is written as that segment. *)
Theorem C70_nearly_straight_lines_become_segments :
  forall {P} (lib : jsonlib P) S is_class o distfn input cinput docs constraints m,
  run_docs lib S is_class o (max_offset distfn) input cinput docs constraints -> linear_first docs m ->
  o_planar_self o = false -> o_avoid_self o = false -> o_geom o = false -> o_dist o = false -> o_dir o = false ->
  fle fzero (o_threshold o) = true ->
  exists outs, run lib S is_class o (max_offset distfn) (unlines input) (unlines cinput) = Ok outs /\
    writes_docs lib docs m outs (fun pts s => nearly_straight distfn (o_threshold o) pts -> s = [0; zlen pts - 1]).
Proof.
  intros P lib S is_class o distfn input cinput docs gs m H Hm O1 O2 O3 O4 O5 HT.
  destruct (docs_in_run lib S is_class o _ input cinput docs gs H) as (selfs & Hr & Hw & _).
  destruct (Hw m Hm) as (outs & E & W). exists outs. split; [exact E|]. eapply writes_docs_impl; [|exact W].
  intros pts k _ Hk Hn. pose proof Hk as (s & hs & Hs & Ep & Ho & Ek).
  pose proof (lk_two _ _ (proj2 (ir_made _ _ _ _ _ _ _ Hr s Hs))) as H2. rewrite Ep in H2.
  destruct (line_thinner _ _ _ _ _ _ _ pts k Hr O1 O2 O3 O4 O5 HT Hk) as (s0 & Ht & Hsub & _).
  assert (Es : s0 = [0; zlen pts - 1]) by (apply (textbook_unique _ _ _ _ _ _ Ht); apply tb_keep_ends; exact Hn). subst s0.
  subst pts. destruct Ho as [_ Htl _ _]. destruct (point_set_tiling hs (c_pts s) H2 Htl) as (I1 & I2 & I3 & _).
  subst k. unfold simple_set in *. apply increasing_ext; [exact I1| |].
  { constructor; [constructor; constructor|]. constructor; [unfold zlen; lia|constructor]. }
  intros x. split; [apply Hsub|]. intros [<- |[<- |[]]].
  - destruct (point_set hs) as [|y l]; cbn in I2; [lia|]. left; exact I2.
  - rewrite <- I3. destruct (point_set hs) as [|y l] eqn:El; [cbn in I2; lia|]. rewrite <- El in *.
    destruct (exists_last (l := point_set hs)) as (l' & z & Ez); [congruence|]. rewrite Ez, last_last. apply in_or_app. right; left; reflexivity.
Qed.

Definition wide_opts : opts := Opts finf fzero fzero false false false false false false.
Example C70_case :
  run_docs ex_lib exB_setup true wide_opts toy_score mixed_input [str "p"] mixed_docs [ex_constraint] /\ linear_first mixed_docs 2 /\
  nearly_straight toy_ptseg finf zig /\ ~ nearly_straight toy_ptseg (f_of_Z 4) zig /\
  match run ex_lib exB_setup true wide_opts toy_score (unlines mixed_input) (unlines [str "p"]) with
  | Ok outs => hd_error outs = Some (OFeat false (OLine (map flat (pick origin zig [0; 4]))))
  | _ => False
  end.
Proof.
  split; [apply mixed_run_docs; line_ok_compute finf|]. split; [exact mixed_first|]. split; [|split; [|vm_compute; reflexivity]].
  - intros m _. destruct (toy_ptseg _ _ _) as [[]|[]| |[]]; reflexivity.
  - intros H. specialize (H 1 ltac:(vm_compute; auto)). vm_compute in H. discriminate.
Qed.

(** ** C71 *)

(** A threshold that is negative or NaN: however long it runs, with or without the class
    option and whatever the other options, the program does not finish if there is a line to simplify. *)
Theorem C71_bad_threshold_never_ends :
  forall {P} (lib : jsonlib P) S is_class o distfn input cinput docs constraints,
  readable lib S input cinput docs constraints ->
  flat_map doc_parts docs <> [] -> Forall (fun c => 2 <= zlen c) (flat_map doc_parts docs) ->
  fle fzero (o_threshold o) = false ->
  run lib S is_class o (max_offset distfn) (unlines input) (unlines cinput) = NoFuel.
Proof.
  intros P lib S is_class o distfn input cinput docs gs [HS Hi1 (toks & Hi2 & Hr) Hgeo Hc1 (ctoks & cdocs & Hc2 & Hcr & Hcg & Hgs) Hg] Hne Hlen HT.
  unfold run. rewrite (tokens_of input toks Hi1 Hi2), (tokens_of cinput ctoks Hc1 Hc2).
  rewrite (parse_constraints_spec lib ctoks cdocs Hcr Hcg), Hgs.
  unfold parse_input. rewrite (parse_from_spec lib toks docs Hr 0 Hgeo). cbn [bind].
  assert (Elines : map pl_pts (polylines_from lib 0 docs) = map (map (jl_point lib)) (flat_map doc_parts docs)).
  { rewrite polylines_pts, flat_parts. reflexivity. }
  pose proof HS as [HW _ _ _ _ _].
  destruct (forest_spec (su_world S) (su_ids S) gs o (max_offset distfn) (lb_rtree _ HW) Hg (polylines_from lib 0 docs) 0) as (selfs & E & Hs & _).
  rewrite E. cbn [bind]. 
  destruct Hs as [|p s plns selfs (A1 & A2 & A3 & A4 & _) Hs].
  { exfalso. apply Hne. symmetry in Elines. apply map_eq_nil in Elines. exact Elines. }
  assert (H2 : (2 <= length (c_pts s))%nat).
  { rewrite A1. cbn [map] in Elines. destruct (flat_map doc_parts docs) as [|c cs]; [discriminate|].
    cbn [map] in Elines. injection Elines as Ep _. rewrite Ep, map_length. inversion Hlen; subst. unfold zlen in *. lia. }
  assert (K : forall J, simplify_instances (su_world S) (su_gens S) (su_ords S) J (su_fuel S) (s :: selfs) = NoFuel).
  { intros J. cbn [simplify_instances]. unfold simplify. rewrite A2, A3, A4. cbn [w_geom w_gen].
    rewrite C02_never_ends by assumption. reflexivity. }
  destruct is_class.
  - unfold simplify_feature_class. rewrite K. reflexivity.
  - rewrite K. reflexivity.
Qed.

Definition minus_opts : opts := Opts (f_of_Z (-1)) fzero fzero true false true true true true.
Example C71_case :
  readable ex_lib exB_setup mixed_input [str "p"] mixed_docs [ex_constraint] /\
  flat_map doc_parts mixed_docs <> [] /\ Forall (fun c => 2 <= zlen c) (flat_map doc_parts mixed_docs) /\
  fle fzero (o_threshold minus_opts) = false.
Proof.
  assert (H : run_docs ex_lib exB_setup false free_opts toy_score mixed_input [str "p"] mixed_docs [ex_constraint])
    by (apply mixed_run_docs; line_ok_compute (f_of_Z 4)).
  split; [destruct H; split; assumption|]. split; [vm_compute; discriminate|]. split; [|reflexivity].
  repeat (apply Forall_cons; [vm_compute; discriminate|]). constructor.
Qed.

Print Assumptions C66_class_option_alone_changes_nothing.
Print Assumptions C67_class_option_only_adds_vertices.
Print Assumptions C68_plain_is_textbook.
Print Assumptions C68_squared_is_textbook.
Print Assumptions C69_thinner_than_textbook.
Print Assumptions C69_thinner_in_output.
Print Assumptions C70_nearly_straight_lines_become_segments.
Print Assumptions C71_bad_threshold_never_ends.
Print Assumptions C72_lines_apart_do_not_interact.
