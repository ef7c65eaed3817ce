(** Claim C96: what simplifying a line keeps, described step by step (Spec_Exact.v), for all options but
    avoid_self. *)
From Coq Require Import QArith Ascii String.
From Verif Require Import M_Base M_Float M_Rng M_Geom M_Offset M_Node M_Decompose M_Hdb M_Knn M_Lnr M_Relate M_Deform M_Constrain M_ConstDP
  M_Text M_IO Spec Spec_Hdb Spec_Lnr Spec_Relate Spec_ConstDP Spec_Text Spec_IO Spec_Run Spec_Out Spec_Docs Spec_Modes Spec_Plane Spec_Move Spec_Exact
  P_Base P_Float P_Decompose P_Split P_Node P_HdbHist P_HdbLoad P_Knn P_ConstDP P_Constrain P_Aggregate P_Simplify P_Class P_Ref P_Twin P_IO P_Run P_Out P_Docs
  P_Plane P_Move P_MovePlane P_Exact
  P_Text Toy Toy_Box Toy_Plane Properties_Relate Properties_ConstDP Properties_IO Properties_Run Properties_Docs Properties_Twin Properties_Plane Properties_Lnr Properties_Modes
  Properties_Move.
Open Scope Z_scope.

(** ** C96 *)

(** One line with its constraints: a list of vertices is the result iff the description gives it. *)
Theorem C96_exact :
  forall (W : world) ord (self : cdp) constraints verts fuel ctr dist,
  let L := w_geom W in let o := c_opts self in let pts := c_pts self in
  ready W ord self constraints verts fuel -> neighbours_meet L pts ->
  c_score self = max_offset dist -> c_sq self = None -> fle fzero (o_threshold o) = true -> o_avoid_self o = false ->
  forall s, exact_result L o dist constraints pts (forced_vertices W self verts) s <->
    exists hs n, simplify W ord self verts fuel ctr = Ok (hs, n) /\ s = simple_set hs.
Proof.
  intros W ord self cs verts fuel ctr dist L o pts [A1 A2 A3 A4 A5 A6 A7 A8 A9] Hm Es Eq HT Hav.
  destruct (one_run W ord self cs cs verts fuel ctr) as (hs & n & R & E & HR & Hr); auto; [intros r g _ _; tauto|intros K c Hin; apply (A9 K c Hin)|].
  pose proof (one_setting W self cs (fun _ => True) A1 A3 A4 (fun _ => I)) as St.
  destruct (simplify_spec W self _ ord A2 St (lk_two _ _ A3) (lk_splits _ _ A3) verts fuel ctr A5 A6) as (hs0 & n0 & E0 & Hi & _).
  rewrite E in E0. injection E0 as <- <-. pose proof (line_tiles _ _ _ _ _ Hi) as Ht.
  pose proof (lk_score _ _ A3) as Hsc. rewrite Es, Eq in HR, Hsc. cbn [dp_score dp_relation] in HR, Hsc.
  assert (Hfollow : forall a b, piece pts a -> piece pts b -> rJ a = rI b \/ rJ b = rI a -> r_near L pts a b = true).
  { intros a b Ha Hb Hab. destruct (Hm a b Ha Hb Hab) as [X1 X2]. unfold r_near, hl, create_node. cbn [n_mbr n_geom].
    unfold piece_hull, points_of in X1, X2. unfold cpts, sub_coords. cbn [cidxs cpnts]. rewrite X1, X2. rewrite andb_true_r. cbn [andb].
    apply negb_true_iff. destruct (rng_eqb b a) eqn:Er; [|reflexivity]. apply P_Deform.rng_eqb_eq in Er. subst b. destruct Ha as (_ & Ha & _). lia. }
  destruct (result_exact L o dist cs pts (w_lnr W) verts HT Hsc (lk_two _ _ A3) Hfollow A5 (fun K c Hin => proj2 (A9 K c Hin)) Hav R HR) as (s & Hs & Hp & Hin).
  change (exact_result L o dist cs pts (forced_vertices W self verts) s) in Hs.
  assert (Ess : simple_set hs = s).
  { apply (simple_set_tiles hs s 0 (zlen pts - 1)); auto; [pose proof (lk_two _ _ A3); unfold zlen, pts; lia|]. rewrite Hr. exact Hp. }
  intros s'. split.
  - intros Hs'. exists hs, n. split; [exact E|]. rewrite Ess. eapply exact_unique; eauto.
  - intros (hs' & n' & E' & ->). rewrite E in E'. injection E' as <- <-. rewrite Ess. exact Hs.
Qed.

(** In a run over files whose geometry library answers questions about the plane correctly: of every line
    exactly those vertices are written. *)
Theorem C96_in_the_plane :
  forall {P} (lib : jsonlib P) (S : setup) o dist input cinput docs constraints m D,
  let lines := map (map (jl_point lib)) (flat_map doc_parts docs) in
  let score := max_offset dist in
  run_docs lib S false o score input cinput docs constraints -> linear_first docs m ->
  plane_run S D o lines constraints -> Forall (Forall machine_pt) lines ->
  is_nan (o_min_dist o) = false -> fle fzero (o_threshold o) = true -> o_avoid_self o = false ->
  exists outs, run lib S false o score (unlines input) (unlines cinput) = Ok outs /\
    writes_docs lib docs m outs
      (fun pts s => exact_result (w_geom (su_world S)) o dist constraints pts
         (forced_vertices (su_world S) (proto o score pts) []) s).
Proof.
  intros P lib S o dist input cinput docs cs m D lines score H Hm Hp Hmach Hnan HT Hav.
  destruct (C57_any_documents lib S o score input cinput docs cs m H Hm) as (outs & E & W). exists outs. split; [exact E|].
  eapply writes_docs_impl; [|exact W]. intros pts k Hin (id & db & hs & n & Eb & Er & ->). cbv zeta in *.
  pose proof (rd_ok _ _ _ _ _ _ _ _ _ H) as Hlo. rewrite Forall_forall in Hlo. specialize (Hlo pts Hin).
  rewrite Forall_forall in Hmach. specialize (Hmach pts Hin).
  assert (Hsize : (length pts <= length (concat lines))%nat).
  { clear - Hin. fold lines in Hin. clearbody lines. induction lines as [|x ls IHl]; [destruct Hin|]. cbn [concat]. rewrite app_length.
    destruct Hin as [<- |Hin]; [lia|specialize (IHl Hin); lia]. }
  pose proof (Spec_Docs.rd_fuel _ _ _ _ _ _ _ _ _ H) as Hfuel.
  assert (F1 : (2 * length pts - 3 < su_fuel S)%nat) by (clear - Hsize Hfuel; fold lines in Hfuel; lia).
  pose proof (plane_ready S D id pts o score db cs _ (rd_setup _ _ _ _ _ _ _ _ _ H) Hp Hin Hlo Eb (rd_boxes _ _ _ _ _ _ _ _ _ H) F1 Hnan) as R1.
  refine (proj2 (C96_exact _ _ _ cs [] _ 0%nat dist R1 _ eq_refl eq_refl HT Hav _) _).
  - intros r q Hr Hq Hrq. pose proof (plane_sound_boxes _ D pts [] (pr_lib _ _ _ _ _ Hp) Hmach (Forall_nil _)) as [B1 B2 _].
    apply (B1 r q Hr Hq). apply (B2 r q Hr Hq Hrq).
  - exists hs, n. split; [exact Er|reflexivity].
Qed.

(** ** Cases *)

(** A line for which every step counts: Douglas-Peucker keeps 0, 1, 2, 3 and 8; vertex 4 is forced; the chord of 4 and 8
    misses the constraint the line touches, so that 6 is put back; the segment 3-4 is merged with the part before it. *)
Definition wave : list point := [P2 0 0; P2 2 9; P2 4 (-3); P2 6 8; P2 7 8; P2 9 3; P2 12 (-2); P2 13 5; P2 20 0].
Definition wave_opts : opts := Opts (f_of_Z 6) fzero fzero true true false true true true.
Definition wave_ctx : list geometry := [GPoint (P2 12 (-1))].
Definition wave_db : hdb := Eval vm_compute in get new_hdb_default (build_context_db boxy plain_oracle 7 wave_ctx).
Definition wave_dp : cdp := Cdp 7 wave wave_opts toy_score None wave_db.

Example C96_case :
  ready exB in_turn wave_dp wave_ctx [4] 40 /\ neighbours_meet boxy wave /\
  c_score wave_dp = max_offset toy_ptseg /\ c_sq wave_dp = None /\ fle fzero (o_threshold wave_opts) = true /\ o_avoid_self wave_opts = false /\
  textbook toy_ptseg (o_threshold wave_opts) wave 0 8 [0; 1; 2; 3; 8] /\
  chord_ok boxy wave_opts wave_ctx wave 4 8 = false /\ may_replace boxy wave_opts toy_ptseg wave_ctx wave 2 4 = true /\
  exact_result boxy wave_opts toy_ptseg wave_ctx wave (forced_vertices exB wave_dp [4]) [0; 1; 2; 4; 6; 8].
Proof.
  assert (R : ready exB in_turn wave_dp wave_ctx [4] 40).
  { split; cbn [c_pts c_opts w_geom exB wave_dp].
    - exact exB_ok.
    - exact in_turn_ok.
    - line_ok_compute (f_of_Z 6).
    - split; [vm_compute; reflexivity|]. constructor; [vm_compute; repeat split; try reflexivity; discriminate|constructor].
    - constructor; [vm_compute; split; [discriminate|reflexivity]|constructor].
    - cbn; lia.
    - reflexivity.
    - intros r g _ Hg b Hw. apply boxy_box_dist; auto. destruct Hg as [<- |[]]. split; [discriminate|]. repeat constructor.
    - intros _ c Hc. split; [apply boxy_not_farther; split; [discriminate|repeat constructor]|].
      assert (Ec : self_intersections exB wave_dp ++ map (fun k => (nth (Z.to_nat k) wave origin, [k])) [4] = [(P2 7 8, [4])]) by (vm_compute; reflexivity).
      rewrite Ec in Hc. destruct Hc as [<- |[]]. intros r k Hr Hk Hin. cbn [snd In] in Hk. destruct Hk as [<- |[]].
      by_pieces r Hr; cbn [rI rJ] in Hin; try lia; vm_compute; reflexivity. }
  assert (M : neighbours_meet boxy wave).
  { intros r q Hr Hq H. apply pieces_all in Hr, Hq.
    assert (K : forallb (fun r => forallb (fun q => negb ((rJ r =? rI q) || (rJ q =? rI r)) ||
      boxes_meet (gl_bounds boxy (piece_hull boxy wave r)) (gl_bounds boxy (piece_hull boxy wave q)) &&
      fle (gl_dist boxy (piece_hull boxy wave q) (piece_hull boxy wave r)) epsilon_dist) (pieces_of (Datatypes.length wave))) (pieces_of (Datatypes.length wave)) = true)
      by (vm_compute; reflexivity).
    rewrite forallb_forall in K. specialize (K r Hr). cbv beta in K. rewrite forallb_forall in K. specialize (K q Hq). cbv beta in K.
    rewrite orb_true_iff, negb_true_iff, orb_false_iff, !Z.eqb_neq, andb_true_iff in K. destruct K as [[K1 K2]|K]; [tauto|exact K]. }
  split; [exact R|]. split; [exact M|]. do 4 (split; [reflexivity|]). split; [|split; [vm_compute; reflexivity|split; [vm_compute; reflexivity|]]].
  - change 8 with (zlen wave - 1). apply (C68_plain_is_textbook boxy (w_gen exB) wave 7 toy_ptseg _ 40 0); [cbn; lia|reflexivity|cbn; lia|].
    vm_compute. reflexivity.
  - apply (C96_exact exB in_turn wave_dp wave_ctx [4] 40 0 toy_ptseg R M eq_refl eq_refl eq_refl eq_refl).
    destruct (simplify exB in_turn wave_dp [4] 40 0) as [[hs n]| |] eqn:E; vm_compute in E; try discriminate E.
    injection E as <- <-. eexists _, _. split; [reflexivity|]. vm_compute. reflexivity.
Qed.

(** The files of C84_case, without the class option and avoid_self. *)
Definition tee_plain : opts := Opts (f_of_Z 40) fzero fzero true true false true true true.
Example C96_plane_case :
  let docs := [@DGeometry bool (jline tee)] in
  let lines := map (map (jl_point tee_lib)) (flat_map doc_parts docs) in
  run_docs tee_lib exP_setup false tee_plain (max_offset toy_ptseg) [str "l"] [str "p"] docs [GPoint tee_pin] /\ linear_first docs 1 /\
  plane_run exP_setup places tee_plain lines [GPoint tee_pin] /\ Forall (Forall machine_pt) lines /\
  is_nan (o_min_dist tee_plain) = false /\ fle fzero (o_threshold tee_plain) = true /\ o_avoid_self tee_plain = false.
Proof.
  cbv zeta. destruct C84_case as (H & Hl & Hp & _ & Hm & _). cbv zeta in H, Hl, Hp, Hm. destruct H as [A B C E F G I J K M N O Q].
  split; [|split; [exact Hl|split; [|split; [exact Hm|split; [reflexivity|split; reflexivity]]]]].
  - split; auto; try discriminate.
    assert (Et : map (map (jl_point tee_lib)) (flat_map doc_parts [@DGeometry bool (jline tee)]) = [tee]) by (vm_compute; reflexivity).
    rewrite Et. constructor; [line_ok_compute (f_of_Z 40)|constructor].
  - destruct Hp as [P1 P2 P3 P4]. split; auto.
Qed.

Print Assumptions C96_exact.
Print Assumptions C96_in_the_plane.
