(** Claim C97: what simplifying a line keeps, described step by step (Spec_Whole.v), for all options. *)
From Coq Require Import QArith Ascii String.
From Verif Require Import M_Base M_Float M_Rng M_Geom M_Offset M_Node M_Decompose M_Hdb M_Knn M_Lnr M_Relate M_Deform M_Constrain M_ConstDP
  M_Text M_IO Spec Spec_Hdb Spec_Lnr Spec_Relate Spec_Deform Spec_ConstDP Spec_Text Spec_IO Spec_Run Spec_Out Spec_Docs Spec_Modes Spec_Plane Spec_Move
  Spec_Exact Spec_Whole
  P_Base P_Float P_Decompose P_Split P_Node P_HdbHist P_HdbLoad P_Knn P_ConstDP P_Constrain P_Aggregate P_Simplify P_Class P_Ref P_Twin P_IO P_Run P_Out P_Docs
  P_Plane P_Move P_MovePlane P_Exact P_Whole
  P_Text Toy Toy_Box Toy_Plane Properties_Relate Properties_ConstDP Properties_IO Properties_Run Properties_Docs Properties_Twin Properties_Plane Properties_Lnr Properties_Modes
  Properties_Move Properties_Exact.
Open Scope Z_scope.

(** ** C97 *)

(** One line with its constraints: a list of vertices is the result iff the description gives it. *)
Theorem C97_exact :
  forall (W : world) ord (self : cdp) constraints verts fuel ctr dist,
  let L := w_geom W in let o := c_opts self in let pts := c_pts self in
  ready W ord self constraints verts fuel -> neighbours_meet L pts -> (forall p, In p pts -> same_place L p p) ->
  c_score self = max_offset dist -> c_sq self = None -> fle fzero (o_threshold o) = true ->
  forall s, whole_result L o dist constraints pts (forced_vertices W self verts) s <->
    exists hs n, simplify W ord self verts fuel ctr = Ok (hs, n) /\ s = simple_set hs.
Proof.
  intros W ord self cs verts fuel ctr dist L o pts [A1 A2 A3 A4 A5 A6 A7 A8 A9] Hm Hpl Es Eq HT.
  destruct (one_run W ord self cs cs verts fuel ctr) as (hs & n & R & E & HR & Hr); auto; [intros r g _ _; tauto|intros K c Hin; apply (A9 K c Hin)|].
  pose proof (one_setting W self cs (fun _ => True) A1 A3 A4 (fun _ => I)) as St.
  destruct (simplify_spec W self _ ord A2 St (lk_two _ _ A3) (lk_splits _ _ A3) verts fuel ctr A5 A6) as (hs0 & n0 & E0 & Hi & _).
  rewrite E in E0. injection E0 as <- <-. pose proof (line_tiles _ _ _ _ _ Hi) as Ht.
  pose proof (lk_score _ _ A3) as Hsc. rewrite Es, Eq in HR, Hsc. cbn [dp_score dp_relation] in HR, Hsc.
  assert (Hfollow : forall a b, piece pts a -> piece pts b -> rJ a = rI b \/ rJ b = rI a -> r_near L pts a b = true).
  { intros a b Ha Hb Hab. apply near_iff. split; [|exact (Hm a b Ha Hb Hab)]. intros ->. destruct Ha as (_ & Ha & _). lia. }
  destruct (result_whole L o dist cs pts (w_lnr W) verts HT Hsc (lk_two _ _ A3) (lb_touch _ A1) Hpl Hfollow A5 (fun K c Hin => proj2 (A9 K c Hin)) R HR)
    as (s & Hs & Hp & Hin).
  change (whole_result L o dist cs pts (forced_vertices W self verts) s) in Hs.
  assert (Ess : simple_set hs = s).
  { apply (simple_set_tiles hs s 0 (zlen pts - 1)); auto; [pose proof (lk_two _ _ A3); unfold zlen, pts; lia|]. rewrite Hr. exact Hp. }
  intros s'. split.
  - intros Hs'. exists hs, n. split; [exact E|]. rewrite Ess. eapply whole_unique; eauto.
  - intros (hs' & n' & E' & ->). rewrite E in E'. injection E' as <- <-. rewrite Ess. exact Hs.
Qed.

(** In a run over files whose geometry library answers questions about the plane correctly: of every line
    exactly those vertices are written. *)
Theorem C97_in_the_plane :
  forall {P} (lib : jsonlib P) (S : setup) o dist input cinput docs constraints m D,
  let lines := map (map (jl_point lib)) (flat_map doc_parts docs) in
  let score := max_offset dist in
  run_docs lib S false o score input cinput docs constraints -> linear_first docs m ->
  plane_run S D o lines constraints -> Forall (Forall machine_pt) lines ->
  is_nan (o_min_dist o) = false -> fle fzero (o_threshold o) = true ->
  exists outs, run lib S false o score (unlines input) (unlines cinput) = Ok outs /\
    writes_docs lib docs m outs
      (fun pts s => whole_result (w_geom (su_world S)) o dist constraints pts
         (forced_vertices (su_world S) (proto o score pts) []) s).
Proof.
  intros P lib S o dist input cinput docs cs m D lines score H Hm Hp Hmach Hnan HT.
  destruct (C57_any_documents lib S o score input cinput docs cs m H Hm) as (outs & E & W). exists outs. split; [exact E|].
  eapply writes_docs_impl; [|exact W]. intros pts k Hin (id & db & hs & n & Eb & Er & ->). cbv zeta in *.
  pose proof (rd_ok _ _ _ _ _ _ _ _ _ H) as Hlo. rewrite Forall_forall in Hlo. specialize (Hlo pts Hin).
  rewrite Forall_forall in Hmach. specialize (Hmach pts Hin).
  assert (Hsize : (length pts <= length (concat lines))%nat).
  { clear - Hin. fold lines in Hin. clearbody lines. induction lines as [|x ls IHl]; [destruct Hin|]. cbn [concat]. rewrite app_length.
    destruct Hin as [<- |Hin]; [lia|specialize (IHl Hin); lia]. }
  pose proof (Spec_Docs.rd_fuel _ _ _ _ _ _ _ _ _ H) as Hfuel.
  assert (F1 : (2 * length pts - 3 < su_fuel S)%nat) by (clear - Hsize Hfuel; fold lines in Hfuel; lia).
  pose proof (plane_ready S D id pts o score db cs _ (rd_setup _ _ _ _ _ _ _ _ _ H) Hp Hin Hlo Eb (rd_boxes _ _ _ _ _ _ _ _ _ H) F1 Hnan) as R1.
  refine (proj2 (C97_exact _ _ _ cs [] _ 0%nat dist R1 _ _ eq_refl eq_refl HT _) _).
  - intros r q Hr Hq Hrq. pose proof (plane_sound_boxes _ D pts [] (pr_lib _ _ _ _ _ Hp) Hmach (Forall_nil _)) as [B1 B2 _].
    apply (B1 r q Hr Hq). apply (B2 r q Hr Hq Hrq).
  - intros p Hpp. pose proof (pr_lines _ _ _ _ _ Hp) as Hnum. rewrite Forall_forall in Hnum. specialize (Hnum pts Hin).
    rewrite Forall_forall in Hnum. specialize (Hnum p Hpp). unfold same_place. cbn [w_geom].
    rewrite (pl_eq _ D (pr_lib _ _ _ _ _ Hp)) by exact Hnum. apply loc_eq_self. exact Hnum.
  - exists hs, n. split; [exact Er|reflexivity].
Qed.

(** ** Cases *)

(** A line that crosses itself.  Douglas-Peucker keeps 0, 3, 4 and 7.  The crossing of the chords 0-3 and 4-7 is farther
    than 4 from the old one, so that both parts are split.  The one is merged again; then the other cannot be merged, although its
    vertices are close to the chord, because of the first. *)
Example C97_case :
  let o := cross_opts 4 in let pts := c_pts (cross_dp 4) in
  ready exW in_turn (cross_dp 4) [] [] 20 /\ neighbours_meet toy pts /\ (forall p, In p pts -> same_place toy p p) /\
  c_score (cross_dp 4) = max_offset toy_ptseg /\ c_sq (cross_dp 4) = None /\ fle fzero (o_threshold o) = true /\ o_avoid_self o = true /\
  textbook toy_ptseg (o_threshold o) pts 0 7 [0; 3; 4; 7] /\
  must_split toy o [] pts [] [0; 3; 4; 7] (Rng 0 3) /\ must_split toy o [] pts [] [0; 3; 4; 7] (Rng 4 7) /\
  all_close o toy_ptseg pts 4 7 = true /\ chord_ok toy o [] pts 4 7 = true /\ ~ clear_of toy o [] pts [Rng 0 3; Rng 3 4] 4 7 /\
  whole_result toy o toy_ptseg [] pts (forced_vertices exW (cross_dp 4) []) [0; 3; 4; 6; 7].
Proof.
  intros o pts.
  assert (R : ready exW in_turn (cross_dp 4) [] [] 20).
  { split.
    - exact exW_ok.
    - exact in_turn_ok.
    - apply cross_ok.
    - split; [vm_compute; reflexivity|constructor].
    - constructor.
    - vm_compute. lia.
    - reflexivity.
    - intros r g _ [].
    - discriminate. }
  assert (M : neighbours_meet toy pts).
  { intros r q Hr Hq H. apply pieces_all in Hr, Hq.
    assert (K : forallb (fun r => forallb (fun q => negb ((rJ r =? rI q) || (rJ q =? rI r)) ||
      boxes_meet (gl_bounds toy (piece_hull toy pts r)) (gl_bounds toy (piece_hull toy pts q)) &&
      fle (gl_dist toy (piece_hull toy pts q) (piece_hull toy pts r)) epsilon_dist) (pieces_of (Datatypes.length pts))) (pieces_of (Datatypes.length pts)) = true)
      by (vm_compute; reflexivity).
    rewrite forallb_forall in K. specialize (K r Hr). cbv beta in K. rewrite forallb_forall in K. specialize (K q Hq). cbv beta in K.
    rewrite orb_true_iff, negb_true_iff, orb_false_iff, !Z.eqb_neq, andb_true_iff in K. destruct K as [[K1 K2]|K]; [tauto|exact K]. }
  assert (Pl : forall p, In p pts -> same_place toy p p).
  { assert (K : forallb (fun p => gl_eq2d toy p p) pts = true) by (vm_compute; reflexivity). rewrite forallb_forall in K. exact K. }
  pose proof (lb_touch _ exW_ok) as Ht. cbn [w_geom exW] in Ht.
  assert (P1 : piece pts (Rng 0 3)) by (unfold piece; cbn; lia). assert (P2 : piece pts (Rng 4 7)) by (unfold piece; cbn; lia).
  assert (C1 : forall v, v = Rng 0 3 \/ v = Rng 4 7 -> conflict toy o pts (Rng 0 3) (Rng 4 7) v).
  { intros v Hv. apply conflict_iff; auto. split; [reflexivity|]. split; [vm_compute; reflexivity|].
    destruct Hv as [-> | ->]; [left|right]; split; try reflexivity; vm_compute; reflexivity. }
  assert (C2 : conflict toy o pts (Rng 4 7) (Rng 0 3) (Rng 4 7)).
  { apply (conflict_iff toy o pts Ht Pl); [exact P2|exact P1|]. split; [reflexivity|]. split; [vm_compute; reflexivity|]. left. split; [vm_compute; reflexivity|reflexivity]. }
  assert (Mu : forall v, v = Rng 0 3 \/ v = Rng 4 7 -> must_split toy o [] pts [] [0; 3; 4; 7] v).
  { intros v Hv. split; [destruct Hv as [-> | ->]; cbn; auto|]. split; [destruct Hv as [-> | ->]; cbn; lia|].
    exists (Rng 0 3). split; [cbn; auto|]. split; [intros []|]. split; [split; vm_compute; congruence|]. right. exists (Rng 4 7). split; [cbn; auto|apply C1, Hv]. }
  split; [exact R|]. split; [exact M|]. split; [exact Pl|]. do 4 (split; [reflexivity|]). split.
  { change 7 with (zlen pts - 1) at 1. apply (C68_plain_is_textbook toy (w_gen exW) pts 7 toy_ptseg _ 40 0); [cbn; lia|reflexivity|cbn; lia|].
    vm_compute. reflexivity. }
  split; [auto|]. split; [auto|]. split; [vm_compute; reflexivity|]. split; [vm_compute; reflexivity|]. split.
  { intros (_ & K). apply (K (Rng 0 3) (Rng 4 7)); [cbn; auto|exact C2]. }
  apply (C97_exact exW in_turn (cross_dp 4) [] [] 20 0 toy_ptseg R M Pl eq_refl eq_refl eq_refl).
  destruct (simplify exW in_turn (cross_dp 4) [] 20 0) as [[hs n]| |] eqn:E; vm_compute in E; try discriminate E.
  injection E as <- <-. eexists _, _. split; [reflexivity|]. vm_compute. reflexivity.
Qed.

(** The files of C84_case, without the class option. *)
Example C97_plane_case :
  let docs := [@DGeometry bool (jline tee)] in
  let lines := map (map (jl_point tee_lib)) (flat_map doc_parts docs) in
  run_docs tee_lib exP_setup false tee_opts (max_offset toy_ptseg) [str "l"] [str "p"] docs [GPoint tee_pin] /\ linear_first docs 1 /\
  plane_run exP_setup places tee_opts lines [GPoint tee_pin] /\ Forall (Forall machine_pt) lines /\
  is_nan (o_min_dist tee_opts) = false /\ fle fzero (o_threshold tee_opts) = true /\ o_avoid_self tee_opts = true.
Proof.
  cbv zeta. destruct C84_case as (H & Hl & Hp & _ & Hm & _). cbv zeta in H, Hl, Hp, Hm. destruct H as [A B C E F G I J K M N O Q].
  split; [|split; [exact Hl|split; [exact Hp|split; [exact Hm|split; [reflexivity|split; reflexivity]]]]].
  split; auto; try discriminate.
Qed.

Print Assumptions C97_exact.
Print Assumptions C97_in_the_plane.
