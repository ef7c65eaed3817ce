(** Claims C64 and C65: what runs write for any documents; the claims about lines of C56-C63 for any
    documents.  Vocabulary: Spec_Docs.v, Spec_Out.v, Spec_Run.v. *)
From Coq Require Import Ascii String.
From Verif Require Import M_Base M_Float M_Rng M_Geom M_Offset M_Node M_Decompose M_Hdb M_Knn M_Lnr M_Homotopy M_Relate M_Constrain M_ConstDP
  M_Text M_IO Spec Spec_Hdb Spec_Lnr Spec_Relate Spec_ConstDP Spec_Text Spec_IO Spec_Run Spec_Out Spec_Docs
  P_Base P_Float P_Decompose P_Split P_Node P_Lnr P_Bag P_ConstDP P_Class P_Text P_IO P_Run P_Out P_Docs Toy Toy_Box
  Properties_Lnr Properties_Relate Properties_ConstDP Properties_IO Properties_Run Properties_Chord.
Open Scope Z_scope.

(** ** C64 *)

(** Input lines of any kind.  If a line without linear geometry comes before one with linear
    geometry, the run panics and writes nothing.  Otherwise the lines with linear geometry come
    first and each of them gives one feature, in order. *)
Theorem C64_any_documents :
  forall {P} (lib : jsonlib P) S is_class o score input cinput docs constraints,
  run_docs lib S is_class o score input cinput docs constraints ->
  (gap docs /\ run lib S is_class o score (unlines input) (unlines cinput) = Panic) \/
  (exists m outs, linear_first docs m /\
     run lib S is_class o score (unlines input) (unlines cinput) = Ok outs /\
     writes_docs lib docs m outs (fun _ _ => True)).
Proof.
  intros P lib S is_class o score input cinput docs gs H.
  destruct (docs_in_run lib S is_class o score input cinput docs gs H) as (selfs & _ & Hw & Hg).
  destruct (gap_or_first docs) as [K|(m & K)]; [left; auto|right].
  destruct (Hw m K) as (outs & E & W). exists m, outs. split; [exact K|]. split; [exact E|].
  eapply writes_docs_impl; [|exact W]. auto.
Qed.

(** The claims about the vertices of every line written hold for any documents. *)

Theorem C57_any_documents :
  forall {P} (lib : jsonlib P) S o score input cinput docs constraints m,
  run_docs lib S false o score input cinput docs constraints -> linear_first docs m ->
  exists outs, run lib S false o score (unlines input) (unlines cinput) = Ok outs /\
    writes_docs lib docs m outs (simplified_alone S o score constraints).
Proof.
  intros P lib S o score input cinput docs gs m H Hm.
  destruct (docs_in_run lib S false o score input cinput docs gs H) as (selfs & Hr & Hw & _).
  destruct (Hw m Hm) as (outs & E & W). exists outs. split; [exact E|]. eapply writes_docs_impl; [|exact W].
  intros pts k _. exact (line_alone _ _ _ _ _ _ pts k Hr).
Qed.

Theorem C59_any_documents :
  forall {P} (lib : jsonlib P) S is_class o score input cinput docs constraints m,
  run_docs lib S is_class o score input cinput docs constraints -> linear_first docs m ->
  fle fzero (o_min_dist o) = true ->
  Forall (geometry_ok (w_geom (su_world S)) constraints) (map (map (jl_point lib)) (flat_map doc_parts docs)) ->
  exists outs, run lib S is_class o score (unlines input) (unlines cinput) = Ok outs /\
    writes_docs lib docs m outs (honours (w_geom (su_world S)) o constraints).
Proof.
  intros P lib S is_class o score input cinput docs gs m H Hm Hmd Hg.
  destruct (docs_in_run lib S is_class o score input cinput docs gs H) as (selfs & Hr & Hw & _).
  destruct (Hw m Hm) as (outs & E & W). exists outs. split; [exact E|]. eapply writes_docs_impl; [|exact W].
  intros pts k Hin. rewrite Forall_forall in Hg. exact (line_honours _ _ _ _ _ _ _ pts k Hr Hmd (Hg pts Hin)).
Qed.

Theorem C60_any_documents :
  forall {P} (lib : jsonlib P) S is_class o distfn input cinput docs constraints m,
  run_docs lib S is_class o (max_offset distfn) input cinput docs constraints -> linear_first docs m ->
  o_planar_self o = false -> o_avoid_self o = false -> o_geom o = false -> o_dist o = false -> o_dir o = false ->
  fle fzero (o_threshold o) = true ->
  exists outs, run lib S is_class o (max_offset distfn) (unlines input) (unlines cinput) = Ok outs /\
    writes_docs lib docs m outs (within_threshold distfn (o_threshold o)).
Proof.
  intros P lib S is_class o distfn input cinput docs gs m H Hm O1 O2 O3 O4 O5 HT.
  destruct (docs_in_run lib S is_class o _ input cinput docs gs H) as (selfs & Hr & Hw & _).
  destruct (Hw m Hm) as (outs & E & W). exists outs. split; [exact E|]. eapply writes_docs_impl; [|exact W].
  intros pts k _. exact (line_threshold _ _ _ _ _ _ _ pts k Hr O1 O2 O3 O4 O5 HT).
Qed.

Theorem C56_any_documents_partial :
  forall {P} (lib : jsonlib P) S is_class o score input cinput docs constraints m,
  let lines := map (map (jl_point lib)) (flat_map doc_parts docs) in
  run_docs lib S is_class o score input cinput docs constraints -> linear_first docs m ->
  o_planar_self o = true ->
  (forall pts c, In pts lines ->
     In c (self_intersections (su_world S) (proto o score pts)) \/ (exists k, 0 <= k < zlen pts /\ c = (Spec_Out.vertex pts k, [k])) ->
     location_on_hulls (w_geom (su_world S)) pts c /\ boxes_not_farther (w_geom (su_world S)) pts c) ->
  exists outs, run lib S is_class o score (unlines input) (unlines cinput) = Ok outs /\
    writes_docs lib docs m outs (fun pts kept => forall k, forced_vertex S is_class o score lines pts k -> In k kept).
Proof.
  intros P lib S is_class o score input cinput docs gs m lines H Hm Hps Hg.
  destruct (docs_in_run lib S is_class o _ input cinput docs gs H) as (selfs & Hr & Hw & _).
  destruct (Hw m Hm) as (outs & E & W). exists outs. split; [exact E|]. eapply writes_docs_impl; [|exact W].
  intros pts kept Hin. exact (line_forced _ _ _ _ _ _ _ pts kept Hr Hps Hin (fun c => Hg pts c Hin)).
Qed.

(** The vertices that must survive, from the lines alone: visited twice by the line, an end of
    a segment crossed by another one of the line, or at a location shared within the class. *)
Definition must_survive (S : setup) (is_class : bool) (o : opts) (lines : list (list point)) (pts : list point) (k : Z) : Prop :=
  exists p, znth pts k = Some p /\
  ((exists k' q, znth pts k' = Some q /\ k' <> k /\ loc_eq p q = true /\ not_greatest pts p) \/
   (o_non_planar_self o = true /\ exists s t x, segments_cross (lo_segx (w_lnr (su_world S))) pts s t x /\ (k = s \/ k = s + 1)) \/
   (is_class = true /\ shared_in lines pts k /\ not_greatest (concat lines) p)).

(** The self-intersection finder of the world is faithful on a line. *)
Record finder_ok (W : world) (pts : list point) : Prop := {
  fo_sort : sorts (lo_sort (w_lnr W));
  fo_num : Forall num_pt pts;
  fo_eq : forall p q, In p pts -> In q pts -> gl_eq2d (w_geom W) p q = loc_eq p q;
  fo_near : finds_segments (lo_near (w_lnr W) pts) pts;
  fo_segx : segx_sym (lo_segx (w_lnr W))
}.

Theorem C56_shared_and_crossed_in_output_partial :
  forall {P} (lib : jsonlib P) S is_class o score input cinput docs constraints m,
  let W := su_world S in
  let lines := map (map (jl_point lib)) (flat_map doc_parts docs) in
  run_docs lib S is_class o score input cinput docs constraints -> linear_first docs m ->
  o_planar_self o = true ->
  Forall (finder_ok W) lines ->
  (forall pts c, In pts lines ->
     repeated_location pts c \/ (o_non_planar_self o = true /\ crossing_location (lo_segx (w_lnr W)) pts c) \/
     (exists k, 0 <= k < zlen pts /\ c = (Spec_Out.vertex pts k, [k])) ->
     location_on_hulls (w_geom W) pts c /\ boxes_not_farther (w_geom W) pts c) ->
  exists outs, run lib S is_class o score (unlines input) (unlines cinput) = Ok outs /\
    writes_docs lib docs m outs (fun pts kept => forall k, must_survive S is_class o lines pts k -> In k kept).
Proof.
  intros P lib S is_class o score input cinput docs gs m W lines H Hm Hps Hfo Hg. rewrite Forall_forall in Hfo.
  assert (Hfl : forall pts, In pts lines -> let out := self_intersections W (proto o score pts) in
    (forall c, In c out -> repeated_location pts c \/ (o_non_planar_self o = true /\ crossing_location (lo_segx (w_lnr W)) pts c)) /\
    (forall k, must_survive S is_class o lines pts k -> forced_vertex S is_class o score lines pts k)).
  { intros pts Hin out. destruct (Hfo pts Hin) as [F1 F2 F3 F4 F5].
    destruct (C19_flags_select (w_geom W) (lo_sort (w_lnr W)) (lo_segx (w_lnr W)) (lo_near (w_lnr W) pts) true (o_non_planar_self o) pts
      F1 F2 F3 F4 F5) as (S1 & S2 & S3). split.
    - intros c Hc. destruct (S1 c Hc) as [(_ & R & _)|R]; auto.
    - intros k (p & Hk & Hwhy).
      assert (Hkr : 0 <= k < zlen pts /\ p = Spec_Out.vertex pts k).
      { unfold znth in Hk. destruct (k <? 0) eqn:E0; [discriminate|]. apply Z.ltb_ge in E0.
        assert (Z.to_nat k < length pts)%nat by (apply nth_error_Some; congruence). split; [unfold zlen; lia|].
        unfold Spec_Out.vertex. symmetry. apply nth_error_nth. exact Hk. }
      destruct Hkr as [Hkr Ep]. split; [exact Hkr|]. destruct Hwhy as [(k' & q & Hq & Hne & Hl & Hng)|[(Hon & s & t & x & Hx & Hks)|Hc]].
      + left. destruct (S2 eq_refl k p k' q Hk Hq Hne Hl Hng) as (c & Hc & _ & _ & Hin'). eauto.
      + left. destruct (S3 Hon s t x Hx) as (ks & Hc & _ & Hin'). exists (x, ks). split; [exact Hc|]. apply Hin'. tauto.
      + right. rewrite <- Ep. exact Hc. }
  destruct (C56_any_documents_partial lib S is_class o score input cinput docs gs m H Hm Hps) as (outs & E & Hwr).
  { intros pts c Hin Hc. apply (Hg pts c Hin). destruct Hc as [Hc|Hc]; [|auto]. destruct (proj1 (Hfl pts Hin) c Hc); auto. }
  exists outs. split; [exact E|]. eapply writes_docs_impl; [|exact Hwr].
  intros pts kept Hin Hk k Hms. apply Hk. exact (proj2 (Hfl pts Hin) k Hms).
Qed.

Theorem C63_any_documents :
  forall {P} (lib : jsonlib P) S is_class o distfn input cinput docs constraints m,
  run_docs lib S is_class o (max_offset distfn) input cinput docs constraints -> linear_first docs m ->
  fle fzero (o_threshold o) = true ->
  exists outs, run lib S is_class o (max_offset distfn) (unlines input) (unlines cinput) = Ok outs /\
    writes_docs lib docs m outs (near_a_chord distfn (o_threshold o)).
Proof.
  intros P lib S is_class o distfn input cinput docs gs m H Hm HT.
  destruct (docs_in_run lib S is_class o _ input cinput docs gs H) as (selfs & Hr & Hw & _).
  destruct (Hw m Hm) as (outs & E & W). exists outs. split; [exact E|]. eapply writes_docs_impl; [|exact W].
  intros pts k _. exact (line_near _ _ _ _ _ _ _ pts k Hr HT).
Qed.

(** The file written for any documents can be read again: one feature for each of the first
    [m] documents, with the properties of its first feature that has a part and the written
    coordinates of the vertices kept. *)
Theorem C58_any_documents :
  forall {P} (lib : jsonlib P) S is_class o score input cinput docs constraints m write,
  run_docs lib S is_class o score input cinput docs constraints -> linear_first docs m ->
  (forall outs, run lib S is_class o score (unlines input) (unlines cinput) = Ok outs -> Forall (json_text lib write) outs) ->
  exists outs back plns,
    run lib S is_class o score (unlines input) (unlines cinput) = Ok outs /\
    parse_input lib (read_json_tokens (output_text write outs)) = Ok plns /\
    map pl_pts plns = map (map (jl_point lib)) (flat_map feature_parts back) /\
    Forall2 (reads lib) (read_json_tokens (output_text write outs)) (map DFeature back) /\
    length back = m /\
    forall i d, (i < m)%nat -> nth_error docs i = Some d -> exists g f kept,
      nth_error back i = Some g /\ first_linear (doc_features d) f /\ jf_props g = Some (props_or_empty lib f) /\
      Forall2 (fun h rows => Forall2 (fun c k => kept_with (fun _ _ => True) (map (jl_point lib) c) k) (feature_parts h) rows)
        (doc_features d) kept /\
      Forall2 (written (jl_zero lib)) (columns kept) (feature_parts g).
Proof.
  intros P lib S is_class o score input cinput docs gs m write H Hm Hwr.
  destruct (docs_in_run lib S is_class o score input cinput docs gs H) as (selfs & _ & Hw & _).
  destruct (Hw m Hm) as (outs & E & W). apply (writes_docs_impl lib docs m outs _ (fun _ _ => True)) in W; [|auto].
  destruct W as (El & Hf). specialize (Hwr outs E).
  assert (Ht : read_json_tokens (output_text write outs) = map write outs).
  { unfold output_text. rewrite join_unlines. apply tokens_of.
    - rewrite Forall_map. eapply Forall_impl; [|exact Hwr]. intros ot (A & _). exact A.
    - clear -Hwr. induction Hwr as [|ot outs (_ & B & C & _) H IH]; cbn [map]; constructor; assumption. }
  assert (Hreads : Forall2 (reads lib) (map write outs) (map DFeature (map written_feature outs))).
  { clear -Hwr. induction Hwr as [|ot outs (_ & _ & _ & D) H IH]; cbn [map]; constructor; assumption. }
  destruct (C49_linear_parts_become_polylines lib _ _ Hreads) as (plns & Ep & Epts & _).
  { apply Forall_forall. intros f Hin. apply in_flat_map in Hin. destruct Hin as (d & Hd & Hin).
    apply in_map_iff in Hd. destruct Hd as (f' & <- & Hf'). destruct Hin as [<- |[]].
    apply in_map_iff in Hf'. destruct Hf' as (ot & <- & _). discriminate. }
  exists outs, (map written_feature outs), plns. split; [exact E|]. rewrite Ht. split; [exact Ep|]. split.
  { rewrite Epts. f_equal. f_equal. generalize (map written_feature outs). intros l. induction l as [|x l IH]; [reflexivity|].
    cbn. rewrite IH. reflexivity. }
  split; [exact Hreads|]. split; [rewrite map_length; exact El|].
  intros i d Hi Hd. destruct (Hf i d Hi Hd) as (ot & f & kept & Eo & Hfl & Eprops & Hk & Hwp).
  exists (written_feature ot), f, kept. split; [rewrite nth_error_map, Eo; reflexivity|]. split; [exact Hfl|].
  split; [cbn [written_feature jf_props]; rewrite Eprops; reflexivity|]. split; [exact Hk|].
  unfold feature_parts, written_feature. cbn [jf_geom]. destruct Hwp as [pts cs Hcs|parts css _ Hcss]; cbn; [|exact Hcss].
  constructor; [exact Hcs|constructor].
Qed.

(** A line, a collection of two features with three lines, and a point: two features are
    written, the second with the first lines of both features of the collection before the
    second line of its first feature.  With the point first the run panics. *)
Definition mixed_input : list bytes := [str " l "; str ""; str "c"; str "p"].
Definition mixed_docs : list (document bool) := [ex_doc_l; DCollection ex_coll; DGeometry (jpoint (P2 3 4))].
Definition gap_input : list bytes := [str "p"; str "l"].
Definition gap_docs : list (document bool) := [DGeometry (jpoint (P2 3 4)); ex_doc_l].

Lemma ex_run_docs is_class o input docs :
  Forall (fun l => ~ In newline l) input ->
  (exists toks, lines_kept input toks /\ Forall2 (reads ex_lib) toks docs) ->
  Forall has_geometry (flat_map doc_features docs) -> zlen docs < 2 ^ 63 ->
  Forall (fun f => zlen (feature_parts f) < 2 ^ 63) (flat_map doc_features docs) ->
  Forall (fun pts => pts = zig \/ pts = feat2_pts) (map (map (jl_point ex_lib)) (flat_map doc_parts docs)) ->
  (2 * length (concat (map (map (jl_point ex_lib)) (flat_map doc_parts docs))) + 2 <= 60)%nat ->
  line_ok boxy (proto o toy_score zig) -> line_ok boxy (proto o toy_score feat2_pts) ->
  run_docs ex_lib exB_setup is_class o toy_score input [str "p"] docs [ex_constraint].
Proof.
  intros H1 H2 H3 H4 H5 H6 H7 Kz K2. split.
  - exact ex_json_ok.
  - exact exB_setup_ok.
  - exact H1.
  - exact H2.
  - exact H3.
  - exact H4.
  - exact H5.
  - repeat constructor; vm_compute; intros H; repeat (destruct H as [H|H]; [discriminate H|]); exact H.
  - exists [str "p"], [DGeometry (jpoint (P2 3 4))]. split.
    { assert (K : lines_kept [str "p"] (keep [str "p"])) by apply keep_kept. vm_compute in K. exact K. }
    split; [constructor; [exact ex_reads_p|constructor]|]. split; [|vm_compute; reflexivity].
    constructor; [|constructor]. vm_compute. discriminate.
  - constructor; [|constructor]. vm_compute. repeat split; try reflexivity; discriminate.
  - eapply Forall_impl; [|exact H6]. intros pts [-> | ->]; assumption.
  - intros _. split.
    + exact v_sort_sorts.
    + apply Forall_forall. intros p Hp. apply in_concat in Hp. destruct Hp as (pts & Hin & Hp). rewrite Forall_forall in H6.
      destruct (H6 pts Hin) as [-> | ->]; vm_compute in Hp; repeat (destruct Hp as [<- |Hp]; [split; reflexivity|]); destruct Hp.
    + intros p q _ _. reflexivity.
  - exact H7.
Qed.

Lemma mixed_run_docs is_class o : line_ok boxy (proto o toy_score zig) -> line_ok boxy (proto o toy_score feat2_pts) ->
  run_docs ex_lib exB_setup is_class o toy_score mixed_input [str "p"] mixed_docs [ex_constraint].
Proof.
  apply ex_run_docs.
  - repeat constructor; vm_compute; intros H; repeat (destruct H as [H|H]; [discriminate H|]); exact H.
  - exists [str "l"; str "c"; str "p"]. split.
    { assert (K : lines_kept mixed_input (keep mixed_input)) by apply keep_kept. vm_compute in K. exact K. }
    constructor; [exact ex_reads_l|]. constructor; [exact ex_reads_c|]. constructor; [exact ex_reads_p|constructor].
  - repeat constructor; discriminate.
  - vm_compute. reflexivity.
  - repeat constructor.
  - repeat (apply Forall_cons; [vm_compute; auto|]). constructor.
  - vm_compute. lia.
Qed.
Lemma mixed_first : linear_first mixed_docs 2.
Proof.
  split; [cbn; lia|]. intros [|[|[|i]]] d H; try (injection H as <-).
  - split; [lia|vm_compute; discriminate].
  - split; [lia|vm_compute; discriminate].
  - split; [intros K; destruct K; vm_compute; reflexivity|lia].
  - destruct i; discriminate.
Qed.

Example C64_case :
  run_docs ex_lib exB_setup true fc_opts toy_score mixed_input [str "p"] mixed_docs [ex_constraint] /\
  linear_first mixed_docs 2 /\
  match run ex_lib exB_setup false fc_opts toy_score (unlines mixed_input) (unlines [str "p"]) with
  | Ok outs => outs = [OFeat false (OLine (map flat (pick origin zig [0; 1; 4])));
      OFeat true (OMulti [map flat (pick origin zig [0; 1; 4]); map flat (pick origin feat2_pts [0; 2]); map flat (pick origin feat2_pts [0; 2])])]
  | _ => False
  end /\
  run_docs ex_lib exB_setup true fc_opts toy_score gap_input [str "p"] gap_docs [ex_constraint] /\ gap gap_docs.
Proof.
  split; [apply mixed_run_docs; line_ok_compute (f_of_Z 10)|]. split; [exact mixed_first|]. split; [vm_compute; reflexivity|]. split.
  - apply ex_run_docs; try (line_ok_compute (f_of_Z 10)).
    + repeat constructor; vm_compute; intros H; repeat (destruct H as [H|H]; [discriminate H|]); exact H.
    + exists [str "p"; str "l"]. split.
      { assert (K : lines_kept gap_input (keep gap_input)) by apply keep_kept. vm_compute in K. exact K. }
      constructor; [exact ex_reads_p|]. constructor; [exact ex_reads_l|constructor].
    + repeat constructor; discriminate.
    + vm_compute. reflexivity.
    + repeat constructor.
    + repeat (apply Forall_cons; [vm_compute; auto|]). constructor.
    + vm_compute. lia.
  - exists 0%nat, 1%nat, (DGeometry (jpoint (P2 3 4))), ex_doc_l. split; [lia|]. split; [reflexivity|]. split; [reflexivity|].
    split; [vm_compute; reflexivity|vm_compute; discriminate].
Qed.

(** A writer and a reader of the two features written in C64_case. *)
Definition mixed_outs : list (@ofeature bool) :=
  [OFeat false (OLine (map flat (pick origin zig [0; 1; 4])));
   OFeat true (OMulti [map flat (pick origin zig [0; 1; 4]); map flat (pick origin feat2_pts [0; 2]); map flat (pick origin feat2_pts [0; 2])])].
Definition mixed_lib_rw : jsonlib bool := JsonLib
  (fun s => if bytes_eqb s (str "{1}") || bytes_eqb s (str "{2}") then Some (named "Feature") else ex_type s)
  (jl_geometry ex_lib)
  (fun s => if bytes_eqb s (str "{1}") then option_map written_feature (nth_error mixed_outs 0)
            else if bytes_eqb s (str "{2}") then option_map written_feature (nth_error mixed_outs 1) else jl_feature ex_lib s)
  (jl_collection ex_lib) (jl_marshal ex_lib) (jl_unmarshal ex_lib) (jl_empty ex_lib) (jl_point ex_lib) (jl_zero ex_lib).
Example C58_docs_case :
  run_docs mixed_lib_rw exB_setup false fc_opts toy_score mixed_input [str "p"] mixed_docs [ex_constraint] /\
  linear_first mixed_docs 2 /\
  (forall outs, run mixed_lib_rw exB_setup false fc_opts toy_score (unlines mixed_input) (unlines [str "p"]) = Ok outs ->
     Forall (json_text mixed_lib_rw ex_write) outs) /\
  output_text ex_write mixed_outs = str "{1}" ++ newline :: str "{2}".
Proof.
  split; [|split; [exact mixed_first|split]].
  - assert (M : run_docs ex_lib exB_setup false fc_opts toy_score mixed_input [str "p"] mixed_docs [ex_constraint])
      by (apply mixed_run_docs; line_ok_compute (f_of_Z 10)).
    destruct M as [A B C _ E F G H _ J K L N]. split; auto.
    + destruct A as [A1 A2 A3]. split; assumption.
    + exists [str "l"; str "c"; str "p"]. split.
      { assert (Q : lines_kept mixed_input (keep mixed_input)) by apply keep_kept. vm_compute in Q. exact Q. }
      constructor; [eapply R_geometry; [reflexivity|cbn; auto|reflexivity]|]. constructor; [apply R_collection; reflexivity|].
      constructor; [eapply R_geometry; [reflexivity|cbn; auto|reflexivity]|constructor].
    + exists [str "p"], [DGeometry (jpoint (P2 3 4))]. split.
      { assert (Q : lines_kept [str "p"] (keep [str "p"])) by apply keep_kept. vm_compute in Q. exact Q. }
      split; [constructor; [eapply R_geometry; [reflexivity|cbn; auto|reflexivity]|constructor]|]. split; [|vm_compute; reflexivity].
      constructor; [|constructor]. vm_compute. discriminate.
  - intros outs E. assert (E' : run mixed_lib_rw exB_setup false fc_opts toy_score (unlines mixed_input) (unlines [str "p"]) = Ok mixed_outs)
      by (vm_compute; reflexivity).
    rewrite E' in E. injection E as <-.
    assert (T : forall t : bytes, trim t = t -> trimmed t t) by (intros t Et; rewrite <- Et at 2; apply trim_spec).
    assert (B : forall c t, is_space c = false -> ~ blank (c :: t)).
    { intros c t Hc Hb. inversion Hb; subst. apply is_space_spec in H1. congruence. }
    repeat constructor.
    + vm_compute. intros H. repeat (destruct H as [H|H]; [discriminate H|]). exact H.
    + apply B. reflexivity.
    + apply T. reflexivity.
    + vm_compute. intros H. repeat (destruct H as [H|H]; [discriminate H|]). exact H.
    + apply B. reflexivity.
    + apply T. reflexivity.
  - reflexivity.
Qed.

(** A file with the line of C28_shared_case. *)
Definition knot_lib : jsonlib bool := JsonLib
  (jl_type ex_lib) (fun s => if bytes_eqb s (str "l") then Some (jline knot) else Some (jpoint (P2 3 4)))
  (jl_feature ex_lib) (jl_collection ex_lib) (jl_marshal ex_lib) (jl_unmarshal ex_lib) (jl_empty ex_lib) (jl_point ex_lib) (jl_zero ex_lib).
Definition exS_setup : setup := Setup exS (fun k => Z.of_nat k) ex_gens (fun _ => in_turn) in_turn 60.
Lemma exS_setup_ok : setup_ok exS_setup.
Proof. destruct exB_setup_ok as [_ B C D E F]. split; [exact exS_ok|exact B|exact C|exact D|exact E|exact F]. Qed.
Example C56_shared_case :
  let docs := [@DGeometry bool (jline knot)] in
  run_docs knot_lib exS_setup true knot_opts toy_score [str "l"] [str "p"] docs [ex_constraint] /\ linear_first docs 1 /\
  Forall (finder_ok exS) [knot] /\
  (forall c, repeated_location knot c \/ (o_non_planar_self knot_opts = true /\ crossing_location bow_segx knot c) \/
     (exists k, 0 <= k < zlen knot /\ c = (Spec_Out.vertex knot k, [k])) ->
     location_on_hulls boxy knot c /\ boxes_not_farther boxy knot c) /\
  must_survive exS_setup true knot_opts [knot] knot 2 /\ must_survive exS_setup true knot_opts [knot] knot 4 /\
  run knot_lib exS_setup true knot_opts toy_score (unlines [str "l"]) (unlines [str "p"]) =
    Ok [OFeat false (OLine (map flat (pick origin knot [0; 1; 2; 3; 4; 6])))].
Proof.
  destruct C28_shared_case as (_ & _ & Hl & _ & _ & _ & Hn & _ & _ & _ & Hg & _). cbv zeta.
  assert (Hp : map (map (jl_point knot_lib)) (flat_map doc_parts [@DGeometry bool (jline knot)]) = [knot]) by (vm_compute; reflexivity).
  split; [|split; [|split; [|split; [|split; [|split]]]]].
  - split; try rewrite Hp.
    + destruct ex_json_ok as [A B C]. split; assumption.
    + exact exS_setup_ok.
    + repeat constructor; vm_compute; intros H; repeat (destruct H as [H|H]; [discriminate H|]); exact H.
    + exists [str "l"]. split.
      { assert (K : lines_kept [str "l"] (keep [str "l"])) by apply keep_kept. vm_compute in K. exact K. }
      constructor; [eapply R_geometry; [reflexivity|cbn; tauto|reflexivity]|constructor].
    + repeat constructor; discriminate.
    + vm_compute. reflexivity.
    + repeat constructor.
    + repeat constructor; vm_compute; intros H; repeat (destruct H as [H|H]; [discriminate H|]); exact H.
    + exists [str "p"], [DGeometry (jpoint (P2 3 4))]. split.
      { assert (K : lines_kept [str "p"] (keep [str "p"])) by apply keep_kept. vm_compute in K. exact K. }
      split; [constructor; [eapply R_geometry; [reflexivity|cbn; tauto|reflexivity]|constructor]|]. split; [|vm_compute; reflexivity].
      constructor; [|constructor]. vm_compute. discriminate.
    + constructor; [|constructor]. vm_compute. repeat split; try reflexivity; discriminate.
    + constructor; [line_ok_compute (f_of_Z 40)|constructor].
    + intros _. split; [exact v_sort_sorts| |reflexivity]. cbn [concat app]. rewrite app_nil_r. exact Hn.
    + vm_compute. lia.
  - split; [cbn; lia|]. intros [|i] d H; [|destruct i; discriminate]. injection H as <-. split; [lia|vm_compute; discriminate].
  - constructor; [|constructor]. split; [exact v_sort_sorts|exact Hn|reflexivity|apply scan_near_finds|exact (proj1 C19_flags_case)].
  - intros c Hc. destruct Hc as [Hc|[Hc|(k & Hk & ->)]]; [apply Hg; auto..|].
    split; [|apply boxy_not_farther; split; [discriminate|exact Hn]].
    intros r j Hr Hj Hin. cbn [fst snd In] in *. destruct Hj as [<- |[]]. change (zlen knot) with 7 in Hk.
    assert (K : In k (zseq 0 6)) by (apply zseq_in; lia). vm_compute in K.
    by_list K; by_pieces r Hr; cbn [rI rJ] in Hin; try lia; vm_compute; reflexivity.
  - exists (P2 4 0). split; [reflexivity|]. right; left. split; [reflexivity|]. exists 2, 0, (P2 2 2). split; [|lia].
    split; [unfold is_segment; vm_compute; split; discriminate|]. split; [unfold is_segment; vm_compute; split; discriminate|].
    split; [lia|]. split; [vm_compute; reflexivity|]. exists (InterPoint (P2 2 2) false false).
    split; [vm_compute; auto|]. split; [reflexivity|left; reflexivity].
  - exists (P2 4 4). split; [reflexivity|]. left. exists 1, (P2 4 4). split; [reflexivity|]. split; [lia|]. split; [vm_compute; reflexivity|].
    exists (P2 20 0). split; [vm_compute; tauto|vm_compute; reflexivity].
  - vm_compute. reflexivity.
Qed.

(** ** C65 *)

Lemma features_of_ok {P} (lib : jsonlib P) s fs : features_of lib s = Ok fs -> exists d, reads lib s d /\ doc_features d = fs.
Proof.
  unfold features_of. destruct (jl_type lib s) as [t|] eqn:Et; cbn [check bind]; [|discriminate].
  destruct (is_geometry_type t) eqn:Eg.
  { apply geometry_type_spec in Eg. destruct (jl_geometry lib s) as [g|] eqn:E; cbn [check bind]; [|discriminate].
    intros H. injection H as <-. exists (DGeometry g). split; [econstructor; eassumption|reflexivity]. }
  destruct (bytes_eqb t TFeature) eqn:Ef.
  { apply bytes_eqb_spec in Ef. destruct (jl_feature lib s) as [f|] eqn:E; cbn [check bind]; [|discriminate].
    intros H. injection H as <-. exists (DFeature f). split; [apply R_feature; [rewrite Et, Ef; reflexivity|exact E]|reflexivity]. }
  destruct (bytes_eqb t TFeatureCollection) eqn:Ec.
  { apply bytes_eqb_spec in Ec. destruct (jl_collection lib s) as [l|] eqn:E; cbn [check]; [|discriminate].
    intros H. injection H as <-. exists (DCollection l). split; [apply R_collection; [rewrite Et, Ec; reflexivity|exact E]|reflexivity]. }
  intros H. injection H as <-. exists DOther. split; [|reflexivity].
  apply geometry_type_false in Eg. apply bytes_eqb_false in Ef, Ec. eapply R_other; eassumption.
Qed.

Lemma mapM_ok_in {A B} (f : A -> res B) l ys : mapM f l = Ok ys -> forall x, In x l -> exists y, f x = Ok y.
Proof.
  revert ys. induction l as [|a l IH]; intros ys H x Hx; [destruct Hx|]. cbn [mapM] in H.
  destruct (f a) as [b| |] eqn:E; cbn [bind] in H; try discriminate. destruct (mapM f l) as [bs| |] eqn:E'; cbn [bind] in H; try discriminate.
  destruct Hx as [<- |Hx]; [eauto|]. eapply IH; eauto.
Qed.

Lemma parse_from_ok {P} (lib : jsonlib P) toks : forall i plns, parse_from lib i toks = Ok plns ->
  exists docs, Forall2 (reads lib) toks docs /\ Forall has_geometry (flat_map doc_features docs).
Proof.
  induction toks as [|t toks IH]; intros i plns H; [exists []; split; constructor|]. cbn [parse_from] in H.
  destruct (features_of lib t) as [fs| |] eqn:Ef; cbn [bind] in H; try discriminate.
  destruct (mapM (create_polylines lib i) fs) as [ls| |] eqn:Em; cbn [bind] in H; try discriminate.
  destruct (parse_from lib (i + 1) toks) as [rest| |] eqn:Er; cbn [bind] in H; try discriminate.
  destruct (features_of_ok lib t fs Ef) as (d & Hd & <-). destruct (IH _ _ Er) as (docs & Hr & Hg).
  exists (d :: docs). split; [constructor; assumption|]. cbn [flat_map]. apply Forall_app. split; [|exact Hg].
  apply Forall_forall. intros f Hf. destruct (mapM_ok_in _ _ _ Em f Hf) as (y & Ey). unfold create_polylines in Ey.
  unfold has_geometry. destruct (jf_geom f); [discriminate|discriminate Ey].
Qed.
Lemma parse_constraints_ok {P} (lib : jsonlib P) toks : forall cs, parse_constraints lib toks = Ok cs ->
  exists docs, Forall2 (reads lib) toks docs /\ Forall has_geometry (flat_map doc_features docs).
Proof.
  induction toks as [|t toks IH]; intros cs H; [exists []; split; constructor|]. cbn [parse_constraints] in H.
  destruct (features_of lib t) as [fs| |] eqn:Ef; cbn [bind] in H; try discriminate.
  destruct (mapM (create_constraints lib) fs) as [ls| |] eqn:Em; cbn [bind] in H; try discriminate.
  destruct (parse_constraints lib toks) as [rest| |] eqn:Er; cbn [bind] in H; try discriminate.
  destruct (features_of_ok lib t fs Ef) as (d & Hd & <-). destruct (IH _ eq_refl) as (docs & Hr & Hg).
  exists (d :: docs). split; [constructor; assumption|]. cbn [flat_map]. apply Forall_app. split; [|exact Hg].
  apply Forall_forall. intros f Hf. destruct (mapM_ok_in _ _ _ Em f Hf) as (y & Ey). unfold create_constraints in Ey.
  unfold has_geometry. destruct (jf_geom f); [discriminate|discriminate Ey].
Qed.
Lemma all_geoms_ok l gs : all_geoms l = Ok gs -> l = map Some gs.
Proof.
  revert gs. induction l as [|[g|] l IH]; intros gs H; cbn [all_geoms] in H; [injection H as <-; reflexivity| |discriminate].
  destruct (all_geoms l) as [r| |]; cbn [bind] in H; try discriminate. injection H as <-. cbn [map]. f_equal. auto.
Qed.
Lemma forest_len W ids plns cs o score : forall k selfs, forest W ids k plns cs o score = Ok selfs ->
  length selfs = length plns /\ (plns <> [] -> exists gs, cs = map Some gs).
Proof.
  induction plns as [|p plns IH]; intros k selfs H; cbn [forest] in H; [injection H as <-; split; [reflexivity|congruence]|].
  destruct (all_geoms cs) as [gs| |] eqn:Eg; cbn [bind] in H; try discriminate.
  destruct (new_const_dp _ _ _ _ _ _ _ _) as [c| |]; cbn [bind] in H; try discriminate.
  destruct (forest W ids (S k) plns cs o score) as [rest| |] eqn:Er; cbn [bind] in H; try discriminate. injection H as <-.
  destruct (IH _ _ Er) as [E _]. split; [cbn [length]; congruence|]. intros _. exists gs. apply all_geoms_ok, Eg.
Qed.
Lemma instances_len W gens ords J fuel selfs : forall done, simplify_instances W gens ords J fuel selfs = Ok done -> length done = length selfs.
Proof.
  induction selfs as [|s selfs IH]; intros done H; cbn [simplify_instances] in H; [injection H as <-; reflexivity|].
  destruct (simplify _ _ _ _ _ _) as [[hs n]| |]; cbn [bind] in H; try discriminate.
  destruct (simplify_instances W gens ords J fuel selfs) as [rest| |]; cbn [bind] in H; try discriminate.
  injection H as <-. cbn [length]. f_equal. auto.
Qed.
Lemma set_simple_ok plns : forall done qs, length done = length plns -> set_simple plns done = Ok qs ->
  Forall (fun p => 2 <= zlen (pl_pts p)) plns /\
  Forall2 (fun p q => pl_id q = pl_id p /\ pl_meta q = pl_meta p /\ pl_pts q = pl_pts p) plns qs.
Proof.
  induction plns as [|p plns IH]; intros done qs El H.
  { cbn in H. injection H as <-. split; constructor. }
  destruct done as [|[s hs] done]; [discriminate|]. cbn [set_simple] in H.
  destruct (Z.ltb_spec (zlen (pl_pts p)) 2) as [K|K]; [discriminate|].
  destruct (set_simple plns done) as [rest| |] eqn:Er; cbn [bind] in H; try discriminate. injection H as <-.
  destruct (IH done rest) as [A B]; [cbn in El; congruence|exact Er|]. split; constructor; auto.
Qed.

(** Whatever the libraries and the options: a run that ends and writes its result has read every
    line that is not blank, of both files, as a document; every feature had a geometry; every
    line had two coordinates or more; so had every line of the constraints, unless there was
    nothing to simplify; and no line without linear geometry came before one with it. *)
Theorem C65_invalid_input_stops_run :
  forall {P} (lib : jsonlib P) S is_class o score input cinput outs,
  Forall (fun l => ~ In newline l) input -> Forall (fun l => ~ In newline l) cinput ->
  run lib S is_class o score (unlines input) (unlines cinput) = Ok outs ->
  exists toks docs ctoks cdocs,
    lines_kept input toks /\ Forall2 (reads lib) toks docs /\ Forall has_geometry (flat_map doc_features docs) /\
    lines_kept cinput ctoks /\ Forall2 (reads lib) ctoks cdocs /\ Forall has_geometry (flat_map doc_features cdocs) /\
    Forall (fun c => 2 <= zlen c) (flat_map doc_parts docs) /\
    (flat_map doc_parts docs <> [] -> ~ In None (flat_map (constraint_parts lib) (flat_map doc_features cdocs))) /\
    (zlen docs < 2 ^ 63 -> Forall (fun f => zlen (feature_parts f) < 2 ^ 63) (flat_map doc_features docs) -> ~ gap docs).
Proof.
  intros P lib S is_class o score input cinput outs Hi Hc H.
  pose proof (keep_kept input) as Ki. pose proof (keep_kept cinput) as Kc. unfold run in H.
  rewrite (tokens_of input _ Hi Ki), (tokens_of cinput _ Hc Kc) in H.
  destruct (parse_input lib (keep input)) as [plns| |] eqn:Ep; cbn [bind] in H; try discriminate.
  destruct (parse_constraints lib (keep cinput)) as [cs| |] eqn:Ec; cbn [bind] in H; try discriminate.
  destruct (parse_from_ok lib _ _ _ Ep) as (docs & Hr & Hg). destruct (parse_constraints_ok lib _ _ Ec) as (cdocs & Hcr & Hcg).
  unfold parse_input in Ep. rewrite (parse_from_spec lib _ docs Hr 0 Hg) in Ep. injection Ep as <-.
  rewrite (parse_constraints_spec lib _ cdocs Hcr Hcg) in Ec. injection Ec as <-.
  destruct (forest _ _ _ _ _ _ _) as [selfs| |] eqn:Ef; cbn [bind] in H; try discriminate.
  destruct (forest_len _ _ _ _ _ _ _ _ Ef) as [El Hgs].
  match type of H with bind ?x _ = _ => destruct x as [done| |] eqn:Ed; cbn [bind] in H; try discriminate end.
  assert (Eld : length done = length selfs).
  { destruct selfs as [|d r] eqn:Es; [injection Ed as <-; reflexivity|]. rewrite <- Es in *. clear Es. destruct is_class.
    - unfold simplify_feature_class in Ed.
      match type of Ed with bind ?x _ = _ => destruct x as [dn| |] eqn:En; cbn [bind] in Ed; try discriminate end.
      apply instances_len in En. destruct (constrained o); [|injection Ed as <-; exact En].
      match type of Ed with bind ?x _ = _ => destruct x as [[hs n]| |]; cbn [bind] in Ed; try discriminate end.
      injection Ed as <-. apply map_length.
    - apply instances_len in Ed. exact Ed. }
  destruct (set_simple _ done) as [qs| |] eqn:Eq; cbn [bind] in H; try discriminate.
  rewrite El in Eld. destruct (set_simple_ok _ _ _ Eld Eq) as [Htwo Hsame].
  assert (Elines : map pl_pts (polylines_from lib 0 docs) = map (map (jl_point lib)) (flat_map doc_parts docs)).
  { rewrite polylines_pts, flat_parts. reflexivity. }
  exists (keep input), docs, (keep cinput), cdocs. repeat (split; [assumption|]). split; [|split].
  - assert (K : Forall (fun pts : list point => 2 <= zlen pts) (map (map (jl_point lib)) (flat_map doc_parts docs))).
    { rewrite <- Elines, Forall_map. exact Htwo. }
    rewrite Forall_map in K. eapply Forall_impl; [|exact K]. intros c Hc2. cbv beta in Hc2. unfold zlen in *. rewrite map_length in Hc2. exact Hc2.
  - intros Hne Hin. destruct Hgs as (gs & E).
    + intros K. rewrite K in Elines. cbn in Elines. symmetry in Elines. apply map_eq_nil in Elines. auto.
    + rewrite E in Hin. apply in_map_iff in Hin. destruct Hin as (x & Hx & _). discriminate.
  - intros Hn Hp Hgap.
    destruct (split_rows lib _ docs 0 qs Hsame) as (rowss & -> & Hrows).
    rewrite (group_gap lib _ (fun p q K => K) docs rowss Hrows) in H; [discriminate| | |exact Hgap].
    + unfold few, max_int. lia.
    + eapply Forall_impl; [|exact Hp]. intros f Hff. cbv beta in Hff. unfold few, max_int. lia.
Qed.

(** Lines of one coordinate, in a file and among the constraints, and text that is no JSON. *)
Definition short_lib : jsonlib bool := JsonLib
  (fun s => if bytes_eqb s (str "s") then Some (str "LineString") else jl_type ex_lib s)
  (fun s => if bytes_eqb s (str "s") then Some (jline [P2 1 2]) else jl_geometry ex_lib s)
  (jl_feature ex_lib) (jl_collection ex_lib) (jl_marshal ex_lib) (jl_unmarshal ex_lib) (jl_empty ex_lib) (jl_point ex_lib) (jl_zero ex_lib).
Example C65_case :
  (exists outs, run short_lib exB_setup false fc_opts toy_score (unlines [str "l"]) (unlines [str "p"]) = Ok outs /\ outs <> []) /\
  (exists out, run short_lib exB_setup false fc_opts toy_score (unlines []) (unlines [str "s"]) = Ok out) /\
  run short_lib exB_setup false fc_opts toy_score (unlines [str "l"; str "s"]) (unlines [str "p"]) = Panic /\
  run short_lib exB_setup false fc_opts toy_score (unlines [str "l"]) (unlines [str "s"]) = Panic /\
  run short_lib exB_setup false fc_opts toy_score (unlines [str "l"; str "?"]) (unlines [str "p"]) = Panic /\
  run short_lib exB_setup false fc_opts toy_score (unlines [str "l"]) (unlines [str "?"]) = Panic.
Proof.
  split; [|split; [|vm_compute; repeat split]].
  - destruct (run short_lib exB_setup false fc_opts toy_score (unlines [str "l"]) (unlines [str "p"])) as [outs| |] eqn:E; vm_compute in E; try discriminate.
    injection E as <-. eexists. split; [reflexivity|discriminate].
  - destruct (run short_lib exB_setup false fc_opts toy_score (unlines []) (unlines [str "s"])) as [outs| |] eqn:E; vm_compute in E; try discriminate.
    eexists. reflexivity.
Qed.

Print Assumptions C64_any_documents.
Print Assumptions C65_invalid_input_stops_run.
Print Assumptions C56_any_documents_partial.
Print Assumptions C56_shared_and_crossed_in_output_partial.
Print Assumptions C57_any_documents.
Print Assumptions C59_any_documents.
Print Assumptions C60_any_documents.
Print Assumptions C63_any_documents.
Print Assumptions C58_any_documents.
