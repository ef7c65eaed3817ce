(** Reading GeoJSON, writing features, options, whole runs. *)
From Coq Require Import Ascii String.
From Verif Require Import M_Base M_Float M_Rng M_Geom M_Offset M_Node M_Decompose M_Hdb M_Lnr M_Relate M_Constrain M_ConstDP M_Text M_IO
  Spec Spec_Hdb Spec_Lnr Spec_ConstDP Spec_Text Spec_IO Spec_Run
  P_Base P_HdbHist P_Lnr P_Text P_IO P_Run Toy Properties_Lnr Properties_ConstDP.
Open Scope Z_scope.

(** A small JSON library for the examples: texts of one letter, properties true or false. *)
Definition flat (p : point) : list f64 := [px p; py p].
Definition jline (l : list point) : jgeom := JGeom (named "LineString") [] [] (map flat l) [] [] [].
Definition jmulti (l : list (list point)) : jgeom := JGeom (named "MultiLineString") [] [] [] (map (map flat) l) [] [].
Definition jpoint (p : point) : jgeom := JGeom (named "Point") (flat p) [] [] [] [] [].
Definition ex_type (s : bytes) : option bytes :=
  if bytes_eqb s (str "l") then Some (str "LineString")
  else if bytes_eqb s (str "p") then Some (str "Point")
  else if bytes_eqb s (str "f") then Some (str "Feature")
  else if bytes_eqb s (str "n") then Some (str "Feature")
  else if bytes_eqb s (str "c") then Some (str "FeatureCollection")
  else None.
Definition ex_doc_l : document bool := DGeometry (jline zig).
Definition ex_feat : jfeat bool := JFeat (Some (jmulti [zig; feat2_pts])) (Some true).
Definition ex_coll : list (jfeat bool) :=
  [JFeat (Some (jmulti [zig; feat2_pts])) (Some true); JFeat (Some (jline feat2_pts)) (Some false)].
Definition ex_lib : jsonlib bool := JsonLib
  ex_type
  (fun s => if bytes_eqb s (str "l") then Some (jline zig) else Some (jpoint (P2 3 4)))
  (fun s => if bytes_eqb s (str "n") then Some (JFeat None None) else Some ex_feat)
  (fun _ => Some ex_coll)
  (fun p => match p with None => str "null" | Some true => str "t" | Some false => str "f" end)
  (fun s => if bytes_eqb s (str "t") then Some true else if bytes_eqb s (str "f") then Some false else None)
  false
  (fun c => match c with x :: y :: z :: _ => Pt x y z | [x; y] => Pt x y fzero | [x] => Pt x fzero fzero | [] => origin end)
  (fun x => feq x fzero).
Lemma ex_json_ok : json_ok ex_lib.
Proof. split; [intros []; reflexivity|reflexivity|intros []; discriminate]. Qed.

Lemma ex_reads_l : reads ex_lib (str "l") ex_doc_l.
Proof. eapply R_geometry; [reflexivity|cbn; tauto|reflexivity]. Qed.
Lemma ex_reads_f : reads ex_lib (str "f") (DFeature ex_feat).
Proof. apply R_feature; reflexivity. Qed.
Lemma ex_reads_p : reads ex_lib (str "p") (DGeometry (jpoint (P2 3 4))).
Proof. eapply R_geometry; [reflexivity|cbn; tauto|reflexivity]. Qed.
Lemma ex_reads_c : reads ex_lib (str "c") (DCollection ex_coll).
Proof. apply R_collection; reflexivity. Qed.
Lemma ex_reads_n : reads ex_lib (str "n") (DFeature (JFeat None None)).
Proof. apply R_feature; reflexivity. Qed.

(** ** C49 *)

Theorem C49_linear_parts_become_polylines : forall {P} (lib : jsonlib P) inputs docs,
  Forall2 (reads lib) inputs docs -> Forall has_geometry (flat_map doc_features docs) ->
  exists plns, parse_input lib inputs = Ok plns /\
    map pl_pts plns = map (map (jl_point lib)) (flat_map feature_parts (flat_map doc_features docs)) /\
    forall p, In p plns -> exists i k d f c, nth_error docs i = Some d /\ In f (doc_features d) /\
      nth_error (feature_parts f) k = Some c /\
      pl_id p = compose_id (Z.of_nat i) (Z.of_nat k) /\
      pl_meta p = jl_marshal lib (jf_props f) /\ pl_pts p = map (jl_point lib) c.
Proof.
  intros P lib inputs docs Hr Hg. exists (polylines_from lib 0 docs).
  split; [apply parse_from_spec; assumption|]. split; [apply polylines_pts|].
  intros p Hp. apply (polylines_ids lib docs 0). exact Hp.
Qed.

(** A feature without geometry stops the program. *)
Theorem C49_null_geometry_panics : forall {P} (lib : jsonlib P) inputs docs,
  Forall2 (reads lib) inputs docs -> ~ Forall has_geometry (flat_map doc_features docs) ->
  parse_input lib inputs = Panic.
Proof. intros P lib inputs docs Hr Hg. apply (parse_from_null lib inputs docs Hr 0 Hg). Qed.

Example C49_case :
  Forall2 (reads ex_lib) [str "l"; str "p"; str "f"; str "c"]
    [ex_doc_l; DGeometry (jpoint (P2 3 4)); DFeature ex_feat; DCollection ex_coll] /\
  Forall has_geometry (flat_map doc_features
    [ex_doc_l; DGeometry (jpoint (P2 3 4)); DFeature ex_feat; DCollection ex_coll]) /\
  match parse_input ex_lib [str "l"; str "p"; str "f"; str "c"] with
  | Ok plns => map pl_id plns = map str ["idx:0-pos:0"; "idx:2-pos:0"; "idx:2-pos:1"; "idx:3-pos:0"; "idx:3-pos:1"; "idx:3-pos:0"]%string
  | _ => False
  end /\
  parse_input ex_lib [str "l"; str "n"] = Panic.
Proof.
  split; [repeat constructor; auto using ex_reads_l, ex_reads_p, ex_reads_f, ex_reads_c|].
  split; [repeat constructor; discriminate|]. split; vm_compute; reflexivity.
Qed.

(** ** C52 *)

Theorem C52_constraints_read : forall {P} (lib : jsonlib P) inputs docs,
  Forall2 (reads lib) inputs docs -> Forall has_geometry (flat_map doc_features docs) ->
  parse_constraints lib inputs = Ok (flat_map (constraint_parts lib) (flat_map doc_features docs)).
Proof. intros P lib. exact (parse_constraints_spec lib). Qed.

Example C52_case :
  match parse_constraints ex_lib [str "p"; str "l"; str "f"] with
  | Ok gs => gs = [Some (GPoint (P2 3 4)); Some (GLine zig); Some (GLine zig); Some (GLine feat2_pts)]
  | _ => False
  end.
Proof. vm_compute. reflexivity. Qed.

(** ** C41 *)

(** Every feature written: the geometry type follows the number of parts, the dimension of a
    part the third coordinates of its vertices. *)
Theorem C41_geometry_type_and_dimension : forall {P} (lib : jsonlib P) lns o,
  create_geojson lib lns = Ok o ->
  lns <> [] /\ written_parts (jl_zero lib) (map simple_points lns) (of_geom o).
Proof.
  intros P lib lns o H. split; [intros ->; discriminate|]. apply create_geojson_geom. exact H.
Qed.

Definition up (p : point) : point := Pt (px p) (py p) (f_of_Z 5).
Example C41_case :
  let a := Pln (str "idx:0-pos:0") (str "t") zig [0; 4] in
  let b := Pln (str "idx:0-pos:1") (str "t") (map up feat2_pts) [0; 1; 2] in
  match create_geojson ex_lib [a], create_geojson ex_lib [a; b] with
  | Ok x, Ok y =>
    of_geom x = OLine (map flat [nth 0 zig origin; nth 4 zig origin]) /\
    of_geom y = OMulti [map flat [nth 0 zig origin; nth 4 zig origin]; map (fun p => [px p; py p; f_of_Z 5]) feat2_pts]
  | _, _ => False
  end.
Proof. cbv zeta. vm_compute. split; reflexivity. Qed.

(** ** C40, C42 *)

(** When every line of the file is a geometry or feature with at least one line in it: one
    feature per line, in order, the parts in order, with the vertices [simple id] kept. *)
Theorem C40_one_feature_per_line_partial : forall {P} (lib : jsonlib P) inputs docs fs (simple : bytes -> list Z),
  json_ok lib -> Forall2 (reads lib) inputs docs -> Forall2 one_feature docs fs ->
  zlen fs < 2 ^ 63 -> Forall (fun f => zlen (feature_parts f) < 2 ^ 63) fs ->
  exists plns outs, parse_input lib inputs = Ok plns /\
    group_plns lib (map (with_simple simple) plns) = Ok outs /\ length outs = length inputs /\
    forall i f, nth_error fs i = Some f -> exists o, nth_error outs i = Some o /\
      written_parts (jl_zero lib)
        (map (fun pc => pick origin (map (jl_point lib) (snd pc)) (simple (compose_id (Z.of_nat i) (fst pc))))
           (combine (zseq 0 (zlen (feature_parts f) - 1)) (feature_parts f)))
        (of_geom o).
Proof.
  intros P lib inputs docs fs simple HJ Hr H1 Hn Hp.
  assert (Hfeat : flat_map doc_features docs = fs).
  { clear -H1. induction H1 as [|d f docs fs [H _] H1 IH]; [reflexivity|].
    cbn [flat_map]. rewrite IH. destruct H as [-> |(g & -> & ->)]; reflexivity. }
  assert (Hgeo : Forall has_geometry (flat_map doc_features docs)).
  { rewrite Hfeat. apply Forall_forall. intros f Hin.
    destruct (forall2_in_r _ _ _ H1 f Hin) as (d & _ & _ & Hne). unfold has_geometry. intros K. apply Hne.
    unfold feature_parts. rewrite K. reflexivity. }
  exists (polylines_from lib 0 docs).
  destruct (group_spec lib simple docs fs HJ H1) as (outs & E & El & Ho).
  { unfold few, max_int. lia. }
  { eapply Forall_impl; [|exact Hp]. intros f Hf. cbv beta in Hf. unfold few, max_int. lia. }
  exists outs. split; [apply parse_from_spec; assumption|]. split; [exact E|].
  assert (Ed : length docs = length inputs) by (clear -Hr; induction Hr; cbn [length]; congruence).
  split; [congruence|]. intros i f Hi. destruct (Ho i f Hi) as (o & A & _ & C). exists o. split; [exact A|exact C].
Qed.

Theorem C42_properties_carried : forall {P} (lib : jsonlib P) inputs docs fs (simple : bytes -> list Z),
  json_ok lib -> Forall2 (reads lib) inputs docs -> Forall2 one_feature docs fs ->
  zlen fs < 2 ^ 63 -> Forall (fun f => zlen (feature_parts f) < 2 ^ 63) fs ->
  exists plns outs, parse_input lib inputs = Ok plns /\
    group_plns lib (map (with_simple simple) plns) = Ok outs /\
    map of_props outs = map (props_or_empty lib) fs.
Proof.
  intros P lib inputs docs fs simple HJ Hr H1 Hn Hp.
  assert (Hfeat : flat_map doc_features docs = fs).
  { clear -H1. induction H1 as [|d f docs fs [H _] H1 IH]; [reflexivity|].
    cbn [flat_map]. rewrite IH. destruct H as [-> |(g & -> & ->)]; reflexivity. }
  assert (Hgeo : Forall has_geometry (flat_map doc_features docs)).
  { rewrite Hfeat. apply Forall_forall. intros f Hin.
    destruct (forall2_in_r _ _ _ H1 f Hin) as (d & _ & _ & Hne). unfold has_geometry. intros K. apply Hne.
    unfold feature_parts. rewrite K. reflexivity. }
  exists (polylines_from lib 0 docs).
  destruct (group_spec lib simple docs fs HJ H1) as (outs & E & El & Ho).
  { unfold few, max_int. lia. }
  { eapply Forall_impl; [|exact Hp]. intros f Hf. cbv beta in Hf. unfold few, max_int. lia. }
  exists outs. split; [apply parse_from_spec; assumption|]. split; [exact E|].
  assert (Ed : length outs = length fs) by (rewrite El; clear -H1; induction H1; cbn [length]; congruence).
  clear -Ed Ho. assert (K : forall i f, nth_error fs i = Some f -> exists o, nth_error outs i = Some o /\ of_props o = props_or_empty lib f).
  { intros i f Hi. destruct (Ho i f Hi) as (o & A & B & _). eauto. }
  clear Ho. revert fs Ed K. induction outs as [|o outs IH]; intros [|f fs] Ed K; try discriminate; [reflexivity|].
  cbn [map]. f_equal.
  - destruct (K 0%nat f eq_refl) as (o' & A & B). cbn in A. congruence.
  - apply IH; [cbn in Ed; lia|]. intros i g Hg. apply (K (S i) g Hg).
Qed.

Example C40_case :
  json_ok ex_lib /\ Forall2 (reads ex_lib) [str "l"; str "f"] [ex_doc_l; DFeature ex_feat] /\
  Forall2 one_feature [ex_doc_l; DFeature ex_feat] [JFeat (Some (jline zig)) None; ex_feat] /\
  match parse_input ex_lib [str "l"; str "f"] with
  | Ok plns =>
    match group_plns ex_lib (map (with_simple (fun _ => [0; 2])) plns) with
    | Ok outs => outs = [OFeat false (OLine (map flat (pick origin zig [0; 2])));
        OFeat true (OMulti [map flat (pick origin zig [0; 2]); map flat (pick origin feat2_pts [0; 2])])]
    | _ => False
    end
  | _ => False
  end.
Proof.
  split; [exact ex_json_ok|]. split; [repeat constructor; auto using ex_reads_l, ex_reads_f|]. split.
  { constructor; [split; [right; eexists; split; reflexivity|discriminate]|].
    constructor; [split; [left; reflexivity|discriminate]|constructor]. }
  vm_compute. reflexivity.
Qed.

(** Not so for every file.  A line without linear geometry before one with it: the program
    panics while writing. *)
Theorem C40_gap_panics_refuted : exists plns,
  Forall2 (reads ex_lib) [str "p"; str "l"] [DGeometry (jpoint (P2 3 4)); ex_doc_l] /\
  parse_input ex_lib [str "p"; str "l"] = Ok plns /\ plns <> [] /\
  group_plns ex_lib (map (with_simple (fun _ => [0; 4])) plns) = Panic.
Proof.
  eexists. split; [repeat constructor; auto using ex_reads_l, ex_reads_p|].
  split; [vm_compute; reflexivity|]. split; [discriminate|]. vm_compute. reflexivity.
Qed.
(** Two features of a collection: one feature is written for both, with the properties of the
    first and their parts interleaved. *)
Theorem C40_collection_merged_refuted : exists plns outs,
  Forall2 (reads ex_lib) [str "c"] [DCollection ex_coll] /\
  map jf_props ex_coll = [Some true; Some false] /\
  parse_input ex_lib [str "c"] = Ok plns /\
  group_plns ex_lib (map (with_simple (fun _ => [0; 2])) plns) = Ok outs /\
  outs = [OFeat true (OMulti [map flat (pick origin zig [0; 2]); map flat (pick origin feat2_pts [0; 2]);
                              map flat (pick origin feat2_pts [0; 2])])].
Proof.
  eexists _, _. split; [repeat constructor; auto using ex_reads_c|].
  split; [reflexivity|]. split; [vm_compute; reflexivity|]. split; vm_compute; reflexivity.
Qed.

(** ** C47 *)

Theorem C47_options : forall c,
  let o := opts_of c in
  o_threshold o = g_threshold c /\ o_min_dist o = g_min_dist c /\
  o_non_planar_displacement o = g_displacement c /\ o_planar_self o = g_planar c /\
  o_non_planar_self o = g_non_planar c /\ o_avoid_self o = g_avoid c /\
  o_geom o = g_geom c /\ o_dist o = g_dist c /\ o_dir o = g_side c.
Proof. intros c. repeat split. Qed.

(** ** C45 *)

Theorem C45_output_lines_are_shortened_input_lines :
  forall {P} (lib : jsonlib P) (S : setup) (is_class : bool) (o : opts) (score : scorefn)
    (input constraints : list (list ascii)) toks docs fs ctoks cdocs gs,
  json_ok lib -> setup_ok S ->
  (* the input file: lines that are geometries or features with at least one line *)
  Forall (fun l => ~ In newline l) input -> lines_kept input toks ->
  Forall2 (reads lib) toks docs -> Forall2 one_feature docs fs ->
  zlen fs < 2 ^ 63 -> Forall (fun f => zlen (feature_parts f) < 2 ^ 63) fs ->
  (* the constraint file *)
  Forall (fun l => ~ In newline l) constraints -> lines_kept constraints ctoks ->
  Forall2 (reads lib) ctoks cdocs -> Forall has_geometry (flat_map doc_features cdocs) ->
  flat_map (constraint_parts lib) (flat_map doc_features cdocs) = map Some gs ->
  Forall (fun g => good_bounds (gl_bounds (w_geom (su_world S)) g)) gs ->
  (* the lines of the input can be simplified *)
  let lines := map (map (jl_point lib)) (flat_map feature_parts fs) in
  Forall (fun pts => line_ok (w_geom (su_world S)) (proto o score pts)) lines ->
  (is_class = true -> class_ok S lines) ->
  (2 * length (concat lines) + 2 <= su_fuel S)%nat ->
  exists outs, run lib S is_class o score (unlines input) (unlines constraints) = Ok outs /\
    length outs = length toks /\
    forall i f, nth_error fs i = Some f -> exists o kept, nth_error outs i = Some o /\
      of_props o = props_or_empty lib f /\
      Forall2 (fun c k => shortened (map (jl_point lib) c) k) (feature_parts f) kept /\
      written_parts (jl_zero lib) kept (of_geom o).
Proof.
  intros P lib S is_class o score input constraints toks docs fs ctoks cdocs gs HJ HS Hi1 Hi2 Hr H1 Hn Hp Hc1 Hc2 Hcr Hcg Hgs Hg
    lines Hl Hcl Hf.
  assert (Hn' : few fs) by (unfold few, max_int; lia).
  assert (Hp' : Forall (fun f => few (feature_parts f)) fs).
  { eapply Forall_impl; [|exact Hp]. intros f Hff. cbv beta in Hff. unfold few, max_int. lia. }
  destruct (run_spec lib S is_class o score toks docs fs gs HJ HS Hr H1 Hn' Hp' Hg Hl Hcl Hf) as (outs & E & R).
  exists outs. split; [|exact R].
  unfold run. rewrite (tokens_of input toks Hi1 Hi2), (tokens_of constraints ctoks Hc1 Hc2).
  rewrite (parse_constraints_spec lib ctoks cdocs Hcr Hcg), Hgs.
  destruct (parse_input lib toks) as [plns| |]; cbn [bind] in E |- *; exact E.
Qed.

Definition ex_setup : setup := Setup exW (fun k => Z.of_nat k) ex_gens (fun _ => in_turn) in_turn 60.
Lemma ex_setup_ok : setup_ok ex_setup.
Proof.
  destruct C34_case as (A & _ & _ & B & C & _). split; cbn [su_world su_ids su_gens su_ords su_ord ex_setup].
  - exact A.
  - intros i j E. lia.
  - exact B.
  - exact C.
  - intros _. exact in_turn_ok.
  - exact in_turn_ok.
Qed.
Example C45_case :
  json_ok ex_lib /\ setup_ok ex_setup /\
  lines_kept [str " l "; str ""; str "f"] [str "l"; str "f"] /\
  Forall2 (reads ex_lib) [str "l"; str "f"] [ex_doc_l; DFeature ex_feat] /\
  Forall2 one_feature [ex_doc_l; DFeature ex_feat] [JFeat (Some (jline zig)) None; ex_feat] /\
  let lines := map (map (jl_point ex_lib)) (flat_map feature_parts [JFeat (Some (jline zig)) None; ex_feat]) in
  Forall (fun pts => line_ok toy (proto fc_opts toy_score pts)) lines /\ class_ok ex_setup lines /\
  match run ex_lib ex_setup true fc_opts toy_score (unlines [str " l "; str ""; str "f"]) (str "p") with
  | Ok outs => outs = [OFeat false (OLine (map flat zig)); OFeat true (OMulti [map flat zig; map flat feat2_pts])]
  | _ => False
  end /\
  match run ex_lib ex_setup false fc_opts toy_score (unlines [str " l "; str ""; str "f"]) (str "p") with
  | Ok outs => outs = [OFeat false (OLine (map flat (pick origin zig [0; 4])));
      OFeat true (OMulti [map flat (pick origin zig [0; 4]); map flat (pick origin feat2_pts [0; 2])])]
  | _ => False
  end.
Proof.
  split; [exact ex_json_ok|]. split; [exact ex_setup_ok|]. split.
  { assert (K : lines_kept [str " l "; str ""; str "f"] (keep [str " l "; str ""; str "f"])) by apply keep_kept.
    vm_compute in K. exact K. }
  split; [repeat constructor; auto using ex_reads_l, ex_reads_f|]. split; [apply C40_case|].
  cbv zeta.
  assert (E : map (map (jl_point ex_lib)) (flat_map feature_parts [JFeat (Some (jline zig)) None; ex_feat]) = [zig; zig; feat2_pts])
    by (vm_compute; reflexivity).
  rewrite E. split; [|split; [|split]].
  - assert (Kz : line_ok toy (proto fc_opts toy_score zig)) by line_ok_compute (f_of_Z 10).
    assert (K2 : line_ok toy (proto fc_opts toy_score feat2_pts)) by line_ok_compute (f_of_Z 10).
    constructor; [exact Kz|]. constructor; [exact Kz|]. constructor; [exact K2|constructor].
  - split.
    + exact v_sort_sorts.
    + vm_compute. repeat (constructor; [split; reflexivity|]). constructor.
    + intros p q _ _. reflexivity.
  - vm_compute. reflexivity.
  - vm_compute. reflexivity.
Qed.

(** ** C53 *)

(** A run that writes anything has a complete configuration: one source for it, a known type of
    simplification, an input file, a constraint file or none named, and an output path, which is
    the one written; the features written are those of these files under these options. *)
Theorem C53_program : forall {P} (lib : jsonlib P) decode file S dp sed b f path outs,
  program lib decode file S dp sed b f = Ok (path, outs) ->
  exists text c score input cs,
    config_text file b f = Ok text /\ decode text = Some c /\
    ((offset_fn (g_type c) = Some DP /\ score = dp) \/ (offset_fn (g_type c) = Some SED /\ score = sed)) /\
    (exists t, trimmed (g_input c) t /\ file t = Some input) /\
    trimmed (g_output c) path /\ path <> [] /\
    (exists t, trimmed (g_constraints c) t /\ (file t = Some cs \/ (file t = None /\ t = [] /\ cs = []))) /\
    run lib S (g_class c) (opts_of c) score input cs = Ok outs.
Proof.
  intros P lib decode file S dp sed b f path outs. unfold program.
  destruct (config_text file b f) as [text| |]; cbn [bind]; try discriminate.
  destruct (decode text) as [c|] eqn:Ec; cbn [check bind]; try discriminate.
  destruct (offset_fn (g_type c)) as [[]|] eqn:Eo; cbn [bind]; try discriminate;
    (destruct (file (trim (g_input c))) as [input|] eqn:Ei; cbn [check bind]; try discriminate);
    (destruct (bytes_eqb (trim (g_output c)) []) eqn:Eb; try discriminate; apply bytes_eqb_false in Eb);
    (assert (K : forall X, (match file (trim (g_constraints c)) with
           | Some t => Ok t
           | None => if bytes_eqb (trim (g_constraints c)) [] then Ok [] else Panic
           end) = Ok X -> file (trim (g_constraints c)) = Some X \/
             (file (trim (g_constraints c)) = None /\ trim (g_constraints c) = [] /\ X = []))
     by (intros X; destruct (file (trim (g_constraints c))); [intros E; injection E as <-; left; reflexivity|];
         destruct (bytes_eqb (trim (g_constraints c)) []) eqn:E; try discriminate; apply bytes_eqb_spec in E;
         intros E'; injection E' as <-; right; auto));
    (destruct (match file (trim (g_constraints c)) with
           | Some t => Ok t
           | None => if bytes_eqb (trim (g_constraints c)) [] then Ok [] else Panic
           end) as [cs| |]; cbn [bind]; try discriminate; specialize (K cs eq_refl));
    (destruct (run lib S (g_class c) (opts_of c) _ input cs) as [o| |] eqn:Er; cbn [bind]; try discriminate);
    intros E; injection E as <- <-;
    eexists text, c, _, input, cs;
    (split; [reflexivity|]); (split; [exact Ec|]); (split; [first [left; split; [exact Eo|reflexivity] | right; split; [exact Eo|reflexivity]]|]);
    (split; [exists (trim (g_input c)); split; [apply trim_spec|exact Ei]|]);
    (split; [apply trim_spec|]); (split; [exact Eb|]);
    (split; [exists (trim (g_constraints c)); split; [apply trim_spec|exact K]|]); exact Er.
Qed.

(** Nothing else is asked for: with these the program writes, and what it writes does not depend on the other files. *)
Theorem C53_program_writes : forall {P} (lib : jsonlib P) decode file S dp sed b f text c score input t path cs ct outs,
  config_text file b f = Ok text -> decode text = Some c ->
  ((offset_fn (g_type c) = Some DP /\ score = dp) \/ (offset_fn (g_type c) = Some SED /\ score = sed)) ->
  trimmed (g_input c) t -> file t = Some input ->
  trimmed (g_output c) path -> path <> [] ->
  trimmed (g_constraints c) ct -> (file ct = Some cs \/ (file ct = None /\ ct = [] /\ cs = [])) ->
  run lib S (g_class c) (opts_of c) score input cs = Ok outs ->
  program lib decode file S dp sed b f = Ok (path, outs).
Proof.
  intros P lib decode file S dp sed b f text c score input t path cs ct outs Ht Hd Hs Hi Fi Ho Hp Hc Fc Hr.
  apply trimmed_unique in Hi, Ho, Hc. subst t path ct.
  unfold program. rewrite Ht. cbn [bind]. rewrite Hd. cbn [check bind].
  assert (Eb : bytes_eqb (trim (g_output c)) [] = false) by (apply bytes_eqb_false; exact Hp).
  assert (Ec : (match file (trim (g_constraints c)) with
       | Some t => Ok t
       | None => if bytes_eqb (trim (g_constraints c)) [] then Ok [] else Panic
       end) = Ok cs).
  { destruct Fc as [->|(-> & -> & ->)]; reflexivity. }
  destruct Hs as [[-> ->]|[-> ->]]; cbn [bind]; rewrite Fi; cbn [check bind]; rewrite Eb, Ec; cbn [bind]; rewrite Hr; reflexivity.
Qed.

Definition ex_config : config :=
  Config (str "in") (str " out ") (str "") (str "DP") (f_of_Z 10) (f_of_Z 1) fzero false true false true true true true.
Definition ex_files (p : bytes) : option bytes :=
  if bytes_eqb p (str "in") then Some (str "l") else if bytes_eqb p (str "cfg") then Some (str "{}") else None.
Example C53_case :
  match program ex_lib (fun _ => Some ex_config) ex_files ex_setup toy_score toy_score (str "-") (str "cfg") with
  | Ok (path, outs) => path = str "out" /\ outs = [OFeat false (OLine (map flat (pick origin zig [0; 4])))]
  | _ => False
  end.
Proof. vm_compute. split; reflexivity. Qed.

Print Assumptions C49_linear_parts_become_polylines.
Print Assumptions C49_null_geometry_panics.
Print Assumptions C52_constraints_read.
Print Assumptions C41_geometry_type_and_dimension.
Print Assumptions C40_one_feature_per_line_partial.
Print Assumptions C42_properties_carried.
Print Assumptions C40_gap_panics_refuted.
Print Assumptions C40_collection_merged_refuted.
Print Assumptions C47_options.
Print Assumptions C45_output_lines_are_shortened_input_lines.
Print Assumptions C53_program.
Print Assumptions C53_program_writes.
