(** Claims C56 to C60: what whole runs write.  Vocabulary: Spec_Out.v, Spec_Run.v. *)
From Coq Require Import Ascii String.
From Verif Require Import M_Base M_Float M_Rng M_Geom M_Offset M_Node M_Decompose M_Hdb M_Knn M_Lnr M_Homotopy M_Relate M_Constrain M_ConstDP
  M_Text M_IO Spec Spec_Hdb Spec_Lnr Spec_Relate Spec_ConstDP Spec_Text Spec_IO Spec_Run Spec_Out
  P_Base P_Float P_Decompose P_Split P_Node P_HdbHist P_Lnr P_ConstDP P_Class P_Text P_IO P_Run P_Out Toy Toy_Box
  Properties_Lnr Properties_Relate Properties_ConstDP Properties_IO.
Open Scope Z_scope.

(** ** C57 *)

Lemma line_alone S o score gs lines selfs pts k : in_run S false o score gs lines selfs ->
  result_of S false o selfs pts k -> simplified_alone S o score gs pts k.
Proof.
  intros H (s & hs & Hs & <- & Ho & ->).
  destruct Ho as [(h0 & n & E & _ & Eh & _) _ _ _]. rewrite (Eh eq_refl) in *. clear Eh hs.
  destruct (ir_made _ _ _ _ _ _ _ H s Hs) as [(Eo & Es & Eq & Hb) _].
  exists (c_id s), (c_ctxdb s), h0, n. cbv zeta. split; [exact (proj1 Hb)|]. split; [|reflexivity].
  rewrite <- Eo, <- Es, <- Eq. destruct s as [a b c d e f]. exact E.
Qed.

(** Without the class option every line is simplified on its own. *)
Theorem C57_lines_simplified_alone :
  forall {P} (lib : jsonlib P) S o score input cinput fs constraints,
  run_input lib S false o score input cinput fs constraints ->
  writes lib S false o score input cinput fs (simplified_alone S o score constraints).
Proof.
  intros P lib S o score input cinput fs gs H. destruct (input_in_run lib S false o score input cinput fs gs H) as (selfs & Hr & Hw).
  eapply writes_impl; [|exact Hw]. intros pts k _. exact (line_alone _ _ _ _ _ _ pts k Hr).
Qed.

(** ** C59 *)

Lemma line_honours S is_class o score gs lines selfs pts k : in_run S is_class o score gs lines selfs ->
  fle fzero (o_min_dist o) = true -> geometry_ok (w_geom (su_world S)) gs pts ->
  result_of S is_class o selfs pts k -> honours (w_geom (su_world S)) o gs pts k.
Proof.
  intros H Hmd Hg (s & hs & Hs & <- & Ho & ->). destruct (ir_made _ _ _ _ _ _ _ H s Hs) as [(Eo & Es & Eq & Hb) Hl].
  destruct (is_class && negb (constrained o)) eqn:Ec.
  - (* nothing is demanded *)
    apply andb_prop in Ec. destruct Ec as [_ Ec]. apply negb_true_iff in Ec. unfold constrained in Ec.
    repeat (apply orb_false_iff in Ec; destruct Ec as [Ec ?]).
    intros a b _ _ _. cbv zeta. split; [|split]; intros; congruence.
  - rewrite <- Eo. rewrite <- Eo in Hmd. destruct Ho as [_ Ht Hf Hv].
    apply hulls_honour; auto; [exact (so_libs _ (ir_setup _ _ _ _ _ _ _ H))|].
    apply Hv. destruct is_class; [left|right; reflexivity]. cbn in Ec |- *. rewrite <- (negb_involutive (constrained o)), Ec. reflexivity.
Qed.

Theorem C59_constraints_honoured_in_output :
  forall {P} (lib : jsonlib P) S is_class o score input cinput fs constraints,
  run_input lib S is_class o score input cinput fs constraints ->
  fle fzero (o_min_dist o) = true ->
  Forall (geometry_ok (w_geom (su_world S)) constraints) (map (map (jl_point lib)) (flat_map feature_parts fs)) ->
  writes lib S is_class o score input cinput fs (honours (w_geom (su_world S)) o constraints).
Proof.
  intros P lib S is_class o score input cinput fs gs H Hmd Hg.
  destruct (input_in_run lib S is_class o score input cinput fs gs H) as (selfs & Hr & Hw).
  eapply writes_impl; [|exact Hw]. intros pts k Hin. rewrite Forall_forall in Hg. exact (line_honours _ _ _ _ _ _ _ pts k Hr Hmd (Hg pts Hin)).
Qed.

(** ** C60 *)

Lemma line_threshold S is_class o distfn gs lines selfs pts k : in_run S is_class o (max_offset distfn) gs lines selfs ->
  o_planar_self o = false -> o_avoid_self o = false -> o_geom o = false -> o_dist o = false -> o_dir o = false ->
  fle fzero (o_threshold o) = true ->
  result_of S is_class o selfs pts k -> within_threshold distfn (o_threshold o) pts k.
Proof.
  intros H O1 O2 O3 O4 O5 HT (s & hs & Hs & <- & Ho & ->).
  destruct (ir_made _ _ _ _ _ _ _ H s Hs) as [(Eo & Es & Eq & Hb) Hl].
  destruct Ho as [(h0 & n & E & _ & Eh & _) Ht _ _].
  assert (Hc : is_class && constrained o = false).
  { unfold constrained. rewrite O1, O2, O3, O4, O5. apply andb_false_r. }
  rewrite (Eh Hc) in *. clear Eh hs.
  intros a b j Hn Hj. destruct (next_kept_hull h0 _ a b Ht Hn) as (h & Hh & Er). cbv zeta. intros Hnan.
  pose proof (ir_setup _ _ _ _ _ _ _ H) as HS.
  assert (Ej : class_junctions S is_class o selfs (c_id s) = []) by (unfold class_junctions; rewrite O1, andb_false_r; reflexivity).
  rewrite Ej in E.
  pose proof (C30_threshold_without_constraints_partial (line_world S (c_id s)) (su_ords S (c_id s)) s gs [] (su_fuel S) 0 h0 n distfn
    (world_i_ok S (c_id s) HS) (so_ords _ HS (c_id s)) Hl Hb (Forall_nil _)) as K.
  rewrite Eo in K. unfold vertex in Hnan |- *.
  specialize (K) with (h := h) (k := j). rewrite Er in K. cbn [rI rJ] in K. apply K; auto.
  pose proof (ir_fuel _ _ _ _ _ _ _ H) as Hf. rewrite <- (ir_lines _ _ _ _ _ _ _ H) in Hf.
  pose proof (length_concat_in (map c_pts selfs) (c_pts s) (in_map _ _ _ Hs)). lia.
Qed.

Theorem C60_threshold_in_output :
  forall {P} (lib : jsonlib P) S is_class o distfn input cinput fs constraints,
  run_input lib S is_class o (max_offset distfn) input cinput fs constraints ->
  o_planar_self o = false -> o_avoid_self o = false -> o_geom o = false -> o_dist o = false -> o_dir o = false ->
  fle fzero (o_threshold o) = true ->
  writes lib S is_class o (max_offset distfn) input cinput fs (within_threshold distfn (o_threshold o)).
Proof.
  intros P lib S is_class o distfn input cinput fs gs H O1 O2 O3 O4 O5 HT.
  destruct (input_in_run lib S is_class o _ input cinput fs gs H) as (selfs & Hr & Hw).
  eapply writes_impl; [|exact Hw]. intros pts k _. exact (line_threshold _ _ _ _ _ _ _ pts k Hr O1 O2 O3 O4 O5 HT).
Qed.

(** ** C56 *)

(** The location of vertex [k] of the line [pts] is also that of another vertex: of the same
    line, or of a line at another place of the class. *)
Definition shared_in (lines : list (list point)) (pts : list point) (k : Z) : Prop :=
  (exists k', k' <> k /\ 0 <= k' < zlen pts /\ loc_eq (Spec_Out.vertex pts k) (Spec_Out.vertex pts k') = true) \/
  (exists i j pts' k', i <> j /\ nth_error lines i = Some pts /\ nth_error lines j = Some pts' /\ 0 <= k' < zlen pts' /\
     loc_eq (Spec_Out.vertex pts k) (Spec_Out.vertex pts' k') = true).

(** Vertices at self-intersections, and for a class vertices at locations shared within it. *)
Definition forced_vertex (S : setup) (is_class : bool) (o : opts) (score : scorefn) (lines : list (list point))
    (pts : list point) (k : Z) : Prop :=
  0 <= k < zlen pts /\
  ((exists c, In c (self_intersections (su_world S) (proto o score pts)) /\ In k (snd c)) \/
   (is_class = true /\ shared_in lines pts k /\ not_greatest (concat lines) (Spec_Out.vertex pts k))).

Lemma loc_eq_refl p : num_pt p -> loc_eq p p = true.
Proof. intros [Hx Hy]. unfold loc_eq. rewrite !feq_refl by assumption. reflexivity. Qed.

Lemma line_forced S is_class o score gs lines selfs pts kept : in_run S is_class o score gs lines selfs ->
  o_planar_self o = true -> In pts lines ->
  (forall c, In c (self_intersections (su_world S) (proto o score pts)) \/ (exists k, 0 <= k < zlen pts /\ c = (Spec_Out.vertex pts k, [k])) ->
     location_on_hulls (w_geom (su_world S)) pts c /\ boxes_not_farther (w_geom (su_world S)) pts c) ->
  result_of S is_class o selfs pts kept -> forall k, forced_vertex S is_class o score lines pts k -> In k kept.
Proof.
  intros H Hps Hin Hg (s & hs & Hs & <- & Ho & ->) k [Hk Hf].
  destruct (ir_made _ _ _ _ _ _ _ H s Hs) as [(Eo & Es & Eq & Hb) Hl].
  pose proof (ir_lines _ _ _ _ _ _ _ H) as Ep. pose proof (ir_nodup _ _ _ _ _ _ _ H) as Hnd.
  destruct Ho as [(h0 & n & E & Hsub & _) _ _ _]. apply Hsub.
  pose proof (ir_setup _ _ _ _ _ _ _ H) as HS.
  assert (Hc : is_class = true -> class_ok S (map c_pts selfs)) by (rewrite Ep; exact (ir_class _ _ _ _ _ _ _ H)).
  pose proof (junctions_in_range S is_class o selfs HS Hnd Hc s Hs) as HJ.
  assert (Esi : self_intersections (line_world S (c_id s)) s = self_intersections (su_world S) (proto o score (c_pts s))).
  { unfold self_intersections. cbn [line_world w_geom w_lnr proto c_pts c_opts]. rewrite Eo. reflexivity. }
  refine (C28_constrained_vertices_survive (line_world S (c_id s)) (su_ords S (c_id s)) s gs _ (su_fuel S) 0 h0 n
    (world_i_ok S (c_id s) HS) (so_ords _ HS (c_id s)) Hl Hb HJ _ _ _ E k Hk _).
  - pose proof (ir_fuel _ _ _ _ _ _ _ H) as Hfu. rewrite <- Ep in Hfu.
    pose proof (length_concat_in (map c_pts selfs) (c_pts s) (in_map _ _ _ Hs)). lia.
  - rewrite Eo. exact Hps.
  - cbv zeta. intros c Hcin. apply (Hg c). apply in_app_or in Hcin. destruct Hcin as [Hcin | Hcin].
    + left. rewrite <- Esi. exact Hcin.
    + right. apply in_map_iff in Hcin. destruct Hcin as (k' & <- & Hk'). rewrite Forall_forall in HJ. exists k'. split; [exact (HJ _ Hk')|reflexivity].
  - destruct Hf as [(c & Hci & Hkc) | (-> & Hsh & Hng)]; [right; exists c; rewrite Esi; auto|left].
    destruct (Hc eq_refl) as [C1 C2 C3]. unfold class_junctions. rewrite Hps. cbn [andb].
    set (fc := map (fun s => (c_id s, c_pts s)) selfs).
    assert (Ec : class_points fc = concat (map c_pts selfs)).
    { unfold class_points, fc. clear. induction selfs as [|x l IH]; [reflexivity|]. cbn [map flat_map snd concat]. congruence. }
    destruct (C17_junctions_partial (w_geom (su_world S)) (lo_sort (w_lnr (su_world S))) fc C1) with (fid := c_id s) as [_ K].
    { unfold fc. rewrite map_map. exact Hnd. } { rewrite Ec. exact C2. } { rewrite Ec. exact C3. }
    apply K. clear K.
    assert (Hat : forall s' j, In s' selfs -> 0 <= j < zlen (c_pts s') -> vertex_at fc (c_id s') j (Spec_Out.vertex (c_pts s') j)).
    { intros s' j Hs' Hj. exists (c_pts s'). split; [apply in_map_iff; exists s'; auto|].
      unfold znth, Spec_Out.vertex. destruct (j <? 0) eqn:El; [lia|]. unfold zlen in Hj. apply nth_error_nth'. lia. }
    exists (Spec_Out.vertex (c_pts s) k). split; [exact (Hat s k Hs Hk)|]. split.
    + destruct Hsh as [(k' & Hne & Hk' & He) | (i & j & pts' & k' & Hij & Hi & Hj & Hk' & He)].
      * exists (c_id s), k', (Spec_Out.vertex (c_pts s) k'). split; [congruence|]. split; [exact (Hat s k' Hs Hk')|exact He].
      * rewrite <- Ep in Hi, Hj. rewrite nth_error_map in Hi, Hj.
        destruct (nth_error selfs i) as [si|] eqn:Ei; [|discriminate]. destruct (nth_error selfs j) as [sj|] eqn:Ej; [|discriminate].
        cbn in Hi, Hj. injection Hi as Hi. injection Hj as Hj. subst pts'.
        assert (Hids : c_id si <> c_id sj).
        { intros Hid. apply Hij. eapply (proj1 (NoDup_nth_error (map c_id selfs)) Hnd); [rewrite map_length; apply nth_error_Some; congruence|].
          rewrite !nth_error_map, Ei, Ej. cbn. congruence. }
        destruct (Z.eq_dec (c_id si) (c_id s)) as [Eid|Nid].
        -- exists (c_id sj), k', (Spec_Out.vertex (c_pts sj) k'). split; [congruence|]. split; [|exact He]. apply Hat; [exact (nth_error_In _ _ Ej)|exact Hk'].
        -- exists (c_id si), k, (Spec_Out.vertex (c_pts si) k). split; [congruence|]. split; [apply Hat; [exact (nth_error_In _ _ Ei)|rewrite Hi; exact Hk]|].
           rewrite Hi. apply loc_eq_refl. rewrite Forall_forall in C2. apply C2. apply in_concat. exists (c_pts s).
           split; [apply in_map; exact Hs|]. apply nth_In. unfold zlen in Hk. lia.
    + rewrite Ec, Ep. exact Hng.
Qed.

Theorem C56_forced_vertices_in_output_partial :
  forall {P} (lib : jsonlib P) S is_class o score input cinput fs constraints,
  let lines := map (map (jl_point lib)) (flat_map feature_parts fs) in
  run_input lib S is_class o score input cinput fs constraints ->
  o_planar_self o = true ->
  (forall pts c, In pts lines ->
     In c (self_intersections (su_world S) (proto o score pts)) \/ (exists k, 0 <= k < zlen pts /\ c = (Spec_Out.vertex pts k, [k])) ->
     location_on_hulls (w_geom (su_world S)) pts c /\ boxes_not_farther (w_geom (su_world S)) pts c) ->
  writes lib S is_class o score input cinput fs
    (fun pts kept => forall k, forced_vertex S is_class o score lines pts k -> In k kept).
Proof.
  intros P lib S is_class o score input cinput fs gs lines H Hps Hg.
  destruct (input_in_run lib S is_class o score input cinput fs gs H) as (selfs & Hr & Hw).
  eapply writes_impl; [|exact Hw]. intros pts kept Hin.
  exact (line_forced _ _ _ _ _ _ _ pts kept Hr Hps Hin (fun c => Hg pts c Hin)).
Qed.

(** ** C58 *)

Lemma join_unlines l : join_lines l = unlines l.
Proof.
  induction l as [|x r IH]; [reflexivity|]. cbn [join_lines unlines]. destruct r as [|y r]; [reflexivity|].
  rewrite IH. reflexivity.
Qed.

(** The file written can be read again, by the same program for example: it holds the same
    number of features, each with the properties of the one read and for every part the
    written coordinates of the vertices kept. *)
Theorem C58_output_reads_back :
  forall {P} (lib : jsonlib P) S is_class o score input cinput fs constraints write,
  run_input lib S is_class o score input cinput fs constraints ->
  (forall outs, run lib S is_class o score (unlines input) (unlines cinput) = Ok outs -> Forall (json_text lib write) outs) ->
  exists outs back plns,
    run lib S is_class o score (unlines input) (unlines cinput) = Ok outs /\
    (* what the program reads in the file *)
    parse_input lib (read_json_tokens (output_text write outs)) = Ok plns /\
    map pl_pts plns = map (map (jl_point lib)) (flat_map feature_parts back) /\
    (* the features in it *)
    Forall2 (reads lib) (read_json_tokens (output_text write outs)) (map DFeature back) /\
    length back = length fs /\
    forall i f, nth_error fs i = Some f -> exists g, nth_error back i = Some g /\
      jf_props g = Some (props_or_empty lib f) /\
      Forall2 (fun c w => exists s, kept_ok (zlen c) s /\ written (jl_zero lib) (map (Spec_Out.vertex (map (jl_point lib) c)) s) w)
        (feature_parts f) (feature_parts g).
Proof.
  intros P lib S is_class o score input cinput fs gs write H Hwr.
  destruct (run_outcome lib S is_class o score input cinput fs gs H) as (selfs & _ & _ & _ & outs & E & El & Hf).
  specialize (Hwr outs E).
  assert (Ht : read_json_tokens (output_text write outs) = map write outs).
  { unfold output_text. rewrite join_unlines. apply tokens_of.
    - rewrite Forall_map. eapply Forall_impl; [|exact Hwr]. intros ot (A & _). exact A.
    - clear -Hwr. induction Hwr as [|ot outs (_ & B & C & _) H IH]; cbn [map]; constructor; assumption. }
  assert (Hreads : Forall2 (reads lib) (map write outs) (map DFeature (map written_feature outs))).
  { clear -Hwr. induction Hwr as [|ot outs (_ & _ & _ & D) H IH]; cbn [map]; constructor; assumption. }
  destruct (C49_linear_parts_become_polylines lib _ _ Hreads) as (plns & Ep & Epts & _).
  { apply Forall_forall. intros f Hin. apply in_flat_map in Hin. destruct Hin as (d & Hd & Hin).
    apply in_map_iff in Hd. destruct Hd as (f' & <- & Hf'). destruct Hin as [<- |[]].
    apply in_map_iff in Hf'. destruct Hf' as (ot & <- & _). discriminate. }
  exists outs, (map written_feature outs), plns. split; [exact E|]. rewrite Ht. split; [exact Ep|]. split.
  { rewrite Epts. f_equal. f_equal. generalize (map written_feature outs). intros l. induction l as [|x l IH]; [reflexivity|].
    cbn. rewrite IH. reflexivity. }
  split; [exact Hreads|]. split; [rewrite map_length; exact El|].
  intros i f Hi. destruct (Hf i f Hi) as (ot & kept & Eo & Eprops & Hk & Hw).
  exists (written_feature ot). split; [rewrite nth_error_map, Eo; reflexivity|].
  split; [cbn [written_feature jf_props]; rewrite Eprops; reflexivity|].
  assert (Hall : Forall2 (written (jl_zero lib)) kept (feature_parts (written_feature ot))).
  { unfold feature_parts, written_feature. cbn [jf_geom]. destruct Hw as [pts cs Hcs|parts css _ Hcss]; cbn; [|exact Hcss].
    constructor; [exact Hcs|constructor]. }
  revert Hk Hall. generalize (feature_parts (written_feature ot)). generalize (feature_parts f). clear. intros l l' Hk.
  revert l'. induction Hk as [|c k l kept (s & Hs & _ & ->) Hk IH]; intros l' Hall; inversion Hall; subst; constructor; auto.
  exists s. split; [unfold zlen in Hs |- *; rewrite map_length in Hs; exact Hs|assumption].
Qed.

(** ** Cases *)

(** Two lines of input, a line and a feature of two lines, and one constraint. *)
Definition exB_setup : setup := Setup exB (fun k => Z.of_nat k) ex_gens (fun _ => in_turn) in_turn 60.
Lemma exB_setup_ok : setup_ok exB_setup.
Proof.
  destruct ex_setup_ok as [_ B C D E F]. split; [exact exB_ok|exact B|exact C|exact D|exact E|exact F].
Qed.
Definition ex_input : list bytes := [str " l "; str ""; str "f"].
Definition ex_features : list (jfeat bool) := [JFeat (Some (jline zig)) None; ex_feat].
Definition ex_constraint : geometry := GPoint (P2 3 4).
Lemma ex_lines : map (map (jl_point ex_lib)) (flat_map feature_parts ex_features) = [zig; zig; feat2_pts].
Proof. vm_compute. reflexivity. Qed.
Lemma ex_run_input is_class o :
  line_ok boxy (proto o toy_score zig) -> line_ok boxy (proto o toy_score feat2_pts) ->
  run_input ex_lib exB_setup is_class o toy_score ex_input [str "p"] ex_features [ex_constraint].
Proof.
  intros Kz K2. destruct C45_case as (_ & _ & Hk & Hr & H1 & _).
  split.
  - exact ex_json_ok.
  - exact exB_setup_ok.
  - repeat constructor; vm_compute; intros H; repeat (destruct H as [H|H]; [discriminate H|]); exact H.
  - exists [str "l"; str "f"], [ex_doc_l; DFeature ex_feat]. auto.
  - vm_compute. reflexivity.
  - repeat constructor.
  - repeat constructor; vm_compute; intros H; repeat (destruct H as [H|H]; [discriminate H|]); exact H.
  - exists [str "p"], [DGeometry (jpoint (P2 3 4))]. split.
    { assert (K : lines_kept [str "p"] (keep [str "p"])) by apply keep_kept. vm_compute in K. exact K. }
    split; [constructor; [exact ex_reads_p|constructor]|]. split; [|vm_compute; reflexivity].
    constructor; [|constructor]. vm_compute. discriminate.
  - constructor; [|constructor]. vm_compute. repeat split; try reflexivity; discriminate.
  - rewrite ex_lines. constructor; [exact Kz|]. constructor; [exact Kz|]. constructor; [exact K2|constructor].
  - intros _. rewrite ex_lines. split.
    + exact v_sort_sorts.
    + vm_compute. repeat (constructor; [split; reflexivity|]). constructor.
    + intros p q _ _. reflexivity.
  - rewrite ex_lines. vm_compute. lia.
Qed.
Ltac ex_input_ok T := apply ex_run_input; line_ok_compute T.

Definition free_opts : opts := Opts (f_of_Z 4) fzero fzero false false false false false false.

(** Without the class option the vertex nearest to the constraint is kept. *)
Example C57_case :
  run_input ex_lib exB_setup false fc_opts toy_score ex_input [str "p"] ex_features [ex_constraint] /\
  match run ex_lib exB_setup false fc_opts toy_score (unlines ex_input) (unlines [str "p"]) with
  | Ok outs => outs = [OFeat false (OLine (map flat (pick origin zig [0; 1; 4])));
      OFeat true (OMulti [map flat (pick origin zig [0; 1; 4]); map flat (pick origin feat2_pts [0; 2])])]
  | _ => False
  end.
Proof. split; [ex_input_ok (f_of_Z 10)|]. vm_compute. reflexivity. Qed.

(** With it the lines share all their vertices. *)
Example C56_case :
  run_input ex_lib exB_setup true fc_opts toy_score ex_input [str "p"] ex_features [ex_constraint] /\
  (forall pts c, In pts [zig; zig; feat2_pts] ->
     In c (self_intersections exB (proto fc_opts toy_score pts)) \/ (exists k, 0 <= k < zlen pts /\ c = (Spec_Out.vertex pts k, [k])) ->
     location_on_hulls boxy pts c /\ boxes_not_farther boxy pts c) /\
  forced_vertex exB_setup true fc_opts toy_score [zig; zig; feat2_pts] feat2_pts 1 /\
  match run ex_lib exB_setup true fc_opts toy_score (unlines ex_input) (unlines [str "p"]) with
  | Ok outs => outs = [OFeat false (OLine (map flat zig)); OFeat true (OMulti [map flat zig; map flat feat2_pts])]
  | _ => False
  end.
Proof.
  split; [ex_input_ok (f_of_Z 10)|]. split; [|split].
  - intros pts c Hp Hc. split.
    + assert (Hc' : exists k, In k (zseq 0 (zlen pts - 1)) /\ c = (Spec_Out.vertex pts k, [k])).
      { destruct Hc as [Hc|(k & Hk & ->)]; [|exists k; split; [apply zseq_in; lia|reflexivity]].
        exfalso. destruct Hp as [<- |[<- |[<- |[]]]]; vm_compute in Hc; exact Hc. }
      clear Hc. destruct Hc' as (k0 & Hk0 & ->). intros r k Hr Hk Hin. cbn [snd In] in Hk. destruct Hk as [<- |[]]. cbn [fst].
      destruct Hp as [<- |[<- |[<- |[]]]]; vm_compute in Hk0; repeat (destruct Hk0 as [<- |Hk0]); try destruct Hk0;
        by_pieces r Hr; cbn [rI rJ] in Hin; try lia; vm_compute; reflexivity.
    + apply boxy_not_farther. destruct Hp as [<- |[<- |[<- |[]]]]; (split; [discriminate|]); repeat constructor.
  - split; [vm_compute; split; [discriminate|reflexivity]|]. right. split; [reflexivity|]. split.
    + right. exists 2%nat, 0%nat, zig, 0. split; [discriminate|]. split; [reflexivity|]. split; [reflexivity|].
      split; [vm_compute; split; [discriminate|reflexivity]|vm_compute; reflexivity].
    + exists (P2 20 0). split; [vm_compute; tauto|vm_compute; reflexivity].
  - vm_compute. reflexivity.
Qed.

Lemma ex_geometry_ok pts : pts = zig \/ pts = feat2_pts -> geometry_ok boxy [ex_constraint] pts.
Proof.
  intros Hp. split.
  - intros p Hin. cbn [boxy gl_eq2d]. apply loc_eq_refl. revert p Hin. apply Forall_forall. destruct Hp as [-> | ->]; repeat constructor.
  - intros a b g Ha Hab Hb [<- |[]]. split.
    + assert (Hr : piece pts (Rng a b)) by (split; [exact Ha|]; split; [exact Hab|cbn; lia]).
      remember (Rng a b) as r eqn:Er. unfold part. rewrite <- Er. assert (Ea : a = rI r) by (subst; reflexivity).
      assert (Eb : b = rJ r) by (subst; reflexivity). clear Er. subst a b. clear Ha Hab Hb.
      destruct Hp as [-> | ->]; by_pieces r Hr;
        (split; [vm_compute; auto|]; split; [vm_compute; auto|]; split; [|vm_compute; reflexivity];
         intros x y d Hx Hy Hd; try (intros _; vm_compute; reflexivity);
         vm_compute in Hx; vm_compute in Hy; vm_compute in Hd;
         repeat (destruct Hx as [<- |Hx]); try destruct Hx; repeat (destruct Hy as [<- |Hy]); try destruct Hy;
         repeat (destruct Hd as [<- |Hd]); try destruct Hd; vm_compute; auto).
    + intros bx Hw. apply boxy_box_dist; auto. split; [discriminate|]. repeat constructor.
Qed.

(** The constraint is inside the triangle of the first three vertices. *)
Example C59_case :
  run_input ex_lib exB_setup true fc_opts toy_score ex_input [str "p"] ex_features [ex_constraint] /\
  fle fzero (o_min_dist fc_opts) = true /\
  Forall (geometry_ok boxy [ex_constraint]) [zig; zig; feat2_pts] /\
  honours boxy fc_opts [ex_constraint] zig [0; 1; 4] /\ ~ honours boxy fc_opts [ex_constraint] zig [0; 4].
Proof.
  split; [ex_input_ok (f_of_Z 10)|]. split; [reflexivity|]. split; [|split].
  - repeat (apply Forall_cons; [apply ex_geometry_ok; auto|]). constructor.
  - intros a b (Ha & Hb & Hab & Hno) Hne _.
    assert (E : a = 1 /\ b = 4).
    { cbn [In] in Ha, Hb. destruct Ha as [<- |[<- |[<- |[]]]], Hb as [<- |[<- |[<- |[]]]]; try lia.
      exfalso. apply (Hno 1); cbn; [auto|lia]. }
    destruct E as [-> ->]. cbv zeta. split; [|split]; intros _.
    + intros g [<- |[]]. vm_compute. reflexivity.
    + intros g [<- |[]]. left. vm_compute. reflexivity.
    + vm_compute. reflexivity.
  - intros H. destruct (H 0 4) as (H1 & _); [|discriminate|vm_compute; reflexivity|].
    + split; [cbn; auto|]. split; [cbn; auto|]. split; [lia|]. intros x [<- |[<- |[]]]; lia.
    + specialize (H1 eq_refl ex_constraint (or_introl eq_refl)). vm_compute in H1. discriminate.
Qed.

(** A writer and a reader of the two features written in C57_case. *)
Definition ex_outs : list (@ofeature bool) :=
  [OFeat false (OLine (map flat (pick origin zig [0; 1; 4])));
   OFeat true (OMulti [map flat (pick origin zig [0; 1; 4]); map flat (pick origin feat2_pts [0; 2])])].
Definition ex_write (ot : @ofeature bool) : bytes := match of_geom ot with OLine _ => str "{1}" | OMulti _ => str "{2}" end.
Definition ex_lib_rw : jsonlib bool := JsonLib
  (fun s => if bytes_eqb s (str "{1}") || bytes_eqb s (str "{2}") then Some (named "Feature") else ex_type s)
  (jl_geometry ex_lib)
  (fun s => if bytes_eqb s (str "{1}") then option_map written_feature (nth_error ex_outs 0)
            else if bytes_eqb s (str "{2}") then option_map written_feature (nth_error ex_outs 1) else jl_feature ex_lib s)
  (jl_collection ex_lib) (jl_marshal ex_lib) (jl_unmarshal ex_lib) (jl_empty ex_lib) (jl_point ex_lib) (jl_zero ex_lib).
Example C58_case :
  run_input ex_lib_rw exB_setup false fc_opts toy_score ex_input [str "p"] ex_features [ex_constraint] /\
  (forall outs, run ex_lib_rw exB_setup false fc_opts toy_score (unlines ex_input) (unlines [str "p"]) = Ok outs ->
     Forall (json_text ex_lib_rw ex_write) outs) /\
  output_text ex_write ex_outs = str "{1}" ++ newline :: str "{2}".
Proof.
  split; [|split].
  - destruct C57_case as [[A B C (toks & docs & D1 & D2 & D3) E F G (ct & cd & H1 & H2 & H3 & H4) I J K L] _].
    split; auto.
    + destruct A as [A1 A2 A3]. split; assumption.
    + exists [str "l"; str "f"], [ex_doc_l; DFeature ex_feat]. destruct C45_case as (_ & _ & Hk & Hr & H1' & _).
      split; [exact Hk|]. split; [|exact H1'].
      constructor; [eapply R_geometry; [reflexivity|cbn; auto|reflexivity]|]. constructor; [apply R_feature; reflexivity|constructor].
    + exists [str "p"], [DGeometry (jpoint (P2 3 4))]. split.
      { assert (Q : lines_kept [str "p"] (keep [str "p"])) by apply keep_kept. vm_compute in Q. exact Q. }
      split; [constructor; [eapply R_geometry; [reflexivity|cbn; auto|reflexivity]|constructor]|]. split; [|vm_compute; reflexivity].
      constructor; [|constructor]. vm_compute. discriminate.
  - intros outs E. assert (E' : run ex_lib_rw exB_setup false fc_opts toy_score (unlines ex_input) (unlines [str "p"]) = Ok ex_outs)
      by (vm_compute; reflexivity).
    rewrite E' in E. injection E as <-.
    assert (T : forall t : bytes, trim t = t -> trimmed t t) by (intros t Et; rewrite <- Et at 2; apply trim_spec).
    assert (B : forall c t, is_space c = false -> ~ blank (c :: t)).
    { intros c t Hc Hb. inversion Hb; subst. apply is_space_spec in H1. congruence. }
    repeat constructor.
    + vm_compute. intros H. repeat (destruct H as [H|H]; [discriminate H|]). exact H.
    + apply B. reflexivity.
    + apply T. reflexivity.
    + vm_compute. intros H. repeat (destruct H as [H|H]; [discriminate H|]). exact H.
    + apply B. reflexivity.
    + apply T. reflexivity.
  - reflexivity.
Qed.

Example C60_case :
  run_input ex_lib exB_setup true free_opts toy_score ex_input [str "p"] ex_features [ex_constraint] /\
  match run ex_lib exB_setup true free_opts toy_score (unlines ex_input) (unlines [str "p"]) with
  | Ok outs => outs = [OFeat false (OLine (map flat (pick origin zig [0; 1; 4])));
      OFeat true (OMulti [map flat (pick origin zig [0; 1; 4]); map flat feat2_pts])]
  | _ => False
  end /\ ~ within_threshold toy_ptseg (f_of_Z 4) zig [0; 4].
Proof.
  split; [ex_input_ok (f_of_Z 4)|]. split; [vm_compute; reflexivity|].
  intros H. specialize (H 0 4 1). cbv zeta in H.
  assert (K : fle (toy_ptseg (Spec_Out.vertex zig 0) (Spec_Out.vertex zig 4) (Spec_Out.vertex zig 1)) (f_of_Z 4) = true).
  { apply H; [|lia|vm_compute; reflexivity]. split; [cbn; auto|]. split; [cbn; auto|]. split; [lia|]. intros x [<- |[<- |[]]]; lia. }
  vm_compute in K. discriminate.
Qed.

(** ** C54 for constrained simplification *)

(** Unlike plain Douglas-Peucker (C54), constrained simplification is not stable, even without
    constraints: merging short pieces drops vertex 1, after which simplifying the result again
    drops two more, and vertex 1 ends up farther than the threshold 4 from what is left. *)
Definition bent : list point := [P2 0 0; P2 10 5; P2 30 3; P2 11 (-3); P2 100 0].
Definition bent_opts : opts := Opts (f_of_Z 4) fzero fzero false false false false false false.
Definition bent_dp (pts : list point) : cdp := Cdp 7 pts bent_opts toy_score None new_hdb_default.
Theorem C54_constrained_again_refuted :
  libs_ok exW /\ line_ok toy (bent_dp bent) /\ built_from exW (bent_dp bent) [] /\
  line_ok toy (bent_dp (pick origin bent [0; 2; 3; 4])) /\
  match simplify exW in_turn (bent_dp bent) [] 20 0 with Ok (hs, _) => simple_set hs = [0; 2; 3; 4] | _ => False end /\
  match simplify exW in_turn (bent_dp (pick origin bent [0; 2; 3; 4])) [] 20 0 with Ok (hs, _) => simple_set hs = [0; 3] | _ => False end /\
  flt (f_of_Z 4) (toy_ptseg (P2 0 0) (P2 100 0) (P2 10 5)) = true.
Proof.
  split; [exact exW_ok|]. split; [line_ok_compute (f_of_Z 4)|]. split; [split; [vm_compute; reflexivity|constructor]|].
  split; [line_ok_compute (f_of_Z 4)|]. vm_compute. repeat split.
Qed.
Print Assumptions C54_constrained_again_refuted.

Print Assumptions C56_forced_vertices_in_output_partial.
Print Assumptions C57_lines_simplified_alone.
Print Assumptions C59_constraints_honoured_in_output.
Print Assumptions C60_threshold_in_output.
Print Assumptions C58_output_reads_back.
