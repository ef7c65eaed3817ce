(** Claims C62 for any documents, C73 and C74: which constraints the output can depend on.
    Vocabulary: Spec_Modes.v, Spec_Docs.v, Spec_Out.v, Spec_ConstDP.v. *)
From Coq Require Import Ascii String.
From Verif Require Import M_Base M_Float M_Rng M_Geom M_Offset M_Node M_Decompose M_Hdb M_Knn M_Lnr M_Homotopy M_Relate M_Constrain M_ConstDP
  M_Text M_IO Spec Spec_Hdb Spec_Lnr Spec_Relate Spec_ConstDP Spec_Text Spec_IO Spec_Run Spec_Out Spec_Docs Spec_Modes
  P_Base P_Float P_Decompose P_DpTree P_Split P_Node P_Lnr P_Bag P_ConstDP P_Simplify P_Class P_Text P_IO P_Run P_Out P_Docs P_Modes Toy Toy_Box
  Properties_Core Properties_Lnr Properties_Relate Properties_ConstDP Properties_IO Properties_Run Properties_Chord Properties_Twin Properties_Docs
  Properties_Modes.
Open Scope Z_scope.

Lemma first_linear_fun {P} (fs : list (jfeat P)) f g : first_linear fs f -> first_linear fs g -> f = g.
Proof.
  intros (a & b & E & Ha & Hf) (a' & b' & E' & Ha' & Hg). subst fs. revert a' E' Ha'.
  induction Ha as [|x a Hx Ha IH]; intros [|y a'] E' Ha'; cbn [app] in E'.
  - congruence.
  - injection E' as -> _. inversion Ha'; subst. contradiction.
  - injection E' as <- _. contradiction.
  - injection E' as _ E'. inversion Ha'; subst. eapply IH; eauto.
Qed.

(** What writes_docs says of one document. *)
Definition writes_doc {P} (lib : jsonlib P) (d : document P) (ot : @ofeature P) (R : list point -> list Z -> Prop) : Prop :=
  exists f kept, first_linear (doc_features d) f /\ of_props ot = props_or_empty lib f /\
    Forall2 (fun g rows => Forall2 (fun c k => kept_with R (map (jl_point lib) c) k) (feature_parts g) rows) (doc_features d) kept /\
    written_parts (jl_zero lib) (columns kept) (of_geom ot).
Lemma writes_doc_fun {P} (lib : jsonlib P) d ot ot' (R R' : list point -> list Z -> Prop) :
  writes_doc lib d ot R -> writes_doc lib d ot' R' ->
  (forall pts k k', In pts (map (map (jl_point lib)) (doc_parts d)) -> R pts k -> R' pts k' -> k = k') -> ot = ot'.
Proof.
  intros (f & kept & B & C & D & E) (f' & kept' & B' & C' & D' & E') Hfun. rewrite (first_linear_fun _ _ _ B B') in C.
  assert (Ek : kept = kept').
  { assert (Hin : forall g c, In g (doc_features d) -> In c (feature_parts g) ->
      In (map (jl_point lib) c) (map (map (jl_point lib)) (doc_parts d))).
    { intros g c Hg Hc. apply in_map. unfold doc_parts. apply in_flat_map. eauto. }
    clear -D D' Hin Hfun. revert kept' D' Hin. induction D as [|g rows gs kept Hg D IH]; intros kept' D' Hin;
      inversion D' as [|? rows' ? kept'' Hg' D'']; subst; [reflexivity|].
    f_equal; [|apply IH; auto; intros x c Hx; apply Hin; right; exact Hx].
    assert (Hc : forall c, In c (feature_parts g) -> In (map (jl_point lib) c) (map (map (jl_point lib)) (doc_parts d))).
    { intros c. apply Hin. left; reflexivity. }
    clear -Hg Hg' Hc Hfun. revert rows' Hg' Hc. induction Hg as [|c k l rows (s & _ & H1 & ->) Hg IH]; intros rows' Hg' Hc;
      inversion Hg' as [|? k' ? rows'' (s' & _ & H2 & ->) Hg'']; subst; [reflexivity|].
    f_equal; [|apply IH; auto; intros x Hx; apply Hc; right; exact Hx].
    rewrite (Hfun _ s s' (Hc c (or_introl eq_refl)) H1 H2). reflexivity. }
  subst kept'. destruct ot as [p g], ot' as [p' g']. cbn [of_props of_geom] in *. rewrite C, C'. f_equal. eapply written_parts_fun; eauto.
Qed.
Lemma part_in {P} (lib : jsonlib P) docs i (d : document P) pts : nth_error docs i = Some d -> In pts (map (map (jl_point lib)) (doc_parts d)) ->
  In pts (map (map (jl_point lib)) (flat_map doc_parts docs)).
Proof.
  intros Hd Hp. apply in_map_iff in Hp. destruct Hp as (c & <- & Hc). apply in_map. apply in_flat_map. exists d.
  split; [eapply nth_error_In; exact Hd|exact Hc].
Qed.

Lemma writes_docs_fun {P} (lib : jsonlib P) docs m outs outs' (R R' : list point -> list Z -> Prop) : linear_first docs m ->
  writes_docs lib docs m outs R -> writes_docs lib docs m outs' R' ->
  (forall pts k k', In pts (map (map (jl_point lib)) (flat_map doc_parts docs)) -> R pts k -> R' pts k' -> k = k') ->
  outs = outs'.
Proof.
  intros [Hm _] (El & Ho) (El' & Ho') Hfun. apply nth_error_ext. intros i. destruct (lt_dec i m) as [Hi|Hi].
  2:{ rewrite (proj2 (nth_error_None outs i)), (proj2 (nth_error_None outs' i)) by lia. reflexivity. }
  destruct (nth_error docs i) as [d|] eqn:Ed; [|apply nth_error_None in Ed; lia].
  destruct (Ho i d Hi Ed) as (ot & f & kept & A & B). destruct (Ho' i d Hi Ed) as (ot' & f' & kept' & A' & B').
  rewrite A, A'. f_equal. apply (writes_doc_fun lib d ot ot' R R'); [exists f, kept; exact B|exists f', kept'; exact B'|].
  intros pts k k' Hp. apply Hfun. eapply part_in; eauto.
Qed.

Lemma alone_unique {P} (lib : jsonlib P) b b' (S S' : setup) o score input input' cinput cinput' docs docs' cs cs' :
  run_docs lib S b o score input cinput docs cs -> run_docs lib S' b' o score input' cinput' docs' cs' ->
  let L := w_geom (su_world S) in
  w_geom (su_world S') = L -> w_lnr (su_world S') = w_lnr (su_world S) ->
  is_nan (o_min_dist o) = false ->
  forall pts k k', In pts (map (map (jl_point lib)) (flat_map doc_parts docs)) -> In pts (map (map (jl_point lib)) (flat_map doc_parts docs')) ->
  agree_near L (o_min_dist o) pts cs cs' ->
  (forall r g, piece pts r -> In g cs \/ In g cs' -> box_distance_ok L (piece_hull L pts r) g (gl_bounds L g)) ->
  (o_planar_self o = true -> forall c, In c (self_intersections (su_world S) (proto o score pts)) -> boxes_not_farther L pts c) ->
  simplified_alone S o score cs pts k -> simplified_alone S' o score cs' pts k' -> k = k'.
Proof.
  intros H H' L EL EN Hnan pts k k' Hin Hin' Ha G1 G2 Ra Rb.
  destruct Ra as (id & db & hs & n & Eb & Er & ->), Rb as (id' & db' & hs' & n' & Eb' & Er' & ->).
  pose proof (rd_ok _ _ _ _ _ _ _ _ _ H) as Hl. rewrite Forall_forall in Hl. specialize (Hl pts Hin). cbv zeta in *.
  assert (Hle : (length pts <= length (concat (map (map (jl_point lib)) (flat_map doc_parts docs))))%nat)
    by (apply length_concat_in; exact Hin).
  assert (Hle' : (length pts <= length (concat (map (map (jl_point lib)) (flat_map doc_parts docs'))))%nat)
    by (apply length_concat_in; exact Hin').
  pose proof (rd_fuel _ _ _ _ _ _ _ _ _ H) as Hfuel. pose proof (rd_fuel _ _ _ _ _ _ _ _ _ H') as Hfuel'.
  pose proof (rd_setup _ _ _ _ _ _ _ _ _ H) as Hs0. pose proof (rd_setup _ _ _ _ _ _ _ _ _ H') as Hs1.
  destruct (C73_only_near_constraints_matter _ _ (su_ords S id) (su_ords S' id') (Cdp id pts o score None db) (Cdp id' pts o score None db')
              cs cs' [] (su_fuel S) (su_fuel S') 0 0 (world_i_ok S id Hs0) (world_i_ok S' id' Hs1) (so_ords _ Hs0 id) (so_ords _ Hs1 id'))
    as (a & na & c & nc & Ea & Ebb & Eset & _); cbn [line_world w_geom w_lnr c_pts c_opts c_score c_sq]; auto.
  - apply (line_ok_twin L (proto o score pts)); auto.
  - split; [exact Eb|]. exact (rd_boxes _ _ _ _ _ _ _ _ _ H).
  - split; [exact Eb'|]. exact (rd_boxes _ _ _ _ _ _ _ _ _ H').
  - lia.
  - lia.
  - intros Hpl c0 Hc. rewrite app_nil_r in Hc. apply (G2 Hpl). exact Hc.
  - unfold line_world in Ea, Ebb. rewrite Er in Ea. rewrite Er' in Ebb. injection Ea as <- <-. injection Ebb as <- <-. exact Eset.
Qed.

(** ** C73 *)

(** Two runs without the class option, on files with the same documents and with constraints that agree near
    every line, write the same. *)
Theorem C73_far_constraints_do_not_change_output :
  forall {P} (lib : jsonlib P) (S S' : setup) o score input input' cinput cinput' docs constraints constraints' m,
  run_docs lib S false o score input cinput docs constraints ->
  run_docs lib S' false o score input' cinput' docs constraints' -> linear_first docs m ->
  let L := w_geom (su_world S) in
  w_geom (su_world S') = L -> w_lnr (su_world S') = w_lnr (su_world S) -> is_nan (o_min_dist o) = false ->
  (forall pts, In pts (map (map (jl_point lib)) (flat_map doc_parts docs)) ->
     agree_near L (o_min_dist o) pts constraints constraints' /\
     (forall r g, piece pts r -> In g constraints \/ In g constraints' ->
        box_distance_ok L (piece_hull L pts r) g (gl_bounds L g)) /\
     (o_planar_self o = true -> forall c, In c (self_intersections (su_world S) (proto o score pts)) -> boxes_not_farther L pts c)) ->
  exists outs, run lib S false o score (unlines input) (unlines cinput) = Ok outs /\
    run lib S' false o score (unlines input') (unlines cinput') = Ok outs.
Proof.
  intros P lib S S' o score input input' cinput cinput' docs cs cs' m H H' Hm L EL EN Hnan Hgeo.
  destruct (C57_any_documents lib S o score input cinput docs cs m H Hm) as (outs & E & W).
  destruct (C57_any_documents lib S' o score input' cinput' docs cs' m H' Hm) as (outs' & E' & W').
  exists outs. split; [exact E|]. rewrite E'. f_equal. symmetry. eapply writes_docs_fun; eauto.
  intros pts k k' Hin Hk Hk'. destruct (Hgeo pts Hin) as (G0 & G1 & G2).
  exact (alone_unique lib false false S S' o score input input' cinput cinput' docs docs cs cs' H H' EL EN Hnan pts k k' Hin Hin G0 G1 G2 Hk Hk').
Qed.

(** ** C62 *)

Theorem C62_any_documents :
  forall {P} (lib : jsonlib P) (S S' : setup) o score input input' cinput cinput' docs constraints constraints' m,
  run_docs lib S false o score input cinput docs constraints ->
  run_docs lib S' false o score input' cinput' docs constraints' -> linear_first docs m ->
  let L := w_geom (su_world S) in
  w_geom (su_world S') = L -> w_lnr (su_world S') = w_lnr (su_world S) -> is_nan (o_min_dist o) = false ->
  (forall g, In g constraints <-> In g constraints') ->
  (forall pts, In pts (map (map (jl_point lib)) (flat_map doc_parts docs)) ->
     (forall r g, piece pts r -> In g constraints -> box_distance_ok L (piece_hull L pts r) g (gl_bounds L g)) /\
     (o_planar_self o = true -> forall c, In c (self_intersections (su_world S) (proto o score pts)) -> boxes_not_farther L pts c)) ->
  exists outs, run lib S false o score (unlines input) (unlines cinput) = Ok outs /\
    run lib S' false o score (unlines input') (unlines cinput') = Ok outs.
Proof.
  intros P lib S S' o score input input' cinput cinput' docs cs cs' m H H' Hm L EL EN Hnan Hcs Hgeo.
  apply (C73_far_constraints_do_not_change_output lib S S' o score input input' cinput cinput' docs cs cs' m H H' Hm EL EN Hnan).
  intros pts Hin. destruct (Hgeo pts Hin) as (G1 & G2). split; [intros r g _ _; apply Hcs|]. split; [|exact G2].
  intros r g Hr [Hg|Hg]; apply G1; auto. apply Hcs, Hg.
Qed.

(** With the class option the same holds when the lines are nowhere near each other and planar_self is off. *)
Theorem C62_class_of_lines_apart :
  forall {P} (lib : jsonlib P) (S S' : setup) o score input input' cinput cinput' docs constraints constraints' m,
  run_docs lib S true o score input cinput docs constraints ->
  run_docs lib S' true o score input' cinput' docs constraints' -> linear_first docs m ->
  let L := w_geom (su_world S) in
  w_geom (su_world S') = L -> w_lnr (su_world S') = w_lnr (su_world S) -> is_nan (o_min_dist o) = false ->
  (forall g, In g constraints <-> In g constraints') ->
  o_planar_self o = false -> lines_apart L (map (map (jl_point lib)) (flat_map doc_parts docs)) ->
  (forall pts, In pts (map (map (jl_point lib)) (flat_map doc_parts docs)) ->
     (forall r g, piece pts r -> In g constraints -> box_distance_ok L (piece_hull L pts r) g (gl_bounds L g))) ->
  exists outs, run lib S true o score (unlines input) (unlines cinput) = Ok outs /\
    run lib S' true o score (unlines input') (unlines cinput') = Ok outs.
Proof.
  intros P lib S S' o score input input' cinput cinput' docs cs cs' m H H' Hm L EL EN Hnan Hcs Hp Ha Hgeo.
  destruct (C72_lines_apart_do_not_interact lib S o score input cinput docs cs m H Hm Hp Ha) as (outs & E & W).
  destruct (C72_lines_apart_do_not_interact lib S' o score input' cinput' docs cs' m H' Hm Hp ltac:(rewrite EL; exact Ha)) as (outs' & E' & W').
  exists outs. split; [exact E|]. rewrite E'. f_equal. symmetry. eapply writes_docs_fun; eauto.
  intros pts k k' Hin Hk Hk'.
  apply (alone_unique lib true true S S' o score input input' cinput cinput' docs docs cs cs' H H' EL EN Hnan pts k k' Hin Hin); auto.
  - intros r g _ _. apply Hcs.
  - intros r g Hr [Hg|Hg]; apply (Hgeo pts Hin); auto. apply Hcs, Hg.
  - congruence.
Qed.

(** ** C74 *)

(** For any files and libraries: two runs that differ in the constraint file and both write, write the same. *)
Theorem C74_constraint_file_unused :
  forall {P} (lib : jsonlib P) S is_class o score input cinput cinput' outs outs', constraints_unused o ->
  run lib S is_class o score input cinput = Ok outs -> run lib S is_class o score input cinput' = Ok outs' -> outs = outs'.
Proof.
  intros P lib S is_class o score input cinput cinput' outs outs' Hn H H'. pose proof H as K. pose proof H' as K'. unfold run in H, H'.
  destruct (parse_input lib (read_json_tokens input)) as [plns| |] eqn:Ep; cbn [bind] in H, H'; try discriminate.
  destruct (parse_constraints lib (read_json_tokens cinput)) as [cs| |] eqn:Ec; cbn [bind] in H; try discriminate.
  destruct (parse_constraints lib (read_json_tokens cinput')) as [cs'| |] eqn:Ec'; cbn [bind] in H'; try discriminate.
  destruct (forest _ _ 0 plns cs o score) as [selfs| |] eqn:Ef; cbn [bind] in H; try discriminate.
  destruct (forest _ _ 0 plns cs' o score) as [selfs'| |] eqn:Ef'; cbn [bind] in H'; try discriminate.
  assert (E := run_unread lib S is_class o score input cinput cinput' selfs selfs' plns cs cs' Hn Ep Ec Ec' Ef Ef'). congruence.
Qed.

(** For constraint files that can be read the two runs end the same way. *)
Theorem C74_readable_constraint_files :
  forall {P} (lib : jsonlib P) S is_class o score input cinput cinput' docs constraints constraints', constraints_unused o ->
  run_docs lib S is_class o score input cinput docs constraints ->
  run_docs lib S is_class o score input cinput' docs constraints' ->
  run lib S is_class o score (unlines input) (unlines cinput) = run lib S is_class o score (unlines input) (unlines cinput').
Proof.
  intros P lib S is_class o score input cinput cinput' docs cs cs' Hn H H'.
  assert (X : forall m, gap docs -> linear_first docs m -> False).
  { intros m (i & j & d & e & Hij & Ei & Ej & Hd & He) (_ & Hl). apply (Hl j e Ej) in He. apply (proj2 (Hl i d Ei)); [lia|exact Hd]. }
  destruct (C64_any_documents lib S is_class o score input cinput docs cs H) as [(G & E)|(m & outs & Hm & E & _)];
  destruct (C64_any_documents lib S is_class o score input cinput' docs cs' H') as [(G' & E')|(m' & outs' & Hm' & E' & _)].
  - congruence.
  - exfalso. eauto.
  - exfalso. eauto.
  - rewrite E, E'. f_equal. exact (C74_constraint_file_unused lib S is_class o score _ _ _ _ _ Hn E E').
Qed.

(** ** C78 *)

(** Running the program on two files and on their concatenation, with the same constraints, gives the same features in
    the same order, if every document of the first file has a line. *)
Theorem C78_files_can_be_split :
  forall {P} (lib : jsonlib P) (S S1 S2 : setup) o score input1 input2 cinput cinput1 cinput2 docs1 docs2
         constraints constraints1 constraints2 m,
  run_docs lib S1 false o score input1 cinput1 docs1 constraints1 ->
  run_docs lib S2 false o score input2 cinput2 docs2 constraints2 ->
  run_docs lib S false o score (input1 ++ input2) cinput (docs1 ++ docs2) constraints ->
  linear_first docs1 (length docs1) -> linear_first docs2 m ->
  let L := w_geom (su_world S) in
  w_geom (su_world S1) = L -> w_lnr (su_world S1) = w_lnr (su_world S) ->
  w_geom (su_world S2) = L -> w_lnr (su_world S2) = w_lnr (su_world S) -> is_nan (o_min_dist o) = false ->
  (forall g, In g constraints1 <-> In g constraints) -> (forall g, In g constraints2 <-> In g constraints) ->
  (forall pts, In pts (map (map (jl_point lib)) (flat_map doc_parts (docs1 ++ docs2))) ->
     (forall r g, piece pts r -> In g constraints -> box_distance_ok L (piece_hull L pts r) g (gl_bounds L g)) /\
     (o_planar_self o = true -> forall c, In c (self_intersections (su_world S) (proto o score pts)) -> boxes_not_farther L pts c)) ->
  exists outs1 outs2,
    run lib S1 false o score (unlines input1) (unlines cinput1) = Ok outs1 /\
    run lib S2 false o score (unlines input2) (unlines cinput2) = Ok outs2 /\
    run lib S false o score (unlines (input1 ++ input2)) (unlines cinput) = Ok (outs1 ++ outs2).
Proof.
  intros P lib S S1 S2 o score input1 input2 cinput cinput1 cinput2 docs1 docs2 cs cs1 cs2 m H1 H2 H Hl1 Hl2 L EL1 EN1 EL2 EN2 Hnan Hc1 Hc2 Hgeo.
  assert (Hl : linear_first (docs1 ++ docs2) (length docs1 + m)).
  { destruct Hl1 as [_ Hl1], Hl2 as [Hm Hl2]. split; [rewrite app_length; lia|]. intros i d Hd.
    destruct (lt_dec i (length docs1)) as [Hi|Hi].
    - rewrite nth_error_app1 in Hd by exact Hi. rewrite (Hl1 i d Hd). lia.
    - rewrite nth_error_app2 in Hd by lia. rewrite (Hl2 _ d Hd). lia. }
  destruct (C57_any_documents lib S1 o score input1 cinput1 docs1 cs1 _ H1 Hl1) as (outs1 & E1 & (N1 & W1)).
  destruct (C57_any_documents lib S2 o score input2 cinput2 docs2 cs2 _ H2 Hl2) as (outs2 & E2 & (N2 & W2)).
  destruct (C57_any_documents lib S o score (input1 ++ input2) cinput (docs1 ++ docs2) cs _ H Hl) as (outs & E & (N & W)).
  exists outs1, outs2. split; [exact E1|]. split; [exact E2|]. rewrite E. f_equal. apply nth_error_ext. intros i.
  destruct Hl2 as [Hm Hl2].
  assert (U : forall (T : setup) docs input' cinput' cs' i0 d pts k k',
     run_docs lib T false o score input' cinput' docs cs' -> w_geom (su_world T) = L -> w_lnr (su_world T) = w_lnr (su_world S) ->
     (forall g, In g cs' <-> In g cs) -> nth_error docs i0 = Some d -> nth_error (docs1 ++ docs2) i = Some d ->
     In pts (map (map (jl_point lib)) (doc_parts d)) -> simplified_alone S o score cs pts k -> simplified_alone T o score cs' pts k' -> k = k').
  { intros T docs input' cinput' cs' i0 d pts k k' HT ELT ENT Hcs Hd0 Hd Hp Hk Hk'.
    pose proof (part_in lib _ _ _ _ Hd Hp) as Hin. destruct (Hgeo pts Hin) as (G1 & G2).
    apply (alone_unique lib false false S T o score (input1 ++ input2) input' cinput cinput' (docs1 ++ docs2) docs cs cs' H HT ELT ENT Hnan pts k k' Hin
             (part_in lib _ _ _ _ Hd0 Hp)); auto.
    - intros r g _ _. symmetry. apply Hcs.
    - intros r g Hr [Hg|Hg]; apply G1; auto. apply Hcs, Hg. }
  destruct (lt_dec i (length docs1 + m)) as [Hi|Hi].
  2:{ rewrite (proj2 (nth_error_None outs i)), (proj2 (nth_error_None (outs1 ++ outs2) i)) by (try rewrite app_length; lia). reflexivity. }
  destruct (nth_error (docs1 ++ docs2) i) as [d|] eqn:Ed; [|apply nth_error_None in Ed; rewrite app_length in Ed; lia].
  destruct (W i d Hi Ed) as (ot & f & kept & A & B).
  destruct (lt_dec i (length docs1)) as [Hj|Hj].
  - rewrite nth_error_app1 in Ed by exact Hj. rewrite nth_error_app1 by lia.
    destruct (W1 i d Hj Ed) as (ot' & f' & kept' & A' & B'). rewrite A, A'. f_equal.
    apply (writes_doc_fun lib d ot ot' (simplified_alone S o score cs) (simplified_alone S1 o score cs1)); [exists f, kept; exact B|exists f', kept'; exact B'|].
    intros pts k k' Hp Hk Hk'. eapply (U S1 docs1 input1 cinput1 cs1 i d); eauto.
  - rewrite nth_error_app2 in Ed by lia. rewrite nth_error_app2 by lia. rewrite N1.
    destruct (W2 (i - length docs1)%nat d ltac:(lia) Ed) as (ot' & f' & kept' & A' & B'). rewrite A, A'. f_equal.
    apply (writes_doc_fun lib d ot ot' (simplified_alone S o score cs) (simplified_alone S2 o score cs2)); [exists f, kept; exact B|exists f', kept'; exact B'|].
    intros pts k k' Hp Hk Hk'. eapply (U S2 docs2 input2 cinput2 cs2 (i - length docs1)%nat d); eauto.
Qed.

(** ** Cases *)

(** Files as in C64_case; the second constraint file also holds a point far from both lines. *)
Definition near_lib : jsonlib bool := JsonLib
  (fun s => if bytes_eqb s (str "q") then Some (str "Point") else ex_type s)
  (fun s => if bytes_eqb s (str "q") then Some (jpoint (P2 5000 70)) else jl_geometry ex_lib s)
  (jl_feature ex_lib) (jl_collection ex_lib) (jl_marshal ex_lib) (jl_unmarshal ex_lib) (jl_empty ex_lib) (jl_point ex_lib) (jl_zero ex_lib).
Definition near_opts : opts := Opts (f_of_Z 10) fzero fzero true false true true true true.
Definition far_constraint : geometry := GPoint (P2 5000 70).

Lemma exB_setup'_ok : setup_ok exB_setup'.
Proof.
  destruct exB_setup_ok as [B1 B2 B3 B4 B5 B6]. split.
  - destruct exB_ok as [A B C D]. split; auto. intros j k. cbn [exB_setup' su_world exB' w_gen]. unfold other_gen. lia.
  - cbn. intros i j. lia.
  - exact B3.
  - intros i k l. change (other_gen k <> ex_gens i l). unfold other_gen, ex_gens. lia.
  - intros i k l. symmetry. apply Permutation_rev.
  - intros k l. symmetry. apply Permutation_rev.
Qed.

Lemma near_run_docs T cinput cdocs cs : T = exB_setup \/ T = exB_setup' ->
  line_ok boxy (proto near_opts toy_score zig) -> line_ok boxy (proto near_opts toy_score feat2_pts) ->
  Forall (fun l => ~ In newline l) cinput ->
  lines_kept cinput (keep cinput) -> Forall2 (reads near_lib) (keep cinput) cdocs -> Forall has_geometry (flat_map doc_features cdocs) ->
  flat_map (constraint_parts near_lib) (flat_map doc_features cdocs) = map Some cs ->
  Forall (fun g => good_bounds (gl_bounds boxy g)) cs ->
  run_docs near_lib T false near_opts toy_score mixed_input cinput mixed_docs cs.
Proof.
  intros HT Kz K2 H1 H2 H3 H4 H5 H6. assert (EL : w_geom (su_world T) = boxy) by (destruct HT as [-> | ->]; reflexivity).
  destruct (mixed_run_docs false near_opts Kz K2) as [A1 A2 A3 A4 A5 A6 A7 A8 A9 A10 A11 A12 A13]. split; auto.
  - destruct A1. split; auto.
  - destruct HT as [-> | ->]; [exact exB_setup_ok|exact exB_setup'_ok].
  - exists [str "l"; str "c"; str "p"]. split.
    { assert (K : lines_kept mixed_input (keep mixed_input)) by apply keep_kept. vm_compute in K. exact K. }
    constructor; [eapply R_geometry; [reflexivity|cbn; tauto|reflexivity]|].
    constructor; [apply R_collection; reflexivity|].
    constructor; [eapply R_geometry; [reflexivity|cbn; tauto|reflexivity]|constructor].
  - exists (keep cinput), cdocs. auto.
  - rewrite EL. exact H6.
  - rewrite EL. exact A11.
  - intros K. discriminate K.
  - destruct HT as [-> | ->]; vm_compute; lia.
Qed.

Lemma agree_check L d pts cs : forall far,
  forallb (fun r => forallb (fun g => negb (fle (gl_dist L (piece_hull L pts r) g) d)) far) (pieces_of (length pts)) = true ->
  agree_near L d pts cs (cs ++ far).
Proof.
  intros far H r g Hr Hd. rewrite in_app_iff. split; [auto|]. intros [K|K]; [exact K|exfalso].
  rewrite forallb_forall in H. specialize (H r (pieces_all pts r Hr)). cbv beta in H. rewrite forallb_forall in H.
  specialize (H g K). rewrite Hd in H. discriminate.
Qed.

Example C73_case :
  run_docs near_lib exB_setup false near_opts toy_score mixed_input [str "p"] mixed_docs [ex_constraint] /\
  run_docs near_lib exB_setup' false near_opts toy_score mixed_input [str "p"; str "q"] mixed_docs [ex_constraint; far_constraint] /\
  linear_first mixed_docs 2 /\ is_nan (o_min_dist near_opts) = false /\
  (forall pts, In pts (map (map (jl_point near_lib)) (flat_map doc_parts mixed_docs)) ->
     agree_near boxy (o_min_dist near_opts) pts [ex_constraint] [ex_constraint; far_constraint] /\
     (forall r g, piece pts r -> In g [ex_constraint] \/ In g [ex_constraint; far_constraint] ->
        box_distance_ok boxy (piece_hull boxy pts r) g (gl_bounds boxy g)) /\
     (forall c, In c (self_intersections exB (proto near_opts toy_score pts)) -> boxes_not_farther boxy pts c)) /\
  ~ agree_near boxy (o_min_dist near_opts) zig [] [ex_constraint].
Proof.
  split; [|split; [|split; [exact mixed_first|split; [reflexivity|split]]]].
  - apply (near_run_docs exB_setup [str "p"] [DGeometry (jpoint (P2 3 4))] [ex_constraint]); auto; try (line_ok_compute (f_of_Z 10)).
    + repeat constructor; vm_compute; intros H; repeat (destruct H as [H|H]; [discriminate H|]); exact H.
    + apply keep_kept.
    + constructor; [eapply R_geometry; [reflexivity|cbn; tauto|reflexivity]|constructor].
    + constructor; [|constructor]. vm_compute. discriminate.
    + constructor; [|constructor]. vm_compute. repeat split; try reflexivity; discriminate.
  - apply (near_run_docs exB_setup' [str "p"; str "q"] [DGeometry (jpoint (P2 3 4)); DGeometry (jpoint (P2 5000 70))] [ex_constraint; far_constraint]);
      auto; try (line_ok_compute (f_of_Z 10)).
    + repeat constructor; vm_compute; intros H; repeat (destruct H as [H|H]; [discriminate H|]); exact H.
    + apply keep_kept.
    + constructor; [eapply R_geometry; [reflexivity|cbn; tauto|reflexivity]|].
      constructor; [eapply R_geometry; [reflexivity|cbn; tauto|reflexivity]|constructor].
    + repeat (constructor; [vm_compute; discriminate|]). constructor.
    + repeat (constructor; [vm_compute; repeat split; try reflexivity; discriminate|]). constructor.
  - assert (El : map (map (jl_point near_lib)) (flat_map doc_parts mixed_docs) = [zig; zig; feat2_pts; feat2_pts]) by (vm_compute; reflexivity).
    rewrite El. intros pts Hp. split; [|split].
    + apply (agree_check boxy _ pts [ex_constraint] [far_constraint]).
      destruct Hp as [<- |[<- |[<- |[<- |[]]]]]; vm_compute; reflexivity.
    + intros r g _ Hg b Hw. apply boxy_box_dist; auto.
      assert (g = ex_constraint \/ g = far_constraint) as [-> | ->] by (cbn in Hg; intuition auto); (split; [discriminate|]); repeat constructor.
    + intros c _. apply boxy_not_farther. destruct Hp as [<- |[<- |[<- |[<- |[]]]]]; (split; [discriminate|]); repeat constructor.
  - intros H. apply (H (Rng 0 4) ex_constraint); [vm_compute; repeat split; discriminate|vm_compute; reflexivity|left; reflexivity].
Qed.

(** The run of C72_case and the same with other ids and orders. *)
Example C62_case_class :
  run_docs far_lib exB_setup true add_opts toy_score [str "f"] [str "p"] [DFeature far_feat] [ex_constraint] /\
  run_docs far_lib exB_setup' true add_opts toy_score [str "f"] [str "p"] [DFeature far_feat] [ex_constraint] /\
  linear_first [DFeature far_feat] 1 /\ is_nan (o_min_dist add_opts) = false /\
  lines_apart boxy (map (map (jl_point far_lib)) (flat_map doc_parts [DFeature far_feat])) /\
  (forall pts r g, In pts (map (map (jl_point far_lib)) (flat_map doc_parts [DFeature far_feat])) -> piece pts r -> In g [ex_constraint] ->
     box_distance_ok boxy (piece_hull boxy pts r) g (gl_bounds boxy g)).
Proof.
  destruct C72_case as (H & Hm & Ha & _). split; [exact H|]. split; [|split; [exact Hm|split; [reflexivity|split; [exact Ha|]]]].
  - destruct H as [A1 A2 A3 A4 A5 A6 A7 A8 A9 A10 A11 A12 A13]. split; auto.
    + exact exB_setup'_ok.
    + intros Hc. destruct (A12 Hc) as [B1 B2 B3]. split; auto.
    + cbn [su_fuel exB_setup exB_setup'] in *. lia.
  - intros pts r g _ _ [<- |[]] b Hw. apply boxy_box_dist; auto. split; [discriminate|]. repeat constructor.
Qed.

(** The runs of C73_case with the three relations off: the constraint file matters only to them. *)
Definition unused_opts : opts := Opts (f_of_Z 10) fzero fzero true false true false false false.
Example C74_case : constraints_unused unused_opts /\
  (exists outs, outs <> [] /\ run near_lib exB_setup true unused_opts toy_score (unlines mixed_input) (unlines [str "p"]) = Ok outs /\
     run near_lib exB_setup true unused_opts toy_score (unlines mixed_input) (unlines [str "p"; str "q"]) = Ok outs) /\
  ~ constraints_unused near_opts.
Proof.
  split; [repeat split|]. split; [|intros (K & _); discriminate K].
  destruct (run near_lib exB_setup true unused_opts toy_score (unlines mixed_input) (unlines [str "p"])) as [outs| |] eqn:E.
  2,3: vm_compute in E; discriminate E.
  destruct (run near_lib exB_setup true unused_opts toy_score (unlines mixed_input) (unlines [str "p"; str "q"])) as [outs'| |] eqn:E'.
  2,3: vm_compute in E'; discriminate E'.
  exists outs. assert (outs' = outs) as ->.
  { refine (C74_constraint_file_unused _ _ _ _ _ _ _ _ _ _ _ E' E). repeat split. }
  repeat split. intros ->. vm_compute in E. discriminate E.
Qed.

(** The file of C64_case cut after its second line. *)
Example C78_case :
  let run_on input docs := run_docs ex_lib exB_setup false near_opts toy_score input [str "p"] docs [ex_constraint] in
  run_on [str " l "; str ""] [ex_doc_l] /\
  run_on [str "c"; str "p"] [DCollection ex_coll; DGeometry (jpoint (P2 3 4))] /\
  run_on ([str " l "; str ""] ++ [str "c"; str "p"]) ([ex_doc_l] ++ [DCollection ex_coll; DGeometry (jpoint (P2 3 4))]) /\
  linear_first [ex_doc_l] (length [ex_doc_l]) /\ linear_first [DCollection ex_coll; DGeometry (jpoint (P2 3 4))] 1 /\
  is_nan (o_min_dist near_opts) = false /\
  (forall pts, In pts (map (map (jl_point ex_lib)) (flat_map doc_parts ([ex_doc_l] ++ [DCollection ex_coll; DGeometry (jpoint (P2 3 4))]))) ->
     (forall r g, piece pts r -> In g [ex_constraint] -> box_distance_ok boxy (piece_hull boxy pts r) g (gl_bounds boxy g)) /\
     (forall c, In c (self_intersections exB (proto near_opts toy_score pts)) -> boxes_not_farther boxy pts c)).
Proof.
  cbv zeta. split; [|split; [|split; [|split; [|split; [|split; [reflexivity|]]]]]].
  - apply ex_run_docs; try (line_ok_compute (f_of_Z 10)).
    + repeat constructor; vm_compute; intros H; repeat (destruct H as [H|H]; [discriminate H|]); exact H.
    + exists [str "l"]. split.
      { assert (K : lines_kept [str " l "; str ""] (keep [str " l "; str ""])) by apply keep_kept. vm_compute in K. exact K. }
      constructor; [exact ex_reads_l|constructor].
    + repeat constructor; discriminate.
    + vm_compute. reflexivity.
    + repeat constructor.
    + repeat (apply Forall_cons; [vm_compute; auto|]). constructor.
    + vm_compute. lia.
  - apply ex_run_docs; try (line_ok_compute (f_of_Z 10)).
    + repeat constructor; vm_compute; intros H; repeat (destruct H as [H|H]; [discriminate H|]); exact H.
    + exists [str "c"; str "p"]. split.
      { assert (K : lines_kept [str "c"; str "p"] (keep [str "c"; str "p"])) by apply keep_kept. vm_compute in K. exact K. }
      constructor; [exact ex_reads_c|]. constructor; [exact ex_reads_p|constructor].
    + repeat constructor; discriminate.
    + vm_compute. reflexivity.
    + repeat constructor.
    + repeat (apply Forall_cons; [vm_compute; auto|]). constructor.
    + vm_compute. lia.
  - apply mixed_run_docs; line_ok_compute (f_of_Z 10).
  - split; [cbn; lia|]. intros [|i] d H; [injection H as <-|destruct i; discriminate]. split; [cbn; lia|vm_compute; discriminate].
  - split; [cbn; lia|]. intros [|[|i]] d H; [injection H as <-|injection H as <-|destruct i; discriminate].
    + split; [lia|vm_compute; discriminate].
    + split; [intros K; destruct K; vm_compute; reflexivity|lia].
  - intros pts Hp. split.
    + intros r g _ [<- |[]] b Hw. apply boxy_box_dist; auto. split; [discriminate|]. repeat constructor.
    + intros c _. apply boxy_not_farther.
      assert (El : map (map (jl_point ex_lib)) (flat_map doc_parts ([ex_doc_l] ++ [DCollection ex_coll; DGeometry (jpoint (P2 3 4))])) =
        [zig; zig; feat2_pts; feat2_pts]) by (vm_compute; reflexivity).
      rewrite El in Hp. destruct Hp as [<- |[<- |[<- |[<- |[]]]]]; (split; [discriminate|]); repeat constructor.
Qed.

(** ** C62 with the class option *)

(** Six lines.  [over], [bar] and [round] are each split in the first round because their chord crosses one of the
    three short lines.  In the second round the second piece of [over] meets [bar] and [round], in the order in which
    the pieces were put into the index, and that is the order of iteration over a Go map.  If [round] comes last it
    overwrites [over] in the selection, which is keyed by range (C35), and [over] keeps a chord that crosses [bar]. *)
Definition d_over := [P2 0 (-60); P2 0 0; P2 10 10; P2 20 0].
Definition d_bar := [P2 10 5; P2 10 (-5); P2 60 (-60)].
Definition d_round := [P2 60 (-5); P2 15 (-5); P2 30 5; P2 15 20].
Definition d_shorts := [[P2 8 (-30); P2 12 (-30)]; [P2 35 (-30); P2 35 (-25)]; [P2 44 2; P2 44 6]].
Definition d_lines := d_over :: d_bar :: d_round :: d_shorts.
Definition d_feat : jfeat bool := JFeat (Some (jmulti d_lines)) (Some true).
Definition d_lib : jsonlib bool := JsonLib ex_type (jl_geometry ex_lib) (fun _ => Some d_feat) (jl_collection ex_lib)
  (jl_marshal ex_lib) (jl_unmarshal ex_lib) (jl_empty ex_lib) (jl_point ex_lib) (jl_zero ex_lib).
Definition d_opts : opts := Opts (f_of_Z 1000) fzero fzero false false true false false false.
Definition d_setup (ord : nat -> list node -> list node) : setup :=
  Setup exW (fun k => Z.of_nat k) ex_gens (fun _ => in_turn) ord 60.
Definition d_out (kept : list Z) : list (@ofeature bool) :=
  [OFeat true (OMulti (map (map flat) (pick origin d_over kept :: d_bar :: d_round :: d_shorts)))].

Theorem C62_class_refuted : exists ord ord', any_order ord /\ any_order ord' /\
  run_docs d_lib (d_setup ord) true d_opts toy_score [str "f"] [] [DFeature d_feat] [] /\
  run_docs d_lib (d_setup ord') true d_opts toy_score [str "f"] [] [DFeature d_feat] [] /\
  run d_lib (d_setup ord) true d_opts toy_score (unlines [str "f"]) (unlines []) = Ok (d_out [0; 1; 3]) /\
  run d_lib (d_setup ord') true d_opts toy_score (unlines [str "f"]) (unlines []) = Ok (d_out [0; 1; 2; 3]) /\
  (* the lines do not cross, and the first result does *)
  gl_isect toy (GLine d_over) (GLine d_bar) = false /\
  gl_isect toy (GLine (pick origin d_over [0; 1; 3])) (GLine d_bar) = true.
Proof.
  assert (Hr : any_order (fun _ l => rev l)) by (intros k l; symmetry; apply Permutation_rev).
  assert (D : forall ord, any_order ord -> run_docs d_lib (d_setup ord) true d_opts toy_score [str "f"] [] [DFeature d_feat] []).
  { intros ord Ho.
    assert (El : map (map (jl_point d_lib)) (flat_map doc_parts [DFeature d_feat]) = d_lines) by (vm_compute; reflexivity).
    split.
    - split; [intros []; reflexivity|reflexivity|intros []; discriminate].
    - destruct ex_setup_ok as [A B C D E F]. split; auto.
    - repeat constructor; vm_compute; intros H; repeat (destruct H as [H|H]; [discriminate H|]); exact H.
    - exists [str "f"]. split.
      { assert (K : lines_kept [str "f"] (keep [str "f"])) by apply keep_kept. vm_compute in K. exact K. }
      constructor; [apply R_feature; reflexivity|constructor].
    - repeat constructor; discriminate.
    - reflexivity.
    - repeat constructor.
    - constructor.
    - exists [], []. repeat split; constructor.
    - constructor.
    - rewrite El. unfold d_lines, d_shorts. repeat (apply Forall_cons; [line_ok_compute (f_of_Z 1000)|]). constructor.
    - intros _. rewrite El. split.
      + exact v_sort_sorts.
      + vm_compute. repeat (constructor; [split; reflexivity|]). constructor.
      + intros p q _ _. reflexivity.
    - rewrite El. vm_compute. lia. }
  exists in_turn, (fun _ l => rev l). split; [exact in_turn_ok|]. split; [exact Hr|].
  split; [apply D; exact in_turn_ok|]. split; [apply D; exact Hr|]. vm_compute. repeat split.
Qed.

Print Assumptions C62_class_refuted.
Print Assumptions C78_files_can_be_split.
Print Assumptions C74_constraint_file_unused.
Print Assumptions C74_readable_constraint_files.
Print Assumptions C73_only_near_constraints_matter.
Print Assumptions C73_far_constraints_do_not_change_output.
Print Assumptions C62_any_documents.
Print Assumptions C62_class_of_lines_apart.
