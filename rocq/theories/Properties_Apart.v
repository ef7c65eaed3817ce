(** Claim C92: with the avoidance of new self-intersections, parts of a line that were apart stay apart.
    Vocabulary: Spec_Apart.v, Spec_Plane.v. *)
From Coq Require Import Ascii String QArith.
From Verif Require Import M_Base M_Float M_Rng M_Geom M_Offset M_Node M_Decompose M_Hdb M_Knn M_Lnr M_Homotopy M_Relate M_Deform M_Constrain M_ConstDP
  M_Text M_IO Spec Spec_Hdb Spec_Lnr Spec_Relate Spec_ConstDP Spec_Text Spec_IO Spec_Run Spec_Out Spec_Docs Spec_Modes Spec_Plane Spec_Path Spec_Apart
  P_Base P_Float P_Decompose P_Node P_Lnr P_Split P_Bag P_ConstDP P_Relate P_Text P_IO P_Run P_Out P_Docs P_Plane P_Path P_Jordan P_HdbHist Toy Toy_Box Toy_Plane
  Properties_Core Properties_Lnr Properties_Relate Properties_ConstDP Properties_IO Properties_Run Properties_Docs Properties_Modes Properties_Near Properties_Plane.
Open Scope Z_scope.

(** The plane: two lines, and their chords. *)
Lemma hull_way a b q : in_hull [a; b] q <-> on_way (spot a) (spot b) q.
Proof. apply hull2. Qed.

Lemma last_spot l a : last (map spot l) (spot a) = spot (last l a).
Proof. revert a. induction l as [|x l IH]; intros a; [reflexivity|]. cbn [map]. rewrite !last_next. apply IH. Qed.

(** If two lines have no place in common, and neither has one with the chord of the other, then the chords have none. *)
Theorem C92_chords_of_lines_apart : forall a l c m, l <> [] -> m <> [] ->
  let X := a :: l in let Y := c :: m in
  let chordX := in_hull [a; last l a] in let chordY := in_hull [c; last m c] in
  ~ meets (on_polyline X) (on_polyline Y) -> ~ meets chordX (on_polyline Y) -> ~ meets (on_polyline X) chordY ->
  ~ meets chordX chordY.
Proof.
  intros a l c m Hl Hm X Y cX cY H1 H2 H3 (q & A & B).
  assert (G : ~ (exists z, on_way (spot a) (last (map spot l) (spot a)) z /\ on_way (spot c) (last (map spot m) (spot c)) z)).
  { apply chords_meet.
    - destruct l; [congruence|discriminate].
    - destruct m; [congruence|discriminate].
    - intros (z & A1 & B1). apply H1. exists z. split; apply polyline_path; assumption.
    - rewrite last_spot. intros (z & A1 & B1). apply H2. exists z. split; [apply hull_way; exact A1|apply polyline_path; exact B1].
    - rewrite last_spot. intros (z & A1 & B1). apply H3. exists z. split; [apply polyline_path; exact A1|apply hull_way; exact B1]. }
  apply G. exists q. rewrite !last_spot. split; apply hull_way; assumption.
Qed.

(** ** The hulls of a line *)

Lemma box_places_meet b b' q : machine_box b -> machine_box b' -> in_box b q -> in_box b' q -> boxes_meet b b' = true.
Proof.
  intros (A1 & A2 & A3 & A4) (B1 & B2 & B3 & B4) (P1 & P2 & P3 & P4) (Q1 & Q2 & Q3 & Q4).
  assert (K : forall x y z, machine x -> machine y -> (inject_Z (units x) <= z)%Q -> (z <= inject_Z (units y))%Q -> fle x y = true).
  { intros x y z Hx Hy H1 H2. pose proof (Qle_trans _ _ _ H1 H2) as H. rewrite <- Zle_Qle in H.
    destruct (fle x y) eqn:E; [reflexivity|]. apply fle_total in E; [|apply Hx|apply Hy]. apply units_lt in E; [lia|exact Hy|exact Hx]. }
  unfold boxes_meet. repeat (apply andb_true_intro; split); eapply K; eauto.
Qed.

Lemma sub_first pts a b : a < b -> cfirst (sub_coords pts (Rng a b)) = Spec_Out.vertex pts a.
Proof.
  intros H. unfold cfirst, cpt, sub_coords, Spec_Out.vertex. cbn [cidxs cpnts rI rJ]. rewrite (zseq_app a a b) by lia.
  unfold zseq. replace (Z.to_nat (a - a + 1)) with 1%nat by lia. cbn. do 2 f_equal. lia.
Qed.
Lemma sub_last pts a b : a < b -> clast (sub_coords pts (Rng a b)) = Spec_Out.vertex pts b.
Proof.
  intros H. unfold clast, cpt. rewrite clen_sub by (cbn; lia). unfold sub_coords, Spec_Out.vertex. cbn [cidxs cpnts rI rJ].
  replace (nth (Z.to_nat (b - a + 1 - 1)) (zseq a b) 0) with b; [reflexivity|].
  unfold zseq. rewrite (nth_indep _ 0 (a + Z.of_nat 0)) by (rewrite map_length, seq_length; lia).
  rewrite (map_nth (fun k => a + Z.of_nat k)), seq_nth by lia. lia.
Qed.

Lemma member_on l p : (2 <= length l)%nat -> In p l -> on_polyline l (xof p, yof p).
Proof.
  intros H2 Hp. apply in_split in Hp. destruct Hp as (u & w & ->). destruct w as [|q w].
  - destruct (exists_last (l := u)) as (u' & r & ->).
    { intros ->. cbn in H2. lia. }
    exists u', r, p, []. split; [rewrite <- app_assoc; reflexivity|]. apply in_hull_member. cbn. auto.
  - exists u, p, q, w. split; [reflexivity|]. apply in_hull_member. cbn. auto.
Qed.

Lemma loc_eq_spot p q : loc_eq p q = true -> xof p = xof q /\ yof p = yof q.
Proof. unfold loc_eq, xof, yof. rewrite andb_true_iff. intros [A B]. rewrite (units_eq _ _ A), (units_eq _ _ B). auto. Qed.

Lemma points_ends pts a b : a < b -> exists l, points_of pts (Rng a b) = Spec_Out.vertex pts a :: l /\ l <> [] /\
  last l (Spec_Out.vertex pts a) = Spec_Out.vertex pts b.
Proof.
  intros H. unfold points_of. cbn [rI rJ]. exists (map (fun k => nth (Z.to_nat k) pts origin) (zseq (a + 1) b)).
  assert (E1 : zseq a b = a :: zseq (a + 1) b).
  { rewrite (zseq_app a a b) by lia. unfold zseq at 1. replace (Z.to_nat (a - a + 1)) with 1%nat by lia. cbn. f_equal. lia. }
  assert (E2 : exists u, zseq (a + 1) b = u ++ [b]).
  { destruct (Z.eq_dec (a + 1) b) as [<- |Hn].
    - exists []. unfold zseq. replace (Z.to_nat (a + 1 - (a + 1) + 1)) with 1%nat by lia. cbn. f_equal. lia.
    - exists (zseq (a + 1) (b - 1)). rewrite (zseq_app (a + 1) (b - 1) b) by lia. f_equal.
      unfold zseq. replace (Z.to_nat (b - (b - 1 + 1) + 1)) with 1%nat by lia. cbn. f_equal. lia. }
  destruct E2 as (u & E2). rewrite E1. split; [reflexivity|]. rewrite E2, map_app. cbn [map]. split.
  - intros K. apply app_eq_nil in K. destruct K; discriminate.
  - rewrite last_last. reflexivity.
Qed.

(** The places of a part, its chord, its hull and its box. *)
Record part_facts (L : geomlib) (D : geometry -> place -> Prop) (pts : list point) (h : node) (a b : Z) : Prop := {
  pf_range : 0 <= a /\ a < b /\ b < zlen pts;
  pf_rng : n_rng h = Rng a b;
  pf_coords : n_coords h = sub_coords pts (Rng a b);
  pf_num : Forall num_pt (points_of pts (Rng a b));
  pf_ends : num_pt (Spec_Out.vertex pts a) /\ num_pt (Spec_Out.vertex pts b);
  pf_two : (2 <= length (points_of pts (Rng a b)))%nat;
  pf_seg : forall q, D (hull_seg h) q <-> in_hull [Spec_Out.vertex pts a; Spec_Out.vertex pts b] q;
  pf_nseg : number_geometry (hull_seg h);
  pf_line : forall q, D (hull_line h) q <-> on_polyline (points_of pts (Rng a b)) q;
  pf_nline : number_geometry (hull_line h);
  pf_inside : forall q, in_hull [Spec_Out.vertex pts a; Spec_Out.vertex pts b] q -> D (n_geom h) q;
  pf_ngeom : number_geometry (n_geom h);
  pf_box : machine_box (n_mbr h);
  pf_in : forall q, D (n_geom h) q -> in_box (n_mbr h) q;
  pf_first : In (Spec_Out.vertex pts a) (points_of pts (Rng a b));
  pf_last : In (Spec_Out.vertex pts b) (points_of pts (Rng a b));
  pf_isline : bends pts a b -> is_line (n_geom h) = false
}.
Lemma hull_facts L D pts inst h a b : plane_library L D -> Forall machine_pt pts ->
  fresh_hull L pts inst h -> n_rng h = Rng a b -> part_facts L D pts h a b.
Proof.
  intros HP Hm ((R1 & R2 & R3 & Ec) & Eg & Em & _) Er. rewrite Er in *. cbn [rI rJ] in *. change (Coords pts (zseq a b)) with (sub_coords pts (Rng a b)) in Ec.
  assert (Hn : Forall num_pt pts) by (eapply Forall_impl; [|exact Hm]; intros p; apply machine_num).
  destruct (part_points pts a b R1 R2 R3 Hn) as (L2 & Hne & Hnum & Hin).
  assert (Nv : forall k, 0 <= k < zlen pts -> num_pt (Spec_Out.vertex pts k)).
  { intros k Hkk. rewrite Forall_forall in Hn. apply Hn, nth_In. unfold zlen in Hkk. lia. }
  assert (Es : hull_seg h = GSeg (Spec_Out.vertex pts a) (Spec_Out.vertex pts b)).
  { unfold hull_seg. rewrite Ec, sub_first, sub_last by assumption. reflexivity. }
  assert (El : hull_line h = GLine (points_of pts (Rng a b))) by (unfold hull_line; rewrite Ec; reflexivity).
  rewrite Ec in Eg. change (cpts (sub_coords pts (Rng a b))) with (points_of pts (Rng a b)) in Eg.
  destruct (points_ends pts a b R2) as (l & Ep & Hl & Elast).
  assert (I1 : In (Spec_Out.vertex pts a) (points_of pts (Rng a b))) by (rewrite Ep; left; reflexivity).
  assert (I2 : In (Spec_Out.vertex pts b) (points_of pts (Rng a b))).
  { rewrite Ep. right. rewrite <- Elast. destruct (exists_last Hl) as (u & z & ->). rewrite last_last. apply in_or_app. cbn. auto. }
  assert (Ng : number_geometry (n_geom h)) by (rewrite Eg; apply (pl_hull_num L D HP); auto).
  split; auto.
  - split; apply Nv; lia.
  - rewrite Es. apply (pl_seg L D HP).
  - rewrite Es. apply seg_number; apply Nv; lia.
  - rewrite El. intros q. apply (pl_line L D HP). exact L2.
  - rewrite El. apply line_number; auto.
  - intros q Hq. rewrite Eg. apply (pl_hull L D HP); [exact Hne|]. revert Hq. apply hull_sub. intros p [<- |[<- |[]]]; auto.
  - rewrite Em. apply (pl_bounds_machine L D HP); [exact (proj1 Ng)|]. rewrite Eg. apply (pl_hull_machine L D HP); [exact Hne|].
    apply Forall_forall. intros p Hp. rewrite Forall_forall in Hm. auto.
  - intros q Hq. rewrite Em. apply (pl_bounds L D HP); auto.
  - intros Hb. rewrite Eg. apply (bend_not_line L D pts a b HP Hne Hb).
Qed.

Lemma bend_long pts a b : bends pts a b -> b - a <> 1.
Proof.
  intros H E. apply H. exists (Spec_Out.vertex pts a), (Spec_Out.vertex pts b). intros p Hp. apply in_hull_member.
  assert (b = a + 1) by lia. subst b. unfold points_of, zseq in Hp. cbn [rI rJ] in Hp. replace (Z.to_nat (a + 1 - a + 1)) with 2%nat in Hp by lia.
  cbn in Hp. destruct Hp as [<- |[<- |[]]]; [left|right; left]; unfold Spec_Out.vertex; do 2 f_equal; lia.
Qed.

Lemma line_apart S D o score gs lines selfs pts k : in_run S false o score gs lines selfs ->
  plane_library (w_geom (su_world S)) D -> o_avoid_self o = true -> Forall machine_pt pts ->
  result_of S false o selfs pts k -> stays_apart pts k.
Proof.
  intros H HP Hav Hm (s & hs & Hs & <- & Ho & ->).
  destruct (ir_made _ _ _ _ _ _ _ H s Hs) as [(Eo & Es & Eq & Hb) Hl].
  pose proof (ir_setup _ _ _ _ _ _ _ H) as HS.
  destruct Ho as [(h0 & n & E & _ & Eh & _) Ht Hfr _]. rewrite (Eh eq_refl) in *. clear Eh hs.
  cbn [class_junctions andb] in E. unfold class_junctions in E. cbn [andb] in E.
  intros a b c d Hab Hcd Bab Bcd Hold (q & Q1 & Q2).
  destruct (next_kept_hull h0 _ a b Ht Hab) as (x & Hx & Erx).
  destruct (next_kept_hull h0 _ c d Ht Hcd) as (y & Hy & Ery).
  rewrite Forall_forall in Hfr.
  pose proof (hull_facts _ D _ _ _ _ _ HP Hm (Hfr x Hx) Erx) as Fx.
  pose proof (hull_facts _ D _ _ _ _ _ HP Hm (Hfr y Hy) Ery) as Fy.
  set (L := w_geom (su_world S)) in *.
  assert (Hcommon : forall p r, In p (points_of (c_pts s) (Rng a b)) -> In r (points_of (c_pts s) (Rng c d)) -> loc_eq p r = true -> False).
  { intros p r Hp Hr E1. apply loc_eq_spot in E1. destruct E1 as [E1 E2]. apply Hold. exists (xof p, yof p). split.
    - apply member_on; [apply (pf_two _ _ _ _ _ _ Fx)|exact Hp].
    - rewrite E1, E2. apply member_on; [apply (pf_two _ _ _ _ _ _ Fy)|exact Hr]. }
  assert (Hsame : forall p, In p (points_of (c_pts s) (Rng a b)) -> In p (points_of (c_pts s) (Rng c d)) -> False).
  { intros p Hp Hr. apply (Hcommon p p Hp Hr). apply loc_eq_refl. pose proof (pf_num _ _ _ _ _ _ Fx) as K. rewrite Forall_forall in K. auto. }
  destruct Fx as [X1 X2 X3 X4 X5 X6 X7 X8 X9 X10 X11 X12 X13 X14 X15 X16 X17].
  destruct Fy as [Y1 Y2 Y3 Y4 Y5 Y6 Y7 Y8 Y9 Y10 Y11 Y12 Y13 Y14 Y15 Y16 Y17].
  assert (Hne : x <> y).
  { intros ->. rewrite Erx in Ery. injection Ery as -> ->. exact (Hsame _ X15 Y15). }
  assert (Hmeet : forall g h, number_geometry g -> number_geometry h -> (exists z, D g z /\ D h z) -> gl_isect L g h = true).
  { intros g h Ng Nh Hz. apply (pl_isect L D HP); auto. }
  assert (Hsep : forall g h, number_geometry g -> number_geometry h -> gl_isect L g h = gl_isect L h g).
  { intros g h Ng Nh. destruct (gl_isect L g h) eqn:E1, (gl_isect L h g) eqn:E2; auto.
    - apply (pl_isect L D HP) in E1; auto. destruct E1 as (z & A & B). rewrite Hmeet in E2; eauto.
    - apply (pl_isect L D HP) in E2; auto. destruct E2 as (z & A & B). rewrite Hmeet in E1; eauto. }
  assert (Hends : disjoint_ends L x y).
  { unfold disjoint_ends. rewrite Erx, Ery. cbn [rI rJ]. split; [|split].
    - intros <-. exact (Hsame _ X16 Y15).
    - intros <-. exact (Hsame _ X15 Y16).
    - intros p r Hp Hr. rewrite X3, sub_first, sub_last in Hp by tauto. rewrite Y3, sub_first, sub_last in Hr by tauto.
      assert (Hp' : In p (points_of (c_pts s) (Rng a b)) /\ num_pt p) by (destruct Hp as [<- |[<- |[]]]; tauto).
      assert (Hr' : In r (points_of (c_pts s) (Rng c d)) /\ num_pt r) by (destruct Hr as [<- |[<- |[]]]; tauto).
      rewrite !(pl_eq L D HP) by tauto.
      assert (E1 : loc_eq p r = false) by (destruct (loc_eq p r) eqn:E1; [destruct (Hcommon p r); tauto|reflexivity]).
      split; [exact E1|]. destruct (loc_eq r p) eqn:E2; [|reflexivity]. apply loc_eq_sym in E2. congruence. }
  assert (Hmh : meeting_hulls L x y).
  { split.
    - split; apply Hmeet; eauto.
    - split; eapply box_places_meet; eauto.
    - assert (K : forall g h z, number_geometry g -> number_geometry h -> D g z -> D h z -> fle (gl_dist L g h) epsilon_dist = true).
      { intros g h z Ng Nh A B. eapply fle_trans; [eapply (pl_touch L D HP); eauto|reflexivity]. }
      split; eapply K; eauto.
    - apply Hsep; auto.
    - apply Hsep; auto. }
  assert (Hss : gl_isect L (hull_seg x) (hull_seg y) = true).
  { apply Hmeet; auto. exists q. split; [apply X7|apply Y7]; assumption. }
  pose proof (C31_no_new_crossing_partial (line_world S (c_id s)) (su_ords S (c_id s)) s gs [] (su_fuel S) 0 h0 n
    (world_i_ok S (c_id s) HS) (so_ords _ HS (c_id s)) Hl Hb (Forall_nil _)) as K.
  assert (Hfu : (2 * length (c_pts s) - 3 < su_fuel S)%nat).
  { pose proof (ir_fuel _ _ _ _ _ _ _ H) as Hf. rewrite <- (ir_lines _ _ _ _ _ _ _ H) in Hf.
    pose proof (length_concat_in (map c_pts selfs) (c_pts s) (in_map _ _ _ Hs)). lia. }
  assert (Hex : examined x /\ examined y).
  { unfold examined. rewrite Erx, Ery. cbn [rsize rI rJ]. split; split; auto; unfold rsize; cbn [rI rJ]; apply (bend_long (c_pts s)); assumption. }
  specialize (K Hfu ltac:(rewrite Eo; exact Hav) E x y Hx Hy Hne (proj1 Hex) (proj2 Hex) Hends Hmh Hss).
  assert (Hcontra : gl_isect L (hull_line x) (hull_line y) = true -> False).
  { intros E1. apply (pl_isect L D HP) in E1; auto. destruct E1 as (z & A & B). apply Hold. exists z. split; [apply X9|apply Y9]; assumption. }
  destruct (points_ends (c_pts s) a b (proj1 (proj2 X1))) as (l & Ex & Hlx & Elx).
  destruct (points_ends (c_pts s) c d (proj1 (proj2 Y1))) as (m & Ey & Hly & Ely).
  refine (C92_chords_of_lines_apart (Spec_Out.vertex (c_pts s) a) l (Spec_Out.vertex (c_pts s) c) m Hlx Hly _ _ _ _).
  - rewrite <- Ex, <- Ey. exact Hold.
  - rewrite <- Ey, Elx. intros (z & A & B). apply Hcontra, K. left. apply Hmeet; auto. exists z. split; [apply X7|apply Y9]; assumption.
  - rewrite <- Ex, Ely. intros (z & A & B). apply Hcontra, K. right. apply Hmeet; auto. exists z. split; [apply Y7|apply X9]; assumption.
  - rewrite Elx, Ely. exists q. auto.
Qed.

(** Each line simplified on its own, new self-intersections avoided, in the plane: two parts of a line that have a bend each, and
    no place in common, are replaced by chords with no place in common.  No further condition: not that the parts are far from
    each other, nor that a chord meets the other part. *)
Theorem C92_parts_stay_apart :
  forall {P} (lib : jsonlib P) S D o score input cinput docs constraints m,
  run_docs lib S false o score input cinput docs constraints -> linear_first docs m ->
  let lines := map (map (jl_point lib)) (flat_map doc_parts docs) in
  plane_library (w_geom (su_world S)) D -> Forall (Forall machine_pt) lines ->
  o_avoid_self o = true ->
  exists outs, run lib S false o score (unlines input) (unlines cinput) = Ok outs /\ writes_docs lib docs m outs stays_apart.
Proof.
  intros P lib S D o score input cinput docs gs m H Hlf lines HP Hm Hav.
  destruct (docs_in_run lib S false o score input cinput docs gs H) as (selfs & Hr & Hok & _).
  destruct (Hok m Hlf) as (outs & E & Hw). exists outs. split; [exact E|].
  eapply (writes_docs_impl lib docs m outs); [|exact Hw]. intros pts k Hin. rewrite Forall_forall in Hm.
  exact (line_apart _ _ _ _ _ _ _ pts k Hr HP Hav (Hm pts Hin)).
Qed.

(** ** Case *)

(** Two bends, one reaching into the other: Douglas-Peucker keeps the vertices 0, 2, 3 and 5, and the chords 0-2 and 3-5 cross
    although the parts they replace have no place in common. *)
Definition folded : list point := [P2 10 6; P2 0 6; P2 2 3; P2 10 0; P2 11 7; P2 5 9].
Definition folded_opts : opts := Opts (f_of_Z 6) fzero fzero false false true false false false.
Definition folded_lib : jsonlib bool := JsonLib
  (jl_type ex_lib) (fun s => if bytes_eqb s (str "l") then Some (jline folded) else Some (jpoint tee_pin))
  (jl_feature ex_lib) (jl_collection ex_lib) (jl_marshal ex_lib) (jl_unmarshal ex_lib) (jl_empty ex_lib) (jl_point ex_lib) (jl_zero ex_lib).
Lemma folded_machine : Forall machine_pt folded.
Proof. unfold folded. repeat (apply Forall_cons; [split; (split; vm_compute; reflexivity)|]). apply Forall_nil. Qed.

Lemma three_bend pts a b p q r : In p (points_of pts (Rng a b)) -> In q (points_of pts (Rng a b)) -> In r (points_of pts (Rng a b)) ->
  (units (px q) - units (px p)) * (units (py r) - units (py p)) <> (units (py q) - units (py p)) * (units (px r) - units (px p)) ->
  bends pts a b.
Proof.
  intros Hp Hq Hr Hne (u & v & K). apply Hne. pose proof (K p Hp) as Kp. pose proof (K q Hq) as Kq. pose proof (K r Hr) as Kr.
  apply hull2 in Kp, Kq, Kr. destruct Kp as (t1 & _ & X1 & Y1), Kq as (t2 & _ & X2 & Y2), Kr as (t3 & _ & X3 & Y3).
  unfold toward, spot, xof, yof in *. cbn [fst snd] in *.
  assert (E : ((inject_Z (units (px q)) - inject_Z (units (px p))) * (inject_Z (units (py r)) - inject_Z (units (py p))) ==
    (inject_Z (units (py q)) - inject_Z (units (py p))) * (inject_Z (units (px r)) - inject_Z (units (px p))))%Q).
  { rewrite X1, X2, X3, Y1, Y2, Y3. ring. }
  unfold Qminus in E. rewrite <- !inject_Z_opp, <- !inject_Z_plus, <- !inject_Z_mult in E. exact (proj1 (inject_Z_injective _ _) E).
Qed.

Example C92_case :
  let docs := [@DGeometry bool (jline folded)] in
  let lines := map (map (jl_point folded_lib)) (flat_map doc_parts docs) in
  run_docs folded_lib exP_setup false folded_opts toy_score [str "l"] [str "p"] docs [GPoint tee_pin] /\ linear_first docs 1 /\
  plane_library (w_geom (su_world exP_setup)) places /\ Forall (Forall machine_pt) lines /\ o_avoid_self folded_opts = true /\
  (exists hs n, douglas_peucker exact_lib ex_gen (Some folded) 0 toy_score (score_rel (o_threshold folded_opts)) 60 0 = Ok (hs, n) /\
     simple_set hs = [0; 2; 3; 5]) /\
  ~ stays_apart folded [0; 2; 3; 5].
Proof.
  cbv zeta. assert (Hp : map (map (jl_point folded_lib)) (flat_map doc_parts [@DGeometry bool (jline folded)]) = [folded]) by (vm_compute; reflexivity).
  rewrite Hp. assert (Hn : Forall num_pt folded) by (eapply Forall_impl; [|exact folded_machine]; intros p; apply machine_num).
  split; [|split; [|split; [exact exact_lib_ok|split; [|split; [reflexivity|split]]]]].
  - destruct C84_case as (H & _). cbv zeta in H. destruct H as [A B C E F G I J K M N O Q].
    split; [|exact B|exact C| | |exact G| |exact J| |exact M| |discriminate|]; try rewrite Hp.
    + destruct ex_json_ok as [A1 B1 C1]. split; assumption.
    + exists [str "l"]. split.
      { assert (Q1 : lines_kept [str "l"] (keep [str "l"])) by apply keep_kept. vm_compute in Q1. exact Q1. }
      constructor; [eapply R_geometry; [reflexivity|cbn; tauto|reflexivity]|constructor].
    + repeat constructor; discriminate.
    + repeat constructor.
    + exists [str "p"], [DGeometry (jpoint tee_pin)]. split.
      { assert (Q1 : lines_kept [str "p"] (keep [str "p"])) by apply keep_kept. vm_compute in Q1. exact Q1. }
      split; [constructor; [eapply R_geometry; [reflexivity|cbn; tauto|reflexivity]|constructor]|]. split; [|vm_compute; reflexivity].
      constructor; [|constructor]. vm_compute. discriminate.
    + constructor; [line_ok_compute (f_of_Z 6)|constructor].
    + vm_compute. lia.
  - split; [cbn; lia|]. intros [|i] d H; [|destruct i; discriminate]. injection H as <-. split; [lia|vm_compute; discriminate].
  - constructor; [exact folded_machine|constructor].
  - eexists. eexists. split; vm_compute; reflexivity.
  - intros H.
    assert (E1 : points_of folded (Rng 0 2) = [P2 10 6; P2 0 6; P2 2 3]) by (vm_compute; reflexivity).
    assert (E2 : points_of folded (Rng 3 5) = [P2 10 0; P2 11 7; P2 5 9]) by (vm_compute; reflexivity).
    refine (H 0 2 3 5 _ _ _ _ _ _).
    + split; [cbn; auto|]. split; [cbn; auto|]. split; [lia|]. cbn. intros x [<- |[<- |[<- |[<- |[]]]]]; lia.
    + split; [cbn; auto|]. split; [cbn; auto|]. split; [lia|]. cbn. intros x [<- |[<- |[<- |[<- |[]]]]]; lia.
    + apply (three_bend _ _ _ (P2 10 6) (P2 0 6) (P2 2 3)); rewrite ?E1; [cbn; auto|cbn; auto|cbn; auto|]. vm_compute. discriminate.
    + apply (three_bend _ _ _ (P2 10 0) (P2 11 7) (P2 5 9)); rewrite ?E2; [cbn; auto|cbn; auto|cbn; auto|]. vm_compute. discriminate.
    + rewrite E1, E2. intros (q & A & B).
      assert (K : ex_isect (GLine [P2 10 6; P2 0 6; P2 2 3]) (GLine [P2 10 0; P2 11 7; P2 5 9]) = true).
      { apply ex_isect_ok. exists q. split; (apply (pl_line exact_lib places exact_lib_ok); [cbn; lia|assumption]). }
      vm_compute in K. discriminate.
    + change (Spec_Out.vertex folded 0) with (P2 10 6). change (Spec_Out.vertex folded 2) with (P2 2 3).
      change (Spec_Out.vertex folded 3) with (P2 10 0). change (Spec_Out.vertex folded 5) with (P2 5 9).
      assert (K : ex_isect (GSeg (P2 10 6) (P2 2 3)) (GSeg (P2 10 0) (P2 5 9)) = true) by (vm_compute; reflexivity).
      apply ex_isect_ok in K. destruct K as (q & A & B). exists q. split; apply (pl_seg exact_lib places exact_lib_ok); assumption.
Qed.

Print Assumptions C92_chords_of_lines_apart.
Print Assumptions C92_parts_stay_apart.
