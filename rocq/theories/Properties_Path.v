(** Claim C90: the side on which a line passes constraints, as a deformation in the plane.  Vocabulary: Spec_Path.v, Spec_Plane.v. *)
From Coq Require Import Ascii String QArith Sorted.
From Verif Require Import M_Base M_Float M_Rng M_Geom M_Offset M_Node M_Decompose M_Hdb M_Knn M_Lnr M_Homotopy M_Relate M_Deform M_Constrain M_ConstDP
  M_Text M_IO Spec Spec_Hdb Spec_Lnr Spec_Relate Spec_ConstDP Spec_Text Spec_IO Spec_Run Spec_Out Spec_Docs Spec_Modes Spec_Plane Spec_Path
  P_Base P_Float P_Decompose P_Node P_Lnr P_Bag P_ConstDP P_Homotopy P_Relate P_Text P_IO P_Run P_Out P_Docs P_Plane P_Path P_HdbHist Toy Toy_Box Toy_Plane
  Properties_Core Properties_Lnr Properties_Relate Properties_ConstDP Properties_IO Properties_Run Properties_Docs Properties_Modes Properties_Near
  Properties_Plane.
Open Scope Z_scope.

Lemma shrinks_impl {A} (f f' : A -> A -> A -> Prop) l e : (forall a b c, In a l -> In b l -> In c l -> f a b c -> f' a b c) ->
  shrinks f l e -> shrinks f' l e.
Proof.
  intros H S. rewrite <- (map_id l), <- (map_id e). apply (shrinks_map (fun x => x) f f'); auto.
Qed.

Lemma shrinks_alike D cs line other :
  shrinks (fun u v w => forall g, In g cs -> ~ meets (on_polyline line) (D g) -> ~ meets (on_polyline other) (D g) ->
             ~ meets (in_hull [u; v; w]) (D g)) line other ->
  passes_alike D cs line other.
Proof.
  intros H. split.
  - apply shrinks_deforms.
    + eapply shrinks_impl; [|exact H]. cbv beta. intros a b c _ _ _ Hf q Hq g (H1 & H2 & H3) Hg. apply (Hf g H1 H2 H3). exists q. auto.
    + intros q Hq g (H1 & H2 & H3) Hg. apply H2. exists q. auto.
  - intros g z (H1 & H2 & H3) Hz. apply shrinks_crossings. eapply shrinks_impl; [|exact H].
    cbv beta. intros a b c _ _ _ Hf Hq. apply (Hf g H1 H2 H3). exists z. auto.
Qed.

(** What the check of a line says about the plane. *)
Lemma check_shrinks L D c cs : plane_library L D -> 2 <= clen c -> Forall machine_pt (cpts c) ->
  machine_pt (cfirst c) -> machine_pt (clast c) ->
  Forall (fun g => number_geometry g /\ Forall machine_pt (geometry_pts g)) cs -> homotopy L c cs = Ok true ->
  shrinks (fun u v w => forall g, In g cs -> ~ meets (on_polyline (cpts c)) (D g) -> ~ meets (on_polyline [cfirst c; clast c]) (D g) ->
    ~ meets (in_hull [u; v; w]) (D g)) (cpts c) [cfirst c; clast c].
Proof.
  intros HP Hn Hm Hf Hl Hc H.
  destruct (homotopy_sound L c cs Hn) as (_ & Hs); [apply (plane_boxes_enclose L D HP); assumption|exact H|].
  assert (Hnum : forall p, In p (cpts c) -> num_pt p) by (rewrite Forall_forall in Hm; intros p Hp; apply machine_num; auto).
  rewrite Forall_forall in Hc.
  assert (Nl : number_geometry (GLine (cpts c))).
  { apply line_number; [unfold cpts; rewrite map_length; unfold clen, zlen in Hn; lia|apply Forall_forall; exact Hnum]. }
  assert (L2 : (2 <= length (cpts c))%nat) by apply Nl.
  pose proof (seg_number _ _ (machine_num _ Hf) (machine_num _ Hl)) as Ns.
  eapply shrinks_impl; [|exact Hs]. cbv beta. intros x y z Ix Iy Iz Hfree g Hg N1 N2 (q & Q1 & Q2).
  assert (K : gl_isect L (GPoly [[x; y; z; x]]) g = false).
  { apply Hfree; [exact Hg|]. split.
    - destruct (gl_isect L (GLine (cpts c)) g) eqn:E; [|reflexivity]. exfalso. apply N1.
      apply (pl_isect L D HP) in E; [|exact Nl|apply Hc; auto]. destruct E as (r & R1 & R2). exists r. split; [|exact R2].
      apply (pl_line L D HP); auto.
    - destruct (gl_isect L (GSeg (cfirst c) (clast c)) g) eqn:E; [|reflexivity]. exfalso. apply N2.
      apply (pl_isect L D HP) in E; [|exact Ns|apply Hc; auto]. destruct E as (r & R1 & R2). exists r. split; [|exact R2].
      apply (pl_seg L D HP) in R1. exists [], (cfirst c), (clast c), []. auto. }
  assert (gl_isect L (GPoly [[x; y; z; x]]) g = true); [|congruence].
  apply (pl_isect L D HP); [apply triangle_number; auto|apply Hc; auto|]. exists q. split; [|exact Q2]. apply (pl_triangle L D HP). exact Q1.
Qed.

(** A line that passes the check. *)
Theorem C90_check_is_a_deformation :
  forall L D c constraints, plane_library L D -> 2 <= clen c -> Forall machine_pt (cpts c) ->
  machine_pt (cfirst c) -> machine_pt (clast c) ->
  Forall (fun g => number_geometry g /\ Forall machine_pt (geometry_pts g)) constraints ->
  homotopy L c constraints = Ok true -> passes_alike D constraints (cpts c) [cfirst c; clast c].
Proof. intros L D c cs HP Hn Hm Hf Hl Hc H. apply shrinks_alike. apply (check_shrinks L D c cs); assumption. Qed.

Lemma sub_first pts a b : 0 <= a -> a < b -> cfirst (sub_coords pts (Rng a b)) = Spec_Out.vertex pts a.
Proof.
  intros Ha H. unfold cfirst, cpt, sub_coords, Spec_Out.vertex. cbn [cidxs cpnts rI rJ]. rewrite zseq_cons by lia. reflexivity.
Qed.
Lemma sub_last pts a b : 0 <= a -> a < b -> clast (sub_coords pts (Rng a b)) = Spec_Out.vertex pts b.
Proof.
  intros Ha H. assert (Ecl : clen (sub_coords pts (Rng a b)) = b - a + 1) by (apply clen_sub; cbn; lia).
  unfold clast, cpt. rewrite Ecl. unfold sub_coords, Spec_Out.vertex. cbn [cidxs cpnts rI rJ].
  replace (nth (Z.to_nat (b - a + 1 - 1)) (zseq a b) 0) with b; [reflexivity|].
  unfold zseq. rewrite (nth_indep _ 0 (a + Z.of_nat 0)) by (rewrite map_length, seq_length; lia).
  rewrite (map_nth (fun k => a + Z.of_nat k)), seq_nth by lia. lia.
Qed.

Lemma polyline_sub (u l w : list point) q : on_polyline l q -> on_polyline (u ++ l ++ w) q.
Proof.
  intros (x & a & b & y & -> & H). exists (u ++ x), a, b, (y ++ w). split; [|exact H]. rewrite <- !app_assoc. reflexivity.
Qed.

Lemma next_kept_split s a b : StronglySorted Z.lt s -> next_kept s a b -> exists u w, s = u ++ a :: b :: w.
Proof.
  intros Hs (Ia & Ib & Hab & Hn). apply in_split in Ia. destruct Ia as (u & w & ->). exists u.
  assert (Hw : StronglySorted Z.lt (a :: w) /\ forall x, In x u -> x < a).
  { clear -Hs. induction u as [|y u IH]; cbn [app] in Hs; [split; [exact Hs|intros x []]|].
    inversion Hs as [|? ? Hs' Hf]; subst. destruct (IH Hs') as [A B]. split; [exact A|].
    rewrite Forall_forall in Hf. intros x [<- |Hx]; [|auto]. apply Hf. apply in_or_app. right. left. reflexivity. }
  destruct Hw as [Hw Hu]. inversion Hw as [|? ? Hw' Hf]; subst. rewrite Forall_forall in Hf.
  assert (Ibw : In b w).
  { apply in_app_or in Ib. destruct Ib as [Ib|[Ib|Ib]]; [apply Hu in Ib; lia|lia|exact Ib]. }
  destruct w as [|x w]; [destruct Ibw|]. exists w. do 3 f_equal.
  destruct Ibw as [E|Hb]; [exact E|]. exfalso. inversion Hw' as [|? ? _ Hx]; subst. rewrite Forall_forall in Hx. specialize (Hx b Hb).
  apply (Hn x); [apply in_or_app; right; right; left; reflexivity|]. split; [apply Hf; left; reflexivity|exact Hx].
Qed.

Lemma line_alike L D o cs pts s : plane_library L D -> Forall machine_pt pts ->
  Forall (fun g => number_geometry g /\ Forall machine_pt (geometry_pts g)) cs ->
  kept_ok (zlen pts) s -> o_dir o = true -> honours L o cs pts s ->
  passes_alike D cs pts (map (Spec_Out.vertex pts) s).
Proof.
  intros HP Hm Hc Hk Ho H. apply shrinks_alike.
  set (out := map (Spec_Out.vertex pts) s).
  destruct Hk as (Hi & Hh & Hl & Hr). rewrite Forall_forall in Hr.
  destruct s as [|a0 s]; [discriminate Hh|]. cbn [hd] in Hh. subst a0.
  match goal with |- shrinks ?F _ _ => enough (K : shrinks F (points_of pts (Rng 0 (zlen pts - 1))) out)
    by (rewrite (points_whole pts) in K; exact K) end.
  subst out. apply parts_shrink; [exact Hi|exact Hl|].
  intros a b Hab. destruct (next_kept_split _ _ _ Hi Hab) as (su & sw & Es).
  pose proof Hab as (Ia & Ib & Hlt & _). pose proof (Hr a Ia) as Ra. pose proof (Hr b Ib) as Rb. cbv beta in Ra, Rb.
  assert (Hn : Forall num_pt pts) by (eapply Forall_impl; [|exact Hm]; intros p; apply machine_num).
  destruct (part_points pts a b (proj1 Ra) Hlt (proj2 Rb) Hn) as (L2 & Hne & Hnum & Hin).
  assert (Hline : forall q, on_polyline (points_of pts (Rng a b)) q -> on_polyline pts q).
  { intros q Hq. rewrite <- (points_whole pts). rewrite (points_cut pts 0 a) by lia.
    rewrite (points_cut pts a (b + 1)) by lia.
    replace (b + 1 - 1) with b by lia. apply polyline_sub. exact Hq. }
  assert (Hchord : forall q, on_polyline [Spec_Out.vertex pts a; Spec_Out.vertex pts b] q -> on_polyline (map (Spec_Out.vertex pts) (0 :: s)) q).
  { intros q Hq. rewrite Es, map_app. cbn [map]. apply (polyline_sub _ [_; _]). exact Hq. }
  destruct (Z.eq_dec (b - a) 1) as [H1|H1].
  { rewrite (points_last pts a b), (points_first pts a (b - 1)) by lia.
    unfold points_of. cbn [rI rJ]. rewrite zseq_nil by lia. constructor. }
  destruct (is_line (piece_hull L pts (Rng a b))) eqn:El.
  - assert (Hflat : exists u v, forall p, In p (points_of pts (Rng a b)) -> in_hull [u; v] (spot p)).
    { pose proof (pl_hull L D HP (points_of pts (Rng a b))) as K. unfold piece_hull in El.
      destruct (gl_hull L (points_of pts (Rng a b))) as [u [|v [|w r]]]; cbn [hull_geometry is_line] in *; try discriminate.
      exists u, v. intros p Hp. assert (Q1 : D (GLine [u; v]) (xof p, yof p)) by (apply K; [exact Hne|apply in_hull_member; exact Hp]).
      apply (pl_line L D HP) in Q1; [|cbn; lia]. apply polyline_in_hull. exact Q1. }
    destruct Hflat as (u & v & Hflat). rewrite (points_last pts a b), (points_first pts a (b - 1)) in Hflat, Hline |- * by lia.
    cbn [app] in Hflat, Hline |- *.
    eapply shrinks_impl; [|refine (flat_shrinks (fun q => on_polyline pts q) u v _ _ _ Hflat Hline)].
    cbv beta. intros x y z _ _ _ Hfree g Hg N1 _ (q & Q1 & Q2). apply N1. exists q. auto.
  - destruct (H a b Hab H1 El) as (_ & _ & G3). specialize (G3 Ho).
    assert (Ecl : clen (sub_coords pts (Rng a b)) = b - a + 1) by (apply clen_sub; cbn; lia).
    assert (Mp : forall p, In p (points_of pts (Rng a b)) -> machine_pt p) by (rewrite Forall_forall in Hm; auto).
    pose proof (sub_first pts a b (proj1 Ra) Hlt) as Ef. pose proof (sub_last pts a b (proj1 Ra) Hlt) as El'.
    pose proof (check_shrinks L D (sub_coords pts (Rng a b)) cs HP) as K. rewrite Ef, El' in K.
    change (cpts (sub_coords pts (Rng a b))) with (points_of pts (Rng a b)) in K.
    eapply shrinks_impl; [|apply K]; try assumption; [|lia|apply Forall_forall; exact Mp|apply Mp, part_vertex; lia|apply Mp, part_vertex; lia].
    cbv beta. intros x y z _ _ _ Hfree g Hg N1 N2. apply Hfree; [exact Hg| |].
    + intros (q & Q1 & Q2). apply N1. exists q. auto.
    + intros (q & Q1 & Q2). apply N2. exists q. auto.
Qed.

(** Every line written by a run with the direction relation. *)
Theorem C90_output_passes_alike :
  forall {P} (lib : jsonlib P) S is_class o score input cinput docs constraints m D,
  let lines := map (map (jl_point lib)) (flat_map doc_parts docs) in
  run_docs lib S is_class o score input cinput docs constraints -> linear_first docs m ->
  plane_run S D o lines constraints -> fle fzero (o_min_dist o) = true -> o_dir o = true ->
  Forall (Forall machine_pt) lines -> Forall (fun g => Forall machine_pt (geometry_pts g)) constraints ->
  exists outs, run lib S is_class o score (unlines input) (unlines cinput) = Ok outs /\
    writes_docs lib docs m outs (fun pts kept => passes_alike D constraints pts (map (Spec_Out.vertex pts) kept)).
Proof.
  intros P lib S is_class o score input cinput docs gs m D lines H Hm Hp Hmd Ho Hl Hg. pose proof Hp as [HP Hn Hc _].
  destruct (C84_library_relations lib S is_class o score input cinput docs gs m D H Hm Hp Hmd) as (outs & E & W).
  exists outs. split; [exact E|]. eapply writes_docs_kept; [|exact W]. intros pts k Hin Hk Hh. rewrite Forall_forall in Hl.
  apply (line_alike (w_geom (su_world S)) D o); auto. rewrite Forall_forall in *. intros g Hgg. split; auto.
Qed.

(** What a deformation is: its ends do not move. *)
Theorem C90_ends_stay : forall free l l', deforms free l l' -> hd_error l = hd_error l' /\ last l (0, 0)%Q = last l' (0, 0)%Q.
Proof.
  assert (K : forall (u : list place) x v d, last (u ++ x :: v) d = last (x :: v) d).
  { induction u as [|y u IH]; intros x v d; [reflexivity|]. cbn [app]. rewrite <- (IH x v d). destruct u; reflexivity. }
  induction 1 as [l|u a b b' c w l Hf H [IH1 IH2]|u a w l H [IH1 IH2]]; [auto| |].
  - rewrite <- IH1, <- IH2, !K. split; [destruct u; reflexivity|]. destruct w; reflexivity.
  - rewrite <- IH1, <- IH2, !K. split; [destruct u; reflexivity|]. destruct w; reflexivity.
Qed.

(** And while it goes on, the crossings with the rays from places that stay clear do not change: nothing jumps over them. *)
Theorem C90_deformation_keeps_crossings : forall free z l l', deforms free l l' -> ~ free z -> crossings z l = crossings z l'.
Proof. exact deforms_crossings. Qed.

(** So the tee cannot be deformed into the straight way without meeting the constraint. *)
Example C90_no_shortcut : ~ deforms (fun q => ~ same_place q (spot tee_pin)) (map spot tee) (map spot [P2 0 0; P2 20 0]).
Proof.
  intros H. pose proof (C90_deformation_keeps_crossings _ (spot tee_pin) _ _ H) as K.
  assert (E : crossings (spot tee_pin) (map spot tee) = crossings (spot tee_pin) (map spot [P2 0 0; P2 20 0])).
  { apply K. intros N. apply N. split; reflexivity. }
  vm_compute in E. discriminate.
Qed.

(** The line of C84 goes around the constraint: it crosses the ray from it, the straight way between its ends does not;
    the constraint is not on the line. *)
Example C90_case :
  let docs := [@DGeometry bool (jline tee)] in
  let lines := map (map (jl_point tee_lib)) (flat_map doc_parts docs) in
  run_docs tee_lib exP_setup true tee_opts toy_score [str "l"] [str "p"] docs [GPoint tee_pin] /\ linear_first docs 1 /\
  plane_run exP_setup places tee_opts lines [GPoint tee_pin] /\ fle fzero (o_min_dist tee_opts) = true /\ o_dir tee_opts = true /\
  Forall (Forall machine_pt) lines /\ Forall (fun g => Forall machine_pt (geometry_pts g)) [GPoint tee_pin] /\
  crossings (spot tee_pin) (map spot tee) = 1 /\ crossings (spot tee_pin) (map spot [P2 0 0; P2 20 0]) = 0 /\
  ~ meets (on_polyline tee) (places (GPoint tee_pin)) /\ places (GPoint tee_pin) (spot tee_pin) /\
  homotopy exact_lib (full_coords tee) [GPoint tee_pin] = Ok false /\
  homotopy exact_lib (full_coords (firstn 4 tee)) [GPoint tee_pin] = Ok true.
Proof.
  pose proof C84_case as C. cbv zeta in C |- *. destruct C as (A1 & A2 & A3 & A4 & A5 & A6 & _).
  split; [exact A1|]. split; [exact A2|]. split; [exact A3|]. split; [exact A4|]. split; [reflexivity|]. split; [exact A5|]. split; [exact A6|].
  split; [vm_compute; reflexivity|]. split; [vm_compute; reflexivity|]. split.
  - intros (q & A & B).
    assert (K : gl_isect exact_lib (GLine tee) (GPoint tee_pin) = true).
    { apply (pl_isect exact_lib places exact_lib_ok).
      - apply line_number; [cbn; lia|]. eapply Forall_impl; [|exact tee_machine]. intros p. apply machine_num.
      - apply point_number, machine_num, pin_machine.
      - exists q. split; [|exact B]. apply (pl_line exact_lib places exact_lib_ok); [cbn; lia|exact A]. }
    vm_compute in K. discriminate.
  - split; [|split; vm_compute; reflexivity].
    apply (pl_point exact_lib places exact_lib_ok). apply in_hull_member. left. reflexivity.
Qed.

Print Assumptions C90_check_is_a_deformation.
Print Assumptions C90_output_passes_alike.
Print Assumptions C90_ends_stay.
Print Assumptions C90_deformation_keeps_crossings.
