(** Claim C94 for the lines of a class: which vertices are kept when lines are simplified together does not depend on where
    they lie, nor on the scale.  Vocabulary: Spec_Move.v, Spec_Class.v, Spec_MoveClass.v. *)
From Coq Require Import QArith Ascii String.
From Verif Require Import M_Base M_Float M_Rng M_Geom M_Offset M_Node M_Decompose M_Hdb M_Knn M_Lnr M_Relate M_Deform M_Constrain M_ConstDP
  M_Text M_IO Spec Spec_Hdb Spec_Lnr Spec_Relate Spec_Deform Spec_ConstDP Spec_Text Spec_IO Spec_Run Spec_Out Spec_Docs Spec_Modes Spec_Plane Spec_Move
  Spec_Exact Spec_Whole Spec_Class Spec_MoveClass
  P_Base P_Float P_Decompose P_Split P_Node P_HdbHist P_HdbLoad P_Knn P_ConstDP P_Constrain P_Aggregate P_Simplify P_Class P_Ref P_Twin P_IO P_Run P_Out P_Docs
  P_Deform P_Conflict P_Plane P_Move P_MovePlane P_Exact P_Whole P_WholeClass P_MoveClass
  P_Text Toy Toy_Box Toy_Plane Properties_Relate Properties_ConstDP Properties_IO Properties_Run Properties_Docs Properties_Twin Properties_Plane Properties_Lnr Properties_Modes Properties_Near Properties_Far
  Properties_Constrain Properties_ClassConf Properties_Move Properties_Exact Properties_Whole Properties_WholeClass Properties_ClassFiles.
Open Scope Z_scope.

(** In two pictures of the same lines and constraints the description of the class run has the same results. *)
Theorem C94_class :
  forall (L L' : geomlib) (P : point -> point -> Prop) (C : geometry -> geometry -> Prop) (o o' : opts) dist dist'
    (ids : list Z) (pts pts' : Z -> list point) cs cs' (forced forced' : Z -> Z -> Prop),
  alike L L' P C o o' -> same_switches o o' ->
  (forall i, In i ids -> (2 <= length (pts i))%nat /\ Forall2 P (pts i) (pts' i) /\ sound_boxes L (pts i) cs /\ sound_boxes L' (pts' i) cs' /\
     offsets_alike (pts i) (pts' i) dist dist' (o_threshold o) (o_threshold o') /\
     (forall p, In p (pts i) -> gl_eq2d L p p = true) /\ (forall p, In p (pts' i) -> gl_eq2d L' p p = true) /\
     forall k, forced i k <-> forced' i k) ->
  Forall2 C cs cs' -> meet_near L ids pts -> meet_near L' ids pts' ->
  fle fzero (o_threshold o) = true -> point_touch L -> point_touch L' ->
  forall result,
    (class_result L o dist cs ids pts forced result -> class_result L' o' dist' cs' ids pts' forced' result) /\
    (class_result_clear L o dist cs ids pts forced result -> class_result_clear L' o' dist' cs' ids pts' forced' result).
Proof.
  intros L L' P C o o' dist dist' ids pts pts' cs cs' forced forced' HA HS Hl Hcs HN HN' HT Ht Ht' result.
  split; [apply (class_moved L L' P C)|apply (class_clear_moved L L' P C)]; auto; intros i; try (intros p Hi); try (intros Hi); try apply (Hl i Hi).
Qed.

(** Which vertices of the lines are forced, when no two vertices lie at the greatest place: those of crossing segments
    and those that lie where another vertex lies. *)
Lemma lines_forced_iff (W : world) o score ids pts i k : In i ids ->
  let fc := map (fun i => (i, pts i)) ids in
  sorts (lo_sort (w_lnr W)) -> Forall num_pt (pts i) -> (forall p q, In p (pts i) -> In q (pts i) -> gl_eq2d (w_geom W) p q = loc_eq p q) ->
  finds_segments (lo_near (w_lnr W) (pts i)) (pts i) -> segx_sym (lo_segx (w_lnr W)) -> class_greatest_alone fc ->
  (lines_forced W o score ids pts i k <->
   o_planar_self o = true /\
   ((o_non_planar_self o = true /\ exists s u p, segments_cross (lo_segx (w_lnr W)) (pts i) s u p /\ (k = s \/ k = s + 1 \/ k = u \/ k = u + 1)) \/
    exists p, vertex_at fc i k p /\ shared_vertex fc i k p)).
Proof.
  intros Hi fc Hs Hn He Hf Hy Hg. unfold lines_forced. fold fc.
  destruct (C19_flags_select (w_geom W) (lo_sort (w_lnr W)) (lo_segx (w_lnr W)) (lo_near (w_lnr W) (pts i)) true (o_non_planar_self o) (pts i) Hs Hn He Hf Hy) as (F1 & _ & F3).
  assert (Hv : forall m p, znth (pts i) m = Some p -> vertex_at fc i m p).
  { intros m p E. exists (pts i). split; [apply (in_map (fun i => (i, pts i))), Hi|exact E]. }
  split; intros [Hp K]; (split; [exact Hp|]).
  - destruct K as [(c & Hc & Hk)|(p & A & B & _)]; [|right; eauto]. unfold self_intersections in Hc. cbn [proto c_pts c_opts] in Hc.
    destruct (F1 c Hc) as [(_ & (R1 & R2 & R3 & R4) & _)|(Hnp & s & u & Hso & _ & Hks)].
    + right. destruct (proj1 (R4 k) Hk) as (p & Ep & El). exists p. split; [apply Hv, Ep|].
      assert (Hk' : exists k', In k' (snd c) /\ k' <> k).
      { destruct (snd c) as [|a [|b l]]; cbn in R3; try lia. destruct (Z.eq_dec a k) as [-> |N]; [|exists a; split; [left; reflexivity|exact N]].
        exists b. split; [right; left; reflexivity|]. inversion R2 as [|? ? _ X]; subst. inversion X; subst. lia. }
      destruct Hk' as (k' & Hk' & N). destruct (proj1 (R4 k') Hk') as (q & Eq & El'). exists i, k', q.
      split; [congruence|]. split; [apply Hv, Eq|]. eapply P_Lnr.loc_eq_trans; [apply P_Lnr.loc_eq_sym; exact El|exact El'].
    + left. split; [exact Hnp|]. exists s, u, (fst c). split; [exact Hso|]. apply Hks, Hk.
  - destruct K as [(Hnp & s & u & p & Hso & Hk)|(p & A & B)].
    + left. destruct (F3 Hnp s u p Hso) as (ks & Hc & _ & Hks). exists (p, ks). split; [exact Hc|]. apply Hks, Hk.
    + right. exists p. split; [exact A|]. split; [exact B|]. exact (Hg i k p A B).
Qed.

(** The same vertices are forced in both pictures when the same segments cross and no two vertices of a picture lie at its
    greatest place. *)
Theorem C94_class_forced :
  forall (W W' : world) o o' score score' (ids : list Z) (pts pts' : Z -> list point) t,
  let fc := map (fun i => (i, pts i)) ids in let fc' := map (fun i => (i, pts' i)) ids in
  invertible t -> same_switches o o' -> (forall i, In i ids -> Forall2 (moved t) (pts i) (pts' i)) ->
  sorts (lo_sort (w_lnr W)) -> sorts (lo_sort (w_lnr W')) -> segx_sym (lo_segx (w_lnr W)) -> segx_sym (lo_segx (w_lnr W')) ->
  (forall i, In i ids -> finds_segments (lo_near (w_lnr W) (pts i)) (pts i) /\ finds_segments (lo_near (w_lnr W') (pts' i)) (pts' i) /\
     (forall p q, In p (pts i) -> In q (pts i) -> gl_eq2d (w_geom W) p q = loc_eq p q) /\
     (forall p q, In p (pts' i) -> In q (pts' i) -> gl_eq2d (w_geom W') p q = loc_eq p q) /\
     (o_non_planar_self o = true -> forall s u, (exists p, segments_cross (lo_segx (w_lnr W)) (pts i) s u p) <->
        (exists p, segments_cross (lo_segx (w_lnr W')) (pts' i) s u p))) ->
  class_greatest_alone fc -> class_greatest_alone fc' ->
  forall i k, In i ids -> (lines_forced W o score ids pts i k <-> lines_forced W' o' score' ids pts' i k).
Proof.
  intros W W' o o' score score' ids pts pts' t fc fc' Ht (Ep & En & _) Hm Hs Hs' Hy Hy' Hl Hg Hg' i k Hi.
  destruct (Hl i Hi) as (F & F' & E & E' & X). destruct (moved_machine _ _ _ (Hm i Hi)) as [M1 M2].
  rewrite (lines_forced_iff W o score ids pts i k Hi Hs (machine_all _ M1) E F Hy Hg),
    (lines_forced_iff W' o' score' ids pts' i k Hi Hs' (machine_all _ M2) E' F' Hy' Hg'). fold fc fc'. rewrite Ep, En.
  assert (V : forall j m p, vertex_at fc j m p -> exists p', vertex_at fc' j m p' /\ moved t p p').
  { intros j m p (l & Hin & Ez). apply in_map_iff in Hin. destruct Hin as (j' & Ej & Hj). injection Ej as -> <-.
    destruct (moved_znth _ _ _ _ _ (Hm j Hj) Ez) as (p' & E1 & E2). exists p'. split; [|exact E2]. exists (pts' j). split; [apply (in_map (fun i => (i, pts' i))), Hj|exact E1]. }
  assert (V' : forall j m p', vertex_at fc' j m p' -> exists p, vertex_at fc j m p /\ moved t p p').
  { intros j m p (l & Hin & Ez). apply in_map_iff in Hin. destruct Hin as (j' & Ej & Hj). injection Ej as -> <-.
    destruct (moved_znth' _ _ _ _ _ (Hm j Hj) Ez) as (p' & E1 & E2). exists p'. split; [|exact E2]. exists (pts j). split; [apply (in_map (fun i => (i, pts i))), Hj|exact E1]. }
  split; intros [Hp K]; (split; [exact Hp|]); (destruct K as [(Hnp & s & u & p & Hso & Hk)|(p & A & (j & m & q & N & B & El))]; [left|right]).
  - split; [exact Hnp|]. destruct (proj1 (X Hnp s u)) as (p' & Hp'); [eauto|]. exists s, u, p'. auto.
  - destruct (V _ _ _ A) as (p' & A' & Mp). destruct (V _ _ _ B) as (q' & B' & Mq). exists p'. split; [exact A'|]. exists j, m, q'.
    rewrite (moved_same t p p' q q' Ht Mp Mq). auto.
  - split; [exact Hnp|]. destruct (proj2 (X Hnp s u)) as (p' & Hp'); [eauto|]. exists s, u, p'. auto.
  - destruct (V' _ _ _ A) as (p' & A' & Mp). destruct (V' _ _ _ B) as (q' & B' & Mq). exists p'. split; [exact A'|]. exists j, m, q'.
    rewrite <- (moved_same t p' p q' q Ht Mp Mq). auto.
Qed.

Lemma plane_meet_near L D ids pts : plane_library L D -> (forall i, In i ids -> Forall machine_pt (pts i)) -> meet_near L ids pts.
Proof.
  intros HP Hm i j r q Hi Hj Hr Hq Hx.
  assert (K : forall i r, In i ids -> piece (pts i) r -> machine_box (gl_bounds L (piece_hull L (pts i) r)) /\ number_geometry (piece_hull L (pts i) r)).
  { clear - HP Hm. intros i r Hi Hr. pose proof (Hm i Hi) as M. pose proof (piece_number L D HP (pts i) r (machine_all _ M) Hr) as Ng. split; [|exact Ng].
    apply (pl_bounds_machine L D HP); [apply Ng|]. destruct r as [a b]. destruct Hr as (A & B & E). cbn [rI rJ] in *. apply (pl_hull_machine L D HP).
    - intros K. assert (I : In (Spec_Out.vertex (pts i) a) (points_of (pts i) (Rng a b))) by (apply part_vertex; lia). rewrite K in I. destruct I.
    - unfold points_of. apply Forall_forall. intros x Hx. apply in_map_iff in Hx. destruct Hx as (k & <- & Hk). apply zseq_in in Hk. cbn [rI rJ] in Hk.
      rewrite Forall_forall in M. apply M, nth_In. unfold zlen in E. lia. }
  destruct (K i r Hi Hr) as [Br Nr], (K j q Hj Hq) as [Bq Nq]. apply (pl_isect L D HP) in Hx; auto. destruct Hx as (x & X1 & X2). split.
  - eapply machine_boxes_meet; [exact Br|exact Bq|apply (pl_bounds L D HP); [exact Nr|exact X1]|apply (pl_bounds L D HP); [exact Nq|exact X2]].
  - eapply fle_trans; [apply (pl_touch L D HP _ _ x); auto|]. reflexivity.
Qed.

(** Two runs with the class option over files whose lines and constraints are carried from one to the other by an invertible
    affine map of the plane: if the description can be followed without ambiguity in one picture, then both runs write
    corresponding lines with the vertices at the same indices. *)
Theorem C94_class_in_the_plane :
  forall {P} (lib : jsonlib P) (S S' : setup) o o' dist dist' input input' cinput cinput' docs docs' constraints constraints' m m' D D' t,
  let lines := map (map (jl_point lib)) (flat_map doc_parts docs) in
  let lines' := map (map (jl_point lib)) (flat_map doc_parts docs') in
  run_docs lib S true o (max_offset dist) input cinput docs constraints -> linear_first docs m ->
  run_docs lib S' true o' (max_offset dist') input' cinput' docs' constraints' -> linear_first docs' m' ->
  plane_run S D o lines constraints -> plane_run S' D' o' lines' constraints' ->
  invertible t -> same_switches o o' -> moves_along (w_geom (su_world S)) (w_geom (su_world S')) D D' t o o' ->
  is_nan (o_min_dist o) = false -> is_nan (o_min_dist o') = false ->
  fle fzero (o_threshold o) = true -> fle fzero (o_threshold o') = true ->
  Forall2 (moved_geometry D D' t) constraints constraints' ->
  forall ids pts pts' result, NoDup ids -> Permutation (map pts ids) lines -> Permutation (map pts' ids) lines' ->
  (forall i, In i ids -> Forall2 (moved t) (pts i) (pts' i) /\ offsets_alike (pts i) (pts' i) dist dist' (o_threshold o) (o_threshold o')) ->
  (o_planar_self o = true -> forall i k, In i ids ->
     (lines_forced (su_world S) o (max_offset dist) ids pts i k <-> lines_forced (su_world S') o' (max_offset dist') ids pts' i k)) ->
  class_result_clear (w_geom (su_world S)) o dist constraints ids pts (lines_forced (su_world S) o (max_offset dist) ids pts) result ->
  exists outs outs', run lib S true o (max_offset dist) (unlines input) (unlines cinput) = Ok outs /\
    run lib S' true o' (max_offset dist') (unlines input') (unlines cinput') = Ok outs' /\
    writes_docs lib docs m outs (fun line s => exists i, In i ids /\ pts i = line /\ s = result i) /\
    writes_docs lib docs' m' outs' (fun line s => exists i, In i ids /\ pts' i = line /\ s = result i).
Proof.
  intros P lib S S' o o' dist dist' input input' cinput cinput' docs docs' cs cs' m m' D D' t lines lines' H Hm H' Hm' HR HR' Ht HS HM Hn Hn' HT HT' Hcs
    ids pts pts' result Hnd Hl Hl' Hmv Hfo Hc.
  assert (Hin : forall i, In i ids -> In (pts i) lines) by (intros i Hi; eapply Permutation_in; [exact Hl|apply in_map, Hi]).
  assert (Hin' : forall i, In i ids -> In (pts' i) lines') by (intros i Hi; eapply Permutation_in; [exact Hl'|apply in_map, Hi]).
  assert (M1 : forall i, In i ids -> Forall machine_pt (pts i)) by (intros i Hi; apply (moved_machine t _ _ (proj1 (Hmv i Hi)))).
  assert (M2 : forall i, In i ids -> Forall machine_pt (pts' i)) by (intros i Hi; apply (moved_machine t _ _ (proj1 (Hmv i Hi)))).
  assert (A1 : Forall (Forall machine_pt) lines).
  { apply Forall_forall. intros l K. apply (Permutation_in _ (Permutation_sym Hl)) in K. apply in_map_iff in K. destruct K as (i & <- & Hi). auto. }
  assert (A2 : Forall (Forall machine_pt) lines').
  { apply Forall_forall. intros l K. apply (Permutation_in _ (Permutation_sym Hl')) in K. apply in_map_iff in K. destruct K as (i & <- & Hi). auto. }
  pose proof (pr_lib _ _ _ _ _ HR) as HP. pose proof (pr_lib _ _ _ _ _ HR') as HP'. destruct (moved_cs _ _ _ _ _ Hcs) as [C1 C2].
  assert (Hpl : forall L D l p, plane_library L D -> Forall machine_pt l -> In p l -> gl_eq2d L p p = true).
  { clear. intros L D l p HP Hm Hp. rewrite Forall_forall in Hm. pose proof (machine_num _ (Hm p Hp)) as N. rewrite (pl_eq L D HP) by exact N.
    apply P_Lnr.loc_eq_refl. exact N. }
  assert (Hc' : class_result_clear (w_geom (su_world S')) o' dist' cs' ids pts' (lines_forced (su_world S') o' (max_offset dist') ids pts') result).
  { apply (C94_class (w_geom (su_world S)) (w_geom (su_world S')) (moved t) (moved_geometry D D' t) o o' dist dist' ids pts pts' cs cs'
      (lines_forced (su_world S) o (max_offset dist) ids pts) (lines_forced (su_world S') o' (max_offset dist') ids pts')); auto.
    - apply plane_alike; assumption.
    - intros i Hi. destruct (Hmv i Hi) as [Mi Oi]. pose proof (rd_ok _ _ _ _ _ _ _ _ _ H) as Hlo. rewrite Forall_forall in Hlo.
      split; [exact (lk_two _ _ (Hlo _ (Hin i Hi)))|]. split; [exact Mi|]. split; [eapply plane_sound_boxes; eauto|]. split; [eapply plane_sound_boxes; eauto|].
      split; [exact Oi|]. split; [intros p Hp; exact (Hpl _ _ _ _ HP (M1 i Hi) Hp)|]. split; [intros p Hp; exact (Hpl _ _ _ _ HP' (M2 i Hi) Hp)|].
      intros k. destruct (o_planar_self o) eqn:Ep; [apply Hfo; auto|]. destruct HS as (Ep' & _). unfold lines_forced. rewrite Ep', Ep. intuition discriminate.
    - eapply plane_meet_near; eauto.
    - eapply plane_meet_near; eauto.
    - exact (lb_touch _ (so_libs _ (rd_setup _ _ _ _ _ _ _ _ _ H))).
    - exact (lb_touch _ (so_libs _ (rd_setup _ _ _ _ _ _ _ _ _ H'))). }
  destruct (C98_clear_in_the_plane lib S o dist input cinput docs cs m D H Hm HR A1 Hn HT ids pts result Hnd Hl Hc) as (outs & E & Hw).
  destruct (C98_clear_in_the_plane lib S' o' dist' input' cinput' docs' cs' m' D' H' Hm' HR' A2 Hn' HT' ids pts' result Hnd Hl' Hc') as (outs' & E' & Hw').
  exists outs, outs'. auto.
Qed.

(** ** Cases *)

(** The line [tee] with a second line from its first vertex, and the same picture upside down, twice as large and elsewhere. *)
Definition tee_bar : list point := [P2 0 0; P2 30 5].
Definition tee2_bar : list point := [P2 100 50; P2 160 40].
Lemma znth_two (a b : point) k p : znth [a; b] k = Some p -> (k = 0 /\ p = a) \/ (k = 1 /\ p = b).
Proof.
  intros E. assert (A : 0 <= k < 2).
  { unfold znth in E. destruct (Z.ltb_spec k 0); [discriminate|]. assert (K : (Z.to_nat k < 2)%nat); [|lia].
    change 2%nat with (length [a; b]). apply nth_error_Some. rewrite E. discriminate. }
  assert (K : k = 0 \/ k = 1) by lia. destruct K as [-> | ->]; injection E as <-; tauto.
Qed.
Lemma bar_moved : Forall2 (moved upside) tee_bar tee2_bar.
Proof.
  unfold tee_bar, tee2_bar. repeat (apply Forall2_cons; [split; [split; (split; vm_compute; reflexivity)|split; [split; (split; vm_compute; reflexivity)|split; vm_compute; reflexivity]]|]).
  apply Forall2_nil.
Qed.
Lemma two_no_cross segx a b s u p : ~ segments_cross segx [a; b] s u p.
Proof. intros (A & B & C & _). apply C. unfold is_segment in A, B. cbn in A, B. lia. Qed.
Lemma upside_invertible : invertible upside.
Proof. intros H. vm_compute in H. discriminate. Qed.

Ltac eight E := apply znth_eight in E; destruct E as [[-> ->]|[[-> ->]|[[-> ->]|[[-> ->]|[[-> ->]|[[-> ->]|[[-> ->]|[-> ->]]]]]]]].
Ltac two E := apply znth_two in E; destruct E as [[-> ->]|[-> ->]].
Ltac greatest_of q := intros i k p (l & Hin & E) (j & m & r & N & (l' & Hin' & E') & El); cbn in Hin, Hin'; exists q;
  (split; [cbn; tauto|]); destruct Hin as [Hin|[Hin|[]]]; injection Hin as <- <-; [eight E; vm_compute; reflexivity|];
  two E; [vm_compute; reflexivity|]; exfalso; destruct Hin' as [Hin'|[Hin'|[]]]; injection Hin' as <- <-;
  [eight E'; vm_compute in El; discriminate|two E'; [vm_compute in El; discriminate|apply N; reflexivity]].

Example C94_class_forced_case :
  let ids := [1; 2] in let pts := fun i : Z => if i =? 1 then tee else tee_bar in let pts' := fun i : Z => if i =? 1 then tee2 else tee2_bar in
  invertible upside /\ same_switches tee_opts tee2_opts /\ (forall i, In i ids -> Forall2 (moved upside) (pts i) (pts' i)) /\
  sorts (lo_sort (w_lnr exP)) /\ segx_sym (lo_segx (w_lnr exP)) /\
  (forall i, In i ids -> finds_segments (lo_near (w_lnr exP) (pts i)) (pts i) /\ finds_segments (lo_near (w_lnr exP) (pts' i)) (pts' i) /\
     (forall p q, In p (pts i) -> In q (pts i) -> gl_eq2d (w_geom exP) p q = loc_eq p q) /\
     (forall p q, In p (pts' i) -> In q (pts' i) -> gl_eq2d (w_geom exP) p q = loc_eq p q) /\
     (o_non_planar_self tee_opts = true -> forall s u, (exists p, segments_cross (lo_segx (w_lnr exP)) (pts i) s u p) <->
        (exists p, segments_cross (lo_segx (w_lnr exP)) (pts' i) s u p))) /\
  class_greatest_alone (map (fun i => (i, pts i)) ids) /\ class_greatest_alone (map (fun i => (i, pts' i)) ids) /\
  lines_forced exP tee_opts toy_score ids pts 2 0.
Proof.
  cbv zeta. set (pts := fun i : Z => if i =? 1 then tee else tee_bar). set (pts' := fun i : Z => if i =? 1 then tee2 else tee2_bar).
  assert (Hid : forall i, In i [1; 2] -> i = 1 \/ i = 2) by (intros i [<- |[<- |[]]]; auto).
  assert (Hm : forall i, In i [1; 2] -> Forall2 (moved upside) (pts i) (pts' i)).
  { intros i Hi. destruct (Hid i Hi) as [-> | ->]; [exact tee_moved|exact bar_moved]. }
  assert (G : class_greatest_alone (map (fun i => (i, pts i)) [1; 2])) by greatest_of (P2 30 5).
  split; [exact upside_invertible|]. split; [repeat split|]. split; [exact Hm|]. split; [exact v_sort_sorts|]. split; [exact tee_sym|].
  split; [|split; [exact G|split]].
  - intros i Hi. split; [apply scan_near_finds|]. split; [apply scan_near_finds|]. split; [reflexivity|]. split; [reflexivity|]. intros _ s u.
    destruct (Hid i Hi) as [-> | ->]; [exact (tee_crossings s u)|]. split; intros (p & K); destruct (two_no_cross _ _ _ _ _ _ K).
  - greatest_of (P2 160 40).
  - split; [reflexivity|]. right. exists (P2 0 0).
    assert (A : vertex_at (map (fun i => (i, pts i)) [1; 2]) 2 0 (P2 0 0)) by (exists tee_bar; split; [cbn; auto|reflexivity]).
    assert (B : shared_vertex (map (fun i => (i, pts i)) [1; 2]) 2 0 (P2 0 0)).
    { exists 1, 0, (P2 0 0). split; [discriminate|]. split; [|reflexivity]. exists tee. split; [cbn; auto|reflexivity]. }
    split; [exact A|]. split; [exact B|]. exact (G 2 0 (P2 0 0) A B).
Qed.

(** The hill and the post of C62_unambiguous_case, upside down, twice as large and elsewhere. *)
Definition hill2 : list point := [P2 100 50; P2 120 30; P2 140 50].
Definition post2 : list point := [P2 120 60; P2 120 48].
Definition spike2_opts : opts := Opts (f_of_Z 26) fzero fzero false false true false false false.
Definition post2_feat : jfeat bool := JFeat (Some (jmulti [hill2; post2])) (Some true).
Definition posts_lib : jsonlib bool := JsonLib ex_type (fun s => Some (jpoint (P2 3 4)))
  (fun s => if bytes_eqb s (str "n") then Some post2_feat else Some post_feat) (jl_collection ex_lib) (jl_marshal ex_lib)
  (jl_unmarshal ex_lib) (jl_empty ex_lib) (jl_point ex_lib) (jl_zero ex_lib).
Definition at_setup (c : point) : setup := Setup (exI_at c) (fun k => Z.of_nat k) ex_gens (fun _ => in_turn) in_turn 60.
Lemma at_setup_ok c : setup_ok (at_setup c).
Proof. destruct exP_setup_ok as [_ B C D E F]. split; [exact (exI_at_ok c)|exact B|exact C|exact D|exact E|exact F]. Qed.
Lemma at_moves t c c' o o' : invertible t -> moved t c c' -> o_min_dist o' = o_min_dist o -> o_non_planar_displacement o' = o_non_planar_displacement o ->
  moves_along (exact_at c) (exact_at c') places places t o o'.
Proof.
  intros Ht Hc Em Ed.
  assert (K : forall g g' h h', moved_geometry places places t g g' -> moved_geometry places places t h h' -> ex_isect g' h' = ex_isect g h).
  { intros g g' h h' (G1 & G2 & _ & _ & G3) (H1 & H2 & _ & _ & H3). apply eq_true_iff_eq. rewrite !ex_isect_ok. split.
    - intros (q' & A & B). destruct (carries_onto t Ht q') as (q & Hq). exists q. split; [apply (G3 q q' Hq)|apply (H3 q q' Hq)]; assumption.
    - intros (q & A & B). destruct (carries_to t q) as (q' & Hq). exists q'. split; [apply (G3 q q' Hq)|apply (H3 q q' Hq)]; assumption. }
  split.
  - intros l l' _ H. cbn [exact_at gl_hull]. destruct H as [|a a' l l' Ha [|b b' l2 l2' Hb [|d d' l3 l3' Hd H]]]; cbn; auto.
  - intros g g' h h' Hg Hh. cbn [exact_at exact_lib gl_dist]. rewrite (K g g' h h' Hg Hh), Em. repeat split.
  - intros _ g g' h h' Hg Hh. cbn [exact_at gl_inter]. rewrite (K g g' h h' Hg Hh). destruct (ex_isect g h).
    + exists [c']. split; [apply Permutation_refl|]. apply Forall2_cons; [exact Hc|apply Forall2_nil].
    + exists []. split; constructor.
  - reflexivity.
  - intros _ p p' q q' Hp Hq. cbn [exact_at exact_lib gl_ptdist]. rewrite Ed, (moved_same t p p' q q') by assumption. reflexivity.
Qed.

Lemma posts_lines :
  map (map (jl_point posts_lib)) (flat_map doc_parts [DFeature post_feat]) = [c_pts f_hill; c_pts f_post] /\
  map (map (jl_point posts_lib)) (flat_map doc_parts [DFeature post2_feat]) = [hill2; post2].
Proof. split; vm_compute; reflexivity. Qed.
Ltac posts_run El toks T :=
  split; [split; [intros []; reflexivity|reflexivity|intros []; discriminate]|apply at_setup_ok|no_newline| | |vm_compute; reflexivity| |exact (Forall_nil _)| | | | |]; try rewrite El;
  [ exists toks; split; [assert (X : lines_kept toks (keep toks)) by apply keep_kept; vm_compute in X; exact X|constructor; [apply R_feature; reflexivity|constructor]]
  | repeat constructor; discriminate
  | repeat constructor
  | exists [], []; split; [assert (X : lines_kept [] (keep [])) by apply keep_kept; vm_compute in X; exact X|]; split; [constructor|]; split; [constructor|reflexivity]
  | constructor
  | change (max_offset toy_ptseg) with toy_score; (constructor; [|constructor; [|constructor]]; line_ok_compute T)
  | intros _; split; [exact v_sort_sorts| |reflexivity]; cbn [concat]; rewrite app_nil_r; apply Forall_app; split; apply machine_all; assumption
  | vm_compute; lia ].
Lemma posts_moved : Forall2 (moved upside) (c_pts f_hill) hill2 /\ Forall2 (moved upside) (c_pts f_post) post2.
Proof.
  unfold hill2, post2. cbn [c_pts f_hill f_post].
  split; repeat (apply Forall2_cons; [split; [split; (split; vm_compute; reflexivity)|split; [split; (split; vm_compute; reflexivity)|split; vm_compute; reflexivity]]|]); apply Forall2_nil.
Qed.

(** C94_class_in_the_plane derives the hypotheses of C94_class for such runs. *)
Example C94_class_case :
  let S := at_setup (P2 0 0) in let S' := at_setup (P2 100 50) in
  let docs := [DFeature post_feat] in let docs' := [DFeature post2_feat] in
  let lines := map (map (jl_point posts_lib)) (flat_map doc_parts docs) in
  let lines' := map (map (jl_point posts_lib)) (flat_map doc_parts docs') in
  run_docs posts_lib S true spike_opts (max_offset toy_ptseg) [str "f"] [] docs [] /\ linear_first docs 1 /\
  run_docs posts_lib S' true spike2_opts (max_offset toy_ptseg) [str "n"] [] docs' [] /\ linear_first docs' 1 /\
  plane_run S places spike_opts lines [] /\ plane_run S' places spike2_opts lines' [] /\
  invertible upside /\ same_switches spike_opts spike2_opts /\
  moves_along (w_geom (su_world S)) (w_geom (su_world S')) places places upside spike_opts spike2_opts /\
  exists ids pts pts' result, NoDup ids /\ Permutation (map pts ids) lines /\ Permutation (map pts' ids) lines' /\
    (forall i, In i ids -> Forall2 (moved upside) (pts i) (pts' i) /\
       offsets_alike (pts i) (pts' i) toy_ptseg toy_ptseg (o_threshold spike_opts) (o_threshold spike2_opts)) /\
    class_result_clear (w_geom (su_world S)) spike_opts toy_ptseg [] ids pts
      (lines_forced (su_world S) spike_opts (max_offset toy_ptseg) ids pts) result /\
    In [0; 1; 2] (map result ids).
Proof.
  cbv zeta. destruct posts_moved as [Mh Mp]. destruct posts_lines as [E E']. destruct (moved_machine _ _ _ Mh) as [A1 A2], (moved_machine _ _ _ Mp) as [B1 B2].
  assert (Lin : forall f, post_feat = f \/ post2_feat = f -> linear_first [DFeature f] 1).
  { intros f Hf. split; [cbn; lia|]. intros [|i] d H; [|destruct i; discriminate]. injection H as <-. split; [lia|]. destruct Hf as [<- |<- ]; vm_compute; discriminate. }
  assert (Pr : forall c o l l', Forall machine_pt l -> Forall machine_pt l' -> plane_run (at_setup c) places o [l; l'] []).
  { intros c o l l' Hl Hl'. split; [exact (exact_at_ok c)|constructor; [apply machine_all, Hl|constructor; [apply machine_all, Hl'|constructor]]|constructor|].
    intros _. split; [exact v_sort_sorts|]. split; [intros pts _; apply scan_near_finds|]. split; [exact tee_sym|exact tee_near]. }
  split; [posts_run E [str "f"] (f_of_Z 13)|]. split; [apply Lin; auto|]. split; [posts_run E' [str "n"] (f_of_Z 26)|]. split; [apply Lin; auto|].
  rewrite E, E'. split; [apply Pr; assumption|]. split; [apply Pr; assumption|]. split; [exact upside_invertible|]. split; [repeat split|].
  split.
  { apply at_moves; [exact upside_invertible| |reflexivity|reflexivity]. inversion Mh; subst; assumption. }
  exists [1; 2], (fun i => c_pts (env6 i)), (fun i => if i =? 1 then hill2 else post2), (fun i => if i =? 1 then [0; 1; 2] else [0; 1]).
  split; [repeat constructor; cbn; intuition discriminate|]. split; [apply Permutation_refl|]. split; [apply Permutation_refl|]. split; [|split; [exact post_clear|cbn; auto]].
  intros i [<- |[<- |[]]].
  - split; [exact Mh|]. cbn [Z.eqb env6]. unfold offsets_alike. split; [reflexivity|]. intros i j Hi Hij Hj. change (zlen (c_pts (env6 1))) with 3 in Hj.
    split.
    + intros k Hk. assert (i = 0 /\ j = 2 /\ k = 1) as (-> & -> & ->) by lia. split; vm_compute; reflexivity.
    + intros k l Hk Hl. assert (i = 0 /\ j = 2 /\ k = 1 /\ l = 1) as (-> & -> & -> & ->) by lia. vm_compute. reflexivity.
  - split; [exact Mp|]. unfold offsets_alike. split; [reflexivity|]. intros i j Hi Hij Hj. change (zlen (c_pts (env6 2))) with 2 in Hj. split; intros; lia.
Qed.

Print Assumptions C94_class.
Print Assumptions C94_class_forced.
Print Assumptions C94_class_in_the_plane.
