(** Claim C94: which vertices are kept does not depend on where the data lie, nor on the scale, nor on
    which of two geometry libraries with the same answers is used.  Vocabulary: Spec_Move.v. *)
From Coq Require Import QArith Ascii String.
From Verif Require Import M_Base M_Float M_Rng M_Geom M_Offset M_Node M_Decompose M_Hdb M_Knn M_Lnr M_Relate M_Deform M_Constrain M_ConstDP
  M_Text M_IO Spec Spec_Hdb Spec_Lnr Spec_Relate Spec_ConstDP Spec_Text Spec_IO Spec_Run Spec_Out Spec_Plane Spec_Move
  P_Base P_Float P_Decompose P_Split P_Node P_HdbHist P_HdbLoad P_Knn P_ConstDP P_Constrain P_Simplify P_Class P_Ref P_Twin P_IO P_Run P_Out
  P_Plane P_Move P_MovePlane
  P_Text Toy Toy_Box Toy_Plane Properties_Relate Properties_ConstDP Properties_IO Properties_Run Properties_Twin Properties_Plane Properties_Lnr Properties_ConstDP.
Open Scope Z_scope.

(** ** C94 *)

(** Two lines with their constraints in two pictures of the same scene: the same vertices are kept. *)
Theorem C94_same_picture_same_vertices :
  forall (W W' : world) ord ord' (self self' : cdp) constraints constraints' verts fuel fuel' ctr ctr'
         (P : point -> point -> Prop) (C : geometry -> geometry -> Prop),
  let L := w_geom W in let L' := w_geom W' in let o := c_opts self in let o' := c_opts self' in
  let pts := c_pts self in let pts' := c_pts self' in
  ready W ord self constraints verts fuel -> ready W' ord' self' constraints' verts fuel' ->
  same_switches o o' -> alike L L' P C o o' ->
  Forall2 P pts pts' -> Forall2 C constraints constraints' ->
  sound_boxes L pts constraints -> sound_boxes L' pts' constraints' ->
  scores_alike pts pts' (dp_score (c_score self) (c_sq self)) (dp_score (c_score self') (c_sq self'))
    (dp_relation (o_threshold o) (c_sq self)) (dp_relation (o_threshold o') (c_sq self')) ->
  (o_planar_self o = true -> forall k, forced_by (self_intersections W self) k <-> forced_by (self_intersections W' self') k) ->
  exists hs n hs' n', simplify W ord self verts fuel ctr = Ok (hs, n) /\ simplify W' ord' self' verts fuel' ctr' = Ok (hs', n') /\
    simple_set hs' = simple_set hs /\ Permutation (map n_rng hs') (map n_rng hs).
Proof.
  intros W W' ord ord' self self' cs cs' verts fuel fuel' ctr ctr' P C L L' o o' pts pts' [A1 A2 A3 A4 A5 A6 A7 A8 A9]
    [B1 B2 B3 B4 B5 B6 B7 B8 B9] HS HA Hp Hc HB HB' Hsc Hsi.
  assert (Ep : o_planar_self o' = o_planar_self o) by (destruct HS; assumption).
  assert (Hfb : forall l k, forced_by l k <-> In k (flat_map snd l)) by (intros l k; unfold forced_by; rewrite in_flat_map; reflexivity).
  destruct (one_run W ord self cs cs verts fuel ctr) as (hs & n & R & E & HR & Hr); auto; [intros r g _ _; tauto|intros K c Hin; apply (A9 K c Hin)|].
  destruct (one_run W' ord' self' cs' cs' verts fuel' ctr') as (hs' & n' & R' & E' & HR' & Hr'); auto; [intros r g _ _; tauto|intros K c Hin; apply (B9 K c Hin)|].
  pose proof (result_eq L L' P C o o' HA HS pts pts' cs cs' _ _ _ _ Hp Hc HB HB' Hsc (lk_splits _ _ A3) (lk_score _ _ A3)
    (w_lnr W) (w_lnr W') verts A5
    (fun K k => iff_trans (iff_sym (Hfb _ k)) (iff_trans (Hsi K k) (Hfb _ k)))
    (fun K c Hin => proj2 (A9 K c Hin)) (fun K c Hin => proj2 (B9 (eq_trans Ep K) c Hin)) R (lk_two _ _ A3) HR) as HR2.
  pose proof (r_result_unique _ _ _ _ _ _ _ _ _ _ HR2 HR') as <-.
  assert (Hpp : Permutation (map n_rng hs') (map n_rng hs)) by (rewrite Hr, Hr'; reflexivity).
  exists hs, n, hs', n'. split; [exact E|]. split; [exact E'|]. split; [apply simple_set_rng|]; exact Hpp.
Qed.

(** For offsets from a chord it is enough that they compare alike. *)
Theorem C94_offsets :
  forall pts pts' dist dist' T T', Forall2 (fun _ _ => True) pts pts' -> offsets_alike pts pts' dist dist' T T' ->
  scores_alike pts pts' (max_offset dist) (max_offset dist') (fun v => fle v T) (fun v => fle v T').
Proof.
  intros pts pts' dist dist' T T' Hlen (H0 & H) r (A & B & D).
  destruct (H (rI r) (rJ r) A B D) as [H1 H2]. clear H.
  assert (Ec : forall l, clen (sub_coords l r) - 1 = rJ r - rI r).
  { intros l. unfold clen, sub_coords. cbn [cidxs]. rewrite zseq_len by lia. lia. }
  unfold max_offset. rewrite !Ec. destruct (rJ r - rI r <=? 1) eqn:E1; [split; [reflexivity|exact H0]|]. apply Z.leb_gt in E1.
  rewrite !P_Node.cpt_sub by lia. replace (rI r + 0) with (rI r) by lia. replace (rI r + (rJ r - rI r)) with (rJ r) by lia.
  set (d := fun k => dist (nth (Z.to_nat (rI r)) pts origin) (nth (Z.to_nat (rJ r)) pts origin) (nth (Z.to_nat k) pts origin)).
  set (d' := fun k => dist' (nth (Z.to_nat (rI r)) pts' origin) (nth (Z.to_nat (rJ r)) pts' origin) (nth (Z.to_nat k) pts' origin)).
  set (n := rJ r - rI r) in *.
  set (same := fun st st' : Z * f64 => fst st' = fst st /\
    (snd st = fzero /\ snd st' = fzero \/ exists k, rI r < k < rJ r /\ snd st = d k /\ snd st' = d' k)).
  assert (K : forall l st st', (forall k, In k l -> 1 <= k <= n - 1) -> same st st' ->
    same (fold_left (scan_step (fun k => dist (nth (Z.to_nat (rI r)) pts origin) (nth (Z.to_nat (rJ r)) pts origin) (cpt (sub_coords pts r) k))) l st)
         (fold_left (scan_step (fun k => dist' (nth (Z.to_nat (rI r)) pts' origin) (nth (Z.to_nat (rJ r)) pts' origin) (cpt (sub_coords pts' r) k))) l st')).
  { induction l as [|k l IH]; intros [i v] [i' v'] Hl Hs; [exact Hs|]. cbn [fold_left]. apply IH; [intros; apply Hl; right; auto|].
    specialize (Hl k (or_introl eq_refl)). unfold scan_step. rewrite !P_Node.cpt_sub by lia.
    change (dist _ _ (nth (Z.to_nat (rI r + k)) pts origin)) with (d (rI r + k)).
    change (dist' _ _ (nth (Z.to_nat (rI r + k)) pts' origin)) with (d' (rI r + k)).
    destruct Hs as [Ei Hv]. cbn [fst snd] in *. assert (Eg : fge (d' (rI r + k)) v' = fge (d (rI r + k)) v).
    { unfold fge. destruct Hv as [[-> ->]|(m & Hm & -> & ->)].
      - apply (H1 (rI r + k)). lia.
      - apply (H2 m (rI r + k)); lia. }
    rewrite Eg. destruct (fge (d (rI r + k)) v).
    - split; [reflexivity|]. right. exists (rI r + k). split; [lia|]. split; reflexivity.
    - split; [exact Ei|exact Hv]. }
  destruct (K (zseq 1 (n - 1)) (n, fzero) (n, fzero)) as [K1 K2].
  - intros k Hk. apply P_Base.zseq_in in Hk. lia.
  - split; [reflexivity|]. left. split; reflexivity.
  - split; [exact K1|]. destruct K2 as [[-> ->]|(m & Hm & -> & ->)]; [exact H0|]. apply H1. exact Hm.
Qed.

Lemma moved_machine t l l' : Forall2 (moved t) l l' -> Forall machine_pt l /\ Forall machine_pt l'.
Proof. induction 1 as [|p p' l l' (A & B & _) H [IH1 IH2]]; split; constructor; auto. Qed.
Lemma moved_cs t D D' l l' : Forall2 (moved_geometry D D' t) l l' ->
  Forall (fun g => number_geometry g /\ Forall machine_pt (geometry_pts g)) l /\
  Forall (fun g => number_geometry g /\ Forall machine_pt (geometry_pts g)) l'.
Proof. induction 1 as [|p p' l l' (A & B & E & F & _) H [IH1 IH2]]; split; constructor; auto. Qed.
Lemma moved_same t p p' q q' : invertible t -> moved t p p' -> moved t q q' -> loc_eq p' q' = loc_eq p q.
Proof.
  intros Ht (P1 & P2 & P3) (Q1 & Q2 & Q3). apply eq_true_iff_eq. rewrite !loc_eq_iff by assumption. split.
  - intros [E1 E2]. exact (carries_back t Ht _ _ _ _ P3 Q3 E1 E2).
  - intros [E1 E2]. destruct P3 as [P3 P4], Q3 as [Q3 Q4]. cbn [fst snd] in *. rewrite P3, P4, Q3, Q4, E1, E2. split; reflexivity.
Qed.
Lemma moved_znth t l l' k p : Forall2 (moved t) l l' -> znth l k = Some p -> exists p', znth l' k = Some p' /\ moved t p p'.
Proof.
  intros H. unfold znth. destruct (k <? 0); [discriminate|]. generalize (Z.to_nat k).
  induction H as [|x y l l' Hxy Hl IH]; intros [|n] E; try discriminate; cbn in *; [injection E as <-; eauto|apply IH; auto].
Qed.
Lemma moved_znth' t l l' k p' : Forall2 (moved t) l l' -> znth l' k = Some p' -> exists p, znth l k = Some p /\ moved t p p'.
Proof.
  intros H. unfold znth. destruct (k <? 0); [discriminate|]. generalize (Z.to_nat k).
  induction H as [|x y l l' Hxy Hl IH]; intros [|n] E; try discriminate; cbn in *; [injection E as <-; eauto|apply IH; auto].
Qed.

(** The same vertices are forced to stay when the same segments cross and the greatest place of each picture is
    the place of one vertex only. *)
Theorem C94_forced :
  forall (L L' : geomlib) srt srt' segx segx' near near' (planar non_planar : bool) pts pts' t,
  invertible t -> Forall2 (moved t) pts pts' ->
  sorts srt -> sorts srt' -> segx_sym segx -> segx_sym segx' -> finds_segments near pts -> finds_segments near' pts' ->
  (forall p q, In p pts -> In q pts -> gl_eq2d L p q = loc_eq p q) ->
  (forall p q, In p pts' -> In q pts' -> gl_eq2d L' p q = loc_eq p q) ->
  greatest_alone pts -> greatest_alone pts' ->
  (non_planar = true -> forall s o, (exists p, segments_cross segx pts s o p) <-> (exists p, segments_cross segx' pts' s o p)) ->
  forall k, forced_by (self_intersection L srt segx near planar non_planar pts) k <->
            forced_by (self_intersection L' srt' segx' near' planar non_planar pts') k.
Proof.
  intros L L' srt srt' segx segx' near near' planar non_planar pts pts' t Ht Hm Hs Hs' Hy Hy' Hf Hf' He He' Hg Hg' Hx.
  destruct (moved_machine _ _ _ Hm) as [M1 M2].
  assert (K : forall M sr sx nr ps, sorts sr -> Forall num_pt ps -> (forall p q, In p ps -> In q ps -> gl_eq2d M p q = loc_eq p q) ->
    finds_segments nr ps -> segx_sym sx -> greatest_alone ps -> forall k, forced_by (self_intersection M sr sx nr planar non_planar ps) k <->
    (planar = true /\ exists p k' q, znth ps k = Some p /\ znth ps k' = Some q /\ k' <> k /\ loc_eq p q = true) \/
    (non_planar = true /\ exists s o p, segments_cross sx ps s o p /\ (k = s \/ k = s + 1 \/ k = o \/ k = o + 1))).
  { clear. intros M sr sx nr ps Hs Hn He Hf Hy Hg k.
    destruct (C19_flags_select M sr sx nr planar non_planar ps Hs Hn He Hf Hy) as (F1 & F2 & F3). split.
    - intros (c & Hc & Hk). destruct (F1 c Hc) as [(Hp & (R1 & R2 & R3 & R4) & _)|(Hp & s & o & Hso & _ & Hks)].
      + left. split; [exact Hp|]. destruct (proj1 (R4 k) Hk) as (p & Ep & El).
        assert (Hk' : exists k', In k' (snd c) /\ k' <> k).
        { destruct (snd c) as [|a [|b l]]; cbn in R3; try lia. destruct (Z.eq_dec a k) as [-> |N]; [|exists a; split; [left; reflexivity|exact N]].
          exists b. split; [right; left; reflexivity|]. inversion R2 as [|? ? _ K]; subst. inversion K; subst. lia. }
        destruct Hk' as (k' & Hk' & N). destruct (proj1 (R4 k') Hk') as (q & Eq & El'). exists p, k', q. repeat split; auto.
        eapply P_Lnr.loc_eq_trans; [apply P_Lnr.loc_eq_sym; exact El|exact El'].
      + right. split; [exact Hp|]. exists s, o, (fst c). split; [exact Hso|]. apply Hks, Hk.
    - intros [(Hp & p & k' & q & E1 & E2 & N & El)|(Hp & s & o & p & Hso & Hk)].
      + destruct (F2 Hp k p k' q E1 E2 N El (Hg k p k' q E1 E2 N El)) as (c & Hc & _ & _ & Hk). exists c. auto.
      + destruct (F3 Hp s o p Hso) as (ks & Hc & _ & Hks). exists (p, ks). split; [exact Hc|]. apply Hks, Hk. }
  intros k. rewrite (K L srt segx near pts), (K L' srt' segx' near' pts') by auto using machine_all. clear K.
  split; (intros [(Hp & A)|(Hp & s & o & p & Hso & Hk)]; [left|right]; (split; [exact Hp|])).
  - destruct A as (p & k' & q & E1 & E2 & N & El). destruct (moved_znth _ _ _ _ _ Hm E1) as (p' & E1' & Mp).
    destruct (moved_znth _ _ _ _ _ Hm E2) as (q' & E2' & Mq). exists p', k', q'. rewrite (moved_same t p p' q q') by assumption. auto.
  - destruct (proj1 (Hx Hp s o)) as (p' & H'); [eauto|]. exists s, o, p'. auto.
  - destruct A as (p' & k' & q' & E1 & E2 & N & El). destruct (moved_znth' _ _ _ _ _ Hm E1) as (p & E1' & Mp).
    destruct (moved_znth' _ _ _ _ _ Hm E2) as (q & E2' & Mq). exists p, k', q. rewrite <- (moved_same t p p' q q') by assumption. auto.
  - destruct (proj2 (Hx Hp s o)) as (p' & H'); [eauto|]. exists s, o, p'. auto.
Qed.

Lemma plane_ready (T : setup) D id pts o score db cs lines : setup_ok T -> plane_run T D o lines cs -> In pts lines ->
  line_ok (w_geom (su_world T)) (proto o score pts) ->
  build_context_db (w_geom (su_world T)) (w_hdb (su_world T)) id cs = Ok db ->
  Forall (fun g => good_bounds (gl_bounds (w_geom (su_world T)) g)) cs ->
  (2 * length pts - 3 < su_fuel T)%nat -> is_nan (o_min_dist o) = false ->
  ready (World (w_geom (su_world T)) (su_gens T id) (w_hdb (su_world T)) (w_pop (su_world T)) (w_lnr (su_world T))) (su_ords T id)
    (Cdp id pts o score None db) cs [] (su_fuel T).
Proof.
  intros Ht Hp Hin Hl Eb Hb Hf Hnan. destruct (plane_agree T D o lines cs score pts Hp Hin) as [G1 G2].
  split; cbn [w_geom w_lnr c_pts c_opts c_score c_sq]; auto.
  - destruct Ht as [[A B C E] Hids Hg _ _ _]. split; cbn [w_geom w_gen w_hdb w_pop w_lnr]; auto. intros j k K. apply (Hg _ _ _ _ K).
  - apply (so_ords _ Ht).
  - apply (line_ok_twin _ (proto o score pts)); (reflexivity || exact Hl).
  - split; [exact Eb|exact Hb].
  - intros Hpl c Hc. rewrite app_nil_r in Hc.
    assert (K : location_on_hulls (w_geom (su_world T)) pts c /\ boxes_not_farther (w_geom (su_world T)) pts c); [|split; apply K].
    eapply plane_locations; eauto.
    pose proof (plane_finder _ _ _ _ _ Hp Hpl) as F. rewrite Forall_forall in F. destruct (F pts Hin) as [F1 F2 F3 F4 F5].
    destruct (C19_flags_select (w_geom (su_world T)) (lo_sort (w_lnr (su_world T))) (lo_segx (w_lnr (su_world T)))
      (lo_near (w_lnr (su_world T)) pts) true (o_non_planar_self o) pts F1 F2 F3 F4 F5) as (S1 & _).
    destruct (S1 c Hc) as [(_ & R & _)|R]; auto.
Qed.

(** Two files with the same features and constraints, carried from one to the other by an invertible
    affine map of the plane: in each feature the vertices at the same indices are written. *)
Theorem C94_in_the_plane :
  forall {P} (lib : jsonlib P) (S S' : setup) o o' score score' input input' cinput cinput' fs fs' constraints constraints' D D' t,
  run_input lib S false o score input cinput fs constraints ->
  run_input lib S' false o' score' input' cinput' fs' constraints' ->
  let L := w_geom (su_world S) in let L' := w_geom (su_world S') in
  plane_run S D o (map (map (jl_point lib)) (flat_map feature_parts fs)) constraints ->
  plane_run S' D' o' (map (map (jl_point lib)) (flat_map feature_parts fs')) constraints' ->
  invertible t ->
  same_switches o o' -> moves_along L L' D D' t o o' ->
  is_nan (o_min_dist o) = false -> is_nan (o_min_dist o') = false ->
  Forall2 (moved_geometry D D' t) constraints constraints' ->
  Forall2 (fun f f' => Forall2 (moved_part lib S S' t o o' score score') (feature_parts f) (feature_parts f')) fs fs' ->
  exists outs outs', run lib S false o score (unlines input) (unlines cinput) = Ok outs /\
    run lib S' false o' score' (unlines input') (unlines cinput') = Ok outs' /\
    length outs = length fs /\ length outs' = length fs' /\
    forall i f f', nth_error fs i = Some f -> nth_error fs' i = Some f' -> exists ot ot' ss,
      nth_error outs i = Some ot /\ nth_error outs' i = Some ot' /\
      Forall2 (fun c s => kept_ok (zlen c) s) (feature_parts f) ss /\
      written_parts (jl_zero lib) (vertices_at lib (feature_parts f) ss) (of_geom ot) /\
      written_parts (jl_zero lib) (vertices_at lib (feature_parts f') ss) (of_geom ot').
Proof.
  intros P lib S S' o o' score score' input input' cinput cinput' fs fs' cs cs' D D' t H H' L L' HR HR' Ht HS HM Hn Hn' Hcs Hfs.
  destruct (C57_lines_simplified_alone lib S o score input cinput fs cs H) as (outs & E & Hlen & Hall).
  destruct (C57_lines_simplified_alone lib S' o' score' input' cinput' fs' cs' H') as (outs' & E' & Hlen' & Hall').
  exists outs, outs'. split; [exact E|]. split; [exact E'|]. split; [exact Hlen|]. split; [exact Hlen'|].
  intros i f f' Ef Ef'. destruct (Hall i f Ef) as (ot & kept & Eo & _ & Hk & Hw).
  destruct (Hall' i f' Ef') as (ot' & kept' & Eo' & _ & Hk' & Hw').
  exists ot, ot'.
  assert (Hff : Forall2 (moved_part lib S S' t o o' score score') (feature_parts f) (feature_parts f')).
  { clear - Hfs Ef Ef'. revert i Ef Ef'. induction Hfs as [|g g' l l' Hg Hl IH]; intros [|i] Ef Ef'; try discriminate.
    - cbn in Ef, Ef'. injection Ef as <-. injection Ef' as <-. exact Hg.
    - exact (IH i Ef Ef'). }
  assert (Hin : forall c, In c (feature_parts f) -> In (map (jl_point lib) c) (map (map (jl_point lib)) (flat_map feature_parts fs))).
  { intros c Hc. apply in_map, in_flat_map. exists f. split; [eapply nth_error_In; eauto|exact Hc]. }
  assert (Hin' : forall c, In c (feature_parts f') -> In (map (jl_point lib) c) (map (map (jl_point lib)) (flat_map feature_parts fs'))).
  { intros c Hc. apply in_map, in_flat_map. exists f'. split; [eapply nth_error_In; eauto|exact Hc]. }
  destruct (moved_cs _ _ _ _ _ Hcs) as [C1 C2].
  assert (N1 : Forall number_geometry cs) by (eapply Forall_impl; [|exact C1]; intros g Hg; exact (proj1 Hg)).
  assert (N2 : Forall number_geometry cs') by (eapply Forall_impl; [|exact C2]; intros g Hg; exact (proj1 Hg)).
  assert (Hsize : forall (lines : list (list point)) pts, In pts lines -> (length pts <= length (concat lines))%nat).
  { clear. intros lines. induction lines as [|x ls IHl]; intros pts Hin; [destruct Hin|]. cbn [concat]. rewrite app_length.
    destruct Hin as [<- |Hin]; [lia|specialize (IHl _ Hin); lia]. }
  pose proof (ri_fuel _ _ _ _ _ _ _ _ _ H) as Hfuel. pose proof (ri_fuel _ _ _ _ _ _ _ _ _ H') as Hfuel'.
  pose proof (ri_ok _ _ _ _ _ _ _ _ _ H) as Hlo. pose proof (ri_ok _ _ _ _ _ _ _ _ _ H') as Hlo'.
  rewrite Forall_forall in Hlo, Hlo'.
  assert (Hpart : forall c c' s s', In c (feature_parts f) -> In c' (feature_parts f') -> moved_part lib S S' t o o' score score' c c' ->
    simplified_alone S o score cs (map (jl_point lib) c) s -> simplified_alone S' o' score' cs' (map (jl_point lib) c') s' -> s' = s).
  { intros c c' s s' Hc Hc' (Hm & Hsc & Hsi) (id & db & hs & n & Eb & Er & ->) (id' & db' & hs' & n' & Eb' & Er' & ->).
    cbv zeta in *. set (pts := map (jl_point lib) c) in *. set (pts' := map (jl_point lib) c') in *.
    destruct (moved_machine _ _ _ Hm) as [M1 M2]. pose proof (Hin c Hc) as I1. pose proof (Hin' c' Hc') as I2.
    assert (Eps : o_planar_self o' = o_planar_self o) by (destruct HS; assumption).
    assert (F1 : (2 * length pts - 3 < su_fuel S)%nat).
    { pose proof (Hsize _ _ I1) as K. fold pts in K. clear - K Hfuel. lia. }
    assert (F2 : (2 * length pts' - 3 < su_fuel S')%nat).
    { pose proof (Hsize _ _ I2) as K. fold pts' in K. clear - K Hfuel'. lia. }
    pose proof (plane_ready S D id pts o score db cs _ (ri_setup _ _ _ _ _ _ _ _ _ H) HR I1 (Hlo _ I1) Eb (ri_boxes _ _ _ _ _ _ _ _ _ H) F1 Hn) as R1.
    pose proof (plane_ready S' D' id' pts' o' score' db' cs' _ (ri_setup _ _ _ _ _ _ _ _ _ H') HR' I2 (Hlo' _ I2) Eb' (ri_boxes _ _ _ _ _ _ _ _ _ H')
      F2 Hn') as R2.
    pose proof (pr_lib _ _ _ _ _ HR) as HP. pose proof (pr_lib _ _ _ _ _ HR') as HP'.
    destruct (C94_same_picture_same_vertices _ _ _ _ _ _ cs cs' [] _ _ 0%nat 0%nat (moved t) (moved_geometry D D' t) R1 R2)
      as (a & na & b & nb & Ea & Ebb & Eset & _); cbn [w_geom w_lnr c_pts c_opts c_score c_sq]; auto.
    - apply plane_alike; assumption.
    - eapply plane_sound_boxes; eauto.
    - eapply plane_sound_boxes; eauto.
    - rewrite Er in Ea. rewrite Er' in Ebb. injection Ea as <- <-. injection Ebb as <- <-. exact Eset. }
  assert (Hss : exists ss, Forall2 (fun c s => kept_ok (zlen c) s) (feature_parts f) ss /\
    kept = vertices_at lib (feature_parts f) ss /\ kept' = vertices_at lib (feature_parts f') ss).
  { clear - Hff Hk Hk' Hpart. revert kept kept' Hk Hk' Hpart.
    induction Hff as [|c c' l l' Hc Hl IH]; intros kept kept' Hk Hk' Hpart; inversion Hk as [|? k ? kk (s & Hs & Ra & Ek) Hkk]; subst;
      inversion Hk' as [|? k' ? kk' (s' & Hs' & Rb & Ek') Hkk']; subst.
    - exists []. split; [constructor|]. split; reflexivity.
    - destruct (IH kk kk' Hkk Hkk') as (ss & F & -> & ->).
      { intros x x' y y' Hx Hx'. apply Hpart; right; assumption. }
      assert (Es : s' = s) by (apply (Hpart c c'); auto; left; reflexivity). subst s'.
      exists (s :: ss). split; [|split; reflexivity]. constructor; [|exact F]. unfold zlen in *. rewrite map_length in Hs. exact Hs. }
  destruct Hss as (ss & F & -> & ->). exists ss. repeat (split; [assumption|]). assumption.
Qed.

(** ** Cases *)

(** In the exact library of Toy_Plane.v everything moves along with any map. *)
Lemma point_moves t p p' : invertible t -> moved t p p' -> moved_geometry places places t (GPoint p) (GPoint p').
Proof.
  intros Ht (A & B & C). split; [apply point_number, machine_num, A|]. split; [apply point_number, machine_num, B|].
  split; [constructor; [exact A|constructor]|]. split; [constructor; [exact B|constructor]|]. intros q q' Hq.
  rewrite (pl_point exact_lib places exact_lib_ok p), (pl_point exact_lib places exact_lib_ok p'). apply (hull_moved t Ht); [|exact Hq].
  constructor; [split; [exact A|split; [exact B|exact C]]|constructor].
Qed.
Lemma exact_moves t o o' : invertible t -> o_min_dist o' = o_min_dist o -> o_non_planar_displacement o' = o_non_planar_displacement o ->
  moves_along exact_lib exact_lib places places t o o'.
Proof.
  intros Ht Em Ed.
  assert (K : forall g g' h h', moved_geometry places places t g g' -> moved_geometry places places t h h' -> ex_isect g' h' = ex_isect g h).
  { intros g g' h h' (G1 & G2 & _ & _ & G3) (H1 & H2 & _ & _ & H3). apply eq_true_iff_eq. rewrite !ex_isect_ok. split.
    - intros (q' & A & B). destruct (carries_onto t Ht q') as (q & Hq). exists q. split; [apply (G3 q q' Hq)|apply (H3 q q' Hq)]; assumption.
    - intros (q & A & B). destruct (carries_to t q) as (q' & Hq). exists q'. split; [apply (G3 q q' Hq)|apply (H3 q q' Hq)]; assumption. }
  split.
  - intros l l' _ H. cbn [exact_lib gl_hull]. destruct H as [|a a' l l' Ha [|b b' l2 l2' Hb [|c c' l3 l3' Hc H]]]; cbn; auto.
  - intros g g' h h' Hg Hh. cbn [exact_lib gl_dist]. rewrite (K g g' h h' Hg Hh), Em. repeat split.
  - intros _ g g' h h' _ _. exists []. split; constructor.
  - reflexivity.
  - intros _ p p' q q' Hp Hq. cbn [exact_lib gl_ptdist]. rewrite Ed, (moved_same t p p' q q') by assumption. reflexivity.
Qed.

(** The line [tee] and its constraint, twice as large, upside down and elsewhere. *)
Definition upside : affine := Affine 2 0 0 (- 2) (xof (P2 100 0)) (yof (P2 0 50)).
Definition tee2 : list point :=
  [P2 100 50; P2 120 50; P2 120 34; P2 110 50; P2 104 62; P2 112 66; P2 118 68; P2 140 50].
Definition pin2 : point := P2 118 62.
Definition tee2_opts : opts := Opts (f_of_Z 80) fzero fzero true true true true true true.
Definition both_lib : jsonlib bool := JsonLib
  (fun s => if bytes_eqb s (str "l") || bytes_eqb s (str "m") then Some (str "LineString") else Some (str "Point"))
  (fun s => if bytes_eqb s (str "l") then Some (jline tee) else if bytes_eqb s (str "m") then Some (jline tee2)
     else if bytes_eqb s (str "p") then Some (jpoint tee_pin) else Some (jpoint pin2))
  (jl_feature ex_lib) (jl_collection ex_lib) (jl_marshal ex_lib) (jl_unmarshal ex_lib) (jl_empty ex_lib) (jl_point ex_lib) (jl_zero ex_lib).
Lemma tee_scores : scores_alike tee tee2 toy_score toy_score (fun v => fle v (f_of_Z 40)) (fun v => fle v (f_of_Z 80)).
Proof. intros r Hr. by_pieces r Hr; vm_compute; split; reflexivity. Qed.
Lemma tee_moved : Forall2 (moved upside) tee tee2.
Proof.
  unfold tee, tee2. repeat (apply Forall2_cons; [split; [split; (split; vm_compute; reflexivity)|split; [split; (split; vm_compute; reflexivity)|split; vm_compute; reflexivity]]|]).
  apply Forall2_nil.
Qed.
Lemma pin_moved : moved upside tee_pin pin2.
Proof. split; [split; (split; vm_compute; reflexivity)|split; [split; (split; vm_compute; reflexivity)|split; vm_compute; reflexivity]]. Qed.
Lemma both_input o line name pin pname :
  (line, name) = (tee, "l"%string) \/ (line, name) = (tee2, "m"%string) ->
  (pin, pname) = (tee_pin, "p"%string) \/ (pin, pname) = (pin2, "q"%string) ->
  line_ok exact_lib (proto o toy_score line) ->
  run_input both_lib exP_setup false o toy_score [str name] [str pname] [JFeat (Some (jline line)) None] [GPoint pin].
Proof.
  intros Hl Hp Ho.
  assert (El : map (map (jl_point both_lib)) (flat_map feature_parts [@JFeat bool (Some (jline line)) None]) = [line]).
  { destruct Hl as [E|E]; injection E as -> ->; vm_compute; reflexivity. }
  split; try rewrite El.
  - destruct ex_json_ok as [A B C]. split; assumption.
  - exact exP_setup_ok.
  - destruct Hl as [E|E]; injection E as -> ->; repeat constructor; vm_compute; intros H; repeat (destruct H as [H|H]; [discriminate H|]); exact H.
  - exists [str name], [DGeometry (jline line)]. split.
    { destruct Hl as [E|E]; injection E as -> ->; (assert (K : lines_kept [str "l"] (keep [str "l"])) by apply keep_kept);
      (assert (K' : lines_kept [str "m"] (keep [str "m"])) by apply keep_kept); vm_compute in K, K'; [exact K|exact K']. }
    split; [|constructor; [|constructor]].
    + constructor; [|constructor]. destruct Hl as [E|E]; injection E as -> ->; (eapply R_geometry; [reflexivity|cbn; tauto|reflexivity]).
    + split; [right; eexists; split; reflexivity|]. destruct Hl as [E|E]; injection E as -> ->; discriminate.
  - vm_compute. reflexivity.
  - repeat constructor.
  - destruct Hp as [E|E]; injection E as -> ->; repeat constructor; vm_compute; intros H; repeat (destruct H as [H|H]; [discriminate H|]); exact H.
  - exists [str pname], [DGeometry (jpoint pin)]. split.
    { destruct Hp as [E|E]; injection E as -> ->; (assert (K : lines_kept [str "p"] (keep [str "p"])) by apply keep_kept);
      (assert (K' : lines_kept [str "q"] (keep [str "q"])) by apply keep_kept); vm_compute in K, K'; [exact K|exact K']. }
    split; [|split].
    + constructor; [|constructor]. destruct Hp as [E|E]; injection E as -> ->; (eapply R_geometry; [reflexivity|cbn; tauto|reflexivity]).
    + constructor; [|constructor]. vm_compute. discriminate.
    + destruct Hp as [E|E]; injection E as -> ->; vm_compute; reflexivity.
  - constructor; [|constructor]. destruct Hp as [E|E]; injection E as -> ->; vm_compute; repeat split; try reflexivity; discriminate.
  - constructor; [exact Ho|constructor].
  - discriminate.
  - destruct Hl as [E|E]; injection E as -> ->; vm_compute; lia.
Qed.

Definition crossing (segx : point -> point -> point -> point -> list interpoint) pts s o : bool :=
  if negb (s =? o) && boxes_meet (seg_box pts s) (seg_box pts o)
  then let at_ i := nth (Z.to_nat i) pts origin in
    existsb (fun ip => negb (ip_vertex ip) || ip_xor ip) (segx (at_ s) (at_ (s + 1)) (at_ o) (at_ (o + 1)))
  else false.
Lemma crossing_iff segx pts s o : (exists p, segments_cross segx pts s o p) <->
  is_segment pts s /\ is_segment pts o /\ crossing segx pts s o = true.
Proof.
  unfold segments_cross, crossing. rewrite <- andb_lazy_alt, !andb_true_iff, negb_true_iff, Z.eqb_neq, existsb_exists. split.
  - intros (p & A & B & C & D & ip & E & _ & F). split; [exact A|]. split; [exact B|]. split; [auto|]. exists ip. split; [exact E|].
    rewrite orb_true_iff, negb_true_iff. exact F.
  - intros (A & B & (C & D) & ip & E & F). rewrite orb_true_iff, negb_true_iff in F. exists (ip_pt ip). do 4 (split; [assumption|]). exists ip. auto.
Qed.
Lemma tee_crossings s o : (exists p, segments_cross (lo_segx (w_lnr exP)) tee s o p) <-> (exists p, segments_cross (lo_segx (w_lnr exP)) tee2 s o p).
Proof.
  rewrite !crossing_iff. unfold is_segment.
  assert (K : zlen tee = 8 /\ zlen tee2 = 8) by (split; reflexivity). destruct K as [-> ->].
  assert (K : forallb (fun a => forallb (fun b => Bool.eqb (crossing (lo_segx (w_lnr exP)) tee a b) (crossing (lo_segx (w_lnr exP)) tee2 a b))
    [0; 1; 2; 3; 4; 5; 6]) [0; 1; 2; 3; 4; 5; 6] = true) by (vm_compute; reflexivity).
  assert (R : forall x, 0 <= x <= 8 - 2 -> In x [0; 1; 2; 3; 4; 5; 6]) by (intros x Hx; cbn [In]; lia).
  assert (Q : 0 <= s <= 8 - 2 -> 0 <= o <= 8 - 2 -> crossing (lo_segx (w_lnr exP)) tee s o = crossing (lo_segx (w_lnr exP)) tee2 s o).
  { intros A B. rewrite forallb_forall in K. specialize (K s (R s A)). cbv beta in K. rewrite forallb_forall in K. apply eqb_prop, (K o (R o B)). }
  clear K. split; (intros (A & B & C); split; [exact A|split; [exact B|]]); [rewrite <- Q|rewrite Q]; assumption.
Qed.
Lemma one_greatest pts q n : (forall k p, znth pts k = Some p -> k = n \/ loc_lt p q = true) -> In q pts ->
  (forall k p, znth pts k = Some p -> k <> n -> loc_eq q p = false) -> znth pts n = Some q -> greatest_alone pts.
Proof.
  intros H Hq Hn En k p k' r Ek Ek' N El. destruct (H k p Ek) as [-> |K]; [|exists q; auto].
  rewrite En in Ek. injection Ek as <-. rewrite (Hn k' r Ek' N) in El. discriminate.
Qed.
Lemma znth_eight (a b c d e f g h : point) k p : znth [a; b; c; d; e; f; g; h] k = Some p ->
  (k = 0 /\ p = a) \/ (k = 1 /\ p = b) \/ (k = 2 /\ p = c) \/ (k = 3 /\ p = d) \/ (k = 4 /\ p = e) \/ (k = 5 /\ p = f) \/
  (k = 6 /\ p = g) \/ (k = 7 /\ p = h).
Proof.
  intros E. assert (A : 0 <= k < 8).
  { unfold znth in E. destruct (Z.ltb_spec k 0); [discriminate|]. assert (K : (Z.to_nat k < 8)%nat); [|lia].
    change 8%nat with (length [a; b; c; d; e; f; g; h]). apply nth_error_Some. rewrite E. discriminate. }
  assert (K : k = 0 \/ k = 1 \/ k = 2 \/ k = 3 \/ k = 4 \/ k = 5 \/ k = 6 \/ k = 7) by lia. clear A.
  repeat (destruct K as [K|K]; [subst k; injection E as <-; tauto|]). subst k; injection E as <-; tauto.
Qed.
Lemma tee_alone : greatest_alone tee /\ greatest_alone tee2.
Proof.
  split; [apply (one_greatest _ (P2 20 0) 7)|apply (one_greatest _ (P2 140 50) 7)];
    [|do 7 right; left; reflexivity| |reflexivity| |do 7 right; left; reflexivity| |reflexivity];
    intros k p E; apply znth_eight in E; destruct E as [[-> ->]|[[-> ->]|[[-> ->]|[[-> ->]|[[-> ->]|[[-> ->]|[[-> ->]|[-> ->]]]]]]]];
    solve [left; reflexivity|right; vm_compute; reflexivity|intros N; exfalso; apply N; reflexivity|intros _; vm_compute; reflexivity].
Qed.
Lemma tee_forced k : forced_by (self_intersections exP (proto tee_opts toy_score tee)) k <->
  forced_by (self_intersections exP (proto tee2_opts toy_score tee2)) k.
Proof.
  destruct (moved_machine _ _ _ tee_moved) as [M1 M2].
  apply (C94_forced exact_lib exact_lib (lo_sort (w_lnr exP)) (lo_sort (w_lnr exP)) (lo_segx (w_lnr exP)) (lo_segx (w_lnr exP))
    (lo_near (w_lnr exP) tee) (lo_near (w_lnr exP) tee2) true true tee tee2 upside);
    try exact v_sort_sorts; try exact tee_sym; try apply scan_near_finds; try apply tee_alone; try (intros _; exact tee_crossings).
  - intros H. vm_compute in H. discriminate.
  - exact tee_moved.
  - intros p q Hp Hq. rewrite Forall_forall in M1. apply (pl_eq exact_lib places exact_lib_ok); apply machine_num; auto.
  - intros p q Hp Hq. rewrite Forall_forall in M2. apply (pl_eq exact_lib places exact_lib_ok); apply machine_num; auto.
Qed.

Example C94_case :
  let lines := map (map (jl_point both_lib)) (flat_map feature_parts [@JFeat bool (Some (jline tee)) None]) in
  let lines' := map (map (jl_point both_lib)) (flat_map feature_parts [@JFeat bool (Some (jline tee2)) None]) in
  run_input both_lib exP_setup false tee_opts toy_score [str "l"] [str "p"] [JFeat (Some (jline tee)) None] [GPoint tee_pin] /\
  run_input both_lib exP_setup false tee2_opts toy_score [str "m"] [str "q"] [JFeat (Some (jline tee2)) None] [GPoint pin2] /\
  plane_run exP_setup places tee_opts lines [GPoint tee_pin] /\ plane_run exP_setup places tee2_opts lines' [GPoint pin2] /\
  invertible upside /\ same_switches tee_opts tee2_opts /\
  moves_along exact_lib exact_lib places places upside tee_opts tee2_opts /\
  Forall2 (moved_geometry places places upside) [GPoint tee_pin] [GPoint pin2] /\
  Forall2 (moved_part both_lib exP_setup exP_setup upside tee_opts tee2_opts toy_score toy_score)
    (feature_parts (@JFeat bool (Some (jline tee)) None)) (feature_parts (@JFeat bool (Some (jline tee2)) None)) /\
  forced_by (self_intersections exP (proto tee_opts toy_score tee)) 3.
Proof.
  cbv zeta. destruct (moved_machine _ _ _ tee_moved) as [M1 M2].
  assert (E : feature_parts (@JFeat bool (Some (jline tee)) None) = [map flat tee]) by (vm_compute; reflexivity).
  assert (E2 : feature_parts (@JFeat bool (Some (jline tee2)) None) = [map flat tee2]) by (vm_compute; reflexivity).
  assert (F : map (jl_point both_lib) (map flat tee) = tee) by (vm_compute; reflexivity).
  assert (F2 : map (jl_point both_lib) (map flat tee2) = tee2) by (vm_compute; reflexivity).
  assert (Pr : forall o l g, Forall machine_pt l -> machine_pt g -> plane_run exP_setup places o [l] [GPoint g]).
  { intros o l g Hl Hg. split.
    - exact exact_lib_ok.
    - constructor; [apply machine_all, Hl|constructor].
    - constructor; [apply point_number, machine_num, Hg|constructor].
    - intros _. split; [exact v_sort_sorts|]. split; [intros pts _; apply scan_near_finds|]. split; [exact tee_sym|exact tee_near]. }
  cbn [flat_map]. rewrite E, E2, !app_nil_r. cbn [map]. rewrite F, F2. destruct pin_moved as (G1 & G2 & _).
  split; [|split; [|split; [apply Pr; assumption|split; [apply Pr; assumption|split; [|split; [repeat split|split; [|split; [|split]]]]]]]].
  - apply both_input; [left; reflexivity|left; reflexivity|]. line_ok_compute (f_of_Z 40).
  - apply both_input; [right; reflexivity|right; reflexivity|]. line_ok_compute (f_of_Z 80).
  - intros H. vm_compute in H. discriminate.
  - apply exact_moves; [|reflexivity|reflexivity]. intros H. vm_compute in H. discriminate.
  - constructor; [apply point_moves; [intros H; vm_compute in H; discriminate|exact pin_moved]|constructor].
  - constructor; [|constructor]. unfold moved_part. cbv zeta. rewrite F, F2. split; [exact tee_moved|]. split; [exact tee_scores|].
    intros _ k. exact (tee_forced k).
  - assert (G : self_intersections exP (proto tee_opts toy_score tee) = [(P2 5 0, [0; 1; 2; 3]); (P2 5 0, [0; 1; 3; 4])]) by (vm_compute; reflexivity).
    rewrite G. eexists. split; [left; reflexivity|cbn; tauto].
Qed.

(** With planar_self the vertices must be forced alike.  A line that touches itself, and its mirror image: the
    place where it touches itself is reported in one of them only, because repeated places are taken from a sorted list
    and the last run of equal places in it is never reported.  The same library, options and map of the plane: other
    vertices are kept. *)
Definition mirror : affine := Affine (- 1) 0 0 1 0 0.
Definition touching : list point := [P2 0 0; P2 10 0; P2 6 3; P2 10 0].
Definition touching' : list point := [P2 0 0; P2 (-10) 0; P2 (-6) 3; P2 (-10) 0].
Definition touch_opts : opts := Opts (f_of_Z 100) fzero fzero true false false false false false.
Theorem C94_mirrored_self_touch_refuted :
  exists (W : world) ord (self self' : cdp) fuel hs n hs' n' D t,
    plane_library (w_geom W) D /\ invertible t /\ moves_along (w_geom W) (w_geom W) D D t (c_opts self) (c_opts self') /\
    c_opts self' = c_opts self /\ o_planar_self (c_opts self) = true /\ Forall2 (moved t) (c_pts self) (c_pts self') /\
    sorts (lo_sort (w_lnr W)) /\ finds_segments (lo_near (w_lnr W) (c_pts self)) (c_pts self) /\
    ready W ord self [] [] fuel /\ ready W ord self' [] [] fuel /\
    scores_alike (c_pts self) (c_pts self') (dp_score (c_score self) (c_sq self)) (dp_score (c_score self') (c_sq self'))
      (dp_relation (o_threshold (c_opts self)) (c_sq self)) (dp_relation (o_threshold (c_opts self)) (c_sq self')) /\
    simplify W ord self [] fuel 0 = Ok (hs, n) /\ simplify W ord self' [] fuel 0 = Ok (hs', n') /\
    simple_set hs = [0; 3] /\ simple_set hs' = [0; 1; 3].
Proof.
  set (a := Cdp 7 touching touch_opts toy_score None new_hdb_default). set (b := Cdp 7 touching' touch_opts toy_score None new_hdb_default).
  destruct (simplify exP in_turn a [] 9 0) as [[hs n]| |] eqn:Ea; vm_compute in Ea; try discriminate Ea.
  destruct (simplify exP in_turn b [] 9 0) as [[hs' n']| |] eqn:Eb; vm_compute in Eb; try discriminate Eb.
  assert (It : invertible mirror) by (intros H; vm_compute in H; discriminate).
  assert (Mv : Forall2 (moved mirror) touching touching').
  { unfold touching, touching'. repeat (apply Forall2_cons; [split; [split; (split; vm_compute; reflexivity)|split; [split; (split; vm_compute; reflexivity)|split; vm_compute; reflexivity]]|]).
    apply Forall2_nil. }
  destruct (moved_machine _ _ _ Mv) as [M1 M2].
  assert (Rd : forall pts, pts = touching \/ pts = touching' -> ready exP in_turn (Cdp 7 pts touch_opts toy_score None new_hdb_default) [] [] 9).
  { intros pts Hp. assert (M : Forall machine_pt pts) by (destruct Hp as [-> | ->]; assumption).
    split; cbn [c_pts c_opts w_geom exP].
    - exact exP_ok.
    - exact in_turn_ok.
    - destruct Hp as [-> | ->]; line_ok_compute (f_of_Z 100).
    - split; [reflexivity|constructor].
    - constructor.
    - destruct Hp as [-> | ->]; cbn; lia.
    - reflexivity.
    - intros r g _ [].
    - intros _ c Hc. assert (Nc : num_pt (fst c)).
      { destruct Hp as [-> | ->]; vm_compute in Hc; repeat (destruct Hc as [<- |Hc]; [split; reflexivity|]); destruct Hc. }
      split; [apply (plane_not_farther _ places exact_lib_ok); [apply machine_all, M|exact Nc]|].
      apply (plane_vertex_location _ places exact_lib_ok); [apply machine_all, M|exact Nc|]. intros k Hk.
      destruct Hp as [-> | ->]; vm_compute in Hc; repeat (destruct Hc as [<- |Hc]; [cbn [snd] in Hk; repeat (destruct Hk as [<- |Hk]; [vm_compute; reflexivity|]); destruct Hk|]); destruct Hc. }
  exists exP, in_turn, a, b, 9%nat, hs, n, hs', n', places, mirror.
  split; [exact exact_lib_ok|]. split; [exact It|]. split; [apply exact_moves; [exact It|reflexivity|reflexivity]|].
  split; [reflexivity|]. split; [reflexivity|]. split; [exact Mv|]. split; [exact v_sort_sorts|]. split; [apply scan_near_finds|].
  split; [apply Rd; auto|]. split; [apply Rd; auto|].
  split; [intros r Hr; by_pieces r Hr; vm_compute; split; reflexivity|].
  injection Ea as <- <-. injection Eb as <- <-.
  split; [vm_compute; reflexivity|]. split; [vm_compute; reflexivity|]. split; vm_compute; reflexivity.
Qed.

Print Assumptions C94_same_picture_same_vertices.
Print Assumptions C94_offsets.
Print Assumptions C94_forced.
Print Assumptions C94_in_the_plane.
Print Assumptions C94_mirrored_self_touch_refuted.
