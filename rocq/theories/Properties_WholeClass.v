(** Claim C98: what simplifying a class of lines keeps, described step by step (Spec_Class.v). *)
From Verif Require Import M_Base M_Float M_Rng M_Geom M_Offset M_Node M_Decompose M_Split M_Hdb M_Knn M_Lnr M_Homotopy M_Relate
  M_Deform M_Constrain M_ConstDP M_IO Spec Spec_Hdb Spec_Lnr Spec_Relate Spec_Deform Spec_ConstDP Spec_IO Spec_Run Spec_Out Spec_Modes Spec_Move
  Spec_Exact Spec_Whole Spec_Class
  P_Base P_Float P_Decompose P_Split P_Node P_Hdb P_HdbHist P_HdbLoad P_Knn P_Homotopy P_Relate P_Db P_Bag P_Constrain P_Deform P_Conflict P_ConstDP P_Aggregate P_Simplify P_DpTree
  P_Class P_ClassConf P_Ref P_Twin P_Modes P_Plane P_Move P_Exact P_Whole P_WholeClass
  Toy Toy_Box Properties_Core Properties_Lnr Properties_Relate Properties_ConstDP Properties_Constrain Properties_Conflict Properties_Twin Properties_ClassConf
  Properties_Exact Properties_Whole.
Open Scope Z_scope.

(** ** Statement *)

(** A class of lines with the same options, constraints and offsets, and a library whose boxes and hulls fit. *)
Record class_exact (W : world) (gens : Z -> idgen) (env : Z -> cdp) (selfs : list cdp) (o : opts)
    (dist : point -> point -> point -> f64) (constraints : list geometry) (fuel : nat) : Prop := {
  ce_ready : class_ready W gens env selfs fuel;
  ce_opts : forall s, In s selfs -> c_opts s = o;
  ce_score : forall s, In s selfs -> c_score s = max_offset dist /\ c_sq s = None;
  ce_built : forall s, In s selfs -> built_from W s constraints;
  ce_min : is_nan (o_min_dist o) = false;
  ce_threshold : fle fzero (o_threshold o) = true;
  ce_boxes : forall s r g, In s selfs -> piece (c_pts s) r -> In g constraints ->
    box_distance_ok (w_geom W) (piece_hull (w_geom W) (c_pts s) r) g (gl_bounds (w_geom W) g);
  ce_meet : forall s, In s selfs -> neighbours_meet (w_geom W) (c_pts s);
  ce_far : o_planar_self o = true -> forall s c, In s selfs ->
    In c (self_intersections W s) \/ (exists k, 0 <= k < zlen (c_pts s) /\ c = (nth (Z.to_nat k) (c_pts s) origin, [k])) ->
    boxes_not_farther (w_geom W) (c_pts s) c /\ location_on_hulls (w_geom W) (c_pts s) c
}.

(** ** Proof *)

Lemma whole_forced_ext L o dist cs pts f g s : (forall k, f k <-> g k) -> whole_result L o dist cs pts f s -> whole_result L o dist cs pts g s.
Proof.
  intros E (d & w & p & fx & c & T & (W1 & W2) & Sp & F & C & X). exists d, w, p, fx, c. split; [exact T|]. split.
  { split; [exact W1|]. intros k. rewrite W2, (E k). reflexivity. }
  split; [exact Sp|]. split; [|split; [exact C|exact X]]. intros k. rewrite F. apply E.
Qed.

Section Run.
  Variables (W : world) (gens : Z -> idgen) (ords : Z -> nat -> list node -> list node) (ord : nat -> list node -> list node)
    (env : Z -> cdp) (selfs : list cdp) (o : opts) (dist : point -> point -> point -> f64) (cs : list geometry) (fuel : nat).
  Hypothesis HE : class_exact W gens env selfs o dist cs fuel.
  Hypothesis Ho1 : forall i, any_order (ords i).
  Hypothesis Ho2 : any_order ord.
  Notation L := (w_geom W).
  Notation ids := (map c_id selfs).
  Notation pts := (fun i => c_pts (env i)).
  Let fc := map (fun s => (c_id s, c_pts s)) selfs.
  Let js i := if o_planar_self o then fc_junctions (w_geom W) (lo_sort (w_lnr W)) fc i else [].

  Lemma js_iff s k : In s selfs -> o_planar_self o = true -> (In k (js (c_id s)) <->
    exists p, vertex_at fc (c_id s) k p /\ shared_vertex fc (c_id s) k p /\ not_greatest (class_points fc) p).
  Proof.
    intros Hin Hp. unfold js. rewrite Hp. destruct (ce_ready _ _ _ _ _ _ _ _ HE) as [HW Hnd Henv Hg1 Hg2 Hl Hs Hn He Hf].
    apply C17_junctions_partial; auto. unfold fc. rewrite map_map. exact Hnd.
  Qed.
  Lemma js_range s : In s selfs -> Forall (fun k => 0 <= k < zlen (c_pts s)) (js (c_id s)).
  Proof.
    intros Hin. destruct (ce_ready _ _ _ _ _ _ _ _ HE) as [HW Hnd Henv Hg1 Hg2 Hl Hs Hn He Hf].
    apply Forall_forall. intros k Hk.
    assert (Hp : o_planar_self o = true) by (destruct (bool_dec (o_planar_self o) true) as [K|K]; [exact K|exfalso]; apply not_true_is_false in K; unfold js in Hk; rewrite K in Hk; exact Hk).
    apply (js_iff s k Hin Hp) in Hk. destruct Hk as (p & (pts & Hq & Hq') & _).
    unfold fc in Hq. apply in_map_iff in Hq. destruct Hq as (s' & Es & Hs'). injection Es as E1 E2.
    assert (s' = s) by (rewrite <- (Henv s' Hs'), <- (Henv s Hin), E1; reflexivity). subst s'. subst pts.
    unfold znth in Hq'. destruct (k <? 0) eqn:Ek; [discriminate|]. apply Z.ltb_ge in Ek.
    assert (nth_error (c_pts s) (Z.to_nat k) <> None) as Hne by congruence. apply nth_error_Some in Hne. unfold zlen. lia.
  Qed.

  Lemma line_fuel s : In s selfs -> (2 * length (c_pts s) - 3 < fuel)%nat.
  Proof.
    intros Hin. destruct (ce_ready _ _ _ _ _ _ _ _ HE) as [HW Hnd Henv Hg1 Hg2 Hl Hs Hn He Hf].
    pose proof (class_sizes W env selfs Hnd Henv (fun s H => proj1 (Hl s H)) s Hin). lia.
  Qed.

  Lemma line_places s p : In s selfs -> In p (c_pts s) -> same_place L p p.
  Proof.
    intros Hin Hp. destruct (ce_ready _ _ _ _ _ _ _ _ HE) as [HW Hnd Henv Hg1 Hg2 Hl Hs Hn He Hf].
    assert (K : In p (class_points (map (fun s => (c_id s, c_pts s)) selfs))).
    { unfold class_points. apply in_flat_map. exists (c_id s, c_pts s). split; [apply in_map_iff; exists s; auto|exact Hp]. }
    unfold same_place. rewrite (He p p K K). apply loc_eq_self. rewrite Forall_forall in Hn. auto.
  Qed.

  (** What one line keeps by itself. *)
  Lemma line_alone s hs n : In s selfs -> simplify (worldi W gens (c_id s)) (ords (c_id s)) s (js (c_id s)) fuel 0 = Ok (hs, n) ->
    whole_result L o dist cs (c_pts s) (class_forced W selfs s) (simple_set hs) /\
    (forall h, In h hs -> big h -> chord_ok L o cs (c_pts s) (rI (n_rng h)) (rJ (n_rng h)) = true).
  Proof.
    intros Hin E. destruct HE as [HR Hopt Hsc Hb Hnan HT Hbox Hm Hfar]. pose proof HR as [HW Hnd Henv Hg1 Hg2 Hl Hs Hn He Hf].
    assert (HWi : libs_ok (worldi W gens (c_id s))).
    { destruct HW as [A B C D]. split; auto. cbn. intros j k K. apply (Hg1 _ _ _ _ K). }
    assert (R : ready (worldi W gens (c_id s)) (ords (c_id s)) s cs (js (c_id s)) fuel).
    { split.
      - exact HWi.
      - apply Ho1.
      - apply (Hl s Hin).
      - apply (Hb s Hin).
      - apply js_range, Hin.
      - apply line_fuel, Hin.
      - rewrite (Hopt s Hin). exact Hnan.
      - intros r g. apply Hbox, Hin.
      - rewrite (Hopt s Hin). intros Hp c Hc. apply (Hfar Hp s c Hin). apply in_app_iff in Hc. destruct Hc as [Hc|Hc]; [left; exact Hc|].
        apply in_map_iff in Hc. destruct Hc as (k & <- & Hk). right. exists k. split; [|reflexivity].
        pose proof (js_range s Hin) as K. rewrite Forall_forall in K. auto. }
    split.
    - destruct (Hsc s Hin) as [Es Eq]. pose proof (Hopt s Hin) as Eo.
      assert (X : whole_result L o dist cs (c_pts s) (forced_vertices (worldi W gens (c_id s)) s (js (c_id s))) (simple_set hs)).
      { rewrite <- Eo. apply (C97_exact (worldi W gens (c_id s)) (ords (c_id s)) s cs (js (c_id s)) fuel 0 dist R (Hm s Hin) (fun p => line_places s p Hin) Es Eq);
          [rewrite Eo; exact HT|]. exists hs, n. auto. }
      eapply whole_forced_ext; [|exact X]. intros k. unfold forced_vertices, class_forced. fold fc. rewrite Eo.
      change (self_intersections (worldi W gens (c_id s)) s) with (self_intersections W s).
      split; intros (Hp & K); (split; [exact Hp|]); pose proof (js_iff s k Hin Hp) as J; tauto.
    - intros h Hh Hbig.
      pose proof (one_setting (worldi W gens (c_id s)) s cs (fun _ => True) HWi (proj1 (Hl s Hin)) (Hb s Hin) (fun _ => I)) as St.
      destruct (simplify_spec (worldi W gens (c_id s)) s _ (ords (c_id s)) (Ho1 _) St (lk_two _ _ (proj1 (Hl s Hin))) (lk_splits _ _ (proj1 (Hl s Hin)))
        (js (c_id s)) fuel 0 (js_range s Hin) (line_fuel s Hin)) as (hs' & n' & E' & Hi & Hv & _).
      rewrite E in E'. injection E' as <- <-. specialize (Hv h Hh Hbig). unfold valid_in in Hv.
      assert (Fh : fresh_hull L (c_pts s) (c_id s) h).
      { pose proof (bi_proper _ _ _ _ _ _ Hi) as K. rewrite Forall_forall in K. specialize (K h Hh). unfold proper, lines_of in K.
        destruct (inv_member _ _ _ _ _ _ _ Hi Hh) as [Ei|[]]. rewrite <- Ei in K. exact K. }
      rewrite (valid_exact (worldi W gens (c_id s)) s cs cs (lb_heap _ HWi) (built_holds _ _ _ (lb_rtree _ HWi) (Hb s Hin))) in Hv; auto.
      + injection Hv as Hv. rewrite (Hopt s Hin) in Hv. destruct Fh as ((A & B & C & _) & _). destruct (n_rng h) as [a c] eqn:Er. cbn [rI rJ] in *.
        rewrite <- (valid_chord L o cs (c_pts s) a c A B). exact Hv.
      + intros. tauto.
      + rewrite (Hopt s Hin). exact Hnan.
      + intros z g bx (A & B & _) Hg Hw. pose proof A as (A1 & A2 & A3 & _). rewrite B. rewrite (cpts_hull _ _ A).
        apply (Hbox s (n_rng z) g Hin); auto. split; [|split]; auto.
  Qed.

  (** The class phase. *)
  Lemma class_core : exists done out (alone result : Z -> list Z),
    simplify_feature_class W gens ords ord env selfs o fuel = Ok out /\ map fst out = selfs /\
    simplify_instances W gens ords js fuel selfs = Ok done /\
    (forall s hs, In (s, hs) done -> simple_set hs = alone (c_id s)) /\
    (forall i, In i ids -> whole_result L o dist cs (pts i) (class_forced W selfs (env i)) (alone i)) /\
    (forall i r, In i ids -> In r (parts (alone i)) -> examined (class_part L pts i r) -> chord_ok L o cs (pts i) (rI r) (rJ r) = true) /\
    settle_class L o dist cs ids pts (fun _ => False) (fun _ => []) alone result /\
    (forall s hs, In (s, hs) out -> simple_set hs = result (c_id s)).
  Proof.
    pose proof HE as [HR Hopt Hsc Hb Hnan HT Hbox Hm Hfar]. pose proof HR as [HW Hnd Henv Hg1 Hg2 Hl Hs Hn He Hf].
    destruct (C34_features_stay_separate W gens ords ord env selfs o fuel HW Ho1 Ho2 Hnd Henv Hg1 Hg2 Hl Hs Hn He Hf) as (out & Eout & Efst & _).
    destruct (instances_spec W gens ords selfs HW Ho1 Hl Hg1 js fuel selfs (fun x H => H) js_range line_fuel) as (done & Edone & F).
    assert (F0 : Forall2 (fun s r => fst r = s /\ inst_ok W gens s (snd r)) selfs done).
    { clearbody js. clear - F. induction F as [|x y ? ? (E & J & _) F IH]; constructor; auto. }
    pose proof (class_bag W gens env selfs Hnd Henv Hg1 Hg2 done F0) as Hi.
    pose proof (setting_all W env selfs HW Hnd Henv Hl) as Sa.
    destruct (flat_of_inst W gens Hg1 selfs done Hnd F0) as (A & _).
    assert (Hids : forall i, In i ids -> In (env i) selfs /\ c_id (env i) = i).
    { intros i Hii. apply in_map_iff in Hii. destruct Hii as (s & <- & Hin). rewrite (Henv s Hin). auto. }
    assert (Hdone : forall i, In i ids -> exists hs n, In (env i, hs) done /\
      simplify (worldi W gens (c_id (env i))) (ords (c_id (env i))) (env i) (js (c_id (env i))) fuel 0 = Ok (hs, n)).
    { intros i Hii. destruct (Hids i Hii) as [Hin Ei]. destruct (Forall2_in_l _ _ _ _ F Hin) as ([s' hs] & Hd & Es & _ & n & E).
      cbn [fst snd] in *. subst s'. exists hs, n. auto. }
    set (b := flat_map snd done) in *.
    assert (Htwo : forall i, In i ids -> (2 <= length (lines_of env i))%nat).
    { intros i Hii. apply (lk_two _ _ (proj1 (Hl _ (proj1 (Hids i Hii))))). }
    assert (Hgrp : forall i hs, In i ids -> In (env i, hs) done -> of_inst i b = hs).
    { intros i hs Hii Hd. rewrite <- (A _ _ Hd). rewrite (proj2 (Hids i Hii)). reflexivity. }
    assert (Halone : forall i, In i ids -> whole_result L o dist cs (pts i) (class_forced W selfs (env i)) (now b i)).
    { intros i Hii. destruct (Hdone i Hii) as (hs & n & Hd & E). destruct (Hids i Hii) as [Hin Ei].
      unfold now. rewrite (Hgrp i hs Hii Hd). apply (line_alone (env i) hs n Hin E). }
    assert (Hfine : forall i r, In i ids -> In r (parts (now b i)) -> examined (class_part L pts i r) -> chord_ok L o cs (pts i) (rI r) (rJ r) = true).
    { intros i r Hii Hr Hex. destruct (hull_of W env ids _ Htwo 0 b i r Hi Hii Hr) as (h & Hh & Eh & <-).
      destruct (Hdone i Hii) as (hs & n & Hd & E). destruct (Hids i Hii) as [Hin Ei].
      apply (line_alone (env i) hs n Hin E); [rewrite <- (Hgrp i hs Hii Hd); apply of_inst_in; auto|].
      apply (big_part W env ids _ 0 b h Hi Hh). rewrite Eh. exact Hex. }
    assert (Hd0 : forall s hs, In (s, hs) done -> simple_set hs = now b (c_id s)).
    { intros s hs Hd. unfold now. rewrite (A _ _ Hd). reflexivity. }
    unfold simplify_feature_class in Eout. fold fc in Eout. fold js in Eout. rewrite Edone in Eout. cbn [bind] in Eout. fold b in Eout.
    destruct (constrained o) eqn:Hcon.
    - unfold class_phase in Eout.
      assert (Hg : Forall good_item b).
      { apply Forall_forall. intros h Hh. apply (inv_goods W env ids _ Sa 0 _ h Hi Hh). }
      destruct (holds_load (w_hdb W) new_hdb_default [] b (lb_rtree _ HW) holds_new Hg) as (db & Edb & Hdb).
      rewrite Edb in Eout. cbn [bind app] in Eout, Hdb.
      destruct (split_loop W env ord fuel 0 (fun _ => false) b db 0) as [[db2 ctr2]| |] eqn:E2; try discriminate Eout.
      cbn [bind] in Eout.
      destruct (loop_class W env ids _ Sa o dist cs) with (ord := ord) (fuel := fuel) (round := 0%nat) (dirty := fun _ : Z => false)
        (changed := fun _ : Z => False) (before := fun _ : Z => @nil Z) (D := b) (db := db) (ctr := 0%nat) (b := b) (db' := db2) (ctr' := ctr2)
        as (b' & Hdb2 & Hi2 & Hset); auto.
      + intros i Hii. apply Hopt, Hids, Hii.
      + intros i Hii. apply Hsc, Hids, Hii.
      + intros i Hii. apply Hids, Hii.
      + apply (lb_heap _ HW).
      + intros i Hii. destruct (Hids i Hii) as [Hin Ei]. pose proof (built_holds W _ _ (lb_rtree _ HW) (Hb _ Hin)) as K. rewrite Ei in K. exact K.
      + intros i z g bx Hii (B1 & B2 & _) Hgc Hw. pose proof B1 as (A1 & A2 & A3 & _). rewrite B2. rewrite (cpts_hull _ _ B1).
        apply (Hbox (env i) (n_rng z) g (proj1 (Hids i Hii))); auto. split; [|split]; auto.
      + intros i p Hii Hp. apply (line_places (env i)); [apply Hids, Hii|exact Hp].
      + intros x Hx. exact Hx.
      + intros h Hh _. cbn [parts In]. tauto.
      + intros i _. split; [discriminate|intros []].
      + destruct (holds_all _ _ Hdb2) as (hs & Ehs & Hph). rewrite Ehs in Eout. cbn [bind] in Eout. injection Eout as <-.
        exists done, (map (fun s => (s, group_hulls hs (c_id s))) selfs), (now b), (now b').
        split; [unfold simplify_feature_class; fold fc; fold js; rewrite Edone; cbn [bind]; rewrite Hcon; unfold class_phase; fold b; rewrite Edb; cbn [bind]; rewrite E2; cbn [bind]; rewrite Ehs; reflexivity|].
        split; [rewrite map_map; cbn [fst]; apply map_id|]. split; [exact Edone|]. split; [exact Hd0|]. split; [exact Halone|]. split; [exact Hfine|]. split; [exact Hset|].
        intros s r Hr. apply in_map_iff in Hr. destruct Hr as (s' & E & Hin). injection E as -> <-.
        change (group_hulls hs (c_id s)) with (of_inst (c_id s) hs).
        apply (now_perm_eq W env ids (fun _ => True) Htwo ctr2 hs b'); [exact (inv_perm _ _ _ _ _ _ _ (Permutation_sym Hph) Hi2)|apply in_map, Hin|exact Hph].
    - injection Eout as <-. exists done, done, (now b), (now b).
      split; [unfold simplify_feature_class; fold fc; fold js; rewrite Edone; cbn [bind]; rewrite Hcon; reflexivity|].
      split; [exact Efst|]. split; [exact Edone|]. split; [exact Hd0|]. split; [exact Halone|]. split; [exact Hfine|]. split; [|exact Hd0].
      apply sc_done with (split := fun _ _ => False); [|auto|auto]. exists (fun _ _ _ _ => False).
      split; [intros ? ? ? ? []|]. split.
      { intros i r k v _ (j & q & _ & _ & _ & Ha & _). unfold constrained in Hcon. rewrite Ha in Hcon. discriminate Hcon. }
      split; [intros ? ? ? ? ? []|]. intros k v. split; [intros []|]. intros (_ & _ & _ & [(i & r & [])|[(K1 & K2 & _ & K4) K]]).
      rewrite (Hfine k v K1 K2 K4) in K. discriminate K.
  Qed.
End Run.

(** ** C98 *)

(** The program succeeds, and what it keeps is a result of the description. *)
Theorem C98_class :
  forall (W : world) gens ords ord (env : Z -> cdp) (selfs : list cdp) (o : opts) dist constraints fuel,
  class_exact W gens env selfs o dist constraints fuel -> (forall i, any_order (ords i)) -> any_order ord ->
  exists out result,
    simplify_feature_class W gens ords ord env selfs o fuel = Ok out /\ map fst out = selfs /\
    class_result (w_geom W) o dist constraints (map c_id selfs) (fun i => c_pts (env i)) (fun i => class_forced W selfs (env i)) result /\
    forall s hs, In (s, hs) out -> simple_set hs = result (c_id s).
Proof.
  intros W gens ords ord env selfs o dist cs fuel HE Ho1 Ho2.
  destruct (class_core W gens ords ord env selfs o dist cs fuel HE Ho1 Ho2) as (done & out & alone & result & E & Ef & _ & _ & Ha & _ & Hs & Hr).
  exists out, result. split; [exact E|]. split; [exact Ef|]. split; [|exact Hr]. exists alone. auto.
Qed.

(** If the description can be followed without ambiguity to a result, the program gives this result, for every
    iteration order of its maps. *)
Theorem C98_clear :
  forall (W : world) gens ords ord (env : Z -> cdp) (selfs : list cdp) (o : opts) dist constraints fuel result,
  class_exact W gens env selfs o dist constraints fuel -> (forall i, any_order (ords i)) -> any_order ord ->
  class_result_clear (w_geom W) o dist constraints (map c_id selfs) (fun i => c_pts (env i)) (fun i => class_forced W selfs (env i)) result ->
  exists out, simplify_feature_class W gens ords ord env selfs o fuel = Ok out /\ map fst out = selfs /\
    forall s hs, In (s, hs) out -> simple_set hs = result (c_id s).
Proof.
  intros W gens ords ord env selfs o dist cs fuel result HE Ho1 Ho2 (al & Hal & Hcl).
  destruct (class_core W gens ords ord env selfs o dist cs fuel HE Ho1 Ho2) as (done & out & alone & result' & E & Ef & _ & _ & Ha & _ & Hs & Hr).
  exists out. split; [exact E|]. split; [exact Ef|]. intros s hs Hin. rewrite (Hr s hs Hin).
  assert (Hid : In (c_id s) (map c_id selfs)).
  { apply in_map. rewrite <- Ef. exact (in_map fst _ _ Hin). }
  symmetry. eapply (clearly_unique (w_geom W) o dist cs (map c_id selfs) (fun i => c_pts (env i))); [exact Hcl| | | |exact Hs|exact Hid].
  - intros i _. tauto.
  - reflexivity.
  - intros i Hi. eapply whole_unique; [apply Hal, Hi|apply Ha, Hi].
Qed.

(** Without avoid_self the class option changes nothing but the forced vertices: every line is simplified by itself. *)
Theorem C98_without_avoid_self :
  forall (W : world) gens ords ord (env : Z -> cdp) (selfs : list cdp) (o : opts) dist constraints fuel,
  class_exact W gens env selfs o dist constraints fuel -> (forall i, any_order (ords i)) -> any_order ord -> o_avoid_self o = false ->
  exists out, simplify_feature_class W gens ords ord env selfs o fuel = Ok out /\ map fst out = selfs /\
    forall s hs, In (s, hs) out -> whole_result (w_geom W) o dist constraints (c_pts s) (class_forced W selfs s) (simple_set hs).
Proof.
  intros W gens ords ord env selfs o dist cs fuel HE Ho1 Ho2 Hav.
  destruct (class_core W gens ords ord env selfs o dist cs fuel HE Ho1 Ho2) as (done & out & alone & result & E & Ef & _ & _ & Ha & Hfine & Hs & Hr).
  exists out. split; [exact E|]. split; [exact Ef|]. intros s hs Hin.
  assert (Hsin : In s selfs) by (rewrite <- Ef; exact (in_map fst _ _ Hin)).
  assert (Hid : In (c_id s) (map c_id selfs)) by (apply in_map; exact Hsin).
  pose proof (cr_env _ _ _ _ _ (ce_ready _ _ _ _ _ _ _ _ HE) s Hsin) as Ee.
  assert (X : result (c_id s) = alone (c_id s)).
  { assert (No : forall split, split_in_round (w_geom W) o cs (map c_id selfs) (fun i => c_pts (env i)) (fun _ => False) (fun _ => []) alone split -> forall k v, ~ split k v).
    { intros split (taken & T1 & _ & _ & T4) k v K. apply T4 in K. destruct K as (_ & _ & _ & [(i & r & K)|[(K1 & K2 & _ & K4) K]]).
      - apply T1 in K. destruct K as (_ & j & q & _ & _ & _ & Hc & _). congruence.
      - rewrite (Hfine k v K1 K2 K4) in K. discriminate K. }
    inversion Hs as [? ? ? split ? S1 S2 S3|? ? ? split next ? S1 (k & v & S2) S3 S4]; subst; [apply S3, Hid|]. exfalso. exact (No split S1 k v S2). }
  rewrite (Hr s hs Hin), X. specialize (Ha _ Hid). cbv beta in Ha. rewrite Ee in Ha. exact Ha.
Qed.

(** ** Cases *)

(** A hill whose chord meets a pole that ends under the hill. *)
Definition f_hill : cdp := Cdp 1 [P2 0 0; P2 10 10; P2 20 0] spike_opts toy_score None new_hdb_default.
Definition f_pole : cdp := Cdp 2 [P2 10 (-5); P2 10 (-3); P2 10 (-2); P2 10 1] spike_opts toy_score None new_hdb_default.
Definition env5 (i : Z) : cdp := if i =? 1 then f_hill else f_pole.

Lemma meet_compute L pts :
  forallb (fun r => forallb (fun q => negb ((rJ r =? rI q) || (rJ q =? rI r)) ||
      boxes_meet (gl_bounds L (piece_hull L pts r)) (gl_bounds L (piece_hull L pts q)) &&
      fle (gl_dist L (piece_hull L pts q) (piece_hull L pts r)) epsilon_dist) (pieces (Datatypes.length pts))) (pieces (Datatypes.length pts)) = true ->
  neighbours_meet L pts.
Proof.
  intros K r q Hr Hq H. apply pieces_all in Hr, Hq.
  rewrite forallb_forall in K. specialize (K r Hr). cbv beta in K. rewrite forallb_forall in K. specialize (K q Hq). cbv beta in K.
  rewrite orb_true_iff, negb_true_iff, orb_false_iff, !Z.eqb_neq, andb_true_iff in K. destruct K as [[K1 K2]|K]; [tauto|exact K].
Qed.

Ltac class_exact_compute ready :=
  split;
  [ ready
  | let s := fresh in let H := fresh in intros s H; class_cases H; reflexivity
  | let s := fresh in let H := fresh in intros s H; class_cases H; split; reflexivity
  | let s := fresh in let H := fresh in intros s H; class_cases H; (split; [vm_compute; reflexivity|constructor])
  | reflexivity | reflexivity
  | intros ? ? ? _ _ []
  | let s := fresh in let H := fresh in intros s H; class_cases H; apply meet_compute; vm_compute; reflexivity
  | discriminate ].

Lemma hill_ready : class_exact exW ex_gens env5 [f_hill; f_pole] spike_opts toy_ptseg [] 40.
Proof.
  class_exact_compute ltac:(split;
    [ exact exW_ok
    | repeat constructor; cbn; intuition discriminate
    | intros s H; class_cases H; reflexivity
    | exact (proj1 ex_gens_ok)
    | exact (proj2 ex_gens_ok)
    | intros s H; class_cases H; (split; [line_ok_compute (f_of_Z 13)|]; exists []; split; [vm_compute; reflexivity|constructor])
    | exact v_sort_sorts
    | unfold class_points; cbn [flat_map map snd c_pts app f_hill f_pole]; repeat (constructor; [split; vm_compute; reflexivity|]); constructor
    | intros p q _ _; reflexivity
    | cbn; lia ]).
Qed.

Definition kept_of (r : res (list (cdp * list node))) : res (list (Z * list Z)) :=
  d <- r ;; Ok (map (fun r => (c_id (fst r), simple_set (snd r))) d).
Lemma kept_of_in r d l f : kept_of r = Ok l -> r = Ok d -> (forall s hs, In (s, hs) d -> simple_set hs = f (c_id s)) -> forall i k, In (i, k) l -> f i = k.
Proof.
  intros E -> H i k Hin. injection E as <-. apply in_map_iff in Hin. destruct Hin as ([s hs] & E & Hin). injection E as <- <-. symmetry. apply (H s hs Hin).
Qed.

(** Each line by itself keeps its ends.  The description has one round that splits the hill and nothing else. *)
Example C98_case :
  let selfs := [f_hill; f_pole] in let ids := map c_id selfs in let pts := fun i => c_pts (env5 i) in
  class_exact exW ex_gens env5 selfs spike_opts toy_ptseg [] 40 /\
  whole_result toy spike_opts toy_ptseg [] (c_pts f_hill) (class_forced exW selfs f_hill) [0; 2] /\
  class_result_clear toy spike_opts toy_ptseg [] ids pts (fun i => class_forced exW selfs (env5 i)) (fun i => if i =? 1 then [0; 1; 2] else [0; 3]).
Proof.
  cbv zeta. split; [exact hill_ready|].
  destruct (class_core exW ex_gens (fun _ => in_turn) in_turn env5 [f_hill; f_pole] spike_opts toy_ptseg [] 40 hill_ready (fun _ => in_turn_ok) in_turn_ok)
    as (done & out & alone & result & _ & _ & Ed & Ha & Hw & _).
  assert (Ek : kept_of (simplify_instances exW ex_gens (fun _ => in_turn) (fun _ => []) 40 [f_hill; f_pole]) = Ok [(1, [0; 2]); (2, [0; 3])])
    by (vm_compute; reflexivity).
  pose proof (kept_of_in _ _ _ _ Ek Ed Ha 1 [0; 2] ltac:(cbn; auto)) as A1.
  pose proof (kept_of_in _ _ _ _ Ek Ed Ha 2 [0; 3] ltac:(cbn; auto)) as A2. clear Ha.
  pose proof (Hw 1 ltac:(cbn; auto)) as W1. pose proof (Hw 2 ltac:(cbn; auto)) as W2. cbv beta in W1, W2. rewrite A1 in W1. rewrite A2 in W2.
  cbn [w_geom exW] in W1, W2. split; [exact W1|].
  set (ids := map c_id [f_hill; f_pole]). set (pts := fun i => c_pts (env5 i)).
  set (st := fun i : Z => if i =? 1 then [0; 2] else [0; 3]). set (st' := fun i : Z => if i =? 1 then [0; 1; 2] else [0; 3]).
  assert (Hid : forall i, In i ids -> i = 1 \/ i = 2) by (intros i [<- |[<- |[]]]; auto).
  exists st. split; [intros i Hi; destruct (Hid i Hi) as [-> | ->]; assumption|].
  assert (Ht : point_touch toy) by exact (lb_touch _ exW_ok).
  assert (Hpl : forall i p, In i ids -> In p (pts i) -> gl_eq2d toy p p = true).
  { intros i p Hi Hp. apply (line_places exW ex_gens env5 [f_hill; f_pole] spike_opts toy_ptseg [] 40 hill_ready (env5 i) p); [|exact Hp].
    destruct (Hid i Hi) as [-> | ->]; cbn; auto. }
  assert (Hpc : forall i r, In i ids -> In r (parts (st i)) -> piece (pts i) r).
  { intros i r Hi. destruct (Hid i Hi) as [-> | ->]; intros [<- |[]]; vm_compute; intuition discriminate. }
  assert (U : forall ch before, unambiguous toy spike_opts ids pts ch before st).
  { intros ch before. apply ranges_differ; auto. intros i j r Hi Hj. destruct (Hid i Hi) as [-> | ->], (Hid j Hj) as [-> | ->]; auto; intros [<- |[]] [K|[]]; discriminate K. }
  assert (Flat : forall r before now, In r (parts (st 2)) -> ~ checked toy ids pts before now 2 r).
  { intros r before now [<- |[]] (_ & _ & _ & _ & K). vm_compute in K. discriminate K. }
  assert (E' : pair_candidates toy fzero true (class_part toy pts 1 (Rng 0 2)) (class_part toy pts 2 (Rng 0 3)) =
    Ok (Some (class_part toy pts 1 (Rng 0 2)), None)) by (vm_compute; reflexivity).
  assert (Hask : forall k v, asks toy spike_opts ids pts (fun _ => False) st 1 (Rng 0 2) k v -> k = 1 /\ v = Rng 0 2).
  { intros k v (j & q & Hj & Hq & [Hji|[]] & _ & _ & _ & _ & K). destruct (Hid j Hj) as [-> | ->]; [congruence|]. destruct Hq as [<- |[]].
    apply (pair_iff toy fzero true _ _ _ toy_places Ht) in K; [|eexists; reflexivity..]. destruct K as (sa & sb & E & K).
    rewrite E' in E. injection E as <- <-. destruct K as [K|K]; [|discriminate K]. split; [exact (eq_sym (f_equal (fun x => match x with Some n => n_inst n | None => 0 end) K))|].
    exact (eq_sym (f_equal (fun x => match x with Some n => n_rng n | None => Rng 0 0 end) K)). }
  assert (Hasks : asks toy spike_opts ids pts (fun _ => False) st 1 (Rng 0 2) 1 (Rng 0 2)).
  { exists 2, (Rng 0 3). split; [cbn; auto|]. split; [left; reflexivity|]. split; [left; discriminate|]. split; [reflexivity|]. split; [intros [K _]; discriminate K|].
    split; [vm_compute; reflexivity|]. split; [vm_compute; reflexivity|].
    apply (pair_iff toy fzero true _ _ _ toy_places Ht); [eexists; reflexivity..|]. eexists _, _. split; [exact E'|]. left. reflexivity. }
  assert (Hch : checked toy ids pts (fun _ => []) st 1 (Rng 0 2)).
  { split; [cbn; auto|]. split; [left; reflexivity|]. split; [intros []|]. split; vm_compute; congruence. }
  eapply sy_round with (split := fun k v => k = 1 /\ v = Rng 0 2) (next := st').
  - apply U.
  - exists (fun i r k v => (i = 1 /\ r = Rng 0 2) /\ k = 1 /\ v = Rng 0 2).
    split; [intros i r k v ((-> & ->) & -> & ->); auto|]. split; [|split; [intros i r k k' v (_ & -> & _) (_ & -> & _); reflexivity|]].
    + intros i r k v Hc K. exists 1. pose proof Hc as (Hi & Hr & _). destruct (Hid i Hi) as [-> | ->]; [|exfalso; exact (Flat r _ _ Hr Hc)].
      destruct Hr as [<- |[]]. destruct (Hask k v K) as [_ ->]. auto.
    + intros k v. split.
      * intros [-> ->]. split; [cbn; auto|]. split; [left; reflexivity|]. split; [cbn; lia|]. left. exists 1, (Rng 0 2). auto.
      * intros (_ & _ & _ & [(i & r & _ & K)|[_ K]]); [exact K|]. unfold chord_ok in K. cbn in K. discriminate K.
  - exists 1, (Rng 0 2). auto.
  - intros i Hi. destruct (Hid i Hi) as [-> | ->]; cbn [st st' Z.eqb Pos.eqb]; split; try (repeat constructor; fail); intros k; cbn [In]; split.
    + intros [<- |[<- |[<- |[]]]]; auto. right. exists (Rng 0 2). split; [auto|]. cbn [rI rJ].
      change (farthest_vertex toy_ptseg (pts 1) 0 2 (0 + fst (max_offset toy_ptseg (sub_coords (pts 1) (Rng 0 2))))).
      apply score_farthest; [|vm_compute; intuition discriminate|lia].
      pose proof (lk_score _ _ (proj1 (cr_lines _ _ _ _ _ (ce_ready _ _ _ _ _ _ _ _ hill_ready) f_hill (or_introl eq_refl)))) as K. exact K.
    + intros [[<- |[<- |[]]]|(v & [_ ->] & K & _)]; auto. cbn in K. assert (k = 1) by lia. auto.
    + auto.
    + intros [K|(v & [K _] & _)]; [exact K|discriminate K].
  - eapply sy_done with (split := fun _ _ => False); [| |auto|reflexivity].
    + intros i r k k' v (Hi & Hr & Hn & He) _ _. exfalso. destruct (Hid i Hi) as [-> | ->]; [destruct Hr as [<- |[<- |[]]]; apply (proj1 He); reflexivity|exact (Hn Hr)].
    + assert (No : forall i r, ~ checked toy ids pts st st' i r).
      { intros i r (Hi & Hr & Hn & He). destruct (Hid i Hi) as [-> | ->]; [destruct Hr as [<- |[<- |[]]]; apply (proj1 He); reflexivity|exact (Hn Hr)]. }
      exists (fun _ _ _ _ => False). split; [intros ? ? ? ? []|]. split; [intros i r k v K; exfalso; exact (No i r K)|]. split; [intros ? ? ? ? ? []|].
      intros k v. split; [intros []|]. intros (_ & _ & _ & [(i & r & [])|[K _]]). exact (No k v K).
Qed.

(** The lines of C80_within_case: two rounds split parts of the first line. *)
Example C98_rounds_case :
  let selfs := [f_spike; f_post] in
  class_exact exW ex_gens env4 selfs spike_opts toy_ptseg [] 40 /\
  exists result,
    class_result toy spike_opts toy_ptseg [] (map c_id selfs) (fun i => c_pts (env4 i)) (fun i => class_forced exW selfs (env4 i)) result /\
    result 1 = [0; 1; 2; 4; 5; 6; 7] /\ result 2 = [0; 1] /\
    whole_result toy spike_opts toy_ptseg [] (c_pts f_spike) (class_forced exW selfs f_spike) [0; 4; 5; 6; 7].
Proof.
  cbv zeta. assert (R : class_exact exW ex_gens env4 [f_spike; f_post] spike_opts toy_ptseg [] 40) by class_exact_compute ltac:(class_ready_compute (f_of_Z 13)).
  split; [exact R|].
  destruct (class_core exW ex_gens (fun _ => in_turn) in_turn env4 [f_spike; f_post] spike_opts toy_ptseg [] 40 R (fun _ => in_turn_ok) in_turn_ok)
    as (done & out & alone & result & Eo & _ & Ed & Ha & Hw & _ & Hs & Hr).
  exists result. split; [exists alone; auto|].
  assert (Ek : kept_of (simplify_instances exW ex_gens (fun _ => in_turn) (fun _ => []) 40 [f_spike; f_post]) = Ok [(1, [0; 4; 5; 6; 7]); (2, [0; 1])])
    by (vm_compute; reflexivity).
  assert (Ek' : kept_of (simplify_feature_class exW ex_gens (fun _ => in_turn) in_turn env4 [f_spike; f_post] spike_opts 40) = Ok [(1, [0; 1; 2; 4; 5; 6; 7]); (2, [0; 1])])
    by (vm_compute; reflexivity).
  split; [exact (kept_of_in _ _ _ _ Ek' Eo Hr 1 _ (or_introl eq_refl))|]. split; [exact (kept_of_in _ _ _ _ Ek' Eo Hr 2 _ (or_intror (or_introl eq_refl)))|].
  pose proof (Hw 1 ltac:(cbn; auto)) as W1. cbv beta in W1. rewrite (kept_of_in _ _ _ _ Ek Ed Ha 1 _ (or_introl eq_refl)) in W1. exact W1.
Qed.

(** The hill and the pole without avoid_self: the class phase runs and changes nothing. *)
Definition calm_opts : opts := Opts (f_of_Z 13) fzero fzero false false false true false false.
Definition f_hill' : cdp := Cdp 1 (c_pts f_hill) calm_opts toy_score None new_hdb_default.
Definition f_pole' : cdp := Cdp 2 (c_pts f_pole) calm_opts toy_score None new_hdb_default.
Definition env6 (i : Z) : cdp := if i =? 1 then f_hill' else f_pole'.
Example C98_alone_case :
  let selfs := [f_hill'; f_pole'] in
  class_exact exW ex_gens env6 selfs calm_opts toy_ptseg [] 40 /\ o_avoid_self calm_opts = false /\ constrained calm_opts = true /\
  kept_of (simplify_feature_class exW ex_gens (fun _ => in_turn) in_turn env6 selfs calm_opts 40) = Ok [(1, [0; 2]); (2, [0; 3])].
Proof.
  cbv zeta. split; [|split; [reflexivity|split; [reflexivity|vm_compute; reflexivity]]].
  class_exact_compute ltac:(split;
    [ exact exW_ok
    | repeat constructor; cbn; intuition discriminate
    | intros s H; class_cases H; reflexivity
    | exact (proj1 ex_gens_ok)
    | exact (proj2 ex_gens_ok)
    | intros s H; class_cases H; (split; [line_ok_compute (f_of_Z 13)|]; exists []; split; [vm_compute; reflexivity|constructor])
    | exact v_sort_sorts
    | unfold class_points; cbn [flat_map map snd c_pts app f_hill f_pole f_hill' f_pole']; repeat (constructor; [split; vm_compute; reflexivity|]); constructor
    | intros p q _ _; reflexivity
    | cbn; lia ]).
Qed.

Print Assumptions C98_class.
Print Assumptions C98_clear.
Print Assumptions C98_without_avoid_self.
