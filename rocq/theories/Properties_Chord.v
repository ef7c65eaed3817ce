(** Claim C63: what the threshold guarantees whatever the constraints.  Vocabulary: Spec_Out.v. *)
From Coq Require Import Ascii String.
From Verif Require Import M_Base M_Float M_Rng M_Geom M_Offset M_Node M_Decompose M_Hdb M_Knn M_Lnr M_Homotopy M_Relate M_Constrain M_ConstDP
  M_Text M_IO Spec Spec_Hdb Spec_Lnr Spec_Relate Spec_ConstDP Spec_Text Spec_IO Spec_Run Spec_Out
  P_Base P_Float P_Decompose P_Split P_Node P_HdbHist P_Lnr P_Bag P_ConstDP P_Aggregate P_Simplify P_Class P_Text P_IO P_Run P_Out Toy Toy_Box
  Properties_Lnr Properties_Relate Properties_ConstDP Properties_IO Properties_Run.
Open Scope Z_scope.

(** ** C63 *)

Lemma greatest_below (s : list Z) lo a : In lo s -> lo <= a -> exists x, In x s /\ x <= a /\ forall y, In y s -> y <= a -> y <= x.
Proof.
  intros Hin Hlo.
  assert (Hall : forall l, exists x, In x (lo :: l) /\ x <= a /\ forall y, In y l -> y <= a -> y <= x).
  { induction l as [|z l (x & A & B & C)]; [exists lo; split; [left; auto|split; [exact Hlo|intros y []]]|].
    destruct (Z.le_gt_cases z a) as [K|K].
    - exists (Z.max x z). split; [destruct (Z.max_spec x z) as [[_ ->]|[_ ->]]; cbn in A |- *; tauto|]. split; [lia|].
      intros y [<- |Hy] Hya; [lia|]. specialize (C y Hy Hya). lia.
    - exists x. split; [cbn in A |- *; tauto|]. split; [exact B|]. intros y [<- |Hy] Hya; [lia|auto]. }
  destruct (Hall s) as (x & [<- |A] & B & C); eauto.
Qed.

Lemma least_above (s : list Z) hi b : In hi s -> b <= hi -> exists x, In x s /\ b <= x /\ forall y, In y s -> b <= y -> x <= y.
Proof.
  intros Hin Hhi. destruct (greatest_below (map Z.opp s) (- hi) (- b) (in_map _ _ _ Hin) ltac:(lia)) as (x & A & B & C).
  apply in_map_iff in A. destruct A as (x' & <- & A). exists x'. split; [exact A|]. split; [lia|].
  intros y Hy Hby. specialize (C (- y) (in_map _ _ _ Hy) ltac:(lia)). lia.
Qed.

(** Keeping more vertices stays near the same chords. *)
Lemma near_more distfn T pts s s' lo hi :
  (forall x, In x s' -> lo <= x <= hi) -> In lo s -> In hi s -> (forall x, In x s -> In x s') ->
  near_a_chord distfn T pts s -> near_a_chord distfn T pts s'.
Proof.
  intros Hr Hlo Hhi Hsub H a b (Ha & Hb & Hab & Hn).
  destruct (greatest_below s lo a Hlo ltac:(apply Hr; exact Ha)) as (a' & A1 & A2 & A3).
  destruct (least_above s hi b Hhi ltac:(apply Hr; exact Hb)) as (b' & B1 & B2 & B3).
  destruct (H a' b') as (i & j & Hi & Hj & Hk).
  { split; [exact A1|]. split; [exact B1|]. split; [lia|]. intros x Hx Hxx.
    destruct (Z.le_gt_cases x a) as [K|K]; [specialize (A3 x Hx K); lia|].
    destruct (Z.le_gt_cases b x) as [K'|K']; [specialize (B3 x Hx K'); lia|]. apply (Hn x (Hsub x Hx)). lia. }
  exists i, j. split; [lia|]. split; [lia|]. exact Hk.
Qed.

Lemma accepted_near distfn (self : cdp) hs :
  c_score self = max_offset distfn -> c_sq self = None -> fle fzero (o_threshold (c_opts self)) = true ->
  tiling 0 (zlen (c_pts self) - 1) (map n_rng hs) -> Forall (in_accepted self) hs ->
  near_a_chord distfn (o_threshold (c_opts self)) (c_pts self) (simple_set hs).
Proof.
  intros Es Eq HT Ht Ha a b Hn. destruct (next_kept_hull hs _ a b Ht Hn) as (h & Hh & Er).
  rewrite Forall_forall in Ha. destruct (Ha h Hh) as (r & A & B & C & D & E). rewrite Er in B, C. cbn [rI rJ] in B, C.
  exists (rI r), (rJ r). split; [lia|]. split; [lia|]. intros k Hk d Hd.
  rewrite Es, Eq in E. unfold dp_relation, dp_score in E.
  apply (accepted_offsets distfn _ (c_pts self) r k); auto.
Qed.

(** Whatever the options, the constraints and the vertices that must be kept. *)
Theorem C63_near_a_chord :
  forall (W : world) ord (self : cdp) constraints verts fuel ctr hs ctr' distfn,
  libs_ok W -> any_order ord -> line_ok (w_geom W) self -> built_from W self constraints ->
  Forall (fun k => 0 <= k < zlen (c_pts self)) verts ->
  (2 * length (c_pts self) - 3 < fuel)%nat ->
  c_score self = max_offset distfn -> c_sq self = None -> fle fzero (o_threshold (c_opts self)) = true ->
  simplify W ord self verts fuel ctr = Ok (hs, ctr') ->
  near_a_chord distfn (o_threshold (c_opts self)) (c_pts self) (simple_set hs).
Proof.
  intros W ord self cs verts fuel ctr hs ctr' distfn HW Ho Hl Hb Hv Hf Es Eq HT E.
  pose proof (one_setting W self cs (fun _ => True) HW Hl Hb (fun _ => I)) as St.
  destruct (simplify_spec W self _ ord Ho St (lk_two _ _ Hl) (lk_splits _ _ Hl) verts fuel ctr Hv Hf)
    as (hs0 & ctr0 & E0 & Hi & _ & _ & _ & _ & Hacc).
  rewrite E in E0. injection E0 as <- <-.
  apply (accepted_near distfn self hs Es Eq HT (line_tiles _ _ _ _ _ Hi) Hacc).
Qed.

Lemma line_near S is_class o distfn gs lines selfs pts k : in_run S is_class o (max_offset distfn) gs lines selfs ->
  fle fzero (o_threshold o) = true ->
  result_of S is_class o selfs pts k -> near_a_chord distfn (o_threshold o) pts k.
Proof.
  intros H HT (s & hs & Hs & <- & Ho & ->). destruct (ir_made _ _ _ _ _ _ _ H s Hs) as [(Eo & Es & Eq & Hb) Hl].
  pose proof (ir_lines _ _ _ _ _ _ _ H) as Ep. pose proof (ir_nodup _ _ _ _ _ _ _ H) as Hnd.
  destruct Ho as [(h0 & n & E & Hsub & _) Ht _ _].
  pose proof (ir_setup _ _ _ _ _ _ _ H) as HS.
  assert (Hc : is_class = true -> class_ok S (map c_pts selfs)) by (rewrite Ep; exact (ir_class _ _ _ _ _ _ _ H)).
  pose proof (junctions_in_range S is_class o selfs HS Hnd Hc s Hs) as HJ.
  assert (Hfu : (2 * length (c_pts s) - 3 < su_fuel S)%nat).
  { pose proof (ir_fuel _ _ _ _ _ _ _ H) as Hfu. rewrite <- Ep in Hfu.
    pose proof (length_concat_in (map c_pts selfs) (c_pts s) (in_map _ _ _ Hs)). lia. }
  pose proof (C63_near_a_chord (line_world S (c_id s)) (su_ords S (c_id s)) s gs _ (su_fuel S) 0 h0 n distfn
    (world_i_ok S (c_id s) HS) (so_ords _ HS (c_id s)) Hl Hb HJ Hfu Es Eq ltac:(rewrite Eo; exact HT) E) as K.
  rewrite Eo in K. revert K.
  pose proof (one_setting (line_world S (c_id s)) s gs (fun _ => True) (world_i_ok S (c_id s) HS) Hl Hb (fun _ => I)) as St.
  destruct (simplify_spec (line_world S (c_id s)) s _ (su_ords S (c_id s)) (so_ords _ HS (c_id s)) St (lk_two _ _ Hl) (lk_splits _ _ Hl)
    _ (su_fuel S) 0 HJ Hfu) as (h1 & c1 & E1 & Hi & _).
  rewrite E in E1. injection E1 as <- <-. pose proof (line_tiles _ _ _ _ _ Hi) as Ht0.
  pose proof (lk_two _ _ Hl) as H2.
  assert (Hpos : 0 < zlen (c_pts s) - 1) by (unfold zlen; lia).
  apply (near_more _ _ _ _ _ 0 (zlen (c_pts s) - 1)).
  - intros x Hx. apply point_set_spec in Hx. destruct Hx as (h & Hh & K). apply (in_map n_rng) in Hh.
    destruct (tiling_in _ _ _ _ Ht Hh) as (K1 & K2 & K3). lia.
  - destruct (tiling_cover _ _ _ 0 Ht0 ltac:(lia)) as (r & Hr & K). destruct (tiling_in _ _ _ _ Ht0 Hr) as (K1 & K2 & K3).
    apply in_map_iff in Hr. destruct Hr as (h & <- & Hh). apply point_set_spec. exists h. split; [exact Hh|left; lia].
  - destruct (tiling_cover _ _ _ (zlen (c_pts s) - 2) Ht0 ltac:(lia)) as (r & Hr & K). destruct (tiling_in _ _ _ _ Ht0 Hr) as (K1 & K2 & K3).
    apply in_map_iff in Hr. destruct Hr as (h & <- & Hh). apply point_set_spec. exists h. split; [exact Hh|right; lia].
  - exact Hsub.
Qed.

Theorem C63_near_a_chord_in_output :
  forall {P} (lib : jsonlib P) S is_class o distfn input cinput fs constraints,
  run_input lib S is_class o (max_offset distfn) input cinput fs constraints ->
  fle fzero (o_threshold o) = true ->
  writes lib S is_class o (max_offset distfn) input cinput fs (near_a_chord distfn (o_threshold o)).
Proof.
  intros P lib S is_class o distfn input cinput fs gs H HT.
  destruct (input_in_run lib S is_class o _ input cinput fs gs H) as (selfs & Hr & Hw).
  eapply writes_impl; [|exact Hw]. intros pts k _. exact (line_near _ _ _ _ _ _ _ pts k Hr HT).
Qed.

(** The line of [C30_threshold_refuted]: vertex 1 is dropped and is farther than the threshold 2
    from the segment 0..2 that replaces it, but it is within 2 of the chord 0..3.  Dropping
    vertex 1 of [zig] at threshold 4 is not near any chord. *)
Example C63_case :
  (exists hs c, simplify exW in_turn hook_dp [2] 20 0 = Ok (hs, c) /\ simple_set hs = [0; 2; 3] /\
     ~ within_threshold toy_ptseg (f_of_Z 2) (c_pts hook_dp) (simple_set hs)) /\
  libs_ok exW /\ any_order in_turn /\ line_ok toy hook_dp /\ built_from exW hook_dp [] /\
  c_score hook_dp = max_offset toy_ptseg /\ c_sq hook_dp = None /\ fle fzero (o_threshold (c_opts hook_dp)) = true /\
  ~ near_a_chord toy_ptseg (f_of_Z 4) zig [0; 4].
Proof.
  split.
  { destruct (simplify exW in_turn hook_dp [2] 20 0) as [[hs c]| |] eqn:E; vm_compute in E; try discriminate.
    injection E as <- <-. do 2 eexists. split; [reflexivity|]. split; [vm_compute; reflexivity|].
    intros H. specialize (H 0 2 1). cbv zeta in H.
    assert (K : fle (toy_ptseg (vertex (c_pts hook_dp) 0) (vertex (c_pts hook_dp) 2) (vertex (c_pts hook_dp) 1)) (f_of_Z 2) = true).
    { apply H; [|lia|vm_compute; reflexivity]. split; [vm_compute; auto|]. split; [vm_compute; auto|]. split; [lia|].
      vm_compute. intros x [<- |[<- |[<- |[]]]] [A B]; discriminate. }
    vm_compute in K. discriminate. }
  split; [exact exW_ok|]. split; [exact in_turn_ok|]. split; [exact hook_ok|].
  split; [split; [vm_compute; reflexivity|constructor]|].
  split; [reflexivity|]. split; [reflexivity|]. split; [vm_compute; reflexivity|].
  intros H. destruct (H 0 4) as (i & j & Hi & Hj & K).
  { split; [cbn; auto|]. split; [cbn; auto|]. split; [lia|]. intros x [<- |[<- |[]]]; lia. }
  change (zlen zig) with 5 in Hj. assert (i = 0) as -> by lia. assert (j = 4) as -> by lia.
  specialize (K 1 ltac:(lia)). cbv zeta in K. specialize (K ltac:(vm_compute; reflexivity)). vm_compute in K. discriminate.
Qed.

Print Assumptions C63_near_a_chord.
Print Assumptions C63_near_a_chord_in_output.
