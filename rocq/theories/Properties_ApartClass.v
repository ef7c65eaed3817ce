(** Claim C92 for runs with the class option.  Vocabulary: Spec_ApartClass.v, Spec_Class.v. *)
From Coq Require Import QArith Ascii String.
From Verif Require Import M_Base M_Float M_Rng M_Geom M_Offset M_Node M_Decompose M_Hdb M_Knn M_Lnr M_Relate M_Deform M_Constrain M_ConstDP
  M_Text M_IO Spec Spec_Hdb Spec_Lnr Spec_Relate Spec_Deform Spec_ConstDP Spec_Text Spec_IO Spec_Run Spec_Out Spec_Docs Spec_Modes Spec_Plane Spec_Move
  Spec_Apart Spec_Exact Spec_Whole Spec_Class Spec_ApartClass
  P_Base P_Float P_Decompose P_Split P_Node P_HdbHist P_HdbLoad P_Knn P_ConstDP P_Constrain P_Aggregate P_Simplify P_Class P_Ref P_Twin P_IO P_Run P_Out P_Docs
  P_Deform P_Conflict P_Plane P_Move P_MovePlane P_Exact P_Whole P_WholeClass P_Rename P_MoveClass P_ApartClass
  P_Text Toy Toy_Box Toy_Plane Properties_Relate Properties_ConstDP Properties_IO Properties_Run Properties_Docs Properties_Twin Properties_Plane Properties_Lnr Properties_Modes Properties_Near Properties_Far
  Properties_Constrain Properties_ClassConf Properties_Move Properties_Exact Properties_Whole Properties_WholeClass Properties_Apart Properties_ClassFiles.
Open Scope Z_scope.

(** The description of a class run, followed without ambiguity in the plane: two parts with a bend each, of one line or of two,
    that have no place in common are replaced by chords with no place in common. *)
Theorem C92_class :
  forall (L : geomlib) D (o : opts) dist constraints (ids : list Z) (pts : Z -> list point) forced result,
  plane_library L D -> reports_places L -> o_avoid_self o = true ->
  (forall i, In i ids -> (2 <= length (pts i))%nat /\ Forall machine_pt (pts i) /\
     forall a b, 0 <= a -> a + 1 < b -> b < zlen (pts i) -> exists k, farthest_vertex dist (pts i) a b k) ->
  class_result_clear L o dist constraints ids pts forced result ->
  forall i j, In i ids -> In j ids -> stay_apart (pts i) (result i) (pts j) (result j).
Proof.
  intros L D o dist cs ids pts forced result HP HR Hav Hl Hc.
  destruct (class_fine L D HP o dist cs ids pts) with (forced := forced) (result := result) as [G F]; auto.
  - intros i Hi. apply (Hl i Hi).
  - intros i Hi. apply (Hl i Hi).
  - intros i [a b] Hi (A & B & C) H1. cbn [rI rJ] in *. apply (Hl i Hi); lia.
  - intros i j Hi Hj a b c d Hab Hcd Bab Bcd Hold Hmeet.
    apply (F i j (Rng a b) (Rng c d) Hi Hj); [apply next_part; [apply (G i Hi)|exact Hab]|apply next_part; [apply (G j Hj)|exact Hcd]|].
    split; [exact Bab|]. split; [exact Bcd|]. split; assumption.
Qed.

(** A run with the class option over files, new self-intersections avoided: the lines it writes keep parts apart, within a line
    and across the lines of the class. *)
Theorem C92_class_in_the_plane :
  forall {P} (lib : jsonlib P) (S : setup) o dist input cinput docs constraints m D,
  let lines := map (map (jl_point lib)) (flat_map doc_parts docs) in
  let score := max_offset dist in
  run_docs lib S true o score input cinput docs constraints -> linear_first docs m ->
  plane_run S D o lines constraints -> Forall (Forall machine_pt) lines -> reports_places (w_geom (su_world S)) ->
  is_nan (o_min_dist o) = false -> fle fzero (o_threshold o) = true -> o_avoid_self o = true ->
  forall ids pts result, NoDup ids -> Permutation (map pts ids) lines ->
  class_result_clear (w_geom (su_world S)) o dist constraints ids pts (lines_forced (su_world S) o score ids pts) result ->
  exists outs, run lib S true o score (unlines input) (unlines cinput) = Ok outs /\
    writes_docs lib docs m outs (fun line s => exists i, In i ids /\ pts i = line /\ s = result i) /\
    forall i j, In i ids -> In j ids -> stay_apart (pts i) (result i) (pts j) (result j).
Proof.
  intros P lib S o dist input cinput docs cs m D lines score H Hm Hp Hmach HR Hnan HT Hav ids pts result Hnd Hl Hc.
  destruct (C98_clear_in_the_plane lib S o dist input cinput docs cs m D H Hm Hp Hmach Hnan HT ids pts result Hnd Hl Hc) as (outs & E & Hw).
  exists outs. split; [exact E|]. split; [exact Hw|].
  apply (C92_class (w_geom (su_world S)) D o dist cs ids pts (lines_forced (su_world S) o score ids pts) result); auto; [exact (pr_lib _ _ _ _ _ Hp)|].
  intros i Hi. assert (Hin : In (pts i) lines) by (eapply Permutation_in; [exact Hl|apply in_map, Hi]).
  pose proof (rd_ok _ _ _ _ _ _ _ _ _ H) as Hlo. rewrite Forall_forall in Hlo, Hmach. specialize (Hlo _ Hin).
  split; [exact (lk_two _ _ Hlo)|]. split; [exact (Hmach _ Hin)|]. intros a b Ha Hab Hb.
  exists (a + fst (max_offset dist (sub_coords (pts i) (Rng a b)))). apply score_farthest; [|unfold piece; cbn [rI rJ]; lia|lia].
  pose proof (lk_score _ _ Hlo) as K. exact K.
Qed.

(** ** Case *)

(** The library of Properties_ClassFiles.v with quick answers for geometries that have a vertex in common or edges that meet. *)
Definition common_vertex (g h : geometry) : bool :=
  existsb (fun c => existsb (fun p => existsb (fun d => existsb (fun q => loc_eq p q) d) (convex_parts h)) c) (convex_parts g).
Definition edges_meet (g h : geometry) : bool :=
  existsb (fun e => existsb (fun f => hulls_meet [fst e; snd e] [fst f; snd f]) (flat_map ring_pairs (convex_parts h))) (flat_map ring_pairs (convex_parts g)).
Definition quick_isect (g h : geometry) : bool :=
  if common_vertex g h then true else if edges_meet g h then true else ex_isect g h.
Lemma pairs_in (l : list point) e : In e (pairs_of l) -> In (fst e) l /\ In (snd e) l.
Proof.
  induction l as [|a l IH]; [intros []|]. destruct l as [|b l]; [intros []|]. intros [<- |H]; [cbn; auto|]. destruct (IH H). split; right; assumption.
Qed.
Lemma ring_in (l : list point) e : In e (ring_pairs l) -> In (fst e) l /\ In (snd e) l.
Proof.
  destruct l as [|a l]; [intros []|]. intros H. apply pairs_in in H. rewrite !in_app_iff in H. cbn [In] in *. intuition.
Qed.
Lemma quick_eq g h : quick_isect g h = ex_isect g h.
Proof.
  unfold quick_isect. destruct (common_vertex g h) eqn:E; [|destruct (edges_meet g h) eqn:E'; [|reflexivity]]; symmetry; apply ex_isect_ok.
  - unfold common_vertex in E.
    apply existsb_exists in E. destruct E as (c & Hc & E). apply existsb_exists in E. destruct E as (p & Hp & E).
    apply existsb_exists in E. destruct E as (d & Hd & E). apply existsb_exists in E. destruct E as (q & Hq & E). apply loc_eq_spot in E. destruct E as [E1 E2].
    exists (xof p, yof p). split; [exists c|exists d]; (split; [assumption|]); [|rewrite E1, E2]; apply in_hull_member; assumption.
  - clear E. unfold edges_meet in E'. apply existsb_exists in E'. destruct E' as (e & He & E). apply existsb_exists in E. destruct E as (f & Hf & E).
    apply in_flat_map in He. destruct He as (c & Hc & He). apply in_flat_map in Hf. destruct Hf as (d & Hd & Hf).
    apply hulls_meet_ok in E. destruct E as (q & A & B). destruct (ring_in _ _ He) as [E1 E2]. destruct (ring_in _ _ Hf) as [F1 F2].
    exists q. split; [exists c|exists d]; (split; [assumption|]); [revert A|revert B]; apply hull_sub; intros p [<- |[<- |[]]]; assumption.
Qed.
Definition quick_lib : geomlib :=
  GeomLib bx_hull quick_isect (fun g h => if quick_isect g h then [P2 0 0] else []) (fun g h => if quick_isect g h then fzero else fone)
    bx_bounds loc_eq (fun _ _ => false) (gl_ptdist exact_lib).
Lemma quick_lib_ok : plane_library quick_lib places.
Proof.
  destruct exact_lib_ok as [A B C D E F G H I J K M N O]. split; try assumption; cbn [quick_lib gl_isect gl_dist].
  - intros g h Ng Nh. rewrite quick_eq. exact (K g h Ng Nh).
  - intros g h q Ng Nh. rewrite quick_eq. exact (M g h q Ng Nh).
  - intros g g' h h'. rewrite !quick_eq. exact (N g g' h h').
Qed.
Definition exQ : world := World quick_lib (w_gen exP) plain_oracle plain_pop (LnrOracle v_sort tee_segx scan_near).
Lemma exQ_ok : libs_ok exQ.
Proof.
  destruct exP_ok as [A B _ D]. split; [exact A|exact B| |exact D]. intros p g. cbn [w_geom exQ quick_lib gl_inter].
  split; [destruct (quick_isect (GPoint p) g)|destruct (quick_isect g (GPoint p))]; cbn; lia.
Qed.
Definition exQ_setup : setup := Setup exQ (fun k => Z.of_nat k) ex_gens (fun _ => in_turn) in_turn 60.
Lemma exQ_setup_ok : setup_ok exQ_setup.
Proof. destruct exP_setup_ok as [_ B C D E F]. split; [exact exQ_ok|exact B|exact C|exact D|exact E|exact F]. Qed.

(** Two bends, one reaching into the other, as two lines: each by itself becomes its chord, and the chords cross.  The class run
    puts the middle vertex of the second line back. *)
Definition hook_a : list point := [P2 10 6; P2 0 6; P2 2 3].
Definition hook_b : list point := [P2 10 0; P2 11 7; P2 5 9].
Definition f_hook_a : cdp := Cdp 1 hook_a spike_opts toy_score None new_hdb_default.
Definition f_hook_b : cdp := Cdp 2 hook_b spike_opts toy_score None new_hdb_default.
Definition env_hooks (i : Z) : cdp := if i =? 1 then f_hook_a else f_hook_b.
Lemma hooks_machine : Forall machine_pt hook_a /\ Forall machine_pt hook_b.
Proof.
  unfold hook_a, hook_b. split; repeat (apply Forall_cons; [split; (split; vm_compute; reflexivity)|]); apply Forall_nil.
Qed.
Lemma hooks_ready : class_exact exQ ex_gens env_hooks [f_hook_a; f_hook_b] spike_opts toy_ptseg [] 40.
Proof.
  destruct hooks_machine as [M1 M2]. split.
  - split;
    [ exact exQ_ok
    | repeat constructor; cbn; intuition discriminate
    | intros s H; class_cases H; reflexivity
    | exact (proj1 ex_gens_ok)
    | exact (proj2 ex_gens_ok)
    | intros s H; class_cases H; (split; [line_ok_compute (f_of_Z 13)|]; exists []; split; [vm_compute; reflexivity|constructor])
    | exact v_sort_sorts
    | change (Forall num_pt (hook_a ++ hook_b ++ [])); rewrite app_nil_r; apply Forall_app; split; (eapply Forall_impl; [intros p; apply machine_num|assumption])
    | intros p q _ _; reflexivity
    | cbn; lia ].
  - intros s H; class_cases H; reflexivity.
  - intros s H; class_cases H; split; reflexivity.
  - intros s H; class_cases H; (split; [vm_compute; reflexivity|constructor]).
  - reflexivity.
  - reflexivity.
  - intros ? ? ? _ _ [].
  - intros s Hs r q Ha Hb Hrq. assert (M : Forall machine_pt (c_pts s)) by (class_cases Hs; assumption).
    pose proof (plane_sound_boxes _ places (c_pts s) [] quick_lib_ok M (Forall_nil _)) as [B1 B2 _].
    apply (B1 r q Ha Hb). apply (B2 r q Ha Hb Hrq).
  - discriminate.
Qed.

Lemma hooks_bad : bad hook_a (Rng 0 2) hook_b (Rng 0 2).
Proof.
  assert (E1 : points_of hook_a (Rng 0 2) = hook_a) by (vm_compute; reflexivity).
  assert (E2 : points_of hook_b (Rng 0 2) = hook_b) by (vm_compute; reflexivity).
  split; [|split; [|split]].
  - apply (three_bend _ _ _ (P2 10 6) (P2 0 6) (P2 2 3)); cbn [rI rJ]; rewrite ?E1; [cbn; auto|cbn; auto|cbn; auto|]. vm_compute. discriminate.
  - apply (three_bend _ _ _ (P2 10 0) (P2 11 7) (P2 5 9)); cbn [rI rJ]; rewrite ?E2; [cbn; auto|cbn; auto|cbn; auto|]. vm_compute. discriminate.
  - rewrite E1, E2. intros (q & A & B).
    assert (K : ex_isect (GLine hook_a) (GLine hook_b) = true).
    { apply ex_isect_ok. exists q. split; (apply (pl_line exact_lib places exact_lib_ok); [cbn; lia|assumption]). }
    vm_compute in K. discriminate.
  - cbn [rI rJ]. assert (K : ex_isect (GSeg (P2 10 6) (P2 2 3)) (GSeg (P2 10 0) (P2 5 9)) = true) by (vm_compute; reflexivity).
    apply ex_isect_ok in K. destruct K as (q & A & B). exists q. split; apply (pl_seg exact_lib places exact_lib_ok); assumption.
Qed.

(** The description has one round, which splits the second line. *)
Lemma hooks_clear :
  let ids := [1; 2] in let pts := fun i => c_pts (env_hooks i) in
  class_result_clear quick_lib spike_opts toy_ptseg [] ids pts (lines_forced exQ spike_opts (max_offset toy_ptseg) ids pts) (fun i => if i =? 1 then [0; 2] else [0; 1; 2]) /\
  forall i, In i ids -> whole_result quick_lib spike_opts toy_ptseg [] (pts i) (lines_forced exQ spike_opts (max_offset toy_ptseg) ids pts i) [0; 2].
Proof.
  cbv zeta.
  destruct (class_core exQ ex_gens (fun _ => in_turn) in_turn env_hooks [f_hook_a; f_hook_b] spike_opts toy_ptseg [] 40 hooks_ready (fun _ => in_turn_ok) in_turn_ok)
    as (done & out & alone & result & _ & _ & Ed & Ha & Hw & _).
  assert (Ek : kept_of (simplify_instances exQ ex_gens (fun _ => in_turn) (fun _ => []) 40 [f_hook_a; f_hook_b]) = Ok [(1, [0; 2]); (2, [0; 2])])
    by (vm_compute; reflexivity).
  pose proof (kept_of_in _ _ _ _ Ek Ed Ha 1 [0; 2] ltac:(cbn; auto)) as A1.
  pose proof (kept_of_in _ _ _ _ Ek Ed Ha 2 [0; 2] ltac:(cbn; auto)) as A2. clear Ha.
  pose proof (Hw 1 ltac:(cbn; auto)) as W1. pose proof (Hw 2 ltac:(cbn; auto)) as W2. cbv beta in W1, W2. rewrite A1 in W1. rewrite A2 in W2.
  cbn [w_geom exQ] in W1, W2.
  set (ids := [1; 2]). set (pts := fun i => c_pts (env_hooks i)).
  set (st := fun i : Z => [0; 2]). set (st' := fun i : Z => if i =? 1 then [0; 2] else [0; 1; 2]).
  assert (Hid : forall i, In i ids -> i = 1 \/ i = 2) by (intros i [<- |[<- |[]]]; auto).
  assert (Hal : forall i, In i ids -> whole_result quick_lib spike_opts toy_ptseg [] (pts i) (lines_forced exQ spike_opts (max_offset toy_ptseg) ids pts i) [0; 2]).
  { intros i Hi. destruct (Hid i Hi) as [-> | ->]; [refine (whole_forced_ext _ _ _ _ _ _ _ _ _ W1)|refine (whole_forced_ext _ _ _ _ _ _ _ _ _ W2)];
      intros k; split; intros [K _]; discriminate K. }
  split; [|exact Hal]. exists st. split; [exact Hal|].
  destruct hooks_machine as [M1 M2].
  assert (Hm : forall i, In i ids -> Forall machine_pt (pts i)) by (intros i Hi; destruct (Hid i Hi) as [-> | ->]; assumption).
  assert (HR : reports_places quick_lib) by (intros g h _ _ K; cbn [quick_lib gl_isect gl_inter] in *; rewrite K; discriminate).
  assert (Hpc : forall i, In i ids -> piece (pts i) (Rng 0 2)) by (intros i Hi; destruct (Hid i Hi) as [-> | ->]; vm_compute; intuition discriminate).
  (* which of the two the conflict asks to change *)
  assert (I12 : gl_isect quick_lib (n_line (class_part quick_lib pts 1 (Rng 0 2))) (n_line (class_part quick_lib pts 2 (Rng 0 2))) = false) by (change (gl_isect quick_lib) with quick_isect; rewrite quick_eq; vm_compute; reflexivity).
  assert (I21 : gl_isect quick_lib (n_line (class_part quick_lib pts 2 (Rng 0 2))) (n_line (class_part quick_lib pts 1 (Rng 0 2))) = false) by (change (gl_isect quick_lib) with quick_isect; rewrite quick_eq; vm_compute; reflexivity).
  assert (S12 : gl_isect quick_lib (n_seg (class_part quick_lib pts 1 (Rng 0 2))) (n_line (class_part quick_lib pts 2 (Rng 0 2))) = false) by (change (gl_isect quick_lib) with quick_isect; rewrite quick_eq; vm_compute; reflexivity).
  assert (S21 : gl_isect quick_lib (n_seg (class_part quick_lib pts 2 (Rng 0 2))) (n_line (class_part quick_lib pts 1 (Rng 0 2))) = true) by (change (gl_isect quick_lib) with quick_isect; rewrite quick_eq; vm_compute; reflexivity).
  assert (Hcf : forall i j k v, In i ids -> In j ids -> i <> j ->
    conflict_between quick_lib spike_opts pts i (Rng 0 2) j (Rng 0 2) k v -> k = 2 /\ v = Rng 0 2).
  { intros i j k v Hi Hj Hij (_ & _ & _ & _ & _ & [[K _]|(_ & _ & K)]); [exact (False_ind _ (Hij K))|].
    assert (Two : i = 1 /\ j = 2 \/ i = 2 /\ j = 1) by (destruct (Hid i Hi) as [-> | ->], (Hid j Hj) as [-> | ->]; auto; congruence).
    remember (class_part quick_lib pts k v) as c eqn:Ec.
    assert (R : c = class_part quick_lib pts 2 (Rng 0 2)).
    { destruct Two as [[-> ->]|[-> ->]].
      - destruct K as [N A B|N A B C|v0 N A B|N A B|N A B]; [rewrite S12 in B; discriminate B|reflexivity|destruct A as (A & _); rewrite I12 in A; discriminate A|destruct N|destruct N].
      - destruct K as [N A B|N A B C|v0 N A B|N A B|N A B]; [reflexivity|rewrite S21 in B; discriminate B|destruct A as (A & _); rewrite I21 in A; discriminate A|destruct N|destruct N]. }
    rewrite Ec in R. split; [exact (f_equal n_inst R)|exact (f_equal n_rng R)]. }
  assert (Hin : forall i r, In i ids -> In r (parts (st i)) -> r = Rng 0 2) by (intros i r _ [<- |[]]; reflexivity).
  assert (Hask : forall i r k v, In i ids -> In r (parts (st i)) -> asks quick_lib spike_opts ids pts (fun _ => False) st i r k v -> k = 2 /\ v = Rng 0 2).
  { intros i r k v Hi Hr (j & q & Hj & Hq & [Hji|[]] & K). apply Hin in Hr; [|exact Hi]. apply Hin in Hq; [|exact Hj]. subst r q.
    apply (Hcf i j); auto. }
  destruct (bad_class quick_lib places quick_lib_ok spike_opts ids pts Hm eq_refl HR 2 (Rng 0 2) 1 (Rng 0 2)) as (Hex & k0 & v0 & _ & Hk0);
    [cbn; auto|cbn; auto|apply Hpc; cbn; auto|apply Hpc; cbn; auto|exact (bad_sym _ _ _ _ hooks_bad)|].
  destruct (Hcf 2 1 k0 v0 ltac:(cbn; auto) ltac:(cbn; auto) ltac:(discriminate) Hk0) as [-> ->].
  assert (Hasks : asks quick_lib spike_opts ids pts (fun _ => False) st 2 (Rng 0 2) 2 (Rng 0 2)).
  { exists 1, (Rng 0 2). split; [cbn; auto|]. split; [left; reflexivity|]. split; [left; discriminate|exact Hk0]. }
  assert (Hch : checked quick_lib ids pts (fun _ => []) st 2 (Rng 0 2)).
  { split; [cbn; auto|]. split; [left; reflexivity|]. split; [intros []|exact Hex]. }
  assert (No : forall i r, ~ checked quick_lib ids pts st st' i r).
  { intros i r (Hi & Hr & Hn & He). destruct (Hid i Hi) as [-> | ->]; [exact (Hn Hr)|destruct Hr as [<- |[<- |[]]]; apply (proj1 He); reflexivity]. }
  eapply sy_round with (split := fun k v => k = 2 /\ v = Rng 0 2) (next := st').
  - intros i r k k' v (Hi & Hr & _) K K'. destruct (Hask i r k v Hi Hr K) as [-> _], (Hask i r k' v Hi Hr K') as [-> _]. reflexivity.
  - exists (fun i r k v => checked quick_lib ids pts (fun _ => []) st i r /\ asks quick_lib spike_opts ids pts (fun _ => False) st i r k v).
    split; [auto|]. split; [intros i r k v A B; exists k; auto|]. split.
    + intros i r k k' v [(Hi & Hr & _) K] [_ K']. destruct (Hask i r k v Hi Hr K) as [-> _], (Hask i r k' v Hi Hr K') as [-> _]. reflexivity.
    + intros k v. split.
      * intros [-> ->]. split; [cbn; auto|]. split; [left; reflexivity|]. split; [cbn; lia|]. left. exists 2, (Rng 0 2). auto.
      * intros (_ & _ & _ & [(i & r & (Hi & Hr & _) & K)|[_ K]]); [exact (Hask i r k v Hi Hr K)|]. unfold chord_ok in K. cbn in K. discriminate K.
  - exists 2, (Rng 0 2). auto.
  - intros i Hi. destruct (Hid i Hi) as [-> | ->]; unfold st, st'; cbn [Z.eqb Pos.eqb]; split; try (repeat constructor; fail); intros k; cbn [In]; split.
    + auto.
    + intros [K|(v & [K _] & _)]; [exact K|discriminate K].
    + intros [<- |[<- |[<- |[]]]]; auto. right. exists (Rng 0 2). split; [auto|]. cbn [rI rJ].
      change (farthest_vertex toy_ptseg (pts 2) 0 2 (0 + fst (max_offset toy_ptseg (sub_coords (pts 2) (Rng 0 2))))).
      apply score_farthest; [|vm_compute; intuition discriminate|lia].
      pose proof (lk_score _ _ (proj1 (cr_lines _ _ _ _ _ (ce_ready _ _ _ _ _ _ _ _ hooks_ready) f_hook_b ltac:(cbn; auto)))) as K. exact K.
    + intros [[<- |[<- |[]]]|(v & [_ ->] & K & _)]; auto. cbn in K. assert (k = 1) by lia. auto.
  - eapply sy_done with (split := fun _ _ => False); [| |auto|reflexivity].
    + intros i r k k' v K. exfalso. exact (No i r K).
    + exists (fun _ _ _ _ => False). split; [intros ? ? ? ? []|]. split; [intros i r k v K; exfalso; exact (No i r K)|]. split; [intros ? ? ? ? ? []|].
      intros k v. split; [intros []|]. intros (_ & _ & _ & [(i & r & [])|[K _]]). exact (No k v K).
Qed.

Definition hooks_feat : jfeat bool := JFeat (Some (jmulti [hook_a; hook_b])) (Some true).
Definition hooks_lib : jsonlib bool := JsonLib ex_type (fun s => Some (jpoint (P2 3 4))) (fun _ => Some hooks_feat) (jl_collection ex_lib) (jl_marshal ex_lib)
  (jl_unmarshal ex_lib) (jl_empty ex_lib) (jl_point ex_lib) (jl_zero ex_lib).

(** C92_class_in_the_plane derives the hypotheses of C92_class for such runs.  Each line by itself keeps its two ends, and then the
    chords cross. *)
Example C92_class_case :
  let docs := [DFeature hooks_feat] in
  let lines := map (map (jl_point hooks_lib)) (flat_map doc_parts docs) in
  let L := w_geom (su_world exQ_setup) in
  run_docs hooks_lib exQ_setup true spike_opts (max_offset toy_ptseg) [str "f"] [] docs [] /\ linear_first docs 1 /\
  plane_run exQ_setup places spike_opts lines [] /\ Forall (Forall machine_pt) lines /\ reports_places L /\
  is_nan (o_min_dist spike_opts) = false /\ fle fzero (o_threshold spike_opts) = true /\ o_avoid_self spike_opts = true /\
  exists ids pts result, NoDup ids /\ Permutation (map pts ids) lines /\
    let forced := lines_forced (su_world exQ_setup) spike_opts (max_offset toy_ptseg) ids pts in
    class_result_clear L spike_opts toy_ptseg [] ids pts forced result /\
    (forall i, In i ids -> whole_result L spike_opts toy_ptseg [] (pts i) (forced i) [0; 2]) /\
    map result ids = [[0; 2]; [0; 1; 2]] /\
    exists i j, In i ids /\ In j ids /\ i <> j /\ ~ stay_apart (pts i) [0; 2] (pts j) [0; 2].
Proof.
  cbv zeta. assert (El : map (map (jl_point hooks_lib)) (flat_map doc_parts [DFeature hooks_feat]) = [hook_a; hook_b]) by (vm_compute; reflexivity).
  destruct hooks_machine as [M1 M2].
  assert (N1 : Forall num_pt hook_a) by (eapply Forall_impl; [|exact M1]; intros p; apply machine_num).
  assert (N2 : Forall num_pt hook_b) by (eapply Forall_impl; [|exact M2]; intros p; apply machine_num).
  rewrite El. split; [|split; [|split; [|split; [|split; [|split; [|split; [|split]]]]]]]; try reflexivity.
  - split; [split; [intros []; reflexivity|reflexivity|intros []; discriminate]|exact exQ_setup_ok|no_newline| | |vm_compute; reflexivity| |exact (Forall_nil _)| | | | |]; try rewrite El.
    + exists [str "f"]. split; [assert (X : lines_kept [str "f"] (keep [str "f"])) by apply keep_kept; vm_compute in X; exact X|].
      constructor; [apply R_feature; reflexivity|constructor].
    + repeat constructor; discriminate.
    + repeat constructor.
    + exists [], []. split; [assert (X : lines_kept [] (keep [])) by apply keep_kept; vm_compute in X; exact X|]. split; [constructor|]. split; [constructor|reflexivity].
    + constructor.
    + change (max_offset toy_ptseg) with toy_score. constructor; [|constructor; [|constructor]]; line_ok_compute (f_of_Z 13).
    + intros _. split; [exact v_sort_sorts| |reflexivity]. cbn [concat]. rewrite app_nil_r. apply Forall_app. split; assumption.
    + vm_compute. lia.
  - split; [cbn; lia|]. intros [|i] d H; [|destruct i; discriminate]. injection H as <-. split; [lia|vm_compute; discriminate].
  - split; [exact quick_lib_ok| |constructor|discriminate]. constructor; [exact N1|constructor; [exact N2|constructor]].
  - constructor; [exact M1|constructor; [exact M2|constructor]].
  - intros g h _ _ K. cbn [exQ_setup su_world exQ w_geom quick_lib gl_isect gl_inter] in *. rewrite K. discriminate.
  - exists [1; 2], (fun i => c_pts (env_hooks i)), (fun i => if i =? 1 then [0; 2] else [0; 1; 2]). split; [repeat constructor; cbn; intuition discriminate|].
    split; [apply Permutation_refl|]. destruct hooks_clear as [C W]. split; [exact C|]. split; [exact W|]. split; [reflexivity|].
    exists 1, 2. split; [cbn; auto|]. split; [cbn; auto|]. split; [discriminate|]. intros K. destruct hooks_bad as (B1 & B2 & B3 & B4).
    assert (Nk : next_kept [0; 2] 0 2) by (split; [cbn; auto|]; split; [cbn; auto|]; split; [lia|]; intros x [<- |[<- |[]]]; lia).
    exact (K 0 2 0 2 Nk Nk B1 B2 B3 B4).
Qed.

(** Without the condition that the description is followed without ambiguity the claim does not hold.  The chords of two lines that
    are apart cross, and each crosses the chord of a third line.  All three parts have the range 0..2, the check of either
    of the first two notes one change for this range, and both times the third line's is noted last.  Only this line gets a vertex
    back. *)
Definition loop_a : list point := [P2 4 2; P2 0 2; P2 0 (-1)].
Definition loop_b : list point := [P2 2 (-4); P2 8 0; P2 2 4].
Definition loop_c : list point := [P2 (-8) 0; P2 0 32; P2 16 0].
Definition three_feat : jfeat bool := JFeat (Some (jmulti [loop_a; loop_b; loop_c])) (Some true).
Definition three_lib : jsonlib bool := JsonLib ex_type (fun s => Some (jpoint (P2 3 4))) (fun _ => Some three_feat) (jl_collection ex_lib) (jl_marshal ex_lib)
  (jl_unmarshal ex_lib) (jl_empty ex_lib) (jl_point ex_lib) (jl_zero ex_lib).
Definition three_opts : opts := Opts (f_of_Z 60) fzero fzero false false true false false false.
Lemma loops_bad : bad loop_a (Rng 0 2) loop_b (Rng 0 2).
Proof.
  assert (E1 : points_of loop_a (Rng 0 2) = loop_a) by (vm_compute; reflexivity).
  assert (E2 : points_of loop_b (Rng 0 2) = loop_b) by (vm_compute; reflexivity).
  split; [|split; [|split]].
  - apply (three_bend _ _ _ (P2 4 2) (P2 0 2) (P2 0 (-1))); cbn [rI rJ]; rewrite ?E1; [cbn; auto|cbn; auto|cbn; auto|]. vm_compute. discriminate.
  - apply (three_bend _ _ _ (P2 2 (-4)) (P2 8 0) (P2 2 4)); cbn [rI rJ]; rewrite ?E2; [cbn; auto|cbn; auto|cbn; auto|]. vm_compute. discriminate.
  - rewrite E1, E2. intros (q & A & B).
    assert (K : ex_isect (GLine loop_a) (GLine loop_b) = true).
    { apply ex_isect_ok. exists q. split; (apply (pl_line exact_lib places exact_lib_ok); [cbn; lia|assumption]). }
    vm_compute in K. discriminate.
  - cbn [rI rJ]. assert (K : ex_isect (GSeg (P2 4 2) (P2 0 (-1))) (GSeg (P2 2 (-4)) (P2 2 4)) = true) by (vm_compute; reflexivity).
    apply ex_isect_ok in K. destruct K as (q & A & B). exists q. split; apply (pl_seg exact_lib places exact_lib_ok); assumption.
Qed.
Lemma loops_machine : Forall machine_pt loop_a /\ Forall machine_pt loop_b /\ Forall machine_pt loop_c.
Proof.
  unfold loop_a, loop_b, loop_c. split; [|split]; repeat (apply Forall_cons; [split; (split; vm_compute; reflexivity)|]); apply Forall_nil.
Qed.
Lemma three_run : run three_lib exQ_setup true three_opts (max_offset toy_ptseg) (unlines [str "f"]) (unlines []) =
  Ok [OFeat true (OMulti (map (map flat) [pick origin loop_a [0; 2]; pick origin loop_b [0; 2]; pick origin loop_c [0; 1; 2]]))].
Proof. vm_cast_no_check (eq_refl (Ok [OFeat true (OMulti (map (map flat) [pick origin loop_a [0; 2]; pick origin loop_b [0; 2]; pick origin loop_c [0; 1; 2]]))])). Qed.

Theorem C92_class_refuted :
  exists (lib : jsonlib bool) (S : setup) o dist docs m D,
  let lines := map (map (jl_point lib)) (flat_map doc_parts docs) in
  run_docs lib S true o (max_offset dist) [str "f"] [] docs [] /\ linear_first docs m /\
  plane_run S D o lines [] /\ Forall (Forall machine_pt) lines /\ reports_places (w_geom (su_world S)) /\
  is_nan (o_min_dist o) = false /\ fle fzero (o_threshold o) = true /\ o_avoid_self o = true /\
  (* three lines go in, the first two come out as single chords, and these meet although the lines did not *)
  exists a b c, lines = [a; b; c] /\
    run lib S true o (max_offset dist) (unlines [str "f"]) (unlines []) =
      Ok [OFeat true (OMulti (map (map flat) [pick origin a [0; 2]; pick origin b [0; 2]; pick origin c [0; 1; 2]]))] /\
    ~ stay_apart a [0; 2] b [0; 2].
Proof.
  exists three_lib, exQ_setup, three_opts, toy_ptseg, [DFeature three_feat], 1%nat, places. cbv zeta.
  assert (El : map (map (jl_point three_lib)) (flat_map doc_parts [DFeature three_feat]) = [loop_a; loop_b; loop_c]) by (vm_compute; reflexivity).
  destruct loops_machine as (M1 & M2 & M3).
  assert (N1 : Forall num_pt loop_a) by (eapply Forall_impl; [|exact M1]; intros p; apply machine_num).
  assert (N2 : Forall num_pt loop_b) by (eapply Forall_impl; [|exact M2]; intros p; apply machine_num).
  assert (N3 : Forall num_pt loop_c) by (eapply Forall_impl; [|exact M3]; intros p; apply machine_num).
  rewrite El. split; [|split; [|split; [|split; [|split; [|split; [|split; [|split]]]]]]]; try reflexivity.
  - split; [split; [intros []; reflexivity|reflexivity|intros []; discriminate]|exact exQ_setup_ok|no_newline| | |vm_compute; reflexivity| |exact (Forall_nil _)| | | | |]; try rewrite El.
    + exists [str "f"]. split; [assert (X : lines_kept [str "f"] (keep [str "f"])) by apply keep_kept; vm_compute in X; exact X|].
      constructor; [apply R_feature; reflexivity|constructor].
    + repeat constructor; discriminate.
    + repeat constructor.
    + exists [], []. split; [assert (X : lines_kept [] (keep [])) by apply keep_kept; vm_compute in X; exact X|]. split; [constructor|]. split; [constructor|reflexivity].
    + constructor.
    + change (max_offset toy_ptseg) with toy_score. constructor; [|constructor; [|constructor; [|constructor]]]; line_ok_compute (f_of_Z 60).
    + intros _. split; [exact v_sort_sorts| |reflexivity]. cbn [concat]. rewrite app_nil_r. apply Forall_app. split; [|apply Forall_app; split]; assumption.
    + vm_compute. lia.
  - split; [cbn; lia|]. intros [|i] d H; [|destruct i; discriminate]. injection H as <-. split; [lia|vm_compute; discriminate].
  - split; [exact quick_lib_ok| |constructor|discriminate]. constructor; [exact N1|constructor; [exact N2|constructor; [exact N3|constructor]]].
  - constructor; [exact M1|constructor; [exact M2|constructor; [exact M3|constructor]]].
  - intros g h _ _ K. cbn [exQ_setup su_world exQ w_geom quick_lib gl_isect gl_inter] in *. rewrite K. discriminate.
  - exists loop_a, loop_b, loop_c. split; [reflexivity|]. split; [exact three_run|]. intros K. destruct loops_bad as (B1 & B2 & B3 & B4).
    assert (Nk : next_kept [0; 2] 0 2) by (split; [cbn; auto|]; split; [cbn; auto|]; split; [lia|]; intros x [<- |[<- |[]]]; lia).
    exact (K 0 2 0 2 Nk Nk B1 B2 B3 B4).
Qed.

Print Assumptions C92_class.
Print Assumptions C92_class_in_the_plane.
Print Assumptions C92_class_refuted.
