(** Claim C98 for runs over files. *)
From Coq Require Import QArith Ascii String.
From Verif Require Import M_Base M_Float M_Rng M_Geom M_Offset M_Node M_Decompose M_Hdb M_Knn M_Lnr M_Relate M_Deform M_Constrain M_ConstDP
  M_Text M_IO Spec Spec_Hdb Spec_Lnr Spec_Relate Spec_Deform Spec_ConstDP Spec_Text Spec_IO Spec_Run Spec_Out Spec_Docs Spec_Modes Spec_Plane Spec_Move
  Spec_Exact Spec_Whole Spec_Class
  P_Base P_Float P_Decompose P_Split P_Node P_HdbHist P_HdbLoad P_Knn P_ConstDP P_Constrain P_Aggregate P_Simplify P_Class P_Ref P_Twin P_IO P_Run P_Out P_Docs
  P_Deform P_Conflict P_Plane P_Move P_MovePlane P_Exact P_Whole P_WholeClass P_Rename
  P_Text Toy Toy_Box Toy_Plane Properties_Relate Properties_ConstDP Properties_IO Properties_Run Properties_Docs Properties_Twin Properties_Plane Properties_Lnr Properties_Modes Properties_Near Properties_Far
  Properties_Constrain Properties_ClassConf Properties_Move Properties_Exact Properties_Whole Properties_WholeClass.
Open Scope Z_scope.

Section Files.
  Variables (S : setup) (D : geometry -> place -> Prop) (o : opts) (dist : point -> point -> point -> f64) (cs : list geometry)
    (lines : list (list point)) (selfs : list cdp).
  Hypothesis Hr : in_run S true o (max_offset dist) cs lines selfs.
  Hypothesis Hp : plane_run S D o lines cs.
  Hypothesis Hmach : Forall (Forall machine_pt) lines.
  Hypothesis Hnan : is_nan (o_min_dist o) = false.
  Hypothesis HT : fle fzero (o_threshold o) = true.

  Lemma class_points_lines : class_points (map (fun s => (c_id s, c_pts s)) selfs) = concat lines.
  Proof.
    rewrite <- (ir_lines _ _ _ _ _ _ _ Hr). clear. unfold class_points. induction selfs as [|x l IH]; [reflexivity|].
    cbn [map flat_map snd concat]. congruence.
  Qed.

  Lemma plane_class_exact d : class_exact (su_world S) (su_gens S) (env_of d selfs) selfs o dist cs (su_fuel S).
  Proof.
    destruct Hr as [HS Hl Hnd Hm Hc Hf]. pose proof HS as [HW Hids Hgens Hfresh Hords Hord]. destruct (Hc eq_refl) as [C1 C2 C3].
    assert (Hin : forall s, In s selfs -> In (c_pts s) lines) by (intros s Hs; rewrite <- Hl; apply in_map, Hs).
    split; auto.
    - split; auto.
      + intros s Hs. apply env_of_spec; auto.
      + intros s Hs. destruct (Hm s Hs) as [(_ & _ & _ & Hb) Hk]. eauto.
      + rewrite class_points_lines. exact C2.
      + rewrite class_points_lines. exact C3.
      + rewrite class_points_lines. exact Hf.
    - intros s Hs. apply (Hm s Hs).
    - intros s Hs. destruct (Hm s Hs) as [(_ & A & B & _) _]. auto.
    - intros s Hs. apply (Hm s Hs).
    - intros s r g Hs Hr' Hg. apply (proj1 (plane_agree S D o lines cs (max_offset dist) (c_pts s) Hp (Hin s Hs)) r g Hr' Hg).
    - intros s Hs r q Ha Hb Hrq. rewrite Forall_forall in Hmach.
      pose proof (plane_sound_boxes _ D (c_pts s) [] (pr_lib _ _ _ _ _ Hp) (Hmach _ (Hin s Hs)) (Forall_nil _)) as [B1 B2 _].
      apply (B1 r q Ha Hb). apply (B2 r q Ha Hb Hrq).
    - intros Hpl s c Hs Hc'.
      assert (K : location_on_hulls (w_geom (su_world S)) (c_pts s) c /\ boxes_not_farther (w_geom (su_world S)) (c_pts s) c); [|split; apply K].
      apply (plane_locations S D o lines cs (c_pts s) c Hp Hpl (Hin s Hs)). destruct Hc' as [Hsi|Hk]; [|right; right; exact Hk].
      pose proof (plane_finder _ _ _ _ _ Hp Hpl) as F. rewrite Forall_forall in F. destruct (F (c_pts s) (Hin s Hs)) as [F1 F2 F3 F4 F5].
      destruct (C19_flags_select (w_geom (su_world S)) (lo_sort (w_lnr (su_world S))) (lo_segx (w_lnr (su_world S)))
        (lo_near (w_lnr (su_world S)) (c_pts s)) true (o_non_planar_self o) (c_pts s) F1 F2 F3 F4 F5) as (S1 & _).
      unfold self_intersections in Hsi. destruct (Hm s Hs) as [(Eo & _) _]. rewrite Eo in Hsi.
      destruct (S1 c Hsi) as [(_ & R & _)|R]; auto.
  Qed.

  Lemma forced_lines d s k : In s selfs ->
    class_forced (su_world S) selfs s k <->
    lines_forced (su_world S) o (max_offset dist) (map c_id selfs) (fun i => c_pts (env_of d selfs i)) (c_id s) k.
  Proof.
    intros Hs. destruct Hr as [HS Hl Hnd Hm Hc Hf]. unfold class_forced, lines_forced. destruct (Hm s Hs) as [(Eo & _) _]. rewrite Eo.
    assert (E : map (fun i => (i, c_pts (env_of d selfs i))) (map c_id selfs) = map (fun s => (c_id s, c_pts s)) selfs).
    { rewrite map_map. apply map_ext_in. intros x Hx. rewrite (env_of_spec d selfs x Hnd Hx). reflexivity. }
    rewrite E. rewrite (env_of_spec d selfs s Hnd Hs). unfold self_intersections at 2. cbn [proto c_pts c_opts].
    unfold self_intersections. rewrite Eo. reflexivity.
  Qed.
End Files.

Lemma class_result_ext L o dist cs ids pts f g r : (forall i k, In i ids -> (f i k <-> g i k)) ->
  class_result L o dist cs ids pts f r -> class_result L o dist cs ids pts g r.
Proof.
  intros E (alone & Ha & Hs). exists alone. split; [|exact Hs]. intros i Hi. eapply whole_forced_ext; [|exact (Ha i Hi)].
  intros k. apply E, Hi.
Qed.

(** In a run with the class option over files whose geometry library answers questions about the plane correctly: every
    line is written with the vertices that a result of the description for all lines together gives it. *)
Theorem C98_in_the_plane :
  forall {P} (lib : jsonlib P) (S : setup) o dist input cinput docs constraints m D,
  let lines := map (map (jl_point lib)) (flat_map doc_parts docs) in
  let score := max_offset dist in
  run_docs lib S true o score input cinput docs constraints -> linear_first docs m ->
  plane_run S D o lines constraints -> Forall (Forall machine_pt) lines ->
  is_nan (o_min_dist o) = false -> fle fzero (o_threshold o) = true ->
  exists outs ids pts result, run lib S true o score (unlines input) (unlines cinput) = Ok outs /\
    NoDup ids /\ map pts ids = lines /\
    class_result (w_geom (su_world S)) o dist constraints ids pts (lines_forced (su_world S) o score ids pts) result /\
    writes_docs lib docs m outs (fun line s => exists i, In i ids /\ pts i = line /\ s = result i).
Proof.
  intros P lib S o dist input cinput docs cs m D lines score H Hm Hp Hmach Hnan HT.
  destruct (docs_done lib S true o score input cinput docs cs H) as (selfs & done & Hr & Ed & Ef & _ & Hw & _).
  destruct (Hw m Hm) as (outs & E & W). fold lines in Hr.
  pose proof (ir_nodup _ _ _ _ _ _ _ Hr) as Hnd. pose proof (ir_lines _ _ _ _ _ _ _ Hr) as Hl.
  destruct (ir_setup _ _ _ _ _ _ _ Hr) as [HW Hids Hgens Hfresh Hords Hord].
  set (d := hd (proto o score []) selfs).
  assert (Hdone : exists result, class_result (w_geom (su_world S)) o dist cs (map c_id selfs) (fun i => c_pts (env_of d selfs i))
      (fun i => class_forced (su_world S) selfs (env_of d selfs i)) result /\
      forall s hs, In (s, hs) done -> simple_set hs = result (c_id s)).
  { destruct (C98_class (su_world S) (su_gens S) (su_ords S) (su_ord S) (env_of d selfs) selfs o dist cs (su_fuel S)
      (plane_class_exact S D o dist cs lines selfs Hr Hp Hmach Hnan HT d) Hords Hord) as (out & result & Eo & _ & Hc & Ho).
    exists result. split; [exact Hc|]. intros s hs Hs. apply Ho.
    destruct selfs as [|s0 r] eqn:Es; [destruct done; [destruct Hs|discriminate Ef]|].
    unfold d in Eo. cbn [hd] in Eo. rewrite Ed in Eo. injection Eo as <-. exact Hs. }
  destruct Hdone as (result & Hc & Hres).
  exists outs, (map c_id selfs), (fun i => c_pts (env_of d selfs i)), result.
  split; [exact E|]. split; [exact Hnd|]. split.
  { rewrite <- Hl, map_map. apply map_ext_in. intros s Hs. rewrite (env_of_spec d selfs s Hnd Hs). reflexivity. }
  split.
  { eapply class_result_ext; [|exact Hc]. intros i k Hi. cbv beta. apply in_map_iff in Hi. destruct Hi as (s & <- & Hs).
    rewrite (env_of_spec d selfs s Hnd Hs). apply (forced_lines S o dist cs lines selfs Hr d s k Hs). }
  eapply writes_docs_impl; [|exact W]. cbv beta. intros line k _ (s & hs & Hs & Ep & Ek). exists (c_id s).
  assert (Hin : In s selfs) by (rewrite <- Ef; exact (in_map fst _ _ Hs)).
  split; [apply in_map, Hin|]. rewrite (env_of_spec d selfs s Hnd Hin). split; [exact Ep|]. rewrite Ek. apply Hres, Hs.
Qed.

(** If the description, with any names for the lines, can be followed without ambiguity to a result, the run writes it. *)
Theorem C98_clear_in_the_plane :
  forall {P} (lib : jsonlib P) (S : setup) o dist input cinput docs constraints m D,
  let lines := map (map (jl_point lib)) (flat_map doc_parts docs) in
  let score := max_offset dist in
  run_docs lib S true o score input cinput docs constraints -> linear_first docs m ->
  plane_run S D o lines constraints -> Forall (Forall machine_pt) lines ->
  is_nan (o_min_dist o) = false -> fle fzero (o_threshold o) = true ->
  forall ids pts result, NoDup ids -> Permutation (map pts ids) lines ->
  class_result_clear (w_geom (su_world S)) o dist constraints ids pts (lines_forced (su_world S) o score ids pts) result ->
  exists outs, run lib S true o score (unlines input) (unlines cinput) = Ok outs /\
    writes_docs lib docs m outs (fun line s => exists i, In i ids /\ pts i = line /\ s = result i).
Proof.
  intros P lib S o dist input cinput docs cs m D lines score H Hm Hp Hmach Hnan HT ids pts result Hnd Hl (alone & Ha & Hs).
  destruct (C98_in_the_plane lib S o dist input cinput docs cs m D H Hm Hp Hmach Hnan HT) as (outs & ids0 & pts0 & result0 & E & Hnd0 & Hl0 & (alone0 & Ha0 & Hs0) & Hw).
  fold lines in Hl0. exists outs. split; [exact E|].
  destruct (renames_perm pts0 pts ids0 ids Hnd0 Hnd ltac:(rewrite Hl0; apply Permutation_sym, Hl)) as (g & g' & HR).
  assert (X : forall i, In i ids -> result i = result0 (g i)).
  { intros i Hi.
    assert (Hn : forall i, In i ids -> alone i = alone0 (g i)).
    { intros j Hj. destruct (rn_to _ _ _ _ _ _ HR j Hj) as (A & _ & Ej). pose proof (Ha0 _ A) as W0. rewrite Ej in W0.
      eapply whole_unique; [apply Ha, Hj|]. eapply whole_forced_ext; [|exact W0]. intros k.
      apply (forced_renamed o ids0 ids pts0 pts g g' HR (su_world S) score j k Hj). }
    apply (clearly_unique (w_geom (su_world S)) o dist cs ids pts _ _ _ _ Hs (fun _ => False) (fun _ => []) (fun i => alone0 (g i)) (fun i => result0 (g i))); [| |exact Hn| |exact Hi].
    - intros j _. reflexivity.
    - intros j _. reflexivity.
    - apply (settle_renamed (w_geom (su_world S)) o dist cs ids0 ids pts0 pts g g' HR _ _ _ _ Hs0); reflexivity. }
  eapply writes_docs_impl; [|exact Hw]. cbv beta. intros line s _ (j & Hj & Ej & Es). destruct (rn_back _ _ _ _ _ _ HR j Hj) as (B & G & Pj).
  exists (g' j). split; [exact B|]. split; [congruence|]. rewrite (X _ B), G. exact Es.
Qed.

(** In an unambiguous description identical lines have the same result. *)
Lemma settle_forget L o dist cs ids pts ch before now r : settle_clearly L o dist cs ids pts ch before now r -> settle_class L o dist cs ids pts ch before now r.
Proof. induction 1; [eapply sc_done|eapply sc_round]; eassumption. Qed.
Lemma clear_identical W o dist cs ids pts result : let score := max_offset dist in
  class_result_clear (w_geom W) o dist cs ids pts (lines_forced W o score ids pts) result ->
  forall i j, In i ids -> In j ids -> pts i = pts j -> result i = result j.
Proof.
  intros score (alone & Ha & Hs) i j Hi Hj Eij. set (g := fun k => if k =? i then j else if k =? j then i else k).
  assert (Gi : forall k, In k ids -> In (g k) ids /\ g (g k) = k /\ pts (g k) = pts k).
  { intros k Hk. unfold g. destruct (Z.eqb_spec k i) as [-> |N]; [|destruct (Z.eqb_spec k j) as [-> |N']].
    - rewrite Z.eqb_refl. destruct (Z.eqb_spec j i) as [E|E]; auto.
    - rewrite Z.eqb_refl. auto.
    - rewrite (proj2 (Z.eqb_neq k i) N), (proj2 (Z.eqb_neq k j) N'). auto. }
  assert (HR : renames ids ids pts pts g g) by (split; exact Gi).
  assert (Hn : forall k, In k ids -> alone k = alone (g k)).
  { intros k Hk. destruct (Gi k Hk) as (A & _ & Ek). pose proof (Ha _ A) as W0. rewrite Ek in W0.
    eapply whole_unique; [apply Ha, Hk|]. eapply whole_forced_ext; [|exact W0]. intros n.
    apply (forced_renamed o ids ids pts pts g g HR W score k n Hk). }
  rewrite (clearly_unique (w_geom W) o dist cs ids pts _ _ _ _ Hs (fun _ => False) (fun _ => []) (fun k => alone (g k)) (fun k => result (g k))); [| | |exact Hn| |exact Hi].
  - unfold g. rewrite Z.eqb_refl. reflexivity.
  - intros k _. reflexivity.
  - intros k _. reflexivity.
  - apply (settle_renamed (w_geom W) o dist cs ids ids pts pts g g HR _ _ _ _ (settle_forget _ _ _ _ _ _ _ _ _ _ Hs)); reflexivity.
Qed.

(** Then the output does not depend on map orders, ids, the index or the heap either. *)
Theorem C62_unambiguous_class :
  forall {P} (lib : jsonlib P) (S S' : setup) o dist input input' cinput cinput' docs constraints constraints' m D,
  let lines := map (map (jl_point lib)) (flat_map doc_parts docs) in
  let score := max_offset dist in
  run_docs lib S true o score input cinput docs constraints ->
  run_docs lib S' true o score input' cinput' docs constraints' -> linear_first docs m ->
  (forall g, In g constraints <-> In g constraints') ->
  w_geom (su_world S') = w_geom (su_world S) -> w_lnr (su_world S') = w_lnr (su_world S) ->
  plane_run S D o lines constraints -> Forall (Forall machine_pt) lines ->
  is_nan (o_min_dist o) = false -> fle fzero (o_threshold o) = true ->
  (exists ids pts result, NoDup ids /\ Permutation (map pts ids) lines /\
     class_result_clear (w_geom (su_world S)) o dist constraints ids pts (lines_forced (su_world S) o score ids pts) result) ->
  exists outs, run lib S true o score (unlines input) (unlines cinput) = Ok outs /\
    run lib S' true o score (unlines input') (unlines cinput') = Ok outs.
Proof.
  intros P lib S S' o dist input input' cinput cinput' docs cs cs' m D lines score H H' Hm Hcs EL EN Hp Hmach Hnan HT (ids & pts & result & Hnd & Hl & Hc).
  destruct (C98_clear_in_the_plane lib S o dist input cinput docs cs m D H Hm Hp Hmach Hnan HT ids pts result Hnd Hl Hc) as (outs & E & Hw).
  assert (Hp' : plane_run S' D o lines cs').
  { destruct Hp as [A B C F]. split; [rewrite EL; exact A|exact B| |rewrite EL, EN; exact F].
    rewrite Forall_forall in *. intros g K. apply C, Hcs, K. }
  assert (Hc' : class_result_clear (w_geom (su_world S')) o dist cs' ids pts (lines_forced (su_world S') o score ids pts) result).
  { rewrite EL. unfold lines_forced, self_intersections in *. rewrite EL, EN. exact (class_clear_set _ o dist cs cs' Hcs _ _ _ _ Hc). }
  destruct (C98_clear_in_the_plane lib S' o dist input' cinput' docs cs' m D H' Hm Hp' Hmach Hnan HT ids pts result Hnd Hl Hc') as (outs' & E' & Hw').
  exists outs. split; [exact E|]. unfold score. rewrite E'. f_equal. symmetry. eapply writes_docs_fun; [exact Hm|exact Hw|exact Hw'|]. cbv beta.
  intros line k k' _ (i & Hi & Ei & ->) (j & Hj & Ej & ->). apply (clear_identical (su_world S) o dist cs ids pts result Hc i j Hi Hj). congruence.
Qed.

(** Nor on the order of the lines in the files and how they are grouped into documents: every line gets the same vertices. *)
Theorem C99_order_of_lines :
  forall {P} (lib : jsonlib P) (S S' : setup) o dist input input' cinput cinput' docs docs' constraints constraints' m m' D,
  let lines := map (map (jl_point lib)) (flat_map doc_parts docs) in
  let lines' := map (map (jl_point lib)) (flat_map doc_parts docs') in
  let score := max_offset dist in
  run_docs lib S true o score input cinput docs constraints -> linear_first docs m ->
  run_docs lib S' true o score input' cinput' docs' constraints' -> linear_first docs' m' ->
  Permutation lines lines' -> (forall g, In g constraints <-> In g constraints') ->
  w_geom (su_world S') = w_geom (su_world S) -> w_lnr (su_world S') = w_lnr (su_world S) ->
  plane_run S D o lines constraints -> Forall (Forall machine_pt) lines ->
  is_nan (o_min_dist o) = false -> fle fzero (o_threshold o) = true ->
  (exists ids pts result, NoDup ids /\ Permutation (map pts ids) lines /\
     class_result_clear (w_geom (su_world S)) o dist constraints ids pts (lines_forced (su_world S) o score ids pts) result) ->
  exists outs outs' (kept : list point -> list Z -> Prop),
    run lib S true o score (unlines input) (unlines cinput) = Ok outs /\
    run lib S' true o score (unlines input') (unlines cinput') = Ok outs' /\
    (forall line s s', kept line s -> kept line s' -> s = s') /\
    writes_docs lib docs m outs kept /\ writes_docs lib docs' m' outs' kept.
Proof.
  intros P lib S S' o dist input input' cinput cinput' docs docs' cs cs' m m' D lines lines' score H Hm H' Hm' Hperm Hcs EL EN Hp Hmach Hnan HT (ids & pts & result & Hnd & Hl & Hc).
  destruct (C98_clear_in_the_plane lib S o dist input cinput docs cs m D H Hm Hp Hmach Hnan HT ids pts result Hnd Hl Hc) as (outs & E & Hw).
  assert (Hin : forall l, In l lines' -> In l lines) by (intros l; apply Permutation_in, Permutation_sym, Hperm).
  assert (Hp' : plane_run S' D o lines' cs').
  { destruct Hp as [A B C F]. split; [rewrite EL; exact A| | |].
    - rewrite Forall_forall in *. intros l X. apply B, Hin, X.
    - rewrite Forall_forall in *. intros l X. apply C, Hcs, X.
    - rewrite EL, EN. intros K. destruct (F K) as (F1 & F2 & F3). split; [exact F1|]. split; [|exact F3]. intros l X. apply F2, Hin, X. }
  assert (Hmach' : Forall (Forall machine_pt) lines') by (rewrite Forall_forall in *; intros l X; apply Hmach, Hin, X).
  assert (Hc' : class_result_clear (w_geom (su_world S')) o dist cs' ids pts (lines_forced (su_world S') o score ids pts) result).
  { rewrite EL. unfold lines_forced, self_intersections in *. rewrite EL, EN. exact (class_clear_set _ o dist cs cs' Hcs _ _ _ _ Hc). }
  destruct (C98_clear_in_the_plane lib S' o dist input' cinput' docs' cs' m' D H' Hm' Hp' Hmach' Hnan HT ids pts result Hnd (perm_trans Hl Hperm) Hc') as (outs' & E' & Hw').
  exists outs, outs', (fun line s => exists i, In i ids /\ pts i = line /\ s = result i). split; [exact E|]. split; [exact E'|].
  split; [|split; [exact Hw|exact Hw']].
  intros line k k' (i & Hi & Ei & ->) (j & Hj & Ej & ->). apply (clear_identical (su_world S) o dist cs ids pts result Hc i j Hi Hj). congruence.
Qed.

(** Without avoid_self nothing is ambiguous. *)
Lemma clear_off L o dist cs ids pts forced result : o_avoid_self o = false ->
  class_result L o dist cs ids pts forced result -> class_result_clear L o dist cs ids pts forced result.
Proof.
  intros Ho (alone & Ha & Hs). exists alone. split; [exact Ha|]. clear Ha.
  assert (U : forall ch before now, unambiguous L o ids pts ch before now).
  { intros ch before now i r k k' v _ (j & q & _ & _ & _ & K & _). congruence. }
  induction Hs; [eapply sy_done|eapply sy_round]; eauto.
Qed.
Theorem C99_order_without_avoid_self :
  forall {P} (lib : jsonlib P) (S S' : setup) o dist input input' cinput cinput' docs docs' constraints constraints' m m' D,
  let lines := map (map (jl_point lib)) (flat_map doc_parts docs) in
  let lines' := map (map (jl_point lib)) (flat_map doc_parts docs') in
  let score := max_offset dist in
  o_avoid_self o = false ->
  run_docs lib S true o score input cinput docs constraints -> linear_first docs m ->
  run_docs lib S' true o score input' cinput' docs' constraints' -> linear_first docs' m' ->
  Permutation lines lines' -> (forall g, In g constraints <-> In g constraints') ->
  w_geom (su_world S') = w_geom (su_world S) -> w_lnr (su_world S') = w_lnr (su_world S) ->
  plane_run S D o lines constraints -> Forall (Forall machine_pt) lines ->
  is_nan (o_min_dist o) = false -> fle fzero (o_threshold o) = true ->
  exists outs outs' (kept : list point -> list Z -> Prop),
    run lib S true o score (unlines input) (unlines cinput) = Ok outs /\
    run lib S' true o score (unlines input') (unlines cinput') = Ok outs' /\
    (forall line s s', kept line s -> kept line s' -> s = s') /\
    writes_docs lib docs m outs kept /\ writes_docs lib docs' m' outs' kept.
Proof.
  intros P lib S S' o dist input input' cinput cinput' docs docs' cs cs' m m' D lines lines' score Ho H Hm H' Hm' Hperm Hcs EL EN Hp Hmach Hnan HT.
  apply (C99_order_of_lines lib S S' o dist input input' cinput cinput' docs docs' cs cs' m m' D); auto.
  destruct (C98_in_the_plane lib S o dist input cinput docs cs m D H Hm Hp Hmach Hnan HT) as (outs & ids & pts & result & _ & Hnd & Hl & Hc & _).
  exists ids, pts, result. split; [exact Hnd|]. split; [rewrite Hl; apply Permutation_refl|]. apply clear_off; assumption.
Qed.
Theorem C62_class_without_avoid_self :
  forall {P} (lib : jsonlib P) (S S' : setup) o dist input input' cinput cinput' docs constraints constraints' m D,
  let lines := map (map (jl_point lib)) (flat_map doc_parts docs) in
  let score := max_offset dist in
  o_avoid_self o = false ->
  run_docs lib S true o score input cinput docs constraints ->
  run_docs lib S' true o score input' cinput' docs constraints' -> linear_first docs m ->
  (forall g, In g constraints <-> In g constraints') ->
  w_geom (su_world S') = w_geom (su_world S) -> w_lnr (su_world S') = w_lnr (su_world S) ->
  plane_run S D o lines constraints -> Forall (Forall machine_pt) lines ->
  is_nan (o_min_dist o) = false -> fle fzero (o_threshold o) = true ->
  exists outs, run lib S true o score (unlines input) (unlines cinput) = Ok outs /\
    run lib S' true o score (unlines input') (unlines cinput') = Ok outs.
Proof.
  intros P lib S S' o dist input input' cinput cinput' docs cs cs' m D lines score Ho H H' Hm Hcs EL EN Hp Hmach Hnan HT.
  apply (C62_unambiguous_class lib S S' o dist input input' cinput cinput' docs cs cs' m D); auto.
  destruct (C98_in_the_plane lib S o dist input cinput docs cs m D H Hm Hp Hmach Hnan HT) as (outs & ids & pts & result & _ & Hnd & Hl & Hc & _).
  exists ids, pts, result. split; [exact Hnd|]. split; [rewrite Hl; apply Permutation_refl|]. apply clear_off; assumption.
Qed.

(** The hill and the pole of C98_case as the two parts of a feature. *)
Definition hill_feat : jfeat bool := JFeat (Some (jmulti [c_pts f_hill; c_pts f_pole])) (Some true).
Definition hill_lib : jsonlib bool := JsonLib ex_type (jl_geometry ex_lib) (fun _ => Some hill_feat) (jl_collection ex_lib)
  (jl_marshal ex_lib) (jl_unmarshal ex_lib) (jl_empty ex_lib) (jl_point ex_lib) (jl_zero ex_lib).
Lemma hill_machine : Forall machine_pt (c_pts f_hill) /\ Forall machine_pt (c_pts f_pole).
Proof.
  split; cbn [c_pts f_hill f_pole]; repeat (apply Forall_cons; [split; (split; vm_compute; reflexivity)|]); apply Forall_nil.
Qed.
Ltac no_newline := repeat constructor; vm_compute; intros H; repeat (destruct H as [H|H]; [discriminate H|]); exact H.
Example C98_plane_case :
  let docs := [DFeature hill_feat] in
  let lines := map (map (jl_point hill_lib)) (flat_map doc_parts docs) in
  run_docs hill_lib exP_setup true spike_opts (max_offset toy_ptseg) [str "f"] [str "p"] docs [ex_constraint] /\ linear_first docs 1 /\
  plane_run exP_setup places spike_opts lines [ex_constraint] /\ Forall (Forall machine_pt) lines /\
  is_nan (o_min_dist spike_opts) = false /\ fle fzero (o_threshold spike_opts) = true /\ o_avoid_self spike_opts = true /\
  lines = [c_pts f_hill; c_pts f_pole] /\ ~ hulls_apart exact_lib lines.
Proof.
  cbv zeta. assert (El : map (map (jl_point hill_lib)) (flat_map doc_parts [DFeature hill_feat]) = [c_pts f_hill; c_pts f_pole]) by (vm_compute; reflexivity).
  destruct hill_machine as [M1 M2].
  assert (N1 : Forall num_pt (c_pts f_hill)) by (eapply Forall_impl; [|exact M1]; intros p; apply machine_num).
  assert (N2 : Forall num_pt (c_pts f_pole)) by (eapply Forall_impl; [|exact M2]; intros p; apply machine_num).
  rewrite El. split; [|split; [|split; [|split; [|split; [|split; [|split; [|split]]]]]]].
  - split; [split; [intros []; reflexivity|reflexivity|intros []; discriminate]|exact exP_setup_ok|no_newline| | |vm_compute; reflexivity| |no_newline| | | | |]; try rewrite El.
    + exists [str "f"]. split; [assert (X : lines_kept [str "f"] (keep [str "f"])) by apply keep_kept; vm_compute in X; exact X|].
      constructor; [apply R_feature; reflexivity|constructor].
    + repeat constructor; discriminate.
    + repeat constructor.
    + exists [str "p"], [DGeometry (jpoint (P2 3 4))]. split; [assert (X : lines_kept [str "p"] (keep [str "p"])) by apply keep_kept; vm_compute in X; exact X|].
      split; [constructor; [eapply R_geometry; [reflexivity|cbn; tauto|reflexivity]|constructor]|]. split; [|vm_compute; reflexivity].
      constructor; [|constructor]. vm_compute. discriminate.
    + constructor; [|constructor]. vm_compute. repeat split; try reflexivity; discriminate.
    + change (max_offset toy_ptseg) with toy_score. constructor; [|constructor; [|constructor]]; line_ok_compute (f_of_Z 13).
    + intros _. split; [exact v_sort_sorts| |reflexivity]. cbn [concat]. rewrite app_nil_r. apply Forall_app. split; assumption.
    + vm_compute. lia.
  - split; [cbn; lia|]. intros [|i] d H; [|destruct i; discriminate]. injection H as <-. split; [lia|vm_compute; discriminate].
  - split; [exact exact_lib_ok| | |discriminate].
    + constructor; [exact N1|constructor; [exact N2|constructor]].
    + constructor; [|constructor]. split; [discriminate|]. split; [|exact Logic.I]. repeat constructor; reflexivity.
  - constructor; [exact M1|constructor; [exact M2|constructor]].
  - reflexivity.
  - reflexivity.
  - reflexivity.
  - reflexivity.
  - intros H. pose proof (H 0%nat 1%nat (c_pts f_hill) (c_pts f_pole) ltac:(lia) eq_refl eq_refl) as X. revert X.
    apply not_apart; [discriminate|discriminate|].
    assert (X : hulls_meet (c_pts f_hill) [P2 10 1] = true) by (vm_compute; reflexivity). apply hulls_meet_ok in X.
    destruct X as (q & X1 & X2). exists q. split; [exact X1|]. revert X2. apply hull_sub. intros p [<- |[]]. cbn; auto.
Qed.

(** The hill and a pole of one segment, with intersections reported as one place. *)
Definition exact_at (c : point) : geomlib :=
  GeomLib bx_hull ex_isect (fun g h => if ex_isect g h then [c] else []) (gl_dist exact_lib) bx_bounds loc_eq (fun _ _ => false) (gl_ptdist exact_lib).
Lemma exact_at_ok c : plane_library (exact_at c) places.
Proof. destruct exact_lib_ok. split; assumption. Qed.
Definition exI_at (c : point) : world := World (exact_at c) (w_gen exP) plain_oracle plain_pop (LnrOracle v_sort tee_segx scan_near).
Lemma exI_at_ok c : libs_ok (exI_at c).
Proof.
  destruct exP_ok as [A B _ D]. split; [exact A|exact B| |exact D]. intros p g. cbn [w_geom exI_at exact_at gl_inter].
  split; [destruct (ex_isect (GPoint p) g)|destruct (ex_isect g (GPoint p))]; cbn; lia.
Qed.
Definition exact_pts : geomlib := exact_at (P2 0 0).
Definition exact_pts_ok : plane_library exact_pts places := exact_at_ok _.
Definition exI : world := exI_at (P2 0 0).
Definition exI_ok : libs_ok exI := exI_at_ok _.
Definition exI_setup : setup := Setup exI (fun k => Z.of_nat k) ex_gens (fun _ => in_turn) in_turn 60.
Lemma exI_setup_ok : setup_ok exI_setup.
Proof. destruct exP_setup_ok as [_ B C D E F]. split; [exact exI_ok|exact B|exact C|exact D|exact E|exact F]. Qed.
Definition env6 (i : Z) : cdp := if i =? 1 then f_hill else f_post.
Lemma post_ready : class_exact exI ex_gens env6 [f_hill; f_post] spike_opts toy_ptseg [] 40.
Proof.
  class_exact_compute ltac:(split;
    [ exact exI_ok
    | repeat constructor; cbn; intuition discriminate
    | intros s H; class_cases H; reflexivity
    | exact (proj1 ex_gens_ok)
    | exact (proj2 ex_gens_ok)
    | intros s H; class_cases H; (split; [line_ok_compute (f_of_Z 13)|]; exists []; split; [vm_compute; reflexivity|constructor])
    | exact v_sort_sorts
    | unfold class_points; cbn [flat_map map snd c_pts app f_hill f_post]; repeat (constructor; [split; vm_compute; reflexivity|]); constructor
    | intros p q _ _; reflexivity
    | cbn; lia ]).
Qed.

(** The description has one round, which splits the hill. *)
Lemma post_clear :
  let ids := [1; 2] in let pts := fun i => c_pts (env6 i) in
  class_result_clear exact_pts spike_opts toy_ptseg [] ids pts (lines_forced exI spike_opts (max_offset toy_ptseg) ids pts) (fun i => if i =? 1 then [0; 1; 2] else [0; 1]).
Proof.
  cbv zeta.
  destruct (class_core exI ex_gens (fun _ => in_turn) in_turn env6 [f_hill; f_post] spike_opts toy_ptseg [] 40 post_ready (fun _ => in_turn_ok) in_turn_ok)
    as (done & out & alone & result & _ & _ & Ed & Ha & Hw & _).
  assert (Ek : kept_of (simplify_instances exI ex_gens (fun _ => in_turn) (fun _ => []) 40 [f_hill; f_post]) = Ok [(1, [0; 2]); (2, [0; 1])])
    by (vm_compute; reflexivity).
  pose proof (kept_of_in _ _ _ _ Ek Ed Ha 1 [0; 2] ltac:(cbn; auto)) as A1.
  pose proof (kept_of_in _ _ _ _ Ek Ed Ha 2 [0; 1] ltac:(cbn; auto)) as A2. clear Ha.
  pose proof (Hw 1 ltac:(cbn; auto)) as W1. pose proof (Hw 2 ltac:(cbn; auto)) as W2. cbv beta in W1, W2. rewrite A1 in W1. rewrite A2 in W2.
  cbn [w_geom exI] in W1, W2.
  set (ids := [1; 2]). set (pts := fun i => c_pts (env6 i)).
  set (st := fun i : Z => if i =? 1 then [0; 2] else [0; 1]). set (st' := fun i : Z => if i =? 1 then [0; 1; 2] else [0; 1]).
  assert (Hid : forall i, In i ids -> i = 1 \/ i = 2) by (intros i [<- |[<- |[]]]; auto).
  exists st. split.
  { intros i Hi. destruct (Hid i Hi) as [-> | ->]; [refine (whole_forced_ext _ _ _ _ _ _ _ _ _ W1)|refine (whole_forced_ext _ _ _ _ _ _ _ _ _ W2)];
      intros k; split; intros [K _]; discriminate K. }
  assert (Ht : point_touch exact_pts) by exact (lb_touch _ exI_ok).
  assert (Hpl : forall i p, In i ids -> In p (pts i) -> gl_eq2d exact_pts p p = true).
  { intros i p Hi Hp. apply (line_places exI ex_gens env6 [f_hill; f_post] spike_opts toy_ptseg [] 40 post_ready (env6 i) p); [|exact Hp].
    destruct (Hid i Hi) as [-> | ->]; cbn; auto. }
  assert (Hpc : forall i r, In i ids -> In r (parts (st i)) -> piece (pts i) r).
  { intros i r Hi. destruct (Hid i Hi) as [-> | ->]; intros [<- |[]]; vm_compute; intuition discriminate. }
  assert (U : forall ch before, unambiguous exact_pts spike_opts ids pts ch before st).
  { intros ch before. apply ranges_differ; auto. intros i j r Hi Hj. destruct (Hid i Hi) as [-> | ->], (Hid j Hj) as [-> | ->]; auto; intros [<- |[]] [K|[]]; discriminate K. }
  assert (Flat : forall r before now, In r (parts (st 2)) -> ~ checked exact_pts ids pts before now 2 r).
  { intros r before now [<- |[]] (_ & _ & _ & K & _). apply K. reflexivity. }
  assert (Hsp : places_ok exact_pts) by exact toy_places.
  assert (E' : pair_candidates exact_pts fzero true (class_part exact_pts pts 1 (Rng 0 2)) (class_part exact_pts pts 2 (Rng 0 1)) =
    Ok (Some (class_part exact_pts pts 1 (Rng 0 2)), None)) by (vm_compute; reflexivity).
  assert (Hask : forall k v, asks exact_pts spike_opts ids pts (fun _ => False) st 1 (Rng 0 2) k v -> k = 1 /\ v = Rng 0 2).
  { intros k v (j & q & Hj & Hq & [Hji|[]] & _ & _ & _ & _ & K). destruct (Hid j Hj) as [-> | ->]; [congruence|]. destruct Hq as [<- |[]].
    apply (pair_iff exact_pts fzero true _ _ _ Hsp Ht) in K; [|eexists; reflexivity..]. destruct K as (sa & sb & E & K).
    rewrite E' in E. injection E as <- <-. destruct K as [K|K]; [|discriminate K]. split; [exact (eq_sym (f_equal (fun x => match x with Some n => n_inst n | None => 0 end) K))|].
    exact (eq_sym (f_equal (fun x => match x with Some n => n_rng n | None => Rng 0 0 end) K)). }
  assert (Hasks : asks exact_pts spike_opts ids pts (fun _ => False) st 1 (Rng 0 2) 1 (Rng 0 2)).
  { exists 2, (Rng 0 1). split; [cbn; auto|]. split; [left; reflexivity|]. split; [left; discriminate|]. split; [reflexivity|]. split; [intros [K _]; discriminate K|].
    split; [vm_compute; reflexivity|]. split; [vm_compute; reflexivity|].
    apply (pair_iff exact_pts fzero true _ _ _ Hsp Ht); [eexists; reflexivity..|]. eexists _, _. split; [exact E'|]. left. reflexivity. }
  assert (Hch : checked exact_pts ids pts (fun _ => []) st 1 (Rng 0 2)).
  { split; [cbn; auto|]. split; [left; reflexivity|]. split; [intros []|]. split; vm_compute; congruence. }
  assert (No : forall i r, ~ checked exact_pts ids pts st st' i r).
  { intros i r (Hi & Hr & Hn & He). destruct (Hid i Hi) as [-> | ->]; [destruct Hr as [<- |[<- |[]]]; apply (proj1 He); reflexivity|exact (Hn Hr)]. }
  eapply sy_round with (split := fun k v => k = 1 /\ v = Rng 0 2) (next := st').
  - apply U.
  - exists (fun i r k v => (i = 1 /\ r = Rng 0 2) /\ k = 1 /\ v = Rng 0 2).
    split; [intros i r k v ((-> & ->) & -> & ->); auto|]. split; [|split; [intros i r k k' v (_ & -> & _) (_ & -> & _); reflexivity|]].
    + intros i r k v Hc K. exists 1. pose proof Hc as (Hi & Hr & _). destruct (Hid i Hi) as [-> | ->]; [|exfalso; exact (Flat r _ _ Hr Hc)].
      destruct Hr as [<- |[]]. destruct (Hask k v K) as [_ ->]. auto.
    + intros k v. split.
      * intros [-> ->]. split; [cbn; auto|]. split; [left; reflexivity|]. split; [cbn; lia|]. left. exists 1, (Rng 0 2). auto.
      * intros (_ & _ & _ & [(i & r & _ & K)|[_ K]]); [exact K|]. unfold chord_ok in K. cbn in K. discriminate K.
  - exists 1, (Rng 0 2). auto.
  - intros i Hi. destruct (Hid i Hi) as [-> | ->]; cbn [st st' Z.eqb Pos.eqb]; split; try (repeat constructor; fail); intros k; cbn [In]; split.
    + intros [<- |[<- |[<- |[]]]]; auto. right. exists (Rng 0 2). split; [auto|]. cbn [rI rJ].
      change (farthest_vertex toy_ptseg (pts 1) 0 2 (0 + fst (max_offset toy_ptseg (sub_coords (pts 1) (Rng 0 2))))).
      apply score_farthest; [|vm_compute; intuition discriminate|lia].
      pose proof (lk_score _ _ (proj1 (cr_lines _ _ _ _ _ (ce_ready _ _ _ _ _ _ _ _ post_ready) f_hill (or_introl eq_refl)))) as K. exact K.
    + intros [[<- |[<- |[]]]|(v & [_ ->] & K & _)]; auto. cbn in K. assert (k = 1) by lia. auto.
    + auto.
    + intros [K|(v & [K _] & _)]; [exact K|discriminate K].
  - eapply sy_done with (split := fun _ _ => False); [| |auto|reflexivity].
    + intros i r k k' v K. exfalso. exact (No i r K).
    + exists (fun _ _ _ _ => False). split; [intros ? ? ? ? []|]. split; [intros i r k v K; exfalso; exact (No i r K)|]. split; [intros ? ? ? ? ? []|].
      intros k v. split; [intros []|]. intros (_ & _ & _ & [(i & r & [])|[K _]]). exact (No k v K).
Qed.

Definition post_feat : jfeat bool := JFeat (Some (jmulti [c_pts f_hill; c_pts f_post])) (Some true).
Definition post_alone : jfeat bool := JFeat (Some (jline (c_pts f_hill))) (Some false).
Definition post_lib : jsonlib bool := JsonLib ex_type (fun s => if bytes_eqb s (str "p") then Some (jpoint (P2 3 4)) else Some (jline (c_pts f_post)))
  (fun s => if bytes_eqb s (str "n") then Some post_alone else Some post_feat) (jl_collection ex_lib) (jl_marshal ex_lib)
  (jl_unmarshal ex_lib) (jl_empty ex_lib) (jl_point ex_lib) (jl_zero ex_lib).
(** Other ids and orders. *)
Definition exI_setup2 : setup := Setup exI (fun k => 7 - Z.of_nat k) ex_gens (fun _ _ l => rev l) (fun _ l => rev l) 90.
Lemma exI_setup2_ok : setup_ok exI_setup2.
Proof.
  destruct exI_setup_ok as [A B C D E F]. split; [exact A| |exact C|exact D| |].
  - intros i j H. cbn [su_ids exI_setup2] in H. lia.
  - intros i k l. apply Permutation_sym, Permutation_rev.
  - intros k l. apply Permutation_sym, Permutation_rev.
Qed.

(** With forced vertices and all relations, without avoid_self. *)
Definition off_opts : opts := Opts (f_of_Z 13) fzero fzero true true false true true true.
Definition post_docs : list (document bool) := [DFeature post_feat].
(** The same lines, the pole first, each in a document of its own. *)
Definition post_docs2 : list (document bool) := [DGeometry (jline (c_pts f_post)); DFeature post_alone].
Lemma post_lines : map (map (jl_point post_lib)) (flat_map doc_parts post_docs) = [c_pts f_hill; c_pts f_post].
Proof. vm_compute. reflexivity. Qed.
Lemma post_lines2 : map (map (jl_point post_lib)) (flat_map doc_parts post_docs2) = [c_pts f_post; c_pts f_hill].
Proof. vm_compute. reflexivity. Qed.
Lemma post_machine : Forall machine_pt (c_pts f_post).
Proof. cbn [c_pts f_post]. repeat (apply Forall_cons; [split; (split; vm_compute; reflexivity)|]). apply Forall_nil. Qed.
Lemma post_num : Forall num_pt (c_pts f_hill) /\ Forall num_pt (c_pts f_post).
Proof. split; (eapply Forall_impl; [|exact (proj1 hill_machine) || exact post_machine]; intros p; apply machine_num). Qed.

Section PostRun.
  Variables (S : setup) (o : opts) (n : nat).
  Hypothesis Hn : (n <= 2)%nat.
  Hypothesis Ho : o = spike_opts \/ o = off_opts.
  Hypothesis Hok : setup_ok S.
  Hypothesis EN : w_lnr (su_world S) = LnrOracle v_sort tee_segx scan_near.
  Hypothesis EL : w_geom (su_world S) = exact_pts.
  Hypothesis Hf : (60 <= su_fuel S)%nat.

  Ltac post_run El toks docs_read :=
    split; [split; [intros []; reflexivity|reflexivity|intros []; discriminate]|exact Hok|no_newline| | |vm_compute; reflexivity| |apply Forall_forall; intros l Hl; apply repeat_spec in Hl; subst l; vm_compute; intros H; repeat (destruct H as [H|H]; [discriminate H|]); exact H| | | | |]; try rewrite El;
    [ exists toks; split; [assert (X : lines_kept toks (keep toks)) by apply keep_kept; vm_compute in X; exact X|docs_read]
    | repeat constructor; discriminate
    | repeat constructor
    | exists (repeat (str "p") n), (repeat (DGeometry (jpoint (P2 3 4))) n); destruct n as [|[|[|k]]]; [| | |lia];
      (split; [match goal with |- lines_kept ?l _ => assert (X : lines_kept l (keep l)) by apply keep_kept; vm_compute in X; exact X end|]);
      (split; [repeat (constructor; [eapply R_geometry; [reflexivity|cbn; tauto|reflexivity]|]); constructor|]);
      (split; [repeat (constructor; [vm_compute; discriminate|]); constructor|vm_compute; reflexivity])
    | rewrite EL; apply Forall_forall; intros g Hg; apply repeat_spec in Hg; subst g; vm_compute; repeat split; try reflexivity; discriminate
    | rewrite EL; change (max_offset toy_ptseg) with toy_score; destruct Ho as [-> | ->];
      (constructor; [|constructor; [|constructor]]; line_ok_compute (f_of_Z 13))
    | intros _; split; [rewrite EN; exact v_sort_sorts| |rewrite EL; reflexivity]; cbn [concat]; rewrite app_nil_r; apply Forall_app; split; apply post_num
    | eapply Nat.le_trans; [|exact Hf]; vm_compute; lia ].
  Lemma post_run : run_docs post_lib S true o (max_offset toy_ptseg) [str "f"] (repeat (str "p") n) post_docs (repeat ex_constraint n).
  Proof. post_run post_lines [str "f"] ltac:(constructor; [apply R_feature; reflexivity|constructor]). Qed.
  Lemma post_run2 : run_docs post_lib S true o (max_offset toy_ptseg) [str "l"; str "n"] (repeat (str "p") n) post_docs2 (repeat ex_constraint n).
  Proof.
    post_run post_lines2 [str "l"; str "n"] ltac:(constructor; [eapply R_geometry; [reflexivity|cbn; tauto|reflexivity]|]; constructor; [apply R_feature; reflexivity|constructor]).
  Qed.
  Lemma post_plane : plane_run S places o [c_pts f_hill; c_pts f_post] (repeat ex_constraint n).
  Proof.
    split; [rewrite EL; exact exact_pts_ok| | |].
    - constructor; [apply post_num|constructor; [apply post_num|constructor]].
    - apply Forall_forall. intros g Hg. apply repeat_spec in Hg. subst g. split; [discriminate|]. split; [|exact Logic.I]. repeat constructor; reflexivity.
    - intros _. rewrite EN, EL. split; [exact v_sort_sorts|]. split; [intros pts _; apply scan_near_finds|]. split; [exact tee_sym|exact tee_near].
  Qed.
End PostRun.
Lemma post_linear : linear_first post_docs 1 /\ linear_first post_docs2 2.
Proof.
  split; (split; [cbn; lia|]).
  - intros [|i] d H; [|destruct i; discriminate]. injection H as <-. split; [lia|vm_compute; discriminate].
  - intros [|[|i]] d H; [| |destruct i; discriminate]; injection H as <-; (split; [lia|vm_compute; discriminate]).
Qed.

Example C62_unambiguous_case :
  let lines := map (map (jl_point post_lib)) (flat_map doc_parts post_docs) in
  let lines2 := map (map (jl_point post_lib)) (flat_map doc_parts post_docs2) in
  (forall S o n, S = exI_setup \/ S = exI_setup2 -> o = spike_opts \/ o = off_opts -> (n <= 2)%nat ->
     run_docs post_lib S true o (max_offset toy_ptseg) [str "f"] (repeat (str "p") n) post_docs (repeat ex_constraint n) /\
     run_docs post_lib S true o (max_offset toy_ptseg) [str "l"; str "n"] (repeat (str "p") n) post_docs2 (repeat ex_constraint n) /\
     plane_run S places o lines (repeat ex_constraint n)) /\
  (forall g, In g (repeat ex_constraint 1) <-> In g (repeat ex_constraint 2)) /\
  linear_first post_docs 1 /\ linear_first post_docs2 2 /\ Permutation lines lines2 /\ lines <> lines2 /\ Forall (Forall machine_pt) lines /\
  is_nan (o_min_dist spike_opts) = false /\ fle fzero (o_threshold spike_opts) = true /\ o_avoid_self spike_opts = true /\
  is_nan (o_min_dist off_opts) = false /\ fle fzero (o_threshold off_opts) = true /\ o_avoid_self off_opts = false /\
  exists ids pts result, NoDup ids /\ Permutation (map pts ids) lines /\
    class_result_clear exact_pts spike_opts toy_ptseg [] ids pts (lines_forced exI spike_opts (max_offset toy_ptseg) ids pts) result /\
    In [0; 1; 2] (map result ids).
Proof.
  cbv zeta. rewrite post_lines, post_lines2. split.
  { intros S o n HS Ho Hn.
    assert (X : setup_ok S /\ w_lnr (su_world S) = LnrOracle v_sort tee_segx scan_near /\ w_geom (su_world S) = exact_pts /\ (60 <= su_fuel S)%nat).
    { destruct HS as [-> | ->]; (split; [exact exI_setup_ok || exact exI_setup2_ok|]); (split; [reflexivity|]); (split; [reflexivity|cbn; lia]). }
    destruct X as (X1 & X2 & X3 & X4). split; [apply post_run; assumption|]. split; [apply post_run2; assumption|]. apply post_plane; assumption. }
  split; [intros g; cbn; tauto|]. split; [apply post_linear|]. split; [apply post_linear|]. split; [constructor|]. split; [discriminate|].
  split; [constructor; [exact (proj1 hill_machine)|constructor; [exact post_machine|constructor]]|].
  do 6 (split; [reflexivity|]).
  eexists _, _, _. split; [|split; [|split; [exact post_clear|cbn; auto]]]; [|apply Permutation_refl]. repeat constructor; cbn; intuition discriminate.
Qed.
(** The hypotheses of C99 and C98_clear_in_the_plane are met by the same runs. *)
Definition C99_case := C62_unambiguous_case.

Print Assumptions C98_in_the_plane.
Print Assumptions C98_clear_in_the_plane.
Print Assumptions C62_unambiguous_class.
Print Assumptions C99_order_of_lines.
Print Assumptions C99_order_without_avoid_self.
Print Assumptions C62_class_without_avoid_self.
