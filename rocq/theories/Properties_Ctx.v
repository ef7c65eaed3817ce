(** Claim C81: collections of contexts hold what was put in them.  Vocabulary: Spec_Ctx.v. *)
From Coq Require Import String.
From Verif Require Import M_Base M_Slice M_Ctx Spec_Ctx P_Slice P_Ctx.
Open Scope Z_scope.

Lemma history_agrees fi w h w' : history fi w h w' -> forall cols, agrees w cols -> Forall keeps_apart h ->
  exists cols', effects fi cols h cols' /\ agrees w' cols'.
Proof.
  induction 1 as [w|w o w1 h w2 Hc Ho Hh IH]; intros cols Ha Hk.
  - exists cols. split; [constructor|exact Ha].
  - apply Forall_cons_iff in Hk. destruct Hk as [Hk1 Hk2].
    destruct (call_ok fi _ _ _ _ Ha Hk1 Hc Ho) as (c1 & E1 & A1). destruct (IH c1 A1 Hk2) as (c2 & E2 & A2).
    exists c2. split; [econstructor; eassumption|exact A2].
Qed.
Lemma start_agrees : agrees (Cmem [] []) [].
Proof. split; [|reflexivity]. split; [constructor|]. intros k k' s s' E. destruct k; discriminate E. Qed.

(** A program that starts without collections and never makes one collection keep the array of another
    sees in every collection exactly the list that the calls describe, whatever capacities the runtime
    picks and however sort.Sort swaps. *)
Theorem C81_collections_are_lists fi h w : history fi (Cmem [] []) h w -> Forall keeps_apart h ->
  exists cols, effects fi [] h cols /\ (forall k, sees w k = nth_error cols k) /\
    (forall k l, nth_error cols k = Some l -> col_len w k = Ok (zlen l)).
Proof.
  intros H Hk. destruct (history_agrees _ _ _ _ H [] start_agrees Hk) as (cols & E & [A ->]). eexists. split; [exact E|].
  split.
  - intros k. unfold sees. rewrite nth_error_map. reflexivity.
  - intros k l Hl. rewrite nth_error_map in Hl. unfold col_len, data_view.
    destruct (nth_error (cm_cols w) k) as [s|] eqn:Es; [|discriminate]. injection Hl as <-. cbn [bind]. unfold zlen.
    rewrite (sl_len _ _ (Forall_nth _ _ _ _ (proj1 A) Es)). reflexivity.
Qed.

(** * Views *)

(** The end of the view is not behind the end of a collection with the same array. *)
Definition guarded (w : cmem) (v : slice) : Prop :=
  sl_ok (cm_heap w) v /\
  forall k s, nth_error (cm_cols w) k = Some s -> s_cap s <> 0%nat -> s_cap v <> 0%nat -> s_arr s = s_arr v ->
    (s_off v + s_len v <= s_off s + s_len s)%nat.

Lemma src_view w x m t v : guarded w v -> src_slice w x = Ok (m, t) ->
  (sl_ok m v /\ s_read m v = s_read (cm_heap w) v) /\ (length (cm_heap w) <= length m)%nat /\
  forall ps, x = Fresh ps -> s_arr t = length (cm_heap w).
Proof.
  intros [Hv _] E. destruct x as [ps|k]; cbn [src_slice] in E.
  - destruct (s_fresh (cm_heap w) ps) as [m0 s0] eqn:F. injection E as <- <-. apply fresh_ok in F. destruct F as (-> & A & B & C).
    split; [split; [apply sl_ok_grow; exact Hv|apply sl_read_grow; exact Hv]|]. split; [rewrite app_length; lia|]. intros _ _. exact C.
  - unfold data_view in E. destruct (nth_error (cm_cols w) k); cbn [bind] in E; [|discriminate]. injection E as <- <-.
    split; [split; [exact Hv|reflexivity]|]. split; [lia|]. discriminate.
Qed.
Lemma nth_add {A} (l : list A) x k y : nth_error (l ++ [x]) k = Some y -> nth_error l k = Some y \/ y = x.
Proof.
  intros H. destruct (Nat.lt_ge_cases k (length l)) as [L|L].
  - rewrite nth_error_app1 in H by exact L. left. exact H.
  - rewrite nth_error_app2 in H by exact L. right. destruct (k - length l)%nat as [|d]; [injection H as <-; reflexivity|destruct d; discriminate H].
Qed.
Lemma nth_set {A} (l : list A) j x k y : nth_error (set_nth l j x) k = Some y -> nth_error l k = Some y \/ y = x /\ k = j.
Proof.
  intros H. destruct (Nat.eq_dec k j) as [->|Hn]; [|rewrite nth_set_other in H by exact Hn; left; exact H].
  right. split; [|reflexivity]. destruct (nth_error l j) as [z|] eqn:E; [rewrite (nth_set_same _ _ _ _ E) in H; injection H as <-; reflexivity|].
  apply nth_error_None in E. assert (j < length (set_nth l j x))%nat by (apply nth_error_Some; congruence). rewrite set_nth_length in *. lia.
Qed.

Lemma appended_len m s xs m' s' : appended m s xs m' s' -> s_cap s' <> 0%nat -> s_len s' = (s_len s + length xs)%nat.
Proof. intros H C. destruct H as [Ho Hc| -> Hc Hl|a c Hc Ha Hf]; [reflexivity|congruence|reflexivity]. Qed.

Lemma view_call w cols o w' v : agrees w cols -> keeps_apart o -> (forall k sw, o <> OSort k sw) -> call w o = Ok w' ->
  guarded w v -> guarded w' v /\ s_read (cm_heap w') v = s_read (cm_heap w) v.
Proof.
  intros Ha Hk Hs Hc Hv. pose proof Hv as [Hv1 Hv2]. destruct o as [x| |objs|p x g|k p g|k x g|k sw|k x]; cbn [call keeps_apart] in *.
  - unfold new_contexts in Hc. destruct (src_slice w x) as [[m s]| |] eqn:Ex; cbn [bind] in Hc; try discriminate. injection Hc as <-.
    destruct (src_view _ _ _ _ _ Hv Ex) as ((O & R) & _ & F). destruct x as [ps|j]; [|contradiction].
    split; [|exact R]. split; [exact O|]. cbn [cm_heap cm_cols]. intros k t Et C C' Ea. destruct (nth_add _ _ _ _ Et) as [Et'| ->].
    + exact (Hv2 k t Et' C C' Ea).
    + pose proof (arr_lt _ _ Hv1 C'). rewrite (F ps eq_refl) in Ea. lia.
  - injection Hc as <-. split; [|reflexivity]. split; [exact Hv1|]. cbn [cm_heap cm_cols]. intros k t Et C C' Ea.
    destruct (nth_add _ _ _ _ Et) as [Et'| ->]; [exact (Hv2 k t Et' C C' Ea)|]. exfalso. apply C. reflexivity.
  - unfold from_objects in Hc. destruct (all_some objs) as [ps|] eqn:Ep; [|discriminate].
    pose proof (all_some_map _ _ Ep) as Em.
    set (m0 := cm_heap w ++ [repeat 0 (length objs)]) in Hc. set (s0 := Slice (length (cm_heap w)) 0 0 (length objs)) in Hc.
    assert (L0 : length objs = length ps) by (rewrite Em, map_length; reflexivity).
    destruct (append_each_ok ps m0 s0) as (A & B & C & D).
    { split; [unfold m0; rewrite app_length; cbn [length s_arr s0]; lia|]. cbn [s0 s_arr s_off s_len s_cap]. split; [lia|].
      unfold m0. rewrite app_nth2, Nat.sub_diag by lia. cbn [nth]. rewrite repeat_length. lia. }
    { cbn [s0 s_len s_cap]. lia. }
    destruct (append_each m0 s0 ps) as [m1 s1]. cbn [fst snd] in *. injection Hc as <-.
    destruct (A v) as [V1 V2]; [apply sl_ok_grow; exact Hv1|intros Z; cbn [s0 s_arr]; pose proof (arr_lt _ _ Hv1 Z); lia|].
    cbn [cm_heap cm_cols]. split; [|rewrite V2; apply sl_read_grow; exact Hv1].
    split; [exact V1|]. cbn [cm_heap cm_cols]. intros k t Et C1 C2 Ea. destruct (nth_add _ _ _ _ Et) as [Et'| ->]; [exact (Hv2 k t Et' C1 C2 Ea)|].
    pose proof (arr_lt _ _ Hv1 C2). rewrite D in Ea. cbn [s0 s_arr] in Ea. lia.
  - unfold as_contexts in Hc. destruct (src_slice w x) as [[m t]| |] eqn:Ex; cbn [bind] in Hc; try discriminate.
    destruct (src_view _ _ _ _ _ Hv Ex) as ((O & R) & Ln & _).
    destruct (s_fresh m [p]) as [m1 s1] eqn:Ef. apply fresh_ok in Ef. destruct Ef as (-> & O1 & R1 & A1).
    destruct (s_append g (m ++ [[p]]) s1 (s_read (m ++ [[p]]) t)) as [m2 s2] eqn:E2. injection Hc as <-.
    pose proof (s_append_cases _ _ _ _ _ _ O1 E2) as Hp.
    destruct (appended_other _ _ _ _ _ v O1 Hp (sl_ok_grow _ _ _ O)) as [V1 V2].
    { intros _ Z Ea. exfalso. pose proof (arr_lt _ _ O Z). lia. }
    cbn [cm_heap cm_cols]. split; [|rewrite V2, sl_read_grow by exact O; exact R].
    split; [exact V1|]. cbn [cm_heap cm_cols]. intros k u Eu C1 C2 Ea. destruct (nth_add _ _ _ _ Eu) as [Eu'| ->]; [exact (Hv2 k u Eu' C1 C2 Ea)|].
    pose proof (arr_lt _ _ Hv1 C2).
    destruct (appended_arr _ _ _ _ _ O1 Hp C1) as [(Q & _)|Q]; [lia|]. rewrite Q, app_length in Ea. cbn [length] in Ea. lia.
  - unfold push, data_view in Hc. destruct (nth_error (cm_cols w) k) as [s|] eqn:E; cbn [bind] in Hc; [|discriminate].
    destruct (s_append g (cm_heap w) s [p]) as [m' s'] eqn:Es. injection Hc as <-.
    pose proof (Forall_nth _ _ _ _ (proj1 (proj1 Ha)) E) as Hsk.
    pose proof (s_append_cases _ _ _ _ _ _ Hsk Es) as Hp.
    destruct (appended_other _ _ _ _ _ v Hsk Hp Hv1) as [V1 V2]; [exact (Hv2 k s E)|].
    cbn [cm_heap cm_cols]. split; [|exact V2]. split; [exact V1|]. cbn [cm_heap cm_cols].
    intros j u Eu C1 C2 Ea. destruct (nth_set _ _ _ _ _ Eu) as [Eu'|[-> ->]]; [exact (Hv2 j u Eu' C1 C2 Ea)|].
    rewrite (appended_len _ _ _ _ _ Hp C1). pose proof (arr_lt _ _ Hv1 C2).
    destruct (appended_arr _ _ _ _ _ Hsk Hp C1) as [(Q1 & Q2 & Q3)|Q]; [|lia].
    rewrite Q1 in Ea. specialize (Hv2 k s E Q3 C2 Ea). rewrite Q2. lia.
  - unfold extend in Hc. destruct (src_slice w x) as [[m t]| |] eqn:Ex; cbn [bind] in Hc; try discriminate.
    destruct (src_view _ _ _ _ _ Hv Ex) as ((O & R) & Ln & _). destruct (src_ok _ _ _ _ _ Ha Ex) as (_ & _ & A & _ & _).
    unfold data_view in Hc. destruct (nth_error (cm_cols w) k) as [s|] eqn:E; cbn [bind] in Hc; [|discriminate].
    destruct (s_append g m s (s_read m t)) as [m' s'] eqn:Es. injection Hc as <-.
    pose proof (Forall_nth _ _ _ _ (proj1 (proj1 A)) E) as Hsk. cbn [cm_heap] in Hsk.
    pose proof (s_append_cases _ _ _ _ _ _ Hsk Es) as Hp.
    destruct (appended_other _ _ _ _ _ v Hsk Hp O) as [V1 V2]; [exact (Hv2 k s E)|].
    cbn [cm_heap cm_cols]. split; [|congruence]. split; [exact V1|]. cbn [cm_heap cm_cols].
    intros j u Eu C1 C2 Ea. destruct (nth_set _ _ _ _ _ Eu) as [Eu'|[-> ->]]; [exact (Hv2 j u Eu' C1 C2 Ea)|].
    rewrite (appended_len _ _ _ _ _ Hp C1). pose proof (arr_lt _ _ Hv1 C2).
    destruct (appended_arr _ _ _ _ _ Hsk Hp C1) as [(Q1 & Q2 & Q3)|Q]; [|lia].
    rewrite Q1 in Ea. specialize (Hv2 k s E Q3 C2 Ea). rewrite Q2. lia.
  - exfalso. exact (Hs k sw eq_refl).
  - unfold set_data, data_view in Hc. destruct (nth_error (cm_cols w) k) as [s|] eqn:E; cbn [bind] in Hc; [|discriminate].
    destruct (src_slice w x) as [[m s']| |] eqn:Ex; cbn [bind] in Hc; try discriminate. injection Hc as <-.
    destruct (src_view _ _ _ _ _ Hv Ex) as ((O & R) & _ & F). destruct x as [ps|j]; [|contradiction].
    cbn [cm_heap cm_cols]. split; [|exact R]. split; [exact O|]. cbn [cm_heap cm_cols].
    intros j u Eu C1 C2 Ea. destruct (nth_set _ _ _ _ _ Eu) as [Eu'|[-> ->]]; [exact (Hv2 j u Eu' C1 C2 Ea)|].
    pose proof (arr_lt _ _ Hv1 C2). rewrite (F ps eq_refl) in Ea. lia.
Qed.

(** A view taken of a collection keeps showing what it showed, whatever is added to the collections,
    as long as nothing is sorted. *)
Theorem C81_views_stay fi h h' w w' k v : history fi (Cmem [] []) h w -> history fi w h' w' ->
  Forall keeps_apart h -> Forall keeps_apart h' -> (forall j sw, ~ In (OSort j sw) h') ->
  data_view w k = Ok v -> s_read (cm_heap w') v = s_read (cm_heap w) v.
Proof.
  intros H H' Hk Hk' Hs Hd. destruct (history_agrees _ _ _ _ H [] start_agrees Hk) as (cols & _ & Ha).
  assert (Hv : guarded w v).
  { unfold data_view in Hd. destruct (nth_error (cm_cols w) k) as [s|] eqn:E; [|discriminate]. injection Hd as ->.
    split; [exact (Forall_nth _ _ _ _ (proj1 (proj1 Ha)) E)|]. intros j s Es C C' Ea.
    assert (j = k) as -> by (apply (proj2 (proj1 Ha) _ _ _ _ Es E C C' Ea)). rewrite E in Es. injection Es as ->. lia. }
  clear Hd H Hk. revert cols Ha Hv. induction H' as [w|w o w1 h' w2 Hc Ho Hh IH]; intros cols Ha Hv; [reflexivity|].
  apply Forall_cons_iff in Hk'. destruct Hk' as [Hk1 Hk2].
  destruct (call_ok fi _ _ _ _ Ha Hk1 Hc Ho) as (c1 & _ & A1).
  destruct (view_call _ _ _ _ _ Ha Hk1 (fun j sw E => Hs j sw (or_introl E)) Hc Hv) as [V1 V2].
  rewrite (IH Hk2 (fun j sw E => Hs j sw (or_intror E)) c1 A1 V1). exact V2.
Qed.

(** * A program that meets the hypotheses, and one that does not *)

(** Two collections: literals, additions in place and with a new array, one extended by the view of the
    other, and a sort. *)
Definition sample_calls : list cop :=
  [ONew (Fresh [7; 3]); OZero; OPush 0 5 2; OPush 0 9 0; OExtend 1 (View 0) 1; OSort 0 [(0%nat, 1%nat); (1%nat, 2%nat)];
   OPush 1 4 0; OFromObjects [Some 1; Some 2]; OAsContexts 6 (View 2) 3; OSetData 2 (Fresh [8])].
Definition sample_mem : res cmem := fold_left (fun w o => w' <- w ;; call w' o) sample_calls (Ok (Cmem [] [])).

(** The field I of context [p] is [p]. *)
Example C81_case : exists w, history Some (Cmem [] []) sample_calls w /\ Forall keeps_apart sample_calls /\
  map (sees w) [0%nat; 1%nat; 2%nat; 3%nat] = [Some [3; 5; 7; 9]; Some [7; 3; 5; 9; 4]; Some [8]; Some [6; 1; 2]].
Proof.
  destruct sample_mem as [w| |] eqn:E; [|vm_compute in E; discriminate E..]. exists w.
  vm_compute in E. injection E as <-. split; [|split].
  - unfold sample_calls.
    repeat (eapply h_call; [vm_compute; reflexivity| |]); [..|apply h_done];
      intros k sw Ho; try discriminate Ho.
    injection Ho as <- _. intros i n En Hn. vm_compute in En. injection En as <-.
    destruct i as [|[|[|i]]]; [vm_compute; reflexivity..|lia].
  - repeat constructor.
  - vm_compute. reflexivity.
Qed.

(** Sharing a view through SetData: both collections go on in the same array, and what is pushed to
    one overwrites what was pushed to the other. *)
Theorem C81_shared_data_refuted : ~ (forall fi h w, history fi (Cmem [] []) h w ->
  exists cols, effects fi [] h cols /\ forall k, sees w k = nth_error cols k).
Proof.
  intros H.
  set (calls := [ONew (Fresh [1; 2]); OPush 0 3 1; OZero; OSetData 1 (View 0); OPush 0 4 0; OPush 1 5 0]).
  destruct (fold_left (fun w o => w' <- w ;; call w' o) calls (Ok (Cmem [] []))) as [w| |] eqn:E; [|vm_compute in E; discriminate E..].
  assert (Hh : history Some (Cmem [] []) calls w).
  { vm_compute in E. injection E as <-. unfold calls. repeat (eapply h_call; [vm_compute; reflexivity| |]); [..|apply h_done];
      intros k sw Ho; discriminate Ho. }
  destruct (H _ _ _ Hh) as (cols & He & Hs). specialize (Hs 0%nat).
  assert (L : sees w 0 = Some [1; 2; 3; 5]) by (vm_compute in E; injection E as <-; reflexivity). rewrite L in Hs. clear L E.
  assert (Hn : nth_error cols 0 = Some [1; 2; 3; 4]); [|congruence]. clear Hs Hh H w.
  unfold calls in He. inversion He as [|? ? c1 ? ? E1 F1]; subst. clear He. destruct E1 as (l1 & S1 & ->). injection S1 as <-.
  inversion F1 as [|? ? c2 ? ? E2 F2]; subst. clear F1. destruct E2 as (l2 & a & b & Ea & -> & La). destruct a; [|discriminate La]. injection Ea as <- <-. clear La.
  inversion F2 as [|? ? c3 ? ? E3 F3]; subst. clear F2. cbn [effect] in E3. subst c3.
  inversion F3 as [|? ? c4 ? ? E4 F4]; subst. clear F3. destruct E4 as (l4 & y4 & S4 & a & b & Ea & -> & La).
  destruct a as [|x [|? ?]]; [discriminate La| |discriminate La]. injection Ea as <- <- <-. clear La. injection S4 as <-.
  inversion F4 as [|? ? c5 ? ? E5 F5]; subst. clear F4. destruct E5 as (l5 & a & b & Ea & -> & La). destruct a; [|discriminate La]. injection Ea as <- <-. clear La.
  inversion F5 as [|? ? c6 ? ? E6 F6]; subst. clear F5. destruct E6 as (l6 & a & b & Ea & -> & La).
  destruct a as [|x [|? ?]]; [discriminate La| |discriminate La]. injection Ea as <- <- <-. clear La.
  inversion F6; subst. reflexivity.
Qed.

(** * Kinds *)

(** The six questions about the kind of a context, in the order of ctx/ctx.go:9-16. *)
Definition kinds {G} (o : ctxg G) : list bool :=
  [is_self o; is_planar_vertex o; is_non_planar_vertex o; is_planar_segment o; is_linear_simple o; is_context_neighbour o].

(** A context is of exactly one kind: the one it was last made; a new one is of kind self and holds what it was given.  Nothing else changes. *)
Theorem C81_one_kind {G} (o : ctxg G) (g : G) i j :
  kinds (cg_new g i j) = [true; false; false; false; false; false] /\
  (cg_geom (cg_new g i j) = g /\ cg_i (cg_new g i j) = i /\ cg_j (cg_new g i j) = j /\
   cg_planar (cg_new g i j) = [] /\ cg_non_planar (cg_new g i j) = []) /\
  kinds (as_self o) = [true; false; false; false; false; false] /\
  kinds (as_planar_vertex o) = [false; true; false; false; false; false] /\
  kinds (as_non_planar_vertex o) = [false; false; true; false; false; false] /\
  kinds (as_planar_segment o) = [false; false; false; true; false; false] /\
  kinds (as_linear_simple o) = [false; false; false; false; true; false] /\
  kinds (as_context_neighbour o) = [false; false; false; false; false; true] /\
  Forall (fun f => cg_geom (f o) = cg_geom o /\ cg_i (f o) = cg_i o /\ cg_j (f o) = cg_j o /\
                   cg_planar (f o) = cg_planar o /\ cg_non_planar (f o) = cg_non_planar o)
    [as_self; as_planar_vertex; as_non_planar_vertex; as_planar_segment; as_linear_simple; as_context_neighbour].
Proof. split; [reflexivity|]. split; [auto|]. do 6 (split; [reflexivity|]). repeat constructor. Qed.

Print Assumptions C81_collections_are_lists.
Print Assumptions C81_views_stay.
Print Assumptions C81_shared_data_refuted.
Print Assumptions C81_one_kind.
