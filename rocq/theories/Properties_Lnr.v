(** Properties of package lnr (C17, C18, C19). *)
From Verif Require Import M_Base M_Float M_Rng M_Geom M_Lnr Spec Spec_Hdb Spec_Lnr
  P_Base P_Float P_Lnr Toy.
From Coq Require Import Sorted.
Open Scope Z_scope.

(** C17 (part).  For every feature the finder lists, once each, exactly its vertices
    that coincide with another vertex of the class and do not lie at the
    lexicographically greatest location of the class.  Missing from the English claim:
    the vertices at the greatest location (see the refutation below).
    [srt] is Go's sort with the given order; Equals2D is assumed to be exact equality on
    the points of the class (it has a tolerance in the external library). *)
Theorem C17_junctions_partial :
  forall (L : geomlib) (srt : list vertex -> list vertex) (fc : list (Z * list point)),
  sorts srt ->
  NoDup (map fst fc) ->
  Forall num_pt (class_points fc) ->
  (forall p q, In p (class_points fc) -> In q (class_points fc) -> gl_eq2d L p q = loc_eq p q) ->
  forall fid,
    NoDup (fc_junctions L srt fc fid) /\
    forall k, In k (fc_junctions L srt fc fid) <->
      exists p, vertex_at fc fid k p /\ shared_vertex fc fid k p /\
                not_greatest (class_points fc) p.
Proof. intros; apply junctions_spec; auto. Qed.

(** A merge-free executable sort for the examples: insertion sort. *)
Fixpoint v_insert (v : vertex) (l : list vertex) : list vertex :=
  match l with
  | [] => [v]
  | u :: r => if v_less u v then u :: v_insert v r else v :: l
  end.
Definition v_sort (l : list vertex) : list vertex := fold_right v_insert [] l.

Lemma v_insert_perm v l : Permutation (v :: l) (v_insert v l).
Proof.
  induction l as [|u r IH]; cbn; auto. destruct (v_less u v); auto.
  eapply perm_trans; [apply perm_swap|]. constructor; auto.
Qed.
Lemma v_insert_sorted v l : num_pt (v_pt v) -> Forall (fun v => num_pt (v_pt v)) l ->
  StronglySorted (fun a b => loc_lt (v_pt b) (v_pt a) = false) l ->
  StronglySorted (fun a b => loc_lt (v_pt b) (v_pt a) = false) (v_insert v l).
Proof.
  intros Hv; induction l as [|u r IH]; intros Hl Hs; cbn; [repeat constructor|].
  inversion Hs; inversion Hl; subst. destruct (v_less u v) eqn:E.
  - constructor; auto. apply Forall_forall. intros w Hw.
    apply (Permutation_in _ (Permutation_sym (v_insert_perm v r))) in Hw.
    destruct Hw as [<- |Hw].
    + destruct (loc_lt (v_pt v) (v_pt u)) eqn:K; auto.
      pose proof (loc_lt_trans _ _ _ K E) as C. rewrite loc_lt_irrefl in C; discriminate.
    + rewrite Forall_forall in H2; auto.
  - constructor; [constructor; auto|]. constructor; [exact E|].
    apply Forall_forall. intros w Hw. rewrite Forall_forall in H2, H6.
    destruct (loc_lt (v_pt w) (v_pt v)) eqn:K; auto.
    specialize (H2 _ Hw). specialize (H6 _ Hw).
    destruct (loc_tri (v_pt u) (v_pt v) H5 Hv) as [C|[C|C]].
    + rewrite v_less_lt in E. unfold vlt in E; congruence.
    + rewrite (loc_lt_eq_trans _ _ _ K (loc_eq_sym _ _ C)) in H2; discriminate.
    + rewrite (loc_lt_trans _ _ _ K C) in H2; discriminate.
Qed.
Lemma v_sort_sorts : sorts v_sort.
Proof.
  intros l Hl. assert (P : forall m, Permutation m (v_sort m)).
  { induction m as [|v r IH]; cbn; auto.
    eapply perm_trans; [constructor; exact IH|apply v_insert_perm]. }
  split; auto. induction l as [|v r IH]; cbn; [constructor|]. inversion Hl; subst.
  apply v_insert_sorted; auto. eapply Permutation_Forall; [apply P|auto].
Qed.

(** Three lines meeting at (5,0) and (9,9): the first location is reported, the second,
    the greatest of the class, is not. *)
Definition fc_ex : list (Z * list point) :=
  [(1, [P2 0 0; P2 5 0; P2 9 9]); (2, [P2 3 3; P2 5 0; P2 4 1]); (3, [P2 1 0; P2 9 9])].

Example C17_case :
  sorts v_sort /\ (forall p q, gl_eq2d toy p q = loc_eq p q) /\
  fc_junctions toy v_sort fc_ex 1 = [1] /\ fc_junctions toy v_sort fc_ex 2 = [1] /\
  fc_junctions toy v_sort fc_ex 3 = [].
Proof. split; [exact v_sort_sorts|]. vm_compute. auto. Qed.

(** C17 as stated is false: vertex 2 of line 1 and vertex 1 of line 3 coincide and are
    not reported, however the sort orders equal vertices. *)
Theorem C17_junctions_refuted :
  vertex_at fc_ex 1 2 (P2 9 9) /\ shared_vertex fc_ex 1 2 (P2 9 9) /\
  NoDup (map fst fc_ex) /\ Forall num_pt (class_points fc_ex) /\
  forall L srt, sorts srt ->
    (forall p q, In p (class_points fc_ex) -> In q (class_points fc_ex) ->
       gl_eq2d L p q = loc_eq p q) ->
    ~ In 2 (fc_junctions L srt fc_ex 1).
Proof.
  assert (V : vertex_at fc_ex 1 2 (P2 9 9)).
  { exists [P2 0 0; P2 5 0; P2 9 9]. split; [cbn; auto|reflexivity]. }
  assert (N : NoDup (map fst fc_ex)).
  { repeat constructor; cbn; intuition discriminate. }
  assert (F : Forall num_pt (class_points fc_ex)).
  { unfold class_points; cbn [flat_map snd fc_ex app].
    repeat (constructor; [split; vm_compute; reflexivity|]). constructor. }
  split; [exact V|]. split; [|split; [exact N|split; [exact F|]]].
  - exists 3, 1, (P2 9 9). split; [discriminate|]. split; [|vm_compute; reflexivity].
    exists [P2 1 0; P2 9 9]. split; [cbn; auto|reflexivity].
  - intros L srt Hs He Hin. apply (junctions_spec L srt Hs fc_ex N F He) in Hin.
    destruct Hin as [p [[pts [Hp E]] [_ [q [Hq Hlt]]]]].
    assert (p = P2 9 9).
    { unfold fc_ex in Hp. cbn [In] in Hp. destruct Hp as [Hp|[Hp|[Hp|[]]]]; try discriminate.
      injection Hp as <-. vm_compute in E. injection E as <-. reflexivity. }
    subst p. unfold class_points in Hq. cbn [flat_map snd fc_ex app In] in Hq.
    repeat (destruct Hq as [<- |Hq]; [vm_compute in Hlt; discriminate|]). exact Hq.
Qed.

(** C18 (part).  Contexts are at pairwise different locations; each lists, in increasing
    order, exactly the vertices at its location, at least two; and a vertex is listed in
    some context exactly when another vertex coincides with it and it is not at the
    greatest location.  Missing: the greatest location. *)
Theorem C18_planar_self_partial :
  forall (L : geomlib) (srt : list vertex -> list vertex) (pts : list point),
  sorts srt ->
  Forall num_pt pts ->
  (forall p q, In p pts -> In q pts -> gl_eq2d L p q = loc_eq p q) ->
  let out := planar_intersects L srt pts in
  Forall (fun c => In (fst c) pts /\ increasing (snd c) /\ (2 <= length (snd c))%nat /\
            (forall k, In k (snd c) <->
               exists q, znth pts k = Some q /\ loc_eq (fst c) q = true)) out /\
  ForallOrdPairs (fun c d => loc_eq (fst c) (fst d) = false) out /\
  (forall k p, znth pts k = Some p ->
     ((exists c, In c out /\ In k (snd c)) <->
      (exists k' q, k' <> k /\ znth pts k' = Some q /\ loc_eq p q = true) /\
      not_greatest pts p)).
Proof.
  intros L srt pts Hs Hn He out.
  destruct (planar_spec L srt Hs pts Hn He) as [H1 [H2 H3]].
  split; [exact H1|]. split; [|exact H3].
  fold out in H2. clear - H2. induction out as [|c r IH]; [constructor|].
  inversion H2; subst. constructor; auto. eapply Forall_impl; [|exact H3].
  cbn. intros; apply loc_lt_not_eq; auto.
Qed.

Definition eight : list point := [P2 0 0; P2 2 2; P2 4 0; P2 2 2; P2 0 4; P2 9 9; P2 0 0; P2 9 9].
Example C18_case :
  planar_intersects toy v_sort eight = [(P2 0 0, [0; 6]); (P2 2 2, [1; 3])].
Proof. vm_compute. reflexivity. Qed.

(** C18 as stated is false: vertices 5 and 7 of the line above coincide. *)
Theorem C18_planar_self_refuted :
  znth eight 5 = Some (P2 9 9) /\ znth eight 7 = Some (P2 9 9) /\ Forall num_pt eight /\
  forall L srt, sorts srt ->
    (forall p q, In p eight -> In q eight -> gl_eq2d L p q = loc_eq p q) ->
    forall c, In c (planar_intersects L srt eight) -> ~ In 5 (snd c) /\ ~ In 7 (snd c).
Proof.
  assert (F : Forall num_pt eight).
  { unfold eight. repeat (constructor; [split; vm_compute; reflexivity|]). constructor. }
  split; [reflexivity|]. split; [reflexivity|]. split; [exact F|].
  intros L srt Hs He c Hc.
  destruct (planar_spec L srt Hs eight F He) as [_ [_ H3]].
  assert (G : ~ not_greatest eight (P2 9 9)).
  { intros [q [Hq Hlt]]. unfold eight in Hq. cbn [In] in Hq.
    repeat (destruct Hq as [<- |Hq]; [vm_compute in Hlt; discriminate|]). exact Hq. }
  split; intros K; apply G.
  - apply (H3 5 (P2 9 9) eq_refl). eauto.
  - apply (H3 7 (P2 9 9) eq_refl). eauto.
Qed.

(** C19.  [near s] is the answer of the segment index for the box of segment s. *)
Theorem C19_pairs_once :
  forall (near : Z -> list Z) (pts : list point),
  finds_segments near pts ->
  let ps := examined_pairs near pts in
  (forall s o, In (s, o) ps ->
     is_segment pts s /\ is_segment pts o /\ s <> o /\
     boxes_meet (seg_box pts s) (seg_box pts o) = true) /\
  (forall s o, is_segment pts s -> is_segment pts o -> s <> o ->
     boxes_meet (seg_box pts s) (seg_box pts o) = true -> In (s, o) ps \/ In (o, s) ps) /\
  ForallOrdPairs (fun a b => ~ same_pair a b) ps.
Proof.
  intros near pts Hn. unfold examined_pairs.
  destruct (pairs_outer_spec near (zseq 0 (zlen pts - 2)) [] []) as [H1 [[ad [H2 H3]] H4]].
  { split; [constructor|cbn; tauto]. }
  cbv zeta. cbn [app] in H2. rewrite H2 in *. repeat split.
  - destruct (H3 _ H) as [K _]. cbn in K. apply zseq_in in K. unfold is_segment; lia.
  - destruct (H3 _ H) as [K _]. cbn in K. apply zseq_in in K. unfold is_segment; lia.
  - destruct (H3 _ H) as [K [_ K2]]. cbn in *. apply zseq_in in K.
    apply Hn in K2; [|unfold is_segment; lia]. destruct K2 as [K2 _]. unfold is_segment in K2; lia.
  - destruct (H3 _ H) as [K [_ K2]]. cbn in *. apply zseq_in in K.
    apply Hn in K2; [|unfold is_segment; lia]. destruct K2 as [K2 _]. unfold is_segment in K2; lia.
  - destruct (H3 _ H) as [_ [K _]]. cbn in K. congruence.
  - destruct (H3 _ H) as [K [_ K2]]. cbn in *. apply zseq_in in K.
    apply Hn in K2; [|unfold is_segment; lia]. tauto.
  - intros s o Hs Ho Hne Hm.
    assert (K : In (cache_key s o) (map ckey ad)).
    { apply H4; auto. apply zseq_in; unfold is_segment in Hs; lia. apply Hn; auto. }
    apply in_map_iff in K. destruct K as [[a b] [E Hab]]. unfold ckey in E; cbn in E.
    apply cache_key_inj in E. destruct E as [E|E]; cbn in E; injection E as -> ->; auto.
  - clear - H1. induction ad as [|a r IH]; [constructor|]. cbn in H1. inversion H1; subst.
    constructor; auto. apply Forall_forall. intros b Hb E. apply H2.
    apply in_map_iff. exists b. split; auto. unfold ckey.
    destruct a, b; cbn. symmetry. apply cache_key_inj; auto.
Qed.

(** The pair cache distinguishes two pairs exactly when they are different. *)
Theorem C19_cache_key :
  forall s o s' o', cache_key s o = cache_key s' o' <-> same_pair (s, o) (s', o').
Proof. exact cache_key_inj. Qed.

(** Hence every intersection point of two different segments that is not a vertex of
    both is reported, with the ends of the two segments. *)
Theorem C19_crossings_reported :
  forall (segx : point -> point -> point -> point -> list interpoint)
         (near : Z -> list Z) (pts : list point),
  finds_segments near pts ->
  (forall a b c d, Permutation (segx a b c d) (segx c d a b)) ->
  forall s o ip, is_segment pts s -> is_segment pts o -> s <> o ->
  boxes_meet (seg_box pts s) (seg_box pts o) = true ->
  let at_ i := nth (Z.to_nat i) pts origin in
  In ip (segx (at_ s) (at_ (s + 1)) (at_ o) (at_ (o + 1))) ->
  ip_vertex ip = false \/ ip_xor ip = true ->
  exists ks, In (ip_pt ip, ks) (non_planar_intersects segx near pts) /\ increasing ks /\
    forall k, In k ks <-> k = s \/ k = s + 1 \/ k = o \/ k = o + 1.
Proof.
  intros segx near pts Hn Hsym s o ip Hs Ho Hne Hm at_ Hip Hv.
  destruct (C19_pairs_once near pts Hn) as [_ [H2 _]].
  assert (Hf : negb (ip_vertex ip && negb (ip_xor ip)) = true).
  { destruct Hv as [-> | ->]; cbn; auto. rewrite andb_false_r; auto. }
  destruct (H2 s o Hs Ho Hne Hm) as [Hin|Hin].
  - exists (zset [s; s + 1; o; o + 1]). split; [|split].
    + unfold non_planar_intersects. apply in_flat_map. exists (s, o). split; auto.
      apply in_map_iff. exists ip. split; auto. apply filter_In; auto.
    + apply zset_incr.
    + intros k. rewrite zset_in. cbn. intuition.
  - exists (zset [o; o + 1; s; s + 1]). split; [|split].
    + unfold non_planar_intersects. apply in_flat_map. exists (o, s). split; auto.
      apply in_map_iff. exists ip. split; auto. apply filter_In. split; auto.
      eapply Permutation_in; [apply Hsym|exact Hip].
    + apply zset_incr.
    + intros k. rewrite zset_in. cbn. intuition.
Qed.

(** A self-crossing line: the three segments' boxes meet pairwise; three pairs. *)
Definition bow : list point := [P2 0 0; P2 4 4; P2 4 0; P2 0 4].
Definition all_near (s : Z) : list Z := [0; 1; 2].
Example C19_case :
  examined_pairs all_near bow = [(0, 1); (0, 2); (1, 2)] /\ finds_segments all_near bow.
Proof.
  split; [vm_compute; reflexivity|].
  intros s o Hs. unfold is_segment in *. change (zlen bow - 2) with 2 in *.
  assert (Es : s = 0 \/ s = 1 \/ s = 2) by lia. split.
  - cbn. intros [<- |[<- |[<- |[]]]]; (split; [lia|]);
      destruct Es as [-> |[-> | ->]]; vm_compute; auto.
  - intros [Ho _]. cbn. lia.
Qed.

(** Self-intersections asked for with the two flags: every reported location is one that
    was asked for - a location where vertices coincide (planar) or a crossing of two
    segments (non-planar) -, every crossing is reported when asked for, and every coinciding
    vertex, except at the greatest location, is listed when asked for. *)
Theorem C19_flags_select :
  forall (L : geomlib) (srt : list vertex -> list vertex) segx (near : Z -> list Z)
         (planar non_planar : bool) (pts : list point),
  sorts srt -> Forall num_pt pts ->
  (forall p q, In p pts -> In q pts -> gl_eq2d L p q = loc_eq p q) ->
  finds_segments near pts -> segx_sym segx ->
  let out := self_intersection L srt segx near planar non_planar pts in
  (forall c, In c out ->
     planar = true /\ repeated_location pts c /\ not_greatest pts (fst c) \/
     non_planar = true /\ crossing_location segx pts c) /\
  (planar = true -> forall k p k' q, znth pts k = Some p -> znth pts k' = Some q -> k' <> k ->
     loc_eq p q = true -> not_greatest pts p ->
     exists c, In c out /\ repeated_location pts c /\ loc_eq (fst c) p = true /\ In k (snd c)) /\
  (non_planar = true -> forall s o p, segments_cross segx pts s o p ->
     exists ks, In (p, ks) out /\ StronglySorted Z.lt ks /\
       forall k, In k ks <-> k = s \/ k = s + 1 \/ k = o \/ k = o + 1).
Proof.
  intros L srt segx near planar non_planar pts Hs Hn He Hf Hsym out.
  destruct (C18_planar_self_partial L srt pts Hs Hn He) as (P1 & _ & P3). rewrite Forall_forall in P1.
  destruct (C19_pairs_once near pts Hf) as (Q1 & _ & _).
  split; [|split].
  - intros c Hc. unfold out, self_intersection in Hc. apply in_app_or in Hc. destruct Hc as [Hc|Hc].
    + left. destruct planar; [|destruct Hc]. split; [reflexivity|]. pose proof (P1 c Hc) as R. split; [exact R|].
      destruct R as (R1 & R2 & R3 & R4). destruct (snd c) as [|k l] eqn:Es; [cbn in R3; lia|].
      assert (Hk : In k (snd c)) by (rewrite Es; left; reflexivity).
      destruct (proj1 (R4 k) ltac:(left; reflexivity)) as (q & Hq & Hl).
      destruct (proj1 (P3 k q Hq)) as (_ & g & Hg & Hlt); [exists c; split; [exact Hc|exact Hk]|].
      exists g. split; [exact Hg|]. eapply loc_eq_lt_trans; eauto.
    + right. destruct non_planar; [|destruct Hc]. split; [reflexivity|].
      unfold non_planar_intersects in Hc. apply in_flat_map in Hc. destruct Hc as ((s & o) & Hso & Hc).
      apply in_map_iff in Hc. destruct Hc as (ip & <- & Hip). apply filter_In in Hip. destruct Hip as [Hip Hv].
      destruct (Q1 s o Hso) as (A & B & C & D). exists s, o. split; [|split].
      * repeat split; try (apply A || apply B); auto. exists ip. split; [exact Hip|]. split; [reflexivity|].
        destruct (ip_vertex ip), (ip_xor ip); auto.
      * apply zset_incr.
      * cbn [snd]. intros k. rewrite zset_in. cbn. intuition.
  - intros -> k p k' q Hk Hk' Hne Hl Hg.
    destruct (proj2 (P3 k p Hk)) as (c & Hc & Hin); [split; [exists k', q; auto|exact Hg]|].
    exists c. split; [apply in_or_app; left; exact Hc|]. pose proof (P1 c Hc) as R. split; [exact R|].
    split; [|exact Hin]. destruct R as (_ & _ & _ & R4). apply R4 in Hin. destruct Hin as (q' & E & Hl').
    rewrite Hk in E. injection E as <-. exact Hl'.
  - intros -> s o p (A & B & C & D & ip & Hip & Ep & Hv).
    destruct (C19_crossings_reported segx near pts Hf Hsym s o ip A B C D Hip Hv) as (ks & K1 & K2 & K3).
    exists ks. rewrite <- Ep. split; [apply in_or_app; right; exact K1|]. auto.
Qed.

(** The self-crossing line below with an intersection routine that knows the crossing of its
    diagonals: each flag reports its own kind of location. *)
Definition bow_segx (a b c d : point) : list interpoint :=
  if gl_eq2d toy a (P2 0 0) && gl_eq2d toy c (P2 4 0) || gl_eq2d toy a (P2 4 0) && gl_eq2d toy c (P2 0 0)
  then [InterPoint (P2 2 2) false false] else [].
Example C19_flags_case :
  segx_sym bow_segx /\
  self_intersection toy v_sort bow_segx all_near false true bow = [(P2 2 2, [0; 1; 2; 3])] /\
  self_intersection toy v_sort bow_segx all_near true false bow = [] /\
  self_intersection toy v_sort bow_segx (fun _ => []) true false eight = [(P2 0 0, [0; 6]); (P2 2 2, [1; 3])] /\
  self_intersection toy v_sort bow_segx all_near false false bow = [].
Proof.
  split; [|vm_compute; auto]. intros a b c d. unfold bow_segx. rewrite orb_comm.
  rewrite (andb_comm (gl_eq2d toy a (P2 0 0))), (andb_comm (gl_eq2d toy a (P2 4 0))). reflexivity.
Qed.

Print Assumptions C19_flags_select.
Print Assumptions C17_junctions_partial.
Print Assumptions C17_junctions_refuted.
Print Assumptions C18_planar_self_partial.
Print Assumptions C18_planar_self_refuted.
Print Assumptions C19_pairs_once.
Print Assumptions C19_cache_key.
Print Assumptions C19_crossings_reported.
