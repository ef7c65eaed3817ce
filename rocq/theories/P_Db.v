(** The spatial index as a bag of hulls, for the proofs about its users. *)
From Verif Require Import M_Base M_Float M_Rng M_Geom M_Node M_Hdb M_Knn Spec Spec_Hdb
  P_Base P_Float P_Hdb P_HdbIns P_HdbLoad P_HdbQuery P_Tame P_Knn P_HdbHist.
From Coq Require Import Sorted.
Open Scope Z_scope.

(** ** Nearest-neighbour queries without geometric assumptions *)

Record pop_bag (pop : popfn) : Prop := {
  pb_nil : forall q, pop q = None -> q = [];
  pb_perm : forall q x r, pop q = Some (x, r) -> Permutation q (x :: r)
}.
Lemma pop_ok_bag below pop : pop_ok below pop -> pop_bag pop.
Proof. intros [A B C]. split; auto. Qed.

Section KnnSub.
  Variable pop : popfn.
  Hypothesis Hpop : pop_bag pop.
  Variable P : f64 -> Prop.
  Variable M : nat.
  Variable score : dbnode -> f64.
  Variable dist : f64.

  Definition entry_sub (k : kobj) : Prop := (exists it, k_nd k = new_leaf it) \/ sub_ok P M (k_nd k).

  Definition sub_inv (all0 : list node) (queue : list kobj) (result : list node) : Prop :=
    Forall entry_sub queue /\ exists rest, Permutation all0 (result ++ flat_map entry_items queue ++ rest).
  Definition sub_post (all0 result : list node) : Prop := exists rest, Permutation all0 (result ++ rest).

  Lemma sub_inv_perm all0 q q' r : Permutation q q' -> sub_inv all0 q r -> sub_inv all0 q' r.
  Proof.
    intros Hp [A [rest B]]. split; [eapply Permutation_Forall; eauto|]. exists rest. rewrite B.
    apply Permutation_app_head, Permutation_app_tail, flat_map_perm, Hp.
  Qed.
  Lemma sub_inv_post all0 q r : sub_inv all0 q r -> sub_post all0 r.
  Proof. intros [_ [rest B]]. exists (flat_map entry_items q ++ rest). exact B. Qed.

  Lemma sizes_perm l l' : Permutation l l' -> (sizes_sum (map k_nd l) = sizes_sum (map k_nd l'))%nat.
  Proof.
    intros Hp. apply (Permutation_map k_nd) in Hp. revert Hp. generalize (map k_nd l), (map k_nd l').
    induction 1; rewrite ?sizes_sum_cons in *; try lia; reflexivity.
  Qed.

  Lemma drain_sub all0 fuel : forall queue result,
    sub_inv all0 queue result -> (length queue < fuel)%nat ->
    exists fin queue' result',
      knn_drain pop (predicate_fn dist) (-1) fuel queue result = Ok (fin, queue', result') /\
      (fin = true -> sub_post all0 result') /\
      (fin = false -> sub_inv all0 queue' result' /\ sizes_sum (map k_nd queue') <= sizes_sum (map k_nd queue) /\
         forall k r, pop queue' = Some (k, r) -> k_item k = false)%nat.
  Proof.
    induction fuel as [|f IH]; intros queue result Hk Hf; [lia|].
    cbn [knn_drain]. destruct (pop queue) as [[c queue']|] eqn:Ep.
    - destruct (k_item c) eqn:Ei.
      + pose proof (pb_perm _ Hpop _ _ _ Ep) as Hp.
        pose proof (sub_inv_perm _ _ _ _ Hp Hk) as [A [rest B]].
        inversion A as [|? ? Ac Aq]; subst.
        assert (Hit : exists it, k_nd c = new_leaf it).
        { destruct Ac as [H|H]; [exact H|]. destruct c as [d s]; cbn [k_nd] in *.
          rewrite (sub_ok_not_item P M d s H) in Ei; discriminate. }
        destruct Hit as [it Hit].
        assert (Ee : entry_items c = [it]) by (unfold entry_items; rewrite Ei, Hit; reflexivity).
        cbn [flat_map] in B. rewrite Ee in B. cbn [app] in B.
        unfold predicate_fn at 1. rewrite Hit. cbn [item_of new_leaf db_item].
        assert (Hl : (length queue' < f)%nat) by (apply Permutation_length in Hp; cbn in Hp; lia).
        assert (Hs : (sizes_sum (map k_nd queue') <= sizes_sum (map k_nd queue))%nat).
        { rewrite (sizes_perm _ _ Hp). cbn [map]. rewrite sizes_sum_cons. lia. }
        destruct (fle (k_dist c) dist).
        * replace (negb (-1 =? 0) && (zlen (result ++ [it]) =? -1)) with false.
          2: { symmetry. apply andb_false_iff; right. apply Z.eqb_neq. unfold zlen; lia. }
          destruct (IH queue' (result ++ [it])) as (fin & q2 & r2 & X & Y & W); auto.
          { split; [exact Aq|]. exists rest. rewrite B, <- app_assoc. reflexivity. }
          exists fin, q2, r2. split; [exact X|]. split; [exact Y|]. intros Hfin.
          destruct (W Hfin) as (W1 & W2 & W3). split; [exact W1|]. split; [lia|exact W3].
        * exists true, queue', result. split; [reflexivity|]. split; [|discriminate]. intros _.
          eexists. exact B.
      + exists false, queue, result. split; [reflexivity|]. split; [discriminate|]. intros _.
        split; [exact Hk|]. split; [lia|]. intros k r Eq. rewrite Ep in Eq. injection Eq as <- <-. exact Ei.
    - exists false, queue, result. split; [reflexivity|]. split; [discriminate|]. intros _.
      split; [exact Hk|]. split; [lia|]. intros k r Eq. rewrite Ep in Eq. discriminate.
  Qed.

  Lemma push_sub all0 nd queue result :
    sub_ok P M nd -> Forall entry_sub queue ->
    (exists rest, Permutation all0 (result ++ (contents nd ++ flat_map entry_items queue) ++ rest)) ->
    sub_inv all0 (queue ++ map (fun c => KObj c (score c)) (db_children nd)) result.
  Proof.
    intros Hnd Hq [rest Hp].
    assert (Hc : forall c, In c (db_children nd) -> entry_sub (KObj c (score c))).
    { intros c Hc. unfold entry_sub; cbn [k_nd]. destruct (db_leaf nd) eqn:El.
      - destruct (sub_ok_leaf P M nd Hnd El) as [_ H]. destruct (H c Hc) as (it & Ec & Hi). left; exists it; exact Ec.
      - destruct (sub_ok_children P M nd Hnd El) as [H Hcc]. right; apply H, Hc. }
    assert (Hcont : flat_map entry_items (map (fun c => KObj c (score c)) (db_children nd)) = contents nd).
    { destruct (db_leaf nd) eqn:El.
      - destruct (sub_ok_leaf P M nd Hnd El) as [-> H]. clear - H.
        induction (db_children nd) as [|c l IH]; [reflexivity|]. cbn [map flat_map].
        rewrite IH by (intros; apply H; right; auto).
        destruct (H c (or_introl eq_refl)) as (it & -> & _). reflexivity.
      - destruct (sub_ok_children P M nd Hnd El) as [H ->]. clear - H.
        induction (db_children nd) as [|c l IH]; [reflexivity|]. cbn [map flat_map].
        rewrite IH by (intros; apply H; right; auto). f_equal.
        unfold entry_items. rewrite (sub_ok_not_item P M); [reflexivity|]. apply H; left; auto. }
    split.
    - apply Forall_app; split; [exact Hq|]. apply Forall_forall. intros k Hk.
      apply in_map_iff in Hk; destruct Hk as (c & <- & Hk). auto.
    - exists rest. rewrite flat_map_app, Hcont, Hp.
      apply Permutation_app_head, Permutation_app_tail, Permutation_app_comm.
  Qed.

  Lemma knn_loop_sub all0 fuel : forall nd queue result,
    sub_ok P M nd -> Forall entry_sub queue ->
    (exists rest, Permutation all0 (result ++ (contents nd ++ flat_map entry_items queue) ++ rest)) ->
    (sizes_sum (nd :: map k_nd queue) <= fuel)%nat ->
    exists r, knn_loop pop score (predicate_fn dist) (-1) fuel nd queue result = Ok r /\ sub_post all0 r.
  Proof.
    induction fuel as [|f IH]; intros nd queue result Hnd Hq Hp Hf.
    - rewrite sizes_sum_cons, db_size_eq in Hf; lia.
    - cbn [knn_loop].
      pose proof (push_sub all0 nd queue result Hnd Hq Hp) as Hk.
      set (q1 := queue ++ map (fun c => KObj c (score c)) (db_children nd)) in *.
      destruct (drain_sub all0 (S (length q1)) q1 result Hk (Nat.lt_succ_diag_r _))
        as (fin & q2 & r2 & -> & X & Y).
      cbn [bind]. destruct fin; [eauto|].
      destruct (Y eq_refl) as (K & S1 & Z1).
      assert (Hs1 : (sizes_sum (map k_nd q1) <= f)%nat).
      { unfold q1. rewrite map_app, sizes_sum_app, map_map. cbn [k_nd].
        rewrite map_id. rewrite sizes_sum_cons, db_size_eq in Hf. lia. }
      destruct (pop q2) as [[k q3]|] eqn:Ep.
      + pose proof (pb_perm _ Hpop _ _ _ Ep) as Hpp.
        pose proof (sub_inv_perm _ _ _ _ Hpp K) as [A [rest B]].
        inversion A as [|? ? Ak Aq]; subst.
        assert (Ei : k_item k = false) by (eapply Z1; reflexivity).
        assert (Hsub : sub_ok P M (k_nd k)).
        { destruct Ak as [(it & Hit)|H]; [|exact H]. unfold k_item in Ei; rewrite Hit in Ei; discriminate. }
        assert (Ee : entry_items k = contents (k_nd k)) by (unfold entry_items; rewrite Ei; reflexivity).
        cbn [flat_map] in B. rewrite Ee in B.
        apply IH; auto.
        * exists rest. exact B.
        * pose proof (sizes_perm _ _ Hpp) as Hs. cbn [map] in Hs. lia.
      + apply (pb_nil _ Hpop) in Ep. subst q2.
        exists r2; split; [reflexivity|]. eapply sub_inv_post; eauto.
  Qed.

  Lemma knn_sub m t : tree_ok P M m t ->
    exists r, knn pop t (-1) score (predicate_fn dist) = Ok r /\ sub_post (contents (h_root t)) r.
  Proof.
    intros (_ & _ & [Hr|Hr]); unfold knn.
    - rewrite Hr. cbn [empty_root create_dbnode db_size knn_loop db_children map app length knn_drain fold_right].
      assert (En : pop [] = None).
      { destruct (pop []) as [[x r]|] eqn:E; [|reflexivity].
        apply (pb_perm _ Hpop) in E. apply Permutation_nil in E. discriminate. }
      rewrite En; cbn [bind]; rewrite En. exists []; split; [reflexivity|].
      exists []. reflexivity.
    - apply knn_loop_sub; auto.
      + exists []. cbn. rewrite !app_nil_r; reflexivity.
      + cbn; lia.
  Qed.
End KnnSub.

(** ** The index holds a bag *)

Definition holds (t : hdb) (b : list node) : Prop :=
  tree_ok (mag 483) (max_entries 8) (min_entries (max_entries 8)) t /\ Permutation (contents (h_root t)) b.

Definition without (it : node) (b : list node) : list node :=
  filter (fun x => negb (n_id x =? n_id it)) b.

Lemma holds_new : holds new_hdb_default [].
Proof. split; [apply (new_ok 8)|]. cbn. constructor. Qed.

Lemma holds_perm t b b' : Permutation b b' -> holds t b -> holds t b'.
Proof. intros Hp [A B]. split; auto. rewrite B; auto. Qed.

Lemma holds_good t b it : holds t b -> In it b -> good_item it.
Proof.
  intros [A B] Hin. apply (tok_item 8 t); auto. eapply Permutation_in; [symmetry; exact B|exact Hin].
Qed.

Lemma holds_load O t b items : oracle_ok O -> holds t b -> Forall good_item items ->
  exists t', load O t items = Ok t' /\ holds t' (b ++ items).
Proof.
  intros HO [A B] Hg.
  destruct (run_ops_spec O HO 8 [OpLoad items] t A) as (t' & b' & R & T & Bg & Pm).
  { repeat constructor; auto. }
  cbn in R. destruct (load O t items) as [t1| |]; cbn in R; try discriminate. injection R as ->.
  exists t'. split; [reflexivity|]. split; [exact T|].
  inversion Bg as [|? ? b1 ? ? S R']; subst. inversion R'; subst.
  inversion S as [? ? ? Hp| |]; subst. rewrite <- Pm, Hp, B. reflexivity.
Qed.

Lemma box_within_refl it : good_item it -> box_within (n_mbr it) (n_mbr it) = true.
Proof.
  intros H. apply (good_nonan) in H. destruct H as (A & B & C & D).
  unfold box_within. rewrite !fle_refl by assumption. reflexivity.
Qed.

Lemma without_out it b : ~ In (n_id it) (map n_id b) -> without it b = b.
Proof. intros H. apply filter_id_out, H. Qed.

Lemma perm_filter_id it x b1 b : NoDup (map n_id b) -> n_id x = n_id it ->
  Permutation b (x :: b1) -> Permutation b1 (without it b).
Proof.
  intros Hn Hi Hp. unfold without. rewrite (filter_perm _ _ _ _ Hp). cbn [filter].
  rewrite Hi, Z.eqb_refl. cbn. 
  assert (Hnd : NoDup (map n_id (x :: b1))) by (eapply Permutation_NoDup; [apply Permutation_map, Hp|exact Hn]).
  inversion Hnd; subst. fold (without it b1). rewrite without_out; [reflexivity|]. congruence.
Qed.

Lemma holds_remove t b it : holds t b -> NoDup (map n_id b) -> In it b ->
  holds (remove t it) (without it b).
Proof.
  intros [A B] Hn Hin.
  destruct (run_ops_spec plain_oracle plain_oracle_ok 8 [OpRemove it] t A) as (t' & b' & R & T & Bg & Pm).
  { repeat constructor. }
  cbn in R. injection R as <-. split; [exact T|]. rewrite <- Pm.
  inversion Bg as [|? ? b1 ? ? S R']; subst. inversion R'; subst.
  assert (Hin' : In it (contents (h_root t))) by (eapply Permutation_in; [symmetry; exact B|exact Hin]).
  assert (Hn' : NoDup (map n_id (contents (h_root t)))).
  { eapply Permutation_NoDup; [apply Permutation_map; symmetry; exact B|exact Hn]. }
  inversion S as [|? ? x ? Hi Hp|? ? Hk]; subst.
  - rewrite (perm_filter_id it x _ _ Hn' Hi Hp). apply filter_perm, B.
  - exfalso. specialize (Hk it Hin' eq_refl). rewrite box_within_refl in Hk; [discriminate|].
    apply (tok_item 8 t); auto.
Qed.

Lemma holds_all t b : holds t b -> exists r, all t = Ok r /\ Permutation r b.
Proof.
  intros [A B]. destruct (all_spec (mag 483) (max_entries 8) _ t A) as (r & E & Pm).
  exists r. split; [exact E|]. rewrite Pm. exact B.
Qed.

Lemma good_num it : good_item it -> num_box (n_mbr it).
Proof. intros H. exact (good_nonan it H). Qed.

(** The hulls near a hull. *)
Definition nearby (L : geomlib) (eps : f64) (hull nd : node) : bool :=
  boxes_meet (n_mbr hull) (n_mbr nd) && (negb (n_id nd =? n_id hull) && fle (gl_dist L (n_geom nd) (n_geom hull)) eps).

Lemma filter_filter {A} (f g : A -> bool) l : filter g (filter f l) = filter (fun x => f x && g x) l.
Proof. induction l as [|x l IH]; cbn; auto. destruct (f x); cbn; rewrite IH; reflexivity. Qed.

Lemma holds_neighbours L t b hull eps : holds t b -> good_item hull ->
  exists r, node_neighbours L t hull eps = Ok r /\ Permutation r (filter (nearby L eps hull) b).
Proof.
  intros [A B] Hg. destruct (search_bag 8 t (n_mbr hull) A (good_num _ Hg)) as (r & E & Pm).
  unfold node_neighbours. rewrite E. cbn [bind]. eexists. split; [reflexivity|].
  rewrite (filter_perm _ _ _ _ Pm), filter_filter. unfold nearby. apply filter_perm, B.
Qed.

Lemma holds_context L pop t b query dist : pop_bag pop -> holds t b ->
  exists r rest, context_neighbours L pop t query dist = Ok r /\ Permutation b (r ++ rest).
Proof.
  intros Hp [A B]. destruct (knn_sub pop Hp (mag 483) (max_entries 8) (score_fn L query) dist _ t A) as (r & E & rest & Pm).
  exists r, rest. split; [exact E|]. rewrite <- B. exact Pm.
Qed.

Lemma holds_context_exact L pop t b query dist :
  pop_ok (fun a b => flt a b = true) pop -> holds t b -> is_nan dist = false ->
  (forall bx it, In it b -> box_within (n_mbr it) bx = true ->
     fle (gl_dist L query (mbr_polygon bx)) (gl_dist L query (n_geom it)) = true) ->
  exists r, context_neighbours L pop t query dist = Ok r /\
    Permutation r (filter (fun it => fle (gl_dist L query (n_geom it)) dist) b).
Proof.
  intros Hp [A B] Hn Hd.
  destruct (neighbours_exact 8 L pop query dist t Hp A Hn) as (r & E & Pm & _).
  { intros bx it Hin. apply Hd. eapply Permutation_in; [exact B|exact Hin]. }
  exists r. split; [exact E|]. rewrite Pm. apply filter_perm, B.
Qed.
