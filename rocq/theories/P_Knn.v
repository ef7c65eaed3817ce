(** Nearest-neighbour queries. *)
From Verif Require Import M_Base M_Float M_Rng M_Geom M_Node M_Hdb M_Knn Spec P_Base P_Float P_Hdb P_HdbIns P_HdbQuery.
From Coq Require Import Sorted.
Open Scope Z_scope.

(** Behaviour of the priority queue.  [below a b] means: distance a is smaller than b by
    more than the comparison tolerance.  Nothing is assumed about queues with NaN keys. *)
Record pop_ok (below : f64 -> f64 -> Prop) (pop : popfn) : Prop := {
  pop_nil : forall q, pop q = None -> q = [];
  pop_perm : forall q x r, pop q = Some (x, r) -> Permutation q (x :: r);
  pop_min : forall q x r, Forall (fun k => is_nan (k_dist k) = false) q ->
    pop q = Some (x, r) -> forall y, In y r -> ~ below (k_dist y) (k_dist x)
}.

Section Knn.
  Variable below : f64 -> f64 -> Prop.
  Hypothesis below_mono : forall a b c, fle a b = true -> below b c -> below a c.
  Variable pop : popfn.
  Hypothesis Hpop : pop_ok below pop.
  Variable P : f64 -> Prop.
  Hypothesis HP : tame P.
  Variable M : nat.
  Variable sc : node -> f64.
  Variable score : dbnode -> f64.
  Hypothesis score_item : forall it, score (new_leaf it) = sc it.
  (** A box is never farther than what it encloses, for stored items (those in G). *)
  Variable G : node -> Prop.
  Hypothesis score_box : forall d it, sub_ok P M d -> In it (contents d) -> G it -> fle (score d) (sc it) = true.
  Definition sub_g (d : dbnode) : Prop := sub_ok P M d /\ forall it, In it (contents d) -> G it.
  Variable dist : f64.

  (** Queue entries: items or well-formed subtrees. *)
  Definition entry_ok (k : kobj) : Prop :=
    k_dist k = score (k_nd k) /\
    ((exists it, k_nd k = new_leaf it /\ is_nan (sc it) = false) \/ sub_g (k_nd k)).
  Definition entry_items (k : kobj) : list node :=
    if k_item k then item_of (k_nd k) else contents (k_nd k).

  Lemma sub_ok_not_item d s : sub_ok P M d -> k_item (KObj d s) = false.
  Proof.
    intros [h Hd]. destruct Hd as (_ & _ & _ & Hne & _). unfold k_item; cbn [k_nd].
    destruct (db_children d); [congruence|reflexivity].
  Qed.

  Lemma entry_num k : entry_ok k -> is_nan (k_dist k) = false.
  Proof.
    intros [E [(it & Hi & Hn)|[Hs Hg]]]; rewrite E.
    - rewrite Hi, score_item; exact Hn.
    - destruct Hs as [h Hd]. assert (Hs : sub_ok P M (k_nd k)) by (exists h; exact Hd).
      pose proof (wf_nonempty P M _ _ Hd) as Hne.
      rewrite <- (contents_wf P M _ _ Hd) in Hne.
      destruct (contents (k_nd k)) as [|it l] eqn:Ec; [congruence|].
      apply (fle_nan_l _ (sc it)), score_box; [exact Hs|rewrite Ec; left; auto|apply Hg; left; auto].
  Qed.

  Lemma entry_low k it : entry_ok k -> In it (entry_items k) -> k_dist k = sc it \/ fle (k_dist k) (sc it) = true.
  Proof.
    intros [E [(i & Hi & _)|[Hs Hg]]] Hin; unfold entry_items in Hin.
    - unfold k_item in Hin. rewrite Hi in *. cbn in Hin. destruct Hin as [<-|[]].
      left. rewrite E. apply score_item.
    - destruct k as [d s]; cbn [k_nd k_dist] in *. rewrite (sub_ok_not_item d s Hs) in Hin.
      right. rewrite E. apply score_box; auto.
  Qed.

  Lemma entry_below k it c : entry_ok k -> In it (entry_items k) -> below (sc it) c -> below (k_dist k) c.
  Proof.
    intros Hk Hin Hb. destruct (entry_low k it Hk Hin) as [E|E]; [rewrite E; exact Hb|eapply below_mono; eauto].
  Qed.

  (** Invariant of a running query over all items [all0]. *)
  Record kinv (all0 : list node) (queue : list kobj) (result : list node) : Prop := {
    ki_entries : Forall entry_ok queue;
    ki_perm : Permutation all0 (result ++ flat_map entry_items queue);
    ki_near : forall it, In it result -> fle (sc it) dist = true;
    ki_order : StronglySorted (fun a b => ~ below (sc b) (sc a)) result;
    ki_rest : forall a b, In a result -> In b (flat_map entry_items queue) -> ~ below (sc b) (sc a)
  }.

  (** What a finished query guarantees. *)
  Record kpost (all0 result : list node) : Prop := {
    kp_sub : exists rest, Permutation all0 (result ++ rest) /\
      forall it, In it rest -> exists v, is_nan v = false /\ fle v dist = false /\ ~ below (sc it) v;
    kp_near : forall it, In it result -> fle (sc it) dist = true;
    kp_order : StronglySorted (fun a b => ~ below (sc b) (sc a)) result
  }.

  Lemma kinv_perm all0 q q' r : Permutation q q' -> kinv all0 q r -> kinv all0 q' r.
  Proof.
    intros Hp [A B C D E]. split; auto.
    - eapply Permutation_Forall; eauto.
    - rewrite B. apply Permutation_app_head, flat_map_perm, Hp.
    - intros a b Ha Hb. apply E; auto.
      eapply Permutation_in; [apply flat_map_perm; symmetry; exact Hp|exact Hb].
  Qed.

  Lemma sorted_snoc {A} (R : A -> A -> Prop) l x :
    StronglySorted R l -> (forall a, In a l -> R a x) -> StronglySorted R (l ++ [x]).
  Proof.
    induction 1 as [|a l H1 IH H2]; intros Hx; cbn.
    - constructor; constructor.
    - constructor.
      + apply IH; intros; apply Hx; right; auto.
      + apply Forall_app; split; [exact H2|]. constructor; [apply Hx; left; auto|constructor].
  Qed.

  Lemma drain_spec all0 fuel : forall queue result,
    kinv all0 queue result -> (length queue < fuel)%nat ->
    exists fin queue' result',
      knn_drain pop (predicate_fn dist) (-1) fuel queue result = Ok (fin, queue', result') /\
      (fin = true -> kpost all0 result') /\
      (fin = false -> kinv all0 queue' result' /\ sizes_sum (map k_nd queue') <= sizes_sum (map k_nd queue) /\
         forall k r, pop queue' = Some (k, r) -> k_item k = false)%nat.
  Proof.
    induction fuel as [|f IH]; intros queue result Hk Hf; [lia|].
    cbn [knn_drain]. destruct (pop queue) as [[c queue']|] eqn:Ep.
    - destruct (k_item c) eqn:Ei.
      + pose proof (pop_perm _ _ Hpop _ _ _ Ep) as Hp.
        pose proof (kinv_perm _ _ _ _ Hp Hk) as [A B C D E].
        assert (Hnn : Forall (fun k => is_nan (k_dist k) = false) queue).
        { eapply Forall_impl; [exact entry_num|]. apply Hk. }
        pose proof (pop_min _ _ Hpop _ _ _ Hnn Ep) as Hmin.
        inversion A as [|? ? Ac Aq]; subst.
        assert (Hit : exists it, k_nd c = new_leaf it).
        { destruct Ac as [_ [(i & Hi & _)|[H _]]]; [eauto|]. destruct c as [d s]; cbn [k_nd] in *.
          rewrite (sub_ok_not_item d s H) in Ei; discriminate. }
        destruct Hit as [it Hit].
        assert (Ed : k_dist c = sc it) by (destruct Ac as [-> _]; rewrite Hit; apply score_item).
        assert (Ee : entry_items c = [it]) by (unfold entry_items; rewrite Ei, Hit; reflexivity).
        cbn [flat_map] in B, E. rewrite Ee in B, E. cbn [app] in B.
        assert (Hrest : forall b, In b (flat_map entry_items queue') -> ~ below (sc b) (sc it)).
        { intros b Hb Hbl. apply in_flat_map in Hb. destruct Hb as (k & Hk1 & Hk2).
          rewrite Forall_forall in Aq. apply (Hmin k Hk1). rewrite Ed.
          eapply entry_below; eauto. }
        unfold predicate_fn. rewrite Ed, Hit. cbn [item_of new_leaf db_item].
        destruct (fle (sc it) dist) eqn:En.
        * (* accepted *)
          replace (negb (-1 =? 0) && (zlen (result ++ [it]) =? -1)) with false.
          2: { symmetry. apply andb_false_iff; right. apply Z.eqb_neq. unfold zlen; lia. }
          assert (Hk' : kinv all0 queue' (result ++ [it])).
          { split; auto.
            - rewrite B, <- app_assoc. reflexivity.
            - intros x Hx; apply in_app_or in Hx; destruct Hx as [Hx|[<-|[]]]; auto.
            - apply sorted_snoc; auto. intros a Ha. apply E; [exact Ha|left; auto].
            - intros a b Ha Hb. apply in_app_or in Ha. destruct Ha as [Ha|[<-|[]]]; auto.
              apply E; [exact Ha|right; exact Hb]. }
          destruct (IH queue' (result ++ [it]) Hk') as (fin & q2 & r2 & X & Y & W).
          { apply Permutation_length in Hp. cbn in Hp. lia. }
          exists fin, q2, r2. split; [exact X|]. split; [exact Y|]. intros Hfin.
          destruct (W Hfin) as (W1 & W2 & W3). split; [exact W1|]. split; [|exact W3].
          assert (Hs : (sizes_sum (map k_nd queue) = sizes_sum (map k_nd (c :: queue')))%nat).
          { clear - Hp. apply (Permutation_map k_nd) in Hp. revert Hp. generalize (map k_nd queue), (map k_nd (c :: queue')).
            induction 1; rewrite ?sizes_sum_cons in *; try lia; reflexivity. }
          rewrite Hs; cbn [map]; rewrite sizes_sum_cons. lia.
        * (* too far: stop *)
          exists true, queue', result. split; [reflexivity|]. split; [|discriminate]. intros _.
          split; auto. exists (it :: flat_map entry_items queue'). split; [exact B|].
          assert (Hns : is_nan (sc it) = false) by (rewrite <- Ed; apply entry_num; exact Ac).
          intros x [<-|Hx]; exists (sc it); (split; [exact Hns|]); (split; [exact En|]); [intros Hall|].
          --
             (* below (sc it) (sc it) contradicts minimality in the queue of one *)
             assert (Hself : forall y, is_nan (k_dist y) = false -> ~ below (k_dist y) (k_dist y)).
             { intros y Hyn Hy. pose (q2 := [y; y]).
               assert (Hq2 : Forall (fun k => is_nan (k_dist k) = false) q2) by (repeat constructor; exact Hyn).
               destruct (pop q2) as [[z r]|] eqn:Eq.
               - pose proof (pop_perm _ _ Hpop _ _ _ Eq) as Hpp.
                 assert (z = y).
                 { assert (In z q2) by (eapply Permutation_in; [symmetry; exact Hpp|left; auto]).
                   destruct H as [<-|[<-|[]]]; auto. }
                 subst z. apply Permutation_cons_inv in Hpp.
                 assert (In y r) by (eapply Permutation_in; [exact Hpp|left; auto]).
                 exact (pop_min _ _ Hpop _ _ _ Hq2 Eq y H Hy).
               - apply (pop_nil _ _ Hpop) in Eq. discriminate. }
             apply (Hself c); rewrite Ed; [exact Hns|exact Hall].
          -- exact (Hrest x Hx).
      + exists false, queue, result. split; [reflexivity|]. split; [discriminate|]. intros _.
        split; [exact Hk|]. split; [lia|]. intros k r Eq. rewrite Ep in Eq. injection Eq as <- <-. exact Ei.
    - exists false, queue, result. split; [reflexivity|]. split; [discriminate|]. intros _.
      split; [exact Hk|]. split; [lia|]. intros k r Eq. rewrite Ep in Eq. discriminate.
  Qed.

  Lemma push_spec all0 nd queue result :
    sub_g nd -> Forall entry_ok queue ->
    Permutation all0 (result ++ contents nd ++ flat_map entry_items queue) ->
    (forall it, In it result -> fle (sc it) dist = true) ->
    StronglySorted (fun a b => ~ below (sc b) (sc a)) result ->
    (forall a b, In a result -> In b (contents nd ++ flat_map entry_items queue) -> ~ below (sc b) (sc a)) ->
    kinv all0 (queue ++ map (fun c => KObj c (score c)) (db_children nd)) result.
  Proof.
    intros [Hnd Hg] Hq Hp Hn Ho Hr.
    assert (Hc : forall c, In c (db_children nd) -> entry_ok (KObj c (score c))).
    { intros c Hc. split; [reflexivity|]. cbn [k_nd]. destruct (db_leaf nd) eqn:El.
      - destruct (sub_ok_leaf P M nd Hnd El) as [_ H]. destruct (H c Hc) as (it & Ec & Hi). left; exists it; split; [exact Ec|].
        destruct (sub_ok_leaf P M nd Hnd El) as [Hcc _].
        refine (fle_nan_r (score nd) (sc it) _). apply score_box; [exact Hnd| |apply Hg]; rewrite Hcc; apply in_flat_map;
        (exists c; split; [exact Hc|]; rewrite Ec; left; reflexivity).
      - destruct (sub_ok_children P M nd Hnd El) as [H Hcc]. right; split; [apply H, Hc|].
        intros it Hit. apply Hg. rewrite Hcc. apply in_flat_map; eauto. }
    assert (Hcont : flat_map entry_items (map (fun c => KObj c (score c)) (db_children nd)) = contents nd).
    { destruct (db_leaf nd) eqn:El.
      - destruct (sub_ok_leaf P M nd Hnd El) as [-> H]. clear - H.
        induction (db_children nd) as [|c l IH]; [reflexivity|]. cbn [map flat_map].
        rewrite IH by (intros; apply H; right; auto).
        destruct (H c (or_introl eq_refl)) as (it & -> & _). reflexivity.
      - destruct (sub_ok_children P M nd Hnd El) as [H ->]. clear - H.
        induction (db_children nd) as [|c l IH]; [reflexivity|]. cbn [map flat_map].
        rewrite IH by (intros; apply H; right; auto). f_equal.
        unfold entry_items. rewrite sub_ok_not_item; [reflexivity|]. apply H; left; auto. }
    split; auto.
    - apply Forall_app; split; [exact Hq|]. apply Forall_forall. intros k Hk.
      apply in_map_iff in Hk; destruct Hk as (c & <- & Hk). auto.
    - rewrite flat_map_app, Hcont, Hp. apply Permutation_app_head, Permutation_app_comm.
    - intros a b Ha Hb. apply Hr; auto. rewrite flat_map_app, Hcont in Hb.
      apply in_app_or in Hb. apply in_or_app. tauto.
  Qed.

  Lemma knn_loop_spec all0 fuel : forall nd queue result,
    sub_g nd -> Forall entry_ok queue ->
    Permutation all0 (result ++ contents nd ++ flat_map entry_items queue) ->
    (forall it, In it result -> fle (sc it) dist = true) ->
    StronglySorted (fun a b => ~ below (sc b) (sc a)) result ->
    (forall a b, In a result -> In b (contents nd ++ flat_map entry_items queue) -> ~ below (sc b) (sc a)) ->
    (sizes_sum (nd :: map k_nd queue) <= fuel)%nat ->
    exists r, knn_loop pop score (predicate_fn dist) (-1) fuel nd queue result = Ok r /\ kpost all0 r.
  Proof.
    induction fuel as [|f IH]; intros nd queue result Hnd Hq Hp Hn Ho Hr Hf.
    - rewrite sizes_sum_cons, db_size_eq in Hf; lia.
    - cbn [knn_loop].
      pose proof (push_spec all0 nd queue result Hnd Hq Hp Hn Ho Hr) as Hk.
      set (q1 := queue ++ map (fun c => KObj c (score c)) (db_children nd)) in *.
      destruct (drain_spec all0 (S (length q1)) q1 result Hk (Nat.lt_succ_diag_r _))
        as (fin & q2 & r2 & -> & X & Y).
      cbn [bind]. destruct fin; [eauto|].
      destruct (Y eq_refl) as (K & S1 & Z1).
      assert (Hs1 : (sizes_sum (map k_nd q1) <= f)%nat).
      { unfold q1. rewrite map_app, sizes_sum_app, map_map. cbn [k_nd].
        rewrite map_id. rewrite sizes_sum_cons, db_size_eq in Hf. lia. }
      destruct (pop q2) as [[k q3]|] eqn:Ep.
      + pose proof (pop_perm _ _ Hpop _ _ _ Ep) as Hpp.
        pose proof (kinv_perm _ _ _ _ Hpp K) as [A B C D E].
        inversion A as [|? ? Ak Aq]; subst.
        assert (Ei : k_item k = false) by (eapply Z1; reflexivity).
        assert (Hsub : sub_g (k_nd k)).
        { destruct Ak as [_ [(it & Hit & _)|H]]; [|exact H]. unfold k_item in Ei; rewrite Hit in Ei; discriminate. }
        assert (Ee : entry_items k = contents (k_nd k)) by (unfold entry_items; rewrite Ei; reflexivity).
        cbn [flat_map] in B, E. rewrite Ee in B, E.
        apply IH; auto.
        assert (Hs : (sizes_sum (map k_nd q2) = sizes_sum (map k_nd (k :: q3)))%nat).
        { clear - Hpp. apply (Permutation_map k_nd) in Hpp. revert Hpp. generalize (map k_nd q2), (map k_nd (k :: q3)).
          induction 1; rewrite ?sizes_sum_cons in *; try lia; reflexivity. }
        cbn [map] in Hs. lia.
      + apply (pop_nil _ _ Hpop) in Ep. subst q2.
        exists r2; split; [reflexivity|]. destruct K as [A B C D E]. split; auto.
        exists []. cbn [flat_map] in B. split; [exact B|intros it []].
  Qed.

  Lemma knn_spec m t : tree_ok P M m t -> (forall it, In it (contents (h_root t)) -> G it) ->
    exists r, knn pop t (-1) score (predicate_fn dist) = Ok r /\ kpost (contents (h_root t)) r.
  Proof.
    intros (_ & _ & [Hr|Hr]) HG; unfold knn.
    - rewrite Hr. cbn [empty_root create_dbnode db_size knn_loop db_children map app length knn_drain fold_right].
      assert (En : pop [] = None).
      { destruct (pop []) as [[x r]|] eqn:E; [|reflexivity].
        apply (pop_perm _ _ Hpop) in E. apply Permutation_nil in E. discriminate. }
      rewrite En; cbn [bind]; rewrite En. exists []; split; [reflexivity|].
      split; [|intros it []|constructor]. exists []; split; [reflexivity|intros it []].
    - apply knn_loop_spec; auto.
      + split; [exact Hr|exact HG].
      + cbn. rewrite app_nil_r; reflexivity.
      + constructor.
      + cbn; lia.
  Qed.
End Knn.
