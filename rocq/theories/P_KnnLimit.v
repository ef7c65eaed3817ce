(** Nearest-first queries with any limit and any predicate. *)
From Verif Require Import M_Base M_Float M_Rng M_Geom M_Node M_Hdb M_Knn Spec P_Base P_Float P_Hdb P_HdbIns P_HdbQuery P_Knn
  Spec_Knn.
From Coq Require Import Sorted.
Open Scope Z_scope.

Section KnnLimit.
  Variable below : f64 -> f64 -> Prop.
  Hypothesis below_mono : forall a b c, fle a b = true -> below b c -> below a c.
  Variable pop : popfn.
  Hypothesis Hpop : pop_ok below pop.
  Variable P : f64 -> Prop.
  Variable M : nat.
  Variable sc : node -> f64.
  Variable score : dbnode -> f64.
  Hypothesis score_item : forall it, score (new_leaf it) = sc it.
  Variable G : node -> Prop.
  Hypothesis score_box : forall d it, sub_ok P M d -> In it (contents d) -> G it -> fle (score d) (sc it) = true.
  Variable pred : kobj -> bool * bool.
  Variable limit : Z.
  Let take (it : node) : bool := fst (pred (KObj (new_leaf it) (sc it))).
  Let stop (it : node) : bool := snd (pred (KObj (new_leaf it) (sc it))).
  Let nearer (x y : node) : Prop := below (sc x) (sc y).
  Let ok : kobj -> Prop := entry_ok P M sc score G.
  Let items : list kobj -> list node := flat_map entry_items.
  Let num : forall k, ok k -> is_nan (k_dist k) = false := entry_num P M sc score score_item G score_box.

  (** So far the items [looked] have been looked at, and the query goes on. *)
  Record vinv (all0 looked rest : list node) : Prop := {
    vi_perm : Permutation all0 (looked ++ rest);
    vi_order : StronglySorted (fun x y => ~ nearer y x) looked;
    vi_rest : forall x y, In x looked -> In y rest -> ~ nearer y x;
    vi_more : forall before x after, looked = before ++ x :: after -> ~ enough take stop limit (before ++ [x]) x
  }.
  Notation answer := (answers nearer take stop limit).

  Lemma vinv_perm all0 looked r r' : Permutation r r' -> vinv all0 looked r -> vinv all0 looked r'.
  Proof.
    intros Hp [A B C D]. split; auto.
    - rewrite A. apply Permutation_app_head, Hp.
    - intros x y Hx Hy. apply C; [exact Hx|]. eapply Permutation_in; [symmetry; exact Hp|exact Hy].
  Qed.

  Lemma vinv_end all0 looked : vinv all0 looked [] -> answer all0 (filter take looked).
  Proof.
    intros [A B C D]. exists looked, []. repeat split; auto.
    - intros before x after E He. destruct (D _ _ _ E He).
    - congruence.
  Qed.

  Lemma split_snoc (l : list node) it before x after : l ++ [it] = before ++ x :: after ->
    (after = [] /\ x = it /\ before = l) \/ exists after', after = after' ++ [it] /\ l = before ++ x :: after'.
  Proof.
    intros E. destruct after as [|y after _] using rev_ind.
    - left. apply app_inj_tail in E. destruct E; auto.
    - right. exists after. replace (before ++ x :: after ++ [y]) with ((before ++ x :: after) ++ [y]) in E
        by (rewrite <- app_assoc; reflexivity).
      apply app_inj_tail in E. destruct E as [-> ->]. auto.
  Qed.

  Lemma vinv_next all0 looked it rest : vinv all0 looked (it :: rest) -> (forall y, In y rest -> ~ nearer y it) ->
    ~ enough take stop limit (looked ++ [it]) it -> vinv all0 (looked ++ [it]) rest.
  Proof.
    intros [A B C D] Hr Hne. split.
    - rewrite A, <- app_assoc. reflexivity.
    - apply sorted_snoc; auto. intros a Ha. apply C; [exact Ha|left; auto].
    - intros x y Hx Hy. apply in_app_or in Hx. destruct Hx as [Hx|[<-|[]]]; [|auto]. apply C; [exact Hx|right; exact Hy].
    - intros before x after E. destruct (split_snoc _ _ _ _ _ E) as [(-> & -> & ->)|(after' & -> & E')]; [exact Hne|].
      eapply D, E'.
  Qed.

  Lemma vinv_stop all0 looked it rest : vinv all0 looked (it :: rest) -> (forall y, In y rest -> ~ nearer y it) ->
    enough take stop limit (looked ++ [it]) it -> answer all0 (filter take (looked ++ [it])).
  Proof.
    intros [A B C D] Hr He. exists (looked ++ [it]), rest. repeat split.
    - rewrite A, <- app_assoc. reflexivity.
    - apply sorted_snoc; auto. intros a Ha. apply C; [exact Ha|left; auto].
    - intros x y Hx Hy. apply in_app_or in Hx. destruct Hx as [Hx|[<-|[]]]; [|auto]. apply C; [exact Hx|right; exact Hy].
    - intros before x after E. destruct (split_snoc _ _ _ _ _ E) as [(-> & -> & ->)|(after' & -> & E')]; [auto|].
      intros Hx. destruct (D _ _ _ E' Hx).
    - intros _. exists looked, it. auto.
  Qed.

  Lemma sizes_perm q q' : Permutation q q' -> sizes_sum (map k_nd q) = sizes_sum (map k_nd q').
  Proof.
    intros Hp. apply (Permutation_map k_nd) in Hp. revert Hp. generalize (map k_nd q), (map k_nd q').
    induction 1; rewrite ?sizes_sum_cons in *; try lia; reflexivity.
  Qed.

  Lemma drain_any all0 fuel : forall queue looked,
    Forall ok queue -> vinv all0 looked (items queue) -> (length queue < fuel)%nat ->
    exists fin queue' result',
      knn_drain pop pred limit fuel queue (filter take looked) = Ok (fin, queue', result') /\
      (fin = true -> answer all0 result') /\
      (fin = false -> exists looked', result' = filter take looked' /\ Forall ok queue' /\
         vinv all0 looked' (items queue') /\ (sizes_sum (map k_nd queue') <= sizes_sum (map k_nd queue))%nat /\
         forall k r, pop queue' = Some (k, r) -> k_item k = false).
  Proof.
    induction fuel as [|f IH]; intros queue looked Hq Hv Hf; [lia|].
    cbn [knn_drain]. destruct (pop queue) as [[c queue']|] eqn:Ep.
    - destruct (k_item c) eqn:Ei.
      + pose proof (pop_perm _ _ Hpop _ _ _ Ep) as Hp.
        assert (Hnn : Forall (fun k => is_nan (k_dist k) = false) queue) by (eapply Forall_impl; [exact num|exact Hq]).
        pose proof (pop_min _ _ Hpop _ _ _ Hnn Ep) as Hmin.
        pose proof (Permutation_Forall Hp Hq) as A. inversion A as [|? ? Ac Aq]; subst.
        assert (Hit : exists it, k_nd c = new_leaf it).
        { destruct Ac as [_ [(i & Hi & _)|[H _]]]; [eauto|]. destruct c as [d s]; cbn [k_nd] in *.
          rewrite (sub_ok_not_item P M d s H) in Ei; discriminate. }
        destruct Hit as [it Hit].
        assert (Ed : k_dist c = sc it) by (destruct Ac as [-> _]; rewrite Hit; apply score_item).
        assert (Ec : c = KObj (new_leaf it) (sc it)) by (destruct c; cbn in *; congruence).
        assert (Ee : entry_items c = [it]) by (unfold entry_items; rewrite Ei, Hit; reflexivity).
        assert (Hv' : vinv all0 looked (it :: items queue')).
        { eapply vinv_perm; [|exact Hv]. unfold items. rewrite (flat_map_perm entry_items _ _ Hp). cbn [flat_map].
          rewrite Ee. reflexivity. }
        assert (Hrest : forall b, In b (items queue') -> ~ nearer b it).
        { intros b Hb Hbl. apply in_flat_map in Hb. destruct Hb as (k & Hk1 & Hk2).
          rewrite Forall_forall in Aq. apply (Hmin k Hk1). rewrite Ed.
          exact (entry_below below below_mono P M sc score score_item G score_box k b _ (Aq k Hk1) Hk2 Hbl). }
        assert (Er : (if take it then filter take looked ++ item_of (k_nd c) else filter take looked) = filter take (looked ++ [it])).
        { rewrite filter_app, Hit. cbn [filter item_of new_leaf db_item]. destruct (take it); [reflexivity|].
          rewrite app_nil_r; reflexivity. }
        destruct (pred c) as [p s] eqn:Epr.
        assert (Et : take it = p) by (unfold take; rewrite <- Ec, Epr; reflexivity).
        assert (Es : stop it = s) by (unfold stop; rewrite <- Ec, Epr; reflexivity).
        rewrite <- Et, Er. destruct s.
        * exists true, queue', (filter take (looked ++ [it])). split; [reflexivity|]. split; [|discriminate]. intros _.
          eapply vinv_stop; eauto. left; exact Es.
        * destruct (negb (limit =? 0) && (zlen (filter take (looked ++ [it])) =? limit)) eqn:El.
          -- exists true, queue', (filter take (looked ++ [it])). split; [reflexivity|]. split; [|discriminate]. intros _.
             eapply vinv_stop; eauto. right. apply andb_prop in El. destruct El as [E1 E2].
             split; [|apply Z.eqb_eq; exact E2]. apply negb_true_iff, Z.eqb_neq in E1. exact E1.
          -- destruct (IH queue' (looked ++ [it]) Aq) as (fin & q2 & r2 & X & Y & W).
             { eapply vinv_next; eauto. intros [H|[H1 H2]]; [congruence|].
               apply andb_false_iff in El. destruct El as [E|E].
               - apply negb_false_iff, Z.eqb_eq in E. contradiction.
               - apply Z.eqb_neq in E. contradiction. }
             { apply Permutation_length in Hp. cbn in Hp. lia. }
             exists fin, q2, r2. split; [exact X|]. split; [exact Y|]. intros Hfin.
             destruct (W Hfin) as (lk & W1 & W2 & W3 & W4 & W5). exists lk. repeat (split; auto).
             rewrite (sizes_perm _ _ Hp); cbn [map]; rewrite sizes_sum_cons. lia.
      + exists false, queue, (filter take looked). split; [reflexivity|]. split; [discriminate|]. intros _.
        exists looked. repeat (split; auto). intros k r Eq. rewrite Ep in Eq. injection Eq as <- <-. exact Ei.
    - exists false, queue, (filter take looked). split; [reflexivity|]. split; [discriminate|]. intros _.
      exists looked. repeat (split; auto). intros k r Eq. rewrite Ep in Eq. discriminate.
  Qed.

  Lemma push_any nd queue : sub_g P M G nd -> Forall ok queue ->
    Forall ok (queue ++ map (fun c => KObj c (score c)) (db_children nd)) /\
    items (queue ++ map (fun c => KObj c (score c)) (db_children nd)) = items queue ++ contents nd.
  Proof.
    intros [Hnd Hg] Hq.
    assert (Hc : forall c, In c (db_children nd) -> ok (KObj c (score c))).
    { intros c Hc. split; [reflexivity|]. cbn [k_nd]. destruct (db_leaf nd) eqn:El.
      - destruct (sub_ok_leaf P M nd Hnd El) as [Hcc H]. destruct (H c Hc) as (it & Ec & Hi). left; exists it; split; [exact Ec|].
        refine (fle_nan_r (score nd) (sc it) _). apply score_box; [exact Hnd| |apply Hg]; rewrite Hcc; apply in_flat_map;
        (exists c; split; [exact Hc|]; rewrite Ec; left; reflexivity).
      - destruct (sub_ok_children P M nd Hnd El) as [H Hcc]. right; split; [apply H, Hc|].
        intros it Hit. apply Hg. rewrite Hcc. apply in_flat_map; eauto. }
    split.
    - apply Forall_app; split; [exact Hq|]. apply Forall_forall. intros k Hk.
      apply in_map_iff in Hk; destruct Hk as (c & <- & Hk). auto.
    - unfold items. rewrite flat_map_app. f_equal. destruct (db_leaf nd) eqn:El.
      + destruct (sub_ok_leaf P M nd Hnd El) as [-> H]. clear - H.
        induction (db_children nd) as [|c l IH]; [reflexivity|]. cbn [map flat_map].
        rewrite IH by (intros; apply H; right; auto).
        destruct (H c (or_introl eq_refl)) as (it & -> & _). reflexivity.
      + destruct (sub_ok_children P M nd Hnd El) as [H ->]. clear - H.
        induction (db_children nd) as [|c l IH]; [reflexivity|]. cbn [map flat_map].
        rewrite IH by (intros; apply H; right; auto). f_equal.
        unfold entry_items. rewrite (sub_ok_not_item P M); [reflexivity|]. apply H; left; auto.
  Qed.

  Lemma loop_any all0 fuel : forall nd queue looked,
    sub_g P M G nd -> Forall ok queue -> vinv all0 looked (contents nd ++ items queue) ->
    (sizes_sum (nd :: map k_nd queue) <= fuel)%nat ->
    exists r, knn_loop pop score pred limit fuel nd queue (filter take looked) = Ok r /\ answer all0 r.
  Proof.
    induction fuel as [|f IH]; intros nd queue looked Hnd Hq Hv Hf.
    - rewrite sizes_sum_cons, db_size_eq in Hf; lia.
    - cbn [knn_loop]. destruct (push_any nd queue Hnd Hq) as [Hq1 E1].
      set (q1 := queue ++ map (fun c => KObj c (score c)) (db_children nd)) in *.
      assert (Hv1 : vinv all0 looked (items q1)) by (rewrite E1; eapply vinv_perm; [apply Permutation_app_comm|exact Hv]).
      destruct (drain_any all0 (S (length q1)) q1 looked Hq1 Hv1 (Nat.lt_succ_diag_r _)) as (fin & q2 & r2 & -> & X & Y).
      cbn [bind]. destruct fin; [eauto|].
      destruct (Y eq_refl) as (lk & -> & Hq2 & K & S1 & Z1).
      assert (Hs1 : (sizes_sum (map k_nd q1) <= f)%nat).
      { unfold q1. rewrite map_app, sizes_sum_app, map_map. cbn [k_nd].
        rewrite map_id. rewrite sizes_sum_cons, db_size_eq in Hf. lia. }
      destruct (pop q2) as [[k q3]|] eqn:Ep.
      + pose proof (pop_perm _ _ Hpop _ _ _ Ep) as Hpp.
        pose proof (Permutation_Forall Hpp Hq2) as A. inversion A as [|? ? Ak Aq]; subst.
        assert (Ei : k_item k = false) by (eapply Z1; reflexivity).
        assert (Hsub : sub_g P M G (k_nd k)).
        { destruct Ak as [_ [(it & Hit & _)|H]]; [|exact H]. unfold k_item in Ei; rewrite Hit in Ei; discriminate. }
        apply IH; auto.
        * eapply vinv_perm; [|exact K]. unfold items. rewrite (flat_map_perm entry_items _ _ Hpp). cbn [flat_map].
          unfold entry_items at 1. rewrite Ei. reflexivity.
        * pose proof (sizes_perm _ _ Hpp) as Hs. cbn [map] in Hs. lia.
      + apply (pop_nil _ _ Hpop) in Ep. subst q2.
        eexists; split; [reflexivity|]. apply vinv_end. exact K.
  Qed.

  Lemma knn_any m t : tree_ok P M m t -> (forall it, In it (contents (h_root t)) -> G it) ->
    exists r, knn pop t limit score pred = Ok r /\ answer (contents (h_root t)) r.
  Proof.
    assert (Hstart : forall l, vinv l [] l).
    { intros l. split; auto; [constructor|]. intros before x after E. destruct before; discriminate. }
    intros (_ & _ & [Hr|Hr]) HG; unfold knn.
    - rewrite Hr. cbn [empty_root create_dbnode db_size knn_loop db_children map app length knn_drain fold_right].
      assert (En : pop [] = None).
      { destruct (pop []) as [[x r]|] eqn:E; [|reflexivity].
        apply (pop_perm _ _ Hpop) in E. apply Permutation_nil in E. discriminate. }
      rewrite En; cbn [bind]; rewrite En. exists []; split; [reflexivity|].
      apply (vinv_end [] []). apply Hstart.
    - change (@nil node) with (filter take []). apply loop_any; auto.
      + split; [exact Hr|exact HG].
      + cbn. rewrite app_nil_r. apply Hstart.
      + cbn; lia.
  Qed.
End KnnLimit.
