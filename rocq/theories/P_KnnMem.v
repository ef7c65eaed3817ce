(** Nearest-first queries in memory: refinement to M_Knn.v. *)
From Verif Require Import M_Base M_Float M_Rng M_Geom M_Node M_Slice M_Hdb M_HdbMem M_Knn M_KnnMem Spec Spec_Hdb Spec_HdbMem Spec_KnnMem
  P_Float P_Hdb P_Knn P_HdbMem P_HdbMemRm.
Open Scope nat_scope.

Definition is_leafless (d : dbnode) : bool := match db_children d with [] => true | _ => false end.
(** The same query on values. *)
Definition v_score (score : mscore) (d : dbnode) : f64 := score (db_item d) (db_bbox d) (is_leafless d).
Definition v_pred (pred : mpredicate) (k : kobj) : bool * bool := pred (db_item (k_nd k)) (db_bbox (k_nd k)) (is_leafless (k_nd k)) (k_dist k).
Definition v_pop (kp : mpop) (q : list kobj) : option (kobj * list kobj) :=
  match map (fun k => nth k q (KObj (bare zero_cell) fzero)) (kp (map k_dist q)) with [] => None | x :: r => Some (x, r) end.

Lemma map_nth_seq {A} (l : list A) d : map (fun k => nth k l d) (seq 0 (length l)) = l.
Proof.
  induction l as [|x l IH] using rev_ind; [reflexivity|]. rewrite app_length. cbn [length]. rewrite Nat.add_1_r, seq_S, map_app. cbn [map Nat.add]. f_equal.
  - erewrite map_ext_in; [exact IH|]. intros k Hk. apply in_seq in Hk. cbn beta. apply app_nth1. lia.
  - rewrite app_nth2, Nat.sub_diag by lia. reflexivity.
Qed.

Lemma v_pop_ok below kp : queue_ok below kp -> pop_ok below (v_pop kp).
Proof.
  intros [H1 H2]. unfold v_pop. split.
  - intros q E. specialize (H1 (map k_dist q)). rewrite map_length in H1. destruct (kp (map k_dist q)); [|discriminate].
    apply Permutation_nil in H1. destruct q; [reflexivity|discriminate].
  - intros q x r E. specialize (H1 (map k_dist q)). rewrite map_length in H1.
    apply (Permutation_map (fun k => nth k q (KObj (bare zero_cell) fzero))) in H1. rewrite map_nth_seq in H1.
    destruct (map _ (kp _)) as [|y l]; [discriminate|]. injection E as <- <-. symmetry. exact H1.
  - intros q x r Hn E y Hy. specialize (H1 (map k_dist q)). rewrite map_length in H1.
    destruct (kp (map k_dist q)) as [|i l] eqn:Ek; [discriminate|]. cbn [map] in E. injection E as <- <-.
    apply in_map_iff in Hy. destruct Hy as (j & <- & Hj).
    assert (K : forall k, In k (i :: l) -> k_dist (nth k q (KObj (bare zero_cell) fzero)) = nth k (map k_dist q) fzero).
    { intros k Hk. change fzero with (k_dist (KObj (bare zero_cell) fzero)). symmetry. apply map_nth. }
    rewrite (K j (or_intror Hj)), (K i (or_introl eq_refl)). eapply H2; [|exact Ek|exact Hj]. apply Forall_forall. intros d Hd.
    apply in_map_iff in Hd. destruct Hd as (z & <- & Hz). rewrite Forall_forall in Hn. auto.
Qed.

Section Sim.
  Variables (st : mstate) (kp : mpop) (score : mscore) (pred : mpredicate) (limit : Z).
  Hypothesis Hkp : forall ds, Permutation (kp ds) (seq 0 (length ds)).

  Definition same_obj (o : mkobj) (k : kobj) : Prop := at_ st (mk_ptr o) (k_nd k) /\ mk_item o = is_leafless (k_nd k) /\ mk_dist o = k_dist k.

  Lemma pops q v : Forall2 same_obj q v ->
    match m_pop kp q, v_pop kp v with
    | None, None => True
    | Some (o, q'), Some (k, v') => same_obj o k /\ Forall2 same_obj q' v'
    | _, _ => False
    end.
  Proof.
    intros H. unfold m_pop, v_pop. assert (Ed : map mk_dist q = map k_dist v) by (induction H as [|? ? ? ? (_ & _ & E)]; cbn; congruence).
    rewrite Ed. pose proof (Hkp (map k_dist v)) as Hp. rewrite map_length in Hp.
    assert (G : forall ks, (forall k, In k ks -> k < length v) -> Forall2 same_obj (map (fun k => nth k q (MKObj PRoot false fzero)) ks)
      (map (fun k => nth k v (KObj (bare zero_cell) fzero)) ks)).
    { induction ks as [|k ks IH]; intros Hk; cbn [map]; constructor; [|apply IH; intros; apply Hk; right; assumption].
      specialize (Hk k (or_introl eq_refl)). clear -H Hk. revert k Hk. induction H as [|? ? ? ? K _ IH]; intros [|k] Hk; cbn in *; try lia; [exact K|apply IH; lia]. }
    assert (Hin : forall k, In k (kp (map k_dist v)) -> k < length v) by (intros k Hk; apply (Permutation_in _ Hp), in_seq in Hk; lia).
    specialize (G _ Hin). destruct G as [|x y xs ys Hx Hxs]; [exact Logic.I|]. auto.
  Qed.

  Lemma drains : forall fuel q v result fin v' r, Forall2 same_obj q v -> knn_drain (v_pop kp) (v_pred pred) limit fuel v result = Ok (fin, v', r) ->
    exists q', m_drain kp pred limit st fuel q result = Ok (fin, q', r) /\ Forall2 same_obj q' v'.
  Proof.
    induction fuel as [|fuel IH]; intros q v result fin v' r H E; [discriminate|]. cbn [knn_drain m_drain] in *.
    pose proof (pops q v H) as P. destruct (m_pop kp q) as [[o q1]|], (v_pop kp v) as [[k v1]|]; try contradiction.
    - destruct P as [(A & B & C) P]. change (k_item k) with (is_leafless (k_nd k)) in E. rewrite B. destruct (is_leafless (k_nd k)) eqn:Ei; [|injection E as <- <- <-; eauto].
      destruct A as (c & f & Ed & R). rewrite Ed. cbn [bind]. unfold v_pred in E. rewrite Ei in E. rewrite C.
      assert (Ec : c_item c = db_item (k_nd k) /\ c_bbox c = db_bbox (k_nd k)) by (destruct R; auto). destruct Ec as [-> ->].
      destruct (pred _ _ _ _) as [p stop].
      change (match db_item (k_nd k) with Some it => [it] | None => [] end) with (item_of (k_nd k)).
      destruct stop; [injection E as <- <- <-; eauto|]. destruct (_ && _); [injection E as <- <- <-; eauto|]. eapply IH; eauto.
    - injection E as <- <- <-. eauto.
  Qed.

  Lemma pushes s ch fs : k_ok (ms_heap st) s -> reps (ms_heap st) ch (kids_of (ms_heap st) s) fs ->
    Forall2 same_obj (m_push score (ms_heap st) s) (map (fun c => KObj c (v_score score c)) ch).
  Proof.
    intros Hk Hr. pose proof (reps_at st s ch fs Hk Hr) as Ha. unfold m_push. rewrite <- (kids_len _ _ Hk) in *.
    revert Ha. generalize 0 at 1 4. induction Hr as [|t ts c cs f fs R Rs IH]; intros n Ha; cbn [length seq combine map] in *; [constructor|].
    inversion Ha as [|? ? ? ? A1 A2]; subst. constructor; [|apply IH; exact A2].
    assert (El : Nat.eqb (s_len (c_kids c)) 0 = is_leafless t) by (rewrite (rep_len _ _ _ _ R); unfold is_leafless; destruct (db_children t); reflexivity).
    split; [exact A1|]. cbn [mk_item mk_dist k_nd k_dist]. rewrite El. split; [reflexivity|]. unfold v_score. destruct R; reflexivity.
  Qed.

  Lemma loops : forall fuel fuel' p d q v result r, fuel <= fuel' -> at_ st p d -> Forall2 same_obj q v ->
    knn_loop (v_pop kp) (v_score score) (v_pred pred) limit fuel d v result = Ok r ->
    m_knn_loop kp score pred limit st fuel' p q result = Ok r.
  Proof.
    induction fuel as [|fuel IH]; intros [|fuel'] p d q v result r Hl (c & f & Ed & R) H E; try discriminate; [lia|]. cbn [knn_loop m_knn_loop] in *.
    rewrite Ed. cbn [bind]. destruct R as [ch it h l b s fs Hk Hr Hn]. cbn [c_kids db_children] in *.
    assert (H' : Forall2 same_obj (q ++ m_push score (ms_heap st) s) (v ++ map (fun c => KObj c (v_score score c)) ch)).
    { apply Forall2_app; [exact H|]. eapply pushes; eauto. }
    assert (El : forall a b, Forall2 same_obj a b -> length a = length b) by (induction 1; cbn; congruence). rewrite (El _ _ H').
    destruct (knn_drain _ _ _ _ _ _) as [[[fin v'] r']| |] eqn:Edr; try discriminate. cbn [bind] in E.
    destruct (drains _ _ _ _ _ _ _ H' Edr) as (q' & -> & H2). cbn [bind]. destruct fin; [exact E|].
    pose proof (pops q' v' H2) as P. destruct (m_pop kp q') as [[o q1]|], (v_pop kp v') as [[k v1]|]; try contradiction; [|exact E].
    destruct P as [(A & _) P]. eapply IH; [lia|exact A|exact P|exact E].
  Qed.
End Sim.

Lemma knn_holds st t mx mn kp limit score pred r : (forall ds, Permutation (kp ds) (seq 0 (length ds))) -> holds st t ->
  knn (v_pop kp) (Hdb t mx mn) limit (v_score score) (v_pred pred) = Ok r ->
  forall fuel, db_size t <= fuel -> m_knn_loop kp score pred limit st fuel PRoot [] [] = Ok r.
Proof.
  intros Hk (f & H) E fuel Hf. unfold knn in E. cbn [h_root] in E.
  eapply (loops st kp score pred limit Hk); [exact Hf| |constructor|exact E]. exists (ms_root st), f. split; [reflexivity|exact H].
Qed.
