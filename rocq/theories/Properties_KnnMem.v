(** Claim C85, nearest-first queries: after any history the index in memory answers them for the bag of hulls the history leaves.
    Vocabulary: Spec_KnnMem.v, Spec_Knn.v, Spec_HdbMem.v, Spec_Hdb.v. *)
From Verif Require Import M_Base M_Float M_Rng M_Geom M_Node M_Slice M_Hdb M_HdbMem M_Knn M_KnnMem Spec Spec_Hdb Spec_HdbMem Spec_Knn Spec_KnnMem
  P_Float P_Hdb P_HdbIns P_HdbQuery P_Tame P_Knn P_KnnLimit P_HdbHist P_HdbMem P_HdbMemRm P_KnnMem Toy Properties_Hdb Properties_HdbMem Properties_Knn.
Open Scope nat_scope.

(** Any limit, score and predicates; [say] is what the predicate answers about a stored hull. *)
Theorem C85_nearest_in_memory :
  forall O cap ops, m_oracle_ok O -> Forall good_op ops ->
  exists N st b,
    (forall fuel, N <= fuel -> m_run O fuel (max_entries cap) (min_entries (max_entries cap)) m_new ops = Ok st) /\
    bag_run [] ops b /\
    forall (below : f64 -> f64 -> Prop) kp limit score predicates,
      (forall x y z, fle x y = true -> below y z -> below x z) -> queue_ok below kp -> boxes_not_farther ops score ->
      let say it := match predicates with [] => (true, false) | p :: _ => p (Some it) (n_mbr it) true (hull_score score it) end in
      exists r, (forall fuel, N <= fuel -> m_knn fuel kp st limit score predicates = Ok r) /\
        answers (fun x y => below (hull_score score x) (hull_score score y)) (fun it => fst (say it)) (fun it => snd (say it)) limit b r.
Proof.
  intros O cap ops HO Hg. pose proof (value_oracle_ok O HO) as HV.
  destruct (run_holds O cap ops HO m_new (new_hdb cap) (new_ok cap) new_holds Hg) as (N & st & t & E & H & S).
  destruct (reach _ HV cap ops t Hg E) as (T & b & B & P).
  exists (Nat.max N (db_size (h_root t))), st, b. split; [intros fuel Hf; apply S; lia|]. split; [exact B|].
  intros below kp limit score predicates Hm Hq Hs say.
  set (pred := match predicates with [] => fun _ _ _ _ => (true, false) | p :: _ => p end).
  assert (Hso : score_ok ops (v_score score)).
  { intros d it Hl Hi Hb. unfold v_score at 1. rewrite Hi. apply Hs; assumption. }
  destruct (knn_any below Hm (v_pop kp) (v_pop_ok below kp Hq) (mag 483) (max_entries cap) (item_score (v_score score)) (v_score score) (fun it => eq_refl)
    (fun it => In it (contents (h_root t)))) with (pred := v_pred pred) (limit := limit) (m := min_entries (max_entries cap)) (t := t) as (r & Er & A); auto.
  { intros d it [h Hw] Hin Hg'. apply Hso.
    - eapply bag_run_loaded; [exact B|]. eapply Permutation_in; [symmetry; exact P|exact Hg'].
    - destruct Hw as (_ & Ei & _). exact Ei.
    - pose proof (sub_ok_items (mag 483) _ d (ex_intro _ h Hw) it Hin) as [_ Hb]. rewrite within_contains. exact Hb. }
  exists r. split.
  - intros fuel Hf. unfold m_knn. fold pred. destruct t as [root mx mn].
    eapply knn_holds; [exact (qo_all _ _ Hq)|exact H|exact Er|cbn [h_root db_size] in *; etransitivity; [apply Nat.le_max_r|exact Hf]].
  - assert (Ef : forall it, v_pred pred (KObj (new_leaf it) (item_score (v_score score) it)) = say it).
    { intros it. unfold say, pred. destruct predicates; reflexivity. }
    destruct A as (looked & rest & A1 & A2 & A3 & A4 & A5 & A6). exists looked, rest.
    assert (Ff : forall l, filter (fun it => fst (v_pred pred (KObj (new_leaf it) (item_score (v_score score) it)))) l = filter (fun it => fst (say it)) l).
    { intros l. apply filter_ext. intros it. rewrite Ef. reflexivity. }
    split; [rewrite P; exact A1|]. split; [exact A2|]. split; [exact A3|]. split; [rewrite <- Ff; exact A4|].
    unfold enough in *. split.
    + intros before x after El Hx. apply (A5 _ _ _ El). rewrite Ef, Ff. exact Hx.
    + intros Hne. destruct (A6 Hne) as (before & x & El & Hx). exists before, x. split; [exact El|]. rewrite <- Ef, <- Ff. exact Hx.
Qed.

(** The queue as a list from which the first smallest distance is taken, and the score by the left edge of the box. *)
Definition first_least (ds : list f64) : list nat :=
  let less i j := flt (nth i ds fzero) (nth j ds fzero) in
  match seq 0 (length ds) with
  | [] => []
  | k :: r => let best := fold_left (fun b i => if less i b then i else b) r k in best :: filter (fun i => negb (Nat.eqb i best)) (k :: r)
  end.
Definition left_score (_ : option node) (b : mbr) (_ : bool) : f64 := minx b.
Definition even_hull (it : option node) (_ : mbr) (_ : bool) (_ : f64) : bool * bool :=
  match it with Some it => (Z.even (n_id it), false) | None => (false, false) end.
Lemma first_least_ok : queue_ok (fun a b => flt a b = true) first_least.
Proof.
  assert (In_best : forall (less : nat -> nat -> bool) r k, In (fold_left (fun b i => if less i b then i else b) r k) (k :: r)).
  { intros less r. induction r as [|i r IH]; intros k; cbn [fold_left]; [left; reflexivity|]. destruct (IH (if less i k then i else k)) as [<- |H]; [|right; right; exact H].
    destruct (less i k); cbn; auto. }
  split.
  - intros ds. unfold first_least. pose proof (seq_NoDup (length ds) 0) as Hn. destruct (seq 0 (length ds)) as [|k r]; [constructor|]. cbv zeta.
    set (best := fold_left _ r k). assert (Hb : In best (k :: r)) by apply In_best. clearbody best. clear In_best.
    revert Hb Hn. generalize (k :: r). intros l Hb Hn. apply NoDup_Permutation; [|exact Hn|].
    + constructor; [|apply NoDup_filter, Hn]. intros K. apply filter_In in K. destruct K as [_ K]. rewrite Nat.eqb_refl in K. discriminate.
    + intros x. split.
      * intros [<- |K]; [exact Hb|]. apply filter_In in K. tauto.
      * intros K. destruct (Nat.eq_dec x best) as [-> |Ne]; [left; reflexivity|]. right. apply filter_In. split; [exact K|]. apply negb_true_iff, Nat.eqb_neq, Ne.
  - intros ds i r j Hn E Hj K. unfold first_least in E. destruct (seq 0 (length ds)) as [|k l] eqn:Es; [discriminate|]. cbv zeta in E.
    set (step := fun b i : nat => if flt (nth i ds fzero) (nth b ds fzero) then i else b) in E.
    assert (Ei : i = fold_left step l k) by (injection E as <- _; reflexivity).
    assert (Er : In j (k :: l)).
    { apply (f_equal (@tl nat)) in E. cbn [tl] in E. rewrite <- E in Hj. apply filter_In in Hj. apply Hj. }
    clear E Hj Es. subst i.
    assert (Nn : forall m, is_nan (nth m ds fzero) = false).
    { intros m. destruct (nth_in_or_default m ds fzero) as [H|H]; [rewrite Forall_forall in Hn; auto|rewrite H; reflexivity]. }
    assert (B : forall a b, fle (nth (step b a) ds fzero) (nth a ds fzero) = true /\ fle (nth (step b a) ds fzero) (nth b ds fzero) = true).
    { intros a b. unfold step. destruct (flt (nth a ds fzero) (nth b ds fzero)) eqn:Ea.
      - split; [apply fle_refl, Nn|apply flt_le, Ea].
      - split; [apply flt_total; auto|apply fle_refl, Nn]. }
    assert (F : forall l k, fle (nth (fold_left step l k) ds fzero) (nth k ds fzero) = true).
    { clear l k Er K. induction l as [|a l IH]; intros k; cbn [fold_left]; [apply fle_refl, Nn|]. eapply fle_trans; [apply IH|apply B]. }
    assert (G : forall l k, In j (k :: l) -> fle (nth (fold_left step l k) ds fzero) (nth j ds fzero) = true).
    { clear l k Er K. induction l as [|a l IH]; intros k [<- |H]; cbn [fold_left]; try (apply fle_refl, Nn); try (destruct H; fail).
      - eapply fle_trans; [apply F|apply B].
      - destruct H as [<- |H]; [eapply fle_trans; [apply F|apply B]|]. apply IH. right. exact H. }
    rewrite (fle_not_lt _ _ (G l k Er)) in K. discriminate.
Qed.

Example C85_nearest_case :
  m_oracle_ok ex_m /\ Forall good_op ex_mops /\ (forall x y z, fle x y = true -> flt y z = true -> flt x z = true) /\
  queue_ok (fun a b => flt a b = true) first_least /\ boxes_not_farther ex_mops left_score /\
  match m_run ex_m 100 (max_entries 4) (min_entries (max_entries 4)) m_new ex_mops with
  | Ok st =>
      match m_knn 100 first_least st 3 left_score [], m_knn 100 first_least st 2 left_score [even_hull] with
      | Ok a, Ok b => map n_id a = [99; 5; 6]%Z /\ map n_id b = [6; 8]%Z
      | _, _ => False
      end
  | _ => False
  end.
Proof.
  split; [exact ex_m_ok|]. split; [exact (proj1 (proj2 C85_case))|]. split; [intros; eapply fle_lt_trans; eauto|]. split; [exact first_least_ok|]. split.
  - intros b it flag _ H. unfold box_within in H. rewrite !andb_true_iff in H. unfold hull_score, left_score. tauto.
  - vm_compute. repeat split.
Qed.

Print Assumptions C85_nearest_in_memory.
