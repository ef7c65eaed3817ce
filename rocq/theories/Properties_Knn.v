(** Claim C89: nearest-first queries with a limit and a predicate.  Vocabulary: Spec_Knn.v, Spec_Hdb.v. *)
From Verif Require Import M_Base M_Float M_Rng M_Geom M_Node M_Hdb M_Knn Spec Spec_Hdb Spec_Knn
  P_Float P_Hdb P_HdbIns P_HdbQuery P_Tame P_Knn P_KnnLimit P_HdbHist Toy Properties_Hdb.
From Coq Require Import Sorted.
Open Scope Z_scope.

(** The score of a stored hull, and the condition on scores: a box is never farther than a loaded hull it encloses. *)
Definition item_score (score : dbnode -> f64) (it : node) : f64 := score (new_leaf it).
Definition score_ok (ops : list db_op) (score : dbnode -> f64) : Prop :=
  forall d it, (exists items, In (OpLoad items) ops /\ In it items) -> db_item d = None ->
  box_within (n_mbr it) (db_bbox d) = true -> fle (score d) (item_score score it) = true.

(** Any limit, any predicate; [below] = smaller by more than the queue's tolerance. *)
Theorem C89_query :
  forall O cap ops t (below : f64 -> f64 -> Prop) pop limit score predicates, oracle_ok O -> Forall good_op ops ->
  run_ops O (new_hdb cap) ops = Ok t ->
  (forall a b c, fle a b = true -> below b c -> below a c) -> pop_ok below pop -> score_ok ops score ->
  let say it := match predicates with [] => (true, false) | p :: _ => p (KObj (new_leaf it) (item_score score it)) end in
  exists b r, bag_run [] ops b /\ knn_call pop t limit score predicates = Ok r /\
    answers (fun x y => below (item_score score x) (item_score score y)) (fun it => fst (say it)) (fun it => snd (say it)) limit b r.
Proof.
  intros O cap ops t below pop limit score predicates HO Hg Hr Hm Hp Hs say.
  destruct (reach O HO cap ops t Hg Hr) as (T & b & B & P). exists b.
  set (pred := match predicates with [] => default_predicate | p :: _ => p end).
  destruct (knn_any below Hm pop Hp (mag 483) (max_entries cap) (item_score score) score (fun it => eq_refl)
    (fun it => In it (contents (h_root t)))) with (pred := pred) (limit := limit) (m := min_entries (max_entries cap)) (t := t) as (r & E & A); auto.
  - intros d it [h Hw] Hin Hg'. apply Hs.
    + eapply bag_run_loaded; [exact B|]. eapply Permutation_in; [symmetry; exact P|exact Hg'].
    + destruct Hw as (_ & Ei & _). exact Ei.
    + pose proof (sub_ok_items (mag 483) _ d (ex_intro _ h Hw) it Hin) as [_ Hb]. rewrite within_contains. exact Hb.
  - exists r. split; [exact B|]. split; [exact E|].
    destruct A as (looked & rest & A1 & A2 & A3 & A4 & A5 & A6). exists looked, rest.
    assert (F : forall it, say it = pred (KObj (new_leaf it) (item_score score it))).
    { intros it. unfold say, pred. destruct predicates; reflexivity. }
    assert (Ff : forall l, filter (fun it => fst (say it)) l = filter (fun it => fst (pred (KObj (new_leaf it) (item_score score it)))) l).
    { intros l. apply filter_ext. intros it. rewrite F. reflexivity. }
    split; [rewrite P; exact A1|]. split; [exact A2|]. split; [exact A3|]. split; [rewrite Ff; exact A4|].
    unfold enough in *. split.
    + intros before x after El Hx. apply (A5 _ _ _ El). rewrite <- F, <- Ff. exact Hx.
    + intros Hne. destruct (A6 Hne) as (before & x & El & Hx). exists before, x. split; [exact El|]. rewrite F, Ff. exact Hx.
Qed.

Lemma filter_all {A} (l : list A) : filter (fun _ => true) l = l.
Proof. induction l; cbn; congruence. Qed.

Lemma sorted_filter {A} (R : A -> A -> Prop) f l : StronglySorted R l -> StronglySorted R (filter f l).
Proof.
  induction 1 as [|x l H IH F]; cbn [filter]; [constructor|]. destruct (f x); [|exact IH]. constructor; [exact IH|].
  rewrite Forall_forall in *. intros y Hy. apply filter_In in Hy. apply F; tauto.
Qed.

(** No predicate and a limit k > 0: the k nearest, nearest first. *)
Theorem C89_k_nearest :
  forall O cap ops t (below : f64 -> f64 -> Prop) pop k score, oracle_ok O -> Forall good_op ops ->
  run_ops O (new_hdb cap) ops = Ok t ->
  (forall a b c, fle a b = true -> below b c -> below a c) -> pop_ok below pop -> score_ok ops score -> (0 < k)%nat ->
  let nearer x y := below (item_score score x) (item_score score y) in
  exists b r rest, bag_run [] ops b /\ knn_call pop t (Z.of_nat k) score [] = Ok r /\
    Permutation b (r ++ rest) /\ length r = Nat.min k (length b) /\
    StronglySorted (fun x y => ~ nearer y x) r /\ (forall x y, In x r -> In y rest -> ~ nearer y x).
Proof.
  intros O cap ops t below pop k score HO Hg Hr Hm Hp Hs Hk nearer.
  destruct (C89_query O cap ops t below pop (Z.of_nat k) score [] HO Hg Hr Hm Hp Hs)
    as (b & r & B & E & looked & rest & A1 & A2 & A3 & A4 & A5 & A6).
  cbn [fst snd] in *. rewrite filter_all in A4. subst looked. exists b, r, rest.
  split; [exact B|]. split; [exact E|]. split; [exact A1|]. split; [|split; auto].
  assert (Hle : (length r <= k)%nat).
  { destruct (Nat.le_gt_cases (length r) k) as [|Hgt]; [assumption|exfalso].
    assert (Hn : (k < length r)%nat) by lia.
    destruct (nth_error r (k - 1)) as [x|] eqn:Ex; [|apply nth_error_None in Ex; lia].
    destruct (nth_error_split r _ Ex) as (before & after & Er & Hl).
    assert (after = []).
    { apply (A5 _ _ _ Er). right. split; [lia|]. rewrite filter_all, app_length; cbn. lia. }
    subst after. rewrite Er, app_length in Hn. cbn in Hn. lia. }
  pose proof (Permutation_length A1) as Hlen. rewrite app_length in Hlen.
  destruct rest as [|y rest]; [cbn in Hlen; lia|].
  destruct (A6 ltac:(congruence)) as (before & x & Er & [Hx|[_ Hx]]); [discriminate|].
  rewrite filter_all in Hx. lia.
Qed.

(** A predicate that never stops the query and no limit (zero, or negative): everything it takes, nearest first. *)
Theorem C89_all_taken :
  forall O cap ops t (below : f64 -> f64 -> Prop) pop limit score predicates, oracle_ok O -> Forall good_op ops ->
  run_ops O (new_hdb cap) ops = Ok t ->
  (forall a b c, fle a b = true -> below b c -> below a c) -> pop_ok below pop -> score_ok ops score -> limit <= 0 ->
  let say it := match predicates with [] => (true, false) | p :: _ => p (KObj (new_leaf it) (item_score score it)) end in
  (forall it, snd (say it) = false) ->
  let nearer x y := below (item_score score x) (item_score score y) in
  exists b r, bag_run [] ops b /\ knn_call pop t limit score predicates = Ok r /\
    Permutation r (filter (fun it => fst (say it)) b) /\ StronglySorted (fun x y => ~ nearer y x) r.
Proof.
  intros O cap ops t below pop limit score predicates HO Hg Hr Hm Hp Hs Hl say Hst nearer.
  destruct (C89_query O cap ops t below pop limit score predicates HO Hg Hr Hm Hp Hs)
    as (b & r & B & E & looked & rest & A1 & A2 & A3 & A4 & A5 & A6).
  fold say in A4, A5, A6. exists b, r. split; [exact B|]. split; [exact E|].
  assert (rest = []).
  { destruct rest as [|y rest]; [reflexivity|exfalso].
    destruct (A6 ltac:(congruence)) as (before & x & Er & [Hx|[H1 H2]]); [change (snd (say x) = true) in Hx; rewrite Hst in Hx; discriminate|lia]. }
  subst rest. rewrite app_nil_r in A1. split.
  - rewrite A4. apply filter_perm. symmetry; exact A1.
  - rewrite A4. apply sorted_filter. exact A2.
Qed.

(** The history of C11-C15, scored from left to right (by the left edge of the box): eleven hulls, the three leftmost, every second one,
    and a query that its predicate stops. *)
Definition ex_score (d : dbnode) : f64 := minx (db_bbox d).
Definition even_id (k : kobj) : bool * bool :=
  match db_item (k_nd k) with Some it => (Z.even (n_id it), false) | None => (false, false) end.
Definition until_7 (k : kobj) : bool * bool :=
  match db_item (k_nd k) with Some it => (true, n_id it =? 7) | None => (false, false) end.

Example C89_case :
  oracle_ok plain_oracle /\ Forall good_op ex_ops /\ pop_ok (fun a b => flt a b = true) plain_pop /\
  (forall a b c, fle a b = true -> flt b c = true -> flt a c = true) /\ score_ok ex_ops ex_score /\
  match run_ops plain_oracle (new_hdb 4) ex_ops with
  | Ok t =>
      match knn_call plain_pop t 3 ex_score [], knn_call plain_pop t 2 ex_score [even_id; until_7],
            knn_call plain_pop t 0 ex_score [until_7], knn_call plain_pop t (-2) ex_score [] with
      | Ok a, Ok b, Ok c, Ok d =>
          map n_id a = [99; 2; 3] /\ map n_id b = [2; 6] /\ map n_id c = [99; 2; 3; 5; 6; 7] /\ length d = 11%nat
      | _, _, _, _ => False
      end
  | _ => False
  end.
Proof.
  split; [exact plain_oracle_ok|]. split; [|split; [exact plain_pop_ok|split; [|split]]].
  - repeat constructor; vm_compute; repeat split; try reflexivity; discriminate.
  - intros. eapply fle_lt_trans; eauto.
  - intros d it _ _ H. unfold box_within in H. rewrite !andb_true_iff in H. unfold item_score, ex_score. cbn. tauto.
  - vm_compute. repeat split.
Qed.

Print Assumptions C89_query.
Print Assumptions C89_k_nearest.
Print Assumptions C89_all_taken.
