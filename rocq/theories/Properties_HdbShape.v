(** Claims C87 and C88: the index stays shallow; where a hull goes and where an overfull node is cut.
    Vocabulary: Spec_HdbShape.v, Spec_Hdb.v. *)
From Verif Require Import M_Base M_Float M_Rng M_Geom M_Node M_Slice M_Hdb M_HdbMem Spec Spec_Hdb Spec_HdbMem Spec_HdbShape
  P_Base P_Float P_Hdb P_HdbIns P_HdbLoad P_HdbQuery P_Tame P_HdbHist P_HdbDepth P_HdbShape P_HdbMem P_HdbMemRm Toy Properties_Hdb Properties_HdbMem.
Open Scope nat_scope.

(** ** C87: after any history of loads and removals that leaves hulls in the index, all hulls hang at the same depth, and
    that depth is at most one more than the binary logarithm of the number of hulls ever loaded. *)
Lemma run_deep O cap ops : oracle_ok O -> forall t t' w,
  tree_ok (mag 483) (max_entries cap) (min_entries (max_entries cap)) t -> deep t w -> Forall good_op ops ->
  run_ops O t ops = Ok t' -> deep t' (w + loaded ops).
Proof.
  intros HO. pose proof (max_entries_ge cap) as H4. pose proof (min_entries_le _ H4) as H2m. pose proof (min_entries_ge2 (max_entries cap)) as H2.
  induction ops as [|o ops IH]; intros t t' w T D Hg E; cbn [run_ops loaded] in *.
  - injection E as <-. rewrite Nat.add_0_r. exact D.
  - inversion Hg as [|? ? G1 G2]; subst.
    destruct (run_ops_spec O HO cap [o] t T ltac:(constructor; [exact G1|constructor])) as (t1 & b & E1 & T1 & _).
    destruct o as [items|it]; cbn [run_ops loaded] in *.
    + destruct (load O t items) as [t1'| |] eqn:El; try discriminate. cbn [bind] in *. injection E1 as ->.
      rewrite Nat.add_assoc. apply (IH t1); auto.
      apply (load_hv (mag 483) tame_483 O HO _ _ H2 H4 H2m t); auto.
      eapply Forall_impl; [|exact G1]. intros a. apply good_item_ok.
    + injection E1 as <-. apply (IH (remove t it)); auto.
      eapply remove_hv; eauto.
Qed.

Theorem C87_shallow :
  forall O cap ops t, oracle_ok O -> Forall good_op ops -> run_ops O (new_hdb cap) ops = Ok t ->
  db_children (h_root t) <> [] ->
  exists h, balanced (max_entries cap) (S h) (h_root t) /\ 2 ^ h <= loaded ops.
Proof.
  intros O cap ops t HO Hg E Hne.
  destruct (reach O HO cap ops t Hg E) as (T & _).
  pose proof (run_deep O cap ops HO (new_hdb cap) t 0 (new_ok cap) (or_introl eq_refl) Hg E) as D.
  destruct T as (_ & _ & [T|[h T]]); [rewrite T in Hne; cbn in Hne; congruence|].
  exists h. split; [apply (wf_balanced cap); exact T|].
  destruct D as [D|D]; [rewrite D in Hne; cbn in Hne; congruence|].
  rewrite (wf_height _ _ _ _ T) in D. apply hv_pow in D. cbn [Nat.sub] in D. rewrite Nat.sub_0_r in D. exact D.
Qed.

(** The same of the index in memory, whose nodes store their height. *)
Theorem C87_shallow_in_memory :
  forall O cap ops, m_oracle_ok O -> Forall good_op ops ->
  exists N st, (forall fuel, N <= fuel -> m_run O fuel (max_entries cap) (min_entries (max_entries cap)) m_new ops = Ok st) /\
    (m_is_empty st = true \/ (1 <= c_height (ms_root st) /\ 2 ^ (c_height (ms_root st) - 1) <= loaded ops)).
Proof.
  intros O cap ops HO Hg. pose proof (value_oracle_ok O HO) as HV.
  destruct (run_holds O cap ops HO m_new (new_hdb cap) (new_ok cap) new_holds Hg) as (N & st & t & E & H & S1).
  exists N, st. split; [exact S1|].
  destruct (queries_hold st (h_root t) (h_max t) (h_min t) H) as (_ & _ & _ & Q).
  destruct (m_is_empty st) eqn:Em; [left; reflexivity|right].
  assert (Hne : db_children (h_root t) <> []).
  { intros X. unfold is_empty in Q. cbn [h_root] in Q. rewrite X in Q. discriminate. }
  destruct (C87_shallow _ cap ops t HV Hg E Hne) as (h & B & L).
  destruct H as (f & H). inversion H as [ch it hh l b s fs K1 K2 K3 K4 K5]. cbn [c_height].
  rewrite <- K4 in B. inversion B; subst. cbn [Nat.sub]. rewrite Nat.sub_0_r. split; [lia|exact L].
Qed.

(** Three levels over the nineteen hulls loaded in the history of C85. *)
Example C87_case :
  oracle_ok (value_oracle ex_m) /\ Forall good_op ex_mops /\ loaded ex_mops = 19 /\
  match run_ops (value_oracle ex_m) (new_hdb 4) ex_mops with
  | Ok t => db_children (h_root t) <> [] /\ db_height (h_root t) = 3
  | _ => False
  end.
Proof.
  split; [apply value_oracle_ok, ex_m_ok|]. split; [exact (proj1 (proj2 C85_case))|]. split; [vm_compute; reflexivity|].
  vm_compute. split; [discriminate|reflexivity].
Qed.

(** ** C88: an overfull node is cut in two along one axis, at a place where no other admissible cut gives parts that
    overlap less; each part gets the minimal number of entries at least and the smallest box around them. *)
Theorem C88_cut :
  forall O cap nd,
  let m := min_entries (max_entries cap) in
  oracle_ok O -> (forall ax l, (forall c, In c l -> num_box (db_bbox c)) -> in_order ax (o_sort O ax l)) ->
  length (db_children nd) = S (max_entries cap) -> (forall c, In c (db_children nd) -> real_box (db_bbox c)) ->
  let '(a, s) := split_node O m nd in
  exists ax c k,
    Permutation (db_children nd) c /\ in_order ax c /\ db_children a = firstn k c /\ db_children s = skipn k c /\
    m <= length (db_children a) /\ m <= length (db_children s) /\
    surrounds (db_bbox a) (db_children a) /\ surrounds (db_bbox s) (db_children s) /\
    db_height a = db_height nd /\ db_height s = db_height nd /\ db_leaf a = db_leaf nd /\ db_leaf s = db_leaf nd /\
    forall j, m <= j -> m <= length c - j ->
      fle (common_area (db_bbox a) (db_bbox s)) (common_area (dist_bbox (firstn j c)) (dist_bbox (skipn j c))) = true.
Proof.
  intros O cap nd m HO Hs Hl Hr. pose proof (max_entries_ge cap) as H4. pose proof (min_entries_le _ H4) as H2m.
  pose proof (min_entries_ge2 (max_entries cap)) as H2. fold m in H2m, H2.
  unfold split_node. cbv zeta. destruct nd as [ch it hh lf bb]. cbn [db_children db_height db_leaf] in *.
  pose proof (split_axis_perm O HO m ch) as Hp.
  assert (Hax : exists ax, in_order ax (choose_split_axis O ch m (length ch))).
  { assert (Nb : forall l, Permutation ch l -> forall c, In c l -> num_box (db_bbox c)).
    { intros l Pl c Hc. assert (R : real_box (db_bbox c)) by (apply Hr; eapply Permutation_in; [symmetry; exact Pl|exact Hc]).
      destruct R as ((A & _) & (B & _) & (C & _) & (D & _)).
      repeat split; apply fin_not_nan; eapply mag_fin; eassumption. }
    pose proof (ok_sort O HO) as Ps.
    unfold choose_split_axis. cbv zeta.
    match goal with |- context [if ?x then _ else _] => destruct x end; [exists true|exists false]; apply Hs, Nb.
    - etransitivity; [apply (Ps true)|apply (Ps false)].
    - apply Ps. }
  destruct Hax as (ax & Hax).
  set (c := choose_split_axis O ch m (length ch)) in *.
  assert (Hlc : length c = length ch) by (symmetry; apply Permutation_length; exact Hp).
  assert (Hb : forall x, In x c -> real_box (db_bbox x)).
  { intros x Hx. apply Hr. eapply Permutation_in; [symmetry; exact Hp|exact Hx]. }
  assert (Hb' : forall x, In x c -> box_all (mag 483) (db_bbox x)) by (intros x Hx; apply real_box_all, Hb, Hx).
  assert (Hn : forall x, In x c -> box_nonan (db_bbox x)).
  { intros x Hx. eapply box_all_nonan; [apply tame_483|apply Hb', Hx]. }
  destruct (cut_least (mag 483) c m tame_483 ltac:(lia) ltac:(lia) Hb') as (Hk & Hmin).
  rewrite <- Hlc. set (k := choose_split_index c m (length c)) in *.
  assert (Hnum : forall j, m <= j <= length c - m -> num_box (dist_bbox (firstn j c)) /\ num_box (dist_bbox (skipn j c))).
  { intros j Hj. split; apply (box_all_nonan (mag 483)); try exact tame_483; apply dist_bbox_all; try exact tame_483.
    - intros X. apply (f_equal (@length _)) in X. rewrite firstn_length in X. cbn in X. lia.
    - intros x Hx. apply Hb'. eapply firstn_In; eauto.
    - intros X. apply (f_equal (@length _)) in X. rewrite skipn_length in X. cbn in X. lia.
    - intros x Hx. apply Hb'. eapply skipn_In; eauto. }
  exists ax, c, k. cbn [set_children create_dbnode calc_bbox db_children db_bbox db_height db_leaf].
  split; [exact Hp|]. split; [exact Hax|]. split; [reflexivity|]. split; [reflexivity|].
  split; [rewrite firstn_length; lia|]. split; [rewrite skipn_length; lia|].
  split; [apply dist_surrounds; intros x Hx; apply Hn; eapply firstn_In; eauto|].
  split; [apply dist_surrounds; intros x Hx; apply Hn; eapply skipn_In; eauto|].
  split; [reflexivity|]. split; [reflexivity|]. split; [reflexivity|]. split; [reflexivity|].
  intros j J1 J2. destruct (Hnum k Hk) as (K1 & K2). destruct (Hnum j ltac:(lia)) as (K3 & K4).
  rewrite <- (common_is _ _ K1 K2), <- (common_is _ _ K3 K4). apply Hmin. lia.
Qed.

(** Cuts with the same overlap as the one taken: an earlier one has parts of a larger total area; a later one is passed
    over because some cut up to the one taken has no larger total area. *)
Theorem C88_ties :
  forall O cap nd,
  let m := min_entries (max_entries cap) in
  oracle_ok O -> length (db_children nd) = S (max_entries cap) -> (forall c, In c (db_children nd) -> real_box (db_bbox c)) ->
  let '(a, s) := split_node O m nd in
  exists c k (lo hi : nat -> mbr),
    let areas j := fadd (box_area (lo j)) (box_area (hi j)) in
    Permutation (db_children nd) c /\ db_children a = firstn k c /\ db_children s = skipn k c /\ m <= k /\ m <= length c - k /\
    forall j, m <= j -> m <= length c - j -> surrounds (lo j) (firstn j c) /\ surrounds (hi j) (skipn j c) /\
      (feq (common_area (lo j) (hi j)) (common_area (lo k) (hi k)) = true ->
       (j < k -> flt (areas k) (areas j) = true) /\ exists i, m <= i /\ i <= k /\ fle (areas i) (areas j) = true).
Proof.
  intros O cap nd m HO Hl Hr. pose proof (max_entries_ge cap) as H4. pose proof (min_entries_le _ H4) as H2m.
  pose proof (min_entries_ge2 (max_entries cap)) as H2. fold m in H2m, H2.
  unfold split_node. cbv zeta. destruct nd as [ch it hh lf bb]. cbn [db_children db_height db_leaf] in *.
  pose proof (split_axis_perm O HO m ch) as Hp.
  set (c := choose_split_axis O ch m (length ch)) in *.
  assert (Hlc : length c = length ch) by (symmetry; apply Permutation_length; exact Hp).
  assert (Hb' : forall x, In x c -> box_all (mag 483) (db_bbox x)).
  { intros x Hx. apply real_box_all, Hr. eapply Permutation_in; [symmetry; exact Hp|exact Hx]. }
  assert (Hn : forall x, In x c -> box_nonan (db_bbox x)).
  { intros x Hx. eapply box_all_nonan; [apply tame_483|apply Hb', Hx]. }
  destruct (cut_least (mag 483) c m tame_483 ltac:(lia) ltac:(lia) Hb') as (Hk & _).
  pose proof (cut_ties c m ltac:(lia) ltac:(lia) Hb') as Ht. cbv zeta in Ht.
  rewrite <- Hlc. set (k := choose_split_index c m (length c)) in *.
  assert (Hnum : forall j, m <= j <= length c - m -> num_box (dist_bbox (firstn j c)) /\ num_box (dist_bbox (skipn j c))).
  { intros j Hj. split; apply (box_all_nonan (mag 483)); try exact tame_483; apply dist_bbox_all; try exact tame_483.
    - intros X. apply (f_equal (@length _)) in X. rewrite firstn_length in X. cbn in X. lia.
    - intros x Hx. apply Hb'. eapply firstn_In; eauto.
    - intros X. apply (f_equal (@length _)) in X. rewrite skipn_length in X. cbn in X. lia.
    - intros x Hx. apply Hb'. eapply skipn_In; eauto. }
  exists c, k, (fun j => dist_bbox (firstn j c)), (fun j => dist_bbox (skipn j c)).
  cbn [set_children create_dbnode calc_bbox db_children].
  split; [exact Hp|]. split; [reflexivity|]. split; [reflexivity|]. split; [lia|]. split; [lia|].
  intros j J1 J2. split; [apply dist_surrounds; intros x Hx; apply Hn; eapply firstn_In; eauto|].
  split; [apply dist_surrounds; intros x Hx; apply Hn; eapply skipn_In; eauto|].
  intros E. destruct (Hnum k Hk) as (K1 & K2). destruct (Hnum j ltac:(lia)) as (K3 & K4).
  rewrite <- (common_is _ _ K1 K2), <- (common_is _ _ K3 K4) in E.
  destruct (Ht j ltac:(lia) E) as (T1 & i & T2 & T3). split; [exact T1|]. exists i. split; [lia|]. split; [lia|exact T3].
Qed.

(** The axis of the cut: the entries are put in order along x and along y; over all groups that the admissible cuts of an
    order make, the lengths of the boundaries of the smallest boxes are added up; the axis with the smaller sum is taken. *)
Theorem C88_axis :
  forall O cap nd,
  let m := min_entries (max_entries cap) in
  oracle_ok O -> (forall ax l, (forall c, In c l -> num_box (db_bbox c)) -> in_order ax (o_sort O ax l)) ->
  length (db_children nd) = S (max_entries cap) -> (forall c, In c (db_children nd) -> real_box (db_bbox c)) ->
  let '(a, s) := split_node O m nd in
  exists cx cy bx by_,
    Permutation (db_children nd) cx /\ in_order true cx /\ Forall2 surrounds bx (groups m cx) /\
    Permutation (db_children nd) cy /\ in_order false cy /\ Forall2 surrounds by_ (groups m cy) /\
    if flt (total_girth bx) (total_girth by_)
    then in_order true (db_children a ++ db_children s)
    else in_order false (db_children a ++ db_children s).
Proof.
  intros O cap nd m HO Hs Hl Hr. pose proof (max_entries_ge cap) as H4. pose proof (min_entries_le _ H4) as H2m. fold m in H2m.
  unfold split_node. cbv zeta. destruct nd as [ch it hh lf bb]. cbn [db_children db_height db_leaf] in *.
  cbn [set_children create_dbnode calc_bbox db_children]. rewrite firstn_skipn.
  assert (Nb : forall l, Permutation ch l -> forall c, In c l -> num_box (db_bbox c)).
  { intros l Pl c Hc. assert (R : real_box (db_bbox c)) by (apply Hr; eapply Permutation_in; [symmetry; exact Pl|exact Hc]).
    destruct R as ((A & _) & (B & _) & (C & _) & (D & _)).
    repeat split; apply fin_not_nan; eapply mag_fin; eassumption. }
  pose proof (ok_sort O HO) as Ps.
  unfold choose_split_axis. cbv zeta. set (cx := o_sort O true ch). set (cy := o_sort O false cx).
  assert (Px : Permutation ch cx) by apply Ps. assert (Py : Permutation ch cy) by (etransitivity; [exact Px|apply Ps]).
  pose proof (Permutation_length Px) as Lx. pose proof (Permutation_length Py) as Ly.
  destruct (margin_is cx m ltac:(lia) (Nb cx Px)) as (bx & Fx & Ex). destruct (margin_is cy m ltac:(lia) (Nb cy Py)) as (by_ & Fy & Ey).
  rewrite <- Lx in Ex. rewrite <- Ly in Ey. rewrite Ex, Ey.
  exists cx, cy, bx, by_. split; [exact Px|]. split; [apply Hs, Nb; reflexivity|]. split; [exact Fx|]. split; [exact Py|].
  split; [apply Hs, Nb; exact Px|]. split; [exact Fy|].
  destruct (flt (total_girth bx) (total_girth by_)); apply Hs, Nb; assumption.
Qed.

(** The child an entry goes down to: the area it would have to cover with the entry is the least there is, up to the
    tolerance math.EPSILON. *)
Theorem C88_descent :
  forall eps b l, real_box b -> l <> [] -> (forall c, In c l -> real_box (db_bbox c)) ->
  exists i c least, choose_child eps b l = Some i /\ nth_error l i = Some c /\
    (exists d, In d l /\ stretched_area b (db_bbox d) = least) /\
    (forall d, In d l -> fle least (stretched_area b (db_bbox d)) = true) /\
    (fle (stretched_area b (db_bbox c)) least = true \/
     flt (fabs (fsub (stretched_area b (db_bbox c)) least)) eps = true).
Proof. exact choose_least. Qed.

(** The comments of the code promise more.  A hull goes to the child with "the least area enlargement": not so, a hull
    inside the box of one child goes to another child, which must grow for it. *)
Definition ex_box (a b c d : Z) : mbr := MBR (f_of_Z a) (f_of_Z b) (f_of_Z c) (f_of_Z d).
Definition ex_entry (a b c d : Z) : dbnode := DbNode [] None 1 true (ex_box a b c d).

Theorem C88_least_enlargement_refuted :
  ~ forall eps b l i c d, real_box b -> (forall c, In c l -> real_box (db_bbox c)) ->
    choose_child eps b l = Some i -> nth_error l i = Some c -> In d l ->
    box_within b (db_bbox d) = true -> box_within b (db_bbox c) = true.
Proof.
  intros H.
  specialize (H fzero (ex_box 9 0 10 1) [ex_entry 0 0 10 10; ex_entry 11 0 12 1] 1 (ex_entry 11 0 12 1) (ex_entry 0 0 10 10)).
  assert (X : box_within (ex_box 9 0 10 1) (db_bbox (ex_entry 11 0 12 1)) = true).
  { apply H.
    - vm_compute. intuition discriminate.
    - intros c [<-|[<-|[]]]; vm_compute; intuition discriminate.
    - vm_compute. reflexivity.
    - reflexivity.
    - left. reflexivity.
    - vm_compute. reflexivity. }
  vm_compute in X. discriminate.
Qed.

(** Among cuts of the same least overlap, the one with "minimum area": not so, the area of an earlier cut with a larger
    overlap is still what later areas are compared to. *)
Definition ex_cut : list dbnode :=
  [ex_entry 0 0 100 1; ex_entry 0 0 100 1; ex_entry 90 0 91 50; ex_entry 101 0 102 10; ex_entry 105 0 106 100; ex_entry 106 0 110 100].
Theorem C88_least_area_refuted :
  ~ forall c m k, (forall x, In x c -> real_box (db_bbox x)) -> 1 <= m -> k = choose_split_index c m (length c) ->
    forall j, m <= j -> m <= length c - j ->
    feq (common_area (dist_bbox (firstn j c)) (dist_bbox (skipn j c))) (common_area (dist_bbox (firstn k c)) (dist_bbox (skipn k c))) = true ->
    fle (fadd (box_area (dist_bbox (firstn k c))) (box_area (dist_bbox (skipn k c))))
        (fadd (box_area (dist_bbox (firstn j c))) (box_area (dist_bbox (skipn j c)))) = true.
Proof.
  intros H. specialize (H ex_cut 2 3).
  assert (X : forall j, 2 <= j -> 2 <= length ex_cut - j ->
    feq (common_area (dist_bbox (firstn j ex_cut)) (dist_bbox (skipn j ex_cut))) (common_area (dist_bbox (firstn 3 ex_cut)) (dist_bbox (skipn 3 ex_cut))) = true ->
    fle (fadd (box_area (dist_bbox (firstn 3 ex_cut))) (box_area (dist_bbox (skipn 3 ex_cut))))
        (fadd (box_area (dist_bbox (firstn j ex_cut))) (box_area (dist_bbox (skipn j ex_cut)))) = true).
  { apply H; [|lia|vm_compute; reflexivity].
    intros x [<-|[<-|[<-|[<-|[<-|[<-|[]]]]]]]; vm_compute; intuition discriminate. }
  specialize (X 4 ltac:(lia) ltac:(cbn; lia) ltac:(vm_compute; reflexivity)).
  vm_compute in X. discriminate.
Qed.

(** A sorting order of entries that keeps the hypotheses of [C88_cut]. *)
Fixpoint put (ax : bool) (x : dbnode) (l : list dbnode) : list dbnode :=
  match l with
  | [] => [x]
  | y :: r => if fle (low ax (db_bbox x)) (low ax (db_bbox y)) then x :: l else y :: put ax x r
  end.
Definition put_all (ax : bool) (l : list dbnode) : list dbnode := fold_right (put ax) [] l.

Lemma put_perm ax x l : Permutation (x :: l) (put ax x l).
Proof.
  induction l as [|y r IH]; cbn [put]; [reflexivity|]. destruct (fle _ _); [reflexivity|].
  etransitivity; [apply perm_swap|]. constructor. exact IH.
Qed.
Lemma put_all_perm ax l : Permutation l (put_all ax l).
Proof. induction l as [|x l IH]; cbn; [constructor|]. etransitivity; [apply perm_skip, IH|apply put_perm]. Qed.
Lemma low_num ax b : num_box b -> is_nan (low ax b) = false.
Proof. intros (A & B & _). destruct ax; assumption. Qed.
Lemma put_order ax x l : num_box (db_bbox x) -> (forall c, In c l -> num_box (db_bbox c)) -> in_order ax l -> in_order ax (put ax x l).
Proof.
  intros Nx. induction l as [|y r IH]; intros Nl Hl; cbn [put]; [cbn; split; [intros d []|exact I]|].
  destruct Hl as [H1 H2]. destruct (fle (low ax (db_bbox x)) (low ax (db_bbox y))) eqn:E.
  - split; [|split; assumption]. intros d [<-|Hd]; [exact E|]. eapply fle_trans; [exact E|apply H1, Hd].
  - assert (Ny : num_box (db_bbox y)) by (apply Nl; left; reflexivity). split.
    + intros d Hd. assert (Hd' : In d (x :: r)) by (eapply Permutation_in; [symmetry; apply put_perm|exact Hd]).
      destruct Hd' as [<-|Hd']; [|apply H1, Hd'].
      apply flt_le. apply fle_total; auto using low_num.
    + apply IH; [intros c Hc; apply Nl; right; exact Hc|exact H2].
Qed.
Lemma put_all_order ax l : (forall c, In c l -> num_box (db_bbox c)) -> in_order ax (put_all ax l).
Proof.
  induction l as [|x l IH]; intros N; [exact I|]. cbn [put_all fold_right]. apply put_order.
  - apply N. left. reflexivity.
  - intros c Hc. apply N. right. eapply Permutation_in; [symmetry; apply (put_all_perm ax)|exact Hc].
  - apply IH. intros c Hc. apply N. right. exact Hc.
Qed.

Definition ex_sorts : hdb_oracle := HdbOracle put_all (o_msel plain_oracle) (o_height plain_oracle) fzero.
Lemma ex_sorts_ok : oracle_ok ex_sorts.
Proof. pose proof plain_oracle_ok as [_ H2 H3]. split; [exact put_all_perm|exact H2|exact H3]. Qed.

Definition ex_full : dbnode := DbNode (rev ex_cut) None 2 false (ex_box 0 0 110 100).
Example C88_case :
  oracle_ok ex_sorts /\ (forall ax l, (forall c, In c l -> num_box (db_bbox c)) -> in_order ax (o_sort ex_sorts ax l)) /\
  length (db_children ex_full) = S (max_entries 5) /\ (forall c, In c (db_children ex_full) -> real_box (db_bbox c)) /\
  let '(a, s) := split_node ex_sorts (min_entries (max_entries 5)) ex_full in
  length (db_children a) = 3 /\ length (db_children s) = 3 /\ box_within (ex_box 0 0 50 1) (db_bbox a) = true.
Proof.
  split; [exact ex_sorts_ok|]. split; [exact put_all_order|]. split; [vm_compute; reflexivity|]. split.
  - intros x Hx. apply in_rev in Hx. revert x Hx.
    intros x [<-|[<-|[<-|[<-|[<-|[<-|[]]]]]]]; vm_compute; intuition discriminate.
  - vm_compute. auto.
Qed.
(** No cut of six boxes in a row overlaps; the gap after the third makes the parts small. *)
Definition ex_row : dbnode :=
  DbNode [ex_entry 0 0 1 1; ex_entry 2 0 3 1; ex_entry 4 0 5 1; ex_entry 30 0 31 1; ex_entry 32 0 33 1; ex_entry 34 0 35 1] None 2 false (ex_box 0 0 35 1).
Example C88_ties_case :
  oracle_ok ex_sorts /\ length (db_children ex_row) = S (max_entries 5) /\ (forall c, In c (db_children ex_row) -> real_box (db_bbox c)) /\
  db_children (fst (split_node ex_sorts (min_entries (max_entries 5)) ex_row)) = firstn 3 (db_children ex_row).
Proof.
  split; [exact ex_sorts_ok|]. split; [vm_compute; reflexivity|]. split; [|vm_compute; reflexivity].
  intros x [<-|[<-|[<-|[<-|[<-|[<-|[]]]]]]]; vm_compute; intuition discriminate.
Qed.
Example C88_descent_case :
  real_box (ex_box 9 0 10 1) /\ (forall c, In c ex_cut -> real_box (db_bbox c)) /\ choose_child fzero (ex_box 9 0 10 1) ex_cut = Some 0.
Proof.
  split; [vm_compute; intuition discriminate|]. split; [|vm_compute; reflexivity].
  intros x [<-|[<-|[<-|[<-|[<-|[<-|[]]]]]]]; vm_compute; intuition discriminate.
Qed.

Print Assumptions C87_shallow.
Print Assumptions C87_shallow_in_memory.
Print Assumptions C88_cut.
Print Assumptions C88_ties.
Print Assumptions C88_axis.
Print Assumptions C88_descent.
Print Assumptions C88_least_enlargement_refuted.
Print Assumptions C88_least_area_refuted.
