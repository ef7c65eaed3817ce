(** Claim C85: the spatial index as it lies in memory.  Vocabulary: Spec_HdbMem.v, Spec_Hdb.v. *)
From Verif Require Import M_Base M_Float M_Rng M_Geom M_Node M_Slice M_Hdb M_HdbMem Spec Spec_Hdb Spec_HdbMem
  P_Float P_Hdb P_HdbIns P_HdbQuery P_Tame P_HdbHist P_HdbMem P_HdbMemRm Toy Properties_Hdb.
Open Scope nat_scope.

Lemma value_oracle_ok O : m_oracle_ok O -> oracle_ok (value_oracle O).
Proof.
  intros [H1 H2 H3]. split; cbn [value_oracle o_sort o_msel o_height]; [|exact H2|exact H3].
  intros ax l. specialize (H1 ax (map db_bbox l)). rewrite map_length in H1. rewrite H1.
  generalize (bare zero_cell). intros d. clear. induction l as [|x l IH] using rev_ind; [constructor|].
  rewrite app_length. cbn [length]. rewrite Nat.add_1_r, seq_S, map_app. cbn [map Nat.add]. apply Permutation_app.
  - erewrite map_ext_in; [exact IH|]. intros k Hk. apply in_seq in Hk. cbn beta. apply app_nth1. lia.
  - rewrite app_nth2, Nat.sub_diag by lia. reflexivity.
Qed.

Lemma run_holds O cap ops : m_oracle_ok O -> forall st t, tree_ok (mag 483) (max_entries cap) (min_entries (max_entries cap)) t ->
  holds st (h_root t) -> Forall good_op ops ->
  exists N st' t', run_ops (value_oracle O) t ops = Ok t' /\ holds st' (h_root t') /\
    forall fuel, N <= fuel -> m_run O fuel (max_entries cap) (min_entries (max_entries cap)) st ops = Ok st'.
Proof.
  intros HO. pose proof (value_oracle_ok O HO) as HV. set (M := max_entries cap). set (m := min_entries M).
  induction ops as [|o ops IH]; intros st t T H Hg; [exists 0, st, t; cbn; auto|].
  inversion Hg as [|? ? G1 G2]; subst.
  destruct (run_ops_spec _ HV cap [o] t T ltac:(constructor; [exact G1|constructor])) as (t1 & b & E1 & T1 & _).
  pose proof T as (Hmx & Hmn & Hroot). destruct t as [r mx mn]. cbn [h_max h_min h_root] in *. fold M m in Hmx, Hmn. subst mx mn.
  assert (S1 : exists N1 st1, holds st1 (h_root t1) /\ forall fuel, N1 <= fuel ->
    match o with OpLoad items => m_load O M m st items | OpRemove it => m_remove fuel st it end = Ok st1).
  { destruct o as [items|it]; cbn [run_ops] in E1.
    - destruct (load (value_oracle O) (Hdb r M m) items) as [t1'| |] eqn:El; try discriminate. cbn [bind] in E1. injection E1 as ->.
      destruct (load_holds O (mok_sort O HO) M m st r items t1 H El) as (st1 & L1 & L2 & _). exists 0, st1. auto.
    - injection E1 as <-. assert (Hs : r = empty_root \/ exists h, balanced M (S h) r).
      { destruct Hroot as [Hr|[h Hr]]; [auto|]. right. exists h. apply (wf_balanced cap). exact Hr. }
      destruct (remove_holds M st r M m it H Hs) as (N1 & st1 & R1 & R2). exists N1, st1. auto. }
  destruct S1 as (N1 & st1 & H1 & S1).
  destruct (IH st1 t1 T1 H1 G2) as (N2 & st2 & t2 & E2 & H2 & S2).
  exists (Nat.max N1 N2), st2, t2. split; [|split; [exact H2|]].
  - destruct o as [items|it]; cbn [run_ops] in *.
    + destruct (load (value_oracle O) (Hdb r M m) items) as [t1'| |]; try discriminate. cbn [bind] in *. injection E1 as ->. exact E2.
    + injection E1 as <-. exact E2.
  - intros fuel Hf. specialize (S1 fuel ltac:(lia)). specialize (S2 fuel ltac:(lia)).
    destruct o as [items|it]; cbn [m_run]; rewrite S1; exact S2.
Qed.

Lemma new_holds : holds m_new empty_root.
Proof.
  exists []. apply (Rep [] [] None 1 true empty_mbr nil_slice []); [split; [reflexivity|]; split; [auto|]; cbn; congruence|unfold kids_of; cbn; constructor|constructor].
Qed.

(** ** C85: any history of loads and removals, done through pointers into shared arrays, ends, never panics, and leaves an
    index that answers for exactly the bag of hulls of that history.  [fuel] bounds the steps of one removal or query. *)
Theorem C85_index_in_memory :
  forall O cap ops, m_oracle_ok O -> Forall good_op ops ->
  exists N st b,
    (forall fuel, N <= fuel -> m_run O fuel (max_entries cap) (min_entries (max_entries cap)) m_new ops = Ok st) /\
    bag_run [] ops b /\
    (exists r, (forall fuel, N <= fuel -> m_all fuel st = Ok r) /\ Permutation r b) /\
    (forall q, num_box q -> exists r, (forall fuel, N <= fuel -> m_search fuel st q = Ok r) /\
      Permutation r (filter (fun it => boxes_meet q (n_mbr it)) b)) /\
    (forall q, num_box q -> forall fuel, N <= fuel -> m_collides fuel st q = Ok (existsb (fun it => boxes_meet q (n_mbr it)) b)) /\
    (m_is_empty st = true <-> b = []).
Proof.
  intros O cap ops HO Hg. pose proof (value_oracle_ok O HO) as HV.
  destruct (run_holds O cap ops HO m_new (new_hdb cap) (new_ok cap) new_holds Hg) as (N & st & t & E & H & S).
  destruct (reach _ HV cap ops t Hg E) as (T & b & B & P).
  destruct t as [r mx mn] eqn:Et. destruct (queries_hold st r mx mn H) as (Q1 & Q2 & Q3 & Q4). rewrite <- Et in *. cbn [h_root] in *.
  exists (Nat.max N (db_size r)), st, b. split; [|split; [exact B|split; [|split; [|split]]]].
  - intros fuel Hf. apply S. lia.
  - destruct (all_spec _ _ _ t T) as (l & El & Pl). exists l. split; [intros fuel Hf; apply (Q1 l El); lia|]. rewrite Pl. symmetry. exact P.
  - intros q Hq. destruct (search_bag cap t q T Hq) as (l & El & Pl). exists l. split; [intros fuel Hf; apply (Q2 q l El); lia|].
    rewrite Pl. apply filter_perm. symmetry. exact P.
  - intros q Hq fuel Hf. rewrite (Q3 q _ (collides_bag cap t q T Hq)) by lia. f_equal. clear -P. subst.
    apply eq_true_iff_eq. rewrite !existsb_exists. split; intros (x & Hx & Hy); exists x; (split; [|exact Hy]).
    + eapply Permutation_in; [symmetry; exact P|exact Hx].
    + eapply Permutation_in; [exact P|exact Hx].
  - rewrite Q4. clear -P T. destruct T as (_ & _ & [E|(h & W)]).
    + assert (Eb : contents (h_root t) = []) by (rewrite E; reflexivity). rewrite Eb in P.
      apply Permutation_sym, Permutation_nil in P. unfold is_empty. rewrite E. cbn. split; auto.
    + pose proof (wf_nonempty _ _ _ _ W) as K. rewrite <- (contents_wf _ _ _ _ W) in K.
      destruct W as (_ & _ & _ & N & _). unfold is_empty. destruct (db_children (h_root t)); [congruence|]. split; [discriminate|].
      intros ->. apply Permutation_nil in P. congruence.
Qed.

(** The tree it leaves is the one of the model on values, and no array of nodes belongs to two nodes of the tree. *)
Theorem C85_no_node_is_shared :
  forall O cap ops, m_oracle_ok O -> Forall good_op ops ->
  exists N st t, (forall fuel, N <= fuel -> m_run O fuel (max_entries cap) (min_entries (max_entries cap)) m_new ops = Ok st) /\
    run_ops (value_oracle O) (new_hdb cap) ops = Ok t /\ exists f, rep (ms_heap st) (h_root t) (ms_root st) f /\ NoDup f.
Proof.
  intros O cap ops HO Hg.
  destruct (run_holds O cap ops HO m_new (new_hdb cap) (new_ok cap) new_holds Hg) as (N & st & t & E & (f & H) & S).
  exists N, st, t. split; [exact S|]. split; [exact E|]. exists f. split; [exact H|]. eapply rep_nodup. exact H.
Qed.

(** An insertion sort of the lower corners as sort.Sort, spare room for one node in every new array. *)
Definition ex_m_sort (ax : bool) (bs : list mbr) : list nat :=
  let key k := let b := nth k bs empty_mbr in if ax then minx b else miny b in
  fold_right (fun k l => filter (fun j => flt (key j) (key k)) l ++ k :: filter (fun j => negb (flt (key j) (key k))) l) [] (seq 0 (length bs)).
Definition ex_m : m_oracle := MOracle ex_m_sort (o_msel plain_oracle) (o_height plain_oracle) (o_eps plain_oracle) (fun _ => 1).

Lemma filter_parts {A} (f : A -> bool) l : Permutation (filter f l ++ filter (fun x => negb (f x)) l) l.
Proof.
  induction l as [|a l IH]; [constructor|]. cbn [filter]. destruct (f a); cbn [negb app]; [constructor; exact IH|].
  etransitivity; [symmetry; apply Permutation_middle|]. constructor. exact IH.
Qed.
Lemma ex_m_ok : m_oracle_ok ex_m.
Proof.
  pose proof plain_oracle_ok as [_ H2 H3]. split; cbn [ex_m mo_sort mo_msel mo_height]; [|exact H2|exact H3].
  intros ax bs. unfold ex_m_sort. cbv zeta. induction (seq 0 (length bs)) as [|k l IH]; [constructor|]. cbn [fold_right].
  etransitivity; [symmetry; apply Permutation_middle|]. constructor. etransitivity; [apply filter_parts|]. exact IH.
Qed.

(** A history with splits, growth of arrays with and without spare room, a removal that empties a node and one of an
    absent hull; the long hull stays findable. *)
Definition ex_mops : list db_op :=
  map (fun k => OpLoad [ex_item k]) (zseq 1 9) ++ [OpRemove (ex_item 4); OpLoad (map ex_item (zseq 10 18)); OpRemove (ex_item 40); OpLoad [ex_long];
   OpRemove (ex_item 1); OpRemove (ex_item 2); OpRemove (ex_item 3)].
Example C85_case :
  m_oracle_ok ex_m /\ Forall good_op ex_mops /\ num_box ex_q /\
  match m_run ex_m 100 (max_entries 4) (min_entries (max_entries 4)) m_new ex_mops with
  | Ok st => c_height (ms_root st) = 3 /\ 5 < length (ms_heap st) /\
      match m_all 100 st, m_search 100 st ex_q with
      | Ok a, Ok r => length a = 15 /\ In 99%Z (map n_id r) /\ In 5%Z (map n_id r) /\ ~ In 4%Z (map n_id r)
      | _, _ => False
      end
  | _ => False
  end.
Proof.
  split; [exact ex_m_ok|]. split; [|split; [vm_compute; auto|]].
  - repeat constructor; vm_compute; repeat split; try reflexivity; discriminate.
  - vm_compute. repeat split; try tauto. all: intuition (discriminate || auto 20).
Qed.

Print Assumptions C85_index_in_memory.
Print Assumptions C85_no_node_is_shared.
