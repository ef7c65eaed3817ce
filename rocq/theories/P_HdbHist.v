(** Histories of Load and Remove refine a bag of hulls. *)
From Verif Require Import M_Base M_Float M_Rng M_Geom M_Node M_Hdb M_Knn Spec Spec_Hdb P_Base P_Float P_Hdb P_HdbIns P_HdbLoad P_HdbQuery P_Tame P_Knn.
From Coq Require Import Sorted.
Open Scope Z_scope.

Lemma max_entries_ge cap : (4 <= max_entries cap)%nat.
Proof. unfold max_entries. lia. Qed.
Lemma min_entries_ge M : (1 <= min_entries M)%nat.
Proof. unfold min_entries. lia. Qed.
Lemma min_entries_le M : (4 <= M)%nat -> (2 * min_entries M <= M + 1)%nat.
Proof.
  intros H. unfold min_entries.
  pose proof (Nat.div_mod (2 * M + 4) 5 ltac:(lia)).
  pose proof (Nat.mod_upper_bound (2 * M + 4) 5 ltac:(lia)). lia.
Qed.

Lemma good_item_ok it : good_item it <-> item_ok (mag 483) it.
Proof. unfold good_item, item_ok, box_all, box_ok. change (below_pow2 483) with (mag 483). tauto. Qed.

Lemma meet_intersects q b : num_box q -> box_nonan b -> mbr_intersects q b = boxes_meet q b.
Proof.
  intros (A1 & A2 & A3 & A4) (B1 & B2 & B3 & B4). unfold mbr_intersects, boxes_meet.
  assert (K : forall a b, is_nan a = false -> is_nan b = false -> flt a b = negb (fle b a)).
  { intros a c Ha Hc. destruct (fle c a) eqn:E; cbn.
    - apply fle_not_lt; exact E.
    - apply fle_total; auto. }
  assert (Kg : forall a b, is_nan a = false -> is_nan b = false -> fgt a b = negb (fle a b)) by (intros; apply K; auto).
  rewrite !Kg, !K by assumption.
  destruct (fle (minx q) (maxx b)), (fle (minx b) (maxx q)), (fle (miny q) (maxy b)), (fle (miny b) (maxy q)); reflexivity.
Qed.

Lemma within_contains a b : box_within a b = mbr_contains b a.
Proof. unfold box_within, mbr_contains, fge. reflexivity. Qed.

Lemma filter_perm A (f : A -> bool) l l' : Permutation l l' -> Permutation (filter f l) (filter f l').
Proof.
  induction 1; cbn [filter]; auto.
  - destruct (f x); auto.
  - destruct (f x), (f y); auto. apply perm_swap.
  - etransitivity; eauto.
Qed.

Lemma tame_483 : tame (mag 483).
Proof. apply tame_mag; lia. Qed.

Section Hist.
  Variable O : hdb_oracle.
  Hypothesis HO : oracle_ok O.
  Variable cap : Z.
  Let M := max_entries cap.
  Let m := min_entries M.
  Let tok := tree_ok (mag 483) M m.
  Let HT : tame (mag 483) := tame_483.

  Lemma new_ok : tok (new_hdb cap).
  Proof. split; [reflexivity|]. split; [reflexivity|]. left; reflexivity. Qed.

  Lemma run_ops_spec ops : forall t, tok t -> Forall good_op ops ->
    exists t' b, run_ops O t ops = Ok t' /\ tok t' /\
      bag_run (contents (h_root t)) ops b /\ Permutation b (contents (h_root t')).
  Proof.
    assert (H1 : (1 <= m)%nat) by apply min_entries_ge.
    assert (H2 : (4 <= M)%nat) by apply max_entries_ge.
    assert (H3 : (2 * m <= M + 1)%nat) by (apply min_entries_le; exact H2).
    induction ops as [|o ops IH]; intros t Ht Hg.
    - exists t, (contents (h_root t)). repeat split; auto; try apply Ht. constructor.
    - inversion Hg as [|? ? G1 G2]; subst. destruct o as [items|it]; cbn [run_ops good_op] in *.
      + destruct (load_spec (mag 483) HT O HO M m H1 H2 H3 t items Ht) as (t1 & E & T1 & P1).
        { eapply Forall_impl; [|exact G1]. intros a; apply good_item_ok. }
        rewrite E; cbn [bind]. destruct (IH t1 T1 G2) as (t2 & b & R & T2 & B & P2).
        exists t2, b. split; [exact R|]. split; [exact T2|]. split; [|exact P2].
        econstructor; [|exact B]. constructor. exact P1.
      + destruct (remove_spec (mag 483) HT M m H1 H2 H3 t it Ht) as (T1 & C).
        destruct (IH (remove t it) T1 G2) as (t2 & b & R & T2 & B & P2).
        exists t2, b. split; [exact R|]. split; [exact T2|]. split; [|exact P2].
        econstructor; [|exact B]. destruct C as [[E N]|(l1 & x & l2 & E1 & E2 & E3)].
        * rewrite E. apply BagKeep. intros x Hx Hi. rewrite within_contains.
          specialize (N x Hx Hi). unfold box_in in N. destruct (mbr_contains (n_mbr x) (n_mbr it)); congruence.
        * rewrite E1, E3. eapply BagRemove; [exact E2|]. symmetry. apply Permutation_middle.
  Qed.

  Lemma reach ops t : Forall good_op ops -> run_ops O (new_hdb cap) ops = Ok t ->
    tok t /\ exists b, bag_run [] ops b /\ Permutation b (contents (h_root t)).
  Proof.
    intros Hg Hr. destruct (run_ops_spec ops _ new_ok Hg) as (t' & b & E & T & B & P).
    rewrite Hr in E. injection E as <-. split; [exact T|]. exists b; auto.
  Qed.

  Lemma tok_item t it : tok t -> In it (contents (h_root t)) -> good_item it.
  Proof.
    intros (_ & _ & [Hr|[h Hr]]) Hin.
    - rewrite Hr in Hin. destruct Hin.
    - apply good_item_ok. apply (sub_ok_items (mag 483) M (h_root t)); [exists h; exact Hr|exact Hin].
  Qed.

  Lemma good_nonan it : good_item it -> box_nonan (n_mbr it).
  Proof.
    intros H. apply good_item_ok in H. destruct H as [(A & B & C & D) _].
    unfold box_nonan. repeat split; eapply fin_not_nan, (tame_fin _ HT); assumption.
  Qed.

  Lemma search_bag t q : tok t -> num_box q ->
    exists r, search t q = Ok r /\ Permutation r (filter (fun it => boxes_meet q (n_mbr it)) (contents (h_root t))).
  Proof.
    intros Ht Hq. destruct (search_spec (mag 483) M q Hq m t Ht) as (r & E & P).
    exists r. split; [exact E|]. rewrite P.
    rewrite (filter_ext_in (hit q) (fun it => boxes_meet q (n_mbr it))); [reflexivity|]. intros it Hit. apply meet_intersects; [exact Hq|]. apply good_nonan. eapply tok_item; eauto.
  Qed.

  Lemma collides_bag t q : tok t -> num_box q ->
    collides t q = Ok (existsb (fun it => boxes_meet q (n_mbr it)) (contents (h_root t))).
  Proof.
    intros Ht Hq. rewrite (collides_spec (mag 483) M q Hq m t Ht). f_equal.
    assert (G : forall it, In it (contents (h_root t)) -> hit q it = boxes_meet q (n_mbr it)).
    { intros it Hit. apply meet_intersects; [exact Hq|]. apply good_nonan. eapply tok_item; eauto. }
    induction (contents (h_root t)) as [|x l IHl]; [reflexivity|]. cbn [existsb].
    rewrite G by (left; auto). rewrite IHl; [reflexivity|]. intros; apply G; right; auto.
  Qed.

  Lemma wf_balanced h : forall d, wf (mag 483) M h d -> balanced M h d.
  Proof.
    induction h as [|h IH]; intros d Hd.
    - destruct Hd as (it & -> & _). constructor.
    - destruct Hd as (E1 & E2 & E3 & E4 & E5 & _ & E6). destruct d as [ch i hh l b]; cbn in *; subst.
      constructor; auto. eapply Forall_impl; [|exact E6]. intros c [A B]. split; [apply IH, A|].
      rewrite within_contains. exact B.
  Qed.

  Lemma tok_index t : tok t -> index_ok M t.
  Proof.
    intros (_ & _ & [Hr|[h Hr]]); [left; rewrite Hr; reflexivity|right; exists h; apply wf_balanced, Hr].
  Qed.

  (** Nearest neighbours through the program's own score and predicate. *)
  Lemma neighbours_bag L (below : f64 -> f64 -> Prop) pop query dist t :
    (forall a b c, fle a b = true -> below b c -> below a c) -> pop_ok below pop -> tok t ->
    (forall b it, In it (contents (h_root t)) -> box_within (n_mbr it) b = true ->
       fle (gl_dist L query (mbr_polygon b)) (gl_dist L query (n_geom it)) = true) ->
    exists r, context_neighbours L pop t query dist = Ok r /\
      kpost below (fun it => gl_dist L query (n_geom it)) dist (contents (h_root t)) r.
  Proof.
    intros Hm Hp Ht Hd. unfold context_neighbours.
    refine (knn_spec below Hm pop Hp (mag 483) M (fun it => gl_dist L query (n_geom it)) (score_fn L query)
      (fun it => eq_refl) (fun it => In it (contents (h_root t))) _ dist m t Ht (fun it H => H)).
    intros d it Hs Hin Hg. destruct Hs as [h Hw].
    pose proof (sub_ok_items (mag 483) M d (ex_intro _ h Hw) it Hin) as [_ Hb].
    unfold score_fn. destruct Hw as (_ & Ei & _). rewrite Ei. apply Hd; [exact Hg|].
    rewrite within_contains. exact Hb.
  Qed.

  (** With an exact priority queue. *)
  Lemma neighbours_exact L pop query dist t :
    pop_ok (fun a b => flt a b = true) pop -> tok t -> is_nan dist = false ->
    (forall b it, In it (contents (h_root t)) -> box_within (n_mbr it) b = true ->
       fle (gl_dist L query (mbr_polygon b)) (gl_dist L query (n_geom it)) = true) ->
    exists r, context_neighbours L pop t query dist = Ok r /\
      Permutation r (filter (fun it => fle (gl_dist L query (n_geom it)) dist) (contents (h_root t))) /\
      StronglySorted (fun a b => fle (gl_dist L query (n_geom a)) (gl_dist L query (n_geom b)) = true) r.
  Proof.
    intros Hp Ht Hnd Hd.
    assert (Hm : forall a b c, fle a b = true -> flt b c = true -> flt a c = true) by (intros; eapply fle_lt_trans; eauto).
    destruct (neighbours_bag L _ pop query dist t Hm Hp Ht Hd) as (r & E & K).
    exists r. split; [exact E|]. destruct K as [(rest & P1 & P2) Kn Ko].
    assert (Hnan : forall it, In it (contents (h_root t)) -> is_nan (gl_dist L query (n_geom it)) = false).
    { intros it Hit. eapply fle_nan_r, (Hd (n_mbr it)); [exact Hit|].
      pose proof (tok_item t it Ht Hit) as G. destruct G as (G1 & G2 & G3 & G4 & G5 & G6).
      unfold box_within.
      rewrite !fle_refl by (eapply fin_not_nan, (tame_fin _ HT); assumption). reflexivity. }
    assert (Hr : forall it, In it r -> In it (contents (h_root t))).
    { intros it Hit. eapply Permutation_in; [symmetry; exact P1|]. apply in_or_app; auto. }
    split.
    - set (f := fun it => fle (gl_dist L query (n_geom it)) dist).
      assert (Hf : filter f r = r).
      { clear - Kn f. induction r as [|x r IH]; [reflexivity|]. cbn [filter].
        unfold f at 1. rewrite Kn by (left; auto). rewrite IH; [reflexivity|]. intros; apply Kn; right; auto. }
      assert (Hrest : filter f rest = []).
      { assert (G : forall it, In it rest -> f it = false).
        { intros it Hit. destruct (f it) eqn:Ef; [|reflexivity]. exfalso. destruct (P2 it Hit) as (v & Hv & Hlt & Hb).
          apply Hb. unfold f in Ef. apply fle_total in Hlt; auto. eapply fle_lt_trans; eauto. }
        clear - G. induction rest as [|x l IH]; [reflexivity|]. cbn [filter]. rewrite G by (left; auto).
        apply IH. intros; apply G; right; auto. }
      rewrite (filter_perm _ f _ _ P1). rewrite filter_app, Hf, Hrest, app_nil_r. reflexivity.
    - clear - Ko Hnan Hr. induction Ko as [|a l _ IH H].
      + constructor.
      + constructor; [apply IH; intros; apply Hr; right; auto|].
        rewrite Forall_forall in *. intros b Hb. specialize (H b Hb).
        destruct (fle (gl_dist L query (n_geom a)) (gl_dist L query (n_geom b))) eqn:E; [reflexivity|].
        exfalso. apply H. apply fle_total; auto; apply Hnan, Hr; [left|right]; auto.
  Qed.
End Hist.

(** ** Tidy histories determine the bag *)

Lemma tidy_perm ops : forall b b', Permutation b b' -> tidy b ops -> tidy b' ops.
Proof.
  induction ops as [|[items|it] ops IH]; intros b b' Hp Ht; cbn [tidy] in *; auto.
  - destruct Ht as [H1 H2]. assert (Hp' : Permutation (b ++ items) (b' ++ items)) by (apply Permutation_app_tail, Hp).
    split; [|eapply IH; eauto]. eapply Permutation_NoDup; [|exact H1]. apply Permutation_map, Hp'.
  - destruct Ht as [H1 H2]. split.
    + intros x Hx. apply H1. eapply Permutation_in; [symmetry; exact Hp|exact Hx].
    + eapply IH; [|exact H2]. apply filter_perm, Hp.
Qed.

Lemma bag_of_perm ops : forall b b', Permutation b b' -> Permutation (bag_of b ops) (bag_of b' ops).
Proof.
  induction ops as [|[items|it] ops IH]; intros b b' Hp; cbn [bag_of]; auto.
  - apply IH, Permutation_app_tail, Hp.
  - apply IH, filter_perm, Hp.
Qed.

Lemma filter_id_out l i : ~ In i (map n_id l) -> filter (fun x => negb (n_id x =? i)) l = l.
Proof.
  induction l as [|x l IH]; intros H; [reflexivity|]. cbn [filter].
  rewrite IH by (intros Hi; apply H; right; exact Hi).
  destruct (Z.eqb_spec (n_id x) i) as [E|E]; cbn; [|reflexivity].
  exfalso; apply H; left; exact E.
Qed.

Lemma bag_run_tidy ops : forall b b', NoDup (map n_id b) -> tidy b ops -> bag_run b ops b' ->
  Permutation b' (bag_of b ops).
Proof.
  induction ops as [|o ops IH]; intros b b' Hnd Ht Hr.
  - inversion Hr; subst. reflexivity.
  - inversion Hr as [|? ? b1 ? ? Hs Hr1]; subst. destruct o as [items|it]; cbn [tidy bag_of] in *.
    + inversion Hs as [? ? ? Hp| |]; subst. destruct Ht as [H1 H2].
      etransitivity; [eapply IH; [| |exact Hr1]|].
      * eapply Permutation_NoDup; [|exact H1]. apply Permutation_map; symmetry; exact Hp.
      * eapply tidy_perm; [symmetry; exact Hp|exact H2].
      * apply bag_of_perm, Hp.
    + destruct Ht as [H1 H2].
      assert (Hb1 : Permutation b1 (filter (fun x => negb (n_id x =? n_id it)) b)).
      { inversion Hs as [|? ? x ? Hi Hp|? ? Hk]; subst.
        - assert (Hnd' : NoDup (map n_id (x :: b1))) by (eapply Permutation_NoDup; [apply Permutation_map, Hp|exact Hnd]).
          rewrite (filter_perm _ _ _ _ Hp). cbn [filter]. rewrite Hi, Z.eqb_refl; cbn.
          cbn [map] in Hnd'. inversion Hnd'; subst. rewrite Hi in *. rewrite filter_id_out; auto.
        - rewrite filter_id_out; [reflexivity|]. intros Hi. apply in_map_iff in Hi. destruct Hi as (x & Ex & Hx).
          specialize (H1 x Hx Ex). specialize (Hk x Hx Ex). congruence. }
      assert (Hnd1 : NoDup (map n_id (filter (fun x => negb (n_id x =? n_id it)) b))).
      { clear - Hnd. induction b as [|x b IH]; [constructor|]. cbn [filter map] in *. inversion Hnd; subst.
        destruct (negb (n_id x =? n_id it)); [|apply IH; auto]. cbn [map]. constructor; [|apply IH; auto].
        intros Hi. apply H1. apply in_map_iff in Hi. destruct Hi as (y & Ey & Hy). apply filter_In in Hy.
        rewrite <- Ey. apply in_map. apply Hy. }
      etransitivity; [eapply IH; [| |exact Hr1]|].
      * eapply Permutation_NoDup; [apply Permutation_map; symmetry; exact Hb1|exact Hnd1].
      * eapply tidy_perm; [symmetry; exact Hb1|exact H2].
      * apply bag_of_perm, Hb1.
Qed.

(** ** A concrete oracle and a concrete priority queue *)

Fixpoint find_height (M N fuel h : nat) : nat :=
  match fuel with
  | 0%nat => h
  | S f => if Nat.leb N (M ^ h) then h else find_height M N f (S h)
  end.
Definition plain_oracle : hdb_oracle :=
  HdbOracle (fun _ l => l) (fun _ _ l => l) (fun M N => find_height M N N 1) fzero.

Lemma find_height_spec M N : (2 <= M)%nat -> forall fuel h, (1 <= h)%nat -> (M ^ (h - 1) <= N)%nat ->
  (N <= h + fuel)%nat ->
  (1 <= find_height M N fuel h)%nat /\
  (M ^ (find_height M N fuel h - 1) <= N <= M ^ find_height M N fuel h)%nat.
Proof.
  intros HM. induction fuel as [|f IH]; intros h H1 H2 H3; cbn [find_height].
  - split; [exact H1|]. split; [exact H2|]. pose proof (Nat.pow_gt_lin_r M h ltac:(lia)). lia.
  - destruct (Nat.leb_spec N (M ^ h)); [auto|]. apply IH; [lia| |lia].
    replace (S h - 1)%nat with h by lia. lia.
Qed.

Lemma plain_oracle_ok : oracle_ok plain_oracle.
Proof.
  split; cbn [plain_oracle o_sort o_msel o_height]; intros; try reflexivity.
  apply find_height_spec; cbn; lia.
Qed.

Fixpoint pick_min (x : kobj) (l : list kobj) : kobj * list kobj :=
  match l with
  | [] => (x, [])
  | y :: r => if flt (k_dist y) (k_dist x) then let '(z, r') := pick_min y r in (z, x :: r')
              else let '(z, r') := pick_min x r in (z, y :: r')
  end.
Definition plain_pop : popfn := fun q => match q with [] => None | x :: r => Some (pick_min x r) end.

Lemma pick_min_spec l : forall x, is_nan (k_dist x) = false -> Forall (fun k => is_nan (k_dist k) = false) l ->
  let '(z, r) := pick_min x l in
  is_nan (k_dist z) = false /\ fle (k_dist z) (k_dist x) = true /\ forall y, In y r -> fle (k_dist z) (k_dist y) = true.
Proof.
  induction l as [|y l IH]; intros x Hx Hl; cbn [pick_min].
  - split; [exact Hx|]. split; [apply fle_refl, Hx|intros y []].
  - inversion Hl as [|? ? Hy Hl']; subst. destruct (flt (k_dist y) (k_dist x)) eqn:E.
    + specialize (IH y Hy Hl'). destruct (pick_min y l) as [z r]. destruct IH as (A & B & C).
      assert (fle (k_dist z) (k_dist x) = true) by (eapply fle_trans; [exact B|apply flt_le, E]).
      split; [exact A|]. split; [assumption|]. intros w [<-|Hw]; auto.
    + specialize (IH x Hx Hl'). destruct (pick_min x l) as [z r]. destruct IH as (A & B & C).
      split; [exact A|]. split; [exact B|]. intros w [<-|Hw]; auto.
      eapply fle_trans; [exact B|]. apply flt_total; auto.
Qed.

Lemma pick_min_perm l : forall x, let '(z, r) := pick_min x l in Permutation (x :: l) (z :: r).
Proof.
  induction l as [|y l IH]; intros x; cbn [pick_min]; [reflexivity|].
  destruct (flt (k_dist y) (k_dist x)).
  - specialize (IH y). destruct (pick_min y l) as [z r]. rewrite IH. apply perm_swap.
  - specialize (IH x). destruct (pick_min x l) as [z r].
    etransitivity; [apply perm_swap|]. rewrite IH. apply perm_swap.
Qed.

Lemma plain_pop_ok : pop_ok (fun a b => flt a b = true) plain_pop.
Proof.
  split.
  - intros [|x q]; cbn; congruence.
  - intros [|x q] z r; cbn; [discriminate|]. intros E. pose proof (pick_min_perm q x) as H.
    destruct (pick_min x q). injection E as -> ->. exact H.
  - intros [|x q] z r Hq; cbn; [discriminate|]. intros E y Hy.
    inversion Hq as [|? ? H1 H2]; subst. pose proof (pick_min_spec q x H1 H2) as H.
    destruct (pick_min x q). injection E as -> ->. destruct H as (_ & _ & H).
    rewrite fle_not_lt; [discriminate|apply H, Hy].
Qed.

(** Stored hulls were loaded. *)
Lemma bag_run_loaded_gen ops : forall b b' it, bag_run b ops b' -> In it b' ->
  In it b \/ exists items, In (OpLoad items) ops /\ In it items.
Proof.
  induction ops as [|o ops IH]; intros b b' it Hr Hin; inversion Hr as [|? ? b1 ? ? Hs Hr1]; subst; auto.
  destruct (IH _ _ _ Hr1 Hin) as [H|(items & H1 & H2)]; [|right; exists items; split; [right; exact H1|exact H2]].
  inversion Hs as [? items ? Hp|? r x ? Hi Hp|]; subst.
  - eapply Permutation_in in H; [|exact Hp]. apply in_app_or in H. destruct H as [H|H]; [left; exact H|].
    right; exists items; split; [left; reflexivity|exact H].
  - left. eapply Permutation_in; [symmetry; exact Hp|right; exact H].
  - left; exact H.
Qed.
Lemma bag_run_loaded ops b it : bag_run [] ops b -> In it b -> exists items, In (OpLoad items) ops /\ In it items.
Proof. intros Hr Hin. destruct (bag_run_loaded_gen ops _ _ _ Hr Hin) as [[]|H]; exact H. Qed.
