(** Bags of hulls that tile their lines, and how the operations of the program change them. *)
From Verif Require Import M_Base M_Float M_Rng M_Geom M_Offset M_Node M_Split M_Hdb Spec Spec_Hdb
  P_Base P_Float P_Decompose P_Split P_Node P_HdbHist P_Db.
From Coq Require Import Sorted.
Open Scope Z_scope.

(** ** Tilings *)

Lemma tiling_perm lo hi rs rs' : Permutation rs rs' -> tiling lo hi rs -> tiling lo hi rs'.
Proof. intros Hp [t [A B]]. exists t. split; [rewrite <- Hp; exact A|exact B]. Qed.

Lemma tiling_chain lo hi rs : chain lo hi rs -> tiling lo hi rs.
Proof. intros H. exists rs. auto. Qed.

Lemma tiling_split lo hi r new rs :
  chain (rI r) (rJ r) new -> tiling lo hi (r :: rs) -> tiling lo hi (new ++ rs).
Proof.
  intros Hn [t [A B]].
  assert (Hin : In r t) by (eapply Permutation_in; [exact A|left; reflexivity]).
  apply in_split in Hin. destruct Hin as (u & v & ->).
  assert (A' : Permutation rs (u ++ v)) by (eapply Permutation_cons_app_inv; exact A).
  exists (u ++ new ++ v). split.
  - rewrite A'. apply Permutation_app_swap_app.
  - apply chain_app in B. destruct B as (m & B1 & B2). cbn in B2. destruct B2 as (E & F & G).
    apply chain_app. exists m. split; [exact B1|]. apply chain_app. exists (rJ r). split; [|exact G].
    rewrite <- E. exact Hn.
Qed.

Lemma tiling_in lo hi rs r : tiling lo hi rs -> In r rs -> lo <= rI r /\ rI r < rJ r /\ rJ r <= hi.
Proof. intros [t [A B]] H. eapply chain_in; [exact B|]. eapply Permutation_in; eauto. Qed.

Lemma tiling_nodup lo hi rs : tiling lo hi rs -> NoDup rs.
Proof.
  intros [t [A B]]. eapply Permutation_NoDup; [symmetry; exact A|]. eapply chain_nodup; eauto.
Qed.

Lemma tiling_start lo hi rs a b : tiling lo hi rs -> In a rs -> In b rs -> rI a = rI b -> a = b.
Proof.
  intros [t [A B]] Ha Hb. eapply chain_start_inj; [exact B| |]; eapply Permutation_in; eauto.
Qed.

Lemma tiling_end lo hi rs a b : tiling lo hi rs -> In a rs -> In b rs -> rJ a = rJ b -> a = b.
Proof.
  intros [t [A B]] Ha Hb. eapply chain_end_inj; [exact B| |]; eapply Permutation_in; eauto.
Qed.

Lemma tiling_overlap lo hi rs a b : tiling lo hi rs -> In a rs -> In b rs ->
  rI a < rJ b -> rI b < rJ a -> a = b.
Proof.
  intros [t [A B]] Ha Hb. eapply chain_overlap_eq; [exact B| |]; eapply Permutation_in; eauto.
Qed.

Lemma tiling_cover lo hi rs k : tiling lo hi rs -> lo <= k < hi -> exists r, In r rs /\ rI r <= k < rJ r.
Proof.
  intros [t [A B]] Hk. destruct (chain_cover _ _ _ _ B Hk) as (r & Hr & H). exists r. split; auto.
  eapply Permutation_in; [symmetry; exact A|exact Hr].
Qed.

Lemma tiling_merge lo hi a b rs :
  tiling lo hi (a :: b :: rs) -> rJ a = rI b -> tiling lo hi (Rng (rI a) (rJ b) :: rs).
Proof.
  intros [t [A B]] E.
  assert (Ha : In a t) by (eapply Permutation_in; [exact A|left; reflexivity]).
  assert (Hb : In b t) by (eapply Permutation_in; [exact A|right; left; reflexivity]).
  destruct (in_split _ _ Ha) as (u & v & ->).
  assert (A' : Permutation (b :: rs) (u ++ v)) by (eapply Permutation_cons_app_inv; exact A).
  pose proof B as B0. apply chain_app in B. destruct B as (m & B1 & B2). cbn in B2. destruct B2 as (E1 & F1 & G1).
  destruct v as [|c w].
  - exfalso. cbn in G1. pose proof (chain_in _ _ _ _ B0 Hb) as Hc. lia.
  - cbn in G1. destruct G1 as (E2 & F2 & G2).
    assert (c = b).
    { apply (chain_start_inj _ _ _ _ _ B0); [|exact Hb|lia]. apply in_or_app. right. right. left. reflexivity. }
    subst c. assert (A2 : Permutation rs (u ++ w)) by (eapply Permutation_cons_app_inv; exact A').
    exists (u ++ Rng (rI a) (rJ b) :: w). split.
    + rewrite A2. apply Permutation_middle.
    + apply chain_app. exists m. split; [exact B1|]. cbn. repeat split; auto. lia.
Qed.

Lemma chain_len rs : forall lo hi, chain lo hi rs -> zlen rs <= hi - lo.
Proof.
  induction rs as [|r t IH]; cbn [chain]; intros lo hi H.
  - unfold zlen; cbn; lia.
  - destruct H as (_ & H2 & H3). apply IH in H3. rewrite zlen_cons. lia.
Qed.

Lemma tiling_len lo hi rs : tiling lo hi rs -> zlen rs <= hi - lo.
Proof.
  intros [t [A B]]. apply chain_len in B. unfold zlen in *. rewrite (Permutation_length A). exact B.
Qed.

(** ** Sorting a tiling *)

Lemma node_ins_perm x l : Permutation (x :: l) (node_ins x l).
Proof.
  induction l as [|y r IH]; cbn; [reflexivity|]. destruct (_ <=? _); [reflexivity|].
  rewrite perm_swap. apply perm_skip, IH.
Qed.
Lemma node_sort_perm l : Permutation l (node_sort l).
Proof. induction l as [|x r IH]; cbn; [reflexivity|]. rewrite IH at 1. apply node_ins_perm. Qed.

Definition starts_le (a b : node) : Prop := rI (n_rng a) <= rI (n_rng b).
Lemma node_ins_sorted x l : StronglySorted starts_le l -> StronglySorted starts_le (node_ins x l).
Proof.
  induction l as [|y r IH]; intros H; cbn.
  - repeat constructor.
  - inversion H as [|? ? Hs Hf]; subst. destruct (Z.leb_spec (rI (n_rng x)) (rI (n_rng y))).
    + constructor; [exact H|]. constructor; [exact H0|].
      eapply Forall_impl; [|exact Hf]. unfold starts_le; intros z Hz; lia.
    + constructor; [apply IH, Hs|]. eapply Permutation_Forall; [apply node_ins_perm|].
      constructor; [unfold starts_le; lia|exact Hf].
Qed.
Lemma node_sort_sorted l : StronglySorted starts_le (node_sort l).
Proof. induction l; cbn; [constructor|]. apply node_ins_sorted; assumption. Qed.

Lemma sorted_chain l : forall lo hi rs,
  StronglySorted starts_le l -> Permutation (map n_rng l) rs -> chain lo hi rs ->
  chain lo hi (map n_rng l).
Proof.
  induction l as [|x l IH]; intros lo hi rs Hs Hp Hc; cbn [map] in *.
  - apply Permutation_nil in Hp. subst. exact Hc.
  - inversion Hs as [|? ? Hs' Hf]; subst.
    destruct rs as [|r rs]; [apply Permutation_sym, Permutation_nil in Hp; discriminate|].
    cbn in Hc. destruct Hc as (H1 & H2 & H3).
    assert (n_rng x = r).
    { assert (Hx : In (n_rng x) (r :: rs)) by (eapply Permutation_in; [exact Hp|left; reflexivity]).
      assert (Hr : In r (n_rng x :: map n_rng l)) by (eapply Permutation_in; [symmetry; exact Hp|left; reflexivity]).
      destruct Hx as [Hx|Hx]; [congruence|]. destruct Hr as [Hr|Hr]; [congruence|].
      apply in_map_iff in Hr. destruct Hr as (y & <- & Hy). rewrite Forall_forall in Hf.
      apply Hf in Hy. unfold starts_le in Hy. apply (chain_in _ _ _ _ H3) in Hx. lia. }
    subst r. apply Permutation_cons_inv in Hp. cbn. split; [exact H1|]. split; [exact H2|].
    eapply IH; eauto.
Qed.

Lemma node_sort_chain l lo hi : tiling lo hi (map n_rng l) -> chain lo hi (map n_rng (node_sort l)).
Proof.
  intros [rs [A B]]. eapply sorted_chain; [apply node_sort_sorted| |exact B].
  rewrite <- A. apply Permutation_map. symmetry. apply node_sort_perm.
Qed.

(** ** Bags over several lines *)

Definition of_inst (i : Z) (b : list node) : list node := filter (fun h => n_inst h =? i) b.
Definition proper (L : geomlib) (lines : Z -> list point) (h : node) : Prop :=
  fresh_hull L (lines (n_inst h)) (n_inst h) h.

(** A stream of ids together with a property every id in use has. *)
Record idsrc := Src { s_gen : idgen; s_own : Z -> Prop }.
Definition src_ok (src : idsrc) : Prop :=
  (forall j k, s_gen src j = s_gen src k -> j = k) /\ forall k, s_own src (s_gen src k).

Section Bag.
  Variable L : geomlib.
  Variable lines : Z -> list point.
  Variable ids : list Z.
  Variable src : idsrc.
  Notation gen := (s_gen src).
  Hypothesis Hgen : src_ok src.

  Record bag_inv (ctr : nat) (b : list node) : Prop := {
    bi_proper : Forall (proper L lines) b;
    bi_inst : Forall (fun h => In (n_inst h) ids) b;
    bi_tiles : forall i, In i ids -> tiling 0 (zlen (lines i) - 1) (map n_rng (of_inst i b));
    bi_nodup : NoDup (map n_id b);
    bi_fresh : forall h k, In h b -> (ctr <= k)%nat -> gen k <> n_id h;
    bi_own : Forall (fun h => s_own src (n_id h)) b
  }.

  Lemma of_inst_perm i b b' : Permutation b b' -> Permutation (of_inst i b) (of_inst i b').
  Proof. apply filter_perm. Qed.
  Lemma of_inst_app i b b' : of_inst i (b ++ b') = of_inst i b ++ of_inst i b'.
  Proof. apply filter_app. Qed.
  Lemma of_inst_in i b h : In h (of_inst i b) <-> In h b /\ n_inst h = i.
  Proof. unfold of_inst. rewrite filter_In, Z.eqb_eq. reflexivity. Qed.
  Lemma of_inst_same i b : Forall (fun h => n_inst h = i) b -> of_inst i b = b.
  Proof. unfold of_inst. induction 1 as [|x l H _ IH]; cbn; auto. rewrite H, Z.eqb_refl, IH. reflexivity. Qed.
  Lemma of_inst_other i j b : Forall (fun h => n_inst h = i) b -> i <> j -> of_inst j b = [].
  Proof.
    unfold of_inst. induction 1 as [|x l H _ IH]; cbn; auto. intros E. rewrite H.
    destruct (Z.eqb_spec i j); [contradiction|]. auto.
  Qed.

  Lemma inv_perm ctr b b' : Permutation b b' -> bag_inv ctr b -> bag_inv ctr b'.
  Proof.
    intros Hp [A B C D E F]. split.
    - eapply Permutation_Forall; eauto.
    - eapply Permutation_Forall; eauto.
    - intros i Hi. eapply tiling_perm; [|apply C, Hi]. apply Permutation_map, of_inst_perm, Hp.
    - eapply Permutation_NoDup; [|exact D]. apply Permutation_map, Hp.
    - intros h k Hh. apply E. eapply Permutation_in; [symmetry; exact Hp|exact Hh].
    - eapply Permutation_Forall; eauto.
  Qed.

  Lemma inv_weaken ctr ctr' b : (ctr <= ctr')%nat -> bag_inv ctr b -> bag_inv ctr' b.
  Proof. intros H [A B C D E F]. split; auto. intros h k Hh Hk. apply E; auto. lia. Qed.

  Lemma nodup_app_inv {A} (l1 l2 : list A) : NoDup (l1 ++ l2) ->
    NoDup l1 /\ NoDup l2 /\ forall x, In x l1 -> ~ In x l2.
  Proof.
    induction l1 as [|x l1 IH]; cbn; intros H.
    - split; [constructor|]. split; [exact H|]. tauto.
    - inversion H as [|? ? Hn Hd]; subst. destruct (IH Hd) as (A1 & A2 & A3).
      split; [constructor; auto; intros K; apply Hn, in_or_app; auto|]. split; [exact A2|].
      intros y [<- |Hy]; [intros K; apply Hn, in_or_app; auto|]. apply A3, Hy.
  Qed.
  Lemma nodup_app_intro {A} (l1 l2 : list A) : NoDup l1 -> NoDup l2 ->
    (forall x, In x l1 -> ~ In x l2) -> NoDup (l1 ++ l2).
  Proof.
    induction l1 as [|x r IH]; cbn; auto. intros H1 H2 H. inversion H1; subst. constructor.
    - rewrite in_app_iff. intros [K|K]; [auto|]. apply (H x); auto.
    - apply IH; [assumption|assumption|]. intros y Hy; apply H; auto.
  Qed.

  (** Replacing hulls of one line by others. *)
  Lemma inv_replace ctr ctr' i xs new rest :
    bag_inv ctr (xs ++ rest) -> (ctr <= ctr')%nat -> In i ids ->
    Forall (fun h => n_inst h = i) xs -> Forall (fresh_hull L (lines i) i) new ->
    (forall rs, tiling 0 (zlen (lines i) - 1) (map n_rng xs ++ rs) ->
                tiling 0 (zlen (lines i) - 1) (map n_rng new ++ rs)) ->
    NoDup (map n_id new) ->
    (forall h, In h new -> (exists k, (ctr <= k < ctr')%nat /\ n_id h = gen k) \/ In (n_id h) (map n_id xs)) ->
    bag_inv ctr' (new ++ rest).
  Proof.
    intros [A B C D E F] Hc Hi Hxs Hnew Htile Hnd Hid.
    assert (Hin : Forall (fun h => n_inst h = i) new).
    { eapply Forall_impl; [|exact Hnew]. intros h (_ & _ & _ & H). exact H. }
    rewrite map_app in D. destruct (nodup_app_inv _ _ D) as (D1 & D2 & D3).
    rewrite Forall_app in A, B. destruct A as [A1 A2], B as [B1 B2].
    split.
    - apply Forall_app. split; [|exact A2]. rewrite Forall_forall in *. intros h Hh. unfold proper.
      rewrite (Hin h Hh). apply Hnew, Hh.
    - apply Forall_app. split; [|exact B2]. eapply Forall_impl; [|exact Hin]. cbn. congruence.
    - intros j Hj. specialize (C j Hj). rewrite of_inst_app in *. destruct (Z.eq_dec i j) as [<- |Hne].
      + rewrite (of_inst_same i xs Hxs) in C. rewrite (of_inst_same i new Hin).
        rewrite map_app in *. apply Htile, C.
      + rewrite (of_inst_other i j xs Hxs Hne) in C. rewrite (of_inst_other i j new Hin Hne). exact C.
    - rewrite map_app. apply nodup_app_intro; auto. intros x Hx Hr.
      apply in_map_iff in Hx. destruct Hx as (h & <- & Hh).
      destruct (Hid h Hh) as [(k & Hk & Ek)|Hx].
      + rewrite Ek in Hr. apply in_map_iff in Hr. destruct Hr as (g & Eg & Hg).
        apply (E g k); [apply in_or_app; auto|lia|auto].
      + exact (D3 _ Hx Hr).
    - intros h k Hh Hk. apply in_app_iff in Hh. destruct Hh as [Hh|Hh].
      + destruct (Hid h Hh) as [(k' & Hk' & Ek)|Hx].
        * rewrite Ek. intros K. apply (proj1 Hgen) in K. lia.
        * apply in_map_iff in Hx. destruct Hx as (g & Eg & Hg). rewrite <- Eg.
          apply E; [apply in_or_app; auto|lia].
      + apply E; [apply in_or_app; auto|lia].
    - apply Forall_app in F. destruct F as [F1 F2]. apply Forall_app. split; [|exact F2].
      rewrite Forall_forall in *. intros h Hh. destruct (Hid h Hh) as [(k & Hk & ->)|Hx]; [apply (proj2 Hgen)|].
      apply in_map_iff in Hx. destruct Hx as (g & <- & Hg). apply F1, Hg.
  Qed.

  Lemma gen_ids_nodup a n : NoDup (map gen (seq a n)).
  Proof. apply FinFun.Injective_map_NoDup; [exact (proj1 Hgen)|apply seq_NoDup]. Qed.

  (** Splitting one hull. *)
  Lemma inv_split ctr x new rest :
    bag_inv ctr (x :: rest) ->
    Forall (fresh_hull L (lines (n_inst x)) (n_inst x)) new ->
    chain (rI (n_rng x)) (rJ (n_rng x)) (map n_rng new) ->
    map n_id new = map gen (seq ctr (length new)) ->
    bag_inv (ctr + length new) (new ++ rest).
  Proof.
    intros H Hnew Hc Hid.
    apply (inv_replace ctr _ (n_inst x) [x] new rest); auto; try lia.
    - destruct H as [_ B _ _ _ _]. inversion B; auto.
    - intros rs. apply tiling_split. exact Hc.
    - rewrite Hid. apply gen_ids_nodup.
    - intros h Hh. left. assert (In (n_id h) (map n_id new)) by (apply in_map, Hh).
      rewrite Hid in H0. apply in_map_iff in H0. destruct H0 as (k & Ek & Hk). apply in_seq in Hk.
      exists k. split; [lia|auto].
  Qed.

  (** Hulls of a bag. *)
  Lemma inv_hull ctr b h : bag_inv ctr b -> In h b -> hull_of (lines (n_inst h)) h.
  Proof. intros [A _ _ _ _ _] Hin. rewrite Forall_forall in A. apply (A h Hin). Qed.
  Lemma inv_member ctr b h : bag_inv ctr b -> In h b -> In (n_inst h) ids.
  Proof. intros [_ A _ _ _ _] Hin. rewrite Forall_forall in A. apply (A h Hin). Qed.

  Lemma inv_id_inj ctr b x y : bag_inv ctr b -> In x b -> In y b -> n_id x = n_id y -> x = y.
  Proof.
    intros [_ _ _ D _ _]. revert D. clear. induction b as [|z b IH]; cbn; [tauto|].
    intros D. inversion D as [|? ? D1 D2]; subst. intros [<- |Hx] [<- |Hy] E; auto.
    - exfalso. apply D1. rewrite E. apply in_map, Hy.
    - exfalso. apply D1. rewrite <- E. apply in_map, Hx.
  Qed.

  Lemma inv_rng_in ctr b h : bag_inv ctr b -> In h b -> In (n_rng h) (map n_rng (of_inst (n_inst h) b)).
  Proof. intros _ H. apply in_map, of_inst_in; auto. Qed.

  Lemma inv_rng_inj ctr b x y : bag_inv ctr b -> In x b -> In y b -> n_inst x = n_inst y ->
    n_rng x = n_rng y -> x = y.
  Proof.
    intros H Hx Hy Ei Er.
    pose proof (tiling_nodup _ _ _ (bi_tiles _ _ H _ (inv_member _ _ _ H Hx))) as Hn.
    assert (Hx' : In x (of_inst (n_inst x) b)) by (apply of_inst_in; auto).
    assert (Hy' : In y (of_inst (n_inst x) b)) by (apply of_inst_in; auto).
    revert Hn Hx' Hy' Er. generalize (of_inst (n_inst x) b). clear. induction l as [|z b IH]; cbn; [tauto|].
    intros D. inversion D as [|? ? D1 D2]; subst. intros [<- |Hx] [<- |Hy] E; auto.
    - exfalso. apply D1. rewrite E. apply in_map, Hy.
    - exfalso. apply D1. rewrite <- E. apply in_map, Hx.
  Qed.
  Lemma inv_start_inj ctr b x y : bag_inv ctr b -> In x b -> In y b -> n_inst x = n_inst y ->
    rI (n_rng x) = rI (n_rng y) -> x = y.
  Proof.
    intros H Hx Hy Ei Er. apply (inv_rng_inj ctr b); auto.
    apply (tiling_start _ _ _ _ _ (bi_tiles _ _ H _ (inv_member _ _ _ H Hx))); auto.
    - apply (inv_rng_in ctr); auto.
    - rewrite Ei. apply (inv_rng_in ctr); auto.
  Qed.
  Lemma inv_end_inj ctr b x y : bag_inv ctr b -> In x b -> In y b -> n_inst x = n_inst y ->
    rJ (n_rng x) = rJ (n_rng y) -> x = y.
  Proof.
    intros H Hx Hy Ei Er. apply (inv_rng_inj ctr b); auto.
    apply (tiling_end _ _ _ _ _ (bi_tiles _ _ H _ (inv_member _ _ _ H Hx))); auto.
    - apply (inv_rng_in ctr); auto.
    - rewrite Ei. apply (inv_rng_in ctr); auto.
  Qed.

  (** The number of hulls is bounded by the number of segments. *)
  Definition capacity : Z := fold_right (fun i s => zlen (lines i) - 1 + s) 0 ids.
  Lemma of_inst_count b l : NoDup l -> Forall (fun h => In (n_inst h) l) b ->
    zlen b = fold_right (fun i s => zlen (of_inst i b) + s) 0 l.
  Proof.
    intros Hn. induction b as [|h b IH]; intros H.
    - cbn. clear. induction l; cbn; lia.
    - inversion H as [|? ? H1 H2]; subst. rewrite zlen_cons, (IH H2). clear - Hn H1.
      assert (E : forall l, ~ In (n_inst h) l ->
        fold_right (fun i s => zlen (of_inst i (h :: b)) + s) 0 l = fold_right (fun i s => zlen (of_inst i b) + s) 0 l).
      { clear. induction l as [|i l IH]; cbn [fold_right]; auto. intros H. cbn [In] in H.
        rewrite IH by tauto. f_equal. unfold of_inst. cbn [filter].
        destruct (Z.eqb_spec (n_inst h) i); [exfalso; auto|]. reflexivity. }
      induction l as [|i l IH]; [destruct H1|]. inversion Hn as [|? ? N1 N2]; subst.
      cbn [fold_right]. destruct (Z.eq_dec (n_inst h) i) as [Ei|Ei].
      + rewrite E by congruence. unfold of_inst at 3. cbn [filter]. rewrite Ei, Z.eqb_refl.
        rewrite zlen_cons. fold (of_inst i b). lia.
      + destruct H1 as [H1|H1]; [congruence|]. rewrite <- (IH N2 H1).
        unfold of_inst at 3. cbn [filter]. destruct (Z.eqb_spec (n_inst h) i); [contradiction|].
        fold (of_inst i b). lia.
  Qed.
  Lemma inv_size ctr b : NoDup ids -> bag_inv ctr b -> zlen b <= capacity.
  Proof.
    intros Hn H. rewrite (of_inst_count b ids Hn (bi_inst _ _ H)). unfold capacity.
    pose proof (bi_tiles _ _ H) as T. clear - T. induction ids as [|i l IH]; cbn; [lia|].
    specialize (IH (fun j Hj => T j (or_intror Hj))). specialize (T i (or_introl eq_refl)).
    apply tiling_len in T. unfold zlen in T at 1. rewrite map_length in T. unfold zlen in *. lia.
  Qed.

  (** Sub-bags. *)
  Lemma incl_rest (sel b : list node) : NoDup (map n_id sel) -> NoDup (map n_id b) -> incl sel b ->
    exists rest, Permutation b (sel ++ rest).
  Proof.
    revert b. induction sel as [|x sel IH]; intros b Hs Hb Hin.
    - exists b. reflexivity.
    - cbn in Hs. inversion Hs as [|? ? S1 S2]; subst.
      assert (Hx : In x b) by (apply Hin; left; auto). apply in_split in Hx. destruct Hx as (u & v & ->).
      assert (Hb' : NoDup (map n_id (u ++ v))).
      { rewrite map_app in *. cbn in Hb. apply NoDup_remove in Hb. tauto. }
      destruct (IH (u ++ v) S2 Hb') as (rest & Hp).
      + intros y Hy. assert (Hy' : In y (u ++ x :: v)) by (apply Hin; right; auto).
        apply in_app_iff in Hy'. apply in_app_iff. destruct Hy' as [H|[H|H]]; auto.
        subst y. exfalso. apply S1, in_map, Hy.
      + exists rest. rewrite <- Permutation_middle, Hp. reflexivity.
  Qed.

  Lemma holds_remove_all sel rest : forall t, NoDup (map n_id (sel ++ rest)) -> holds t (sel ++ rest) ->
    holds (fold_left remove sel t) rest.
  Proof.
    induction sel as [|x sel IH]; intros t Hn H; cbn [fold_left]; [exact H|].
    cbn in Hn. inversion Hn as [|? ? N1 N2]; subst.
    apply IH; [exact N2|]. eapply holds_perm; [|apply (holds_remove t ((x :: sel) ++ rest) x H)].
    - unfold without. cbn. rewrite Z.eqb_refl. cbn. fold (without x (sel ++ rest)). rewrite without_out; auto.
    - exact Hn.
    - left; auto.
  Qed.
End Bag.
