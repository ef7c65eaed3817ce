(** Facts about the list and integer-set helpers. *)
From Verif Require Import M_Base M_Rng Spec.
From Coq Require Import Sorted.
Open Scope Z_scope.

Lemma bind_ok {A B} (x : res A) (f : A -> res B) b :
  bind x f = Ok b -> exists a, x = Ok a /\ f a = Ok b.
Proof. destruct x; cbn; intros H; try discriminate; eauto. Qed.

Ltac inv_bind H :=
  let a := fresh "a" in let Ha := fresh "Ha" in
  apply bind_ok in H; destruct H as [a [Ha H]].

Lemma zlen_nonneg {A} (l : list A) : 0 <= zlen l.
Proof. unfold zlen; lia. Qed.

Lemma zlen_app {A} (a b : list A) : zlen (a ++ b) = zlen a + zlen b.
Proof. unfold zlen; rewrite app_length; lia. Qed.

Lemma zlen_cons {A} (x : A) l : zlen (x :: l) = zlen l + 1.
Proof. unfold zlen; cbn [length]; lia. Qed.

Lemma zlen_map {A B} (f : A -> B) l : zlen (map f l) = zlen l.
Proof. unfold zlen; rewrite map_length; reflexivity. Qed.

Lemma zseq_len lo hi : lo <= hi + 1 -> zlen (zseq lo hi) = hi - lo + 1.
Proof. intros H; unfold zseq, zlen; rewrite map_length, seq_length; lia. Qed.

Lemma zseq_in lo hi k : In k (zseq lo hi) <-> lo <= k <= hi.
Proof.
  unfold zseq; rewrite in_map_iff; split.
  - intros [x [Hx Hin]]; apply in_seq in Hin; lia.
  - intros H; exists (Z.to_nat (k - lo)); split; [lia | apply in_seq; lia].
Qed.

Lemma zseq_nil lo hi : hi < lo -> zseq lo hi = [].
Proof. intros H; unfold zseq; replace (Z.to_nat (hi - lo + 1)) with 0%nat by lia; reflexivity. Qed.

Lemma zseq_cons lo hi : lo <= hi -> zseq lo hi = lo :: zseq (lo + 1) hi.
Proof.
  intros H; unfold zseq.
  replace (Z.to_nat (hi - lo + 1)) with (S (Z.to_nat (hi - (lo + 1) + 1))) by lia.
  cbn [seq map]; f_equal; [lia|].
  rewrite <- seq_shift, map_map; apply map_ext; intros a; lia.
Qed.

Lemma zseq_app lo mid hi :
  lo <= mid + 1 -> mid <= hi -> zseq lo hi = zseq lo mid ++ zseq (mid + 1) hi.
Proof.
  intros H1 H2; unfold zseq.
  replace (Z.to_nat (hi - lo + 1)) with
    (Z.to_nat (mid - lo + 1) + Z.to_nat (hi - (mid + 1) + 1))%nat by lia.
  rewrite seq_app, map_app; f_equal; cbn [Nat.add].
  transitivity (map (fun k => lo + Z.of_nat k)
    (map (fun x => (Z.to_nat (mid - lo + 1) + x)%nat) (seq 0 (Z.to_nat (hi - (mid + 1) + 1))))).
  - f_equal.
    generalize (Z.to_nat (hi - (mid + 1) + 1)) as n, (Z.to_nat (mid - lo + 1)) as m.
    intros n m. revert m.
    assert (G : forall n s m, seq (m + s) n = map (fun x => (m + x)%nat) (seq s n)).
    { clear; induction n as [|n IH]; intros s m; cbn [seq map]; [reflexivity|].
      f_equal; rewrite <- IH; f_equal; lia. }
    intros m; specialize (G n 0%nat m); rewrite Nat.add_0_r in G; exact G.
  - rewrite map_map; apply map_ext; intros a; lia.
Qed.

Lemma nth_zseq lo hi i d : lo <= i <= hi -> nth (Z.to_nat (i - lo)) (zseq lo hi) d = i.
Proof.
  intros H; unfold zseq.
  rewrite nth_indep with (d' := lo + Z.of_nat 0) by (rewrite map_length, seq_length; lia).
  rewrite map_nth with (f := fun k => lo + Z.of_nat k).
  rewrite seq_nth by lia; lia.
Qed.

Lemma skipn_zseq lo hi k :
  0 <= k -> skipn (Z.to_nat k) (zseq lo hi) = zseq (lo + k) hi.
Proof.
  intros Hk.
  destruct (Z_lt_le_dec (hi - lo + 1) k) as [Hlt|Hle].
  - rewrite skipn_all2.
    + symmetry; apply zseq_nil; lia.
    + unfold zseq; rewrite map_length, seq_length; lia.
  - rewrite (zseq_app lo (lo + k - 1) hi) by lia.
    rewrite skipn_app.
    replace (length (zseq lo (lo + k - 1))) with (Z.to_nat k)
      by (unfold zseq; rewrite map_length, seq_length; lia).
    rewrite Nat.sub_diag; cbn [skipn].
    rewrite skipn_all2 by (unfold zseq; rewrite map_length, seq_length; lia).
    cbn; f_equal; lia.
Qed.

Lemma firstn_zseq lo hi k :
  0 <= k <= hi - lo + 1 -> firstn (Z.to_nat k) (zseq lo hi) = zseq lo (lo + k - 1).
Proof.
  intros Hk.
  rewrite (zseq_app lo (lo + k - 1) hi) by lia.
  rewrite firstn_app.
  replace (length (zseq lo (lo + k - 1))) with (Z.to_nat k)
    by (unfold zseq; rewrite map_length, seq_length; lia).
  rewrite Nat.sub_diag, firstn_all2 by (unfold zseq; rewrite map_length, seq_length; lia).
  cbn; apply app_nil_r.
Qed.

Lemma slice_zseq lo hi i j :
  0 <= i -> i <= j -> j <= hi - lo + 1 ->
  firstn (Z.to_nat (j - i)) (skipn (Z.to_nat i) (zseq lo hi)) = zseq (lo + i) (lo + j - 1).
Proof.
  intros Hi Hij Hj; rewrite skipn_zseq by lia; rewrite firstn_zseq by lia; f_equal; lia.
Qed.

(** Sorting and sets of integers. *)

Lemma zins_perm x l : Permutation (x :: l) (zins x l).
Proof.
  induction l as [|y r IH]; cbn; [reflexivity|].
  destruct (x <=? y); [reflexivity|].
  etransitivity; [apply perm_swap|]; apply perm_skip; exact IH.
Qed.

Lemma zsort_perm l : Permutation l (zsort l).
Proof.
  induction l as [|x r IH]; cbn; [reflexivity|].
  etransitivity; [apply perm_skip; exact IH|apply zins_perm].
Qed.

Lemma zins_sorted x l : StronglySorted Z.le l -> StronglySorted Z.le (zins x l).
Proof.
  induction l as [|y r IH]; intros H; cbn.
  - repeat constructor.
  - destruct (Z.leb_spec x y).
    + constructor; [exact H|].
      inversion H as [|? ? Hs Hf]; subst.
      constructor; [lia|]. eapply Forall_impl; [|exact Hf]; cbn; intros; lia.
    + inversion H as [|? ? Hs Hf]; subst.
      constructor; [apply IH; exact Hs|].
      apply Forall_forall; intros z Hz.
      apply Permutation_in with (l' := x :: r) in Hz; [|symmetry; apply zins_perm].
      destruct Hz as [<-|Hz]; [lia|].
      rewrite Forall_forall in Hf; apply Hf; exact Hz.
Qed.

Lemma zsort_sorted l : StronglySorted Z.le (zsort l).
Proof. induction l as [|x r IH]; cbn; [constructor|apply zins_sorted; exact IH]. Qed.

Lemma zset_ins_in x y l : In y (zset_ins x l) <-> y = x \/ In y l.
Proof.
  induction l as [|z r IH]; cbn.
  - intuition.
  - destruct (Z.ltb_spec x z); cbn; [intuition|].
    destruct (Z.eqb_spec x z); cbn; [subst; intuition|].
    rewrite IH; intuition.
Qed.

Lemma zset_in x l : In x (zset l) <-> In x l.
Proof.
  induction l as [|y r IH]; cbn; [intuition|].
  rewrite zset_ins_in, IH; intuition.
Qed.

Lemma zset_ins_incr x l : increasing l -> increasing (zset_ins x l).
Proof.
  unfold increasing; induction l as [|z r IH]; intros H; cbn.
  - repeat constructor.
  - inversion H as [|? ? Hs Hf]; subst.
    destruct (Z.ltb_spec x z).
    + constructor; [exact H|]. constructor; [lia|].
      eapply Forall_impl; [|exact Hf]; cbn; intros; lia.
    + destruct (Z.eqb_spec x z); [exact H|].
      constructor; [apply IH; exact Hs|].
      apply Forall_forall; intros w Hw; apply zset_ins_in in Hw.
      destruct Hw as [->|Hw]; [lia|].
      rewrite Forall_forall in Hf; apply Hf; exact Hw.
Qed.

Lemma zset_incr l : increasing (zset l).
Proof. induction l as [|x r IH]; cbn; [constructor|apply zset_ins_incr; exact IH]. Qed.

Lemma increasing_ext l1 : forall l2,
  increasing l1 -> increasing l2 -> (forall x, In x l1 <-> In x l2) -> l1 = l2.
Proof.
  unfold increasing.
  induction l1 as [|a l1 IH]; intros [|b l2] H1 H2 Heq.
  - reflexivity.
  - exfalso; apply (proj2 (Heq b)); left; reflexivity.
  - exfalso; apply (proj1 (Heq a)); left; reflexivity.
  - inversion H1 as [|? ? Hs1 Hf1]; subst; inversion H2 as [|? ? Hs2 Hf2]; subst.
    rewrite Forall_forall in Hf1, Hf2.
    assert (a = b).
    { pose proof (proj1 (Heq a) (or_introl eq_refl)) as Ha.
      pose proof (proj2 (Heq b) (or_introl eq_refl)) as Hb.
      destruct Ha as [Ha|Ha]; [congruence|]. destruct Hb as [Hb|Hb]; [congruence|].
      apply Hf2 in Ha; apply Hf1 in Hb; lia. }
    subst b; f_equal; apply IH; auto.
    intros x; split; intros Hx.
    + pose proof (proj1 (Heq x) (or_intror Hx)) as [->|Hy]; [|exact Hy].
      apply Hf1 in Hx; lia.
    + pose proof (proj2 (Heq x) (or_intror Hx)) as [->|Hy]; [|exact Hy].
      apply Hf2 in Hx; lia.
Qed.

Lemma zmem_in x l : zmem x l = true <-> In x l.
Proof.
  unfold zmem; rewrite existsb_exists; split.
  - intros [y [Hy E]]; apply Z.eqb_eq in E; subst; exact Hy.
  - intros H; exists x; split; [exact H|apply Z.eqb_refl].
Qed.

(** Chains. *)

Lemma chain_le rs : forall lo hi, chain lo hi rs -> lo <= hi.
Proof.
  induction rs as [|r t IH]; cbn; intros lo hi H; [lia|].
  destruct H as [H1 [H2 H3]]; apply IH in H3; lia.
Qed.

Lemma chain_app rs1 : forall lo hi rs2,
  chain lo hi (rs1 ++ rs2) <-> exists m, chain lo m rs1 /\ chain m hi rs2.
Proof.
  induction rs1 as [|r t IH]; cbn; intros lo hi rs2; split.
  - intros H; exists lo; auto.
  - intros [m [-> H]]; exact H.
  - intros [H1 [H2 H3]]; apply IH in H3; destruct H3 as [m [Ha Hb]]; exists m; auto.
  - intros [m [[H1 [H2 H3]] Hb]]; repeat split; auto; apply IH; exists m; auto.
Qed.

Lemma chain_in rs : forall lo hi r, chain lo hi rs -> In r rs ->
  lo <= rI r /\ rI r < rJ r /\ rJ r <= hi.
Proof.
  induction rs as [|a t IH]; cbn; intros lo hi r H Hin; [contradiction|].
  destruct H as [H1 [H2 H3]]; pose proof (chain_le _ _ _ H3).
  destruct Hin as [->|Hin]; [lia|].
  specialize (IH _ _ _ H3 Hin); lia.
Qed.

Lemma chain_nodup rs : forall lo hi, chain lo hi rs -> NoDup rs.
Proof.
  induction rs as [|a t IH]; cbn; intros lo hi H; [constructor|].
  destruct H as [H1 [H2 H3]]; constructor; [|eapply IH; exact H3].
  intros Hin; apply (chain_in _ _ _ _ H3) in Hin; lia.
Qed.

(** In a chain the start (or the end) of a range determines it. *)
Lemma chain_start_inj rs lo hi r1 r2 :
  chain lo hi rs -> In r1 rs -> In r2 rs -> rI r1 = rI r2 -> r1 = r2.
Proof.
  revert lo; induction rs as [|a t IH]; cbn; intros lo H H1 H2 E; [contradiction|].
  destruct H as [Ha [Hb Hc]].
  destruct H1 as [->|H1], H2 as [->|H2]; auto.
  - apply (chain_in _ _ _ _ Hc) in H2; lia.
  - apply (chain_in _ _ _ _ Hc) in H1; lia.
  - eapply IH; eauto.
Qed.

Lemma chain_end_inj rs lo hi r1 r2 :
  chain lo hi rs -> In r1 rs -> In r2 rs -> rJ r1 = rJ r2 -> r1 = r2.
Proof.
  revert lo; induction rs as [|a t IH]; cbn; intros lo H H1 H2 E; [contradiction|].
  destruct H as [Ha [Hb Hc]].
  destruct H1 as [->|H1], H2 as [->|H2]; auto.
  - apply (chain_in _ _ _ _ Hc) in H2; lia.
  - apply (chain_in _ _ _ _ Hc) in H1; lia.
  - eapply IH; eauto.
Qed.

(** Two ranges of a chain that overlap in more than a vertex are equal. *)
Lemma chain_overlap_eq rs lo hi r1 r2 :
  chain lo hi rs -> In r1 rs -> In r2 rs ->
  rI r1 < rJ r2 -> rI r2 < rJ r1 -> r1 = r2.
Proof.
  revert lo; induction rs as [|a t IH]; cbn; intros lo H H1 H2 E1 E2; [contradiction|].
  destruct H as [Ha [Hb Hc]].
  destruct H1 as [->|H1], H2 as [->|H2]; auto.
  - apply (chain_in _ _ _ _ Hc) in H2; lia.
  - apply (chain_in _ _ _ _ Hc) in H1; lia.
  - eapply IH; eauto.
Qed.

(** Every index of the chained interval is strictly inside some range or an end. *)
Lemma chain_cover rs : forall lo hi k, chain lo hi rs -> lo <= k < hi ->
  exists r, In r rs /\ rI r <= k < rJ r.
Proof.
  induction rs as [|a t IH]; cbn; intros lo hi k H Hk; [lia|].
  destruct H as [Ha [Hb Hc]].
  destruct (Z_lt_le_dec k (rJ a)).
  - exists a; split; [auto|lia].
  - destruct (IH _ _ k Hc) as [r [Hr Hk']]; [lia|]. exists r; split; auto.
Qed.
