(** Proofs about the in-place selection. *)
From Verif Require Import M_Base M_Float P_Base P_Float M_Geom M_Node M_Hdb P_FSub M_Select Spec_Select.
Open Scope Z_scope.

Section Arr.
Context {A : Type}.
Implicit Types (a : list A) (x y : A).

Lemma znth_some_range a p x : znth a p = Some x -> 0 <= p < zlen a.
Proof.
  unfold znth, zlen. destruct (Z.ltb_spec p 0); [discriminate|]. intros E.
  assert (Z.to_nat p < length a)%nat by (apply nth_error_Some; rewrite E; discriminate). lia.
Qed.

Lemma znth_range a p : 0 <= p < zlen a -> exists x, znth a p = Some x.
Proof.
  unfold znth, zlen. intros H. destruct (Z.ltb_spec p 0); [lia|].
  destruct (nth_error a (Z.to_nat p)) eqn:E; eauto.
  apply nth_error_None in E. lia.
Qed.

Lemma nth_replace i p x a : (i < length a)%nat ->
  nth_error (replace_nth i x a) p = if Nat.eqb p i then Some x else nth_error a p.
Proof.
  revert i p; induction a as [|y r IH]; intros i p H; cbn [length] in H; [lia|].
  destruct i as [|i]; destruct p as [|p]; cbn [replace_nth nth_error Nat.eqb]; auto.
  apply IH; lia.
Qed.

Lemma replace_len i x a : length (replace_nth i x a) = length a.
Proof. revert i; induction a as [|y r IH]; intros [|i]; cbn; auto. Qed.

Lemma zput_ok a i x : 0 <= i < zlen a -> exists a', zput a i x = Ok a' /\
  zlen a' = zlen a /\ forall p, znth a' p = if p =? i then Some x else znth a p.
Proof.
  intros H. exists (replace_nth (Z.to_nat i) x a). unfold zput.
  replace ((0 <=? i) && (i <? zlen a)) with true
    by (symmetry; apply andb_true_intro; split; [apply Z.leb_le|apply Z.ltb_lt]; lia).
  split; [reflexivity|]. split; [unfold zlen; rewrite replace_len; reflexivity|].
  intros p. unfold znth, zlen in *. destruct (Z.ltb_spec p 0).
  - destruct (Z.eqb_spec p i); [lia|reflexivity].
  - rewrite nth_replace by lia. destruct (Z.eqb_spec p i) as [->|N].
    + rewrite Nat.eqb_refl; reflexivity.
    + destruct (Nat.eqb_spec (Z.to_nat p) (Z.to_nat i)); [lia|reflexivity].
Qed.

(** Same items in [l..r], everything else untouched. *)
Definition blk (l r : Z) (a a' : list A) : Prop :=
  Permutation a a' /\ only_within l r a a' /\
  forall p, l <= p <= r -> exists q, l <= q <= r /\ znth a' p = znth a q.

Lemma blk_refl l r a : blk l r a a.
Proof. split; [reflexivity|]. split; [intros p _; reflexivity|]. intros p H; eauto. Qed.

Lemma blk_trans l r a b c : blk l r a b -> blk l r b c -> blk l r a c.
Proof.
  intros (P1 & O1 & B1) (P2 & O2 & B2). split; [etransitivity; eauto|]. split.
  - intros p H. rewrite O2, O1; auto.
  - intros p H. destruct (B2 p H) as (q & Hq & E). destruct (B1 q Hq) as (q' & Hq' & E').
    exists q'; split; auto; congruence.
Qed.

Lemma blk_wider l r l' r' a b : l' <= l -> r <= r' -> blk l r a b -> blk l' r' a b.
Proof.
  intros Hl Hr (P & O & B). split; [exact P|]. split.
  - intros p H. apply O. lia.
  - intros p H. destruct (Z.le_gt_cases l p) as [H1|H1], (Z.le_gt_cases p r) as [H2|H2].
    + destruct (B p (conj H1 H2)) as (q & Hq & E). exists q; split; [lia|exact E].
    + exists p; split; [lia|]. apply O; lia.
    + exists p; split; [lia|]. apply O; lia.
    + exists p; split; [lia|]. apply O; lia.
Qed.

Lemma blk_len l r a b : blk l r a b -> zlen b = zlen a.
Proof. intros (P & _). unfold zlen. rewrite (Permutation_length P). reflexivity. Qed.

Lemma perm_swap_nth : forall a b i j, (i < j)%nat -> length a = length b ->
  nth_error b i = nth_error a j -> nth_error b j = nth_error a i ->
  (forall p, p <> i -> p <> j -> nth_error b p = nth_error a p) -> (j < length a)%nat ->
  Permutation a b.
Proof.
  intros a b i j Hij Hl Hi Hj Ho Hlen.
  apply (proj2 (Permutation_nth_error a b)). split; [exact Hl|].
  exists (fun p => if Nat.eqb p i then j else if Nat.eqb p j then i else p). split.
  - intros p q E. destruct (Nat.eqb_spec p i), (Nat.eqb_spec q i), (Nat.eqb_spec p j), (Nat.eqb_spec q j); lia.
  - intros p. destruct (Nat.eqb_spec p i) as [->|N1]; [exact Hi|].
    destruct (Nat.eqb_spec p j) as [->|N2]; [exact Hj|]. auto.
Qed.

Lemma nth_error_ext a : forall b, (forall p, nth_error a p = nth_error b p) -> a = b.
Proof.
  induction a as [|x r IH]; intros [|y s] H; auto.
  - specialize (H 0%nat); discriminate.
  - specialize (H 0%nat); discriminate.
  - f_equal; [specialize (H 0%nat); cbn in H; congruence|]. apply IH. intros p. apply (H (S p)).
Qed.

Lemma swap_ok a i j : 0 <= i < zlen a -> 0 <= j < zlen a ->
  exists a', swap_item a i j = Ok a' /\ Permutation a a' /\ zlen a' = zlen a /\
    forall p, znth a' p = if p =? j then znth a i else if p =? i then znth a j else znth a p.
Proof.
  intros Hi Hj. destruct (znth_range a i Hi) as [x Ex]. destruct (znth_range a j Hj) as [y Ey].
  destruct (zput_ok a i y Hi) as (a1 & E1 & L1 & N1).
  destruct (zput_ok a1 j x ltac:(lia)) as (a2 & E2 & L2 & N2).
  assert (N : forall p, znth a2 p = if p =? j then znth a i else if p =? i then znth a j else znth a p).
  { intros p. rewrite N2, N1, Ex, Ey. reflexivity. }
  exists a2. split; [unfold swap_item, zget; rewrite Ex, Ey; cbn [bind]; rewrite E1; exact E2|].
  split; [|split; [lia|exact N]].
  assert (G : forall p, nth_error a2 p = if Nat.eqb p (Z.to_nat j) then nth_error a (Z.to_nat i)
     else if Nat.eqb p (Z.to_nat i) then nth_error a (Z.to_nat j) else nth_error a p).
  { intros p. specialize (N (Z.of_nat p)). unfold znth in N. rewrite Nat2Z.id in N.
    destruct (Z.ltb_spec (Z.of_nat p) 0); [lia|]. destruct (Z.ltb_spec i 0); [lia|].
    destruct (Z.ltb_spec j 0); [lia|]. rewrite N.
    destruct (Z.eqb_spec (Z.of_nat p) j), (Nat.eqb_spec p (Z.to_nat j)); try lia;
    destruct (Z.eqb_spec (Z.of_nat p) i), (Nat.eqb_spec p (Z.to_nat i)); try lia; reflexivity. }
  unfold zlen in *.
  destruct (Z.lt_trichotomy i j) as [H|[H|H]].
  - apply (perm_swap_nth a a2 (Z.to_nat i) (Z.to_nat j)); try lia.
    + rewrite G. destruct (Nat.eqb_spec (Z.to_nat i) (Z.to_nat j)); [lia|]. rewrite Nat.eqb_refl; reflexivity.
    + rewrite G, Nat.eqb_refl; reflexivity.
    + intros p A1 A2. rewrite G. destruct (Nat.eqb_spec p (Z.to_nat j)); [lia|].
      destruct (Nat.eqb_spec p (Z.to_nat i)); [lia|reflexivity].
  - subst j. replace a2 with a; [reflexivity|].
    apply nth_error_ext. intros p. rewrite G. destruct (Nat.eqb_spec p (Z.to_nat i)) as [->|]; reflexivity.
  - apply (perm_swap_nth a a2 (Z.to_nat j) (Z.to_nat i)); try lia.
    + rewrite G, Nat.eqb_refl; reflexivity.
    + rewrite G. destruct (Nat.eqb_spec (Z.to_nat i) (Z.to_nat j)); [lia|]. rewrite Nat.eqb_refl; reflexivity.
    + intros p A1 A2. rewrite G. destruct (Nat.eqb_spec p (Z.to_nat j)); [lia|].
      destruct (Nat.eqb_spec p (Z.to_nat i)); [lia|reflexivity].
Qed.

Lemma swap_blk l r a i j a' : l <= i <= r -> l <= j <= r ->
  Permutation a a' ->
  (forall p, znth a' p = if p =? j then znth a i else if p =? i then znth a j else znth a p) ->
  blk l r a a'.
Proof.
  intros Hi Hj P N. split; [exact P|]. split.
  - intros p H. rewrite N. destruct (Z.eqb_spec p j); [lia|]. destruct (Z.eqb_spec p i); [lia|]. reflexivity.
  - intros p H. rewrite N. destruct (Z.eqb_spec p j); [eauto|]. destruct (Z.eqb_spec p i); eauto.
Qed.

(** All items at positions lo..hi satisfy P. *)
Definition all_in (P : A -> Prop) (a : list A) (lo hi : Z) : Prop :=
  forall p x, lo <= p <= hi -> znth a p = Some x -> P x.

Lemma scan_up_ok (less : A -> bool) a : forall fuel i stop x,
  0 <= i <= stop -> znth a stop = Some x -> less x = false ->
  (Z.to_nat (stop - i) < fuel)%nat ->
  exists i' y, scan_up less fuel a i = Ok i' /\ i <= i' <= stop /\
    znth a i' = Some y /\ less y = false /\ all_in (fun z => less z = true) a i (i' - 1).
Proof.
  induction fuel as [|f IH]; intros i stop x Hi Ex Hx Hf; [lia|].
  pose proof (znth_some_range _ _ _ Ex) as R.
  destruct (znth_range a i ltac:(lia)) as [z Ez]. cbn [scan_up]. unfold zget. rewrite Ez. cbn [bind].
  destruct (less z) eqn:L.
  - assert (i <> stop) by (intros ->; congruence).
    destruct (IH (i + 1) stop x ltac:(lia) Ex Hx ltac:(lia)) as (i' & y & E & H1 & H2 & H3 & H4).
    exists i', y. split; [exact E|]. split; [lia|]. split; [exact H2|]. split; [exact H3|].
    intros p w Hp Ew. destruct (Z.eq_dec p i) as [->|N]; [congruence|]. apply (H4 p w); [lia|exact Ew].
  - exists i, z. split; [reflexivity|]. split; [lia|]. split; [exact Ez|]. split; [exact L|].
    intros p w Hp; lia.
Qed.

Lemma scan_down_ok (greater : A -> bool) a : forall fuel j stop x,
  0 <= stop <= j -> j < zlen a -> znth a stop = Some x -> greater x = false ->
  (Z.to_nat (j - stop) < fuel)%nat ->
  exists j' y, scan_down greater fuel a j = Ok j' /\ stop <= j' <= j /\
    znth a j' = Some y /\ greater y = false /\ all_in (fun z => greater z = true) a (j' + 1) j.
Proof.
  induction fuel as [|f IH]; intros j stop x Hj Hl Ex Hx Hf; [lia|].
  destruct (znth_range a j ltac:(lia)) as [z Ez]. cbn [scan_down]. unfold zget. rewrite Ez. cbn [bind].
  destruct (greater z) eqn:L.
  - assert (j <> stop) by (intros ->; congruence).
    destruct (IH (j - 1) stop x ltac:(lia) ltac:(lia) Ex Hx ltac:(lia)) as (j' & y & E & H1 & H2 & H3 & H4).
    exists j', y. split; [exact E|]. split; [lia|]. split; [exact H2|]. split; [exact H3|].
    intros p w Hp Ew. destruct (Z.eq_dec p j) as [->|N]; [congruence|]. apply (H4 p w); [lia|exact Ew].
  - exists j, z. split; [reflexivity|]. split; [lia|]. split; [exact Ez|]. split; [exact L|].
    intros p w Hp; lia.
Qed.

Section Part.
Variables (less greater : A -> bool).
Hypothesis excl : forall x, greater x = true -> less x = false.

Lemma less_not_greater x : less x = true -> greater x = false.
Proof. intros H. destruct (greater x) eqn:G; auto. apply excl in G; congruence. Qed.

(** The inner loop, started with sentinels at both ends.  The bounds l and r are only
    touched by the first swap. *)
Lemma part_loop_ok l r : forall fuel a i j xi xj,
  0 <= l -> r < zlen a -> l <= i -> j <= r -> i <= j + 1 ->
  (j = r -> i = l) -> (i = l -> j = r /\ l < r) ->
  znth a i = Some xi -> less xi = false -> znth a j = Some xj -> greater xj = false ->
  all_in (fun z => greater z = false) a l (i - 1) ->
  all_in (fun z => less z = false) a (j + 1) r ->
  (Z.to_nat (j - i + 1) < fuel)%nat ->
  exists a' j', part_loop less greater fuel a i j = Ok (a', j') /\
    blk l r a a' /\ l <= j' < r /\
    all_in (fun z => greater z = false) a' l j' /\
    all_in (fun z => less z = false) a' (j' + 1) r /\
    (if i =? l then znth a' l = Some xj /\ znth a' r = Some xi
     else znth a' l = znth a l /\ znth a' r = znth a r).
Proof.
  induction fuel as [|f IH]; intros a i j xi xj Hl Hr Hli Hjr Hij Hf1 Hf2 Ei Li Ej Gj AL AR Hf; [lia|].
  cbn [part_loop]. destruct (Z.ltb_spec i j) as [Hlt|Hge].
  - destruct (swap_ok a i j ltac:(lia) ltac:(lia)) as (a1 & E1 & P1 & L1 & N1). rewrite E1; cbn [bind].
    assert (B1 : blk l r a a1) by (apply (swap_blk l r a i j a1); auto; lia).
    assert (Ni : znth a1 i = Some xj).
    { rewrite N1. destruct (Z.eqb_spec i j); [lia|]. rewrite Z.eqb_refl; auto. }
    assert (Nj : znth a1 j = Some xi) by (rewrite N1, Z.eqb_refl; auto).
    assert (AL1 : all_in (fun z => greater z = false) a1 l i).
    { intros p x Hp Ex. destruct (Z.eq_dec p i) as [->|N]; [congruence|].
      rewrite N1 in Ex. destruct (Z.eqb_spec p j); [lia|]. destruct (Z.eqb_spec p i); [lia|].
      apply (AL p x); [lia|exact Ex]. }
    assert (AR1 : all_in (fun z => less z = false) a1 j r).
    { intros p x Hp Ex. destruct (Z.eq_dec p j) as [->|N]; [congruence|].
      rewrite N1 in Ex. destruct (Z.eqb_spec p j); [lia|]. destruct (Z.eqb_spec p i); [lia|].
      apply (AR p x); [lia|exact Ex]. }
    destruct (scan_up_ok less a1 (S (length a)) (i + 1) j xi ltac:(lia) Nj Li ltac:(unfold zlen in *; lia))
      as (i1 & y & Es & Hi1 & Ey & Ly & ALs). rewrite Es; cbn [bind].
    assert (AL2 : all_in (fun z => greater z = false) a1 l (i1 - 1)).
    { intros p x Hp Ex. destruct (Z.le_gt_cases p i); [apply (AL1 p x); [lia|exact Ex]|].
      apply less_not_greater. apply (ALs p x); [lia|exact Ex]. }
    destruct (znth_range a1 (i1 - 1) ltac:(lia)) as [w Ew].
    destruct (scan_down_ok greater a1 (S (length a)) (j - 1) (i1 - 1) w ltac:(lia) ltac:(lia) Ew
       (AL2 (i1 - 1) w ltac:(lia) Ew) ltac:(unfold zlen in *; lia))
      as (j1 & z & Ed & Hj1 & Ez & Gz & ARs). rewrite Ed; cbn [bind].
    assert (AR2 : all_in (fun z => less z = false) a1 (j1 + 1) r).
    { intros p x Hp Ex. destruct (Z.le_gt_cases j p); [apply (AR1 p x); [lia|exact Ex]|].
      apply excl. apply (ARs p x); [lia|exact Ex]. }
    destruct (IH a1 i1 j1 y z Hl ltac:(lia) ltac:(lia) ltac:(lia) ltac:(lia) ltac:(lia) ltac:(lia)
       Ey Ly Ez Gz AL2 AR2 ltac:(lia)) as (a' & j' & E' & B' & J' & AL' & AR' & C').
    exists a', j'. split; [exact E'|]. split; [eapply blk_trans; eauto|]. split; [exact J'|].
    split; [exact AL'|]. split; [exact AR'|].
    destruct (Z.eqb_spec i1 l); [lia|]. destruct C' as [C1 C2].
    destruct (Z.eqb_spec i l) as [Hil|Hil].
    + destruct (Hf2 Hil) as [-> _]. subst i. rewrite C1, C2. auto.
    + assert (j <> r) by (intros ->; apply Hil, Hf1; reflexivity).
      rewrite C1, C2, !N1. 
      destruct (Z.eqb_spec l j); [lia|]. destruct (Z.eqb_spec l i); [lia|].
      destruct (Z.eqb_spec r j); [lia|]. destruct (Z.eqb_spec r i); [lia|]. auto.
  - destruct (Z.eq_dec i l) as [Hil|Hil]; [destruct (Hf2 Hil); lia|].
    exists a, j. split; [reflexivity|]. split; [apply blk_refl|].
    assert (j <> r) by (intros ->; apply Hil, Hf1; reflexivity).
    split; [lia|]. split.
    + intros p x Hp Ex. destruct (Z.eq_dec p j) as [->|N]; [congruence|]. apply (AL p x); [lia|exact Ex].
    + split; [exact AR|]. destruct (Z.eqb_spec i l); [lia|]. auto.
Qed.
End Part.

(** One partition: no panic, only [left..right] permuted, the pivot ends at j. *)
Lemma partition_ok key a k left right :
  0 <= left -> left < right -> right < zlen a -> left <= k <= right ->
  exists tx a' j, znth a k = Some tx /\ partition key a k left right = Ok (a', j) /\
    left <= j <= right /\ blk left right a a' /\
    all_in (fun z => fgt (fsub (key z) (key tx)) fzero = false) a' left (j - 1) /\
    all_in (fun z => flt (fsub (key z) (key tx)) fzero = false) a' (j + 1) right /\
    (feq (fsub (key tx) (key tx)) fzero = true ->
     exists y, znth a' j = Some y /\ feq (fsub (key y) (key tx)) fzero = true).
Proof.
  intros Hl Hlr Hr Hk. destruct (znth_range a k ltac:(lia)) as [tx Et].
  exists tx. unfold partition, zget. rewrite Et; cbn [bind].
  set (t := key tx).
  set (less := fun x => flt (fsub (key x) t) fzero).
  set (greater := fun x => fgt (fsub (key x) t) fzero).
  set (equal := fun x => feq (fsub (key x) t) fzero).
  assert (excl : forall x, greater x = true -> less x = false).
  { intros x H. unfold greater, less, fgt in *. apply fle_not_lt, flt_le, H. }
  assert (tt : less tx = false /\ greater tx = false).
  { unfold less, greater, fgt. fold t. destruct t as [s|s| |s m e]; cbn; try (destruct s; split; reflexivity).
    - split; reflexivity.
    - unfold fsub, SFsub. rewrite Z.sub_diag. split; reflexivity. }
  destruct tt as [Lt Gt].
  destruct (swap_ok a left k ltac:(lia) ltac:(lia)) as (a1 & E1 & P1 & L1 & N1). rewrite E1; cbn [bind].
  assert (B1 : blk left right a a1) by (apply (swap_blk left right a left k a1); auto; lia).
  assert (T1 : znth a1 left = Some tx).
  { rewrite N1. destruct (Z.eqb_spec left k) as [->|]; [exact Et|]. rewrite Z.eqb_refl; exact Et. }
  destruct (znth_range a1 right ltac:(lia)) as [xr Exr]. rewrite Exr; cbn [bind].
  fold (greater xr).
  (* the two sentinels before the first swap of the loop *)
  assert (S2 : exists a2 xi xj,
     (if greater xr then swap_item a1 left right else Ok a1) = Ok a2 /\ blk left right a a2 /\
     znth a2 left = Some xi /\ less xi = false /\ znth a2 right = Some xj /\ greater xj = false /\
     (xj = tx \/ xi = tx)).
  { destruct (greater xr) eqn:Gr.
    - destruct (swap_ok a1 left right ltac:(lia) ltac:(lia)) as (a2 & E2 & P2 & L2 & N2).
      exists a2, xr, tx. split; [exact E2|].
      split; [eapply blk_trans; [exact B1|apply (swap_blk left right a1 left right a2); auto; lia]|].
      split; [rewrite N2; destruct (Z.eqb_spec left right); [lia|]; rewrite Z.eqb_refl; exact Exr|].
      split; [apply excl; exact Gr|].
      split; [rewrite N2, Z.eqb_refl; exact T1|]. split; [exact Gt|]. left; reflexivity.
    - exists a1, tx, xr. repeat (split; [solve [auto]|]). right; reflexivity. }
  destruct S2 as (a2 & xi & xj & E2 & B2 & Exi & Lxi & Exj & Gxj & Hone).
  rewrite E2; cbn [bind].
  pose proof (blk_len _ _ _ _ B2) as L2.
  destruct (part_loop_ok less greater excl left right (S (length a)) a2 left right xi xj
     Hl ltac:(lia) ltac:(lia) ltac:(lia) ltac:(lia) ltac:(lia) ltac:(lia) Exi Lxi Exj Gxj)
    as (a3 & j & E3 & B3 & J3 & AL & AR & C3).
  { intros p x Hp; lia. }
  { intros p x Hp; lia. }
  { unfold zlen in *; lia. }
  rewrite Z.eqb_refl in C3. destruct C3 as [Cl Cr].
  rewrite E3. cbn [bind]. rewrite Cl. cbn [bind]. fold (equal xj).
  pose proof (blk_len _ _ _ _ B3) as L3.
  destruct (equal xj) eqn:Q.
  - destruct (swap_ok a3 left j ltac:(lia) ltac:(lia)) as (a4 & E4 & P4 & L4 & N4). rewrite E4; cbn [bind].
    exists a4, j. split; [reflexivity|]. split; [reflexivity|]. split; [lia|].
    split; [eapply blk_trans; [exact B2|]; eapply blk_trans; [exact B3|];
            apply (swap_blk left right a3 left j a4); auto; lia|].
    split; [|split].
    + intros p x Hp Ex. rewrite N4 in Ex.
      destruct (Z.eqb_spec p j); [lia|]. destruct (Z.eqb_spec p left).
      * apply (AL j x); [lia|exact Ex].
      * apply (AL p x); [lia|exact Ex].
    + intros p x Hp Ex. rewrite N4 in Ex.
      destruct (Z.eqb_spec p j); [lia|]. destruct (Z.eqb_spec p left); [lia|].
      apply (AR p x); [lia|exact Ex].
    + intros _. exists xj. split; [rewrite N4, Z.eqb_refl; exact Cl|exact Q].
  - destruct (swap_ok a3 (j + 1) right ltac:(lia) ltac:(lia)) as (a4 & E4 & P4 & L4 & N4). rewrite E4; cbn [bind].
    exists a4, (j + 1). split; [reflexivity|]. split; [reflexivity|]. split; [lia|].
    split; [eapply blk_trans; [exact B2|]; eapply blk_trans; [exact B3|];
            apply (swap_blk left right a3 (j + 1) right a4); auto; lia|].
    split; [|split].
    + intros p x Hp Ex. rewrite N4 in Ex.
      destruct (Z.eqb_spec p right); [lia|]. destruct (Z.eqb_spec p (j + 1)); [lia|].
      apply (AL p x); [lia|exact Ex].
    + intros p x Hp Ex. rewrite N4 in Ex.
      destruct (Z.eqb_spec p right).
      * apply (AR (j + 1) x); [lia|exact Ex].
      * destruct (Z.eqb_spec p (j + 1)); [lia|]. apply (AR p x); [lia|exact Ex].
    + intros He. fold t in He. destruct Hone as [->| ->]; [unfold equal in Q; fold t in Q; congruence|].
      exists tx. split; [|exact He]. rewrite N4. destruct (Z.eqb_spec (j + 1) right) as [->|]; [exact Cr|].
      rewrite Z.eqb_refl. exact Cr.
Qed.

(** The whole selection: it ends, does not panic and permutes [l0..r0] only. *)
Lemma sel_blk samp key (SO : sample_ok samp) : forall fuel a k l0 r0 left right,
  0 <= l0 -> r0 < zlen a -> l0 <= left -> right <= r0 ->
  (left < right -> left <= k <= right) -> (600 < right - left -> l0 <= k <= r0) ->
  (Z.to_nat (r0 - l0) * Z.to_nat (r0 - l0) + Z.to_nat (right - left) < fuel)%nat ->
  exists a', sel samp key fuel a k l0 r0 left right = Ok a' /\ blk l0 r0 a a'.
Proof.
  induction fuel as [|f IH]; intros a k l0 r0 left right H0 Hr Hl Hrr Hk Hk0 Hf; [lia|].
  cbn [sel]. destruct (Z.ltb_spec left right) as [Hlt|Hge]; [|exists a; split; [reflexivity|apply blk_refl]].
  specialize (Hk Hlt).
  assert (S1 : exists a1, (if 600 <? right - left
             then let '(nl, nr) := samp l0 r0 k in sel samp key f a k nl nr nl nr
             else Ok a) = Ok a1 /\ blk l0 r0 a a1).
  { destruct (Z.ltb_spec 600 (right - left)) as [Hs|Hs]; [|exists a; split; [reflexivity|apply blk_refl]].
    pose proof (SO l0 r0 k ltac:(lia) ltac:(lia)) as S. destruct (samp l0 r0 k) as [nl nr].
    destruct S as (S1 & S2 & S3).
    destruct (IH a k nl nr nl nr) as (a1 & E1 & B1); try lia.
    { assert (Z.to_nat (nr - nl) < Z.to_nat (r0 - l0))%nat by lia.
      assert (Z.to_nat (nr - nl) * Z.to_nat (nr - nl) + Z.to_nat (nr - nl)
              <= Z.to_nat (r0 - l0) * Z.to_nat (r0 - l0))%nat by nia. lia. }
    exists a1. split; [exact E1|]. eapply blk_wider; [| |exact B1]; lia. }
  destruct S1 as (a1 & E1 & B1). rewrite E1; cbn [bind].
  pose proof (blk_len _ _ _ _ B1) as L1.
  destruct (partition_ok key a1 k left right ltac:(lia) Hlt ltac:(lia) Hk)
    as (tx & a2 & j & _ & E2 & J2 & B2 & _). rewrite E2; cbn [bind].
  pose proof (blk_len _ _ _ _ B2) as L2.
  set (left' := if j <=? k then j + 1 else left). set (right' := if k <=? j then j - 1 else right).
  destruct (IH a2 k l0 r0 left' right') as (a3 & E3 & B3); try lia.
  { unfold left'; destruct (Z.leb_spec j k); lia. }
  { unfold right'; destruct (Z.leb_spec k j); lia. }
  { unfold left', right'; destruct (Z.leb_spec j k), (Z.leb_spec k j); lia. }
  { assert (Z.to_nat (right' - left') < Z.to_nat (right - left))%nat
      by (unfold left', right'; destruct (Z.leb_spec j k), (Z.leb_spec k j); lia). lia. }
  exists a3. split; [exact E3|].
  eapply blk_trans; [exact B1|]. eapply blk_trans; [|exact B3]. eapply blk_wider; [| |exact B2]; lia.
Qed.

Lemma select_box_blk samp key a k left right :
  sample_ok samp -> 0 <= left -> right < zlen a -> left <= k <= right ->
  exists a', select_box samp key a k left right = Ok a' /\ blk left right a a'.
Proof.
  intros SO Hl Hr Hk. apply (sel_blk samp key SO); try lia. unfold sel_fuel. lia.
Qed.

(** Every item of l..i is no greater than every item of j..r. *)
Definition below (key : A -> f64) a (l i j r : Z) : Prop :=
  forall p q x y, l <= p <= i -> j <= q <= r -> znth a p = Some x -> znth a q = Some y ->
    fle (key x) (key y) = true.

Lemma sel_selects samp key : forall fuel a k l0 r0 left right a',
  (forall x, In x a -> f_num (key x) = true) ->
  0 <= l0 -> r0 < zlen a -> l0 <= left -> right <= r0 -> right - left <= 600 ->
  l0 <= k <= r0 -> (left <= k <= right \/ left = k + 1 /\ right = k - 1) ->
  below key a l0 (left - 1) left r0 -> below key a l0 right (right + 1) r0 ->
  sel samp key fuel a k l0 r0 left right = Ok a' -> selected key a' k l0 r0.
Proof.
  induction fuel as [|f IH]; intros a k l0 r0 left right a' HK H0 Hr Hl Hrr Hs Hk Hin BL BR E;
    [discriminate|].
  cbn [sel] in E. destruct (Z.ltb_spec left right) as [Hlt|Hge].
  - destruct Hin as [Hin|Hin]; [|lia].
    destruct (Z.ltb_spec 600 (right - left)); [lia|]. cbn [bind] in E.
    destruct (partition_ok key a k left right ltac:(lia) Hlt ltac:(lia) Hin)
      as (tx & a2 & j & Et & E2 & J2 & B2 & AL & AR & AE). rewrite E2 in E; cbn [bind] in E.
    pose proof (blk_len _ _ _ _ B2) as L2.
    destruct B2 as (P2 & O2 & I2).
    assert (HK2 : forall x, In x a2 -> f_num (key x) = true).
    { intros x Hx. apply HK. eapply Permutation_in; [apply Permutation_sym; exact P2|exact Hx]. }
    assert (In_ : forall b p x, znth b p = Some x -> In x b).
    { intros b p x Ex. unfold znth in Ex. destruct (p <? 0); [discriminate|]. eapply nth_error_In; eauto. }
    assert (NT : f_num (key tx) = true) by (apply HK; eauto).
    destruct AE as (y & Ey & Qy).
    { rewrite fsub_eq by auto. apply feq_key. pose proof (f_num_nan _ NT).
      split; [auto|]. split; [auto|]. unfold keq; auto. }
    assert (NY : f_num (key y) = true) by eauto.
    rewrite fsub_eq in Qy by auto.
    (* relative to the pivot *)
    assert (LE : forall p x, left <= p <= j -> znth a2 p = Some x -> fle (key x) (key tx) = true).
    { intros p x Hp Ex. assert (NX : f_num (key x) = true) by eauto.
      destruct (Z.eq_dec p j) as [->|N].
      - rewrite Ey in Ex; injection Ex as <-.
        apply feq_key in Qy. apply fle_key. tauto.
      - apply flt_total; try (apply f_num_nan; auto).
        rewrite <- fsub_gt by auto. apply (AL p x); [lia|exact Ex]. }
    assert (GE : forall p x, j <= p <= right -> znth a2 p = Some x -> fle (key tx) (key x) = true).
    { intros p x Hp Ex. assert (NX : f_num (key x) = true) by eauto.
      destruct (Z.eq_dec p j) as [->|N].
      - rewrite Ey in Ex; injection Ex as <-.
        apply feq_key in Qy. apply fle_key. unfold keq in *. intuition congruence.
      - apply flt_total; try (apply f_num_nan; auto).
        rewrite <- fsub_lt by auto. apply (AR p x); [lia|exact Ex]. }
    (* the outer invariants survive the permutation of left..right *)
    assert (back : forall p x, l0 <= p <= r0 -> znth a2 p = Some x ->
       exists p', znth a p' = Some x /\
         (p < left \/ right < p -> p' = p) /\ (left <= p <= right -> left <= p' <= right)).
    { intros p x Hp Ex. destruct (Z.le_gt_cases left p) as [A1|A1], (Z.le_gt_cases p right) as [A2|A2].
      - destruct (I2 p ltac:(lia)) as (q & Hq & Eq). exists q. split; [congruence|]. split; lia.
      - exists p. rewrite <- (O2 p) by lia. split; [exact Ex|]. split; lia.
      - exists p. rewrite <- (O2 p) by lia. split; [exact Ex|]. split; lia.
      - exists p. rewrite <- (O2 p) by lia. split; [exact Ex|]. split; lia. }
    assert (BL2 : below key a2 l0 (left - 1) left r0).
    { intros p q x z Hp Hq Ex Ez. destruct (back p x ltac:(lia) Ex) as (p' & Ep & P1' & P2').
      destruct (back q z ltac:(lia) Ez) as (q' & Eq & Q1' & Q2').
      apply (BL p' q'); auto; lia. }
    assert (BR2 : below key a2 l0 right (right + 1) r0).
    { intros p q x z Hp Hq Ex Ez. destruct (back p x ltac:(lia) Ex) as (p' & Ep & P1' & P2').
      destruct (back q z ltac:(lia) Ez) as (q' & Eq & Q1' & Q2').
      apply (BR p' q'); auto; lia. }
    (* the new cut points *)
    assert (CUT : forall p q x z, l0 <= p <= j -> j <= q <= r0 -> znth a2 p = Some x -> znth a2 q = Some z ->
        fle (key x) (key z) = true).
    { intros p q x z Hp Hq Ex Ez.
      destruct (Z.lt_ge_cases p left) as [A1|A1]; [apply (BL2 p q); auto; lia|].
      destruct (Z.lt_ge_cases right q) as [A2|A2]; [apply (BR2 p q); auto; lia|].
      eapply fle_trans; [apply (LE p); [lia|exact Ex]|apply (GE q); [lia|exact Ez]]. }
    eapply IH in E; [exact E|..]; auto.
    + lia.
    + destruct (Z.leb_spec j k); lia.
    + destruct (Z.leb_spec k j); lia.
    + destruct (Z.leb_spec j k), (Z.leb_spec k j); lia.
    + destruct (Z.leb_spec j k), (Z.leb_spec k j); lia.
    + destruct (Z.leb_spec j k); [|exact BL2]. intros p q x z Hp Hq Ex Ez. apply (CUT p q); auto; lia.
    + destruct (Z.leb_spec k j); [|exact BR2]. intros p q x z Hp Hq Ex Ez. apply (CUT p q); auto; lia.
  - injection E as <-.
    assert (In_ : forall b p x, znth b p = Some x -> In x b).
    { intros b p x Ex. unfold znth in Ex. destruct (p <? 0); [discriminate|]. eapply nth_error_In; eauto. }
    intros p q x y Hp Hq Ex Ey.
    destruct (Z.eq_dec p k) as [->|Np], (Z.eq_dec q k) as [->|Nq].
    + rewrite Ex in Ey; injection Ey as <-. apply fle_refl, f_num_nan, HK; eauto.
    + destruct (Z.le_gt_cases k right) as [A1|A1]; [apply (BR k q); auto; lia|].
      apply (BL k q); auto; lia.
    + destruct (Z.le_gt_cases left k) as [A1|A1]; [apply (BL p k); auto; lia|].
      apply (BR p k); auto; lia.
    + destruct (Z.le_gt_cases left k) as [A1|A1]; [apply (BL p q); auto; lia|].
      destruct (Z.le_gt_cases k right) as [A2|A2]; [apply (BR p q); auto; lia|].
      apply (BL p q); auto; lia.
Qed.

(** multiSelect. *)
Fixpoint ranges_ok (l0 r0 : Z) (stack : list Z) : Prop :=
  match stack with
  | [] => True
  | hi :: lo :: st => l0 <= lo /\ hi <= r0 /\ ranges_ok l0 r0 st
  | _ => False
  end.

Fixpoint work (stack : list Z) : nat :=
  match stack with
  | hi :: lo :: st => Nat.max 1 (2 * Z.to_nat (hi - lo) - 1) + work st
  | _ => 0%nat
  end.

Lemma multi_loop_blk samp key n l0 r0 : sample_ok samp -> 0 < n -> 0 <= l0 ->
  forall fuel a stack, r0 < zlen a -> ranges_ok l0 r0 stack -> (work stack < fuel)%nat ->
  exists a', multi_loop samp key n fuel a stack = Ok a' /\ blk l0 r0 a a'.
Proof.
  intros SO Hn Hl0. induction fuel as [|f IH]; intros a stack Hr HS Hf; [lia|].
  destruct stack as [|hi [|lo st]]; cbn [multi_loop].
  - exists a; split; [reflexivity|apply blk_refl].
  - destruct HS.
  - cbn [ranges_ok] in HS. destruct HS as (S1 & S2 & S3). cbn [work] in Hf.
    destruct (Z.leb_spec (hi - lo) n) as [Hd|Hd]; [apply IH; auto; lia|].
    set (c := (hi - lo + 2 * n - 1) / (2 * n)).
    assert (C : 1 <= c /\ c * n < hi - lo).
    { pose proof (Z.mul_div_le (hi - lo + 2 * n - 1) (2 * n) ltac:(lia)) as C1. fold c in C1.
      split.
      - apply Z.div_le_lower_bound; lia.
      - destruct (Z.le_gt_cases (2 * n) (hi - lo)).
        + nia.
        + assert (c < 2) by (apply Z.div_lt_upper_bound; lia).
          assert (c = 1 \/ c <= 0) by lia. destruct H1; nia. }
    set (mid := lo + c * n).
    assert (M : lo < mid < hi) by (unfold mid; nia).
    destruct (select_box_blk samp key a mid lo hi SO ltac:(lia) ltac:(lia) ltac:(lia)) as (a1 & E1 & B1).
    rewrite E1; cbn [bind]. pose proof (blk_len _ _ _ _ B1) as L1.
    destruct (IH a1 (hi :: mid :: mid :: lo :: st)) as (a2 & E2 & B2).
    + lia.
    + cbn [ranges_ok]. repeat split; auto; lia.
    + cbn [work]. lia.
    + exists a2. split; [exact E2|]. eapply blk_trans; [|exact B2]. eapply blk_wider; [| |exact B1]; lia.
Qed.

Lemma multi_select_blk samp key a left right n :
  sample_ok samp -> 0 < n -> 0 <= left -> right < zlen a ->
  exists a', multi_select samp key a left right n = Ok a' /\ blk left right a a'.
Proof.
  intros SO Hn Hl Hr. apply multi_loop_blk; auto.
  - cbn; repeat split; lia.
  - cbn [work]. lia.
Qed.

End Arr.
