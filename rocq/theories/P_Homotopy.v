(** Proofs about the chain deformation. *)
From Verif Require Import M_Base M_Float M_Rng M_Geom M_Node M_Hdb M_Homotopy Spec Spec_Relate
  P_Base P_Float.
Open Scope Z_scope.

(** ** Doubly linked lists *)

Definition hd_or {A} (l : list A) (e : option A) : option A :=
  match l with [] => e | x :: _ => Some x end.
Fixpoint last_or {A} (l : list A) (p : option A) : option A :=
  match l with [] => p | x :: r => last_or r (Some x) end.

Fixpoint dll (st : chainst) (p : option Z) (l : list Z) (e : option Z) : Prop :=
  match l with
  | [] => True
  | v :: r => ch_prev st v = p /\ ch_next st v = hd_or r e /\ dll st (Some v) r e
  end.

Lemma hd_or_app {A} (l1 l2 : list A) e : hd_or (l1 ++ l2) e = hd_or l1 (hd_or l2 e).
Proof. destruct l1; auto. Qed.
Lemma last_or_app {A} (l1 l2 : list A) : forall p, last_or (l1 ++ l2) p = last_or l2 (last_or l1 p).
Proof. induction l1; cbn; auto. Qed.

Lemma dll_app st l1 : forall p l2 e,
  dll st p (l1 ++ l2) e <-> dll st p l1 (hd_or l2 e) /\ dll st (last_or l1 p) l2 e.
Proof.
  induction l1 as [|x r IH]; intros; cbn; [tauto|]. rewrite hd_or_app, IH. tauto.
Qed.

Lemma dll_ext st st' l : forall p e,
  (forall v, In v l -> ch_prev st' v = ch_prev st v /\ ch_next st' v = ch_next st v) ->
  dll st p l e -> dll st' p l e.
Proof.
  induction l as [|x r IH]; intros p e H; cbn; auto. intros [A [B C]].
  destruct (H x) as [E1 E2]; [cbn; auto|]. rewrite E1, E2. repeat split; auto.
  apply IH; auto. intros; apply H; cbn; auto.
Qed.

Definition linked (st : chainst) (l : list Z) : Prop := dll st None l None /\ NoDup l.

Lemma last_or_snoc {A} (l : list A) x p : last_or (l ++ [x]) p = Some x.
Proof. rewrite last_or_app; reflexivity. Qed.

(** Unlinking an interior vertex. *)
Lemma remove_linked st u a v c w :
  linked st (u ++ a :: v :: c :: w) ->
  linked (ch_remove st v) (u ++ a :: c :: w) /\
  ch_next (ch_remove st v) v = Some c /\ ch_size (ch_remove st v) = ch_size st.
Proof.
  intros [H N].
  apply dll_app in H. cbn [hd_or dll] in H.
  destruct H as [Hu [Ha1 [Ha2 [Hv1 [Hv2 [Hc1 [Hc2 Hw]]]]]]].
  cbn in Ha2, Hv2.
  assert (Nv : ~ In v (u ++ a :: c :: w)).
  { replace (u ++ a :: v :: c :: w) with ((u ++ [a]) ++ v :: c :: w) in N
      by (rewrite <- app_assoc; reflexivity).
    apply NoDup_remove_2 in N. rewrite <- app_assoc in N. exact N. }
  assert (N' : NoDup (u ++ a :: c :: w)).
  { replace (u ++ a :: v :: c :: w) with ((u ++ [a]) ++ v :: c :: w) in N
      by (rewrite <- app_assoc; reflexivity).
    apply NoDup_remove_1 in N. rewrite <- app_assoc in N. exact N. }
  assert (Na : ~ In a (u ++ c :: w)) by (apply NoDup_remove_2 in N'; exact N').
  assert (Nc : ~ In c (u ++ a :: w)).
  { replace (u ++ a :: c :: w) with ((u ++ [a]) ++ c :: w) in N'
      by (rewrite <- app_assoc; reflexivity).
    apply NoDup_remove_2 in N'. rewrite <- app_assoc in N'. exact N'. }
  unfold ch_remove. rewrite Hv1, Hv2. unfold ptrs; cbn [ch_next ch_prev ch_size].
  set (st' := Chain (upd (ch_next st) a (Some c)) (upd (ch_prev st) c (Some a)) (ch_size st)).
  assert (Ext : forall x, x <> a -> x <> c -> ch_prev st' x = ch_prev st x /\ ch_next st' x = ch_next st x).
  { intros x Hxa Hxc. unfold st'; cbn. unfold upd. split.
    - destruct (Z.eqb_spec x c); [congruence|auto].
    - destruct (Z.eqb_spec x a); [congruence|auto]. }
  assert (Hac : a <> c).
  { intros ->. apply Nc. apply in_or_app; cbn; auto. }
  assert (Hva : v <> a) by (intros ->; apply Nv; apply in_or_app; cbn; auto).
  split; [split; auto|split; auto].
  - apply dll_app. cbn [hd_or dll]. repeat split.
    + eapply dll_ext; [|exact Hu]. intros x Hx. apply Ext.
      * intros ->. apply Na. apply in_or_app; auto.
      * intros ->. apply Nc. apply in_or_app; auto.
    + cbn. unfold upd. destruct (Z.eqb_spec a c); [congruence|auto].
    + cbn. unfold upd. rewrite Z.eqb_refl; auto.
    + cbn. unfold upd. rewrite Z.eqb_refl; auto.
    + cbn. unfold upd. destruct (Z.eqb_spec c a); [congruence|auto].
    + eapply dll_ext; [|exact Hw]. intros x Hx. apply Ext.
      * intros ->. apply Na. apply in_or_app; cbn; auto.
      * intros ->. apply Nc. apply in_or_app; cbn; auto.
  - cbn. unfold upd. destruct (Z.eqb_spec v a); [congruence|auto].
Qed.

(** ** Construction *)

Lemma zseq_snoc lo hi : lo <= hi -> zseq lo hi = zseq lo (hi - 1) ++ [hi].
Proof.
  intros H. unfold zseq.
  replace (Z.to_nat (hi - lo + 1)) with (S (Z.to_nat (hi - 1 - lo + 1))) by lia.
  rewrite seq_S, map_app. cbn. f_equal. f_equal. lia.
Qed.

Lemma zseq_mem lo hi x : In x (zseq lo hi) <-> lo <= x <= hi.
Proof.
  unfold zseq. rewrite in_map_iff. split.
  - intros [k [<- Hk]]. apply in_seq in Hk. lia.
  - intros H. exists (Z.to_nat (x - lo)). split; [lia|]. apply in_seq. lia.
Qed.
Lemma zseq_nodup lo hi : NoDup (zseq lo hi).
Proof.
  unfold zseq. apply FinFun.Injective_map_NoDup; [|apply seq_NoDup].
  intros a b H; lia.
Qed.

Lemma new_chain_linked m : forall n, 0 <= m ->
  let st := fold_left (fun st i => ptrs st (Some (i - 1)) (Some i)) (zseq 1 m)
              (Chain (fun _ => None) (fun _ => None) n) in
  dll st None (zseq 0 m) None /\ ch_size st = n /\
  (forall v, m < v -> ch_next st v = None /\ ch_prev st v = None).
Proof.
  intros n Hm. pattern m. revert m Hm. apply natlike_ind.
  - cbn. repeat split; auto.
  - intros m Hm IH. cbv zeta in *. unfold Z.succ.
    rewrite (zseq_snoc 1 (m + 1)) by lia. rewrite (zseq_snoc 0 (m + 1)) by lia.
    replace (m + 1 - 1) with m by lia. rewrite fold_left_app. cbn [fold_left].
    set (st := fold_left _ _ _) in *. destruct IH as [D [S F]].
    replace (m + 1 - 1) with m by lia.
    unfold ptrs; cbn [ch_next ch_prev ch_size]. repeat split; auto.
    + rewrite (zseq_snoc 0 m) by lia. rewrite (zseq_snoc 0 m) in D by lia.
      apply dll_app in D. cbn in D. destruct D as [D1 [D2 [D3 _]]].
      rewrite <- app_assoc. apply dll_app. cbn. repeat split.
      * eapply dll_ext; [|exact D1]. intros v Hv. apply zseq_mem in Hv. cbn. unfold upd.
        destruct (Z.eqb_spec v (m + 1)); [lia|]. destruct (Z.eqb_spec v m); [lia|]. auto.
      * unfold upd. destruct (Z.eqb_spec m (m + 1)); [lia|]. auto.
      * unfold upd. rewrite Z.eqb_refl; auto.
      * unfold upd. rewrite Z.eqb_refl; auto.
      * unfold upd. destruct (Z.eqb_spec (m + 1) m); [lia|]. apply F; lia.
    + cbn. unfold upd. destruct (Z.eqb_spec v m); [lia|]. apply F; lia.
    + cbn. unfold upd. destruct (Z.eqb_spec v (m + 1)); [lia|]. apply F; lia.
Qed.

Lemma new_chain_ok n : 1 <= n -> linked (new_chain n) (zseq 0 (n - 1)) /\ ch_size (new_chain n) = n.
Proof.
  intros H. destruct (new_chain_linked (n - 1) n) as [D [S _]]; [lia|].
  split; [split|]; auto. apply zseq_nodup.
Qed.

(** ** Passes *)

Section Pass.
Variable ok : Z -> Z -> Z -> bool.
Variable col : chainst -> Z -> bool.
Hypothesis Hcol : forall st v, col st v =
  match ch_prev st v, ch_next st v with Some a, Some c => ok a v c | _, _ => false end.

Notation red := (shrinks (fun a b c => ok a b c = true)).

Lemma shrinks_trans {A} (free : A -> A -> A -> Prop) l1 l2 l3 :
  shrinks free l1 l2 -> shrinks free l2 l3 -> shrinks free l1 l3.
Proof. induction 1; auto. intros. eapply shrinks_step; eauto. Qed.

Lemma shrinks_len {A} (free : A -> A -> A -> Prop) l1 l2 :
  shrinks free l1 l2 -> (length l2 <= length l1)%nat.
Proof. induction 1; auto. rewrite app_length in *. cbn in *. lia. Qed.

Lemma shrinks_hd {A} (free : A -> A -> A -> Prop) l1 l2 :
  shrinks free l1 l2 -> hd_or l1 None = hd_or l2 None.
Proof. induction 1; auto. rewrite <- IHshrinks. destruct u; auto. Qed.

Lemma shrinks_last {A} (free : A -> A -> A -> Prop) l1 l2 :
  shrinks free l1 l2 -> last_or l1 None = last_or l2 None.
Proof. induction 1; auto. rewrite <- IHshrinks. rewrite !last_or_app. reflexivity. Qed.

Lemma list_snoc {A} (l : list A) : l = [] \/ exists u x, l = u ++ [x].
Proof.
  induction l as [|a r [-> |[u [x ->]]]]; auto; right.
  - exists [], a; auto.
  - exists (a :: u), x; auto.
Qed.

(** [settled done post]: no triple of the list whose middle lies in post is removable. *)
Definition settled (l post : list Z) : Prop :=
  forall u a b c w, l = u ++ a :: b :: c :: w -> In b post -> ok a b c = false.

Lemma pass_spec post : forall fuel st done v d,
  linked st (done ++ v :: post) -> ch_size st = zlen (done ++ v :: post) ->
  (length post < fuel)%nat ->
  exists st' l' d', ch_pass col fuel st (Some v) d = Ok (st', d') /\
    linked st' l' /\ ch_size st' = zlen l' /\ red (done ++ v :: post) l' /\
    (d' = false -> d = false /\ l' = done ++ v :: post /\ settled l' (v :: post)) /\
    (d' = true -> d = true \/ (length l' < length (done ++ v :: post))%nat).
Proof.
  induction post as [|x post IH]; intros fuel st done v d Hl Hs Hf;
    (destruct fuel as [|f]; [lia|]); cbn [ch_pass].
  - assert (En : ch_next st v = None).
    { destruct Hl as [D _]. apply dll_app in D. cbn in D. tauto. }
    assert (Ec : col st v = false).
    { rewrite Hcol, En. destruct (ch_prev st v); auto. }
    rewrite Ec, En. exists st, (done ++ [v]), d. destruct f; cbn [ch_pass]; repeat split; auto;
      try apply Hl; try constructor; auto.
    all: intros u a b c w E [<- |[]]; exfalso.
    all: destruct Hl as [_ N]; rewrite E in N;
      assert (L : last_or (done ++ [v]) None = last_or (u ++ a :: v :: c :: w) None) by (rewrite E; auto);
      rewrite last_or_snoc, last_or_app in L; cbn in L;
      assert (Hin : In v (c :: w)) by (clear - L; revert L; generalize c; induction w as [|y r IHw];
        intros z L; cbn in *; [left; congruence|right; apply IHw; auto]);
      replace (u ++ a :: v :: c :: w) with ((u ++ [a]) ++ v :: c :: w) in N
        by (rewrite <- app_assoc; reflexivity);
      apply NoDup_remove_2 in N; apply N, in_or_app; auto.
  - assert (En : ch_next st v = Some x).
    { destruct Hl as [D _]. apply dll_app in D. cbn in D. tauto. }
    assert (Ep : ch_prev st v = last_or done None).
    { destruct Hl as [D _]. apply dll_app in D. cbn in D. tauto. }
    destruct (col st v) eqn:Ec.
    + (* removed *)
      rewrite Hcol, Ep, En in Ec.
      destruct (list_snoc done) as [-> |[u [a ->]]]; [discriminate|].
      rewrite last_or_snoc in Ec, Ep.
      rewrite <- app_assoc in Hl, Hs. cbn [app] in Hl, Hs.
      destruct (remove_linked st u a v x post Hl) as [R1 [R2 R3]].
      cbn [ch_next]. rewrite R2.
      destruct (IH f (Chain (ch_next (ch_remove st v)) (ch_prev (ch_remove st v))
                        (ch_size (ch_remove st v) - 1)) (u ++ [a]) x true)
        as [st' [l' [d' [E1 [E2 [E3 [E4 [E5 E6]]]]]]]].
      * rewrite <- app_assoc. cbn [app]. destruct R1 as [R1 N1]. split; auto.
        eapply dll_ext; [|exact R1]. cbn; auto.
      * cbn [ch_size]. rewrite R3, Hs. rewrite <- app_assoc. unfold zlen.
        rewrite !app_length. cbn [length app]. lia.
      * cbn in Hf; lia.
      * rewrite <- app_assoc in E4, E5, E6. cbn [app] in E4, E5, E6.
        exists st', l', d'. rewrite <- app_assoc. cbn [app]. repeat split; auto; try apply E2.
        -- eapply shrinks_step; eauto.
        -- destruct d'; [discriminate|]. destruct E5 as [E5 _]; auto. discriminate.
        -- destruct d'; [discriminate|]. destruct E5 as [E5 _]; auto. discriminate.
        -- destruct d'; [discriminate|]. destruct E5 as [E5 _]; auto. discriminate.
        -- intros _. right. apply shrinks_len in E4. rewrite app_length in *. cbn in *. lia.
    + (* kept *)
      rewrite En.
      assert (Eapp : done ++ v :: x :: post = (done ++ [v]) ++ x :: post)
        by (rewrite <- app_assoc; reflexivity).
      rewrite Eapp in Hl, Hs |- *.
      destruct (IH f st (done ++ [v]) x d Hl Hs) as [st' [l' [d' [E1 [E2 [E3 [E4 [E5 E6]]]]]]]];
        [cbn in Hf; lia|].
      exists st', l', d'. repeat split; auto; try apply E2.
      * apply E5; auto.
      * apply E5; auto.
      * intros u a b c w E Hb. destruct (E5 H) as [_ [El Hset]]. 
        destruct Hb as [<- |Hb]; [|eapply Hset; eauto].
        rewrite El in E. destruct Hl as [D N]. rewrite E in D.
        apply dll_app in D. cbn in D.
        rewrite Hcol in Ec.
        destruct D as [_ [_ [_ [D1 [D2 _]]]]]. rewrite D1, D2 in Ec. exact Ec.
Qed.

(** ** The loop *)

Lemma loop_spec inner : forall fuel st l, linked st l -> ch_size st = zlen l ->
  hd_or l None = Some 0 ->
  (length l <= inner)%nat -> (length l < fuel)%nat ->
  exists st' l', ch_loop col inner fuel st = Ok st' /\ linked st' l' /\ ch_size st' = zlen l' /\
    red l l' /\ (zlen l' <= 2 \/ settled l' l').
Proof.
  induction fuel as [|f IH]; intros st l Hl Hs Hh Hi Hf; [lia|]. cbn [ch_loop].
  destruct (Z.ltb_spec 2 (ch_size st)) as [H2|H2].
  - destruct l as [|z r]; [discriminate|]. injection Hh as ->.
    destruct (pass_spec r inner st [] 0 false) as [st' [l' [d' [E1 [E2 [E3 [E4 [E5 E6]]]]]]]]; auto.
    rewrite E1. cbn [bind]. cbn [app] in *. destruct d'.
    + destruct E6 as [?|E6]; auto; [discriminate|].
      destruct (IH st' l') as [st2 [l2 [F1 [F2 [F3 [F4 F5]]]]]]; auto.
      * rewrite <- (shrinks_hd _ _ _ E4). auto.
      * lia.
      * lia.
      * exists st2, l2. repeat split; auto; try apply F2. eapply shrinks_trans; eauto.
    + exists st', l'. repeat split; auto; try apply E2. right.
      destruct (E5 eq_refl) as [_ [El Hset]]. rewrite El in *. exact Hset.
  - exists st, l. repeat split; auto; try apply Hl; [constructor|]. left; lia.
Qed.
End Pass.

(** ** The deformation of a line *)

Definition tri_free (L : geomlib) (c : coords) (ctxs : list geometry) (a b d : Z) : bool :=
  tri_collapsible L (cpt c a) (cpt c b) (cpt c d)
    (filter (fun g => mbr_intersects (tri_box (cpt c a) (cpt c b) (cpt c d)) (gl_bounds L g)) ctxs).

Lemma deformation_spec L c ctxs : 1 <= clen c ->
  exists st l, chain_deformation L c ctxs = Ok st /\ linked st l /\ ch_size st = zlen l /\
    shrinks (fun a b d => tri_free L c ctxs a b d = true) (zseq 0 (clen c - 1)) l /\
    (zlen l <= 2 \/
     forall u a b d w, l = u ++ a :: b :: d :: w -> tri_free L c ctxs a b d = false).
Proof.
  intros Hn. unfold chain_deformation.
  destruct (new_chain_ok (clen c) Hn) as [Hl Hs].
  assert (Hlen : length (zseq 0 (clen c - 1)) = Z.to_nat (clen c)).
  { unfold zseq. rewrite map_length, seq_length. lia. }
  destruct (loop_spec (tri_free L c ctxs) (collapse_vertex L c ctxs)
              (fun st v => eq_refl) (S (Z.to_nat (clen c))) (S (Z.to_nat (clen c)))
              (new_chain (clen c)) (zseq 0 (clen c - 1)) Hl) as [st [l [E1 [E2 [E3 [E4 E5]]]]]].
  - rewrite Hs. unfold zlen. rewrite Hlen. lia.
  - unfold zseq. replace (Z.to_nat (clen c - 1 - 0 + 1)) with (S (Z.to_nat (clen c - 1))) by lia.
    reflexivity.
  - lia.
  - lia.
  - exists st, l. repeat split; auto; try apply E2. destruct E5 as [E5|E5]; auto. right.
    intros u a b d w E. eapply E5; [exact E|]. rewrite E. apply in_or_app; cbn; auto.
Qed.

(** The answer depends on the contexts only through what each triangle meets. *)
Lemma ch_pass_ext col col' : (forall st v, col st v = col' st v) ->
  forall fuel st link d, ch_pass col fuel st link d = ch_pass col' fuel st link d.
Proof.
  intros H. induction fuel as [|f IH]; intros st [v|] d; cbn; auto.
  rewrite H. destruct (col' st v); auto.
Qed.
Lemma ch_loop_ext col col' inner : (forall st v, col st v = col' st v) ->
  forall fuel st, ch_loop col inner fuel st = ch_loop col' inner fuel st.
Proof.
  intros H. induction fuel as [|f IH]; intros st; cbn; auto.
  destruct (2 <? ch_size st); auto. rewrite (ch_pass_ext col col') by auto.
  destruct (ch_pass col' inner st (Some 0) false) as [[st' d]| |]; cbn; auto.
  destruct d; auto.
Qed.

Lemma map_nth_seq {A} (l : list A) d : map (fun k => nth k l d) (seq 0 (length l)) = l.
Proof.
  induction l as [|x r IH]; auto. cbn [length seq map nth]. f_equal.
  rewrite <- seq_shift, map_map. exact IH.
Qed.
Lemma cpts_map c : map (cpt c) (zseq 0 (clen c - 1)) = cpts c.
Proof.
  unfold cpts. rewrite <- (map_nth_seq (cidxs c) 0) at 1. rewrite map_map.
  unfold zseq, clen, zlen.
  replace (Z.to_nat (Z.of_nat (length (cidxs c)) - 1 - 0 + 1)) with (length (cidxs c)) by lia.
  rewrite map_map. apply map_ext. intros k. unfold cpt. rewrite Z.add_0_l, Nat2Z.id. reflexivity.
Qed.

Lemma shrinks_map {A B} (f : A -> B) (free : A -> A -> A -> Prop) (free' : B -> B -> B -> Prop) l l' :
  (forall a b c, In a l -> In b l -> In c l -> free a b c -> free' (f a) (f b) (f c)) ->
  shrinks free l l' -> shrinks free' (map f l) (map f l').
Proof.
  intros H S. revert H. induction S; intros H'; [constructor|].
  rewrite map_app. cbn. eapply shrinks_step.
  - apply H'; auto; apply in_or_app; cbn; auto.
  - replace (map f u ++ f a :: f c :: map f w) with (map f (u ++ a :: c :: w))
      by (rewrite map_app; reflexivity).
    assert (K : forall y, In y (u ++ a :: c :: w) -> In y (u ++ a :: b :: c :: w)).
    { intros y Hy. apply in_app_or in Hy. apply in_or_app.
      destruct Hy as [Hy|Hy]; auto. right. cbn in *. tauto. }
    apply IHS. intros x y z Hx Hy Hz. apply H'; auto.
Qed.
