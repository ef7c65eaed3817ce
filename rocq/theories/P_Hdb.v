(** Proofs about the R-tree: invariant, contents, queries. *)
From Verif Require Import M_Base M_Float M_Rng M_Geom M_Node M_Hdb Spec P_Base P_Float.
From Coq Require Import Sorted.
Open Scope Z_scope.

Lemma firstn_In {A} n (l : list A) x : In x (firstn n l) -> In x l.
Proof. intros H; rewrite <- (firstn_skipn n l); apply in_or_app; auto. Qed.

Lemma skipn_In {A} n (l : list A) x : In x (skipn n l) -> In x l.
Proof. intros H; rewrite <- (firstn_skipn n l); apply in_or_app; auto. Qed.

(** ** Boxes *)

Definition box_in (a b : mbr) : Prop := mbr_contains b a = true.

Definition box_nonan (b : mbr) : Prop :=
  is_nan (minx b) = false /\ is_nan (miny b) = false /\
  is_nan (maxx b) = false /\ is_nan (maxy b) = false.

Lemma box_in_iff a b : box_in a b <->
  fle (minx b) (minx a) = true /\ fle (maxx a) (maxx b) = true /\
  fle (miny b) (miny a) = true /\ fle (maxy a) (maxy b) = true.
Proof. unfold box_in, mbr_contains, fge; rewrite !andb_true_iff; unfold fle; tauto. Qed.

Lemma box_in_trans a b c : box_in a b -> box_in b c -> box_in a c.
Proof.
  rewrite !box_in_iff; intros (A1 & A2 & A3 & A4) (B1 & B2 & B3 & B4).
  repeat split; eapply fle_trans; eauto.
Qed.

Lemma box_in_refl a : box_nonan a -> box_in a a.
Proof. intros (A & B & C & D); apply box_in_iff; repeat split; apply fle_refl; auto. Qed.

Lemma box_in_nan_r a b : box_in a b -> box_nonan b.
Proof.
  rewrite box_in_iff; intros (A1 & A2 & A3 & A4); repeat split.
  - eapply fle_nan_l; eauto.
  - eapply fle_nan_l; eauto.
  - eapply fle_nan_r; eauto.
  - eapply fle_nan_r; eauto.
Qed.

Lemma fmin_le a b : is_nan a = false -> is_nan b = false ->
  fle (if flt b a then b else a) a = true /\ fle (if flt b a then b else a) b = true.
Proof.
  intros Ha Hb; destruct (flt b a) eqn:E; split; try (apply fle_refl; auto).
  - apply flt_le; exact E.
  - apply flt_total; auto.
Qed.

Lemma fmax_le a b : is_nan a = false -> is_nan b = false ->
  fle a (if fgt b a then b else a) = true /\ fle b (if fgt b a then b else a) = true.
Proof.
  intros Ha Hb; unfold fgt; change (SFltb a b) with (flt a b).
  destruct (flt a b) eqn:E; split; try (apply fle_refl; auto).
  - apply flt_le; exact E.
  - apply flt_total; auto.
Qed.

Lemma expand_l a b : box_nonan a -> box_nonan b -> box_in a (expand a b).
Proof.
  intros (A1 & A2 & A3 & A4) (B1 & B2 & B3 & B4); apply box_in_iff; cbn [expand minx miny maxx maxy].
  repeat split; (apply fmin_le || apply fmax_le); auto.
Qed.

Lemma expand_r a b : box_nonan a -> box_nonan b -> box_in b (expand a b).
Proof.
  intros (A1 & A2 & A3 & A4) (B1 & B2 & B3 & B4); apply box_in_iff; cbn [expand minx miny maxx maxy].
  repeat split; (apply fmin_le || apply fmax_le); auto.
Qed.

(** A box inside a box that meets q makes the outer box meet q. *)
Lemma intersects_mono q a b : box_nonan q -> box_in a b ->
  mbr_intersects q a = true -> mbr_intersects q b = true.
Proof.
  intros (Q1 & Q2 & Q3 & Q4) Hin; pose proof (box_in_nan_r _ _ Hin) as (B1 & B2 & B3 & B4).
  apply box_in_iff in Hin; destruct Hin as (I1 & I2 & I3 & I4).
  unfold mbr_intersects; rewrite !negb_true_iff, !orb_false_iff.
  unfold fgt; change SFltb with flt.
  intros [[[H1 H2] H3] H4].
  assert (A1 : is_nan (minx a) = false) by (eapply fle_nan_r; eauto).
  assert (A2 : is_nan (maxx a) = false) by (eapply fle_nan_l; eauto).
  assert (A3 : is_nan (miny a) = false) by (eapply fle_nan_r; eauto).
  assert (A4 : is_nan (maxy a) = false) by (eapply fle_nan_l; eauto).
  repeat split; apply fle_not_lt.
  - eapply fle_trans; [exact I1|]; apply flt_total; auto.
  - eapply fle_trans; [|exact I2]; apply flt_total; auto.
  - eapply fle_trans; [exact I3|]; apply flt_total; auto.
  - eapply fle_trans; [|exact I4]; apply flt_total; auto.
Qed.

(** Boxes of real extents: ordered corners (hence not NaN). *)
Definition box_ok (b : mbr) : Prop :=
  fle (minx b) (maxx b) = true /\ fle (miny b) (maxy b) = true.

Lemma box_ok_nonan b : box_ok b -> box_nonan b.
Proof.
  intros [H1 H2]; repeat split; (eapply fle_nan_l; eassumption) || (eapply fle_nan_r; eassumption).
Qed.

(** A non-degenerate box inside q meets q. *)
Lemma contains_intersects q a : box_ok a -> box_in a q -> mbr_intersects q a = true.
Proof.
  intros [H1 H2] Hin; apply box_in_iff in Hin; destruct Hin as (I1 & I2 & I3 & I4).
  unfold mbr_intersects; rewrite !negb_true_iff, !orb_false_iff.
  unfold fgt; change SFltb with flt.
  repeat split; apply fle_not_lt; eauto using fle_trans.
Qed.

(** ** Coordinates whose areas do not overflow *)

Record tame (P : f64 -> Prop) : Prop := {
  tame_fin : forall x, P x -> is_fin x = true;
  tame_area : forall a b c d, P a -> P b -> P c -> P d -> is_fin (fmul (fsub a b) (fsub c d)) = true
}.

Definition box_all (P : f64 -> Prop) (b : mbr) : Prop :=
  P (minx b) /\ P (miny b) /\ P (maxx b) /\ P (maxy b).

Lemma box_all_nonan P b : tame P -> box_all P b -> box_nonan b.
Proof. intros HP (A & B & C & D); repeat split; apply fin_not_nan, (tame_fin P HP); auto. Qed.

Lemma expand_all P a b : box_all P a -> box_all P b -> box_all P (expand a b).
Proof.
  intros (A1 & A2 & A3 & A4) (B1 & B2 & B3 & B4); unfold box_all; cbn [expand minx miny maxx maxy].
  repeat split; match goal with |- P (if ?c then _ else _) => destruct c end; auto.
Qed.

Lemma expand_empty P b : tame P -> box_all P b -> box_all P (expand empty_mbr b).
Proof.
  intros HP (B1 & B2 & B3 & B4); unfold box_all, expand, empty_mbr; cbn [minx miny maxx maxy].
  assert (G1 : forall x, P x -> flt x finf = true)
    by (intros x Hx; apply fin_lt_inf, (tame_fin P HP), Hx).
  assert (G2 : forall x, P x -> fgt x fninf = true).
  { intros x Hx; pose proof (tame_fin P HP x Hx) as F.
    destruct x as [[]|[]| |[] m e]; try discriminate; reflexivity. }
  rewrite !G1, !G2 by auto; auto.
Qed.

Lemma empty_nonan : box_nonan empty_mbr.
Proof. repeat split. Qed.

(** ** Structure invariant *)

Section Inv.
  Variable P : f64 -> Prop.
  Variable M : nat.

  Definition item_ok (it : node) : Prop := box_all P (n_mbr it) /\ box_ok (n_mbr it).

  (** [wf h d]: d is a well-formed subtree of height h; height 0 is a stored item. *)
  Fixpoint wf (h : nat) (d : dbnode) : Prop :=
    match h with
    | O => exists it, d = new_leaf it /\ item_ok it
    | S h' =>
      db_height d = S h' /\ db_item d = None /\ db_leaf d = Nat.eqb h' 0 /\
      db_children d <> [] /\ (length (db_children d) <= M)%nat /\
      box_all P (db_bbox d) /\
      Forall (fun c => wf h' c /\ box_in (db_bbox c) (db_bbox d)) (db_children d)
    end.

  Fixpoint cont (h : nat) (d : dbnode) : list node :=
    match h with
    | O => item_of d
    | S h' => flat_map (cont h') (db_children d)
    end.

  Lemma wf_box h d : wf h d -> box_all P (db_bbox d).
  Proof.
    destruct h; cbn.
    - intros [it [-> [H _]]]; exact H.
    - tauto.
  Qed.

  Hypothesis HP : tame P.

  Lemma wf_nonan h d : wf h d -> box_nonan (db_bbox d).
  Proof. intros H; eapply box_all_nonan; eauto using wf_box. Qed.

  Lemma wf_items h : forall d, wf h d ->
    forall it, In it (cont h d) -> item_ok it /\ box_in (n_mbr it) (db_bbox d).
  Proof.
    induction h as [|h IH]; intros d Hd it Hin.
    - destruct Hd as [it' [-> Hok]]; cbn in Hin; destruct Hin as [<-|[]].
      split; [exact Hok|]. cbn; apply box_in_refl, box_ok_nonan, Hok.
    - cbn [cont] in Hin; apply in_flat_map in Hin; destruct Hin as [c [Hc Hin]].
      destruct Hd as (_ & _ & _ & _ & _ & _ & Hf); rewrite Forall_forall in Hf.
      destruct (Hf c Hc) as [Hwc Hbc]. destruct (IH _ Hwc _ Hin) as [H1 H2].
      split; [exact H1|eapply box_in_trans; eauto].
  Qed.

  Lemma wf_nonempty h : forall d, wf h d -> cont h d <> [].
  Proof.
    induction h as [|h IH]; intros d Hd.
    - destruct Hd as [it [-> _]]; discriminate.
    - cbn [cont]. destruct Hd as (_ & _ & _ & Hne & _ & _ & Hf).
      destruct (db_children d) as [|c r]; [congruence|].
      inversion Hf as [|? ? [Hw _] _]; subst. cbn [flat_map].
      specialize (IH _ Hw). destruct (cont h c); [congruence|discriminate].
  Qed.

  (** ** Bounding boxes of runs *)

  Lemma dist_bbox_gen l : forall b,
    (forall c, In c l -> box_nonan (db_bbox c)) -> box_nonan b ->
    let r := fold_left (fun b c => expand b (db_bbox c)) l b in
    box_nonan r /\ box_in b r /\ forall c, In c l -> box_in (db_bbox c) r.
  Proof.
    induction l as [|c l IH]; intros b Hl Hb; cbn [fold_left].
    - repeat split; try apply Hb; try (apply box_in_refl; exact Hb); intros c [].
    - assert (Hc : box_nonan (db_bbox c)) by (apply Hl; left; auto).
      pose proof (expand_l b (db_bbox c) Hb Hc) as E1.
      pose proof (expand_r b (db_bbox c) Hb Hc) as E2.
      destruct (IH (expand b (db_bbox c))) as (R1 & R2 & R3).
      + intros; apply Hl; right; auto.
      + eapply box_in_nan_r; exact E1.
      + split; [exact R1|]. split; [eapply box_in_trans; eauto|].
        intros c' [<-|Hc']; [eapply box_in_trans; eauto|auto].
  Qed.

  Lemma dist_bbox_in l c :
    (forall c, In c l -> box_nonan (db_bbox c)) -> In c l -> box_in (db_bbox c) (dist_bbox l).
  Proof. intros Hl Hc; apply (dist_bbox_gen l empty_mbr Hl empty_nonan); exact Hc. Qed.

  Lemma fold_expand_all l : forall b,
    (forall c, In c l -> box_all P (db_bbox c)) -> box_all P b ->
    box_all P (fold_left (fun b c => expand b (db_bbox c)) l b).
  Proof.
    induction l as [|c l IH]; intros b Hl Hb; cbn [fold_left]; [exact Hb|].
    apply IH; [intros; apply Hl; right; auto|].
    apply expand_all; [exact Hb|apply Hl; left; auto].
  Qed.

  Lemma dist_bbox_all l :
    l <> [] -> (forall c, In c l -> box_all P (db_bbox c)) -> box_all P (dist_bbox l).
  Proof.
    destruct l as [|c l]; [congruence|]; intros _ Hl; unfold dist_bbox; cbn [fold_left].
    apply fold_expand_all; [intros; apply Hl; right; auto|].
    apply expand_empty; [exact HP|]. apply Hl; left; auto.
  Qed.

  (** A node rebuilt by calcBBox from well-formed children. *)
  Lemma wf_calc h item leaf b ch :
    item = None -> leaf = Nat.eqb h 0 -> ch <> [] -> (length ch <= M)%nat ->
    (forall c, In c ch -> wf h c) ->
    wf (S h) (calc_bbox (DbNode ch item (S h) leaf b)).
  Proof.
    intros -> -> Hne Hlen Hch. cbn [wf calc_bbox db_height db_item db_leaf db_children db_bbox].
    repeat split; auto.
    - apply dist_bbox_all; auto. intros c Hc; eapply wf_box; eauto.
    - apply dist_bbox_all; auto. intros c Hc; eapply wf_box; eauto.
    - apply dist_bbox_all; auto. intros c Hc; eapply wf_box; eauto.
    - apply dist_bbox_all; auto. intros c Hc; eapply wf_box; eauto.
    - apply Forall_forall; intros c Hc; split; [auto|].
      apply dist_bbox_in; auto. intros x Hx; eapply wf_nonan; eauto.
  Qed.

  Lemma cont_calc h d : cont h (calc_bbox d) = cont h d.
  Proof. destruct d; destruct h; reflexivity. Qed.

  Lemma flat_map_perm {A B} (f : A -> list B) l1 l2 :
    Permutation l1 l2 -> Permutation (flat_map f l1) (flat_map f l2).
  Proof.
    induction 1; cbn; auto.
    - apply Permutation_app_head; auto.
    - rewrite !app_assoc; apply Permutation_app_tail, Permutation_app_comm.
    - etransitivity; eauto.
  Qed.

  (** ** Choice of a subtree *)

  Lemma fsub_inf x : is_fin x = true -> fsub x finf = fninf.
  Proof. destruct x as [[]|[]| |[] m e]; try discriminate; reflexivity. Qed.

  Lemma choose_fold eps bbox : box_all P bbox -> forall l st,
    (forall c, In c l -> box_all P (db_bbox c)) ->
    let '(_, _, t, i) := st in
    (forall k, t = Some k -> (k < i)%nat) ->
    let '(_, _, t', i') := fold_left (choose_step eps bbox) l st in
    (t <> None -> t' <> None) /\ (forall k, t' = Some k -> (k < i')%nat) /\ i' = (i + length l)%nat.
  Proof.
    intros Hb; induction l as [|c l IH]; intros [[[ma me] t] i] Hl Ht.
    - cbn; repeat split; auto.
    - cbn [fold_left].
      assert (Hstep : exists ma' me' t', choose_step eps bbox (ma, me, t, i) c = (ma', me', t', S i) /\
                (t <> None -> t' <> None) /\ (forall k, t' = Some k -> (k < S i)%nat)).
      { unfold choose_step; cbv zeta.
        repeat match goal with |- context [if ?x then _ else _] =>
          lazymatch x with
          | flt (fsub _ _) fzero => destruct x
          | (feq _ _ || _) => destruct x
          end end.
        - do 3 eexists; split; [reflexivity|]; split; [discriminate|]. intros k E; injection E as <-; lia.
        - match goal with |- context [if ?x then (?a, me, Some i, S i) else _] => destruct x end.
          + do 3 eexists; split; [reflexivity|]; split; [discriminate|]. intros k E; injection E as <-; lia.
          + do 3 eexists; split; [reflexivity|]; split; [auto|]. intros k E; specialize (Ht k E); lia.
        - do 3 eexists; split; [reflexivity|]; split; [auto|]. intros k E; specialize (Ht k E); lia. }
      destruct Hstep as (ma' & me' & t' & -> & H1 & H2).
      specialize (IH (ma', me', t', S i) (fun x Hx => Hl x (or_intror Hx)) H2).
      destruct (fold_left (choose_step eps bbox) l (ma', me', t', S i)) as [[[? ?] t''] i''].
      destruct IH as (A & B & C). repeat split; auto. cbn [length]; lia.
  Qed.

  Lemma choose_some eps bbox ch :
    box_all P bbox -> ch <> [] -> (forall c, In c ch -> box_all P (db_bbox c)) ->
    exists i c, choose_child eps bbox ch = Some i /\ nth_error ch i = Some c.
  Proof.
    intros Hb Hne Hch; destruct ch as [|c0 l]; [congruence|]; unfold choose_child; cbn [fold_left].
    assert (H0 : exists ma me, choose_step eps bbox (finf, finf, None, 0%nat) c0 = (ma, me, Some 0%nat, 1%nat)).
    { unfold choose_step; cbv zeta.
      pose proof (Hch c0 (or_introl eq_refl)) as (C1 & C2 & C3 & C4).
      destruct Hb as (B1 & B2 & B3 & B4).
      rewrite fsub_inf.
      - change (flt fninf fzero) with true; cbv iota. eauto.
      - apply (tame_area P HP);
          match goal with |- P (if ?c then _ else _) => destruct c end; auto. }
    destruct H0 as (ma & me & ->).
    pose proof (choose_fold eps bbox Hb l (ma, me, Some 0%nat, 1%nat)
      (fun x Hx => Hch x (or_intror Hx)) ltac:(intros k E; injection E as <-; lia)) as H.
    destruct (fold_left (choose_step eps bbox) l (ma, me, Some 0%nat, 1%nat)) as [[[? ?] t] i'].
    destruct H as (A & B & C).
    destruct t as [k|]; [|exfalso; apply A; [discriminate|reflexivity]].
    specialize (B k eq_refl). exists k.
    destruct (nth_error (c0 :: l) k) as [c|] eqn:E; [eauto|].
    apply nth_error_None in E; cbn in E; lia.
  Qed.

  (** ** Splitting *)

  Lemma split_fold_range c m hi : forall l st,
    (forall i, In i l -> (m <= i <= hi)%nat) ->
    let '(idx, _, _) := st in
    (m <= idx <= hi)%nat ->
    let '(idx', _, _) := fold_left (split_index_step c) l st in (m <= idx' <= hi)%nat.
  Proof.
    induction l as [|i l IH]; intros [[idx mo] ma] Hl Hidx; cbn [fold_left]; [exact Hidx|].
    assert (Hs : exists idx' mo' ma', split_index_step c (idx, mo, ma) i = (idx', mo', ma') /\ (m <= idx' <= hi)%nat).
    { unfold split_index_step; cbv zeta.
      match goal with |- context [if ?x then (i, ?a, ?b) else _] => destruct x end.
      - do 3 eexists; split; [reflexivity|apply Hl; left; auto].
      - match goal with |- context [if feq ?x ?y then _ else _] => destruct (feq x y) end.
        + match goal with |- context [if ?x then (i, mo, _) else _] => destruct x end.
          * do 3 eexists; split; [reflexivity|apply Hl; left; auto].
          * do 3 eexists; split; [reflexivity|exact Hidx].
        + do 3 eexists; split; [reflexivity|exact Hidx]. }
    destruct Hs as (idx' & mo' & ma' & -> & Hi').
    apply (IH (idx', mo', ma')); auto. intros; apply Hl; right; auto.
  Qed.

  Lemma intersection_area_fin a b : box_all P a -> box_all P b -> is_fin (intersection_area a b) = true.
  Proof.
    intros (A1 & A2 & A3 & A4) (B1 & B2 & B3 & B4); unfold intersection_area.
    destruct (negb _); [reflexivity|].
    apply (tame_area P HP); match goal with |- P (if ?c then _ else _) => destruct c end; auto.
  Qed.

  Lemma split_index_range c m :
    (1 <= m)%nat -> (2 * m <= length c)%nat ->
    (forall x, In x c -> box_all P (db_bbox x)) ->
    (m <= choose_split_index c m (length c) <= length c - m)%nat.
  Proof.
    intros Hm Hlen Hc; unfold choose_split_index.
    set (K := length c) in *.
    replace (K - m + 1 - m)%nat with (S (K - 2 * m)) by lia.
    cbn [seq fold_left].
    assert (H0 : exists mo ma, split_index_step c (0%nat, finf, finf) m = (m, mo, ma)).
    { unfold split_index_step; cbv zeta.
      assert (Ha : box_all P (dist_bbox (firstn m c))).
      { apply dist_bbox_all.
        - destruct c; cbn in *; [lia|]. destruct m; [lia|discriminate].
        - intros x Hx; apply Hc; eapply firstn_In; eauto. }
      assert (Hb : box_all P (dist_bbox (skipn m c))).
      { apply dist_bbox_all.
        - intros E. apply (f_equal (@length _)) in E. rewrite skipn_length in E; cbn in E. lia.
        - intros x Hx; apply Hc; eapply skipn_In; eauto. }
      rewrite (fin_lt_inf _ (intersection_area_fin _ _ Ha Hb)). eauto. }
    destruct H0 as (mo & ma & ->).
    pose proof (split_fold_range c m (K - m) (seq (S m) (K - 2 * m)) (m, mo, ma)) as H.
    cbv beta iota in H.
    destruct (fold_left (split_index_step c) (seq (S m) (K - 2 * m)) (m, mo, ma)) as [[idx ?] ?].
    apply H; [|lia]. intros i Hi; apply in_seq in Hi; lia.
  Qed.
End Inv.
