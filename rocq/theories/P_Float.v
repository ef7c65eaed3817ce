(** Order facts on float64 comparisons. *)
From Verif Require Import M_Base M_Float.
Open Scope Z_scope.

(** Lexicographic key of a non-NaN float. *)
Definition k1 (x : f64) : Z :=
  match x with
  | S754_infinity true => -2 | S754_finite true _ _ => -1
  | S754_zero _ => 0
  | S754_finite false _ _ => 1 | S754_infinity false => 2
  | S754_nan => 0
  end.
Definition k2 (x : f64) : Z :=
  match x with
  | S754_finite true _ e => - e | S754_finite false _ e => e | _ => 0
  end.
Definition k3 (x : f64) : Z :=
  match x with
  | S754_finite true m _ => Z.neg m | S754_finite false m _ => Z.pos m | _ => 0
  end.

Definition klt (a b : f64) : Prop :=
  k1 a < k1 b \/ (k1 a = k1 b /\ (k2 a < k2 b \/ (k2 a = k2 b /\ k3 a < k3 b))).
Definition keq (a b : f64) : Prop := k1 a = k1 b /\ k2 a = k2 b /\ k3 a = k3 b.

Lemma fcompare_key a b : is_nan a = false -> is_nan b = false ->
  match SFcompare a b with
  | Some Lt => klt a b | Some Eq => keq a b | Some Gt => klt b a | None => False
  end.
Proof.
  intros Ha Hb.
  destruct a as [sa|sa| |sa ma ea]; try discriminate Ha;
  destruct b as [sb|sb| |sb mb eb]; try discriminate Hb;
  try (destruct sa); try (destruct sb); unfold klt, keq; cbn; try lia.
  - destruct (Z.compare_spec ea eb); cbn; try lia.
    fold (Pos.compare ma mb); destruct (Pos.compare_spec ma mb); cbn; lia.
  - destruct (Z.compare_spec ea eb); cbn; try lia.
    fold (Pos.compare ma mb); destruct (Pos.compare_spec ma mb); cbn; lia.
Qed.

Lemma flt_key a b : flt a b = true <-> is_nan a = false /\ is_nan b = false /\ klt a b.
Proof.
  unfold flt, SFltb; split.
  - intros H.
    assert (Ha : is_nan a = false) by (destruct a; auto; cbn in H; discriminate).
    assert (Hb : is_nan b = false) by (destruct a as [[]|[]| |[]]; destruct b as [[]|[]| |[]]; auto; cbn in H; discriminate).
    pose proof (fcompare_key a b Ha Hb) as K.
    destruct (SFcompare a b) as [[]|]; try discriminate; auto.
  - intros [Ha [Hb K]]; pose proof (fcompare_key a b Ha Hb) as K'.
    destruct (SFcompare a b) as [[]|]; auto; unfold klt, keq in *; lia.
Qed.

Lemma fle_key a b : fle a b = true <-> is_nan a = false /\ is_nan b = false /\ (klt a b \/ keq a b).
Proof.
  unfold fle, SFleb; split.
  - intros H.
    assert (Ha : is_nan a = false) by (destruct a; auto; cbn in H; discriminate).
    assert (Hb : is_nan b = false) by (destruct a as [[]|[]| |[]]; destruct b as [[]|[]| |[]]; auto; cbn in H; discriminate).
    pose proof (fcompare_key a b Ha Hb) as K.
    destruct (SFcompare a b) as [[]|]; try discriminate; auto.
  - intros [Ha [Hb K]]; pose proof (fcompare_key a b Ha Hb) as K'.
    destruct (SFcompare a b) as [[]|]; auto; unfold klt, keq in *; lia.
Qed.

Lemma feq_key a b : feq a b = true <-> is_nan a = false /\ is_nan b = false /\ keq a b.
Proof.
  unfold feq, SFeqb; split.
  - intros H.
    assert (Ha : is_nan a = false) by (destruct a; auto; cbn in H; discriminate).
    assert (Hb : is_nan b = false) by (destruct a as [[]|[]| |[]]; destruct b as [[]|[]| |[]]; auto; cbn in H; discriminate).
    pose proof (fcompare_key a b Ha Hb) as K.
    destruct (SFcompare a b) as [[]|]; try discriminate; auto.
  - intros [Ha [Hb K]]; pose proof (fcompare_key a b Ha Hb) as K'.
    destruct (SFcompare a b) as [[]|]; auto; unfold klt, keq in *; lia.
Qed.

Lemma flt_false_key a b : flt a b = false <->
  is_nan a = true \/ is_nan b = true \/ (is_nan a = false /\ is_nan b = false /\ (klt b a \/ keq a b)).
Proof.
  destruct (is_nan a) eqn:Ha; [|destruct (is_nan b) eqn:Hb].
  - split; auto. intros _. destruct (flt a b) eqn:E; auto.
    apply flt_key in E; destruct E; congruence.
  - split; auto. intros _. destruct (flt a b) eqn:E; auto.
    apply flt_key in E; destruct E as [? [? ?]]; congruence.
  - pose proof (flt_key a b) as K. unfold klt, keq in *.
    destruct (flt a b); split; intros H; try reflexivity; try discriminate.
    + destruct (proj1 K eq_refl) as [? [? ?]]; lia.
    + right; right; repeat split; auto.
      destruct (Z.lt_trichotomy (k1 a) (k1 b)) as [?|[?|?]];
      destruct (Z.lt_trichotomy (k2 a) (k2 b)) as [?|[?|?]];
      destruct (Z.lt_trichotomy (k3 a) (k3 b)) as [?|[?|?]]; try lia;
      exfalso; assert (false = true) by (apply K; repeat split; auto; lia); discriminate.
Qed.

Lemma fle_false_key a b : fle a b = false <->
  is_nan a = true \/ is_nan b = true \/ (is_nan a = false /\ is_nan b = false /\ klt b a).
Proof.
  destruct (is_nan a) eqn:Ha; [|destruct (is_nan b) eqn:Hb].
  - split; auto. intros _. destruct (fle a b) eqn:E; auto.
    apply fle_key in E; destruct E; congruence.
  - split; auto. intros _. destruct (fle a b) eqn:E; auto.
    apply fle_key in E; destruct E as [? [? ?]]; congruence.
  - pose proof (fle_key a b) as K. unfold klt, keq in *.
    destruct (fle a b); split; intros H; try reflexivity; try discriminate.
    + destruct (proj1 K eq_refl) as [? [? ?]]; lia.
    + right; right; repeat split; auto.
      destruct (Z.lt_trichotomy (k1 a) (k1 b)) as [?|[?|?]];
      destruct (Z.lt_trichotomy (k2 a) (k2 b)) as [?|[?|?]];
      destruct (Z.lt_trichotomy (k3 a) (k3 b)) as [?|[?|?]]; try lia;
      exfalso; assert (false = true) by (apply K; repeat split; auto; lia); discriminate.
Qed.

Ltac fkeys :=
  unfold fge, fgt in *; fold flt in *; fold fle in *;
  repeat match goal with
  | H : flt _ _ = true |- _ => apply flt_key in H
  | H : fle _ _ = true |- _ => apply fle_key in H
  | H : feq _ _ = true |- _ => apply feq_key in H
  | H : flt _ _ = false |- _ => apply flt_false_key in H
  | H : fle _ _ = false |- _ => apply fle_false_key in H
  | |- flt _ _ = true => apply flt_key
  | |- fle _ _ = true => apply fle_key
  | |- feq _ _ = true => apply feq_key
  | |- flt _ _ = false => apply flt_false_key
  | |- fle _ _ = false => apply fle_false_key
  end; unfold klt, keq in *.

(** The usual order facts. *)
Lemma fle_refl a : is_nan a = false -> fle a a = true.
Proof. intros H; fkeys; repeat split; auto; lia. Qed.
Lemma fle_nan_l a b : fle a b = true -> is_nan a = false.
Proof. intros H; fkeys; tauto. Qed.
Lemma fle_nan_r a b : fle a b = true -> is_nan b = false.
Proof. intros H; fkeys; tauto. Qed.
Lemma flt_nan_l a b : flt a b = true -> is_nan a = false.
Proof. intros H; fkeys; tauto. Qed.
Lemma flt_nan_r a b : flt a b = true -> is_nan b = false.
Proof. intros H; fkeys; tauto. Qed.
Lemma fle_trans a b c : fle a b = true -> fle b c = true -> fle a c = true.
Proof. intros H1 H2; fkeys; destruct H1 as [? [? ?]], H2 as [? [? ?]]; repeat split; auto; lia. Qed.
Lemma flt_le a b : flt a b = true -> fle a b = true.
Proof. intros H1; fkeys; destruct H1 as [? [? ?]]; repeat split; auto; lia. Qed.
Lemma flt_le_trans a b c : flt a b = true -> fle b c = true -> flt a c = true.
Proof. intros H1 H2; fkeys; destruct H1 as [? [? ?]], H2 as [? [? ?]]; repeat split; auto; lia. Qed.
Lemma fle_lt_trans a b c : fle a b = true -> flt b c = true -> flt a c = true.
Proof. intros H1 H2; fkeys; destruct H1 as [? [? ?]], H2 as [? [? ?]]; repeat split; auto; lia. Qed.
Lemma fle_total a b : is_nan a = false -> is_nan b = false -> fle a b = false -> flt b a = true.
Proof. intros Ha Hb H; fkeys; rewrite Ha, Hb in *; intuition (try discriminate). Qed.
Lemma flt_total a b : is_nan a = false -> is_nan b = false -> flt a b = false -> fle b a = true.
Proof.
  intros Ha Hb H; fkeys; rewrite Ha, Hb in *.
  destruct H as [H|[H|[_ [_ H]]]]; try discriminate; repeat split; lia.
Qed.
Lemma flt_irrefl a : flt a a = false.
Proof.
  destruct (is_nan a) eqn:E; fkeys; [auto|]; right; right; repeat split; auto; lia.
Qed.
Lemma flt_not_le a b : flt a b = true -> fle b a = false.
Proof. intros H; fkeys; destruct H as [? [? ?]]; right; right; repeat split; auto. Qed.
Lemma fle_not_lt a b : fle a b = true -> flt b a = false.
Proof. intros H; fkeys; destruct H as [? [? ?]]; right; right; repeat split; auto; lia. Qed.
Lemma fle_inf a : is_nan a = false -> fle a finf = true.
Proof.
  intros H; fkeys; repeat split; auto.
  destruct a as [[]|[]| |[] m e]; try discriminate; cbn; lia.
Qed.
Lemma fle_ninf a : is_nan a = false -> fle fninf a = true.
Proof.
  intros H; fkeys; repeat split; auto.
  destruct a as [[]|[]| |[] m e]; try discriminate; cbn; lia.
Qed.
Lemma fin_not_nan a : is_fin a = true -> is_nan a = false.
Proof. destruct a; auto; discriminate. Qed.
Lemma fin_lt_inf a : is_fin a = true -> flt a finf = true.
Proof. destruct a as [[]|[]| |[] m e]; try discriminate; reflexivity. Qed.
