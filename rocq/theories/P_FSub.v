(** The sign of a float64 difference agrees with the comparison of its operands
    (gradual underflow: the difference of two distinct numbers never rounds to zero).
    Pure integer reasoning about the IEEE rounding functions. *)
From Verif Require Import M_Base M_Float P_Base P_Float M_Geom M_Node M_Hdb P_Hdb P_Tame.
Open Scope Z_scope.

(** A number of the binary64 format (not infinite, not NaN). *)
Definition f_num (x : f64) : bool := is_fin x && valid_binary fprec femax x.

Lemma Zdigits2_low m : 0 < m -> 2 ^ (Zdigits2 m - 1) <= m.
Proof. destruct m as [|p|p]; try lia. intros _; apply digits2_low. Qed.

Lemma digits2_high p : Zpos p < 2 ^ Zpos (digits2_pos p).
Proof.
  induction p as [p IH|p IH|]; cbn [digits2_pos].
  - rewrite Pos2Z.inj_succ, Z.pow_succ_r by lia. lia.
  - rewrite Pos2Z.inj_succ, Z.pow_succ_r by lia. lia.
  - cbn. lia.
Qed.

Lemma shr_fexp_pos m e l : 0 < m -> -1074 <= e ->
  let '(r, e') := shr_fexp fprec femax m e l in 0 < shr_m r /\ -1074 <= e'.
Proof.
  intros Hm He. unfold shr_fexp. rewrite fexp64.
  assert (Hr : shr_m (shr_record_of_loc m l) = m) by (destruct l as [|[]]; reflexivity).
  set (n := Z.max (Zdigits2 m + e - 53) (-1074) - e).
  unfold shr. destruct n as [|p|p] eqn:En.
  - rewrite Hr. split; lia.
  - assert (Hn : Zpos p = Z.max (Zdigits2 m + e - 53) (-1074) - e) by (subst n; auto).
    rewrite iter_shr_div by (rewrite Hr; lia). rewrite Hr.
    split; [|lia]. apply Z.div_str_pos. split; [lia|].
    eapply Z.le_trans; [|apply Zdigits2_low; exact Hm]. apply Z.pow_le_mono_r; lia.
  - rewrite Hr. split; lia.
Qed.

Lemma round_pos sx p e : -1074 <= e ->
  SFcompare (binary_round fprec femax sx p e) fzero = Some (if sx then Lt else Gt).
Proof.
  intros He. unfold binary_round.
  pose proof (shl_align_val p e (fexp fprec femax (Zpos (digits2_pos p) + e))) as H.
  destruct (shl_align p e _) as [m' e1]. destruct H as (H1 & H2 & H3).
  rewrite fexp64 in H2. unfold binary_round_aux.
  pose proof (shr_fexp_pos (Zpos m') e1 loc_Exact ltac:(lia) ltac:(lia)) as S1.
  destruct (shr_fexp fprec femax (Zpos m') e1 loc_Exact) as [r e2]. destruct S1 as [S1 S1'].
  set (m2 := round_nearest_even (shr_m r) (loc_of_shr_record r)).
  assert (S2 : 0 < m2).
  { destruct (round_cases (shr_m r) (loc_of_shr_record r)) as [E|E]; fold m2 in E; lia. }
  pose proof (shr_fexp_pos m2 e2 loc_Exact S2 S1') as S3.
  destruct (shr_fexp fprec femax m2 e2 loc_Exact) as [r2 e3]. destruct S3 as [S3 _].
  destruct (shr_m r2) as [|q|q]; try lia.
  destruct (Zle_bool e3 (femax - fprec)); destruct sx; reflexivity.
Qed.

Lemma normalize_sign m e : -1074 <= e ->
  SFcompare (binary_normalize fprec femax m e false) fzero = Some (m ?= 0).
Proof.
  intros He. destruct m as [|p|p]; cbn [binary_normalize].
  - reflexivity.
  - apply (round_pos false); exact He.
  - apply (round_pos true); exact He.
Qed.

Lemma valid_fin s m e : valid_binary fprec femax (S754_finite s m e) = true ->
  e = Z.max (Zpos (digits2_pos m) + e - 53) (-1074).
Proof.
  intros H. unfold valid_binary, bounded, canonical_mantissa in H.
  apply andb_prop in H. destruct H as [H _]. apply Zeq_bool_eq in H.
  rewrite fexp64 in H. lia.
Qed.

(** Magnitudes at a common exponent compare like (exponent, mantissa). *)
Lemma mant_cmp m1 e1 m2 e2 :
  e1 = Z.max (Zpos (digits2_pos m1) + e1 - 53) (-1074) ->
  e2 = Z.max (Zpos (digits2_pos m2) + e2 - 53) (-1074) ->
  (Zpos (fst (shl_align m1 e1 (Z.min e1 e2))) ?= Zpos (fst (shl_align m2 e2 (Z.min e1 e2))))
  = match e1 ?= e2 with Lt => Lt | Gt => Gt | Eq => Pos.compare m1 m2 end.
Proof.
  intros V1 V2.
  pose proof (shl_align_val m1 e1 (Z.min e1 e2)) as A.
  pose proof (shl_align_val m2 e2 (Z.min e1 e2)) as B.
  destruct (shl_align m1 e1 (Z.min e1 e2)) as [a x]. destruct A as (_ & A1 & A2).
  destruct (shl_align m2 e2 (Z.min e1 e2)) as [b y]. destruct B as (_ & B1 & B2).
  cbn [fst]. rewrite A2, B2. clear A2 B2.
  assert (G : forall p q i j, i = Z.max (Zpos (digits2_pos p) + i - 53) (-1074) ->
    j = Z.max (Zpos (digits2_pos q) + j - 53) (-1074) -> i < j ->
    Zpos p < Zpos q * 2 ^ (j - i)).
  { intros p q i j Hi Hj Hij.
    pose proof (digits2_high p). pose proof (digits2_low q).
    assert (2 ^ Zpos (digits2_pos p) <= 2 ^ 53) by (apply Z.pow_le_mono_r; lia).
    assert (2 ^ 53 <= 2 ^ (Zpos (digits2_pos q) - 1 + (j - i))) by (apply Z.pow_le_mono_r; lia).
    rewrite Z.pow_add_r in H2 by lia.
    eapply Z.lt_le_trans; [exact H|]. eapply Z.le_trans; [exact H1|].
    eapply Z.le_trans; [exact H2|]. apply Z.mul_le_mono_nonneg_r; [|exact H0].
    apply Z.pow_nonneg; lia. }
  destruct (Z.compare_spec e1 e2) as [E|E|E].
  - subst e2. replace (e1 - x) with 0 by lia. replace (e1 - y) with 0 by lia.
    rewrite !Z.mul_1_r. reflexivity.
  - replace (e1 - x) with 0 by lia. replace (e2 - y) with (e2 - e1) by lia.
    rewrite Z.mul_1_r. apply Z.compare_lt_iff. apply G; auto.
  - replace (e1 - x) with (e1 - e2) by lia. replace (e2 - y) with 0 by lia.
    rewrite Z.mul_1_r. apply Z.compare_gt_iff. apply G; auto.
Qed.

Theorem fsub_compare a b : f_num a = true -> f_num b = true ->
  SFcompare (fsub a b) fzero = SFcompare a b.
Proof.
  unfold f_num; intros Ha Hb.
  apply andb_prop in Ha; destruct Ha as [Fa Va]. apply andb_prop in Hb; destruct Hb as [Fb Vb].
  destruct a as [sa|sa| |sa ma ea]; try discriminate Fa;
  destruct b as [sb|sb| |sb mb eb]; try discriminate Fb.
  - destruct sa, sb; reflexivity.
  - destruct sa, sb; reflexivity.
  - destruct sa, sb; reflexivity.
  - apply valid_fin in Va. apply valid_fin in Vb.
    pose proof (mant_cmp ma ea mb eb Va Vb) as K.
    unfold fsub, SFsub. rewrite normalize_sign by lia.
    set (p := fst (shl_align ma ea (Z.min ea eb))) in *.
    set (q := fst (shl_align mb eb (Z.min ea eb))) in *.
    destruct sa, sb; cbn [cond_Zopp SFcompare].
    + fold (Pos.compare ma mb).
      transitivity (Some (CompOpp (Zpos p ?= Zpos q))).
      * f_equal. rewrite <- Z.compare_antisym, (Z.compare_sub (Zpos q)). apply (f_equal (fun z => z ?= 0)). lia.
      * rewrite K. destruct (ea ?= eb); reflexivity.
    + reflexivity.
    + reflexivity.
    + fold (Pos.compare ma mb). rewrite <- Z.compare_sub, K. destruct (ea ?= eb); reflexivity.
Qed.

Corollary fsub_lt a b : f_num a = true -> f_num b = true -> flt (fsub a b) fzero = flt a b.
Proof. intros A B. unfold flt, SFltb. rewrite fsub_compare by assumption. reflexivity. Qed.

Lemma SFcompare_swap a b : is_nan a = false -> is_nan b = false ->
  SFcompare b a = match SFcompare a b with Some c => Some (CompOpp c) | None => None end.
Proof.
  intros A B. pose proof (fcompare_key a b A B) as K1. pose proof (fcompare_key b a B A) as K2.
  destruct (SFcompare a b) as [[]|]; destruct (SFcompare b a) as [[]|]; auto;
    unfold klt, keq in *; lia.
Qed.

Lemma f_num_nan a : f_num a = true -> is_nan a = false.
Proof. destruct a; cbn; auto; discriminate. Qed.

Lemma fsub_nan a b : f_num a = true -> f_num b = true -> is_nan (fsub a b) = false.
Proof.
  intros A B. pose proof (fsub_compare a b A B) as H.
  destruct (fsub a b); auto. cbn in H. pose proof (fcompare_key a b (f_num_nan _ A) (f_num_nan _ B)) as K.
  rewrite <- H in K. tauto.
Qed.

Corollary fsub_gt a b : f_num a = true -> f_num b = true -> fgt (fsub a b) fzero = flt b a.
Proof.
  intros A B. unfold fgt, flt, SFltb.
  rewrite (SFcompare_swap (fsub a b) fzero) by (auto; apply fsub_nan; auto).
  rewrite fsub_compare by assumption. rewrite (SFcompare_swap a b) by (apply f_num_nan; auto).
  reflexivity.
Qed.

Corollary fsub_eq a b : f_num a = true -> f_num b = true -> feq (fsub a b) fzero = feq a b.
Proof. intros A B. unfold feq, SFeqb. rewrite fsub_compare by assumption. reflexivity. Qed.
