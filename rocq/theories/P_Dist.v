(** Accuracy of the distances of the synchronized offset: they stay finite and lose a few
    units in the last place. *)
From Coq Require Import QArith Qpower Lqa.
From Verif Require Import M_Base M_Float M_Geom M_Offset P_Base P_Float P_Tame P_FSub Spec_Dist Spec_Plane P_Plane P_Round.
Open Scope Z_scope.

(** ** No overflow *)
Lemma mag_size D x : mag D x -> (qsize x < P2q D)%Q.
Proof.
  destruct x as [s|s| |s m e]; cbn [mag qsize]; try tauto; try (intros _; apply p2_pos).
  intros [H1 H2]. fold (P2q e). replace D with ((D - e) + e) by lia. rewrite p2_add.
  pose proof (p2_Z (D - e) ltac:(lia)) as X. rewrite <- X. pose proof (p2_pos e).
  apply Qmult_lt_compat_r; [assumption|]. rewrite <- Zlt_Qlt. exact H2.
Qed.

Lemma mul_mag2 D1 D2 sx mx ex sy my ey : mag D1 (S754_finite sx mx ex) -> mag D2 (S754_finite sy my ey) ->
  0 <= D1 + D2 <= 1023 -> ex + ey <= 971 ->
  mag (D1 + D2 + 1) (fmul (S754_finite sx mx ex) (S754_finite sy my ey)).
Proof.
  intros [X1 X2] [Y1 Y2] HD He. unfold fmul, SFmul. apply round_mag; [lia| |exact He].
  split; [lia|]. split; [lia|].
  rewrite Pos2Z.inj_mul. replace (D1 + D2 - (ex + ey)) with ((D1 - ex) + (D2 - ey)) by lia.
  rewrite Z.pow_add_r by lia. apply Z.mul_lt_mono_nonneg; lia.
Qed.

Lemma div_mag F x s m e : 0 <= F <= 900 -> is_fin x = true ->
  (qsize x <= P2q F * qsize (S754_finite s m e))%Q -> mag (F + 2) (fdiv x (S754_finite s m e)).
Proof.
  intros HF. destruct x as [sx|sx| |sx m1 e1]; try discriminate; intros _ Hle; [exact I|].
  cbn [qsize] in Hle. fold (P2q e) (P2q e1) in Hle.
  assert (Hz : forall t, 0 <= e1 - t -> 0 <= F + e - t -> Zpos m1 * 2 ^ (e1 - t) <= Zpos m * 2 ^ (F + e - t)).
  { intros t T1 T2. rewrite Zle_Qle, !inject_Z_mult. pose proof (p2_Z (e1 - t) T1) as X. pose proof (p2_Z (F + e - t) T2) as Y.
    rewrite X, Y. pose proof (p2_pos t) as Pt. apply Qmult_le_r with (P2q t); [exact Pt|].
    rewrite <- !Qmult_assoc, <- !p2_add. replace (e1 - t + t) with e1 by lia. replace (F + e - t + t) with (F + e) by lia.
    rewrite (p2_add F e). lra. }
  unfold fdiv, SFdiv, SFdiv_core_binary.
  set (d1 := Zdigits2 (Zpos m1)). set (d2 := Zdigits2 (Zpos m)).
  set (e' := Z.min (fexp fprec femax (d1 + e1 - (d2 + e))) (e1 - e)).
  set (m' := match e1 - e - e' with Z0 => Zpos m1 | Zpos _ => Z.shiftl (Zpos m1) (e1 - e - e') | Zneg _ => 0 end).
  assert (Hs : 0 <= e1 - e - e') by lia.
  assert (Hm' : m' = Zpos m1 * 2 ^ (e1 - e - e')).
  { subst m'. destruct (e1 - e - e') as [|p|p] eqn:Es; [lia| |lia]. apply Z.shiftl_mul_pow2. lia. }
  destruct (Z.div_eucl m' (Zpos m)) as [q r] eqn:Eq.
  assert (Hqr : m' = Zpos m * q + r /\ 0 <= r < Zpos m).
  { pose proof (Z_div_mod m' (Zpos m) ltac:(lia)) as X. rewrite Eq in X. exact X. }
  destruct Hqr as [Hqr Hr].
  assert (Hpow : 0 < 2 ^ (e1 - e - e')) by (apply Z.pow_pos_nonneg; lia).
  assert (Hq : 0 <= q) by nia.
  (* the exponent *)
  assert (HD : d1 + e1 - (d2 + e) <= F + 1).
  { assert (A : 2 ^ (d1 - 1) <= Zpos m1) by apply digits2_low.
    assert (B : Zpos m < 2 ^ d2) by apply digits2_high.
    assert (0 < d1) by (subst d1; cbn; lia). assert (0 < d2) by (subst d2; cbn; lia).
    set (t := Z.min e1 (F + e)). specialize (Hz t ltac:(lia) ltac:(lia)).
    assert (K : 2 ^ (d1 - 1 + (e1 - t)) < 2 ^ (d2 + (F + e - t))).
    { rewrite !Z.pow_add_r by lia. assert (0 < 2 ^ (e1 - t)) by (apply Z.pow_pos_nonneg; lia).
      assert (0 < 2 ^ (F + e - t)) by (apply Z.pow_pos_nonneg; lia). nia. }
    apply Z.pow_lt_mono_r_iff in K; lia. }
  assert (He' : e' <= F - 52) by (subst e'; rewrite fexp64; lia).
  replace (F + 2) with ((F + 1) + 1) by lia. apply round_mag; [lia| |lia].
  split; [exact Hq|]. split; [lia|].
  specialize (Hz (e + e') ltac:(lia) ltac:(lia)).
  replace (e1 - (e + e')) with (e1 - e - e') in Hz by lia. replace (F + e - (e + e')) with (F - e') in Hz by lia.
  replace (F + 1 - e') with (Z.succ (F - e')) by lia. rewrite Z.pow_succ_r by lia.
  assert (0 < 2 ^ (F - e')) by (apply Z.pow_pos_nonneg; lia). nia.
Qed.

Lemma sqrt_mag D x : 0 <= D <= 900 -> nonneg x = true -> mag (2 * D) x -> mag (D + 1) (fsqrt x).
Proof.
  intros HD. destruct x as [s|s| |s m e]; cbn [mag]; try tauto.
  destruct s; [discriminate|]. intros _ [H1 H2]. unfold fsqrt, SFsqrt, SFsqrt_core_binary.
  set (d := Zdigits2 (Zpos m)).
  set (e' := Z.min (fexp fprec femax (Z.div2 (d + e + 1))) (Z.div2 e)).
  assert (He' : 2 * e' <= e) by (assert (e' <= Z.div2 e) by lia; rewrite Z.div2_div in *; pose proof (Z.div_mod e 2); pose proof (Z.mod_pos_bound e 2); lia).
  set (m' := match e - 2 * e' with Z0 => Zpos m | Zpos _ => Z.shiftl (Zpos m) (e - 2 * e') | Zneg _ => 0 end).
  assert (Hm' : m' = Zpos m * 2 ^ (e - 2 * e')).
  { subst m'. destruct (e - 2 * e') as [|p|p] eqn:Es; [lia| |lia]. apply Z.shiftl_mul_pow2. lia. }
  assert (Hpow : 0 < 2 ^ (e - 2 * e')) by (apply Z.pow_pos_nonneg; lia).
  destruct (Z.sqrtrem m') as [q r] eqn:Eq.
  pose proof (Z.sqrtrem_spec m' ltac:(lia)) as Sp. rewrite Eq in Sp. destruct Sp as [Sp Sr].
  apply round_mag; [lia| |lia]. split; [lia|]. split; [lia|].
  assert (K : m' < 2 ^ (D - e') * 2 ^ (D - e')).
  { rewrite Hm', <- Z.pow_add_r by lia. replace (D - e' + (D - e')) with (2 * D - e + (e - 2 * e')) by lia.
    rewrite Z.pow_add_r by lia. apply Z.mul_lt_mono_pos_r; assumption. }
  assert (0 < 2 ^ (D - e')) by (apply Z.pow_pos_nonneg; lia). nia.
Qed.

(** ** Equal up to a power of 1 + 2^-52 *)
Fixpoint gp (k : nat) : Q := match k with O => 1%Q | S k => ((1 + eps52) * gp k)%Q end.
Definition near (k : nat) (a b : Q) : Prop := (a <= gp k * b)%Q /\ (b <= gp k * a)%Q.

Lemma eps_pos : (0 < eps52)%Q. Proof. apply p2_pos. Qed.
Lemma gp_ge k : (1 <= gp k)%Q.
Proof. induction k; cbn [gp]; [lra|]. pose proof eps_pos. nra. Qed.
Lemma gp_add k l : (gp (k + l) == gp k * gp l)%Q.
Proof. induction k as [|k IH]; cbn [gp Nat.add]; [ring|]. rewrite IH. ring. Qed.

Lemma near_refl k a : (0 <= a)%Q -> near k a a.
Proof. intros H. pose proof (gp_ge k). split; nra. Qed.
Lemma near_sym k a b : near k a b -> near k b a.
Proof. intros [H1 H2]; split; assumption. Qed.
Lemma near_trans k l a b c : near k a b -> near l b c -> near (k + l) a c.
Proof.
  intros [A1 A2] [B1 B2]. pose proof (gp_ge k). pose proof (gp_ge l). split; rewrite gp_add.
  - apply Qle_trans with (1 := A1). rewrite <- Qmult_assoc. apply Qmult_le_l; [lra|exact B1].
  - apply Qle_trans with (1 := B2). rewrite (Qmult_comm (gp k)), <- Qmult_assoc. apply Qmult_le_l; [lra|exact A2].
Qed.
Lemma near_mul k l a b c d : (0 <= a)%Q -> (0 <= b)%Q -> (0 <= c)%Q -> (0 <= d)%Q ->
  near k a b -> near l c d -> near (k + l) (a * c) (b * d).
Proof.
  intros Ha Hb Hc Hd [A1 A2] [B1 B2]. pose proof (gp_ge k). pose proof (gp_ge l).
  split; rewrite gp_add.
  - apply Qle_trans with ((gp k * b) * (gp l * d))%Q; [|lra]. apply Qmult_le_compat_nonneg; split; assumption.
  - apply Qle_trans with ((gp k * a) * (gp l * c))%Q; [|lra]. apply Qmult_le_compat_nonneg; split; assumption.
Qed.
Lemma near_scale k s a b : (0 <= s)%Q -> near k a b -> near k (s * a) (s * b).
Proof.
  intros Hs [A1 A2]. split.
  - apply Qle_trans with (s * (gp k * b))%Q; [|lra]. rewrite (Qmult_comm s a), (Qmult_comm s (gp k * b)). apply Qmult_le_compat_r; assumption.
  - apply Qle_trans with (s * (gp k * a))%Q; [|lra]. rewrite (Qmult_comm s b), (Qmult_comm s (gp k * a)). apply Qmult_le_compat_r; assumption.
Qed.
Lemma near_eq k a b a' b' : (a == a')%Q -> (b == b')%Q -> near k a b -> near k a' b'.
Proof. intros Ea Eb [A B]. split; [rewrite <- Ea, <- Eb|rewrite <- Ea, <- Eb]; assumption. Qed.

(** A rounding is within the factor if the number is not tiny, and within the factor and the
    smallest number always. *)
Definition tiny : Q := P2q (-1074).
Lemma tiny_pos : (0 < tiny)%Q. Proof. apply p2_pos. Qed.
Lemma tiny_eps : (2 * tiny <= eps52 * (P2q (-1020)))%Q.
Proof. vm_compute. discriminate. Qed.

Lemma bracket_near L H z v : small_bracket L H -> (L <= z <= H)%Q -> (L <= v <= H)%Q -> (P2q (-1020) <= v)%Q -> near 1 z v.
Proof.
  intros [L0 Hc] [Z1 Z2] [V1 V2] Hv. pose proof tiny_pos as T. pose proof tiny_eps as TE. pose proof eps_pos as EP.
  assert (E1 : (eps52 <= 1)%Q) by (vm_compute; discriminate).
  assert (Hr : (H <= (1 + eps52) * L)%Q).
  { destruct Hc as [Hc|Hc]; [exact Hc|]. fold tiny in Hc.
    assert (X : (P2q (-1020) <= L + tiny)%Q) by lra.
    assert (Y : (tiny <= eps52 * L)%Q) by nra. lra. }
  unfold near. cbn [gp]. split; nra.
Qed.
Lemma rounds_near z v : rounds_to z v -> (P2q (-1020) <= v)%Q -> near 1 z v.
Proof. intros (L & H & A & B & C). apply (bracket_near L H); assumption. Qed.
Lemma rounds_loose z v : rounds_to z v ->
  (z <= (1 + eps52) * v + tiny)%Q /\ (v <= (1 + eps52) * z + tiny)%Q.
Proof.
  intros (L & H & [L0 Hc] & [Z1 Z2] & [V1 V2]). pose proof tiny_pos as T. pose proof eps_pos as EP. fold tiny in Hc.
  destruct Hc; split; nra.
Qed.

(** ** hypot *)
Definition fabs_ (p : f64) : f64 := if flt p fzero then fopp p else p.

Lemma fabs_facts p : f_num p = true ->
  f_num (fabs_ p) = true /\ nonneg (fabs_ p) = true /\ qsize (fabs_ p) = qsize p /\
  (forall D, mag D p -> mag D (fabs_ p)).
Proof.
  unfold fabs_. destruct p as [s|s| |s m e]; intros H; try discriminate H.
  - destruct s; cbn; auto.
  - destruct s; cbn; auto.
Qed.

Lemma num_machine x : f_num x = true -> machine x.
Proof.
  unfold f_num, machine. intros H. apply andb_prop in H. destruct H as [H1 H2]. split; [apply fin_not_nan; exact H1|exact H2].
Qed.

Lemma units_size x : f_num x = true -> nonneg x = true -> (inject_Z (units x) == qsize x * P2q 1074)%Q.
Proof.
  unfold f_num. intros H Hn. apply andb_prop in H. destruct H as [H1 H2]. destruct x as [s|s| |s m e]; try discriminate H1.
  - cbn. reflexivity.
  - destruct s; [discriminate Hn|]. rewrite (units_exact _ _ _ H2). destruct (valid_range _ _ _ H2) as (R & _).
    cbn [qsize]. fold (P2q e). rewrite <- Qmult_assoc, <- p2_add, !inject_Z_mult.
    pose proof (p2_Z (e + 1074) ltac:(lia)) as X. rewrite X. ring.
Qed.

Lemma size_le a b : f_num a = true -> f_num b = true -> nonneg a = true -> nonneg b = true ->
  flt b a = false -> (qsize a <= qsize b)%Q.
Proof.
  intros Ha Hb Na Nb H. pose proof (units_size a Ha Na) as A. pose proof (units_size b Hb Nb) as B.
  destruct (num_machine _ Ha) as [Fa _]. destruct (num_machine _ Hb) as [Fb _].
  pose proof (units_le _ _ (flt_total _ _ Fb Fa H)) as L. rewrite Zle_Qle, A, B in L.
  apply Qmult_le_r in L; [exact L|apply p2_pos].
Qed.

Lemma fzero_size x : is_fin x = true -> feq x fzero = true -> (qsize x == 0)%Q.
Proof. destruct x as [s|s| |s m e]; try discriminate; intros _ H; [reflexivity|]. destruct s; discriminate H. Qed.

Lemma num_fin x : f_num x = true -> is_fin x = true.
Proof. unfold f_num. intros H. apply andb_prop in H. apply H. Qed.

Lemma round_nonneg m e l : nonneg (binary_round_aux fprec femax false m e l) = true.
Proof.
  unfold binary_round_aux. destruct (shr_fexp fprec femax m e l) as [r e1].
  destruct (shr_fexp fprec femax _ e1 loc_Exact) as [r2 e2]. destruct (shr_m r2); try reflexivity.
  destruct (Zle_bool e2 (femax - fprec)); reflexivity.
Qed.

Lemma mul_nonneg_same x : nonneg (fmul x x) = true.
Proof.
  destruct x as [s|s| |s m e]; unfold fmul, SFmul; try reflexivity.
  rewrite xorb_nilpotent. apply round_nonneg.
Qed.

Lemma mul_nonneg x y : nonneg x = true -> nonneg y = true -> is_fin x = true -> is_fin y = true -> nonneg (fmul x y) = true.
Proof.
  destruct x as [s|s| |s m e]; try discriminate; destruct y as [s'|s'| |s' m' e']; try discriminate; intros A B _ _; try reflexivity.
  destruct s, s'; try discriminate. apply round_nonneg.
Qed.

Lemma add_nonneg x y : nonneg x = true -> nonneg y = true -> nonneg (fadd x y) = true.
Proof.
  destruct x as [s|s| |s m e]; destruct y as [s'|s'| |s' m' e']; unfold fadd, SFadd; intros A B; auto;
  try (destruct (Bool.eqb s s'); reflexivity).
  destruct s, s'; try discriminate. cbn [cond_Zopp].
  destruct (Z.pos (fst (shl_align m e (Z.min e e'))) + Z.pos (fst (shl_align m' e' (Z.min e e')))) eqn:E; try reflexivity; [|lia].
  cbn [binary_normalize]. unfold binary_round. destruct (shl_align p _ _). apply round_nonneg.
Qed.

Lemma sqrt_nonneg x : nonneg x = true -> nonneg (fsqrt x) = true.
Proof.
  destruct x as [s|s| |s m e]; auto; destruct s; try discriminate; auto.
  intros _. unfold fsqrt, SFsqrt. destruct (SFsqrt_core_binary fprec femax (Z.pos m) e) as [[q e'] l] eqn:E.
  apply round_nonneg.
Qed.

(** The core: the larger one first, both not negative. *)
Definition hyp_core (a b : f64) : f64 :=
  let q3 := fdiv b a in fmul a (fsqrt (fadd (f_of_Z 1) (fmul q3 q3))).

Definition one_size : (qsize (f_of_Z 1) == 1)%Q.
Proof. vm_compute. reflexivity. Qed.

Lemma core_accurate a b : f_num a = true -> f_num b = true -> nonneg a = true -> nonneg b = true ->
  mag 1000 a -> (0 < qsize a)%Q -> (qsize b <= qsize a)%Q ->
  is_fin (hyp_core a b) = true /\ nonneg (hyp_core a b) = true /\
  exists s, ((1#4) <= s <= 32)%Q /\ rounds_to (qsize (hyp_core a b)) (qsize a * s) /\
    near 6 (qsize a * s * (qsize a * s)) (qsize a * qsize a + qsize b * qsize b).
Proof.
  intros Na Nb Pa Pb Ma A0 Lab. unfold hyp_core.
  destruct a as [s|s| |s m e]; try discriminate Na; [exfalso; cbn [qsize] in A0; lra|].
  destruct s; [discriminate Pa|].
  set (a := S754_finite false m e) in *. 
  assert (Fb : is_fin b = true) by (apply num_fin; exact Nb).
  assert (M3 : mag 2 (fdiv b a)).
  { apply (div_mag 0); [lia|exact Fb|]. change (P2q 0) with 1%Q. fold a. lra. }
  pose proof (mag_fin _ _ M3) as F3. pose proof (div_rounds b false m e Fb F3) as R3. fold a in R3.
  set (q3 := fdiv b a) in *.
  assert (Mt : mag 5 (fmul q3 q3)) by (apply (mul_mag 2); [lia|lia|exact M3|exact M3]).
  pose proof (mag_fin _ _ Mt) as Ft. pose proof (mul_rounds q3 q3 F3 F3 Ft) as Rt.
  pose proof (mul_nonneg_same q3) as Pt. set (t := fmul q3 q3) in *.
  assert (M1 : mag 5 (f_of_Z 1)) by (vm_compute; split; [discriminate|reflexivity]).
  assert (Ms1 : mag 7 (fadd (f_of_Z 1) t)) by (apply (add_mag 5); [lia|exact M1|exact Mt]).
  pose proof (mag_fin _ _ Ms1) as Fs1.
  pose proof (add_rounds (f_of_Z 1) t eq_refl Ft eq_refl Pt Fs1) as Rs1.
  assert (Ps1 : nonneg (fadd (f_of_Z 1) t) = true) by (apply add_nonneg; [reflexivity|exact Pt]).
  set (s1 := fadd (f_of_Z 1) t) in *.
  assert (Ms : mag 5 (fsqrt s1)) by (apply (sqrt_mag 4); [lia|exact Ps1|apply (mag_mono 7); [lia|exact Ms1]]).
  pose proof (mag_fin _ _ Ms) as Fs. destruct (sqrt_rounds s1 Fs1 Ps1 Fs) as (L & H & B1 & B2 & B3).
  assert (Ps : nonneg (fsqrt s1) = true) by (apply sqrt_nonneg; exact Ps1).
  set (s := fsqrt s1) in *.
  (* values *)
  pose proof eps_pos as EP. pose proof tiny_pos as TP.
  assert (E1 : (eps52 <= (1#4))%Q) by (vm_compute; discriminate).
  assert (T1 : (8 * tiny <= eps52)%Q) by (vm_compute; discriminate).
  assert (C1 : (P2q (-1020) <= (1#4))%Q) by (vm_compute; discriminate).
  pose proof (qsize_nonneg b) as B0.
  assert (Q0 : (0 <= qsize b / qsize a)%Q) by (apply Qle_shift_div_l; lra).
  assert (Q1 : (qsize b / qsize a <= 1)%Q) by (apply Qle_shift_div_r; lra).
  assert (QE : (qsize b == qsize b / qsize a * qsize a)%Q) by (field; lra).
  set (r := (qsize b / qsize a)%Q) in *.
  pose proof (qsize_nonneg q3) as Z3. destruct (rounds_loose _ _ R3) as [R3a R3b].
  assert (N3 : near 2 (1 + qsize q3 * qsize q3) (1 + r * r)).
  { unfold near. cbn [gp]. set (x := qsize q3) in *.
    assert (X2 : (x <= 2)%Q) by nra.
    assert (G : forall u v, (0 <= u)%Q -> (0 <= v)%Q -> (v <= 2)%Q -> (u <= (1 + eps52) * v + tiny)%Q ->
      (1 + u * u <= (1 + eps52) * ((1 + eps52) * 1) * (1 + v * v))%Q).
    { intros u v U0 V0 V2 Huv.
      apply Qle_trans with (1 + ((1 + eps52) * v + tiny) * ((1 + eps52) * v + tiny))%Q; [nra|].
      assert (K : (2 * ((1 + eps52) * v) * tiny + tiny * tiny <= eps52)%Q) by nra. nra. }
    split; apply G; auto; lra. }
  pose proof (qsize_nonneg t) as Zt. destruct (rounds_loose _ _ Rt) as [Rta Rtb].
  assert (Nt : near 1 (1 + qsize t) (1 + qsize q3 * qsize q3)) by (unfold near; cbn [gp]; split; nra).
  assert (Ns1 : near 1 (qsize s1) (1 + qsize t)).
  { pose proof one_size as O. destruct Rs1 as (L1 & H1 & X1 & X2 & X3). rewrite O in X3.
    apply (bracket_near L1 H1); [exact X1|exact X2|exact X3|lra]. }
  assert (S1ge : ((1#2) <= qsize s1)%Q).
  { destruct Ns1 as [_ Y]. cbn [gp] in Y. pose proof (qsize_nonneg s1). nra. }
  pose proof (qsize_nonneg s) as Zs. destruct B1 as [L0 Hc].
  assert (Hge : ((1#2) <= H)%Q).
  { destruct (Qlt_le_dec H (1#2)) as [X|X]; [|exact X]. exfalso. assert (0 <= H)%Q by lra.
    assert (H * H < 1#2)%Q by nra. lra. }
  assert (HL : (H <= (1 + eps52) * L)%Q).
  { destruct Hc as [Hc|Hc]; [exact Hc|]. fold tiny in Hc.
    assert ((1#4) <= L)%Q by lra. assert (4 * tiny <= eps52)%Q by lra. nra. }
  assert (Ns : near 2 (qsize s * qsize s) (qsize s1)).
  { unfold near. cbn [gp]. destruct B2 as [B2a B2b]. destruct B3 as [B3a B3b].
    assert (HH : (H * H <= (1 + eps52) * ((1 + eps52) * 1) * (L * L))%Q) by nra.
    split.
    - apply Qle_trans with (H * H)%Q; [nra|]. apply Qle_trans with (1 := HH). apply Qmult_le_l; nra.
    - apply Qle_trans with (H * H)%Q; [lra|]. apply Qle_trans with (1 := HH). apply Qmult_le_l; nra. }
  assert (Sge : ((1#4) <= qsize s)%Q) by (destruct B2; nra).
  assert (Mh : mag 1006 (fmul a s)).
  { subst a. destruct s as [ss|ss| |ss ms es]; try discriminate Fs; [exact I|].
    apply (mul_mag2 1000 5); [exact Ma|exact Ms|lia|].
    destruct Ma as [Ma1 Ma2]. destruct Ms as [Ms_ _].
    apply andb_prop in Na. destruct Na as [_ Va]. destruct (valid_range _ _ _ Va) as (R & _ & Hn).
    destruct (Z.eq_dec e (-1074)); [lia|]. specialize (Hn n).
    assert (K : 2 ^ 52 < 2 ^ (1000 - e)) by lia. apply Z.pow_lt_mono_r_iff in K; lia. }
  pose proof (mag_fin _ _ Mh) as Fh. pose proof (mul_rounds a s eq_refl Fs Fh) as Rh.
  split; [exact Fh|]. split; [apply mul_nonneg; auto|].
  assert (G2 : near 4 (qsize s * qsize s) (1 + qsize q3 * qsize q3)).
  { apply (near_trans 2 2) with (qsize s1); [exact Ns|]. apply (near_trans 1 1) with (1 + qsize t)%Q; assumption. }
  assert (G3 : near 6 (qsize s * qsize s) (1 + r * r)) by (apply (near_trans 4 2) with (1 + qsize q3 * qsize q3)%Q; assumption).
  exists (qsize s). split; [split; [exact Sge|]|].
  { pose proof (mag_size _ _ Ms) as X. change (P2q 5) with 32%Q in X. lra. }
  split; [exact Rh|].
  apply (near_eq 6 (qsize a * qsize a * (qsize s * qsize s)) (qsize a * qsize a * (1 + r * r))); [ring| |].
  - rewrite QE. ring.
  - apply near_scale; [nra|exact G3].
Qed.

Lemma gp8 : (gp 8 <= 1 + P2q (-48))%Q.
Proof. vm_compute. discriminate. Qed.

(** The additive part matters only for sizes around 2^-1000 and below. *)
Definition small_sq : Q := P2q (-2050).
Definition loosely (h v : Q) : Prop := (h <= (1 + P2q (-48)) * v + small_sq)%Q /\ (v <= (1 + P2q (-48)) * h + small_sq)%Q.

Lemma core_close a s h V : (0 < a)%Q -> ((1#4) <= s <= 32)%Q -> (0 <= h)%Q -> (0 <= V)%Q -> rounds_to h (a * s) ->
  near 6 (a * s * (a * s)) V -> loosely (h * h) V.
Proof.
  intros A0 [S1 S2] H0 V0 R N. pose proof gp8 as G8. pose proof eps_pos as EP. pose proof tiny_pos as TP.
  assert (SP : (0 < small_sq)%Q) by apply p2_pos.
  assert (W0 : (0 <= a * s)%Q) by nra.
  assert (E48 : (0 < P2q (-48))%Q) by apply p2_pos.
  destruct (Qlt_le_dec a (P2q (-1000))) as [La|La].
  - destruct (rounds_loose _ _ R) as [R1 R2]. destruct N as [N1 N2]. set (y := (a * s)%Q) in *.
    assert (Yw : (y <= P2q (-995))%Q).
    { assert (X : (P2q (-1000) * 32 == P2q (-995))%Q) by (vm_compute; reflexivity). rewrite <- X. subst y.
      apply Qmult_le_compat_nonneg; split; lra. }
    set (w := P2q (-995)) in *. assert (W1 : (0 < w)%Q) by apply p2_pos. assert (Tw : (tiny <= w)%Q) by (vm_compute; discriminate).
    assert (E1 : (eps52 <= (1#4))%Q) by (vm_compute; discriminate).
    assert (Hw : (h <= 4 * w)%Q) by nra.
    assert (Sm : (64 * (w * tiny) <= small_sq)%Q) by (vm_compute; discriminate).
    assert (WT : (0 < w * tiny)%Q) by (clear Sm; nra). 
    assert (TT : (tiny * tiny <= w * tiny)%Q) by (clear Sm; nra).
    assert (A1 : (h * h <= gp 2 * (y * y) + 4 * (w * tiny))%Q).
    { cbn [gp]. apply Qle_trans with (((1 + eps52) * y + tiny) * ((1 + eps52) * y + tiny))%Q; [clear - R1 H0; nra|].
      assert (K : ((1 + eps52) * y * tiny <= (5#4) * (w * tiny))%Q).
      { assert ((1 + eps52) * y <= (5#4) * w)%Q by nra. clear - H TP. nra. }
      lra. }
    assert (A2 : (y * y <= gp 2 * (h * h) + 16 * (w * tiny))%Q).
    { cbn [gp]. apply Qle_trans with (((1 + eps52) * h + tiny) * ((1 + eps52) * h + tiny))%Q; [clear - R2 W0; nra|].
      assert (K : ((1 + eps52) * h * tiny <= 5 * (w * tiny))%Q).
      { assert ((1 + eps52) * h <= 5 * w)%Q by nra. clear - H TP. nra. }
      lra. }
    assert (P28 : (gp 8 == gp 2 * gp 6)%Q) by (apply (gp_add 2 6)).
    pose proof (gp_ge 2) as G2. pose proof (gp_ge 6) as G6.
    assert (G62 : (gp 6 <= 2)%Q) by (vm_compute; discriminate).
    assert (HH0 : (0 <= h * h)%Q) by (clear - H0; nra). assert (YY0 : (0 <= y * y)%Q) by (clear - W0; nra).
    split.
    + apply Qle_trans with (gp 8 * V + 4 * (w * tiny))%Q.
      * apply Qle_trans with (1 := A1). rewrite P28. assert (gp 2 * (y * y) <= gp 2 * (gp 6 * V))%Q; [|lra].
        apply Qmult_le_l; [lra|exact N1].
      * assert (gp 8 * V <= (1 + P2q (-48)) * V)%Q by (apply Qmult_le_compat_r; assumption). lra.
    + apply Qle_trans with (gp 8 * (h * h) + 32 * (w * tiny))%Q.
      * apply Qle_trans with (1 := N2). rewrite P28.
        apply Qle_trans with (gp 6 * (gp 2 * (h * h) + 16 * (w * tiny)))%Q; [apply Qmult_le_l; [lra|exact A2]|].
        assert (gp 6 * (16 * (w * tiny)) <= 2 * (16 * (w * tiny)))%Q by (apply Qmult_le_compat_r; lra). lra.
      * assert (gp 8 * (h * h) <= (1 + P2q (-48)) * (h * h))%Q by (apply Qmult_le_compat_r; assumption). lra.
  - assert (N8 : near 8 (h * h) V).
    { apply (near_trans 2 6) with (2 := N). apply (near_mul 1 1); auto;
      (apply rounds_near; [exact R|]; assert (C2 : (P2q (-1020) * 4 <= P2q (-1000))%Q) by (vm_compute; discriminate);
       assert (P0 : (0 < P2q (-1000))%Q) by apply p2_pos;
       apply Qle_trans with (P2q (-1000) * (1#4))%Q; [lra|]; apply Qmult_le_compat_nonneg; split; lra). }
    destruct N8 as [X Y]. assert (HH0 : (0 <= h * h)%Q) by (clear - H0; nra). split.
    + apply Qle_trans with (1 := X). assert (gp 8 * V <= (1 + P2q (-48)) * V)%Q by (apply Qmult_le_compat_r; assumption). lra.
    + apply Qle_trans with (1 := Y). assert (gp 8 * (h * h) <= (1 + P2q (-48)) * (h * h))%Q by (apply Qmult_le_compat_r; assumption). lra.
Qed.

Lemma qval_sq x : (qval x * qval x == qsize x * qsize x)%Q.
Proof. destruct x as [s|s| |[] m e]; cbn [qval]; ring. Qed.

Lemma size_zero x : is_fin x = true -> feq x fzero = false -> (0 < qsize x)%Q.
Proof.
  destruct x as [s|s| |s m e]; try discriminate; intros _ H.
  cbn [qsize]. pose proof (p2_pos e) as P. unfold P2q in P. apply Qmult_lt_0_compat; [|exact P].
  change 0%Q with (inject_Z 0). rewrite <- Zlt_Qlt. lia.
Qed.

Theorem hypot_accurate p q : f_num p = true -> f_num q = true -> mag 1000 p -> mag 1000 q ->
  is_fin (hypot p q) = true /\ fle fzero (hypot p q) = true /\
  loosely (qval (hypot p q) * qval (hypot p q)) (qval p * qval p + qval q * qval q).
Proof.
  intros Np Nq Mp Mq.
  destruct (fabs_facts p Np) as (Np1 & Pp & Ep & Mp1). destruct (fabs_facts q Nq) as (Nq1 & Pq & Eq & Mq1).
  specialize (Mp1 _ Mp). specialize (Mq1 _ Mq).
  assert (G : forall a b, f_num a = true -> f_num b = true -> nonneg a = true -> nonneg b = true ->
    mag 1000 a -> (qsize b <= qsize a)%Q ->
    let h := if feq a fzero then fzero else hyp_core a b in
    is_fin h = true /\ fle fzero h = true /\
    loosely (qval h * qval h) (qsize a * qsize a + qsize b * qsize b)).
  { intros a b Na Nb Pa Pb Ma Hba. cbv zeta.
    pose proof (qsize_nonneg a) as A0. pose proof (qsize_nonneg b) as B0.
    assert (SP : (0 < small_sq)%Q) by apply p2_pos.
    destruct (feq a fzero) eqn:Ez.
    { pose proof (fzero_size a (num_fin a Na) Ez) as Z0. split; [reflexivity|]. split; [reflexivity|].
      assert (Zb : (qsize b == 0)%Q) by lra. unfold loosely. rewrite Z0, Zb. cbn [qval fzero qsize]. lra. }
    pose proof (size_zero a (num_fin a Na) Ez) as Ap.
    destruct (core_accurate a b Na Nb Pa Pb Ma Ap Hba) as (C1 & C2 & s & C3 & C4 & C5). split; [exact C1|].
    split; [destruct (hyp_core a b) as [[]|[]| |[] ? ?]; try discriminate; reflexivity|].
    unfold loosely. rewrite qval_sq.
    apply (core_close (qsize a) s); auto; [apply qsize_nonneg|nra]. }
  assert (E : hypot p q = let (a, b) := if flt (fabs_ p) (fabs_ q) then (fabs_ q, fabs_ p) else (fabs_ p, fabs_ q) in
    if feq a fzero then fzero else hyp_core a b) by reflexivity.
  assert (S : (qval p * qval p + qval q * qval q == qsize (fabs_ p) * qsize (fabs_ p) + qsize (fabs_ q) * qsize (fabs_ q))%Q).
  { rewrite !qval_sq, Ep, Eq. reflexivity. }
  rewrite E. clear E. unfold loosely. rewrite S.
  destruct (flt (fabs_ p) (fabs_ q)) eqn:Ef.
  - destruct (G (fabs_ q) (fabs_ p)) as (X1 & X2 & X3); auto.
    { apply size_le; auto. apply fle_not_lt, flt_le; exact Ef. }
    split; [exact X1|]. split; [exact X2|]. rewrite (Qplus_comm (qsize (fabs_ p) * qsize (fabs_ p))). exact X3.
  - apply G; auto. apply size_le; auto.
Qed.

Theorem square_hypot_accurate p q : f_num p = true -> f_num q = true -> mag 480 p -> mag 480 q ->
  is_fin (square_hypot p q) = true /\ fle fzero (square_hypot p q) = true /\
  (qval (square_hypot p q) <= (1 + P2q (-50)) * (qval p * qval p + qval q * qval q) + P2q (-1071))%Q /\
  (qval p * qval p + qval q * qval q <= (1 + P2q (-50)) * qval (square_hypot p q) + P2q (-1071))%Q.
Proof.
  intros Np Nq Mp Mq. unfold square_hypot.
  assert (M1 : mag 961 (fmul p p)) by (apply (mul_mag 480); auto; lia).
  assert (M2 : mag 961 (fmul q q)) by (apply (mul_mag 480); auto; lia).
  assert (M3 : mag 963 (fadd (fmul p p) (fmul q q))) by (apply (add_mag 961); auto; lia).
  pose proof (mag_fin _ _ M1) as F1. pose proof (mag_fin _ _ M2) as F2. pose proof (mag_fin _ _ M3) as F3.
  pose proof (num_fin _ Np) as Fp. pose proof (num_fin _ Nq) as Fq.
  pose proof (rounds_loose _ _ (mul_rounds p p Fp Fp F1)) as [A1 A2].
  pose proof (rounds_loose _ _ (mul_rounds q q Fq Fq F2)) as [B1 B2].
  pose proof (mul_nonneg_same p) as Pp. pose proof (mul_nonneg_same q) as Pq.
  pose proof (rounds_loose _ _ (add_rounds _ _ F1 F2 Pp Pq F3)) as [C1 C2].
  pose proof (add_nonneg _ _ Pp Pq) as P3.
  set (h := fadd (fmul p p) (fmul q q)) in *. split; [exact F3|].
  split; [destruct h as [[]|[]| |[] ? ?]; try discriminate; reflexivity|].
  assert (V : (qval h == qsize h)%Q) by (destruct h as [[]|[]| |[] ? ?]; try discriminate; reflexivity).
  rewrite !qval_sq, V.
  pose proof eps_pos as EP. pose proof tiny_pos as TP.
  assert (E0 : (4 * eps52 == P2q (-50))%Q) by (vm_compute; reflexivity).
  assert (E1 : (8 * tiny == P2q (-1071))%Q) by (vm_compute; reflexivity).
  assert (E2 : (eps52 <= 1#4)%Q) by (vm_compute; discriminate).
  rewrite <- E0, <- E1. set (x := qsize (fmul p p)) in *. set (y := qsize (fmul q q)) in *.
  assert (X0 : (0 <= x)%Q) by apply qsize_nonneg. assert (Y0 : (0 <= y)%Q) by apply qsize_nonneg.
  assert (H0 : (0 <= qsize h)%Q) by apply qsize_nonneg.
  set (P := (qsize p * qsize p)%Q) in *. set (Q_ := (qsize q * qsize q)%Q) in *.
  assert (P0 : (0 <= P)%Q) by (subst P; pose proof (qsize_nonneg p); nra).
  assert (Q0 : (0 <= Q_)%Q) by (subst Q_; pose proof (qsize_nonneg q); nra).
  clearbody x y P Q_. split.
  - apply Qle_trans with ((1 + eps52) * ((1 + eps52) * (P + Q_) + 2 * tiny) + tiny)%Q; [nra|].
    assert ((1 + eps52) * (2 * tiny) <= 4 * tiny)%Q by nra.
    assert ((1 + eps52) * (1 + eps52) <= 1 + 4 * eps52)%Q by nra.
    assert ((1 + eps52) * (1 + eps52) * (P + Q_) <= (1 + 4 * eps52) * (P + Q_))%Q by (apply Qmult_le_compat_r; [assumption|lra]). lra.
  - apply Qle_trans with ((1 + eps52) * ((1 + eps52) * qsize h + tiny) + 2 * tiny)%Q; [nra|].
    assert ((1 + eps52) * tiny <= 2 * tiny)%Q by nra.
    assert ((1 + eps52) * (1 + eps52) <= 1 + 4 * eps52)%Q by nra.
    assert ((1 + eps52) * (1 + eps52) * qsize h <= (1 + 4 * eps52) * qsize h)%Q by (apply Qmult_le_compat_r; [assumption|lra]). lra.
Qed.
