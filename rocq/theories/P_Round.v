(** Every rounding is within one unit in the last place: products, quotients, sums and square
    roots of floats.  Rational reasoning about the IEEE rounding functions, without reals. *)
From Coq Require Import QArith Qpower Lqa.
From Verif Require Import M_Base M_Float P_Base P_Float P_Tame P_FSub Spec_Dist.
Open Scope Z_scope.

(** ** Powers of two *)
Definition P2q (e : Z) : Q := (2 ^ e)%Q.

Lemma p2_pos e : (0 < P2q e)%Q.
Proof. apply Qpower_0_lt. reflexivity. Qed.

Lemma p2_add a b : (P2q (a + b) == P2q a * P2q b)%Q.
Proof. apply Qpower_plus. discriminate. Qed.

Lemma p2_Z k : 0 <= k -> (inject_Z (2 ^ k) == P2q k)%Q.
Proof. intros H. unfold P2q. rewrite Zpower_Qpower by exact H. reflexivity. Qed.

Lemma p2_mono a b : a <= b -> (P2q a <= P2q b)%Q.
Proof.
  intros H. replace b with ((b - a) + a) by lia. rewrite p2_add.
  pose proof (p2_Z (b - a) ltac:(lia)) as E. rewrite <- E.
  pose proof (p2_pos a). assert (1 <= inject_Z (2 ^ (b - a)))%Q.
  { change 1%Q with (inject_Z 1). rewrite <- Zle_Qle. assert (0 < 2 ^ (b - a)) by (apply Z.pow_pos_nonneg; lia). lia. }
  nra.
Qed.

(** ** One rounding *)
(** What the rounding of a number between m 2^e and (m+1) 2^e (exactly m 2^e if exact) lies in:
    a bracket with a small relative or absolute width. *)
Definition eps52 : Q := P2q (-52).
Definition small_bracket (L H : Q) : Prop :=
  (0 <= L /\ (H <= (1 + eps52) * L \/ H <= L + P2q (-1074)))%Q.

(** The first shift: what is kept brackets the number. *)
Lemma shr_bracket m e l : 0 <= m -> (l = loc_Exact \/ e <= fexp fprec femax (Zdigits2 m + e)) ->
  let '(r, e') := shr_fexp fprec femax m e l in
  exists k, 0 <= k /\ e' = e + k /\ shr_m r = m / 2 ^ k /\ -1074 <= e' /\ m / 2 ^ k < 2 ^ 53 /\
    (l = loc_Exact /\ k = 0 /\ loc_of_shr_record r = loc_Exact \/ 2 ^ 52 <= m / 2 ^ k \/ e' = -1074).
Proof.
  intros Hm Hpre. unfold shr_fexp.
  assert (Hr : shr_m (shr_record_of_loc m l) = m) by (destruct l as [|[]]; reflexivity).
  assert (Hl : loc_of_shr_record (shr_record_of_loc m l) = l) by (destruct l as [|[]]; reflexivity).
  rewrite fexp64 in *. set (n := Z.max (Zdigits2 m + e - 53) (-1074) - e) in *.
  assert (Hd : 0 < m -> 2 ^ (Zdigits2 m - 1) <= m) by apply Zdigits2_low.
  assert (Hh : m < 2 ^ Zdigits2 m) by (destruct m as [|q|q]; [reflexivity|apply digits2_high|lia]).
  assert (Hd0 : 0 <= Zdigits2 m) by (destruct m; cbn [Zdigits2]; lia).
  assert (Hk : forall k, 0 <= k -> Zdigits2 m <= 53 + k -> m / 2 ^ k < 2 ^ 53).
  { intros k K1 K2. apply Z.div_lt_upper_bound; [lia|]. rewrite <- Z.pow_add_r by lia.
    eapply Z.lt_le_trans; [exact Hh|]. apply Z.pow_le_mono_r; lia. }
  unfold shr. destruct n as [|p|p] eqn:En.
  - assert (Hn : Z.max (Zdigits2 m + e - 53) (-1074) - e = 0) by (subst n; exact En).
    specialize (Hk 0 ltac:(lia) ltac:(lia)).
    exists 0. change (2 ^ 0) with 1 in *. rewrite Z.div_1_r in *. rewrite Hr. do 2 (split; [lia|]). split; [reflexivity|].
    do 2 (split; [lia|]).
    destruct l as [|c]; [left; auto|]. right.
    destruct (Z.eq_dec e (-1074)); [right; lia|left].
    assert (H53 : Zdigits2 m = 53) by lia.
    destruct (Z.eq_dec m 0) as [->|]; [cbn in H53; lia|]. specialize (Hd ltac:(lia)). rewrite H53 in Hd. exact Hd.
  - assert (Hn : Z.max (Zdigits2 m + e - 53) (-1074) - e = Zpos p) by (subst n; exact En).
    exists (Zpos p). split; [lia|]. split; [reflexivity|].
    rewrite iter_shr_div by (rewrite Hr; exact Hm). rewrite Hr. split; [reflexivity|].
    split; [lia|]. split; [apply Hk; lia|]. right.
    destruct (Z.eq_dec (e + Zpos p) (-1074)); [right; lia|left].
    assert (H53 : Zdigits2 m = 53 + Zpos p) by lia.
    destruct (Z.eq_dec m 0) as [->|]; [cbn in H53; lia|]. specialize (Hd ltac:(lia)).
    apply Z.div_le_lower_bound; [lia|]. rewrite <- Z.pow_add_r by lia.
    replace (Zpos p + 52) with (Zdigits2 m - 1) by lia. exact Hd.
  - assert (Hn : Z.max (Zdigits2 m + e - 53) (-1074) - e = Zneg p) by (subst n; exact En).
    destruct Hpre as [-> |Hpre]; [|lia].
    specialize (Hk 0 ltac:(lia) ltac:(lia)).
    exists 0. change (2 ^ 0) with 1 in *. rewrite Z.div_1_r in *. rewrite Hr. do 2 (split; [lia|]). split; [reflexivity|].
    do 2 (split; [lia|]). left; auto.
Qed.

(** The second shift loses nothing: after rounding up to a power of two the last bit is zero. *)
Lemma shr_again m e : 0 <= m <= 2 ^ 53 -> -1074 <= e ->
  let '(r, e') := shr_fexp fprec femax m e loc_Exact in e <= e' /\ 0 <= shr_m r /\ shr_m r * 2 ^ (e' - e) = m.
Proof.
  intros Hm He. unfold shr_fexp. rewrite fexp64.
  pose proof (Zdigits2_le m 54 ltac:(lia) ltac:(lia) ltac:(lia)) as H54.
  set (n := Z.max (Zdigits2 m + e - 53) (-1074) - e).
  unfold shr. destruct n as [|p|p] eqn:En; cbn [shr_record_of_loc shr_m].
  - split; [lia|]. rewrite Z.sub_diag; lia.
  - assert (Hn : Z.max (Zdigits2 m + e - 53) (-1074) - e = Zpos p) by (subst n; exact En).
    assert (p = 1%positive) by lia. subst p. split; [lia|].
    assert (D : Zdigits2 m = 54) by lia.
    assert (m = 2 ^ 53).
    { destruct (Z.eq_dec m (2 ^ 53)); [auto|].
      pose proof (Zdigits2_le m 53 ltac:(lia) ltac:(lia) ltac:(lia)). lia. }
    subst m. replace (e + 1 - e) with 1 by lia. split; [|reflexivity]. vm_compute. discriminate.
  - split; [lia|]. rewrite Z.sub_diag; lia.
Qed.

(** The result of a rounding that does not overflow lies in a small bracket around the number. *)
Lemma round_bracket sx m e l : 0 <= m ->
  (l = loc_Exact \/ e <= fexp fprec femax (Zdigits2 m + e)) ->
  is_fin (binary_round_aux fprec femax sx m e l) = true ->
  exists L H, small_bracket L H /\
    (L <= qsize (binary_round_aux fprec femax sx m e l) <= H)%Q /\
    (L <= inject_Z m * P2q e)%Q /\
    ((if l then inject_Z m else inject_Z (m + 1)) * P2q e <= H)%Q.
Proof.
  intros Hm Hpre Hf. pose proof (shr_bracket m e l Hm Hpre) as B. unfold binary_round_aux in *.
  destruct (shr_fexp fprec femax m e l) as [r e1] eqn:E1. destruct B as (k & Hk & He1 & Hr & Hge & Hlt & Hc).
  set (w := round_nearest_even (shr_m r) (loc_of_shr_record r)) in *.
  assert (Hw : w = shr_m r \/ w = shr_m r + 1) by apply round_cases.
  assert (Hq : 0 <= m / 2 ^ k) by (apply Z.div_pos; lia).
  pose proof (shr_again w e1 ltac:(lia) Hge) as S2.
  destruct (shr_fexp fprec femax w e1 loc_Exact) as [r2 e2]. destruct S2 as (He2 & Hr2 & Ew).
  set (R := match shr_m r2 with 0 => _ | _ => _ end) in *.
  assert (EV : (qsize R == inject_Z w * P2q e1)%Q).
  { assert (V : (inject_Z (shr_m r2) * P2q e2 == inject_Z w * P2q e1)%Q).
    { rewrite <- Ew, inject_Z_mult. pose proof (p2_Z (e2 - e1) ltac:(lia)) as X. rewrite X.
      replace e2 with ((e2 - e1) + e1) at 1 by lia. rewrite p2_add. ring. }
    subst R. destruct (shr_m r2) as [|q|q]; [|destruct (Zle_bool e2 (femax - fprec)); [|discriminate Hf]|lia].
    - cbn [qsize]. rewrite <- V. unfold inject_Z; ring.
    - exact V. }
  pose proof (p2_pos e1) as P1. pose proof (p2_pos e) as P0.
  assert (PE : (P2q e1 == inject_Z (2 ^ k) * P2q e)%Q).
  { pose proof (p2_Z k Hk) as X. rewrite X, He1, Z.add_comm. apply p2_add. }
  pose proof (Z.div_mod m (2 ^ k) ltac:(lia)) as DM.
  pose proof (Z.mod_pos_bound m (2 ^ k) ltac:(lia)) as MB.
  assert (Lo : (inject_Z (m / 2 ^ k) * P2q e1 <= inject_Z m * P2q e)%Q).
  { rewrite PE, Qmult_assoc, <- inject_Z_mult. apply Qmult_le_compat_r; [|lra]. rewrite <- Zle_Qle. lia. }
  assert (Hi : (inject_Z (m + 1) * P2q e <= inject_Z (m / 2 ^ k + 1) * P2q e1)%Q).
  { rewrite PE, Qmult_assoc, <- inject_Z_mult. apply Qmult_le_compat_r; [|lra]. rewrite <- Zle_Qle. lia. }
  assert (Hi' : ((if l then inject_Z m else inject_Z (m + 1)) * P2q e <= inject_Z (m + 1) * P2q e)%Q).
  { apply Qmult_le_compat_r; [|lra]. destruct l; rewrite <- Zle_Qle; lia. }
  assert (Hm1 : (inject_Z (m / 2 ^ k + 1) == inject_Z (m / 2 ^ k) + 1)%Q) by (rewrite inject_Z_plus; reflexivity).
  assert (Z0 : (0 <= inject_Z (m / 2 ^ k))%Q) by (change 0%Q with (inject_Z 0); rewrite <- Zle_Qle; exact Hq).
  destruct Hc as [(Cl & Ck & Cr)|Hc].
  - assert (Ww : w = m).
    { subst w. rewrite Cr, Hr, Ck. cbn [round_nearest_even]. apply Z.div_1_r. }
    exists (inject_Z m * P2q e)%Q, (inject_Z m * P2q e)%Q.
    assert (K : (0 <= inject_Z m * P2q e)%Q).
    { apply Qmult_le_0_compat; [|lra]. change 0%Q with (inject_Z 0). rewrite <- Zle_Qle; exact Hm. }
    split; [split; [exact K|]|].
    + left. assert (0 < eps52)%Q by apply p2_pos. nra.
    + rewrite EV, Ww. rewrite PE, Ck, Cl. change (inject_Z (2 ^ 0)) with 1%Q.
      repeat split; apply Qle_lteq; right; ring.
  - exists (inject_Z (m / 2 ^ k) * P2q e1)%Q, (inject_Z (m / 2 ^ k + 1) * P2q e1)%Q.
    split; [split|].
    + apply Qmult_le_0_compat; [exact Z0|lra].
    + destruct Hc as [Hc|Hc].
      * left. rewrite Hm1. rewrite Zle_Qle in Hc. pose proof (p2_Z 52 ltac:(lia)) as X.
        assert (X2 : (eps52 * P2q 52 == 1)%Q) by (unfold eps52; rewrite <- p2_add; reflexivity).
        assert (Y : (1 <= eps52 * inject_Z (m / 2 ^ k))%Q).
        { rewrite X in Hc. assert (0 < eps52)%Q by apply p2_pos. rewrite <- X2. nra. }
        nra.
      * right. rewrite Hm1, Hc. lra.
    + rewrite EV. rewrite Hr in Hw. split; [|split; [exact Lo|eapply Qle_trans; [exact Hi'|exact Hi]]].
      split; (apply Qmult_le_compat_r; [|lra]); rewrite <- Zle_Qle; lia.
Qed.

(** ** The operations *)
Definition rounds_to (z v : Q) : Prop :=
  exists L H, small_bracket L H /\ (L <= z <= H)%Q /\ (L <= v <= H)%Q.

Lemma rounds_zero z v : (z == 0)%Q -> (v == 0)%Q -> rounds_to z v.
Proof.
  intros Ez Ev. exists 0%Q, 0%Q. rewrite Ez, Ev. repeat split; try lra.
Qed.

Lemma rounds_same z v : (0 <= z)%Q -> (z == v)%Q -> rounds_to z v.
Proof.
  intros H0 Ez. exists z, z. rewrite <- Ez. assert (0 < eps52)%Q by apply p2_pos.
  repeat split; try lra; left; nra.
Qed.

Lemma qsize_nonneg x : (0 <= qsize x)%Q.
Proof.
  destruct x as [s|s| |s m e]; cbn [qsize]; try lra. pose proof (p2_pos e) as P. unfold P2q in P.
  apply Qmult_le_0_compat; [|lra]. change 0%Q with (inject_Z 0). rewrite <- Zle_Qle. lia.
Qed.

Lemma mul_rounds x y : is_fin x = true -> is_fin y = true -> is_fin (fmul x y) = true ->
  rounds_to (qsize (fmul x y)) (qsize x * qsize y).
Proof.
  destruct x as [sx|sx| |sx mx ex]; try discriminate; destruct y as [sy|sy| |sy my ey]; try discriminate; intros _ _.
  1-3: intros _; apply rounds_zero; cbn [fmul SFmul qsize]; ring.
  intros Hf. unfold fmul, SFmul in *.
  destruct (round_bracket (xorb sx sy) (Zpos (mx * my)) (ex + ey) loc_Exact ltac:(lia) (or_introl eq_refl) Hf)
    as (L & H & A & B & C & D).
  exists L, H. split; [exact A|]. split; [exact B|].
  assert (E : (inject_Z (Zpos (mx * my)) * P2q (ex + ey) == qsize (S754_finite sx mx ex) * qsize (S754_finite sy my ey))%Q).
  { cbn [qsize]. fold (P2q ex) (P2q ey). rewrite p2_add, Pos2Z.inj_mul, inject_Z_mult. ring. }
  rewrite <- E. split; assumption.
Qed.

(** The quotient is computed to enough digits. *)
Lemma div_pre m1 e1 m e q r :
  let e' := Z.min (fexp fprec femax (Zdigits2 (Zpos m1) + e1 - (Zdigits2 (Zpos m) + e))) (e1 - e) in
  let m' := match e1 - e - e' with Z0 => Zpos m1 | Zpos _ => Z.shiftl (Zpos m1) (e1 - e - e') | Zneg _ => 0 end in
  Z.div_eucl m' (Zpos m) = (q, r) -> 0 <= q /\ e' <= fexp fprec femax (Zdigits2 q + e').
Proof.
  intros e' m' Eq.
  assert (Hs : 0 <= e1 - e - e') by lia.
  assert (Hm' : m' = Zpos m1 * 2 ^ (e1 - e - e')).
  { subst m'. destruct (e1 - e - e') as [|p|p] eqn:Es; [lia| |lia]. apply Z.shiftl_mul_pow2. lia. }
  assert (Hqr : m' = Zpos m * q + r /\ 0 <= r < Zpos m).
  { pose proof (Z_div_mod m' (Zpos m) ltac:(lia)) as X. rewrite Eq in X. exact X. }
  destruct Hqr as [Hqr Hr].
  assert (Hpow : 0 < 2 ^ (e1 - e - e')) by (apply Z.pow_pos_nonneg; lia).
  assert (Hq : 0 <= q) by nia. split; [exact Hq|].
  assert (D : Zdigits2 (Zpos m1) + e1 - (Zdigits2 (Zpos m) + e) <= Zdigits2 q + e').
    { set (d1 := Zdigits2 (Zpos m1)). set (d2 := Zdigits2 (Zpos m)).
      assert (0 <= Zdigits2 q) by (destruct q; cbn [Zdigits2]; lia).
      destruct (Z_le_gt_dec (d1 + (e1 - e - e') - d2) 0) as [G|G]; [lia|].
      assert (Q1 : 2 ^ (d1 + (e1 - e - e') - d2 - 1) <= q).
      { assert (2 ^ (d1 - 1) <= Zpos m1) by apply digits2_low.
        assert (Zpos m < 2 ^ d2) by apply digits2_high.
        assert (0 < d1) by (subst d1; cbn; lia). assert (0 < d2) by (subst d2; cbn; lia).
        assert (K : 2 ^ (d1 + (e1 - e - e') - d2 - 1) * Zpos m < m' + 1).
        { rewrite Hm'. apply Z.lt_le_trans with (2 ^ (d1 + (e1 - e - e') - d2 - 1) * 2 ^ d2).
          - apply Z.mul_lt_mono_pos_l; [apply Z.pow_pos_nonneg; lia|assumption].
          - rewrite <- Z.pow_add_r by lia. replace (d1 + (e1 - e - e') - d2 - 1 + d2) with (d1 - 1 + (e1 - e - e')) by lia.
            rewrite Z.pow_add_r by lia. nia. }
        assert (2 ^ (d1 + (e1 - e - e') - d2 - 1) < q + 1); [|lia].
        apply (Z.mul_lt_mono_pos_r (Zpos m)); lia. }
      assert (0 < q) by (assert (0 < 2 ^ (d1 + (e1 - e - e') - d2 - 1)) by (apply Z.pow_pos_nonneg; lia); lia).
      assert (2 ^ (d1 + (e1 - e - e') - d2 - 1) < 2 ^ (Zdigits2 q)).
      { eapply Z.le_lt_trans; [exact Q1|]. destruct q; [lia|apply digits2_high|lia]. }
      apply Z.pow_lt_mono_r_iff in H1; lia. }
    rewrite fexp64 in *. subst e'. rewrite fexp64 in *. lia.
Qed.

Lemma div_rounds x s m e : is_fin x = true -> is_fin (fdiv x (S754_finite s m e)) = true ->
  rounds_to (qsize (fdiv x (S754_finite s m e))) (qsize x / qsize (S754_finite s m e)).
Proof.
  destruct x as [sx|sx| |sx m1 e1]; try discriminate; intros _ Hf.
  { apply rounds_zero; cbn [fdiv SFdiv qsize]; [ring|]. unfold Qdiv; ring. }
  unfold fdiv, SFdiv in *. unfold SFdiv_core_binary in *.
  set (e' := Z.min (fexp fprec femax (Zdigits2 (Zpos m1) + e1 - (Zdigits2 (Zpos m) + e))) (e1 - e)) in *.
  set (m' := match e1 - e - e' with Z0 => Zpos m1 | Zpos _ => Z.shiftl (Zpos m1) (e1 - e - e') | Zneg _ => 0 end) in *.
  assert (Hs : 0 <= e1 - e - e') by lia.
  assert (Hm' : m' = Zpos m1 * 2 ^ (e1 - e - e')).
  { subst m'. destruct (e1 - e - e') as [|p|p] eqn:Es; [lia| |lia]. apply Z.shiftl_mul_pow2. lia. }
  destruct (Z.div_eucl m' (Zpos m)) as [q r] eqn:Eq.
  assert (Hqr : m' = Zpos m * q + r /\ 0 <= r < Zpos m).
  { pose proof (Z_div_mod m' (Zpos m) ltac:(lia)) as X. rewrite Eq in X. exact X. }
  destruct Hqr as [Hqr Hr].
  assert (Hpow : 0 < 2 ^ (e1 - e - e')) by (apply Z.pow_pos_nonneg; lia).
  assert (Hq : 0 <= q) by nia.
  set (l := new_location (Zpos m) r) in *.
  assert (Hl : l = loc_Exact -> r = 0).
  { subst l. unfold new_location, new_location_even, new_location_odd.
    destruct (Z.even (Zpos m)); destruct (Zeq_bool r 0) eqn:E0; try discriminate; intros _; apply Zeq_bool_eq; exact E0. }
  assert (Hpre : l = loc_Exact \/ e' <= fexp fprec femax (Zdigits2 q + e')).
  { right. apply (div_pre m1 e1 m e q r Eq). }
  destruct (round_bracket (xorb sx s) q e' l Hq Hpre Hf) as (L & H & A & B & C & D).
  exists L, H. split; [exact A|]. split; [exact B|].
  (* the exact quotient times m *)
  pose proof (p2_pos e) as Pe. pose proof (p2_pos e') as Pe'.
  assert (Mp : (0 < inject_Z (Zpos m))%Q) by (change 0%Q with (inject_Z 0); rewrite <- Zlt_Qlt; lia).
  assert (V : (qsize (S754_finite sx m1 e1) / qsize (S754_finite s m e) == (inject_Z m' * P2q e') / inject_Z (Zpos m))%Q).
  { cbn [qsize]. fold (P2q e) (P2q e1). rewrite Hm', inject_Z_mult. pose proof (p2_Z (e1 - e - e') Hs) as X. rewrite X.
    assert (X2 : (P2q e1 == P2q (e1 - e - e') * P2q e' * P2q e)%Q).
    { rewrite <- !p2_add. replace (e1 - e - e' + e' + e) with e1 by lia. reflexivity. }
    rewrite X2. field. split; lra. }
  rewrite V. split.
  - apply Qle_trans with (1 := C). apply Qle_shift_div_l; [exact Mp|].
    assert (inject_Z q * inject_Z (Zpos m) <= inject_Z m')%Q by (rewrite <- inject_Z_mult, <- Zle_Qle; lia). nra.
  - apply Qle_trans with (2 := D). apply Qle_shift_div_r; [exact Mp|].
    destruct l as [|c] eqn:El.
    + rewrite (Hl eq_refl) in *. assert (inject_Z m' <= inject_Z q * inject_Z (Zpos m))%Q by (rewrite <- inject_Z_mult, <- Zle_Qle; lia). nra.
    + assert (inject_Z m' <= inject_Z (q + 1) * inject_Z (Zpos m))%Q by (rewrite <- inject_Z_mult, <- Zle_Qle; lia). nra.
Qed.

(** A number that is not negative. *)
Definition nonneg (x : f64) : bool := match x with S754_finite true _ _ => false | _ => true end.

Lemma add_rounds x y : is_fin x = true -> is_fin y = true -> nonneg x = true -> nonneg y = true ->
  is_fin (fadd x y) = true -> rounds_to (qsize (fadd x y)) (qsize x + qsize y).
Proof.
  destruct x as [sx|sx| |sx mx ex]; try discriminate; destruct y as [sy|sy| |sy my ey]; try discriminate; intros _ _ Nx Ny.
  - intros _. apply rounds_zero; [|cbn [qsize]; ring]. unfold fadd, SFadd. destruct (Bool.eqb sx sy); reflexivity.
  - intros _. apply rounds_same; [apply qsize_nonneg|]. unfold fadd, SFadd. cbn [qsize]. ring.
  - intros _. apply rounds_same; [apply qsize_nonneg|]. unfold fadd, SFadd. cbn [qsize]. ring.
  - destruct sx, sy; try discriminate. intros Hf. unfold fadd, SFadd in *. cbn [cond_Zopp] in *.
    set (ez := Z.min ex ey) in *.
    pose proof (shl_align_val mx ex ez) as A. pose proof (shl_align_val my ey ez) as B.
    destruct (shl_align mx ex ez) as [a xa]. destruct (shl_align my ey ez) as [b xb]. cbn [fst] in *.
    destruct A as (_ & Ax & Av). destruct B as (_ & Bx & Bv).
    assert (Exa : xa = ez) by lia. assert (Exb : xb = ez) by lia. rewrite Exa in Av. rewrite Exb in Bv. clear Ax Bx.
    assert (V : (inject_Z (Zpos (a + b)) * P2q ez == qsize (S754_finite false mx ex) + qsize (S754_finite false my ey))%Q).
    { cbn [qsize]. fold (P2q ex) (P2q ey). rewrite Pos2Z.inj_add, Av, Bv, inject_Z_plus, !inject_Z_mult.
      pose proof (p2_Z (ex - ez) ltac:(lia)) as X. pose proof (p2_Z (ey - ez) ltac:(lia)) as Y. rewrite X, Y.
      assert (X2 : (P2q ex == P2q (ex - ez) * P2q ez)%Q) by (rewrite <- p2_add; replace (ex - ez + ez) with ex by lia; reflexivity).
      assert (Y2 : (P2q ey == P2q (ey - ez) * P2q ez)%Q) by (rewrite <- p2_add; replace (ey - ez + ez) with ey by lia; reflexivity).
      rewrite X2, Y2. ring. }
    replace (Zpos a + Zpos b) with (Zpos (a + b)) in * by lia. cbn [binary_normalize] in *. unfold binary_round in *.
    pose proof (shl_align_val (a + b) ez (fexp fprec femax (Zpos (digits2_pos (a + b)) + ez))) as S.
    destruct (shl_align (a + b) ez _) as [mz e2]. destruct S as (S1 & S2 & S3).
    destruct (round_bracket false (Zpos mz) e2 loc_Exact ltac:(lia) (or_introl eq_refl) Hf) as (L & H & A & B & C & D).
    exists L, H. split; [exact A|]. split; [exact B|].
    assert (W : (inject_Z (Zpos mz) * P2q e2 == inject_Z (Zpos (a + b)) * P2q ez)%Q).
    { rewrite S3, inject_Z_mult. pose proof (p2_Z (ez - e2) ltac:(lia)) as X. rewrite X, <- Qmult_assoc, <- p2_add.
      replace (ez - e2 + e2) with ez by lia. reflexivity. }
    rewrite <- V, <- W. split; assumption.
Qed.

Lemma sqrt_rounds x : is_fin x = true -> nonneg x = true -> is_fin (fsqrt x) = true ->
  exists L H, small_bracket L H /\ (L <= qsize (fsqrt x) <= H)%Q /\ (L * L <= qsize x <= H * H)%Q.
Proof.
  destruct x as [s|s| |s m e]; try discriminate; intros _ Nx.
  { intros _. exists 0%Q, 0%Q. cbn. repeat split; try lra. }
  destruct s; [discriminate|]. intros Hf. unfold fsqrt, SFsqrt in *. unfold SFsqrt_core_binary in *.
  set (d := Zdigits2 (Zpos m)) in *.
  set (e' := Z.min (fexp fprec femax (Z.div2 (d + e + 1))) (Z.div2 e)) in *.
  assert (He' : 2 * e' <= e) by (assert (e' <= Z.div2 e) by lia; rewrite Z.div2_div in *; pose proof (Z.div_mod e 2); pose proof (Z.mod_pos_bound e 2); lia).
  set (m' := match e - 2 * e' with Z0 => Zpos m | Zpos _ => Z.shiftl (Zpos m) (e - 2 * e') | Zneg _ => 0 end) in *.
  assert (Hm' : m' = Zpos m * 2 ^ (e - 2 * e')).
  { subst m'. destruct (e - 2 * e') as [|p|p] eqn:Es; [lia| |lia]. apply Z.shiftl_mul_pow2. lia. }
  assert (Hpow : 0 < 2 ^ (e - 2 * e')) by (apply Z.pow_pos_nonneg; lia).
  assert (Hm0 : 0 < m') by lia.
  destruct (Z.sqrtrem m') as [q r] eqn:Eq.
  pose proof (Z.sqrtrem_spec m' ltac:(lia)) as Sp. rewrite Eq in Sp. destruct Sp as [Sp Sr].
  assert (Hq : 0 <= q) by lia.
  set (l := if Zeq_bool r 0 then loc_Exact else loc_Inexact (if Zle_bool r q then Lt else Gt)) in *.
  assert (Hl : l = loc_Exact -> r = 0).
  { subst l. destruct (Zeq_bool r 0) eqn:E0; [|discriminate]. intros _; apply Zeq_bool_eq; exact E0. }
  assert (Hpre : l = loc_Exact \/ e' <= fexp fprec femax (Zdigits2 q + e')).
  { right. assert (D : Z.div2 (d + e + 1) <= Zdigits2 q + e').
    { assert (0 < q) by nia.
      assert (Dq : q + 1 <= 2 ^ Zdigits2 q) by (destruct q as [|qq|qq]; [lia|pose proof (digits2_high qq); cbn [Zdigits2]; lia|lia]).
      assert (0 < Zdigits2 q) by (destruct q; cbn [Zdigits2]; lia).
      assert (Dm : 2 ^ (d - 1) <= Zpos m) by apply digits2_low.
      assert (0 < d) by (subst d; cbn; lia).
      assert (K : 2 ^ (d - 1 + (e - 2 * e')) < 2 ^ (2 * Zdigits2 q)).
      { rewrite Z.pow_add_r by lia. replace (2 * Zdigits2 q) with (Zdigits2 q + Zdigits2 q) by lia. rewrite Z.pow_add_r by lia.
        apply Z.le_lt_trans with m'; [rewrite Hm'; nia|]. nia. }
      apply Z.pow_lt_mono_r_iff in K; [|lia|lia].
      rewrite Z.div2_div. assert ((d + e + 1) / 2 < Zdigits2 q + e' + 1); [|lia]. apply Z.div_lt_upper_bound; lia. }
    rewrite fexp64 in *. subst e'. rewrite fexp64 in *. lia. }
  destruct (round_bracket false q e' l Hq Hpre Hf) as (L & H & A & B & C & D).
  exists L, H. split; [exact A|]. split; [exact B|].
  pose proof (p2_pos e') as Pe'. destruct A as [A0 _].
  assert (Zq : (0 <= inject_Z q)%Q) by (change 0%Q with (inject_Z 0); rewrite <- Zle_Qle; exact Hq).
  assert (V : (qsize (S754_finite false m e) == inject_Z m' * (P2q e' * P2q e'))%Q).
  { cbn [qsize]. fold (P2q e). rewrite Hm', inject_Z_mult. pose proof (p2_Z (e - 2 * e') ltac:(lia)) as X.
    rewrite X, <- p2_add, <- Qmult_assoc, <- p2_add.
    replace (e - 2 * e' + (e' + e')) with e by lia. reflexivity. }
  assert (PP : (0 < P2q e' * P2q e')%Q) by nra.
  rewrite V. split.
  - apply Qle_trans with ((inject_Z q * P2q e') * (inject_Z q * P2q e'))%Q; [nra|].
    assert (inject_Z q * inject_Z q <= inject_Z m')%Q by (rewrite <- inject_Z_mult, <- Zle_Qle; lia). nra.
  - assert (Hmul : forall a b, (0 <= a)%Q -> (a * P2q e' <= H)%Q -> (b <= a * a)%Q -> (b * (P2q e' * P2q e') <= H * H)%Q).
    { intros a b Ha HaH Hb. apply Qle_trans with ((a * P2q e') * (a * P2q e'))%Q; [nra|].
      assert (0 <= a * P2q e')%Q by nra. nra. }
    destruct l as [|c] eqn:El.
    + apply (Hmul (inject_Z q)); [exact Zq|exact D|]. rewrite <- inject_Z_mult, <- Zle_Qle. rewrite (Hl eq_refl) in *. lia.
    + apply (Hmul (inject_Z (q + 1))); [|exact D|].
      * change 0%Q with (inject_Z 0); rewrite <- Zle_Qle; lia.
      * rewrite <- inject_Z_mult, <- Zle_Qle. nia.
Qed.
