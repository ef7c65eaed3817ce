(** Accuracy of the synchronized distance: signed errors of the float operations, validity of
    their results, and the whole formula. *)
From Coq Require Import QArith Qabs Qpower Lqa.
From Verif Require Import M_Base M_Float M_Geom M_Offset P_Base P_Float P_Tame P_FSub Spec_Dist Spec_Plane P_Plane P_Round P_Dist.
Open Scope Z_scope.

(** ** Results are floats in the standard form *)
Lemma round_valid sx m e l : 0 <= m -> e <= fexp fprec femax (Zdigits2 m + e) ->
  valid_binary fprec femax (binary_round_aux fprec femax sx m e l) = true.
Proof.
  intros Hm Hpre. unfold binary_round_aux, shr_fexp at 1. rewrite fexp64 in *.
  assert (Hr : shr_m (shr_record_of_loc m l) = m) by (destruct l as [|[]]; reflexivity).
  set (k := Z.max (Zdigits2 m + e - 53) (-1074) - e) in *.
  assert (Ek : k = Z.max (Zdigits2 m + e - 53) (-1074) - e) by reflexivity. clearbody k.
  assert (Hk : 0 <= k) by lia.
  assert (S1 : exists r, shr (shr_record_of_loc m l) e k = (r, e + k) /\ shr_m r = m / 2 ^ k).
  { unfold shr. destruct k as [|p|p]; [|exists (iter_pos shr_1 p (shr_record_of_loc m l))|lia].
    - exists (shr_record_of_loc m l). rewrite Hr. split; [f_equal; lia|]. change (2 ^ 0) with 1. symmetry; apply Z.div_1_r.
    - split; [reflexivity|]. rewrite iter_shr_div by (rewrite Hr; exact Hm). rewrite Hr. reflexivity. }
  destruct S1 as (r & -> & Er).
  set (w := round_nearest_even (shr_m r) (loc_of_shr_record r)).
  assert (Hw : w = shr_m r \/ w = shr_m r + 1) by apply round_cases.
  assert (Hh : m < 2 ^ Zdigits2 m) by (destruct m as [|q|q]; [reflexivity|apply digits2_high|lia]).
  assert (Hd0 : 0 <= Zdigits2 m) by (destruct m; cbn [Zdigits2]; lia).
  assert (Hq : 0 <= m / 2 ^ k < 2 ^ 53).
  { split; [apply Z.div_pos; lia|]. apply Z.div_lt_upper_bound; [lia|]. rewrite <- Z.pow_add_r by lia.
    eapply Z.lt_le_trans; [exact Hh|]. apply Z.pow_le_mono_r; lia. }
  assert (Hc : 2 ^ 52 <= m / 2 ^ k \/ e + k = -1074).
  { destruct (Z.eq_dec (e + k) (-1074)); [right; lia|left].
    assert (H53 : Zdigits2 m = 53 + k) by lia.
    assert (0 < m) by (destruct (Z.eq_dec m 0) as [-> |]; [change (Zdigits2 0) with 0 in H53|]; lia). pose proof (Zdigits2_low m H) as Hd.
    apply Z.div_le_lower_bound; [lia|]. rewrite <- Z.pow_add_r by lia. replace (k + 52) with (Zdigits2 m - 1) by lia. exact Hd. }
  assert (He : -1074 <= e + k) by lia. rewrite Er in Hw. set (mk := m / 2 ^ k) in *. clearbody mk w.
  unfold shr_fexp. rewrite fexp64. set (e1 := e + k) in *.
  (* the second shift *)
  destruct (Z.eq_dec w (2 ^ 53)) as [Ew|Ew].
  - rewrite Ew. change (Zdigits2 (2 ^ 53)) with 54. replace (Z.max (54 + e1 - 53) (-1074) - e1) with 1 by lia.
    cbn [shr]. change (shr_m (iter_pos shr_1 1 (shr_record_of_loc (2 ^ 53) loc_Exact))) with (2 ^ 52).
    change (2 ^ 52) with (Zpos 4503599627370496). destruct (Zle_bool (e1 + 1) (femax - fprec)) eqn:El; [|reflexivity].
    cbn [valid_binary]. unfold bounded, canonical_mantissa. rewrite El, andb_true_r. rewrite fexp64.
    apply Zeq_is_eq_bool. change (Z.pos (digits2_pos 4503599627370496)) with 53. lia.
  - assert (Hw2 : 0 <= w < 2 ^ 53) by (clear - Hw Hq Ew; change (2 ^ 53) with 9007199254740992 in *; lia).
    pose proof (Zdigits2_le w 53 ltac:(lia) ltac:(lia) ltac:(lia)) as D53.
    assert (N0 : Z.max (Zdigits2 w + e1 - 53) (-1074) - e1 = 0).
    { destruct Hc as [Hc|Hc]; [|lia]. assert (2 ^ 52 < 2 ^ Zdigits2 w).
      { assert (w < 2 ^ Zdigits2 w) by (destruct w as [|q|q]; [reflexivity|apply digits2_high|lia]). lia. }
      assert (0 <= Zdigits2 w) by (destruct w; cbn [Zdigits2]; lia).
      apply Z.pow_lt_mono_r_iff in H; lia. }
    rewrite N0. cbn [shr shr_record_of_loc shr_m]. destruct w as [|q|q]; [reflexivity| |lia].
    destruct (Zle_bool e1 (femax - fprec)) eqn:El; [|reflexivity].
    cbn [valid_binary]. unfold bounded, canonical_mantissa. rewrite El, andb_true_r. rewrite fexp64.
    apply Zeq_is_eq_bool. cbn [Zdigits2] in N0. lia.
Qed.

Lemma digits_shift p d q : Zpos q = Zpos p * 2 ^ d -> 0 <= d -> Zpos (digits2_pos q) = Zpos (digits2_pos p) + d.
Proof.
  intros E Hd. pose proof (digits_bound p) as A. pose proof (digits_bound q) as B.
  set (x := Zpos (digits2_pos p)) in *. set (y := Zpos (digits2_pos q)) in *.
  assert (0 < x) by (subst x; lia). assert (0 < y) by (subst y; lia).
  assert (P : 0 < 2 ^ d) by (apply Z.pow_pos_nonneg; lia).
  assert (K1 : 2 ^ (x - 1 + d) < 2 ^ y) by (rewrite Z.pow_add_r by lia; nia).
  assert (K2 : 2 ^ (y - 1) < 2 ^ (x + d)) by (rewrite (Z.pow_add_r 2 x d) by lia; nia).
  apply Z.pow_lt_mono_r_iff in K1; [|lia|lia]. apply Z.pow_lt_mono_r_iff in K2; lia.
Qed.

Lemma normalize_valid m e z : valid_binary fprec femax (binary_normalize fprec femax m e z) = true.
Proof.
  assert (G : forall s p, valid_binary fprec femax (binary_round fprec femax s p e) = true).
  { intros s p. unfold binary_round. pose proof (shl_align_val p e (fexp fprec femax (Zpos (digits2_pos p) + e))) as S.
    destruct (shl_align p e _) as [mz e2]. destruct S as (S1 & S2 & S3).
    apply round_valid; [lia|]. cbn [Zdigits2]. rewrite (digits_shift p (e - e2) mz S3 ltac:(lia)).
    replace (Zpos (digits2_pos p) + (e - e2) + e2) with (Zpos (digits2_pos p) + e) by lia. lia. }
  destruct m; cbn [binary_normalize]; auto.
Qed.

Lemma add_valid x y : valid_binary fprec femax x = true -> valid_binary fprec femax y = true ->
  valid_binary fprec femax (fadd x y) = true.
Proof.
  intros Hx Hy. unfold fadd, SFadd. destruct x as [s|s| |s m e]; destruct y as [s'|s'| |s' m' e']; auto; try (destruct (Bool.eqb s s'); auto).
  all: apply normalize_valid.
Qed.

Lemma sub_valid x y : valid_binary fprec femax x = true -> valid_binary fprec femax y = true ->
  valid_binary fprec femax (fsub x y) = true.
Proof.
  intros Hx Hy. unfold fsub, SFsub. destruct x as [s|s| |s m e]; destruct y as [s'|s'| |s' m' e']; auto; try (destruct (Bool.eqb s (negb s')); auto).
  all: apply normalize_valid.
Qed.

Lemma mul_valid x y : valid_binary fprec femax x = true -> valid_binary fprec femax y = true ->
  valid_binary fprec femax (fmul x y) = true.
Proof.
  intros Hx Hy. unfold fmul, SFmul. destruct x as [s|s| |s m e]; destruct y as [s'|s'| |s' m' e']; auto.
  apply round_valid; [lia|]. cbn [Zdigits2].
  apply valid_fin in Hx. apply valid_fin in Hy. rewrite fexp64.
  pose proof (digits_bound m) as A. pose proof (digits_bound m') as B. pose proof (digits_bound (m * m')) as C.
  set (x := Zpos (digits2_pos m)) in *. set (y := Zpos (digits2_pos m')) in *. set (z := Zpos (digits2_pos (m * m'))) in *.
  assert (K : 2 ^ (x - 1 + (y - 1)) < 2 ^ z).
  { rewrite Z.pow_add_r by lia. rewrite Pos2Z.inj_mul in C. nia. }
  apply Z.pow_lt_mono_r_iff in K; lia.
Qed.

(** ** Signed errors *)
Definition close (r a z v : Q) : Prop := (Qabs (z - v) <= r * Qabs v + a)%Q.

Definition signed (s : bool) (x : Q) : Q := if s then (- x)%Q else x.

Lemma qval_round sx m e l : qval (binary_round_aux fprec femax sx m e l) = signed sx (qsize (binary_round_aux fprec femax sx m e l))
  \/ (qsize (binary_round_aux fprec femax sx m e l) == 0)%Q.
Proof.
  unfold binary_round_aux. destruct (shr_fexp fprec femax m e l) as [r e1].
  destruct (shr_fexp fprec femax _ e1 loc_Exact) as [r2 e2]. destruct (shr_m r2); [right; reflexivity| |right; reflexivity].
  destruct (Zle_bool e2 (femax - fprec)); [|right; reflexivity]. left. destruct sx; reflexivity.
Qed.

Lemma rounds_close s z v x : (0 <= v)%Q -> rounds_to z v -> (x == signed s z)%Q -> close eps52 tiny x (signed s v).
Proof.
  intros V0 (L & H & [L0 Hc] & [Z1 Z2] & [V1 V2]) Ex. unfold close. rewrite Ex.
  pose proof tiny_pos. pose proof eps_pos.
  assert (E : (Qabs (signed s z - signed s v) == Qabs (z - v))%Q).
  { destruct s; cbn [signed]; [|reflexivity]. rewrite <- (Qabs_opp (z - v)). apply Qabs_wd. ring. }
  assert (E2 : (Qabs (signed s v) == v)%Q).
  { destruct s; cbn [signed]; [rewrite Qabs_opp|]; apply Qabs_pos; exact V0. }
  rewrite E, E2. fold tiny in Hc. apply Qabs_Qle_condition. destruct Hc; split; nra.
Qed.

Lemma round_close sx m e l v : 0 <= m ->
  (l = loc_Exact \/ e <= fexp fprec femax (Zdigits2 m + e)) ->
  is_fin (binary_round_aux fprec femax sx m e l) = true -> (0 <= v)%Q ->
  rounds_to (qsize (binary_round_aux fprec femax sx m e l)) v ->
  close eps52 tiny (qval (binary_round_aux fprec femax sx m e l)) (signed sx v).
Proof.
  intros Hm Hp Hf Hv R. apply (rounds_close sx (qsize (binary_round_aux fprec femax sx m e l)) v); auto.
  destruct (qval_round sx m e l) as [E|E]; [rewrite E; reflexivity|].
  assert (Q0 : forall x, (qsize x == 0)%Q -> (qval x == 0)%Q) by (intros [s|s| |[] q t] X; cbn [qval] in *; rewrite ?X; reflexivity).
  rewrite (Q0 _ E). destruct sx; cbn [signed]; rewrite E; reflexivity.
Qed.

Lemma close_same z v : (z == v)%Q -> close eps52 tiny z v.
Proof.
  intros E. unfold close. rewrite E. setoid_replace (v - v)%Q with 0%Q by ring. change (Qabs 0) with 0%Q.
  pose proof tiny_pos. pose proof eps_pos. pose proof (Qabs_nonneg v). nra.
Qed.

Lemma normalize_close m e : is_fin (binary_normalize fprec femax m e false) = true ->
  close eps52 tiny (qval (binary_normalize fprec femax m e false)) (inject_Z m * P2q e).
Proof.
  assert (G : forall s p, is_fin (binary_round fprec femax s p e) = true ->
    close eps52 tiny (qval (binary_round fprec femax s p e)) (signed s (inject_Z (Zpos p) * P2q e))).
  { intros s p Hf. unfold binary_round in *. pose proof (shl_align_val p e (fexp fprec femax (Zpos (digits2_pos p) + e))) as S.
    destruct (shl_align p e _) as [mz e2]. destruct S as (S1 & S2 & S3).
    assert (W : (inject_Z (Zpos mz) * P2q e2 == inject_Z (Zpos p) * P2q e)%Q).
    { rewrite S3, inject_Z_mult. pose proof (p2_Z (e - e2) ltac:(lia)) as X. rewrite X, <- Qmult_assoc, <- p2_add.
      replace (e - e2 + e2) with e by lia. reflexivity. }
    assert (V0 : (0 <= inject_Z (Zpos p) * P2q e)%Q).
    { pose proof (p2_pos e). apply Qmult_le_0_compat; [|lra]. change 0%Q with (inject_Z 0). rewrite <- Zle_Qle. lia. }
    apply round_close; auto; [lia|].
    destruct (round_bracket s (Zpos mz) e2 loc_Exact ltac:(lia) (or_introl eq_refl) Hf) as (L & H & A & B & C & D).
    exists L, H. split; [exact A|]. split; [exact B|]. rewrite <- W. split; assumption. }
  destruct m as [|p|p]; cbn [binary_normalize]; intros Hf.
  - apply close_same. cbn [qval qsize]. unfold inject_Z; ring.
  - apply (G false p Hf).
  - specialize (G true p Hf). unfold close in *. cbn [signed] in G.
    assert (E : (inject_Z (Zneg p) * P2q e == - (inject_Z (Zpos p) * P2q e))%Q).
    { change (Zneg p) with (- Zpos p). rewrite inject_Z_opp. ring. }
    rewrite E. exact G.
Qed.

Lemma aligned_value s m e ez : ez <= e ->
  (inject_Z (cond_Zopp s (Zpos (fst (shl_align m e ez)))) * P2q ez == qval (S754_finite s m e))%Q.
Proof.
  intros H. pose proof (shl_align_val m e ez) as A. destruct (shl_align m e ez) as [a x]. destruct A as (_ & Ax & Av).
  cbn [fst]. replace x with ez in Av by lia.
  assert (E : (inject_Z (Zpos a) * P2q ez == qsize (S754_finite s m e))%Q).
  { cbn [qsize]. fold (P2q e). rewrite Av, inject_Z_mult. pose proof (p2_Z (e - ez) ltac:(lia)) as X.
    rewrite X, <- Qmult_assoc, <- p2_add. replace (e - ez + ez) with e by lia. reflexivity. }
  destruct s; cbn [cond_Zopp qval]; rewrite <- E; [rewrite inject_Z_opp; ring|reflexivity].
Qed.

Lemma qval_opp s m e : (qval (S754_finite (negb s) m e) == - qval (S754_finite s m e))%Q.
Proof. destruct s; cbn [qval negb qsize]; ring. Qed.

Lemma add_close x y : is_fin x = true -> is_fin y = true -> is_fin (fadd x y) = true ->
  close eps52 tiny (qval (fadd x y)) (qval x + qval y).
Proof.
  destruct x as [sx|sx| |sx mx ex]; try discriminate; destruct y as [sy|sy| |sy my ey]; try discriminate; intros _ _.
  - intros _. apply close_same. unfold fadd, SFadd. destruct (Bool.eqb sx sy); cbn; reflexivity.
  - intros _. apply close_same. unfold fadd, SFadd. cbn [qval qsize]. destruct sy; ring.
  - intros _. apply close_same. unfold fadd, SFadd. cbn [qval qsize]. destruct sx; ring.
  - intros Hf. unfold fadd, SFadd in *. pose proof (normalize_close _ _ Hf) as C. unfold close in *.
    rewrite inject_Z_plus, Qmult_plus_distr_l in C. rewrite !aligned_value in C by lia. exact C.
Qed.

Lemma sub_close x y : is_fin x = true -> is_fin y = true -> is_fin (fsub x y) = true ->
  close eps52 tiny (qval (fsub x y)) (qval x - qval y).
Proof.
  destruct x as [sx|sx| |sx mx ex]; try discriminate; destruct y as [sy|sy| |sy my ey]; try discriminate; intros _ _.
  - intros _. apply close_same. unfold fsub, SFsub. destruct (Bool.eqb sx (negb sy)); cbn; reflexivity.
  - intros _. apply close_same. unfold fsub, SFsub. rewrite qval_opp. cbn [qval qsize]. ring.
  - intros _. apply close_same. unfold fsub, SFsub. cbn [qval qsize]. destruct sx; ring.
  - intros Hf. unfold fsub, SFsub in *. pose proof (normalize_close _ _ Hf) as C. unfold close in *.
    unfold Z.sub in C. rewrite inject_Z_plus, Qmult_plus_distr_l, inject_Z_opp in C.
    pose proof (aligned_value sx mx ex (Z.min ex ey) ltac:(lia)) as X. pose proof (aligned_value sy my ey (Z.min ex ey) ltac:(lia)) as Y.
    rewrite X in C. assert (Y' : (- inject_Z (cond_Zopp sy (Z.pos (fst (shl_align my ey (Z.min ex ey))))) * P2q (Z.min ex ey) == - qval (S754_finite sy my ey))%Q) by (rewrite <- Y; ring).
    rewrite Y' in C. exact C.
Qed.

Lemma signed_xor a b s s' : (signed (xorb s s') (a * b) == signed s a * signed s' b)%Q.
Proof. destruct s, s'; cbn [signed xorb]; ring. Qed.

Lemma qval_signed s m e : qval (S754_finite s m e) = signed s (qsize (S754_finite s m e)).
Proof. destruct s; reflexivity. Qed.

Lemma mul_close x y : is_fin x = true -> is_fin y = true -> is_fin (fmul x y) = true ->
  close eps52 tiny (qval (fmul x y)) (qval x * qval y).
Proof.
  intros Fx Fy Hf. pose proof (mul_rounds x y Fx Fy Hf) as R.
  destruct x as [sx|sx| |sx mx ex]; try discriminate Fx; destruct y as [sy|sy| |sy my ey]; try discriminate Fy.
  1-3: apply close_same; cbn [fmul SFmul qval qsize]; ring.
  unfold fmul, SFmul in *. 
  assert (V0 : (0 <= qsize (S754_finite sx mx ex) * qsize (S754_finite sy my ey))%Q) by (apply Qmult_le_0_compat; apply qsize_nonneg).
  pose proof (round_close (xorb sx sy) (Zpos (mx * my)) (ex + ey) loc_Exact _ (Pos2Z.is_nonneg _) (or_introl eq_refl) Hf V0 R) as C.
  unfold close in *. rewrite signed_xor in C. rewrite (qval_signed sx), (qval_signed sy). exact C.
Qed.

Lemma div_close x s m e : is_fin x = true -> is_fin (fdiv x (S754_finite s m e)) = true ->
  close eps52 tiny (qval (fdiv x (S754_finite s m e))) (qval x / qval (S754_finite s m e)).
Proof.
  intros Fx Hf. pose proof (div_rounds x s m e Fx Hf) as R.
  destruct x as [sx|sx| |sx m1 e1]; try discriminate Fx.
  { apply close_same. cbn [fdiv SFdiv qval qsize]. unfold Qdiv; ring. }
  set (y := S754_finite s m e) in *.
  assert (Y0 : (0 < qsize y)%Q) by (apply size_zero; [reflexivity|destruct s; reflexivity]).
  assert (V0 : (0 <= qsize (S754_finite sx m1 e1) / qsize y)%Q) by (apply Qle_shift_div_l; [exact Y0|]; pose proof (qsize_nonneg (S754_finite sx m1 e1)); lra).
  assert (C : close eps52 tiny (qval (fdiv (S754_finite sx m1 e1) y)) (signed (xorb sx s) (qsize (S754_finite sx m1 e1) / qsize y))).
  { apply (rounds_close (xorb sx s) _ _ _ V0 R). unfold y, fdiv, SFdiv.
    destruct (SFdiv_core_binary fprec femax (Z.pos m1) e1 (Z.pos m) e) as [[q e'] l].
    assert (Q0 : forall x, (qsize x == 0)%Q -> (qval x == 0)%Q) by (intros [?|?| |[] ? ?] X; cbn [qval] in *; rewrite ?X; reflexivity).
    destruct (qval_round (xorb sx s) q e' l) as [E|E]; [rewrite E; reflexivity|]. rewrite (Q0 _ E).
    destruct (xorb sx s); cbn [signed]; rewrite E; reflexivity. }
  unfold close in *. assert (E : (signed (xorb sx s) (qsize (S754_finite sx m1 e1) / qsize y) == qval (S754_finite sx m1 e1) / qval y)%Q).
  { unfold y. rewrite (qval_signed sx), (qval_signed s). fold y. destruct sx, s; cbn [signed xorb]; field; lra. }
  rewrite E in C. exact C.
Qed.

(** ** Errors of compound expressions *)
Lemma abs_le x y : (Qabs x <= y)%Q <-> (- y <= x <= y)%Q.
Proof. apply Qabs_Qle_condition. Qed.

Lemma abs_mul_le x y a b : (Qabs x <= a)%Q -> (Qabs y <= b)%Q -> (Qabs (x * y) <= a * b)%Q.
Proof.
  intros A B. rewrite Qabs_Qmult. pose proof (Qabs_nonneg x). pose proof (Qabs_nonneg y).
  apply Qmult_le_compat_nonneg; split; assumption.
Qed.

Lemma abs_add_le x y a b : (Qabs x <= a)%Q -> (Qabs y <= b)%Q -> (Qabs (x + y) <= a + b)%Q.
Proof. intros A B. apply Qle_trans with (1 := Qabs_triangle x y). lra. Qed.

Lemma close_mul r1 a1 z1 v1 r2 a2 z2 v2 B1 B2 :
  (0 <= r1)%Q -> (0 <= a1)%Q -> (0 <= r2)%Q -> (0 <= a2)%Q ->
  (Qabs v1 <= B1)%Q -> (Qabs v2 <= B2)%Q ->
  close r1 a1 z1 v1 -> close r2 a2 z2 v2 ->
  close (r1 + r2 + r1 * r2) (a1 * B2 * (1 + r2) + a2 * B1 * (1 + r1) + a1 * a2) (z1 * z2) (v1 * v2).
Proof.
  intros R1 A1 R2 A2 HB1 HB2 C1 C2. unfold close in *.
  pose proof (Qabs_nonneg v1) as V1. pose proof (Qabs_nonneg v2) as V2.
  setoid_replace (z1 * z2 - v1 * v2)%Q with ((z1 - v1) * v2 + v1 * (z2 - v2) + (z1 - v1) * (z2 - v2))%Q by ring.
  apply Qle_trans with ((r1 * Qabs v1 + a1) * Qabs v2 + Qabs v1 * (r2 * Qabs v2 + a2) + (r1 * Qabs v1 + a1) * (r2 * Qabs v2 + a2))%Q.
  { apply abs_add_le; [apply abs_add_le|]; apply abs_mul_le; auto; apply Qle_refl. }
  rewrite Qabs_Qmult. set (p := Qabs v1) in *. set (q := Qabs v2) in *. clearbody p q.
  assert (X1 : (a1 * q * (1 + r2) <= a1 * B2 * (1 + r2))%Q).
  { apply Qmult_le_compat_r; [|lra]. apply Qmult_le_compat_nonneg; split; lra. }
  assert (X2 : (a2 * p * (1 + r1) <= a2 * B1 * (1 + r1))%Q).
  { apply Qmult_le_compat_r; [|lra]. apply Qmult_le_compat_nonneg; split; lra. }
  lra.
Qed.

Lemma close_trans r a r' a' z y v : (0 <= r)%Q -> (0 <= a)%Q -> close r a z y -> close r' a' y v ->
  close (r + r' + r * r') (a + a' + r * a') z v.
Proof.
  intros R A C1 C2. unfold close in *. pose proof (Qabs_nonneg v) as V. pose proof (Qabs_nonneg (y - v)) as YV.
  assert (Y : (Qabs y <= Qabs v + Qabs (y - v))%Q).
  { setoid_replace y with (v + (y - v))%Q at 1 by ring. apply Qabs_triangle. }
  setoid_replace (z - v)%Q with ((z - y) + (y - v))%Q by ring.
  apply Qle_trans with (1 := Qabs_triangle _ _).
  set (p := Qabs v) in *. set (q := Qabs (y - v)) in *. set (s := Qabs y) in *. clearbody p q s.
  assert (r * s <= r * (p + q))%Q by nra. assert (r * q <= r * (r' * p + a'))%Q by nra. lra.
Qed.

Lemma close_weaken r a r' a' z v : (r <= r')%Q -> (a <= a')%Q -> close r a z v -> close r' a' z v.
Proof.
  intros R A C. unfold close in *. apply Qle_trans with (1 := C). pose proof (Qabs_nonneg v). nra.
Qed.

Lemma close_inv r z v : (0 <= r)%Q -> (r <= (1#2))%Q -> (0 < v)%Q -> close r 0 z v ->
  (0 < z)%Q /\ close (2 * r) 0 (/ z) (/ v).
Proof.
  intros R0 R2 V C. unfold close in *. rewrite (Qabs_pos v) in C by lra. apply abs_le in C. destruct C as [C1 C2].
  assert (Z2 : (v <= 2 * z)%Q) by nra. assert (Z : (0 < z)%Q) by lra. split; [exact Z|].
  assert (IV : (0 < / v)%Q) by (apply Qinv_lt_0_compat; exact V).
  assert (IZ : (0 < / z)%Q) by (apply Qinv_lt_0_compat; exact Z).
  assert (EV : (v * / v == 1)%Q) by (field; lra). assert (EZ : (z * / z == 1)%Q) by (field; lra).
  assert (E : (/ z - / v == (v - z) * (/ z * / v))%Q) by (field; split; lra).
  rewrite E, (Qabs_pos (/ v)) by lra. 
  assert (ZV : (/ z <= 2 * / v)%Q).
  { set (iz := (/ z)%Q) in *. set (iv := (/ v)%Q) in *. clearbody iz iv.
    assert (K : (v * (iz * iv) <= 2 * z * (iz * iv))%Q) by (apply Qmult_le_compat_r; [exact Z2|nra]).
    assert (K1 : (v * (iz * iv) == iz)%Q) by (setoid_replace (v * (iz * iv))%Q with ((v * iv) * iz)%Q by ring; rewrite EV; ring).
    assert (K2 : (2 * z * (iz * iv) == 2 * iv)%Q) by (setoid_replace (2 * z * (iz * iv))%Q with (2 * (z * iz) * iv)%Q by ring; rewrite EZ; ring).
    rewrite K1, K2 in K. exact K. }
  apply Qle_trans with ((r * v) * (/ z * / v))%Q.
  - rewrite Qabs_Qmult, (Qabs_pos (/ z * / v)) by nra. apply Qmult_le_compat_r; [|nra]. apply abs_le. lra.
  - setoid_replace (r * v * (/ z * / v))%Q with (r * / z * (v * / v))%Q by ring. rewrite EV. nra.
Qed.

Lemma close_exact r a v : (0 <= r)%Q -> (0 <= a)%Q -> close r a v v.
Proof.
  intros R A. unfold close. setoid_replace (v - v)%Q with 0%Q by ring. change (Qabs 0) with 0%Q.
  pose proof (Qabs_nonneg v). nra.
Qed.

(** ** One coordinate of the synchronized difference *)
Lemma mul_mag3 D1 D2 x y : 0 <= D1 -> 0 <= D2 -> D1 + D2 <= 971 -> mag D1 x -> mag D2 y -> mag (D1 + D2 + 1) (fmul x y).
Proof.
  intros H1 H2 H X Y. destruct x as [sx|sx| |sx mx ex]; cbn [mag] in X; try tauto; destruct y as [sy|sy| |sy my ey]; cbn [mag] in Y; try tauto; try exact I.
  apply mul_mag2; cbn [mag]; auto; lia.
Qed.

Lemma mag_of_size D x : is_fin x = true -> valid_binary fprec femax x = true -> 0 <= D -> (qsize x < P2q D)%Q -> mag D x.
Proof.
  destruct x as [s|s| |s m e]; try discriminate; intros _ V HD H; [exact I|].
  cbn [qsize] in H. fold (P2q e) in H. cbn [mag].
  assert (He : e <= D).
  { destruct (Z_le_gt_dec e D) as [|G]; [auto|]. exfalso. pose proof (p2_mono D e ltac:(lia)) as M.
    assert (1 <= inject_Z (Zpos m))%Q by (change 1%Q with (inject_Z 1); rewrite <- Zle_Qle; lia).
    pose proof (p2_pos e). nra. }
  split; [exact He|]. rewrite Zlt_Qlt. pose proof (p2_Z (D - e) ltac:(lia)) as X. rewrite X.
  pose proof (p2_pos e). apply Qmult_lt_r with (P2q e); [assumption|]. rewrite <- p2_add.
  replace (D - e + e) with D by lia. exact H.
Qed.

Lemma moderate_facts x : moderate x -> f_num x = true /\ is_fin x = true /\ valid_binary fprec femax x = true /\ mag 100 x /\ (Qabs (qval x) <= P2q 100)%Q.
Proof.
  intros (F & V & S). split; [unfold f_num; rewrite F, V; reflexivity|]. split; [exact F|]. split; [exact V|].
  split; [apply mag_of_size; auto; lia|].
  assert (Qabs (qval x) == qsize x)%Q; [|rewrite H; apply Qlt_le_weak; exact S].
  pose proof (qsize_nonneg x). destruct x as [s|s| |[] m e]; cbn [qval]; try (rewrite Qabs_opp); apply Qabs_pos; assumption.
Qed.

Definition axis_err : Q := P2q (-860).

Lemma axis_close M at_ bt pt ax px dx : moderate M -> moderate at_ -> moderate bt -> moderate pt -> moderate ax -> moderate px ->
  is_fin dx = true -> valid_binary fprec femax dx = true -> (qsize dx <= 1)%Q ->
  (P2q (-100) <= qval bt - qval at_)%Q ->
  let X := fsub px (fadd ax (fmul (fmul (fdiv M (fsub bt at_)) (fsub pt at_)) dx)) in
  let C := (qval M / (qval bt - qval at_) * (qval pt - qval at_) * qval dx)%Q in
  f_num X = true /\ mag 400 X /\
  (Qabs (qval X - (qval px - (qval ax + C))) <= P2q (-47) * (Qabs (qval px) + Qabs (qval ax) + Qabs C) + axis_err)%Q.
Proof.
  intros HM Ha Hb Hp Hx Hpx Fd Vd Sd Hdt. cbv zeta.
  destruct (moderate_facts _ HM) as (NM & FM & VM & MM & BM). destruct (moderate_facts _ Ha) as (Na & Fa & Va & Ma & Ba).
  destruct (moderate_facts _ Hb) as (Nb & Fb & Vb & Mb & Bb). destruct (moderate_facts _ Hp) as (Np & Fp & Vp & Mp & Bp).
  destruct (moderate_facts _ Hx) as (Nx & Fx & Vx & Mx & Bx). destruct (moderate_facts _ Hpx) as (Npx & Fpx & Vpx & Mpx & Bpx).
  pose proof eps_pos as EP. pose proof tiny_pos as TP.
  assert (E1 : (1024 * eps52 <= 1)%Q) by (vm_compute; discriminate).
  assert (P100 : (0 < P2q (-100))%Q) by apply p2_pos.
  (* dt *)
  assert (Mdt : mag 102 (fsub bt at_)) by (apply (sub_mag 100); auto; lia).
  pose proof (sub_close bt at_ Fb Fa (mag_fin _ _ Mdt)) as Cdt. set (v := (qval bt - qval at_)%Q) in *.
  assert (Cdt2 : close (2 * eps52) 0 (qval (fsub bt at_)) v).
  { unfold close in *. apply Qle_trans with (1 := Cdt). rewrite (Qabs_pos v) by lra.
    assert (T : (tiny <= eps52 * P2q (-100))%Q) by (vm_compute; discriminate). nra. }
  destruct (close_inv (2 * eps52) (qval (fsub bt at_)) v ltac:(lra) ltac:(lra) ltac:(lra) Cdt2) as [Pdt Ci].
  assert (Vdt : valid_binary fprec femax (fsub bt at_) = true) by (apply sub_valid; auto).
  set (dt := fsub bt at_) in *.
  assert (Ldt : (P2q (-101) <= qsize dt)%Q).
  { assert (K : (P2q (-101) <= qval dt)%Q).
    { unfold close in Cdt2. rewrite (Qabs_pos v) in Cdt2 by lra. apply abs_le in Cdt2. destruct Cdt2 as [K1 K2].
      assert (X : (P2q (-100) == 2 * P2q (-101))%Q) by (vm_compute; reflexivity). assert (0 < P2q (-101))%Q by apply p2_pos. nra. }
    destruct dt as [s|s| |[] m e]; cbn [qval] in *; try exact K. pose proof (qsize_nonneg (S754_finite true m e)). lra. }
  assert (Hw : mag 204 (fdiv M dt) /\ valid_binary fprec femax (fdiv M dt) = true /\
    close eps52 tiny (qval (fdiv M dt)) (qval M / qval dt)).
  { assert (Fdt : is_fin dt = true) by (apply (mag_fin _ _ Mdt)).
    destruct dt as [s|s| |s m e]; try discriminate Fdt.
    { exfalso. revert Ldt. vm_compute. intros X; apply X; reflexivity. }
    assert (Mw : mag 204 (fdiv M (S754_finite s m e))).
    { replace 204 with (202 + 2) by lia. apply div_mag; [lia|exact FM|].
      pose proof (mag_size _ _ MM) as SM.
      assert (X : (P2q 202 * P2q (-101) == P2q 101)%Q) by (rewrite <- p2_add; reflexivity).
      assert (Y : (P2q 100 <= P2q 101)%Q) by (apply p2_mono; lia).
      assert (P2 : (0 < P2q 202)%Q) by apply p2_pos.
      assert (P2q 202 * P2q (-101) <= P2q 202 * qsize (S754_finite s m e))%Q by (apply Qmult_le_l; assumption).
      lra. }
    split; [exact Mw|]. split; [|apply div_close; [exact FM|apply (mag_fin _ _ Mw)]].
    (* quotients are in the standard form *)
    destruct M as [sM|sM| |sM mM eM]; try discriminate FM; [reflexivity|].
    unfold fdiv, SFdiv, SFdiv_core_binary.
    set (e' := Z.min (fexp fprec femax (Zdigits2 (Zpos mM) + eM - (Zdigits2 (Zpos m) + e))) (eM - e)).
    set (m' := match eM - e - e' with Z0 => Zpos mM | Zpos _ => Z.shiftl (Zpos mM) (eM - e - e') | Zneg _ => 0 end).
    destruct (Z.div_eucl m' (Zpos m)) as [q r] eqn:Eq.
    destruct (div_pre mM eM m e q r Eq) as [Q0 Q1]. apply round_valid; [exact Q0|exact Q1]. }
  destruct Hw as (Mw & Vw & Cw). set (w := fdiv M dt) in *. clearbody w.
  assert (BvM : (Qabs (qval M / v) <= P2q 200)%Q).
  { unfold Qdiv. setoid_replace (P2q 200) with (P2q 100 * P2q 100)%Q by (rewrite <- p2_add; reflexivity).
    apply abs_mul_le; [exact BM|]. assert (IV : (0 < / v)%Q) by (apply Qinv_lt_0_compat; lra). rewrite Qabs_pos by lra.
    assert (X : (P2q (-100) * P2q 100 == 1)%Q) by (rewrite <- p2_add; reflexivity).
    assert (0 < P2q 100)%Q by apply p2_pos. assert (EV : (v * / v == 1)%Q) by (field; lra). 
    set (iv := (/ v)%Q) in *. clearbody iv.
    assert (P2q (-100) * iv <= v * iv)%Q by (apply Qmult_le_compat_r; lra). rewrite EV, <- X in H0.
    rewrite (Qmult_comm (P2q (-100)) (P2q 100)), (Qmult_comm (P2q (-100)) iv) in H0. apply Qmult_le_r in H0; auto. }
  assert (Cw2 : close (6 * eps52) tiny (qval w) (qval M / v)).
  { assert (C1 : close (4 * eps52) 0 (qval M / qval dt) (qval M / v)).
    { unfold close, Qdiv in *. setoid_replace (qval M * / qval dt - qval M * / v)%Q with (qval M * (/ qval dt - / v))%Q by ring.
      rewrite !Qabs_Qmult. pose proof (Qabs_nonneg (qval M)). nra. }
    apply (close_weaken (eps52 + 4 * eps52 + eps52 * (4 * eps52)) (tiny + 0 + eps52 * 0)); [nra|lra|].
    apply close_trans with (qval M / qval dt)%Q; auto; lra. }
  (* tau *)
  assert (Mt : mag 102 (fsub pt at_)) by (apply (sub_mag 100); auto; lia).
  pose proof (sub_close pt at_ Fp Fa (mag_fin _ _ Mt)) as Ct.
  assert (Vt : valid_binary fprec femax (fsub pt at_) = true) by (apply sub_valid; auto).
  set (tau := (qval pt - qval at_)%Q) in *.
  assert (Btau : (Qabs tau <= P2q 101)%Q).
  { subst tau. unfold Qminus. setoid_replace (P2q 101) with (P2q 100 + P2q 100)%Q by (vm_compute; reflexivity).
    apply abs_add_le; [exact Bp|rewrite Qabs_opp; exact Ba]. }
  set (tf := fsub pt at_) in *. clearbody tf.
  (* w * tau *)
  assert (Mm : mag 307 (fmul w tf)) by (replace 307 with (204 + 102 + 1) by lia; apply mul_mag3; auto; lia).
  pose proof (mul_close w tf (mag_fin _ _ Mw) (mag_fin _ _ Mt) (mag_fin _ _ Mm)) as Cm.
  assert (Vm : valid_binary fprec femax (fmul w tf) = true) by (apply mul_valid; auto).
  set (mf := fmul w tf) in *. clearbody mf.
  set (A := (P2q 203 * tiny)%Q). assert (A0 : (0 < A)%Q) by (apply Qmult_lt_0_compat; [apply p2_pos|exact TP]).
  assert (TA : (tiny <= A)%Q) by (vm_compute; discriminate).
  assert (Cwt : close (8 * eps52) A (qval w * qval tf) (qval M / v * tau)).
  { apply (close_weaken (6 * eps52 + eps52 + 6 * eps52 * eps52)
      (tiny * P2q 101 * (1 + eps52) + tiny * P2q 200 * (1 + 6 * eps52) + tiny * tiny)); [nra| |].
    - vm_compute. discriminate.
    - apply close_mul; auto; lra. }
  assert (Cm2 : close (10 * eps52) (4 * A) (qval mf) (qval M / v * tau)).
  { apply (close_weaken (eps52 + 8 * eps52 + eps52 * (8 * eps52)) (tiny + A + eps52 * A)); [nra|nra|].
    apply close_trans with (qval w * qval tf)%Q; auto; lra. }
  (* times the direction *)
  assert (Md : mag 1 dx).
  { apply mag_of_size; auto; try lia. change (P2q 1) with 2%Q. lra. }
  assert (Mc : mag 309 (fmul mf dx)) by (replace 309 with (307 + 1 + 1) by lia; apply mul_mag3; auto; lia).
  pose proof (mul_close mf dx (mag_fin _ _ Mm) Fd (mag_fin _ _ Mc)) as Cc.
  assert (Vc : valid_binary fprec femax (fmul mf dx) = true) by (apply mul_valid; auto).
  set (cf := fmul mf dx) in *. clearbody cf.
  assert (Bd : (Qabs (qval dx) <= 1)%Q).
  { pose proof (qsize_nonneg dx) as S0. destruct dx as [s|s| |[] m e]; cbn [qval]; try (rewrite Qabs_opp); rewrite Qabs_pos; assumption. }
  set (C := (qval M / v * tau * qval dx)%Q) in *.
  assert (Cmd : close (10 * eps52) (4 * A) (qval mf * qval dx) C).
  { unfold close in *. subst C. setoid_replace (qval mf * qval dx - qval M / v * tau * qval dx)%Q with ((qval mf - qval M / v * tau) * qval dx)%Q by ring.
    rewrite !(Qabs_Qmult _ (qval dx)). pose proof (Qabs_nonneg (qval dx)) as D0.
    set (d := Qabs (qval dx)) in *. clearbody d. set (z := Qabs (qval M / v * tau)) in *.
    apply Qle_trans with ((10 * eps52 * z + 4 * A) * d)%Q; [apply Qmult_le_compat_r; auto|]. nra. }
  assert (Cc2 : close (12 * eps52) (8 * A) (qval cf) C).
  { apply (close_weaken (eps52 + 10 * eps52 + eps52 * (10 * eps52)) (tiny + 4 * A + eps52 * (4 * A))); [nra|nra|].
    apply close_trans with (qval mf * qval dx)%Q; auto; lra. }
  (* the sum and the difference *)
  assert (Mq : mag 311 (fadd ax cf)) by (apply (add_mag 309); [lia|apply (mag_mono 100); [lia|exact Mx]|exact Mc]).
  pose proof (add_close ax cf Fx (mag_fin _ _ Mc) (mag_fin _ _ Mq)) as Cq.
  assert (Vq : valid_binary fprec femax (fadd ax cf) = true) by (apply add_valid; auto).
  set (qf := fadd ax cf) in *. clearbody qf.
  assert (MX : mag 313 (fsub px qf)) by (apply (sub_mag 311); [lia|apply (mag_mono 100); [lia|exact Mpx]|exact Mq]).
  pose proof (sub_close px qf Fpx (mag_fin _ _ Mq) (mag_fin _ _ MX)) as CX.
  assert (VX : valid_binary fprec femax (fsub px qf) = true) by (apply sub_valid; auto).
  set (X := fsub px qf) in *. clearbody X.
  split; [unfold f_num; rewrite (mag_fin _ _ MX), VX; reflexivity|].
  split; [apply (mag_mono 313); [lia|exact MX]|].
  assert (EA : (64 * A <= axis_err)%Q) by (vm_compute; discriminate).
  assert (E47 : (P2q (-47) == 32 * eps52)%Q) by (vm_compute; reflexivity). rewrite E47.
  clearbody C A. clear - Cc2 Cq CX EP TP E1 A0 TA EA.
  unfold close in *.
  set (p := qval px) in *. set (a := qval ax) in *. set (c := qval cf) in *. set (q := qval qf) in *. set (x := qval X) in *.
  clearbody p a c q x.
  set (s := (Qabs p + Qabs a + Qabs C)%Q).
  pose proof (Qabs_nonneg p) as P0. pose proof (Qabs_nonneg a) as A_0. pose proof (Qabs_nonneg C) as C0.
  assert (S1 : (Qabs p <= s)%Q) by (subst s; lra). 
  assert (Sac : (Qabs a + Qabs C <= s)%Q) by (subst s; lra).
  assert (K1 : (Qabs (c - C) <= 12 * eps52 * s + 8 * A)%Q) by (apply Qle_trans with (1 := Cc2); nra).
  assert (K2 : (Qabs (a + c) <= 2 * s + 8 * A)%Q).
  { setoid_replace (a + c)%Q with ((a + C) + (c - C))%Q by ring. apply Qle_trans with (1 := Qabs_triangle _ _).
    pose proof (Qabs_triangle a C). assert (12 * eps52 * s <= s)%Q by nra. lra. }
  assert (K3 : (Qabs (q - (a + C)) <= 14 * eps52 * s + 17 * A)%Q).
  { setoid_replace (q - (a + C))%Q with ((q - (a + c)) + (c - C))%Q by ring. apply Qle_trans with (1 := Qabs_triangle _ _).
    assert (eps52 * Qabs (a + c) <= eps52 * (2 * s + 8 * A))%Q by nra. 
    assert (eps52 * (8 * A) <= 4 * A)%Q by nra. lra. }
  assert (K4 : (Qabs (p - q) <= 3 * s + 17 * A)%Q).
  { setoid_replace (p - q)%Q with ((p - (a + C)) + - (q - (a + C)))%Q by ring. apply Qle_trans with (1 := Qabs_triangle _ _).
    rewrite Qabs_opp. pose proof (Qabs_triangle p (- (a + C))) as T1. rewrite Qabs_opp in T1. pose proof (Qabs_triangle a C).
    assert (14 * eps52 * s <= s)%Q by nra. setoid_replace (p - (a + C))%Q with (p + - (a + C))%Q by ring. lra. }
  setoid_replace (x - (p - (a + C)))%Q with ((x - (p - q)) + - (q - (a + C)))%Q by ring.
  apply Qle_trans with (1 := Qabs_triangle _ _). rewrite Qabs_opp.
  assert (eps52 * Qabs (p - q) <= eps52 * (3 * s + 17 * A))%Q by nra.
  assert (eps52 * (17 * A) <= 4 * A)%Q by nra.
  assert (S0 : (0 <= s)%Q) by lra. assert (0 <= eps52 * s)%Q by nra. lra.
Qed.

(** ** The whole distance *)
Lemma abs_val x : (Qabs (qval x) == qsize x)%Q.
Proof.
  pose proof (qsize_nonneg x). destruct x as [s|s| |[] m e]; cbn [qval]; try (rewrite Qabs_opp); apply Qabs_pos; assumption.
Qed.

Lemma axis_synchronized mu N M at_ bt pt ax bx px dx : (0 <= mu)%Q -> (0 <= N)%Q ->
  moderate M -> moderate at_ -> moderate bt -> moderate pt -> moderate ax -> moderate px ->
  size_at_most N ax -> size_at_most N bx -> size_at_most N px -> length_off mu M dx ax bx ->
  (qval at_ + 2 ^ (-100) <= qval bt)%Q -> (qval at_ <= qval pt <= qval bt)%Q ->
  let X := fsub px (fadd ax (fmul (fmul (fdiv M (fsub bt at_)) (fsub pt at_)) dx)) in
  f_num X = true /\ mag 400 X /\
  displaced (2 * mu + 2 ^ (-45) * N + 2 ^ (-860)) (qval X) (qval px)
    (synchronized (qval ax) (qval bx) (qval at_) (qval bt) (qval pt)).
Proof.
  intros M0 N0 HM Ha Hb Hp Hx Hpx Sa Sb Sp (Fd & Vd & Sd & Hoff) Hdt [T1 T2]. cbv zeta.
  assert (Hdt' : (P2q (-100) <= qval bt - qval at_)%Q) by (unfold P2q; lra).
  assert (P100 : (0 < P2q (-100))%Q) by apply p2_pos.
  destruct (axis_close M at_ bt pt ax px dx HM Ha Hb Hp Hx Hpx Fd Vd Sd Hdt') as (A & B & C).
  split; [exact A|]. split; [exact B|]. rewrite !abs_val in C. unfold size_at_most in *.
  set (X := qval (fsub px _)) in *. clearbody X. unfold displaced, synchronized.
  fold (P2q (-45)) (P2q (-860)). fold axis_err.
  set (v := (qval bt - qval at_)%Q) in *. set (tau := (qval pt - qval at_)%Q) in *.
  set (lam := (tau / v)%Q). assert (L0 : (0 <= lam)%Q) by (subst lam; apply Qle_shift_div_l; subst tau; lra).
  assert (L1 : (lam <= 1)%Q) by (subst lam; apply Qle_shift_div_r; subst tau v; lra).
  set (D := (qval bx - qval ax)%Q) in *.
  assert (EC : (qval M / v * tau * qval dx == lam * (qval M * qval dx))%Q) by (subst lam; field; lra).
  rewrite EC in C. set (c := (qval M * qval dx)%Q) in *.
  assert (BD : (Qabs D <= 2 * N)%Q).
  { subst D. unfold Qminus. setoid_replace (2 * N)%Q with (N + N)%Q by ring. apply abs_add_le; [|rewrite Qabs_opp]; rewrite abs_val; assumption. }
  apply abs_le in BD. apply abs_le in C.
  assert (Bc : (Qabs (lam * c) <= 2 * N + mu)%Q).
  { apply Qle_trans with (1 * (2 * N + mu))%Q; [|lra]. apply abs_mul_le; [rewrite Qabs_pos; lra|]. apply abs_le. lra. }
  assert (Ld : (- mu <= lam * (c - D) <= mu)%Q) by (split; nra).
  assert (E45 : (P2q (-45) == 4 * P2q (-47))%Q) by (vm_compute; reflexivity). rewrite E45.
  assert (P47 : (0 < P2q (-47))%Q) by apply p2_pos. assert (P47' : (P2q (-47) <= 1)%Q) by (vm_compute; discriminate).
  assert (K : (P2q (-47) * (qsize px + qsize ax + Qabs (lam * c)) <= P2q (-47) * (4 * N + mu))%Q) by nra.
  assert (K2 : (P2q (-47) * mu <= mu)%Q) by nra.
  split; lra.
Qed.

Theorem sed_accurate t mu N a b p : (0 <= mu)%Q -> (0 <= N)%Q -> sed_input t mu N a b p ->
  exists X Y, f_num X = true /\ f_num Y = true /\ mag 400 X /\ mag 400 Y /\
    (forall hyp, sed_dist t hyp a b p = hyp X Y) /\
    displaced (2 * mu + 2 ^ (-45) * N + 2 ^ (-860)) (qval X) (qval (px p))
      (synchronized (qval (px a)) (qval (px b)) (qval (pz a)) (qval (pz b)) (qval (pz p))) /\
    displaced (2 * mu + 2 ^ (-45) * N + 2 ^ (-860)) (qval Y) (qval (py p))
      (synchronized (qval (py a)) (qval (py b)) (qval (pz a)) (qval (pz b)) (qval (pz p))).
Proof.
  intros M0 N0 ((A1 & A2 & A3 & A4 & A5) & (B1 & B2 & B3 & B4 & B5) & (P1 & P2 & P3 & P4 & P5) & Hdt & Ht & HM & Hx & Hy).
  destruct (axis_synchronized mu N (tr_mag t a b) (pz a) (pz b) (pz p) (px a) (px b) (px p) (tr_dx t a b)) as (X1 & X2 & X3); auto.
  destruct (axis_synchronized mu N (tr_mag t a b) (pz a) (pz b) (pz p) (py a) (py b) (py p) (tr_dy t a b)) as (Y1 & Y2 & Y3); auto.
  eexists _, _. split; [exact X1|]. split; [exact Y1|]. split; [exact X2|]. split; [exact Y2|].
  split; [reflexivity|]. split; [exact X3|exact Y3].
Qed.
