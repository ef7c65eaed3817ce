(** Finite coordinates below 2^500 in magnitude: differences and their products (areas)
    stay finite.  Pure integer reasoning about the IEEE rounding functions. *)
From Verif Require Import M_Base M_Float P_Base P_Float M_Geom M_Node M_Hdb P_Hdb.
Open Scope Z_scope.

(** [mag D x]: x is a number (not infinite, not NaN) with |x| < 2^D. *)
Definition mag (D : Z) (x : f64) : Prop :=
  match x with
  | S754_zero _ => True
  | S754_finite _ m e => e <= D /\ Zpos m < 2 ^ (D - e)
  | _ => False
  end.

Definition bnd (D m e : Z) : Prop := 0 <= m /\ e <= D /\ m < 2 ^ (D - e).

Lemma shr_1_div r : 0 <= shr_m r -> shr_m (shr_1 r) = shr_m r / 2.
Proof.
  destruct r as [m a b]; cbn [shr_m]; intros H.
  destruct m as [|p|p]; [reflexivity| |lia].
  destruct p; unfold shr_1, shr_m.
  - change (Zpos p~1) with (1 + 2 * Zpos p). symmetry.
    rewrite Z.mul_comm, Z.div_add by lia. reflexivity.
  - change (Zpos p~0) with (2 * Zpos p). rewrite Z.mul_comm, Z.div_mul by lia. reflexivity.
  - reflexivity.
Qed.

Lemma iter_shr_div p : forall r, 0 <= shr_m r -> shr_m (iter_pos shr_1 p r) = shr_m r / 2 ^ Zpos p.
Proof.
  induction p as [p IH|p IH|]; intros r H; cbn [iter_pos].
  - assert (H1 : 0 <= shr_m (shr_1 r)) by (rewrite shr_1_div by exact H; apply Z.div_pos; lia).
    assert (H2 : 0 <= shr_m (iter_pos shr_1 p (shr_1 r)))
      by (rewrite IH by exact H1; apply Z.div_pos; lia).
    rewrite IH, IH, shr_1_div by assumption.
    rewrite !Z.div_div by lia.
    assert (E : 2 ^ Zpos p~1 = 2 * 2 ^ Zpos p * 2 ^ Zpos p).
    { replace (Zpos p~1) with (1 + Zpos p + Zpos p) by lia. rewrite !Z.pow_add_r by lia. reflexivity. }
    rewrite E, Z.mul_assoc; reflexivity.
  - assert (H2 : 0 <= shr_m (iter_pos shr_1 p r))
      by (rewrite IH by exact H; apply Z.div_pos; lia).
    rewrite IH, IH by assumption. rewrite Z.div_div by lia.
    assert (E : 2 ^ Zpos p~0 = 2 ^ Zpos p * 2 ^ Zpos p).
    { replace (Zpos p~0) with (Zpos p + Zpos p) by lia. rewrite !Z.pow_add_r by lia. reflexivity. }
    rewrite E; reflexivity.
  - rewrite shr_1_div by exact H. reflexivity.
Qed.

Lemma digits2_low p : 2 ^ (Zpos (digits2_pos p) - 1) <= Zpos p.
Proof.
  induction p as [p IH|p IH|]; cbn [digits2_pos].
  - rewrite Pos2Z.inj_succ. replace (Z.succ (Zpos (digits2_pos p)) - 1) with (Z.succ (Zpos (digits2_pos p) - 1)) by lia.
    rewrite Z.pow_succ_r by lia. lia.
  - rewrite Pos2Z.inj_succ. replace (Z.succ (Zpos (digits2_pos p)) - 1) with (Z.succ (Zpos (digits2_pos p) - 1)) by lia.
    rewrite Z.pow_succ_r by lia. lia.
  - cbn. lia.
Qed.

Lemma Zdigits2_le m k : 0 <= m -> 0 <= k -> m < 2 ^ k -> Zdigits2 m <= k.
Proof.
  intros Hm Hk Hlt. destruct m as [|p|p]; cbn [Zdigits2]; [lia| |lia].
  pose proof (digits2_low p).
  assert (Zpos (digits2_pos p) - 1 < k); [|lia].
  apply (Z.pow_lt_mono_r_iff 2); lia.
Qed.

Lemma fexp64 x : fexp fprec femax x = Z.max (x - 53) (-1074).
Proof. reflexivity. Qed.

Lemma shr_fexp_bnd D m e l :
  0 <= D -> bnd D m e ->
  let '(r, e') := shr_fexp fprec femax m e l in
  bnd D (shr_m r) e' /\ e <= e' <= Z.max e (Z.max (D - 53) (-1074)).
Proof.
  intros HD (Hm & He & Hlt). unfold shr_fexp. rewrite fexp64.
  pose proof (Zdigits2_le m (D - e) Hm ltac:(lia) Hlt) as Hd.
  assert (Hr : shr_m (shr_record_of_loc m l) = m) by (destruct l as [|[]]; reflexivity).
  set (n := Z.max (Zdigits2 m + e - 53) (-1074) - e).
  unfold shr. destruct n as [|p|p] eqn:En.
  - rewrite Hr. split; [split; [|split]; auto|lia].
  - assert (Hn : Zpos p = Z.max (Zdigits2 m + e - 53) (-1074) - e) by (subst n; auto).
    rewrite iter_shr_div by (rewrite Hr; exact Hm). rewrite Hr.
    split; [|lia]. split; [apply Z.div_pos; lia|]. split; [lia|].
    apply Z.div_lt_upper_bound; [lia|]. rewrite <- Z.pow_add_r by lia.
    replace (Zpos p + (D - (e + Zpos p))) with (D - e) by lia. exact Hlt.
  - rewrite Hr. split; [split; [|split]; auto|lia].
Qed.

Lemma round_cases m l : round_nearest_even m l = m \/ round_nearest_even m l = m + 1.
Proof. destruct l as [|[]]; cbn; auto. destruct (Z.even m); auto. Qed.

(** Rounding a bounded value gives a number at most twice as large. *)
Lemma round_mag D sx m e l :
  0 <= D <= 1023 -> bnd D m e -> e <= 971 ->
  mag (D + 1) (binary_round_aux fprec femax sx m e l).
Proof.
  intros HD Hb He. unfold binary_round_aux.
  pose proof (shr_fexp_bnd D m e l ltac:(lia) Hb) as H1.
  destruct (shr_fexp fprec femax m e l) as [r e1]. destruct H1 as [(A1 & A2 & A3) A4].
  set (m2 := round_nearest_even (shr_m r) (loc_of_shr_record r)).
  assert (B2 : bnd (D + 1) m2 e1).
  { destruct (round_cases (shr_m r) (loc_of_shr_record r)) as [E|E]; fold m2 in E; rewrite E.
    - split; [exact A1|]. split; [lia|]. replace (D + 1 - e1) with (Z.succ (D - e1)) by lia.
      rewrite Z.pow_succ_r by lia. lia.
    - split; [lia|]. split; [lia|]. replace (D + 1 - e1) with (Z.succ (D - e1)) by lia.
      rewrite Z.pow_succ_r by lia. lia. }
  pose proof (shr_fexp_bnd (D + 1) m2 e1 loc_Exact ltac:(lia) B2) as H2.
  destruct (shr_fexp fprec femax m2 e1 loc_Exact) as [r2 e2]. destruct H2 as [(C1 & C2 & C3) C4].
  destruct (shr_m r2) as [|p|p]; [exact I| |lia].
  assert (Hle : Zle_bool e2 (femax - fprec) = true).
  { apply Zle_imp_le_bool. change (femax - fprec) with 971. lia. }
  rewrite Hle. split; [exact C2|exact C3].
Qed.

Lemma shift_pos_mul d p : Zpos (shift_pos d p) = Zpos p * 2 ^ Zpos d.
Proof. rewrite shift_pos_correct. change (Z.pow_pos 2 d) with (2 ^ Zpos d). lia. Qed.

Lemma shl_align_val m e e' : let '(m', e1) := shl_align m e e' in
  e1 <= e /\ (e1 = Z.min e e' ) /\ Zpos m' = Zpos m * 2 ^ (e - e1).
Proof.
  unfold shl_align. destruct (e' - e) as [|d|d] eqn:E.
  - split; [lia|]. split; [lia|]. rewrite Z.sub_diag; lia.
  - split; [lia|]. split; [lia|]. rewrite Z.sub_diag; lia.
  - split; [lia|]. split; [lia|]. rewrite shift_pos_mul. f_equal. f_equal. lia.
Qed.

Lemma shl_align_bnd D m e e' : bnd D (Zpos m) e ->
  let '(m', e1) := shl_align m e e' in bnd D (Zpos m') e1 /\ e1 = Z.min e e'.
Proof.
  intros (A & B & C). pose proof (shl_align_val m e e') as H.
  destruct (shl_align m e e') as [m' e1]. destruct H as (H1 & H2 & H3).
  split; [|exact H2]. split; [lia|]. split; [lia|]. rewrite H3.
  replace (D - e1) with ((D - e) + (e - e1)) by lia. rewrite Z.pow_add_r by lia.
  apply Z.mul_lt_mono_pos_r; [|exact C]. apply Z.pow_pos_nonneg; lia.
Qed.

Lemma normalize_mag D m e :
  0 <= D <= 1023 -> e <= 971 -> e <= D -> Z.abs m < 2 ^ (D - e) ->
  mag (D + 1) (binary_normalize fprec femax m e false).
Proof.
  intros HD He HeD Hm; unfold binary_normalize.
  assert (G : forall sx p, Zpos p < 2 ^ (D - e) -> mag (D + 1) (binary_round fprec femax sx p e)).
  { intros sx p Hp; unfold binary_round.
    pose proof (shl_align_bnd D p e (fexp fprec femax (Zpos (digits2_pos p) + e))
       (conj (Pos2Z.is_nonneg p) (conj HeD Hp))) as H.
    destruct (shl_align p e _) as [m' e1]. destruct H as [H1 H2].
    apply round_mag; auto. lia. }
  destruct m as [|p|p]; [exact I| |]; apply G; exact Hm.
Qed.

Lemma mag_fin D x : mag D x -> is_fin x = true.
Proof. destruct x; cbn; tauto. Qed.

Lemma mag_mono D D' x : D <= D' -> mag D x -> mag D' x.
Proof.
  intros H; destruct x as [s|s| |s m e]; cbn; auto. intros [H1 H2]. split; [lia|].
  eapply Z.lt_le_trans; [exact H2|]. apply Z.pow_le_mono_r; lia.
Qed.

(** Alignment of one operand of a sum at the smaller exponent. *)
Lemma aligned_bnd D s m e ez : e <= D -> Zpos m < 2 ^ (D - e) -> ez <= e ->
  Z.abs (cond_Zopp s (Zpos (fst (shl_align m e ez)))) < 2 ^ (D - ez).
Proof.
  intros H1 H2 H3.
  pose proof (shl_align_bnd D m e ez (conj (Pos2Z.is_nonneg m) (conj H1 H2))) as H.
  destruct (shl_align m e ez) as [m' e1]. destruct H as [(A & B & C) E].
  rewrite Z.min_r in E by lia. subst e1. cbn [fst]. destruct s; cbn [cond_Zopp]; lia.
Qed.

Lemma sub_mag D x y : 0 <= D <= 971 -> mag D x -> mag D y -> mag (D + 2) (fsub x y).
Proof.
  intros HD Hx Hy; unfold fsub, SFsub.
  destruct x as [sx|sx| |sx mx ex]; cbn [mag] in Hx; try tauto;
  destruct y as [sy|sy| |sy my ey]; cbn [mag] in Hy; try tauto.
  - destruct (Bool.eqb sx (negb sy)); exact I.
  - apply (mag_mono D); [lia|exact Hy].
  - apply (mag_mono D); [lia|exact Hx].
  - destruct Hx as [X1 X2], Hy as [Y1 Y2].
    set (ez := Z.min ex ey).
    replace (D + 2) with (D + 1 + 1) by lia.
    apply normalize_mag; try lia.
    pose proof (aligned_bnd D sx mx ex ez X1 X2 ltac:(lia)).
    pose proof (aligned_bnd D sy my ey ez Y1 Y2 ltac:(lia)).
    replace (D + 1 - ez) with (Z.succ (D - ez)) by lia. rewrite Z.pow_succ_r by lia. lia.
Qed.

Lemma add_mag D x y : 0 <= D <= 971 -> mag D x -> mag D y -> mag (D + 2) (fadd x y).
Proof.
  intros HD Hx Hy; unfold fadd, SFadd.
  destruct x as [sx|sx| |sx mx ex]; cbn [mag] in Hx; try tauto;
  destruct y as [sy|sy| |sy my ey]; cbn [mag] in Hy; try tauto.
  - destruct (Bool.eqb sx sy); exact I.
  - apply (mag_mono D); [lia|exact Hy].
  - apply (mag_mono D); [lia|exact Hx].
  - destruct Hx as [X1 X2], Hy as [Y1 Y2].
    set (ez := Z.min ex ey).
    replace (D + 2) with (D + 1 + 1) by lia.
    apply normalize_mag; try lia.
    pose proof (aligned_bnd D sx mx ex ez X1 X2 ltac:(lia)).
    pose proof (aligned_bnd D sy my ey ez Y1 Y2 ltac:(lia)).
    replace (D + 1 - ez) with (Z.succ (D - ez)) by lia. rewrite Z.pow_succ_r by lia. lia.
Qed.

Lemma mul_mag D x y : 0 <= D -> 2 * D <= 971 -> mag D x -> mag D y -> mag (2 * D + 1) (fmul x y).
Proof.
  intros HD HD2 Hx Hy; unfold fmul, SFmul.
  destruct x as [sx|sx| |sx mx ex]; cbn [mag] in Hx; try tauto;
  destruct y as [sy|sy| |sy my ey]; cbn [mag] in Hy; try tauto; try exact I.
  destruct Hx as [X1 X2], Hy as [Y1 Y2].
  apply round_mag; try lia.
  split; [lia|]. split; [lia|].
  rewrite Pos2Z.inj_mul. replace (2 * D - (ex + ey)) with ((D - ex) + (D - ey)) by lia.
  rewrite Z.pow_add_r by lia. apply Z.mul_lt_mono_nonneg; lia.
Qed.

Theorem tame_mag D : 0 <= D <= 483 -> tame (mag D).
Proof.
  intros HD; split.
  - apply mag_fin.
  - intros a b c d Ha Hb Hc Hd. eapply mag_fin.
    apply (mul_mag (D + 2)); try lia; apply sub_mag; auto; lia.
Qed.
