(** Claims C86 and part of C46: accuracy of the distances of the synchronized offset.
    Vocabulary: Spec_Dist.v.  Proofs: P_Round.v, P_Dist.v, P_Sed.v. *)
From Coq Require Import QArith Qabs Qpower Lqa.
From Verif Require Import M_Base M_Float M_Geom M_Offset Spec_Dist P_Base P_Float P_Tame P_FSub P_Node P_Plane P_Round P_Dist P_Sed Toy
  Properties_Core.
Open Scope Z_scope.

(** ** C86 *)

(** The distance of two differences: a number that is not negative, accurate for all differences
    below 2^1000 (no overflow of a square in between), and the squared distance for all
    differences below 2^480. *)
Theorem C86_distance_accurate :
  forall p q, is_fin p = true -> valid_binary fprec femax p = true -> (qsize p < 2 ^ 1000)%Q ->
  is_fin q = true -> valid_binary fprec femax q = true -> (qsize q < 2 ^ 1000)%Q ->
  is_fin (hypot p q) = true /\ fle fzero (hypot p q) = true /\
  distance_of (qval (hypot p q)) (qval p) (qval q).
Proof.
  intros p q Fp Vp Sp Fq Vq Sq. apply hypot_accurate; try (unfold f_num; rewrite ?Fp, ?Vp, ?Fq, ?Vq; reflexivity);
  apply mag_of_size; auto; lia.
Qed.

Theorem C86_square_distance_accurate :
  forall p q, is_fin p = true -> valid_binary fprec femax p = true -> (qsize p < 2 ^ 480)%Q ->
  is_fin q = true -> valid_binary fprec femax q = true -> (qsize q < 2 ^ 480)%Q ->
  is_fin (square_hypot p q) = true /\ fle fzero (square_hypot p q) = true /\
  square_distance_of (qval (square_hypot p q)) (qval p) (qval q).
Proof.
  intros p q Fp Vp Sp Fq Vq Sq. apply square_hypot_accurate; try (unfold f_num; rewrite ?Fp, ?Vp, ?Fq, ?Vq; reflexivity);
  apply mag_of_size; auto; lia.
Qed.

(** The offset of a fix is its distance to where an even movement from the first to the last fix
    would be at its time: the two coordinate differences are off by a few units in the last place
    of the coordinates and by the error of the trigonometric functions. *)
Theorem C86_synchronized_distance :
  forall t mu N a b p, (0 <= mu)%Q -> (0 <= N)%Q -> sed_input t mu N a b p ->
  exists X Y : Q,
    displaced (2 * mu + 2 ^ (-45) * N + 2 ^ (-860)) X (qval (px p))
      (synchronized (qval (px a)) (qval (px b)) (qval (pz a)) (qval (pz b)) (qval (pz p))) /\
    displaced (2 * mu + 2 ^ (-45) * N + 2 ^ (-860)) Y (qval (py p))
      (synchronized (qval (py a)) (qval (py b)) (qval (pz a)) (qval (pz b)) (qval (pz p))) /\
    is_fin (sed_dist t hypot a b p) = true /\ fle fzero (sed_dist t hypot a b p) = true /\
    distance_of (qval (sed_dist t hypot a b p)) X Y /\
    is_fin (sed_dist t square_hypot a b p) = true /\ fle fzero (sed_dist t square_hypot a b p) = true /\
    square_distance_of (qval (sed_dist t square_hypot a b p)) X Y.
Proof.
  intros t mu N a b p M0 N0 H.
  destruct (sed_accurate t mu N a b p M0 N0 H) as (X & Y & NX & NY & MX & MY & E & DX & DY).
  exists (qval X), (qval Y). split; [exact DX|]. split; [exact DY|]. rewrite !E.
  destruct (hypot_accurate X Y NX NY) as (H1 & H2 & H3); [apply (mag_mono 400); auto; lia|apply (mag_mono 400); auto; lia|].
  destruct (square_hypot_accurate X Y NX NY) as (S1 & S2 & S3); [apply (mag_mono 400); auto; lia|apply (mag_mono 400); auto; lia|].
  auto 10.
Qed.

(** ** C46 *)

(** With moderate coordinates and times, and a last fix at least 2^-100 after the first one, the
    search proposes an interior vertex; the times in between may be in any order. *)
Theorem C46_sed_interior_moderate_partial :
  forall t hyp c, hyp = hypot \/ hyp = square_hypot -> 3 <= clen c ->
  (forall k, 0 <= k < clen c -> moderate (px (cpt c k)) /\ moderate (py (cpt c k)) /\ moderate (pz (cpt c k))) ->
  (let a := cpt c 0 in let b := cpt c (clen c - 1) in
   (qval (pz a) + 2 ^ (-100) <= qval (pz b))%Q /\ moderate (tr_mag t a b) /\
   is_fin (tr_dx t a b) = true /\ valid_binary fprec femax (tr_dx t a b) = true /\ (qsize (tr_dx t a b) <= 1)%Q /\
   is_fin (tr_dy t a b) = true /\ valid_binary fprec femax (tr_dy t a b) = true /\ (qsize (tr_dy t a b) <= 1)%Q) ->
  0 < fst (max_sed_offset t hyp c) < clen c - 1.
Proof.
  intros t hyp c Hh Hc Hk (Ht & HM & X1 & X2 & X3 & Y1 & Y2 & Y3). apply C46_sed_interior_partial; [exact Hc|].
  intros j Hj. destruct (Hk 0 ltac:(lia)) as (A1 & A2 & A3). destruct (Hk (clen c - 1) ltac:(lia)) as (B1 & B2 & B3).
  destruct (Hk j ltac:(lia)) as (J1 & J2 & J3). set (a := cpt c 0) in *. set (b := cpt c (clen c - 1)) in *. set (p := cpt c j) in *.
  assert (Hdt : (P2q (-100) <= qval (pz b) - qval (pz a))%Q) by (unfold P2q; lra).
  destruct (axis_close (tr_mag t a b) (pz a) (pz b) (pz p) (px a) (px p) (tr_dx t a b) HM A3 B3 J3 A1 J1 X1 X2 X3 Hdt) as (NX & MX & _).
  destruct (axis_close (tr_mag t a b) (pz a) (pz b) (pz p) (py a) (py p) (tr_dy t a b) HM A3 B3 J3 A2 J2 Y1 Y2 Y3 Hdt) as (NY & MY & _).
  unfold sed_dist. destruct Hh as [-> | ->].
  - apply hypot_accurate; auto; apply (mag_mono 400); auto; lia.
  - apply square_hypot_accurate; auto; apply (mag_mono 400); auto; lia.
Qed.

(** ** The cases *)
Ltac mod_ := repeat split; (reflexivity || (vm_compute; reflexivity) || (vm_compute; discriminate)).

Example C86_case :
  let a := P3 1 2 5 in let b := P3 9 2 7 in let p := P3 5 5 6 in
  sed_input ex_trig 0 9 a b p /\
  (synchronized (qval (px a)) (qval (px b)) (qval (pz a)) (qval (pz b)) (qval (pz p)) == 5)%Q /\
  sed_dist ex_trig hypot a b p = f_of_Z 3 /\ sed_dist ex_trig square_hypot a b p = f_of_Z 9 /\
  hypot (f_of_Z 3) (f_of_Z (-4)) = f_of_Z 5 /\ square_hypot (f_of_Z (-3)) (f_of_Z 4) = f_of_Z 25.
Proof. cbv zeta. split; [|vm_compute; repeat split; discriminate]. mod_. Qed.

Example C46_case_moderate :
  let c := full_coords [P3 0 0 0; P3 3 4 2; P3 8 0 1; P3 9 0 3] in
  3 <= clen c /\
  (forall k, 0 <= k < clen c -> moderate (px (cpt c k)) /\ moderate (py (cpt c k)) /\ moderate (pz (cpt c k))) /\
  (let a := cpt c 0 in let b := cpt c (clen c - 1) in
   (qval (pz a) + 2 ^ (-100) <= qval (pz b))%Q /\ moderate (tr_mag ex_trig a b) /\
   is_fin (tr_dx ex_trig a b) = true /\ valid_binary fprec femax (tr_dx ex_trig a b) = true /\ (qsize (tr_dx ex_trig a b) <= 1)%Q /\
   is_fin (tr_dy ex_trig a b) = true /\ valid_binary fprec femax (tr_dy ex_trig a b) = true /\ (qsize (tr_dy ex_trig a b) <= 1)%Q).
Proof.
  cbv zeta. change (clen _) with 4. split; [lia|]. split.
  - intros k Hk. assert (E : k = 0 \/ k = 1 \/ k = 2 \/ k = 3) by lia. destruct E as [->|[->|[->| ->]]]; mod_.
  - mod_.
Qed.

Print Assumptions C86_distance_accurate.
Print Assumptions C86_square_distance_accurate.
Print Assumptions C86_synchronized_distance.
Print Assumptions C46_sed_interior_moderate_partial.
