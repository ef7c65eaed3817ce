(** Two paths and their chords: if the chords meet then a path meets the other path or its chord. *)
From Coq Require Import QArith Lqa.
From Verif Require Import M_Base M_Geom Spec_Plane Spec_Path P_Base P_Plane P_Path.
Open Scope Z_scope.

Definition centre : place := (0%Q, 0%Q).
(** The place a seen from z. *)
Definition seen (z a : place) : place := ((fst a - fst z)%Q, (snd a - snd z)%Q).
Definition turn (a b : place) : Z := crossing centre a b.

Lemma crossing_seen z a b : crossing z a b = turn (seen z a) (seen z b).
Proof.
  unfold turn, crossing. assert (E : (side (seen z a) (seen z b) centre == side a b z)%Q) by (unfold side, seen, centre; cbn [fst snd]; ring).
  cbn [seen centre fst snd]. qbool; try reflexivity; lra.
Qed.

(** A way a b that does not meet the way p q is crossed by the rays from p and q as its ends say. *)
Lemma edge_difference a b p q : ~ (exists z, on_way a b z /\ on_way p q z) ->
  crossing p a b - crossing q a b = turn (seen p a) (seen q a) - turn (seen p b) (seen q b).
Proof.
  intros H. rewrite !crossing_seen.
  assert (T1 : turn (seen p a) (seen q a) + turn (seen q a) (seen q b) = turn (seen p a) (seen q b)).
  { apply triangle_crossing. intros (u & v & w & A & B & C & D & E & F). apply H. exists (toward w a b). split.
    - exists w. split; [unfold time; lra|split; reflexivity].
    - exists (v + w)%Q. split; [unfold time; lra|]. unfold same_place, toward, seen, centre in *. cbn [fst snd] in *.
      assert (Eu : (u == 1 - v - w)%Q) by lra. rewrite Eu in E, F. split; lra. }
  assert (T2 : turn (seen p a) (seen p b) + turn (seen p b) (seen q b) = turn (seen p a) (seen q b)).
  { apply triangle_crossing. intros (u & v & w & A & B & C & D & E & F). apply H. exists (toward (v + w) a b). split.
    - exists (v + w)%Q. split; [unfold time; lra|split; reflexivity].
    - exists w. split; [unfold time; lra|]. unfold same_place, toward, seen, centre in *. cbn [fst snd] in *.
      assert (Eu : (u == 1 - v - w)%Q) by lra. rewrite Eu in E, F. split; lra. }
  lia.
Qed.

Lemma last_next {A} (l : list A) : forall a b, last (b :: l) a = last l b.
Proof.
  induction l as [|x l IH]; intros a b; [reflexivity|]. transitivity (last l x); [apply (IH a x)|symmetry; apply (IH b x)].
Qed.

Lemma path_difference l p q : forall a, ~ (exists z, on_path (a :: l) z /\ on_way p q z) ->
  crossings p (a :: l) - crossings q (a :: l) = turn (seen p a) (seen q a) - turn (seen p (last l a)) (seen q (last l a)).
Proof.
  induction l as [|b l IH]; intros a H; [cbn; lia|].
  assert (E : last (b :: l) a = last l b) by apply last_next.
  rewrite E.
  assert (H1 : ~ (exists z, on_path (b :: l) z /\ on_way p q z)).
  { intros (z & A & B). apply H. exists z. split; [apply path_cons; right; exact A|exact B]. }
  assert (H2 : ~ (exists z, on_way a b z /\ on_way p q z)).
  { intros (z & A & B). apply H. exists z. split; [apply path_cons; left; exact A|exact B]. }
  pose proof (IH b H1). pose proof (edge_difference a b p q H2).
  change (crossings p (a :: b :: l)) with (crossing p a b + crossings p (b :: l)).
  change (crossings q (a :: b :: l)) with (crossing q a b + crossings q (b :: l)). lia.
Qed.

(** The path closed by its chord. *)
Definition around (p : place) (a : place) (l : list place) : Z := crossings p (a :: l) + crossing p (last l a) a.

Lemma around_edge a l p q : ~ (exists z, on_path (a :: l) z /\ on_way p q z) -> ~ (exists z, on_way a (last l a) z /\ on_way p q z) ->
  around p a l = around q a l.
Proof.
  intros H1 H2. unfold around. pose proof (path_difference l p q a H1).
  assert (H3 : ~ (exists z, on_way (last l a) a z /\ on_way p q z)).
  { intros (z & A & B). apply H2. exists z. split; [apply way_back; exact A|exact B]. }
  pose proof (edge_difference (last l a) a p q H3). lia.
Qed.

Lemma around_path a l : forall m c, ~ (exists z, on_path (a :: l) z /\ on_path (c :: m) z) ->
  ~ (exists z, on_way a (last l a) z /\ on_path (c :: m) z) -> around c a l = around (last m c) a l.
Proof.
  induction m as [|d m IH]; intros c H1 H2; [reflexivity|].
  assert (E : last (d :: m) c = last m d) by apply last_next.
  rewrite E, <- (IH d).
  - apply around_edge; intros (z & A & B); [apply H1|apply H2]; exists z; (split; [exact A|apply path_cons; left; exact B]).
  - intros (z & A & B). apply H1. exists z. split; [exact A|apply path_cons; right; exact B].
  - intros (z & A & B). apply H2. exists z. split; [exact A|apply path_cons; right; exact B].
Qed.

(** ** Once around *)

Lemma turn_left a b : (0 < side a b centre)%Q -> 0 <= turn a b /\ ((snd a <= 0)%Q -> (0 < snd b)%Q -> turn a b = 1).
Proof.
  intros H. unfold turn, crossing. cbn [centre snd]. split; [qbool; try lia; lra|]. intros A B. qbool; try reflexivity; lra.
Qed.
Lemma turn_right a b : (side a b centre < 0)%Q -> turn a b <= 0 /\ ((0 < snd a)%Q -> (snd b <= 0)%Q -> turn a b = -1).
Proof.
  intros H. unfold turn, crossing. cbn [centre snd]. split; [qbool; try lia; lra|]. intros A B. qbool; try reflexivity; lra.
Qed.

(** Four places around the centre, in this order: a weighted average of them is the centre. *)
Lemma four_around p1 p2 p3 p4 w1 w2 w3 w4 :
  (0 < w1)%Q -> (0 < w2)%Q -> (0 < w3)%Q -> (0 < w4)%Q -> (w1 * snd p1 + w2 * snd p2 + w3 * snd p3 + w4 * snd p4 == 0)%Q ->
  ((0 < side p1 p2 centre)%Q /\ (0 < side p2 p3 centre)%Q /\ (0 < side p3 p4 centre)%Q /\ (0 < side p4 p1 centre)%Q) \/
  ((side p1 p2 centre < 0)%Q /\ (side p2 p3 centre < 0)%Q /\ (side p3 p4 centre < 0)%Q /\ (side p4 p1 centre < 0)%Q) ->
  turn p1 p2 + turn p2 p3 + turn p3 p4 + turn p4 p1 <> 0.
Proof.
  intros W1 W2 W3 W4 HS HD E.
  assert (Hpos : ~ ((0 < snd p1)%Q /\ (0 < snd p2)%Q /\ (0 < snd p3)%Q /\ (0 < snd p4)%Q)).
  { intros (A & B & C & D).
    pose proof (Qmult_lt_0_compat _ _ W1 A). pose proof (Qmult_lt_0_compat _ _ W2 B). pose proof (Qmult_lt_0_compat _ _ W3 C). pose proof (Qmult_lt_0_compat _ _ W4 D). lra. }
  assert (Hneg : ~ ((snd p1 <= 0)%Q /\ (snd p2 <= 0)%Q /\ (snd p3 <= 0)%Q /\ (snd p4 <= 0)%Q)).
  { intros (A & B & C & D).
    assert (N : forall w y, (0 < w)%Q -> (y <= 0)%Q -> (w * y <= 0)%Q) by (intros; nra).
    assert (Z : forall w y, (0 < w)%Q -> (w * y == 0)%Q -> (y == 0)%Q).
    { intros w y Hw Hy. destruct (Qmult_integral _ _ Hy); [lra|assumption]. }
    pose proof (N _ _ W1 A). pose proof (N _ _ W2 B). pose proof (N _ _ W3 C). pose proof (N _ _ W4 D).
    assert (Z1 : (snd p1 == 0)%Q) by (apply (Z w1); lra). assert (Z2 : (snd p2 == 0)%Q) by (apply (Z w2); lra).
    assert (S0 : (side p1 p2 centre == 0)%Q) by (unfold side; cbn [centre fst snd]; rewrite Z1, Z2; ring).
    destruct HD as [[HD _]|[HD _]]; lra. }
  destruct HD as [(A & B & C & D)|(A & B & C & D)].
  - apply turn_left in A, B, C, D. destruct A as [A A'], B as [B B'], C as [C C'], D as [D D'].
    destruct (Qlt_le_dec 0 (snd p1)) as [Y1|Y1], (Qlt_le_dec 0 (snd p2)) as [Y2|Y2], (Qlt_le_dec 0 (snd p3)) as [Y3|Y3], (Qlt_le_dec 0 (snd p4)) as [Y4|Y4];
      try (exfalso; tauto); repeat match goal with H : (_ <= 0)%Q -> (0 < _)%Q -> turn _ _ = 1, H1 : _, H2 : _ |- _ => specialize (H H1 H2) end; lia.
  - apply turn_right in A, B, C, D. destruct A as [A A'], B as [B B'], C as [C C'], D as [D D'].
    destruct (Qlt_le_dec 0 (snd p1)) as [Y1|Y1], (Qlt_le_dec 0 (snd p2)) as [Y2|Y2], (Qlt_le_dec 0 (snd p3)) as [Y3|Y3], (Qlt_le_dec 0 (snd p4)) as [Y4|Y4];
      try (exfalso; tauto); repeat match goal with H : (0 < _)%Q -> (_ <= 0)%Q -> turn _ _ = -1, H1 : _, H2 : _ |- _ => specialize (H H1 H2) end; lia.
Qed.

(** ** Chords that cross *)

Lemma pos_factor w x v : (0 < w)%Q -> (w * x == v)%Q -> (0 < v)%Q -> (0 < x)%Q.
Proof. intros A B C. destruct (Qlt_le_dec 0 x) as [H|H]; [exact H|]. exfalso. nra. Qed.
Lemma neg_factor w x v : (0 < w)%Q -> (w * x == v)%Q -> (v < 0)%Q -> (x < 0)%Q.
Proof. intros A B C. destruct (Qlt_le_dec x 0) as [H|H]; [exact H|]. exfalso. nra. Qed.

(** Two ways from one place in the same direction: one holds the end of the other. *)
Lemma same_direction z a c l : (0 < l)%Q -> (fst c - fst z == l * (fst a - fst z))%Q -> (snd c - snd z == l * (snd a - snd z))%Q ->
  on_way z a c \/ on_way z c a.
Proof.
  intros Hl H1 H2. destruct (Qlt_le_dec 1 l) as [H|H].
  - right. assert (N : ~ (l == 0)%Q) by lra. exists (1 / l)%Q. unfold time, same_place, toward. cbn [fst snd].
    split; [split; [apply Qle_shift_div_l; lra|apply Qle_shift_div_r; lra]|].
    assert (E1 : (fst c == fst z + l * (fst a - fst z))%Q) by lra. assert (E2 : (snd c == snd z + l * (snd a - snd z))%Q) by lra.
    rewrite E1, E2. split; field; exact N.
  - left. exists l. unfold time, same_place, toward. cbn [fst snd]. split; [lra|]. split; lra.
Qed.
(** A way from a place on the way a b to one of its ends is on it. *)
Lemma way_part a b z q : on_way a b z -> on_way z a q -> on_way a b q.
Proof.
  intros (s & [S1 S2] & E1 & E2) (r & [R1 R2] & F1 & F2). exists ((1 - r) * s)%Q. unfold time, same_place, toward in *. cbn [fst snd] in *.
  split; [nra|]. rewrite F1, F2, E1, E2. split; ring.
Qed.
Lemma way_part' a b z q : on_way a b z -> on_way z b q -> on_way a b q.
Proof. intros H1 H2. apply way_back in H1. apply way_back. eapply way_part; eauto. Qed.
Lemma way_same a b z z' : same_place z' z -> on_way a b z -> on_way a b z'.
Proof. intros [H1 H2] (s & T & E1 & E2). exists s. split; [exact T|]. unfold same_place in *. rewrite H1, H2. split; assumption. Qed.

Lemma chords_cross a b c d z : on_way a b z -> on_way c d z -> ~ on_way c d a -> ~ on_way c d b -> ~ on_way a b c -> ~ on_way a b d ->
  turn (seen c a) (seen d a) + turn (seen d a) (seen d b) + turn (seen d b) (seen c b) + turn (seen c b) (seen c a) <> 0.
Proof.
  intros Hz1 Hz2 Na Nb Nc Nd. pose proof Hz1 as (s & [S1 S2] & X1 & Y1). pose proof Hz2 as (t & [T1 T2] & X2 & Y2).
  unfold toward in *. cbn [fst snd] in *.
  assert (S3 : (0 < s)%Q).
  { destruct (Qlt_le_dec 0 s); [assumption|]. exfalso. apply Na. assert (E : (s == 0)%Q) by lra. rewrite E in X1, Y1.
    apply (way_same _ _ z); [split; lra|exact Hz2]. }
  assert (S4 : (s < 1)%Q).
  { destruct (Qlt_le_dec s 1); [assumption|]. exfalso. apply Nb. assert (E : (s == 1)%Q) by lra. rewrite E in X1, Y1.
    apply (way_same _ _ z); [split; lra|exact Hz2]. }
  assert (T3 : (0 < t)%Q).
  { destruct (Qlt_le_dec 0 t); [assumption|]. exfalso. apply Nc. assert (E : (t == 0)%Q) by lra. rewrite E in X2, Y2.
    apply (way_same _ _ z); [split; lra|exact Hz1]. }
  assert (T4 : (t < 1)%Q).
  { destruct (Qlt_le_dec t 1); [assumption|]. exfalso. apply Nd. assert (E : (t == 1)%Q) by lra. rewrite E in X2, Y2.
    apply (way_same _ _ z); [split; lra|exact Hz1]. }
  destruct a as [ax ay], b as [bx by_], c as [cx cy], d as [dx dy], z as [zx zy]. cbn [fst snd] in *.
  set (K := ((ax - zx) * (cy - zy) - (ay - zy) * (cx - zx))%Q).
  assert (Bx : (s * bx == zx - (1 - s) * ax)%Q) by lra. assert (By : (s * by_ == zy - (1 - s) * ay)%Q) by lra.
  assert (Dx : (t * dx == zx - (1 - t) * cx)%Q) by lra. assert (Dy : (t * dy == zy - (1 - t) * cy)%Q) by lra.
  assert (Q1 : (t * side (seen (cx, cy) (ax, ay)) (seen (dx, dy) (ax, ay)) centre == K)%Q).
  { unfold side, seen, centre. cbn [fst snd].
    transitivity ((ax - cx) * (t * ay - t * dy) - (ay - cy) * (t * ax - t * dx))%Q; [ring|]. rewrite Dx, Dy. unfold K. ring. }
  assert (Q2 : (s * t * side (seen (dx, dy) (ax, ay)) (seen (dx, dy) (bx, by_)) centre == (1 - t) * K)%Q).
  { unfold side, seen, centre. cbn [fst snd].
    transitivity (ax * (t * (s * by_)) - t * dx * (s * by_) - (ay * (t * (s * bx)) - t * dy * (s * bx)) + s * (ay * (t * dx) - ax * (t * dy)))%Q; [ring|].
    rewrite Bx, By, Dx, Dy. unfold K. ring. }
  assert (Q3 : (s * t * side (seen (dx, dy) (bx, by_)) (seen (cx, cy) (bx, by_)) centre == (1 - s) * K)%Q).
  { unfold side, seen, centre. cbn [fst snd].
    transitivity ((t * (s * bx) - s * (t * dx)) * by_ - (t * (s * by_) - s * (t * dy)) * bx - (t * (s * bx) - s * (t * dx)) * cy + (t * (s * by_) - s * (t * dy)) * cx)%Q; [ring|].
    transitivity (t * cx * (s * by_) - t * cy * (s * bx) + cy * s * (t * dx) - cx * s * (t * dy) + t * dy * (s * bx) - t * dx * (s * by_))%Q; [ring|].
    rewrite Bx, By, Dx, Dy. unfold K. ring. }
  assert (Q4 : (s * side (seen (cx, cy) (bx, by_)) (seen (cx, cy) (ax, ay)) centre == K)%Q).
  { unfold side, seen, centre. cbn [fst snd].
    transitivity ((s * bx - s * cx) * (ay - cy) - (s * by_ - s * cy) * (ax - cx))%Q; [ring|]. rewrite Bx, By. unfold K. ring. }
  assert (ST : (0 < s * t)%Q) by (apply Qmult_lt_0_compat; assumption).
  assert (S5 : (0 < 1 - s)%Q) by lra. assert (T5 : (0 < 1 - t)%Q) by lra.
  assert (Hmain : ~ (K == 0)%Q -> turn (seen (cx, cy) (ax, ay)) (seen (dx, dy) (ax, ay)) + turn (seen (dx, dy) (ax, ay)) (seen (dx, dy) (bx, by_)) +
    turn (seen (dx, dy) (bx, by_)) (seen (cx, cy) (bx, by_)) + turn (seen (cx, cy) (bx, by_)) (seen (cx, cy) (ax, ay)) <> 0).
  { intros HK. apply (four_around _ _ _ _ ((1 - s) * (1 - t)) ((1 - s) * t) (s * t) (s * (1 - t))); try (apply Qmult_lt_0_compat; assumption).
    - cbn [seen snd]. lra.
    - destruct (Qlt_le_dec 0 K) as [P|P].
      + left. split; [apply (pos_factor _ _ _ T3 Q1 P)|]. split; [apply (pos_factor _ _ _ ST Q2), Qmult_lt_0_compat; assumption|].
        split; [apply (pos_factor _ _ _ ST Q3), Qmult_lt_0_compat; assumption|apply (pos_factor _ _ _ S3 Q4 P)].
      + right. assert (P' : (K < 0)%Q) by (destruct (Qlt_le_dec K 0); [assumption|exfalso; apply HK; lra]).
        assert (N : forall w, (0 < w)%Q -> (w * K < 0)%Q) by (intros; nra).
        split; [apply (neg_factor _ _ _ T3 Q1 P')|]. split; [apply (neg_factor _ _ _ ST Q2), N; assumption|].
        split; [apply (neg_factor _ _ _ ST Q3), N; assumption|apply (neg_factor _ _ _ S3 Q4 P')]. }
  destruct (Qeq_dec K 0) as [HK|HK]; [|exact (Hmain HK)]. exfalso. clear Hmain Q1 Q2 Q3 Q4.
  (* all on one line *)
  assert (HA : ~ ((ax - zx == 0)%Q /\ (ay - zy == 0)%Q)).
  { intros [A1 A2]. apply Na. apply (way_same _ _ (zx, zy)); [split; cbn; lra|exact Hz2]. }
  assert (HC : ~ ((cx - zx == 0)%Q /\ (cy - zy == 0)%Q)).
  { intros [A1 A2]. apply Nc. apply (way_same _ _ (zx, zy)); [split; cbn; lra|exact Hz1]. }
  assert (Hl : exists l, (cx - zx == l * (ax - zx))%Q /\ (cy - zy == l * (ay - zy))%Q).
  { unfold K in HK. destruct (Qeq_dec (ax - zx) 0) as [E|E].
    - destruct (Qeq_dec (ay - zy) 0) as [E'|E']; [exfalso; auto|]. exists ((cy - zy) / (ay - zy))%Q. split; [|field; exact E'].
      rewrite E in HK |- *. assert (M : ((ay - zy) * (cx - zx) == 0)%Q) by lra. destruct (Qmult_integral _ _ M) as [M1|M1]; [exfalso; auto|]. rewrite M1. ring.
    - exists ((cx - zx) / (ax - zx))%Q. split; [field; exact E|].
      assert (M : ((ax - zx) * (cy - zy) == (ay - zy) * (cx - zx))%Q) by lra.
      transitivity ((ax - zx) * (cy - zy) / (ax - zx))%Q; [field; exact E|]. rewrite M. field. exact E. }
  destruct Hl as (l & L1 & L2).
  destruct (Qlt_le_dec 0 l) as [P|P].
  - destruct (same_direction (zx, zy) (ax, ay) (cx, cy) l P L1 L2) as [W|W].
    + apply Nc. eapply way_part; eauto.
    + apply Na. eapply way_part; eauto.
  - assert (P' : (l < 0)%Q).
    { destruct (Qlt_le_dec l 0); [assumption|]. exfalso. assert (E : (l == 0)%Q) by lra. apply HC. rewrite L1, L2, E. split; ring. }
    assert (Hd : exists n, (0 < n)%Q /\ (dx - zx == n * (ax - zx))%Q /\ (dy - zy == n * (ay - zy))%Q).
    { assert (Nt : ~ (t == 0)%Q) by lra. exists (- l * ((1 - t) / t))%Q. split.
      - apply Qmult_lt_0_compat; [lra|]. apply Qlt_shift_div_l; lra.
      - split.
        + transitivity ((t * dx - t * zx) / t)%Q; [field; exact Nt|]. rewrite Dx.
          transitivity (- (1 - t) * (cx - zx) / t)%Q; [field; exact Nt|]. rewrite L1. field. exact Nt.
        + transitivity ((t * dy - t * zy) / t)%Q; [field; exact Nt|]. rewrite Dy.
          transitivity (- (1 - t) * (cy - zy) / t)%Q; [field; exact Nt|]. rewrite L2. field. exact Nt. }
    destruct Hd as (n & Pn & N1 & N2).
    destruct (same_direction (zx, zy) (ax, ay) (dx, dy) n Pn N1 N2) as [W|W].
    + apply Nd. eapply way_part; eauto.
    + apply Na. eapply way_part'; eauto.
Qed.

(** ** Two paths and their chords *)

Lemma path_ends_on l : forall a, l <> [] -> on_path (a :: l) a /\ on_path (a :: l) (last l a).
Proof.
  induction l as [|b l IH]; intros a H; [congruence|]. split.
  - apply path_cons. left. exists 0%Q. unfold time, same_place, toward. cbn [fst snd]. split; [lra|]. split; ring.
  - rewrite last_next. apply path_cons. destruct l as [|c l].
    + left. exists 1%Q. unfold time, same_place, toward. cbn [last fst snd]. split; [lra|]. split; ring.
    + right. apply IH. discriminate.
Qed.

Theorem chords_meet a l c m : l <> [] -> m <> [] ->
  ~ (exists z, on_path (a :: l) z /\ on_path (c :: m) z) ->
  ~ (exists z, on_way a (last l a) z /\ on_path (c :: m) z) ->
  ~ (exists z, on_path (a :: l) z /\ on_way c (last m c) z) ->
  ~ (exists z, on_way a (last l a) z /\ on_way c (last m c) z).
Proof.
  intros Hl Hm H1 H2 H3 (z & Z1 & Z2).
  destruct (path_ends_on l a Hl) as [A1 A2]. destruct (path_ends_on m c Hm) as [C1 C2].
  pose proof (around_path a l m c H1 H2) as E. unfold around in E.
  pose proof (path_difference l c (last m c) a H3) as F.
  set (b := last l a) in *. set (d := last m c) in *.
  apply (chords_cross a b c d z); auto.
  - intros K. apply H3. eauto.
  - intros K. apply H3. eauto.
  - intros K. apply H2. eauto.
  - intros K. apply H2. eauto.
  - rewrite (crossing_seen c b a), (crossing_seen d b a) in E.
    pose proof (crossing_anti centre (seen d a) (seen d b)) as N1. pose proof (crossing_anti centre (seen c b) (seen d b)) as N2.
    fold (turn (seen d b) (seen d a)) (turn (seen d a) (seen d b)) in N1. fold (turn (seen d b) (seen c b)) (turn (seen c b) (seen d b)) in N2. lia.
Qed.
