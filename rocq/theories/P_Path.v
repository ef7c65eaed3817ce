(** Removing vertices over free triangles is a deformation and keeps the crossings with rays. *)
From Coq Require Import QArith Lqa Sorted.
From Verif Require Import M_Base M_Float M_Rng M_Geom M_Node M_Homotopy Spec Spec_Hdb Spec_Run Spec_Relate Spec_Out Spec_Plane Spec_Path
  P_Base P_Float P_Node P_Homotopy P_Relate P_Plane.
Open Scope Z_scope.

(** ** Hulls of two and three points *)

Lemma hull2 a b q : in_hull [a; b] q <-> exists t, time t /\ same_place q (toward t (spot a) (spot b)).
Proof.
  unfold time, same_place, toward, spot. cbn [fst snd]. split.
  - intros (ws & A & B & C & D & E). destruct ws as [|v [|w [|? ?]]]; try discriminate. cbn [weighted] in *.
    inversion B as [|? ? Bv B']; subst. inversion B' as [|? ? Bw _]; subst. exists w.
    assert (Ev : (v == 1 - w)%Q) by lra. rewrite <- D, <- E, Ev. split; [lra|]. split; ring.
  - intros (t & [T1 T2] & [E1 E2]). exists [(1 - t)%Q; t]. cbn [length weighted]. split; [reflexivity|]. split; [|split; [ring|]].
    + constructor; [lra|]. constructor; [lra|constructor].
    + rewrite E1, E2. split; ring.
Qed.

Lemma hull3 a b c q u v w : (0 <= u)%Q -> (0 <= v)%Q -> (0 <= w)%Q -> (u + v + w == 1)%Q ->
  (fst q == u * xof a + v * xof b + w * xof c)%Q -> (snd q == u * yof a + v * yof b + w * yof c)%Q -> in_hull [a; b; c] q.
Proof.
  intros U V W S X Y. exists [u; v; w]. cbn [length weighted]. split; [reflexivity|]. split; [|split; [lra|]].
  - repeat (constructor; [assumption|]). constructor.
  - rewrite X, Y. split; ring.
Qed.

(** ** Paths, piece by piece *)

Definition on_way (a b q : place) : Prop := exists t, time t /\ same_place q (toward t a b).

Lemma path_nil q : ~ on_path [] q.
Proof. intros (u & a & b & w & t & E & _). destruct u; discriminate. Qed.
Lemma path_one a q : ~ on_path [a] q.
Proof. intros (u & x & b & w & t & E & _). destruct u as [|? [|? ?]]; discriminate. Qed.
Lemma path_cons a b w q : on_path (a :: b :: w) q <-> on_way a b q \/ on_path (b :: w) q.
Proof.
  split.
  - intros (u & x & y & v & t & E & H). destruct u as [|z u]; cbn in E.
    + injection E as <- <- <-. left. exists t. exact H.
    + injection E as <- E. right. exists u, x, y, v, t. split; [exact E|exact H].
  - intros [(t & H)|(u & x & y & v & t & E & H)].
    + exists [], a, b, w, t. split; [reflexivity|exact H].
    + exists (a :: u), x, y, v, t. split; [cbn; congruence|exact H].
Qed.
Lemma path_app u : forall a w q, on_path (u ++ a :: w) q <-> on_path (u ++ [a]) q \/ on_path (a :: w) q.
Proof.
  induction u as [|x u IH]; intros a w q; cbn [app].
  - split; [auto|]. intros [H|H]; [destruct (path_one _ _ H)|exact H].
  - destruct u as [|y u]; cbn [app].
    + rewrite !path_cons. split; [tauto|]. intros [[H|H]|H]; auto. destruct (path_one _ _ H).
    + rewrite !path_cons. specialize (IH a w q). cbn [app] in IH. rewrite IH. tauto.
Qed.

Lemma polyline_path l q : on_polyline l q <-> on_path (map spot l) q.
Proof.
  split.
  - intros (u & a & b & w & -> & H). apply hull2 in H. destruct H as (t & H).
    exists (map spot u), (spot a), (spot b), (map spot w), t. split; [rewrite map_app; reflexivity|exact H].
  - intros (u & a & b & w & t & E & H). apply map_eq_app in E. destruct E as (l1 & l2 & -> & E1 & E2).
    destruct l2 as [|p [|p' l2]]; try discriminate. cbn [map] in E2. injection E2 as <- <- <-.
    exists l1, p, p', l2. split; [reflexivity|]. apply hull2. exists t. exact H.
Qed.

(** ** From free triangles to a deformation *)

(** While b moves to a, the two segments at b stay in the triangle. *)
Lemma sweep_first a b c s q : time s -> on_way (spot a) (toward s (spot b) (spot a)) q -> in_hull [a; b; c] q.
Proof.
  unfold time. intros [S1 S2] (t & [T1 T2] & [E1 E2]). unfold toward, spot in *. cbn [fst snd] in *.
  apply (hull3 a b c q (1 - t * (1 - s)) (t * (1 - s)) 0); try (rewrite ?E1, ?E2; ring); try nra.
Qed.
Lemma sweep_second a b c s q : time s -> on_way (toward s (spot b) (spot a)) (spot c) q -> in_hull [a; b; c] q.
Proof.
  unfold time. intros [S1 S2] (t & [T1 T2] & [E1 E2]). unfold toward, spot in *. cbn [fst snd] in *.
  apply (hull3 a b c q ((1 - t) * s) ((1 - t) * (1 - s)) t); try (rewrite ?E1, ?E2; ring); try nra.
Qed.

Lemma average_positive i j k x y z : (0 <= i)%Q -> (0 <= j)%Q -> (0 <= k)%Q -> (i + j + k == 1)%Q ->
  (0 < x)%Q -> (0 < y)%Q -> (0 < z)%Q -> (0 < i * x + j * y + k * z)%Q.
Proof.
  intros I J K S X Y Z.
  assert (A : forall u v, (0 <= u)%Q -> (0 < v)%Q -> (0 <= u * v)%Q) by (intros; apply Qmult_le_0_compat; lra).
  assert (B : forall u v, (0 < u)%Q -> (0 < v)%Q -> (0 < u * v)%Q) by (intros; apply Qmult_lt_0_compat; lra).
  pose proof (A i x I X). pose proof (A j y J Y). pose proof (A k z K Z).
  destruct (Qlt_le_dec 0 i) as [H2|H2]; [pose proof (B i x H2 X); lra|].
  destruct (Qlt_le_dec 0 j) as [H3|H3]; [pose proof (B j y H3 Y); lra|].
  destruct (Qlt_le_dec 0 k) as [H4|H4]; [pose proof (B k z H4 Z); lra|]. lra.
Qed.

Section Free.
  Variable free : place -> Prop.
  Let swept (a b c : point) : Prop := forall q, in_hull [a; b; c] q -> free q.

  Lemma polyline_step u a b c w : swept a b c -> (forall q, on_polyline (u ++ a :: b :: c :: w) q -> free q) ->
    forall q, on_polyline (u ++ a :: c :: w) q -> free q.
  Proof.
    intros Ht Hl q H. apply polyline_path in H. rewrite map_app in H. cbn [map] in H.
    assert (G : forall q, on_path (map spot u ++ [spot a]) q \/ on_path (spot c :: map spot w) q -> free q).
    { intros r Hr. apply Hl, polyline_path. rewrite map_app. cbn [map]. apply path_app. rewrite !path_cons. tauto. }
    apply path_app in H. destruct H as [H|H]; [apply G; auto|]. apply path_cons in H. destruct H as [H|H]; [|apply G; auto].
    apply Ht. eapply hull_sub; [|apply hull2; exact H]. intros p [<- |[<- |[]]]; cbn; auto.
  Qed.

  Lemma shrinks_deforms l e : shrinks swept l e -> (forall q, on_polyline l q -> free q) -> deforms free (map spot l) (map spot e).
  Proof.
    induction 1 as [l|u a b c w l Ht Hs IH]; intros Hl; [constructor|].
    assert (G : forall q, on_path (map spot u ++ [spot a]) q \/ on_path (spot c :: map spot w) q -> free q).
    { intros r Hr. apply Hl, polyline_path. rewrite map_app. cbn [map]. apply path_app. rewrite !path_cons. tauto. }
    rewrite map_app. cbn [map]. apply (deforms_move free (map spot u) (spot a) (spot b) (spot a)).
    - intros s q Hs' H. apply path_app in H. destruct H as [H|H]; [apply G; auto|].
      rewrite !path_cons in H. destruct H as [H|[H|H]]; [| |apply G; auto]; apply Ht.
      + eapply sweep_first; eauto.
      + eapply sweep_second; eauto.
    - apply deforms_merge. specialize (IH (polyline_step _ _ _ _ _ Ht Hl)). rewrite map_app in IH. exact IH.
  Qed.

  (** A straight part: the triangle is covered by its two sides. *)
  Lemma flat_triangle u v a b c q : in_hull [u; v] (spot a) -> in_hull [u; v] (spot b) -> in_hull [u; v] (spot c) ->
    in_hull [a; b; c] q -> in_hull [a; b] q \/ in_hull [b; c] q.
  Proof.
    rewrite !hull2. intros (x & _ & X1 & X2) (y & _ & Y1 & Y2) (z & _ & Z1 & Z2) (ws & A & B & C & D & E).
    destruct ws as [|i [|j [|k [|? ?]]]]; try discriminate. cbn [weighted] in *.
    inversion B as [|? ? Bi B']; subst. inversion B' as [|? ? Bj B'']; subst. inversion B'' as [|? ? Bk _]; subst. clear A B B' B''.
    set (m := (i * x + j * y + k * z)%Q).
    assert (Hq : same_place q (toward m (spot u) (spot v))).
    { unfold same_place, toward, spot in *. cbn [fst snd] in *. rewrite <- D, <- E. rewrite X1, X2, Y1, Y2, Z1, Z2. subst m.
      assert (Ei : (i == 1 - j - k)%Q) by lra. rewrite Ei. split; ring. }
    assert (P : forall s t d e, same_place (spot d) (toward s (spot u) (spot v)) -> same_place (spot e) (toward t (spot u) (spot v)) ->
      (s <= m)%Q /\ (m <= t)%Q \/ (t <= m)%Q /\ (m <= s)%Q -> exists r, time r /\ same_place q (toward r (spot d) (spot e))).
    { intros s t d e [D1 D2] [E1 E2] Hst. destruct (Qeq_dec s t) as [Est|Nst].
      - exists 0%Q. split; [unfold time; lra|]. destruct Hq as [Q1 Q2]. unfold same_place, toward in *. cbn [fst snd] in *.
        assert (Em : (m == s)%Q) by lra. rewrite Q1, Q2, D1, D2, Em. split; ring.
      - exists ((m - s) / (t - s))%Q. destruct Hq as [Q1 Q2]. unfold time, same_place, toward in *. cbn [fst snd] in *. split.
        + destruct Hst as [[H1 H2]|[H1 H2]].
          * assert (0 < t - s)%Q by (destruct (Qlt_le_dec s t); [lra|exfalso; apply Nst; lra]).
            split; [apply Qle_shift_div_l|apply Qle_shift_div_r]; lra.
          * assert (Hp : (0 < s - t)%Q) by (destruct (Qlt_le_dec t s); [lra|exfalso; apply Nst; lra]).
            assert (Er : ((m - s) / (t - s) == (s - m) / (s - t))%Q) by (field; split; lra). rewrite Er.
            split; [apply Qle_shift_div_l|apply Qle_shift_div_r]; lra.
        + rewrite Q1, Q2, D1, D2, E1, E2. split; field; lra. }
    assert (Hm1 : (x <= m \/ y <= m \/ z <= m)%Q).
    { destruct (Qlt_le_dec m x) as [H1|H1]; [|auto]. destruct (Qlt_le_dec m y) as [H2|H2]; [|auto].
      destruct (Qlt_le_dec m z) as [H3|H3]; [|auto]. exfalso.
      assert (K : (0 < i * (x - m) + j * (y - m) + k * (z - m))%Q) by (apply average_positive; lra).
      assert (K2 : (i * (x - m) + j * (y - m) + k * (z - m) == m - (i + j + k) * m)%Q) by (subst m; ring).
      assert (K3 : (i + j + k == 1)%Q) by lra. rewrite K3 in K2. lra. }
    assert (Hm2 : (m <= x \/ m <= y \/ m <= z)%Q).
    { destruct (Qlt_le_dec x m) as [H1|H1]; [|auto]. destruct (Qlt_le_dec y m) as [H2|H2]; [|auto].
      destruct (Qlt_le_dec z m) as [H3|H3]; [|auto]. exfalso.
      assert (K : (0 < i * (m - x) + j * (m - y) + k * (m - z))%Q) by (apply average_positive; lra).
      assert (K2 : (i * (m - x) + j * (m - y) + k * (m - z) == (i + j + k) * m - m)%Q) by (subst m; ring).
      assert (K3 : (i + j + k == 1)%Q) by lra. rewrite K3 in K2. lra. }
    destruct (Qlt_le_dec y m) as [Hy|Hy].
    - destruct (Qlt_le_dec x m) as [Hx|Hx].
      + right. apply (P y z); [split; auto|split; auto|]. left. split; [lra|]. destruct Hm2 as [H|[H|H]]; lra.
      + left. apply (P x y); [split; auto|split; auto|]. right. split; lra.
    - destruct (Qlt_le_dec m x) as [Hx|Hx].
      + destruct (Qlt_le_dec m y) as [Hy'|Hy'].
        * right. apply (P y z); [split; auto|split; auto|]. right. split; [|lra]. destruct Hm1 as [H|[H|H]]; lra.
        * left. apply (P x y); [split; auto|split; auto|]. right. split; lra.
      + left. apply (P x y); [split; auto|split; auto|]. left. split; lra.
  Qed.

  Lemma flat_shrinks u v l : forall a b, (forall p, In p (a :: l ++ [b]) -> in_hull [u; v] (spot p)) ->
    (forall q, on_polyline (a :: l ++ [b]) q -> free q) -> shrinks swept (a :: l ++ [b]) [a; b].
  Proof.
    induction l as [|c l IH]; intros a b Hin Hl; [constructor|].
    assert (Hd : exists d w, l ++ [b] = d :: w) by (destruct l; cbn; eauto). destruct Hd as (d & w & Ed).
    cbn [app] in *. rewrite Ed in Hin, Hl |- *.
    assert (Ht : swept a c d).
    { intros q Hq. apply Hl, polyline_path. cbn [map]. rewrite !path_cons.
      destruct (flat_triangle u v a c d q) as [H|H]; try (apply Hin; cbn; auto); auto; apply hull2 in H; auto. }
    apply (shrinks_step swept [] a c d w [a; b] Ht). cbn [app]. rewrite <- Ed. apply IH.
    - intros p Hp. apply Hin. rewrite <- Ed. destruct Hp as [<- |Hp]; cbn; auto.
    - rewrite Ed. apply (polyline_step [] a c d w Ht Hl).
  Qed.
End Free.

(** ** Whole lines from their parts *)

Lemma shrinks_ctx {A} (free : A -> A -> A -> Prop) u w l e : shrinks free l e -> shrinks free (u ++ l ++ w) (u ++ e ++ w).
Proof.
  induction 1 as [l|x a b c y l Hf Hs IH]; [constructor|]. revert IH. rewrite <- !app_assoc. cbn [app].
  rewrite !(app_assoc u x). apply shrinks_step. exact Hf.
Qed.

Lemma points_cut pts a b n : a <= b -> b <= n + 1 ->
  points_of pts (Rng a n) = points_of pts (Rng a (b - 1)) ++ points_of pts (Rng b n).
Proof.
  intros H1 H2. unfold points_of. cbn [rI rJ]. rewrite (zseq_app a (b - 1) n) by lia.
  replace (b - 1 + 1) with b by lia. apply map_app.
Qed.
Lemma points_first pts a n : a <= n -> points_of pts (Rng a n) = Spec_Out.vertex pts a :: points_of pts (Rng (a + 1) n).
Proof. intros H. unfold points_of. cbn [rI rJ]. rewrite zseq_cons by lia. reflexivity. Qed.
Lemma points_last pts a b : a <= b -> points_of pts (Rng a b) = points_of pts (Rng a (b - 1)) ++ [Spec_Out.vertex pts b].
Proof.
  intros H. rewrite (points_cut pts a b b) by lia. rewrite (points_first pts b b) by lia.
  f_equal. unfold points_of. cbn [rI rJ]. rewrite zseq_nil by lia. reflexivity.
Qed.

Lemma points_whole pts : points_of pts (Rng 0 (zlen pts - 1)) = pts.
Proof.
  unfold points_of. cbn [rI rJ]. apply nth_ext with (d := origin) (d' := origin).
  - rewrite map_length. pose proof (zseq_nat 0 (zlen pts - 1)) as K. unfold zlen in *. rewrite K by lia. lia.
  - intros k Hk. rewrite map_length in Hk. pose proof (zseq_nat 0 (zlen pts - 1)) as K. unfold zlen in *. rewrite K in Hk by lia.
    rewrite (nth_indep _ origin (nth (Z.to_nat 0) pts origin)) by (rewrite map_length, K; lia).
    rewrite (map_nth (fun k => nth (Z.to_nat k) pts origin)). f_equal. unfold zseq.
    rewrite (nth_indep _ 0 (0 + Z.of_nat 0)) by (rewrite map_length, seq_length; lia).
    rewrite (map_nth (fun k => 0 + Z.of_nat k)), seq_nth by lia. lia.
Qed.

Lemma parts_shrink free pts s : forall a n, StronglySorted Z.lt (a :: s) -> last (a :: s) (-1) = n ->
  (forall x y, next_kept (a :: s) x y -> shrinks free (points_of pts (Rng x y)) [Spec_Out.vertex pts x; Spec_Out.vertex pts y]) ->
  shrinks free (points_of pts (Rng a n)) (map (Spec_Out.vertex pts) (a :: s)).
Proof.
  induction s as [|b s IH]; intros a n Hs Hl H.
  - cbn in Hl. subst n. rewrite points_first by lia. unfold points_of. cbn [rI rJ]. rewrite zseq_nil by lia. constructor.
  - inversion Hs as [|? ? Hs' Ha]; subst. pose proof Hs' as Hs2. inversion Hs2 as [|? ? _ Hb]; subst.
    rewrite Forall_forall in Ha, Hb. assert (Hab : a < b) by (apply Ha; left; reflexivity).
    assert (Hn : b <= last (a :: b :: s) (-1)).
    { change (last (a :: b :: s) (-1)) with (last (b :: s) (-1)).
      assert (In (last (b :: s) (-1)) (b :: s)).
      { destruct (list_snoc (b :: s)) as [E|(w & x & E)]; [discriminate|]. rewrite E, last_last. apply in_or_app. right. left. reflexivity. }
      destruct H0 as [<- |H0]; [lia|]. specialize (Hb _ H0). lia. }
    rewrite (points_cut pts a b) by lia.
    assert (Hp : shrinks free (points_of pts (Rng a b)) [Spec_Out.vertex pts a; Spec_Out.vertex pts b]).
    { apply H. split; [left; reflexivity|]. split; [right; left; reflexivity|]. split; [exact Hab|].
      intros x [<- |[<- |Hx]]; try lia. specialize (Hb x Hx). lia. }
    rewrite (points_last pts a b) in Hp by lia. rewrite (points_first pts b) by lia.
    apply shrinks_trans with (Spec_Out.vertex pts a :: points_of pts (Rng b (last (a :: b :: s) (-1)))).
    + rewrite (points_first pts b) by lia.
      pose proof (shrinks_ctx free [] (points_of pts (Rng (b + 1) (last (a :: b :: s) (-1)))) _ _ Hp) as K.
      cbn [app] in K. rewrite <- app_assoc in K. exact K.
    + assert (K : shrinks free (points_of pts (Rng b (last (a :: b :: s) (-1)))) (map (Spec_Out.vertex pts) (b :: s))).
      { apply IH; [exact Hs'|reflexivity|]. intros x y (X1 & X2 & X3 & X4). apply H. split; [right; exact X1|]. split; [right; exact X2|].
        split; [exact X3|]. intros z [<- |Hz]; [|auto]. intros [Z1 _]. destruct X1 as [<- |X1]; [lia|]. specialize (Hb x X1). lia. }
      pose proof (shrinks_ctx free [Spec_Out.vertex pts a] [] _ _ K) as K2. rewrite !app_nil_r in K2. exact K2.
Qed.

(** ** Crossings *)

Lemma side_sum a b c z : (side a b z + side b c z + side c a z == side a b c)%Q.
Proof. unfold side. ring. Qed.

(** All three sides on one hand and not all zero: inside the triangle. *)
Definition in_tri (a b c z : place) : Prop := exists u v w,
  (0 <= u)%Q /\ (0 <= v)%Q /\ (0 <= w)%Q /\ (u + v + w == 1)%Q /\
  (fst z == u * fst a + v * fst b + w * fst c)%Q /\ (snd z == u * snd a + v * snd b + w * snd c)%Q.
Lemma sides_hull a b c z (k : Q) : (0 <= k * side a b z)%Q -> (0 <= k * side b c z)%Q -> (0 <= k * side c a z)%Q ->
  (0 < k * side a b z + k * side b c z + k * side c a z)%Q -> in_tri a b c z.
Proof.
  intros H1 H2 H3 HS.
  set (w1 := (k * side a b z)%Q) in *. set (w2 := (k * side b c z)%Q) in *. set (w3 := (k * side c a z)%Q) in *. set (S := (w1 + w2 + w3)%Q) in *.
  assert (Hn : ~ (S == 0)%Q) by lra.
  exists (w2 / S)%Q, (w3 / S)%Q, (w1 / S)%Q. do 3 (split; [apply Qle_shift_div_l; lra|]). split; [|split].
  - subst S. field. exact Hn.
  - assert (E : (S * fst z == w2 * fst a + w3 * fst b + w1 * fst c)%Q) by (subst S w1 w2 w3; unfold side; ring).
    assert (E' : (fst z == S * fst z / S)%Q) by (field; exact Hn). rewrite E', E. field. exact Hn.
  - assert (E : (S * snd z == w2 * snd a + w3 * snd b + w1 * snd c)%Q) by (subst S w1 w2 w3; unfold side; ring).
    assert (E' : (snd z == S * snd z / S)%Q) by (field; exact Hn). rewrite E', E. field. exact Hn.
Qed.

Lemma side_level a b c z : (side b c z * (snd z - snd a) == side c a z * (snd b - snd z) + side a b z * (snd c - snd z))%Q.
Proof. unfold side. ring. Qed.

Ltac qbool := repeat match goal with
  | |- context [Qle_bool ?x ?y] => let E := fresh "E" in destruct (Qle_bool x y) eqn:E;
      [apply Qle_bool_iff in E|assert (~ (x <= y)%Q) by (let H := fresh in intros H; apply Qle_bool_iff in H; congruence); clear E]
  end.

Lemma crossing_anti z a b : crossing z b a = - crossing z a b.
Proof.
  assert (E : (side b a z == - side a b z)%Q) by (unfold side; ring).
  unfold crossing. qbool; try reflexivity; lra.
Qed.

Section Triangle.
  Variables (a b c z : place).
  Hypothesis out : ~ in_tri a b c z.

  Lemma apex_low : (snd a <= snd z)%Q -> (snd z < snd b)%Q -> (snd z < snd c)%Q ->
    crossing z a b + crossing z c a = 0.
  Proof.
    intros A B C. pose proof (side_level a b c z) as K.
    set (w1 := side a b z) in *. set (w2 := side b c z) in *. set (w3 := side c a z) in *.
    unfold crossing. fold w1 w3. qbool; try reflexivity; try lra; exfalso; apply out.
    - apply (sides_hull a b c z (-1)%Q); fold w1 w2 w3; try nra.
    - apply (sides_hull a b c z 1%Q); fold w1 w2 w3; try nra.
  Qed.
  Lemma apex_high : (snd z < snd a)%Q -> (snd b <= snd z)%Q -> (snd c <= snd z)%Q ->
    crossing z a b + crossing z c a = 0.
  Proof.
    intros A B C. pose proof (side_level a b c z) as K.
    set (w1 := side a b z) in *. set (w2 := side b c z) in *. set (w3 := side c a z) in *.
    unfold crossing. fold w1 w3. qbool; try reflexivity; try lra; exfalso; apply out.
    - apply (sides_hull a b c z 1%Q); fold w1 w2 w3; try nra.
    - apply (sides_hull a b c z (-1)%Q); fold w1 w2 w3; try nra.
  Qed.
End Triangle.

Lemma level_zero z a b : ((snd a <= snd z)%Q /\ (snd b <= snd z)%Q) \/ ((snd z < snd a)%Q /\ (snd z < snd b)%Q) -> crossing z a b = 0.
Proof. intros H. unfold crossing. qbool; try reflexivity; lra. Qed.

Lemma tri_turn a b c z : in_tri b c a z -> in_tri a b c z.
Proof.
  intros (u & v & w & A & B & C & D & E & F). exists w, u, v. do 3 (split; [assumption|]). split; [lra|]. rewrite E, F. split; ring.
Qed.

Lemma triangle_crossing z a b c : ~ in_tri a b c z ->
  crossing z a b + crossing z b c = crossing z a c.
Proof.
  intros H.
  assert (H1 : ~ in_tri b c a z) by (intros K; apply H; apply tri_turn; exact K).
  assert (H2 : ~ in_tri c a b z) by (intros K; apply H; do 2 apply tri_turn; exact K).
  pose proof (crossing_anti z a c) as A.
  destruct (Qlt_le_dec (snd z) (snd a)) as [La|La], (Qlt_le_dec (snd z) (snd b)) as [Lb|Lb],
    (Qlt_le_dec (snd z) (snd c)) as [Lc|Lc].
  - rewrite !level_zero by auto. reflexivity.
  - pose proof (apex_low _ _ _ _ H2 Lc La Lb). rewrite (level_zero z a b) by auto. lia.
  - pose proof (apex_low _ _ _ _ H1 Lb Lc La). rewrite (level_zero z a c) by auto. lia.
  - pose proof (apex_high _ _ _ _ H La Lb Lc). rewrite (level_zero z b c) by auto. lia.
  - pose proof (apex_low _ _ _ _ H La Lb Lc). rewrite (level_zero z b c) by auto. lia.
  - pose proof (apex_high _ _ _ _ H1 Lb Lc La). rewrite (level_zero z a c) by auto. lia.
  - pose proof (apex_high _ _ _ _ H2 Lc La Lb). rewrite (level_zero z a b) by auto. lia.
  - rewrite !level_zero by auto. reflexivity.
Qed.

Lemma crossings_app z u : forall a w, crossings z (u ++ a :: w) = crossings z (u ++ [a]) + crossings z (a :: w).
Proof.
  induction u as [|x u IH]; intros a w; [cbn; lia|]. destruct u as [|y u].
  - cbn. destruct w; lia.
  - cbn [app] in *. change (crossing z x y + crossings z (y :: u ++ a :: w) = crossing z x y + crossings z (y :: u ++ [a]) + crossings z (a :: w)).
    rewrite (IH a w). lia.
Qed.

Lemma shrinks_crossings z l e : shrinks (fun a b c => ~ in_hull [a; b; c] z) l e ->
  crossings z (map spot l) = crossings z (map spot e).
Proof.
  induction 1 as [l|u a b c w l Ht Hs IH]; [reflexivity|]. rewrite <- IH. rewrite !map_app. cbn [map].
  rewrite (crossings_app z (map spot u) (spot a) (spot b :: _)), (crossings_app z (map spot u) (spot a) (spot c :: _)).
  assert (T : crossing z (spot a) (spot b) + crossing z (spot b) (spot c) = crossing z (spot a) (spot c)).
  { apply triangle_crossing. intros (x & y & v & A & B & C & D & E & F). apply Ht. apply (hull3 a b c z x y v); assumption. }
  change (crossings z (map spot u ++ [spot a]) + (crossing z (spot a) (spot b) + (crossing z (spot b) (spot c) + crossings z (spot c :: map spot w))) =
          crossings z (map spot u ++ [spot a]) + (crossing z (spot a) (spot c) + crossings z (spot c :: map spot w))). lia.
Qed.

(** ** Deformations keep the crossings with the rays from places that are not free *)

Lemma way_first a b b' z : in_tri a b b' z -> exists s, time s /\ on_way a (toward s b b') z.
Proof.
  intros (u & v & w & A & B & C & D & E & F). destruct (Qeq_dec (v + w) 0) as [H|H].
  - exists 0%Q. split; [unfold time; lra|]. exists 0%Q. split; [unfold time; lra|]. unfold same_place, toward. cbn [fst snd].
    assert (Ev : (v == 0)%Q) by lra. assert (Ew : (w == 0)%Q) by lra. assert (Eu : (u == 1)%Q) by lra. rewrite E, F, Eu, Ev, Ew. split; ring.
  - assert (P : (0 < v + w)%Q) by (destruct (Qlt_le_dec 0 (v + w)); [assumption|exfalso; apply H; lra]).
    exists (w / (v + w))%Q. split; [split; [apply Qle_shift_div_l|apply Qle_shift_div_r]; lra|].
    exists (v + w)%Q. split; [unfold time; lra|]. unfold same_place, toward. cbn [fst snd].
    assert (Eu : (u == 1 - (v + w))%Q) by lra. rewrite E, F, Eu. split; field; exact H.
Qed.
Lemma way_back a b z : on_way a b z -> on_way b a z.
Proof.
  intros (t & [T1 T2] & E1 & E2). exists (1 - t)%Q. unfold time, same_place, toward in *. cbn [fst snd] in *. split; [lra|].
  rewrite E1, E2. split; ring.
Qed.

Lemma deforms_crossings free z l l' : deforms free l l' -> ~ free z -> crossings z l = crossings z l'.
Proof.
  intros H Hz. induction H as [l|u a b b' c w l Hf H IH|u a w l H IH]; [reflexivity| |]; rewrite <- IH; clear IH.
  - assert (T1 : crossing z a b + crossing z b b' = crossing z a b').
    { apply triangle_crossing. intros K. destruct (way_first _ _ _ _ K) as (s & Hs & K'). apply Hz, (Hf s); [exact Hs|].
      apply path_app. right. rewrite !path_cons. auto. }
    assert (T2 : crossing z c b + crossing z b b' = crossing z c b').
    { apply triangle_crossing. intros K. destruct (way_first _ _ _ _ K) as (s & Hs & K'). apply Hz, (Hf s); [exact Hs|].
      apply way_back in K'. apply path_app. right. rewrite !path_cons. auto. }
    rewrite (crossing_anti z b c), (crossing_anti z b' c) in T2.
    rewrite (crossings_app z u a (b :: _)), (crossings_app z u a (b' :: _)).
    change (crossings z (u ++ [a]) + (crossing z a b + (crossing z b c + crossings z (c :: w))) =
            crossings z (u ++ [a]) + (crossing z a b' + (crossing z b' c + crossings z (c :: w)))). lia.
  - rewrite (crossings_app z u a (a :: _)), (crossings_app z u a w).
    change (crossings z (u ++ [a]) + (crossing z a a + crossings z (a :: w)) = crossings z (u ++ [a]) + crossings z (a :: w)).
    rewrite level_zero; [lia|]. destruct (Qlt_le_dec (snd z) (snd a)); auto.
Qed.
