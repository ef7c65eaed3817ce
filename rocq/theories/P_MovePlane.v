(** Affine maps of the plane and the questions of the program. *)
From Coq Require Import QArith Lqa.
From Verif Require Import M_Base M_Float M_Rng M_Geom M_Offset M_Node M_Hdb M_Lnr M_Homotopy M_Relate M_Deform M_Constrain M_ConstDP
  Spec Spec_Hdb Spec_Lnr Spec_Relate Spec_ConstDP Spec_Plane Spec_Out Spec_Move
  P_Base P_Float P_Node P_Hdb P_HdbIns P_Plane P_Move.
Open Scope Z_scope.

Lemma units_le_iff a b : machine a -> machine b -> (fle a b = true <-> units a <= units b).
Proof.
  intros Ha Hb. split; [apply units_le|]. intros H.
  destruct (fle a b) eqn:E; [reflexivity|]. exfalso.
  assert (K : flt b a = true).
  { apply fle_total; [apply Ha|apply Hb|exact E]. }
  apply units_lt in K; auto. lia.
Qed.

Lemma units_feq_iff a b : machine a -> machine b -> (feq a b = true <-> units a = units b).
Proof.
  intros Ha Hb. split; [apply units_eq|]. intros H.
  assert (A : fle a b = true) by (apply units_le_iff; auto; lia). assert (B : fle b a = true) by (apply units_le_iff; auto; lia).
  apply fle_key in A, B. apply feq_key. unfold klt, keq in *. intuition lia.
Qed.
Lemma loc_eq_iff p q : machine_pt p -> machine_pt q -> (loc_eq p q = true <-> (xof p == xof q)%Q /\ (yof p == yof q)%Q).
Proof.
  intros [P1 P2] [Q1 Q2]. unfold loc_eq, xof, yof. rewrite andb_true_iff, !units_feq_iff by assumption. rewrite <- !inject_Z_injective. tauto.
Qed.

Section Affine.
  Variable t : affine.
  Hypothesis Ht : invertible t.

  Lemma carries_back q1 q2 q1' q2' : carries t q1 q1' -> carries t q2 q2' ->
    (fst q1' == fst q2')%Q -> (snd q1' == snd q2')%Q -> (fst q1 == fst q2)%Q /\ (snd q1 == snd q2)%Q.
  Proof.
    intros [A1 A2] [B1 B2] E1 E2. unfold invertible in Ht. rewrite A1, B1 in E1. rewrite A2, B2 in E2. clear A1 A2 B1 B2.
    set (a := af_a t) in *. set (b := af_b t) in *. set (c := af_c t) in *. set (d := af_d t) in *. set (e := af_e t) in *. set (f := af_f t) in *.
    set (x := fst q1) in *. set (y := snd q1) in *. set (x' := fst q2) in *. set (y' := snd q2) in *. clearbody a b c d e f x y x' y'.
    assert (U : (a * (x - x') + b * (y - y') == 0)%Q).
    { setoid_replace (a * (x - x') + b * (y - y'))%Q with ((a * x + b * y + e) - (a * x' + b * y' + e))%Q by ring. rewrite E1. ring. }
    assert (V : (c * (x - x') + d * (y - y') == 0)%Q).
    { setoid_replace (c * (x - x') + d * (y - y'))%Q with ((c * x + d * y + f) - (c * x' + d * y' + f))%Q by ring. rewrite E2. ring. }
    assert (X : ((a * d - b * c) * (x - x') == 0)%Q).
    { setoid_replace ((a * d - b * c) * (x - x'))%Q with (d * (a * (x - x') + b * (y - y')) - b * (c * (x - x') + d * (y - y')))%Q by ring.
      rewrite U, V. ring. }
    assert (Y : ((a * d - b * c) * (y - y') == 0)%Q).
    { setoid_replace ((a * d - b * c) * (y - y'))%Q with (a * (c * (x - x') + d * (y - y')) - c * (a * (x - x') + b * (y - y')))%Q by ring.
      rewrite U, V. ring. }
    apply Qmult_integral in X, Y. destruct X as [X|X]; [contradiction|]. destruct Y as [Y|Y]; [contradiction|]. split; lra.
  Qed.
  Lemma carries_onto q' : exists q, carries t q q'.
  Proof.
    unfold invertible in Ht. set (dt := (af_a t * af_d t - af_b t * af_c t)%Q) in *.
    exists ((af_d t * (fst q' - af_e t) - af_b t * (snd q' - af_f t)) / dt, (af_a t * (snd q' - af_f t) - af_c t * (fst q' - af_e t)) / dt)%Q.
    split; cbn [fst snd]; unfold dt in *; field; exact Ht.
  Qed.
  Lemma carries_to q : exists q', carries t q q'.
  Proof. exists (af_a t * fst q + af_b t * snd q + af_e t, af_c t * fst q + af_d t * snd q + af_f t)%Q. split; cbn [fst snd]; reflexivity. Qed.

  Lemma weighted_moved l l' : Forall2 (moved t) l l' -> forall ws, length ws = length l ->
    carries t (weighted ws l xof, weighted ws l yof) (weighted ws l' xof, weighted ws l' yof) \/ ~ (weighted ws l (fun _ => 1) == 1)%Q.
  Proof.
    intros H ws Hl.
    assert (K : (weighted ws l' xof == af_a t * weighted ws l xof + af_b t * weighted ws l yof + af_e t * weighted ws l (fun _ => 1))%Q /\
                (weighted ws l' yof == af_c t * weighted ws l xof + af_d t * weighted ws l yof + af_f t * weighted ws l (fun _ => 1))%Q).
    { revert ws Hl. induction H as [|p p' l l' (_ & _ & M1 & M2) H IH]; intros [|w ws] Hl; try discriminate; cbn [weighted].
      - split; ring.
      - destruct (IH ws ltac:(cbn in Hl; lia)) as [I1 I2]. cbn [fst snd] in M1, M2. rewrite I1, I2, M1, M2. split; ring. }
    destruct K as [K1 K2]. destruct (Qeq_dec (weighted ws l (fun _ => 1%Q)) 1) as [E|E]; [left|right; exact E].
    split; cbn [fst snd]; [rewrite K1|rewrite K2]; rewrite E; ring.
  Qed.
  Lemma weighted_ones l l' : Forall2 (moved t) l l' -> forall ws, weighted ws l' (fun _ => 1%Q) = weighted ws l (fun _ => 1%Q).
  Proof. induction 1 as [|p p' l l' M H IH]; intros [|w ws]; cbn [weighted]; auto. rewrite IH. reflexivity. Qed.
  Lemma moved_length l l' : Forall2 (moved t) l l' -> length l' = length l.
  Proof. induction 1; cbn; congruence. Qed.

  Lemma hull_moved l l' q q' : Forall2 (moved t) l l' -> carries t q q' -> (in_hull l q <-> in_hull l' q').
  Proof.
    intros H Hq. pose proof (moved_length _ _ H) as El. split; intros (ws & A1 & A2 & A3 & A4 & A5); exists ws; (split; [congruence|]); (split; [exact A2|]).
    - rewrite (weighted_ones _ _ H). split; [exact A3|]. destruct (weighted_moved _ _ H ws A1) as [K|K]; [|contradiction].
      destruct K as [K1 K2], Hq as [Q1 Q2]. cbn [fst snd] in K1, K2. rewrite K1, K2, Q1, Q2, A4, A5. split; reflexivity.
    - rewrite (weighted_ones _ _ H) in A3. split; [exact A3|]. destruct (weighted_moved _ _ H ws ltac:(congruence)) as [K|K]; [|contradiction].
      destruct (carries_back _ _ _ _ K Hq A4 A5) as [E1 E2]. cbn [fst snd] in E1, E2. auto.
  Qed.

  Lemma Forall2_pair {A B} (R : A -> B -> Prop) u a b w l' : Forall2 R (u ++ a :: b :: w) l' ->
    exists u' a' b' w', l' = u' ++ a' :: b' :: w' /\ R a a' /\ R b b'.
  Proof.
    intros H. apply Forall2_app_inv_l in H. destruct H as (u' & v & H1 & H2 & ->). inversion H2 as [|? a' ? v1 Ra H3]; subst.
    inversion H3 as [|? b' ? w' Rb H4]; subst. exists u', a', b', w'. auto.
  Qed.
  Lemma Forall2_pair' {A B} (R : A -> B -> Prop) u a b w l : Forall2 R l (u ++ a :: b :: w) ->
    exists u' a' b' w', l = u' ++ a' :: b' :: w' /\ R a' a /\ R b' b.
  Proof.
    intros H. apply Forall2_app_inv_r in H. destruct H as (u' & v & H1 & H2 & ->). inversion H2 as [|a' ? v1 ? Ra H3]; subst.
    inversion H3 as [|b' ? w' ? Rb H4]; subst. exists u', a', b', w'. auto.
  Qed.

  Lemma polyline_moved l l' q q' : Forall2 (moved t) l l' -> carries t q q' -> (on_polyline l q <-> on_polyline l' q').
  Proof.
    intros H Hq. split.
    - intros (u & a & b & w & -> & K). destruct (Forall2_pair _ _ _ _ _ _ H) as (u' & a' & b' & w' & -> & Ra & Rb).
      exists u', a', b', w'. split; [reflexivity|]. refine (proj1 (hull_moved [a; b] [a'; b'] q q' _ Hq) K). auto.
    - intros (u & a & b & w & -> & K). destruct (Forall2_pair' _ _ _ _ _ _ H) as (u' & a' & b' & w' & -> & Ra & Rb).
      exists u', a', b', w'. split; [reflexivity|]. refine (proj2 (hull_moved [a'; b'] [a; b] q q' _ Hq) K). auto.
  Qed.

  Section Lib.
    Variables (L L' : geomlib) (D D' : geometry -> place -> Prop) (o o' : opts).
    Hypothesis HP : plane_library L D.
    Hypothesis HP' : plane_library L' D'.
    Hypothesis HM : moves_along L L' D D' t o o'.

    Lemma moved_num p p' : moved t p p' -> num_pt p /\ num_pt p'.
    Proof. intros (A & B & _). split; apply machine_num; auto. Qed.
    Lemma moved_all l l' : Forall2 (moved t) l l' -> Forall machine_pt l /\ Forall machine_pt l'.
    Proof. induction 1 as [|p p' l l' (A & B & _) H [I1 I2]]; split; constructor; auto. Qed.
    Lemma machine_all l : Forall machine_pt l -> Forall num_pt l.
    Proof. intros H. eapply Forall_impl; [|exact H]. intros p. apply machine_num. Qed.

    Lemma plane_alike : alike L L' (moved t) (moved_geometry D D' t) o o'.
    Proof.
      split.
      - intros p p' H. destruct (moved_num _ _ H). destruct H as (M & M' & H). split; [apply point_number; auto|]. split; [apply point_number; auto|].
        split; [repeat constructor; apply M|]. split; [repeat constructor; apply M'|]. intros q q' Hq.
        rewrite (pl_point L D HP), (pl_point L' D' HP'). apply hull_moved; auto. repeat constructor; auto; try apply M; try apply M'; apply H.
      - intros a a' b b' Ha Hb. destruct (moved_num _ _ Ha), (moved_num _ _ Hb).
        destruct (moved_all [a; b] [a'; b']) as [M M']; [auto|].
        split; [apply seg_number; auto|]. split; [apply seg_number; auto|]. split; [exact M|]. split; [exact M'|]. intros q q' Hq.
        rewrite (pl_seg L D HP), (pl_seg L' D' HP'). apply hull_moved; auto.
      - intros l l' H2 H. destruct (moved_all _ _ H) as [M M']. pose proof (moved_length _ _ H) as El.
        split; [apply line_number; auto using machine_all|]. split; [apply line_number; auto using machine_all; lia|]. split; [exact M|]. split; [exact M'|].
        intros q q' Hq. rewrite (pl_line L D HP), (pl_line L' D' HP') by lia. apply polyline_moved; auto.
      - intros a a' b b' c c' Ha Hb Hc. destruct (moved_num _ _ Ha), (moved_num _ _ Hb), (moved_num _ _ Hc).
        destruct (moved_all [a; b; c; a] [a'; b'; c'; a']) as [M M']; [auto|].
        split; [apply triangle_number; auto|]. split; [apply triangle_number; auto|]. split; [exact M|]. split; [exact M'|]. intros q q' Hq.
        rewrite (pl_triangle L D HP), (pl_triangle L' D' HP'). apply hull_moved; auto.
      - intros l l' H2 H. split; [|apply (mv_flat _ _ _ _ _ _ _ HM); auto]. destruct (moved_all _ _ H) as [M M']. pose proof (moved_length _ _ H) as El.
        assert (Hne : l <> []) by (intros ->; cbn in H2; lia). assert (Hne' : l' <> []) by (intros ->; cbn in *; lia).
        split; [apply (pl_hull_num L D HP); auto using machine_all|]. split; [apply (pl_hull_num L' D' HP'); auto using machine_all|].
        split; [apply (pl_hull_machine L D HP); auto|]. split; [apply (pl_hull_machine L' D' HP'); auto|]. intros q q' Hq.
        rewrite (pl_hull L D HP), (pl_hull L' D' HP') by assumption. apply hull_moved; auto.
      - intros g g' h h' (G1 & G2 & _ & _ & G3) (H1 & H2 & _ & _ & H3). apply eq_true_iff_eq.
        rewrite (pl_isect L D HP), (pl_isect L' D' HP') by assumption. split.
        + intros (q' & A & B). destruct (carries_onto q') as (q & Hq). exists q. split; [apply (G3 q q' Hq)|apply (H3 q q' Hq)]; assumption.
        + intros (q & A & B). destruct (carries_to q) as (q' & Hq). exists q'. split; [apply (G3 q q' Hq)|apply (H3 q q' Hq)]; assumption.
      - intros p p' q q' Hp Hq. destruct (moved_num _ _ Hp), (moved_num _ _ Hq). rewrite (pl_eq L D HP), (pl_eq L' D' HP') by assumption.
        destruct Hp as (P1 & P2 & P3), Hq as (Q1 & Q2 & Q3). apply eq_true_iff_eq. rewrite !loc_eq_iff by assumption. split.
        + intros [E1 E2]. exact (carries_back _ _ _ _ P3 Q3 E1 E2).
        + intros [E1 E2]. destruct P3 as [P3 P4], Q3 as [Q3 Q4]. cbn [fst snd] in *. rewrite P3, P4, Q3, Q4, E1, E2. split; reflexivity.
      - exact (mv_dist _ _ _ _ _ _ _ HM).
      - exact (mv_meet _ _ _ _ _ _ _ HM).
      - exact (mv_inside _ _ _ _ _ _ _ HM).
      - exact (mv_displaced _ _ _ _ _ _ _ HM).
    Qed.
  End Lib.
End Affine.

Lemma machine_boxes_meet a b q : machine_box a -> machine_box b -> in_box a q -> in_box b q -> boxes_meet a b = true.
Proof.
  intros (A1 & A2 & A3 & A4) (B1 & B2 & B3 & B4) (X1 & X2 & Y1 & Y2) (X3 & X4 & Y3 & Y4).
  unfold boxes_meet. rewrite !andb_true_iff, !units_le_iff by assumption. repeat split; rewrite Zle_Qle; lra.
Qed.

Lemma plane_sound_boxes L D pts cs : plane_library L D -> Forall machine_pt pts ->
  Forall (fun g => number_geometry g /\ Forall machine_pt (geometry_pts g)) cs -> sound_boxes L pts cs.
Proof.
  intros HP Hp Hc. assert (Hn : Forall num_pt pts) by (apply machine_all; exact Hp).
  assert (Hpm : forall r, piece pts r -> points_of pts r <> [] /\ Forall machine_pt (points_of pts r)).
  { intros r (A & B & E). split.
    - intros K. assert (I : In (Spec_Out.vertex pts (rI r)) (points_of pts (Rng (rI r) (rJ r)))) by (apply part_vertex; lia).
      destruct r as [i j]. cbn [rI rJ] in *. rewrite K in I. destruct I.
    - unfold points_of. apply Forall_forall. intros x Hx. apply in_map_iff in Hx. destruct Hx as (k & <- & Hk). apply zseq_in in Hk.
      rewrite Forall_forall in Hp. apply Hp, nth_In. unfold zlen in E. lia. }
  assert (Hpb : forall r, piece pts r -> machine_box (gl_bounds L (piece_hull L pts r)) /\ number_geometry (piece_hull L pts r)).
  { intros r Hr. destruct (Hpm r Hr) as [N M]. pose proof (piece_number L D HP pts r Hn Hr) as Ng. split; [|exact Ng].
    apply (pl_bounds_machine L D HP); [apply Ng|]. apply (pl_hull_machine L D HP); assumption. }
  split.
  - intros r q Hr Hq Hi. destruct (Hpb r Hr) as [Br Nr], (Hpb q Hq) as [Bq Nq].
    apply (pl_isect L D HP) in Hi; auto. destruct Hi as (x & X1 & X2). split.
    + eapply machine_boxes_meet; [exact Br|exact Bq|apply (pl_bounds L D HP); [exact Nr|exact X1]|apply (pl_bounds L D HP); [exact Nq|exact X2]].
    + eapply fle_trans; [apply (pl_touch L D HP _ _ x); auto|]. reflexivity.
  - intros r q Hr Hq H. destruct (Hpb r Hr) as [Br Nr], (Hpb q Hq) as [Bq Nq]. destruct (Hpm r Hr) as [Er _], (Hpm q Hq) as [Eq _].
    apply (pl_isect L D HP); auto. destruct Hr as (R1 & R2 & R3), Hq as (Q1 & Q2 & Q3).
    assert (K : forall k s, rI s <= k <= rJ s -> In (Spec_Out.vertex pts k) (points_of pts s)).
    { intros k [i j] Hk. apply part_vertex. exact Hk. }
    assert (E : exists k, rI r <= k <= rJ r /\ rI q <= k <= rJ q) by (destruct H; [exists (rJ r)|exists (rJ q)]; lia).
    destruct E as (k & K1 & K2). exists (xof (Spec_Out.vertex pts k), yof (Spec_Out.vertex pts k)).
    split; (apply (pl_hull L D HP); [assumption|]); apply in_hull_member, K; assumption.
  - intros r Hr. apply (plane_boxes_enclose L D HP); [|exact Hc]. exact (proj2 (Hpm r Hr)).
Qed.
