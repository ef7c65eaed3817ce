(** A geometry library that computes plane geometry exactly, for examples: whether two convex
    hulls meet is decided by eliminating the weights one by one (Fourier and Motzkin); a polygon
    is taken as the convex hull of its points; the distance is 0 or 1.  It shows that the
    hypothesis [plane_library] can be met.  It is not part of the model of the program. *)
From Coq Require Import QArith Lqa.
From Verif Require Import M_Base M_Float M_Rng M_Geom M_Homotopy M_Hdb M_Lnr M_Deform
  Spec_Hdb Spec_Lnr Spec_Plane P_Base P_Float P_Hdb P_HdbIns P_Plane Toy Toy_Box.
Open Scope Z_scope.

(** ** Linear inequalities *)

(** A row (c, k) stands for c . xs + k >= 0. *)
Definition row : Type := list Q * Q.
Fixpoint dot (c xs : list Q) : Q :=
  match c, xs with a :: c, x :: xs => (a * x + dot c xs)%Q | _, _ => 0%Q end.
Definition holds (xs : list Q) (r : row) : Prop := (0 <= dot (fst r) xs + snd r)%Q.

Definition head (r : row) : Q := match fst r with a :: _ => a | [] => 0%Q end.
Definition rest (r : row) : row := (tl (fst r), snd r).
Definition positive_row (r : row) : bool := negb (Qle_bool (head r) 0).
Definition negative_row (r : row) : bool := negb (Qle_bool 0 (head r)).
Definition zero_row (r : row) : bool := Qle_bool (head r) 0 && Qle_bool 0 (head r).
Fixpoint zip_add (c d : list Q) : list Q :=
  match c, d with a :: c, b :: d => (a + b)%Q :: zip_add c d | _, _ => [] end.
(** [b * rest p + a * rest n], for heads a > 0 and -b < 0. *)
Definition cross (p n : row) : row :=
  (zip_add (map (Qmult (- head n)) (tl (fst p))) (map (Qmult (head p)) (tl (fst n))),
   (- head n * snd p + head p * snd n)%Q).
Definition eliminate (rs : list row) : list row :=
  map rest (filter zero_row rs) ++
  flat_map (fun p => map (cross p) (filter negative_row rs)) (filter positive_row rs).
Fixpoint feasible (n : nat) (rs : list row) : bool :=
  match n with
  | 0%nat => forallb (fun r => Qle_bool 0 (snd r)) rs
  | S n => feasible n (eliminate rs)
  end.

Lemma dot_add c : forall d xs, length c = length d -> (dot (zip_add c d) xs == dot c xs + dot d xs)%Q.
Proof.
  induction c as [|a c IH]; intros [|b d] xs H; try discriminate; cbn [zip_add dot]; [ring|].
  destruct xs as [|x xs]; [ring|]. rewrite IH by (cbn in H; lia). ring.
Qed.
Lemma dot_scale k c : forall xs, (dot (map (Qmult k) c) xs == k * dot c xs)%Q.
Proof. induction c as [|a c IH]; intros [|x xs]; cbn [map dot]; try ring. rewrite IH. ring. Qed.

Lemma between (lows highs : list Q) : (forall l h, In l lows -> In h highs -> (l <= h)%Q) ->
  exists x, (forall l, In l lows -> (l <= x)%Q) /\ (forall h, In h highs -> (x <= h)%Q).
Proof.
  induction lows as [|l lows IH]; intros H.
  - clear H. induction highs as [|h highs IH].
    + exists 0%Q. split; intros ? [].
    + destruct IH as (x & _ & Hx). destruct (Qlt_le_dec x h) as [Hl|Hl].
      * exists x. split; [intros ? []|]. intros k [<- |Hk]; [lra|auto].
      * exists h. split; [intros ? []|]. intros k [<- |Hk]; [lra|]. specialize (Hx k Hk). lra.
  - destruct IH as (x & H1 & H2); [intros; apply H; cbn; auto|]. destruct (Qlt_le_dec x l) as [Hl|Hl].
    + exists l. split; [intros k [<- |Hk]; [lra|specialize (H1 k Hk); lra]|]. intros h Hh. apply H; cbn; auto.
    + exists x. split; [intros k [<- |Hk]; auto|auto].
Qed.

Lemma sign_cases r : positive_row r = true /\ (0 < head r)%Q \/ negative_row r = true /\ (head r < 0)%Q \/ zero_row r = true /\ (head r == 0)%Q.
Proof.
  unfold positive_row, negative_row, zero_row.
  destruct (Qle_bool (head r) 0) eqn:E1; destruct (Qle_bool 0 (head r)) eqn:E2; cbn; try (apply Qle_bool_iff in E1); try (apply Qle_bool_iff in E2).
  - right; right. split; auto. lra.
  - right; left. split; auto. destruct (Qlt_le_dec (head r) 0) as [H|H]; auto. apply Qle_bool_iff in H. congruence.
  - left. split; auto. destruct (Qlt_le_dec 0 (head r)) as [H|H]; auto. apply Qle_bool_iff in H. congruence.
  - left. split; auto. destruct (Qlt_le_dec 0 (head r)) as [H|H]; auto. apply Qle_bool_iff in H. congruence.
Qed.
Lemma positive_iff r : positive_row r = true -> (0 < head r)%Q.
Proof.
  unfold positive_row. intros H. destruct (Qlt_le_dec 0 (head r)) as [K|K]; auto. apply Qle_bool_iff in K. rewrite K in H. discriminate.
Qed.
Lemma negative_iff r : negative_row r = true -> (head r < 0)%Q.
Proof.
  unfold negative_row. intros H. destruct (Qlt_le_dec (head r) 0) as [K|K]; auto. apply Qle_bool_iff in K. rewrite K in H. discriminate.
Qed.
Lemma zero_iff r : zero_row r = true -> (head r == 0)%Q.
Proof. unfold zero_row. rewrite andb_true_iff, !Qle_bool_iff. intros. lra. Qed.

Lemma dot_head r x xs : fst r <> [] -> (dot (fst r) (x :: xs) == head r * x + dot (tl (fst r)) xs)%Q.
Proof. unfold head. destruct (fst r) as [|a c]; [congruence|]. reflexivity. Qed.

Lemma cross_value p n xs : length (fst p) = length (fst n) ->
  (dot (fst (cross p n)) xs + snd (cross p n) ==
   - head n * (dot (tl (fst p)) xs + snd p) + head p * (dot (tl (fst n)) xs + snd n))%Q.
Proof.
  intros H. unfold cross. cbn [fst snd]. rewrite dot_add, !dot_scale; [ring|]. rewrite !map_length.
  destruct (fst p), (fst n); cbn in *; congruence || lia.
Qed.

Lemma eliminate_ok n rs xs : (forall r, In r rs -> length (fst r) = S n) ->
  (forall r, In r (eliminate rs) -> holds xs r) <-> exists x, forall r, In r rs -> holds (x :: xs) r.
Proof.
  intros Hlen.
  assert (Hne : forall r, In r rs -> fst r <> []) by (intros r Hr E; specialize (Hlen r Hr); rewrite E in Hlen; discriminate).
  unfold eliminate. split.
  - intros H.
    set (val := fun r => ((dot (tl (fst r)) xs + snd r) * / head r)%Q).
    destruct (between (map (fun r => - val r)%Q (filter positive_row rs)) (map (fun r => - val r)%Q (filter negative_row rs))) as (x & X1 & X2).
    { intros l h Hl Hh. apply in_map_iff in Hl. destruct Hl as (p & <- & Hp). apply in_map_iff in Hh. destruct Hh as (m & <- & Hm).
      assert (Hc : holds xs (cross p m)).
      { apply H, in_or_app. right. apply in_flat_map. exists p. split; [exact Hp|]. apply in_map. exact Hm. }
      apply filter_In in Hp, Hm. destruct Hp as [Hp Pp], Hm as [Hm Pm]. apply positive_iff in Pp. apply negative_iff in Pm.
      unfold holds in Hc. rewrite cross_value in Hc by (rewrite (Hlen p Hp), (Hlen m Hm); reflexivity).
      unfold val. set (u := (dot (tl (fst p)) xs + snd p)%Q) in *. set (v := (dot (tl (fst m)) xs + snd m)%Q) in *.
      set (a := head p) in *. set (b := head m) in *. clearbody u v a b.
      assert (Ha : ~ (a == 0)%Q) by lra. assert (Hb : ~ (b == 0)%Q) by lra.
      assert (E : (- (v * / b) - - (u * / a) == (- b * u + a * v) * (/ a * / (- b)))%Q) by (field; auto).
      assert (0 <= (- b * u + a * v) * (/ a * / (- b)))%Q.
      { apply Qmult_le_0_compat; [lra|]. apply Qmult_le_0_compat; apply Qinv_le_0_compat; lra. }
      lra. }
    exists x. intros r Hr. unfold holds. rewrite (dot_head r x xs (Hne r Hr)).
    destruct (sign_cases r) as [[S1 S2]|[[S1 S2]|[S1 S2]]].
    + assert (K : (- val r <= x)%Q) by (apply X1, in_map_iff; exists r; split; [reflexivity|apply filter_In; auto]).
      unfold val in K. set (u := (dot (tl (fst r)) xs + snd r)%Q) in *. set (a := head r) in *.
      assert (E : (a * x + dot (tl (fst r)) xs + snd r == a * (x - - (u * / a)))%Q) by (unfold u; field; lra).
      rewrite E. apply Qmult_le_0_compat; lra.
    + assert (K : (x <= - val r)%Q) by (apply X2, in_map_iff; exists r; split; [reflexivity|apply filter_In; auto]).
      unfold val in K. set (u := (dot (tl (fst r)) xs + snd r)%Q) in *. set (a := head r) in *.
      assert (E : (a * x + dot (tl (fst r)) xs + snd r == (- a) * (- (u * / a) - x))%Q) by (unfold u; field; lra).
      rewrite E. apply Qmult_le_0_compat; lra.
    + assert (K : holds xs (rest r)) by (apply H, in_or_app; left; apply in_map, filter_In; auto).
      unfold holds, rest in K. cbn [fst snd] in K. rewrite S2. lra.
  - intros (x & H) r Hr. apply in_app_iff in Hr. destruct Hr as [Hr|Hr].
    + apply in_map_iff in Hr. destruct Hr as (r0 & <- & Hr). apply filter_In in Hr. destruct Hr as [Hr Z0]. apply zero_iff in Z0.
      specialize (H r0 Hr). unfold holds in *. rewrite (dot_head r0 x xs (Hne r0 Hr)), Z0 in H. cbn [rest fst snd]. lra.
    + apply in_flat_map in Hr. destruct Hr as (p & Hp & Hr). apply in_map_iff in Hr. destruct Hr as (m & <- & Hm).
      apply filter_In in Hp, Hm. destruct Hp as [Hp Pp], Hm as [Hm Pm]. apply positive_iff in Pp. apply negative_iff in Pm.
      unfold holds. rewrite cross_value by (rewrite (Hlen p Hp), (Hlen m Hm); reflexivity).
      pose proof (H p Hp) as Kp. pose proof (H m Hm) as Km. unfold holds in Kp, Km.
      rewrite (dot_head p x xs (Hne p Hp)) in Kp. rewrite (dot_head m x xs (Hne m Hm)) in Km.
      set (u := (dot (tl (fst p)) xs)) in *. set (v := (dot (tl (fst m)) xs)) in *.
      assert (E : (- head m * (u + snd p) + head p * (v + snd m) ==
        - head m * (head p * x + u + snd p) + head p * (head m * x + v + snd m))%Q) by ring.
      rewrite E. assert (0 <= - head m * (head p * x + u + snd p))%Q by (apply Qmult_le_0_compat; lra).
      assert (0 <= head p * (head m * x + v + snd m))%Q by (apply Qmult_le_0_compat; lra). lra.
Qed.

Lemma zip_add_length c : forall d, length c = length d -> length (zip_add c d) = length c.
Proof. induction c as [|a c IH]; intros [|b d] H; cbn in *; try discriminate; auto. Qed.
Lemma eliminate_length n rs : (forall r, In r rs -> length (fst r) = S n) -> forall r, In r (eliminate rs) -> length (fst r) = n.
Proof.
  intros H r Hr. unfold eliminate in Hr. apply in_app_iff in Hr. destruct Hr as [Hr|Hr].
  - apply in_map_iff in Hr. destruct Hr as (r0 & <- & Hr). apply filter_In in Hr. specialize (H r0 (proj1 Hr)).
    cbn [rest fst]. destruct (fst r0); cbn in *; [discriminate|]. lia.
  - apply in_flat_map in Hr. destruct Hr as (p & Hp & Hr). apply in_map_iff in Hr. destruct Hr as (m & <- & Hm).
    apply filter_In in Hp, Hm. pose proof (H p (proj1 Hp)). pose proof (H m (proj1 Hm)). cbn [cross fst].
    rewrite zip_add_length; rewrite !map_length; destruct (fst p), (fst m); cbn in *; try discriminate; lia.
Qed.

Lemma feasible_ok n : forall rs, (forall r, In r rs -> length (fst r) = n) ->
  (feasible n rs = true <-> exists xs, length xs = n /\ forall r, In r rs -> holds xs r).
Proof.
  induction n as [|n IH]; intros rs H; cbn [feasible].
  - rewrite forallb_forall. split.
    + intros K. exists []. split; [reflexivity|]. intros r Hr. specialize (K r Hr). apply Qle_bool_iff in K. specialize (H r Hr).
      unfold holds. destruct (fst r); [|discriminate]. cbn [dot]. lra.
    + intros ([|x xs] & E & K) r Hr; [|discriminate]. specialize (K r Hr). specialize (H r Hr). unfold holds in K.
      destruct (fst r); [|discriminate]. cbn [dot] in K. apply Qle_bool_iff. lra.
  - rewrite (IH (eliminate rs) (eliminate_length n rs H)). split.
    + intros (xs & E & K). apply (eliminate_ok n rs xs H) in K. destruct K as (x & K). exists (x :: xs). split; [cbn; congruence|exact K].
    + intros ([|x xs] & E & K); [discriminate|]. exists xs. split; [cbn in E; lia|]. apply (eliminate_ok n rs xs H). exists x. exact K.
Qed.

(** ** Do two convex hulls meet? *)

Definition equation (c : list Q) (k : Q) : list row := [(c, k); (map Qopp c, (- k)%Q)].
Fixpoint unit_rows (before n : nat) : list row :=
  match n with
  | 0%nat => []
  | S n => (repeat 0%Q before ++ 1%Q :: repeat 0%Q n, 0%Q) :: unit_rows (S before) n
  end.
Definition none (l : list point) : list Q := map (fun _ => 0%Q) l.
Definition hull_rows (l l' : list point) : list row :=
  unit_rows 0 (length l + length l') ++
  equation (map (fun _ => 1%Q) l ++ none l') (-1) ++
  equation (none l ++ map (fun _ => 1%Q) l') (-1) ++
  equation (map xof l ++ map (fun p => - xof p)%Q l') 0 ++
  equation (map yof l ++ map (fun p => - yof p)%Q l') 0.
Definition hulls_meet (l l' : list point) : bool := feasible (length l + length l') (hull_rows l l').

Lemma unit_rows_length n : forall k r, In r (unit_rows k n) -> length (fst r) = (k + n)%nat.
Proof.
  induction n as [|n IH]; intros k r H; [destruct H|]. cbn [unit_rows] in H. destruct H as [<- |H].
  - cbn [fst]. rewrite app_length. cbn [length]. rewrite !repeat_length. lia.
  - apply IH in H. lia.
Qed.
Lemma dot_skip us : forall c vs, (dot (repeat 0%Q (length us) ++ c) (us ++ vs) == dot c vs)%Q.
Proof.
  induction us as [|u us IH]; intros c vs; cbn [length repeat app dot]; [reflexivity|]. rewrite IH. ring.
Qed.
Lemma dot_all_zero n : forall xs, (dot (repeat 0%Q n) xs == 0)%Q.
Proof. induction n as [|n IH]; intros [|x xs]; cbn [repeat dot]; try reflexivity. rewrite IH. ring. Qed.

Lemma unit_rows_ok vs : forall us, (forall r, In r (unit_rows (length us) (length vs)) -> holds (us ++ vs) r) <-> Forall (fun w => (0 <= w)%Q) vs.
Proof.
  induction vs as [|v vs IH]; intros us; cbn [length unit_rows].
  - split; [constructor|intros _ r []].
  - assert (E : (dot (repeat 0%Q (length us) ++ 1%Q :: repeat 0%Q (length vs)) (us ++ v :: vs) + 0 == v)%Q).
    { rewrite dot_skip. cbn [dot]. rewrite dot_all_zero. ring. }
    specialize (IH (us ++ [v])). rewrite app_length in IH. cbn [length] in IH. rewrite Nat.add_1_r in IH.
    rewrite <- app_assoc in IH. cbn [app] in IH. split.
    + intros H. constructor.
      * rewrite <- E. apply (H _ (or_introl eq_refl)).
      * apply IH. intros r Hr. apply H. right. exact Hr.
    + intros H. inversion H; subst. intros r [<- |Hr]; [|apply (proj2 IH); auto]. unfold holds. cbn [fst snd]. rewrite E. assumption.
Qed.

Lemma dot_app c d : forall us vs, length us = length c -> (dot (c ++ d) (us ++ vs) == dot c us + dot d vs)%Q.
Proof.
  induction c as [|a c IH]; intros [|u us] vs H; try discriminate; cbn [app dot]; [ring|]. rewrite IH by (cbn in H; lia). ring.
Qed.
Lemma dot_weighted f l : forall ws, (dot (map f l) ws == weighted ws l f)%Q.
Proof. induction l as [|p l IH]; intros [|w ws]; cbn [map dot weighted]; try reflexivity. rewrite IH. ring. Qed.
Lemma dot_none l : forall ws, (dot (none l) ws == 0)%Q.
Proof. induction l as [|p l IH]; intros [|w ws]; cbn; try reflexivity. fold (none l). rewrite IH. ring. Qed.

Lemma dot_opp c : forall xs, (dot (map Qopp c) xs == - dot c xs)%Q.
Proof. induction c as [|a c IH]; intros [|x xs]; cbn [map dot]; try ring. rewrite IH. ring. Qed.
Lemma equation_ok c k xs : (forall r, In r (equation c k) -> holds xs r) <-> (dot c xs + k == 0)%Q.
Proof.
  unfold equation, holds. split.
  - intros H. pose proof (H _ (or_introl eq_refl)) as A. pose proof (H _ (or_intror (or_introl eq_refl))) as B. cbn [fst snd] in *.
    rewrite dot_opp in B. lra.
  - intros H r [<- |[<- |[]]]; cbn [fst snd]; [|rewrite dot_opp]; lra.
Qed.

Lemma hulls_meet_ok l l' : hulls_meet l l' = true <-> exists q, in_hull l q /\ in_hull l' q.
Proof.
  unfold hulls_meet. rewrite feasible_ok.
  2:{ intros r Hr. unfold hull_rows in Hr. rewrite !in_app_iff in Hr. unfold equation in Hr.
      destruct Hr as [Hr|Hr]; [apply unit_rows_length in Hr; exact Hr|]. cbn [In] in Hr.
      repeat (destruct Hr as [Hr|Hr] || destruct Hr); subst; cbn [fst]; unfold none; rewrite ?map_length, ?app_length, ?map_length; lia. }
  assert (K : forall ws vs, length ws = length l -> length vs = length l' ->
    (forall r, In r (hull_rows l l') -> holds (ws ++ vs) r) <->
    (Forall (fun w => (0 <= w)%Q) (ws ++ vs) /\ (weighted ws l (fun _ => 1) == 1)%Q /\ (weighted vs l' (fun _ => 1) == 1)%Q /\
     (weighted ws l xof == weighted vs l' xof)%Q /\ (weighted ws l yof == weighted vs l' yof)%Q)).
  { intros ws vs E1 E2. unfold hull_rows.
    assert (U := unit_rows_ok (ws ++ vs) []). cbn [app length] in U. rewrite app_length, E1, E2 in U.
    assert (A := equation_ok (map (fun _ => 1%Q) l ++ none l') (-1) (ws ++ vs)).
    assert (B := equation_ok (none l ++ map (fun _ => 1%Q) l') (-1) (ws ++ vs)).
    assert (C := equation_ok (map xof l ++ map (fun p => - xof p)%Q l') 0 (ws ++ vs)).
    assert (D := equation_ok (map yof l ++ map (fun p => - yof p)%Q l') 0 (ws ++ vs)).
    rewrite dot_app in A by (rewrite map_length; exact E1). rewrite dot_app in B by (unfold none; rewrite map_length; exact E1).
    rewrite dot_app in C by (rewrite map_length; exact E1). rewrite dot_app in D by (rewrite map_length; exact E1).
    rewrite dot_weighted, dot_none in A. rewrite dot_weighted, dot_none in B.
    rewrite !dot_weighted, weighted_opp in C. rewrite !dot_weighted, weighted_opp in D.
    split.
    - intros H. split; [apply U; intros; apply H, in_or_app; auto|].
      assert (A' := proj1 A (fun r Hr => H r ltac:(rewrite !in_app_iff; auto))).
      assert (B' := proj1 B (fun r Hr => H r ltac:(rewrite !in_app_iff; auto))).
      assert (C' := proj1 C (fun r Hr => H r ltac:(rewrite !in_app_iff; auto))).
      assert (D' := proj1 D (fun r Hr => H r ltac:(rewrite !in_app_iff; auto))).
      repeat split; lra.
    - intros (H1 & H2 & H3 & H4 & H5) r Hr. rewrite !in_app_iff in Hr.
      destruct Hr as [Hr|[Hr|[Hr|[Hr|Hr]]]]; [apply (proj2 U)|apply (proj2 A)|apply (proj2 B)|apply (proj2 C)|apply (proj2 D)]; auto; lra. }
  split.
  - intros (xs & E & H). set (ws := firstn (length l) xs). set (vs := skipn (length l) xs).
    assert (Ex : xs = ws ++ vs) by (symmetry; apply firstn_skipn).
    assert (E1 : length ws = length l) by (unfold ws; rewrite firstn_length; lia).
    assert (E2 : length vs = length l') by (unfold vs; rewrite skipn_length; lia).
    rewrite Ex in H. apply K in H; auto. destruct H as (H1 & H2 & H3 & H4 & H5). apply Forall_app in H1. destruct H1 as [W V].
    exists (weighted ws l xof, weighted ws l yof). split.
    + exists ws. cbn [fst snd]. repeat split; auto; reflexivity.
    + exists vs. cbn [fst snd]. repeat split; auto; symmetry; assumption.
  - intros (q & (ws & A1 & A2 & A3 & A4 & A5) & (vs & B1 & B2 & B3 & B4 & B5)). exists (ws ++ vs). split; [rewrite app_length; lia|].
    apply K; auto. split; [apply Forall_app; auto|]. rewrite A4, A5, B4, B5. repeat split; auto; reflexivity.
Qed.

(** ** The library *)

Definition convex_parts (g : geometry) : list (list point) :=
  match g with
  | GPoint p => [[p]]
  | GSeg a b => [[a; b]]
  | GLine l => map (fun e => [fst e; snd e]) (pairs_of l)
  | GPoly rs => [concat rs]
  end.
Definition places (g : geometry) (q : place) : Prop := exists c, In c (convex_parts g) /\ in_hull c q.
Definition ex_isect (g h : geometry) : bool :=
  existsb (fun c => existsb (hulls_meet c) (convex_parts h)) (convex_parts g).
Definition exact_lib : geomlib :=
  GeomLib bx_hull ex_isect (fun _ _ => []) (fun g h => if ex_isect g h then fzero else fone)
    bx_bounds loc_eq (fun _ _ => false) (fun p q => if loc_eq p q then fzero else fone).

Lemma ex_isect_ok g h : ex_isect g h = true <-> exists q, places g q /\ places h q.
Proof.
  unfold ex_isect, places. rewrite existsb_exists. split.
  - intros (c & Hc & H). apply existsb_exists in H. destruct H as (d & Hd & H). apply hulls_meet_ok in H. destruct H as (q & A & B).
    exists q. split; [exists c|exists d]; auto.
  - intros (q & (c & Hc & A) & (d & Hd & B)). exists c. split; auto. apply existsb_exists. exists d. split; auto. apply hulls_meet_ok. eauto.
Qed.

Lemma pairs_split {A} (a b : A) l : In (a, b) (pairs_of l) <-> exists u w, l = u ++ a :: b :: w.
Proof.
  induction l as [|x l IH].
  - split; [intros []|]. intros ([|? ?] & w & E); discriminate.
  - destruct l as [|y l].
    + split; [intros []|]. intros ([|? [|? ?]] & w & E); discriminate.
    + cbn [pairs_of In] in *. split.
      * intros [E|H]; [injection E as -> ->; exists [], l; reflexivity|]. apply IH in H. destruct H as (u & w & E). exists (x :: u), w. rewrite E. reflexivity.
      * intros ([|z u] & w & E).
        -- injection E as -> -> _. left; reflexivity.
        -- injection E as -> E. right. apply IH. eauto.
Qed.

Lemma single_place (D : list point) q : (exists c, In c [D] /\ in_hull c q) <-> in_hull D q.
Proof. split; [intros (c & [<- |[]] & H); exact H|intros H; exists D; cbn; auto]. Qed.

Lemma corners b q : units (minx b) <= units (maxx b) -> units (miny b) <= units (maxy b) ->
  in_box b q -> in_hull (concat [[ Pt (minx b) (miny b) fzero; Pt (minx b) (maxy b) fzero;
           Pt (maxx b) (maxy b) fzero; Pt (maxx b) (miny b) fzero; Pt (minx b) (miny b) fzero ]]) q.
Proof.
  intros _ _ (X1 & X2 & Y1 & Y2). destruct q as [x y]. cbn [fst snd] in *.
  set (x0 := inject_Z (units (minx b))) in *. set (x1 := inject_Z (units (maxx b))) in *.
  set (y0 := inject_Z (units (miny b))) in *. set (y1 := inject_Z (units (maxy b))) in *.
  assert (S : forall l h z : Q, (l <= z)%Q -> (z <= h)%Q -> exists t, (0 <= t)%Q /\ (t <= 1)%Q /\ (z == (1 - t) * l + t * h)%Q).
  { clear. intros l h z H1 H2. destruct (Qlt_le_dec l h) as [H|H].
    - exists ((z - l) / (h - l))%Q. split; [apply Qle_shift_div_l; lra|]. split; [apply Qle_shift_div_r; lra|]. field. lra.
    - exists 0%Q. repeat split; lra. }
  destruct (S x0 x1 x X1 X2) as (s & S1 & S2 & Es). destruct (S y0 y1 y Y1 Y2) as (t & T1 & T2 & Et).
  exists [(1 - s) * (1 - t); (1 - s) * t; s * t; s * (1 - t); 0]%Q. split; [reflexivity|]. split.
  - repeat (apply Forall_cons; [try (apply Qmult_le_0_compat; lra); lra|]). apply Forall_nil.
  - cbn [concat app weighted xof yof px py fst snd]. unfold xof, yof. cbn [px py]. fold x0 x1 y0 y1. rewrite Es, Et. repeat split; ring.
Qed.

Lemma bounds_in g p : number_geometry g -> In p (geometry_pts g) -> pt_in_box (bx_bounds g) p.
Proof.
  intros (Hne & Hn & _) Hp. apply pt_box_in. unfold bx_bounds. assert (E : verts g = geometry_pts g) by (destruct g; reflexivity).
  rewrite E. apply pts_box_in; [split; assumption|exact Hp].
Qed.
Lemma part_sub g c p : In c (convex_parts g) -> In p c -> In p (geometry_pts g).
Proof.
  destruct g; cbn [convex_parts geometry_pts In].
  - intros [<- |[]]; auto.
  - intros Hc Hp. apply in_map_iff in Hc. destruct Hc as ([a b] & <- & Hab). apply pairs_split in Hab. destruct Hab as (u & w & ->).
    cbn [fst snd In] in Hp. apply in_or_app. cbn. tauto.
  - intros [<- |[]]; auto.
  - intros [<- |[]]; auto.
Qed.

Theorem exact_lib_ok : plane_library exact_lib places.
Proof.
  split.
  - intros p q. unfold places. cbn [convex_parts]. apply single_place.
  - intros a b q. unfold places. cbn [convex_parts]. apply single_place.
  - intros l q _. unfold places, on_polyline. cbn [convex_parts]. split.
    + intros (c & Hc & H). apply in_map_iff in Hc. destruct Hc as ([a b] & <- & Hab). apply pairs_split in Hab. destruct Hab as (u & w & E).
      exists u, a, b, w. auto.
    + intros (u & a & b & w & E & H). exists [a; b]. split; [|exact H]. apply in_map_iff. exists (a, b). split; [reflexivity|].
      apply pairs_split. eauto.
  - intros a b c q. unfold places. cbn [convex_parts]. rewrite single_place. cbn [concat app]. split; apply hull_sub; cbn; tauto.
  - intros b q H1 H2. unfold places. cbn [convex_parts mbr_polygon]. rewrite single_place. split.
    + apply hull_in_box. intros p Hp. rewrite Zle_Qle in H1, H2. cbn [concat app In] in Hp.
      repeat (destruct Hp as [<- |Hp]); try destruct Hp; unfold pt_in_box, in_box, xof, yof; cbn [px py fst snd]; repeat split; auto; apply Qle_refl.
    + apply corners; auto.
  - intros l q Hne. destruct l as [|p [|p' [|p'' r]]]; [congruence|..]; unfold places; cbn [gl_hull exact_lib bx_hull hull_geometry convex_parts pairs_of map fst snd];
      rewrite single_place; try reflexivity. cbn [concat app]. rewrite app_nil_r. reflexivity.
  - intros l Hne Hn. destruct l as [|p [|p' [|p'' r]]]; [congruence|..]; cbn [gl_hull exact_lib bx_hull hull_geometry].
    + split; [discriminate|]. split; [exact Hn|exact I].
    + split; [discriminate|]. split; [exact Hn|cbn; lia].
    + split; [discriminate|]. split; [|exact I]. cbn [geometry_pts concat]. rewrite app_nil_r. exact Hn.
  - intros l Hne Hm. destruct l as [|p [|p' [|p'' r]]]; [congruence|..]; cbn [gl_hull exact_lib bx_hull hull_geometry geometry_pts concat]; rewrite ?app_nil_r; exact Hm.
  - intros g q Hg (c & Hc & H). cbn [gl_bounds exact_lib]. revert H. apply hull_in_box. intros p Hp. apply bounds_in; auto.
    eapply part_sub; eauto.
  - intros g Hne Hm. cbn [gl_bounds exact_lib]. unfold bx_bounds. assert (E : verts g = geometry_pts g) by (destruct g; reflexivity). rewrite E.
    assert (K : forall p, machine_pt p -> box_all machine (pt_box p)) by (intros p [A B]; split; [|split; [|split]]; assumption).
    assert (F : forall r b, box_all machine b -> Forall machine_pt r -> box_all machine (fold_left (fun b q => expand b (pt_box q)) r b)).
    { induction r as [|q r IH]; intros b Hb Hr; cbn [fold_left]; [exact Hb|]. inversion Hr; subst. apply IH; [apply expand_all; auto|assumption]. }
    destruct (geometry_pts g) as [|p r]; [congruence|]. inversion Hm; subst. apply (F r); auto.
  - intros g h _ _. apply ex_isect_ok.
  - intros g h q _ _ A B. cbn [gl_dist exact_lib]. rewrite (proj2 (ex_isect_ok g h)) by eauto. reflexivity.
  - intros g g' h h' _ _ _ _ Hg Hh. cbn [gl_dist exact_lib]. destruct (ex_isect g h) eqn:E.
    + apply ex_isect_ok in E. destruct E as (q & A & B). rewrite (proj2 (ex_isect_ok g' h')) by eauto. reflexivity.
    + destruct (ex_isect g' h'); reflexivity.
  - reflexivity.
Qed.
