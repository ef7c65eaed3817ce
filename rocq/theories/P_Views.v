(** Proofs about the helpers of M_Views. *)
From Coq Require Import Sorting.Sorted.
From Verif Require Import M_Base M_Float M_Rng M_Geom M_Node M_Slice M_Text P_Base P_Slice M_Ctx P_Ctx M_Views Spec_Views.
Open Scope Z_scope.

Lemma map_nth_seq {A} (l : list A) d n : forall k, (k + n <= length l)%nat ->
  map (fun i => nth i l d) (seq k n) = firstn n (skipn k l).
Proof.
  induction n as [|n IH]; intros k H; [reflexivity|]. cbn [seq map]. rewrite IH by lia.
  assert (E : skipn k l = nth k l d :: skipn (S k) l).
  { clear - H. revert k H. induction l as [|x r IH]; intros [|k] H; cbn [length] in H; try lia; [reflexivity|].
    cbn [nth]. change (skipn (S k) (x :: r)) with (skipn k r). rewrite IH by lia. reflexivity. }
  rewrite E. reflexivity.
Qed.
Lemma cpts_zseq pts i j : 0 <= i -> i <= j + 1 -> j < zlen pts -> cpts (Coords pts (zseq i j)) = vertices pts i j.
Proof.
  intros Hi Hij Hj. unfold cpts, vertices. cbn [cidxs cpnts]. unfold zseq. rewrite map_map. unfold zlen in Hj.
  rewrite <- (map_nth_seq pts origin (Z.to_nat (j - i + 1)) (Z.to_nat i)) by lia.
  generalize (Z.to_nat (j - i + 1)). intros n.
  assert (G : forall n k b, map (fun x => nth (Z.to_nat (i + Z.of_nat x)) pts origin) (seq k n) =
    map (fun x => nth x pts origin) (seq (Z.to_nat i + k) n) \/ b = true).
  { clear - Hi. intros n. induction n as [|n IH]; intros k b; left; [reflexivity|]. cbn [seq map]. f_equal.
    - f_equal. lia.
    - destruct (IH (S k) false) as [E|E]; [|discriminate]. rewrite E. f_equal. f_equal. lia. }
  destruct (G n 0%nat false) as [E|E]; [|discriminate]. rewrite E, Nat.add_0_r. reflexivity.
Qed.
Lemma cpt_zseq pts i j k : i <= k <= j -> cpt (Coords pts (zseq i j)) (k - i) = nth (Z.to_nat k) pts origin.
Proof. intros H. unfold cpt. cbn [cidxs cpnts]. rewrite nth_zseq by exact H. reflexivity. Qed.
Lemma zseq_length i j : i <= j + 1 -> length (zseq i j) = Z.to_nat (j - i + 1).
Proof. intros H. pose proof (zseq_len i j H) as E. unfold zlen in E. lia. Qed.
Lemma zseq_last i j d : i <= j -> nth (length (zseq i j) - 1) (zseq i j) d = j.
Proof.
  intros H. rewrite zseq_length by lia. replace (Z.to_nat (j - i + 1) - 1)%nat with (Z.to_nat (j - i)) by lia.
  apply nth_zseq. lia.
Qed.
Lemma zseq_first i j d : i <= j -> nth 0 (zseq i j) d = i.
Proof. intros H. rewrite zseq_cons by exact H. reflexivity. Qed.

Lemma sub_ok p c i j : v_coords p = Some c -> i < j ->
  v_sub p (Rng i j) = Ok (VLine (v_id p) (v_meta p) (Some (Coords (cpnts c) (zseq i j)))).
Proof.
  intros Hc H. unfold v_sub, v_sub_coords, v_view. rewrite Hc. cbn [bind rI rJ].
  destruct (Z.ltb_spec (j - i + 1) 0); [lia|]. cbn [bind]. unfold v_create, clen. cbn [cidxs].
  rewrite zseq_len by lia. destruct (Z.ltb_spec (j - i + 1) 2); [lia|reflexivity].
Qed.

Lemma bounds_ok mk id meta pts i j : i < j ->
  v_bounds mk (VLine id meta (Some (Coords pts (zseq i j)))) =
  Ok (map (fun k => (mk (nth (Z.to_nat k) pts origin) (nth (Z.to_nat (k + 1)) pts origin), k, k + 1)) (zseq i (j - 1))).
Proof.
  intros H. unfold v_bounds, v_view. cbn [v_coords bind]. f_equal. unfold clen. cbn [cidxs]. rewrite zseq_len by lia.
  assert (E : zseq i (j - 1) = map (fun k => k + i) (zseq 0 (j - i + 1 - 2))).
  { unfold zseq. rewrite map_map. replace (Z.to_nat (j - 1 - i + 1)) with (Z.to_nat (j - i + 1 - 2 - 0 + 1)) by lia.
    apply map_ext. intros; lia. }
  rewrite E, map_map. apply map_ext_in. intros k Hk. apply zseq_in in Hk.
  replace (k + 1) with ((k + i + 1) - i) by lia. replace k with ((k + i) - i) at 1 3 by lia.
  rewrite !cpt_zseq by lia. rewrite !nth_zseq by lia. reflexivity.
Qed.

(** * CreateHulls *)
Definition is_pair (n : Z) (l : list Z) : Prop := exists i j t, l = i :: j :: t /\ 0 <= i <= j /\ j < n.

Lemma create_hulls_ok L gen pts inst indices : forall ctr, Forall (is_pair (zlen pts)) indices ->
  exists hs, create_hulls L gen pts inst indices ctr = Ok (hs, (ctr + length indices)%nat) /\
    length hs = length indices /\
    forall k l h, nth_error indices k = Some l -> nth_error hs k = Some h ->
      h = create_node L (gen (ctr + k)%nat) (sub_coords pts (Rng (nth 0 l 0) (nth 1 l 0))) (Rng (nth 0 l 0) (nth 1 l 0)) inst.
Proof.
  induction indices as [|l r IH]; intros ctr H.
  - exists []. cbn [create_hulls length]. rewrite Nat.add_0_r. split; [reflexivity|]. split; [reflexivity|]. intros [|k]; discriminate.
  - apply Forall_cons_iff in H. destruct H as [(i & j & t & -> & Hij & Hj) H]. destruct (IH (S ctr) H) as (hs & E & Ln & A).
    exists (create_node L (gen ctr) (sub_coords pts (Rng i j)) (Rng i j) inst :: hs). cbn [create_hulls].
    destruct (Z.ltb_spec (j - i + 1) 0); [lia|]. rewrite E. cbn [bind length]. split; [|split; [congruence|]].
    + f_equal. f_equal. lia.
    + intros [|k] l h Hl Hh; cbn [nth_error] in *.
      * injection Hl as <-. injection Hh as <-. rewrite Nat.add_0_r. reflexivity.
      * rewrite (A k l h Hl Hh). f_equal. f_equal. lia.
Qed.

(** * Strides *)
Lemma gen_in fuel : forall start stop step x, 0 < step -> stop - start <= Z.of_nat fuel ->
  (In x (gen_values fuel start stop step) <-> start <= x < stop /\ (step | x - start)).
Proof.
  induction fuel as [|f IH]; intros start stop step x Hs Hf; cbn [gen_values].
  - split; [intros []|intros [H _]; lia].
  - destruct (Z.ltb_spec start stop) as [H|H]; [|split; [intros []|intros [H' _]; lia]].
    cbn [In]. rewrite IH by lia. split.
    + intros [<-|[H1 [k Hk]]]; [split; [lia|exists 0; lia]|]. split; [lia|]. exists (k + 1). lia.
    + intros [H1 [k Hk]]. destruct (Z.eq_dec x start) as [->|Hn]; [left; reflexivity|]. right.
      assert (0 < k) by nia. split; [split; [nia|lia]|]. exists (k - 1). lia.
Qed.
Lemma gen_sorted fuel : forall start stop step, 0 < step -> StronglySorted Z.lt (gen_values fuel start stop step).
Proof.
  induction fuel as [|f IH]; intros start stop step Hs; cbn [gen_values]; [constructor|].
  destruct (start <? stop); [|constructor]. constructor; [apply IH; exact Hs|]. apply Forall_forall.
  assert (G : forall f s x, In x (gen_values f s stop step) -> s <= x).
  { clear - Hs. induction f as [|f IH]; intros s x; cbn [gen_values]; [intros []|]. destruct (s <? stop); [|intros []].
    intros [<-|H]; [lia|]. apply IH in H. lia. }
  intros x Hx. apply G in Hx. lia.
Qed.

(** * Pop *)
Lemma pop_ok m s m' s' v : s_ok m s -> s_len s <> 0%nat -> node_pop m s = (m', s', v) ->
  s_read m' s' = removelast (s_read m s) /\ s_read m' v = removelast (s_read m s) ++ [0].
Proof.
  intros (A & B & C) Hl E. unfold node_pop in E. destruct (s_len s) as [|n] eqn:En; [congruence|]. injection E as <- <- <-.
  unfold s_read. cbn [s_arr s_off s_len]. rewrite En, h_write_same by exact A. set (a := nth (s_arr s) m []) in *. clearbody a.
  pose proof (window_write a (s_off s) (S n) n [0] ltac:(cbn [length]; lia) ltac:(lia) ltac:(cbn [length]; lia)) as W.
  cbn [length] in W. rewrite Nat.max_l in W by lia. replace (S n - (n + 1))%nat with 0%nat in W by lia. rewrite firstn_O in W.
  assert (R : removelast (firstn (S n) (skipn (s_off s) a)) = firstn n (skipn (s_off s) a)).
  { apply removelast_firstn. rewrite skipn_length. lia. }
  rewrite R. split; [|exact W].
  set (l := skipn (s_off s) (a_write a (s_off s + n) [0])) in *. clearbody l.
  assert (F : firstn n l = firstn n (firstn (S n) l)) by (rewrite firstn_firstn; f_equal; lia).
  rewrite F, W, firstn_app, firstn_firstn, Nat.min_id, firstn_length, skipn_length.
  replace (n - Nat.min n (length a - s_off s))%nat with 0%nat by lia. cbn [firstn app]. apply app_nil_r.
Qed.
