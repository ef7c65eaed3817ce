(** The decomposition as a recursion tree: it is the same tree for every threshold up to where
    it is cut, and the tree of the simplified line is the tree of the line. *)
From Verif Require Import M_Base M_Float M_Rng M_Geom M_Offset M_Node M_Decompose Spec P_Base P_Float P_Decompose.
From Coq Require Import Sorted.
Open Scope Z_scope.

Section Tree.
  Variables (pts : list point) (score : scorefn).

  Inductive tree (rel : f64 -> bool) : rng -> list rng -> Prop :=
  | T_leaf r : rel (snd (score (sub_coords pts r))) = true -> tree rel r [r]
  | T_node r l1 l2 :
      rel (snd (score (sub_coords pts r))) = false ->
      tree rel (Rng (rI r) (rI r + fst (score (sub_coords pts r)))) l1 ->
      tree rel (Rng (rI r + fst (score (sub_coords pts r))) (rJ r)) l2 ->
      tree rel r (l1 ++ l2).

  Lemma dp_loop_tree L gen inst rel fuel : forall st acc ctr hs ctr',
    dp_loop L gen pts inst score rel fuel st acc ctr = Ok (hs, ctr') ->
    exists ls, Forall2 (tree rel) st ls /\ map n_rng hs = map n_rng (rev acc) ++ concat ls.
  Proof.
    induction fuel as [|f IH]; intros st acc ctr hs ctr' E; [discriminate|].
    cbn [dp_loop] in E. destruct st as [|r st].
    - injection E as <- <-. exists []. split; [constructor|]. cbn. rewrite app_nil_r. reflexivity.
    - destruct (score (sub_coords pts r)) as [k v] eqn:Es. destruct (rel v) eqn:Er.
      + destruct (IH _ _ _ _ _ E) as (ls & H1 & H2). exists ([r] :: ls). split.
        * constructor; [|exact H1]. apply T_leaf. rewrite Es. exact Er.
        * rewrite H2. cbn [rev concat]. rewrite map_app, <- app_assoc. reflexivity.
      + destruct (IH _ _ _ _ _ E) as (ls & H1 & H2).
        inversion H1 as [|? l1 ? ls1 A1 H3]; subst. inversion H3 as [|? l2 ? ls2 A2 H4]; subst.
        exists ((l1 ++ l2) :: ls2). split.
        * constructor; [|exact H4]. apply T_node; rewrite Es; cbn [fst snd]; auto.
        * rewrite H2. cbn [concat]. rewrite <- app_assoc. reflexivity.
  Qed.

  Lemma tree_unique rel r l1 : tree rel r l1 -> forall l2, tree rel r l2 -> l1 = l2.
  Proof.
    induction 1 as [r A|r a b A Ha IHa Hb IHb]; intros l2 H.
    - inversion H; subst; [reflexivity|congruence].
    - inversion H; subst; [congruence|]. f_equal; auto.
  Qed.

  Lemma tree_chain rel r l : splits_inside score rel -> tree rel r l -> rI r < rJ r -> chain (rI r) (rJ r) l.
  Proof.
    intros Hs. induction 1 as [r A|r a b A Ha IHa Hb IHb]; intros Hr.
    - cbn. auto.
    - destruct (Hs (sub_coords pts r)) as [K|K]; [rewrite clen_sub; lia|congruence|].
      rewrite clen_sub in K by lia. cbn [rI rJ] in IHa, IHb. apply chain_app. eexists. split; [apply IHa|apply IHb]; lia.
  Qed.

  Definition is_end (l : list rng) (x : Z) : Prop := exists r, In r l /\ (x = rI r \/ x = rJ r).

  Lemma is_end_app a b x : is_end (a ++ b) x <-> is_end a x \/ is_end b x.
  Proof.
    unfold is_end. split.
    - intros (r & H & K). apply in_app_iff in H. destruct H; [left|right]; eauto.
    - intros [(r & H & K)|(r & H & K)]; exists r; rewrite in_app_iff; auto.
  Qed.

  Lemma chain_is_end lo hi l : lo < hi -> chain lo hi l -> is_end l lo /\ is_end l hi.
  Proof.
    revert lo. induction l as [|r l IH]; intros lo Hlt H; cbn in H; [lia|].
    destruct H as (H1 & H2 & H3). split; [exists r; cbn; auto|].
    destruct (Z.eq_dec (rJ r) hi) as [E|E]; [exists r; cbn; auto|].
    pose proof (chain_le _ _ _ H3). destruct (IH (rJ r) ltac:(lia) H3) as [_ (q & Q1 & Q2)]. exists q. cbn; auto.
  Qed.

  (** A laxer relation cuts the tree earlier. *)
  Lemma tree_mono rel1 rel2 r l2 : (forall v, rel1 v = true -> rel2 v = true) -> splits_inside score rel1 ->
    tree rel2 r l2 -> rI r < rJ r -> forall l1, tree rel1 r l1 -> forall x, is_end l2 x -> is_end l1 x.
  Proof.
    intros Hr Hs. induction 1 as [r A|r a b A Ha IHa Hb IHb]; intros Hlt l1 H x Hx.
    - destruct Hx as (q & [<- |[]] & Hx). destruct (chain_is_end _ _ _ Hlt (tree_chain _ _ _ Hs H Hlt)).
      destruct Hx as [-> | ->]; assumption.
    - inversion H as [r' B|r' a' b' B Ha' Hb']; subst; [apply Hr in B; congruence|].
      destruct (Hs (sub_coords pts r)) as [K|K]; [rewrite clen_sub; lia|congruence|].
      rewrite clen_sub in K by lia. cbn [rI rJ] in IHa, IHb.
      apply is_end_app in Hx. apply is_end_app. destruct Hx as [Hx|Hx]; [left|right].
      + apply (IHa ltac:(lia) _ Ha' x Hx).
      + apply (IHb ltac:(lia) _ Hb' x Hx).
  Qed.
End Tree.

(** ** The simplified line *)

Section Again.
  Variables (pts : list point) (distfn : point -> point -> point -> f64) (rel : f64 -> bool).
  Hypothesis rel0 : rel fzero = true.
  (** The kept indices, and the line they pick. *)
  Variable s : list Z.
  Definition at_s (i : Z) : Z := nth (Z.to_nat i) s 0.
  Definition pts' : list point := map (fun k => nth (Z.to_nat k) pts origin) s.
  Hypothesis Hinc : increasing s.

  Lemma at_s_lt : forall i j, 0 <= i < j -> j < zlen s -> at_s i < at_s j.
  Proof.
    unfold at_s, zlen. intros i j H1 H2. assert (K : (Z.to_nat i < Z.to_nat j < length s)%nat) by lia. clear H1 H2.
    revert K. generalize (Z.to_nat i) (Z.to_nat j). clear -Hinc. induction Hinc as [|x l Hl IH Hx]; intros a b K.
    - cbn in K; lia.
    - destruct b as [|b]; [lia|]. destruct a as [|a]; cbn [nth].
      + rewrite Forall_forall in Hx. apply Hx, nth_In. cbn in K; lia.
      + apply IH; [exact Hl|]. cbn in K; lia.
  Qed.
  Lemma at_s_in x : In x s -> exists i, 0 <= i < zlen s /\ at_s i = x.
  Proof.
    intros H. apply (In_nth _ _ 0) in H. destruct H as (n & Hn & E). exists (Z.of_nat n).
    unfold at_s, zlen. rewrite Nat2Z.id. split; [lia|exact E].
  Qed.
  Lemma at_s_inv i j : 0 <= i < zlen s -> 0 <= j < zlen s -> at_s i < at_s j -> i < j.
  Proof.
    intros Hi Hj H. destruct (Z.lt_trichotomy i j) as [K|[-> |K]]; [exact K|lia|].
    pose proof (at_s_lt j i ltac:(lia) ltac:(lia)). lia.
  Qed.

  Lemma cpt_sub (p : list point) r m : rI r <= rI r + m <= rJ r ->
    cpt (sub_coords p r) m = nth (Z.to_nat (rI r + m)) p origin.
  Proof.
    intros H. unfold cpt, sub_coords. cbn [cidxs cpnts].
    replace (Z.to_nat m) with (Z.to_nat (rI r + m - rI r)) by lia. rewrite nth_zseq by lia. reflexivity.
  Qed.
  Lemma pts'_nth i : 0 <= i < zlen s -> nth (Z.to_nat i) pts' origin = nth (Z.to_nat (at_s i)) pts origin.
  Proof.
    intros H. unfold pts', at_s. rewrite (nth_indep _ origin (nth (Z.to_nat 0) pts origin)) by (rewrite map_length; unfold zlen in H; lia).
    rewrite (map_nth (fun k => nth (Z.to_nat k) pts origin)). reflexivity.
  Qed.

  Lemma tree_again r l : tree pts (max_offset distfn) rel r l ->
    forall i j, 0 <= i < j -> j < zlen s -> r = Rng (at_s i) (at_s j) ->
    (forall x, at_s i <= x <= at_s j -> (In x s <-> is_end l x)) ->
    tree pts' (max_offset distfn) rel (Rng i j) (map (fun m => Rng m (m + 1)) (zseq i (j - 1))).
  Proof.
    pose proof (max_offset_splits distfn rel rel0) as Hs.
    induction 1 as [r A|r l1 l2 A H1 IH1 H2 IH2]; intros i j Hij Hj -> Hin.
    - (* a leaf: no kept vertex in between *)
      assert (j = i + 1) as ->.
      { destruct (Z.eq_dec j (i + 1)) as [E|E]; [exact E|exfalso].
        pose proof (at_s_lt i (i + 1) ltac:(lia) ltac:(lia)). pose proof (at_s_lt (i + 1) j ltac:(lia) ltac:(lia)).
        assert (K : In (at_s (i + 1)) s) by (unfold at_s; apply nth_In; unfold zlen in *; lia).
        apply Hin in K; [|lia]. destruct K as (q & [<- |[]] & K). cbn [rI rJ] in K. lia. }
      replace (i + 1 - 1) with i by lia. rewrite zseq_cons, zseq_nil by lia. cbn [map].
      apply T_leaf. unfold max_offset. rewrite clen_sub by (cbn; lia). cbn [rI rJ].
      destruct (Z.leb_spec (i + 1 - i + 1 - 1) 1); [|lia]. exact rel0.
    - pose proof (at_s_lt i j Hij Hj) as Hlt. cbn [rI rJ] in *.
      set (c := sub_coords pts (Rng (at_s i) (at_s j))) in *.
      assert (Hc : clen c = at_s j - at_s i + 1) by (unfold c; rewrite clen_sub; cbn [rI rJ]; lia).
      pose proof (max_offset_farthest distfn c ltac:(lia)) as F. cbv zeta in F.
      destruct F as [(_ & F & _)|(F1 & F2 & F3 & F4 & F5)]; [rewrite F in A; congruence|].
      set (k := fst (max_offset distfn c)) in *.
      assert (Cl : chain (at_s i) (at_s i + k) l1) by (apply (tree_chain _ _ _ _ _ Hs H1); cbn; lia).
      assert (Cr : chain (at_s i + k) (at_s j) l2) by (apply (tree_chain _ _ _ _ _ Hs H2); cbn; lia).
      assert (Kin : In (at_s i + k) s).
      { apply Hin; [lia|]. apply is_end_app. left. apply (chain_is_end (at_s i)); [lia|exact Cl]. }
      destruct (at_s_in _ Kin) as (k' & Hk' & Ek).
      assert (Hk1 : i < k') by (apply at_s_inv; lia). assert (Hk2 : k' < j) by (apply at_s_inv; lia).
      (* the same vertex is the farthest one of the simplified piece *)
      set (c' := sub_coords pts' (Rng i j)).
      assert (Hc' : clen c' = j - i + 1) by (unfold c'; rewrite clen_sub; cbn [rI rJ]; lia).
      assert (P0 : cpt c' 0 = cpt c 0).
      { unfold c, c'. rewrite !cpt_sub by (cbn [rI rJ]; lia). cbn [rI]. rewrite !Z.add_0_r. apply pts'_nth. lia. }
      assert (Pn : cpt c' (clen c' - 1) = cpt c (clen c - 1)).
      { rewrite Hc, Hc'. unfold c, c'. rewrite !cpt_sub by (cbn [rI rJ]; lia). cbn [rI].
        replace (i + (j - i + 1 - 1)) with j by lia. replace (at_s i + (at_s j - at_s i + 1 - 1)) with (at_s j) by lia.
        apply pts'_nth. lia. }
      assert (Pm : forall m, 0 <= m <= j - i -> cpt c' m = cpt c (at_s (i + m) - at_s i)).
      { intros m Hm. assert (at_s i <= at_s (i + m) <= at_s j).
        { split.
          - destruct (Z.eq_dec m 0) as [-> |]; [rewrite Z.add_0_r; lia|]. pose proof (at_s_lt i (i + m)). lia.
          - destruct (Z.eq_dec m (j - i)) as [-> |]; [replace (i + (j - i)) with j by lia; lia|].
            pose proof (at_s_lt (i + m) j). lia. }
        unfold c, c'. rewrite !cpt_sub by (cbn [rI rJ]; lia). cbn [rI].
        replace (at_s i + (at_s (i + m) - at_s i)) with (at_s (i + m)) by lia. apply pts'_nth. lia. }
      pose proof (max_offset_farthest distfn c' ltac:(lia)) as G. cbv zeta in G.
      set (d := fun m => distfn (cpt c 0) (cpt c (clen c - 1)) (cpt c m)) in *.
      set (d' := fun m => distfn (cpt c' 0) (cpt c' (clen c' - 1)) (cpt c' m)) in *.
      change (snd (max_offset distfn c) = d k) in F2.
      assert (Dm : forall m, 0 <= m <= j - i -> d' m = d (at_s (i + m) - at_s i)).
      { intros m Hm. unfold d', d. rewrite P0, Pn, Pm by lia. reflexivity. }
      assert (Dk : d' (k' - i) = d k).
      { rewrite Dm by lia. replace (i + (k' - i)) with k' by lia. rewrite Ek. f_equal. lia. }
      assert (Nk : is_nan (d k) = false) by (rewrite <- F2; eapply fle_nan_r; exact F3).
      assert (R : fst (max_offset distfn c') = k' - i /\ snd (max_offset distfn c') = snd (max_offset distfn c)).
      { destruct G as [(_ & _ & G)|(G1 & G2 & G3 & G4 & G5)].
        - specialize (G (k' - i) ltac:(lia)). change (fle fzero (d' (k' - i)) = false) in G. rewrite Dk, <- F2 in G. congruence.
        - set (q := fst (max_offset distfn c')) in *.
          change (snd (max_offset distfn c') = d' q) in G2.
          assert (Nq : is_nan (d' q) = false) by (rewrite <- G2; eapply fle_nan_r; exact G3).
          assert (Hq : i < i + q < j) by lia.
          pose proof (at_s_lt i (i + q) ltac:(lia) ltac:(lia)) as Q1.
          pose proof (at_s_lt (i + q) j ltac:(lia) ltac:(lia)) as Q2.
          assert (E : q = k' - i).
          { destruct (Z.lt_trichotomy q (k' - i)) as [K|[K|K]]; [exfalso|exact K|exfalso].
            - specialize (G5 (k' - i) ltac:(lia)). change (fle (snd (max_offset distfn c')) (d' (k' - i)) = false) in G5.
              specialize (F4 (at_s (i + q) - at_s i) ltac:(lia)).
              change (is_nan (d (at_s (i + q) - at_s i)) = false -> fle (d (at_s (i + q) - at_s i)) (snd (max_offset distfn c)) = true) in F4.
              rewrite <- Dm in F4 by lia. specialize (F4 Nq). rewrite G2, Dk in G5. rewrite F2 in F4.
              change (fle (d' q) (d k) = false) in G5. change (fle (d' q) (d k) = true) in F4. congruence.
            - specialize (F5 (at_s (i + q) - at_s i)).
              pose proof (at_s_lt k' (i + q) ltac:(lia) ltac:(lia)).
              specialize (F5 ltac:(lia)). change (fle (snd (max_offset distfn c)) (d (at_s (i + q) - at_s i)) = false) in F5.
              rewrite <- Dm in F5 by lia. rewrite F2 in F5. change (fle (d k) (d' q) = false) in F5.
              specialize (G4 (k' - i) ltac:(lia)).
              change (is_nan (d' (k' - i)) = false -> fle (d' (k' - i)) (snd (max_offset distfn c')) = true) in G4.
              rewrite Dk, G2 in G4. specialize (G4 Nk). change (fle (d k) (d' q) = true) in G4. congruence. }
          split; [exact E|]. rewrite G2, F2. change (d' q = d k). rewrite E. exact Dk. }
      destruct R as [R1 R2].
      replace (map (fun m => Rng m (m + 1)) (zseq i (j - 1)))
        with (map (fun m => Rng m (m + 1)) (zseq i (k' - 1)) ++ map (fun m => Rng m (m + 1)) (zseq k' (j - 1))).
      2:{ rewrite <- map_app. f_equal. rewrite (zseq_app i (k' - 1) (j - 1)) by lia. f_equal. f_equal. lia. }
      apply T_node; cbn [rI rJ]; fold c'; rewrite ?R1, ?R2.
      + exact A.
      + replace (i + (k' - i)) with k' by lia. apply (IH1 i k'); [lia|lia|f_equal; lia|].
        intros x Hx. rewrite Hin by lia. rewrite is_end_app. split; [|auto].
        intros [K|(q & K1 & K2)]; [exact K|].
        destruct (chain_in _ _ _ _ Cr K1) as (C1 & C2 & C3).
        assert (x = at_s i + k) as -> by lia. apply (chain_is_end (at_s i)); [lia|exact Cl].
      + replace (i + (k' - i)) with k' by lia. apply (IH2 k' j); [lia|lia|f_equal; lia|].
        intros x Hx. rewrite Hin by lia. rewrite is_end_app. split; [|auto].
        intros [(q & K1 & K2)|K]; [|exact K].
        destruct (chain_in _ _ _ _ Cl K1) as (C1 & C2 & C3).
        assert (x = at_s i + k) as -> by lia. apply (chain_is_end _ (at_s j)); [lia|exact Cr].
  Qed.
End Again.

Lemma dp_tree L gen pts inst score rel fuel ctr hs ctr' : (2 <= length pts)%nat ->
  douglas_peucker L gen (create_polyline pts) inst score rel fuel ctr = Ok (hs, ctr') ->
  tree pts score rel (Rng 0 (zlen pts - 1)) (map n_rng hs).
Proof.
  intros Hl E. unfold create_polyline in E. destruct (Z.ltb_spec (zlen pts) 2); [unfold zlen in *; lia|].
  cbn [douglas_peucker] in E. destruct (dp_loop_tree _ _ _ _ _ _ _ _ _ _ _ _ E) as (ls & H1 & H2).
  inversion H1 as [|? l ? ls' A B]; subst. inversion B; subst. cbn in H2. rewrite app_nil_r in H2. rewrite H2. exact A.
Qed.

Lemma point_set_ends hs x : In x (point_set hs) <-> is_end (map n_rng hs) x.
Proof.
  rewrite (proj2 (point_set_spec hs)). unfold is_end. split.
  - intros (h & H & K). exists (n_rng h). split; [apply in_map; exact H|exact K].
  - intros (r & H & K). apply in_map_iff in H. destruct H as (h & <- & H). eauto.
Qed.

Lemma unit_chain n : forall i, 0 <= n -> chain i (i + n) (map (fun m => Rng m (m + 1)) (zseq i (i + n - 1))).
Proof.
  intros i Hn. revert i. pattern n. apply natlike_ind; [|clear n Hn; intros n Hn IH|exact Hn].
  - intros i. rewrite zseq_nil by lia. cbn. lia.
  - intros i. rewrite zseq_cons by lia. cbn [map chain rI rJ]. split; [reflexivity|]. split; [lia|].
    replace (i + Z.succ n) with (i + 1 + n) by lia. apply IH.
Qed.

(** Simplifying the simplified line keeps all of it. *)
Lemma simplify_again rel distfn L gen pts inst fuel ctr hs ctr1 L' gen' inst' fuel' ctr' :
  rel fzero = true -> (2 <= length pts)%nat ->
  douglas_peucker L gen (create_polyline pts) inst (max_offset distfn) rel fuel ctr = Ok (hs, ctr1) ->
  let s := point_set hs in
  (2 * length s - 3 < fuel')%nat ->
  exists hs' ctr2,
    douglas_peucker L' gen' (create_polyline (map (fun k => nth (Z.to_nat k) pts origin) s)) inst'
      (max_offset distfn) rel fuel' ctr' = Ok (hs', ctr2) /\
    point_set hs' = zseq 0 (zlen s - 1).
Proof.
  intros H0 Hl E s Hf. pose proof (max_offset_splits distfn rel H0) as Hs.
  destruct (decompose_sound _ _ _ _ _ _ _ _ _ _ Hs Hl E) as (Hch & _ & _ & _ & _).
  pose proof (dp_tree _ _ _ _ _ _ _ _ _ _ Hl E) as Ht.
  assert (Hn : 0 < zlen pts - 1) by (unfold zlen; lia).
  pose proof (point_set_chain hs 0 (zlen pts - 1) Hn Hch) as Es.
  destruct (point_set_spec hs) as [Hinc _].
  assert (Hs2 : 2 <= zlen s).
  { unfold s. rewrite Es, zlen_cons, zlen_map. destruct hs as [|h hs]; [cbn in Hch; lia|].
    rewrite zlen_cons. pose proof (zlen_nonneg hs). lia. }
  set (p' := map (fun k => nth (Z.to_nat k) pts origin) s) in *.
  assert (Hlen : length p' = length s) by (unfold p'; apply map_length).
  assert (Hz : zlen p' = zlen s) by (unfold zlen; rewrite Hlen; reflexivity).
  destruct (decompose_total L' gen' p' inst' (max_offset distfn) rel fuel' ctr' Hs ltac:(rewrite Hlen; exact Hf))
    as (hs' & ctr2 & E').
  exists hs', ctr2. split; [exact E'|].
  assert (Hl' : (2 <= length p')%nat) by (unfold zlen in Hz, Hs2; lia).
  pose proof (dp_tree _ _ _ _ _ _ _ _ _ _ Hl' E') as Ht'.
  assert (A0 : at_s s 0 = 0) by (unfold at_s, s; rewrite Es; reflexivity).
  assert (An : at_s s (zlen s - 1) = zlen pts - 1).
  { destruct (chain_ends _ _ _ Hch) as (_ & Hlast & _). rewrite map_map in Hlast. rewrite <- Es in Hlast. fold s in Hlast.
    unfold at_s. rewrite <- Hlast. clear -Hs2. destruct s as [|a s _] using rev_ind; [cbn in Hs2; lia|].
    rewrite last_last, zlen_app. change (zlen [a]) with 1. rewrite app_nth2 by (unfold zlen; lia).
    replace (Z.to_nat (zlen s + 1 - 1) - length s)%nat with 0%nat by (unfold zlen; lia). reflexivity. }
  assert (Hag : tree p' (max_offset distfn) rel (Rng 0 (zlen s - 1)) (map (fun m => Rng m (m + 1)) (zseq 0 (zlen s - 1 - 1)))).
  { apply (tree_again pts distfn rel H0 s Hinc _ _ Ht); [lia|lia|rewrite A0, An; reflexivity|].
    intros x _. apply point_set_ends. }
  rewrite Hz in Ht'. pose proof (tree_unique _ _ _ _ _ Ht' _ Hag) as Er.
  assert (Hch' : chain 0 (zlen s - 1) (map n_rng hs')).
  { rewrite Er. pose proof (unit_chain (zlen s - 1) 0 ltac:(lia)) as K. rewrite Z.add_0_l in K. exact K. }
  rewrite (point_set_chain hs' 0 (zlen s - 1) ltac:(lia) Hch').
  rewrite <- (map_map n_rng rJ), Er, map_map. cbn [rJ].
  rewrite (zseq_cons 0 (zlen s - 1)) by lia. f_equal.
  unfold zseq. rewrite map_map. replace (Z.to_nat (zlen s - 1 - 1 - 0 + 1)) with (Z.to_nat (zlen s - 1 - (0 + 1) + 1)) by lia.
  apply map_ext. intros a. lia.
Qed.

Lemma larger_keeps_less rel1 rel2 score L gen pts inst fuel ctr hs1 c1 L' gen' inst' fuel' ctr' hs2 c2 :
  splits_inside score rel1 -> (forall v, rel1 v = true -> rel2 v = true) -> (2 <= length pts)%nat ->
  douglas_peucker L gen (create_polyline pts) inst score rel1 fuel ctr = Ok (hs1, c1) ->
  douglas_peucker L' gen' (create_polyline pts) inst' score rel2 fuel' ctr' = Ok (hs2, c2) ->
  forall k, In k (point_set hs2) -> In k (point_set hs1).
Proof.
  intros Hs Hr Hl E1 E2 k Hk. apply point_set_ends in Hk. apply point_set_ends.
  apply (tree_mono pts score rel1 rel2 _ _ Hr Hs (dp_tree _ _ _ _ _ _ _ _ _ _ Hl E2));
    [cbn; unfold zlen; lia|apply (dp_tree _ _ _ _ _ _ _ _ _ _ Hl E1)|exact Hk].
Qed.
