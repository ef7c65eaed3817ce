(** Proofs for C96: the reference of P_Ref.v computes what Spec_Exact.v describes. *)
From Verif Require Import M_Base M_Float M_Rng M_Geom M_Offset M_Node M_Decompose M_Split M_Hdb M_Knn M_Lnr M_Homotopy M_Relate
  M_Deform M_Constrain M_ConstDP M_IO Spec Spec_Hdb Spec_Lnr Spec_Relate Spec_ConstDP Spec_IO Spec_Run Spec_Out Spec_Modes Spec_Move Spec_Exact
  P_Base P_Float P_Decompose P_Split P_Node P_Hdb P_HdbHist P_HdbLoad P_Knn P_Homotopy P_Relate P_Db P_Bag P_Constrain P_Deform P_ConstDP P_Aggregate P_Simplify P_DpTree
  P_Ref P_Twin P_Modes P_Move.
Open Scope Z_scope.

(** The parts between consecutive vertices. *)
Fixpoint tiles (l : list Z) : list rng :=
  match l with
  | a :: (b :: _) as t => Rng a b :: tiles t
  | _ => []
  end.

Lemma tiles_app l : forall a r, tiles (l ++ a :: r) = tiles (l ++ [a]) ++ tiles (a :: r).
Proof.
  induction l as [|x l IH]; intros a r; [reflexivity|]. destruct l as [|y l]; [reflexivity|].
  change (tiles ((x :: y :: l) ++ a :: r)) with (Rng x y :: tiles ((y :: l) ++ a :: r)). rewrite IH. reflexivity.
Qed.
Lemma tiles_cut ch : forall lo hi, chain lo hi ch -> tiles (lo :: map rJ ch) = ch.
Proof.
  induction ch as [|[a b] ch IH]; intros lo hi H; [reflexivity|]. cbn [chain rI rJ map] in *. destruct H as (-> & H1 & H2).
  change (Rng lo b :: tiles (b :: map rJ ch) = Rng lo b :: ch). f_equal. eapply IH; eauto.
Qed.
Lemma tiles_in l : increasing l -> forall x, In x (tiles l) -> In (rI x) l /\ In (rJ x) l /\ rI x < rJ x.
Proof.
  induction l as [|a l IH]; intros Hi x Hx; [destruct Hx|]. destruct l as [|b l]; [destruct Hx|].
  inversion Hi as [|? ? Hs Hf]; subst. destruct Hx as [<- |Hx].
  - cbn [rI rJ]. inversion Hf; subst. cbn [In]. auto.
  - destruct (IH Hs x Hx) as (A & B & C). cbn [In] in *. tauto.
Qed.
Lemma inc_app_l l1 : forall l2, increasing (l1 ++ l2) -> increasing l1.
Proof.
  induction l1 as [|a l IH]; intros l2 H; [constructor|]. inversion H; subst. constructor; [eapply IH; eauto|].
  rewrite Forall_app in *. tauto.
Qed.
Lemma inc_app_r l1 : forall l2, increasing (l1 ++ l2) -> increasing l2.
Proof. induction l1 as [|a l IH]; intros l2 H; [exact H|]. inversion H; subst. eauto. Qed.
Lemma inc_app_lt l1 : forall l2, increasing (l1 ++ l2) -> forall x y, In x l1 -> In y l2 -> x < y.
Proof.
  induction l1 as [|a l IH]; intros l2 H x y Hx Hy; [destruct Hx|]. inversion H as [|? ? Hs Hf]; subst.
  destruct Hx as [<- |Hx]; [|eapply IH; eauto]. rewrite Forall_app, !Forall_forall in Hf. apply Hf. exact Hy.
Qed.
Lemma inc_head a l : increasing (a :: l) -> forall x, In x l -> a < x.
Proof. intros H x Hx. inversion H as [|? ? Hs Hf]; subst. rewrite Forall_forall in Hf. auto. Qed.
Lemma inc_drop l : forall a b r, increasing (l ++ a :: b :: r) -> increasing (l ++ a :: r).
Proof.
  induction l as [|x l IH]; intros a b r H; cbn [app] in *; inversion H as [|? ? H1 H2]; subst.
  - inversion H1; subst. inversion H2; subst. constructor; assumption.
  - constructor; [eapply IH; eauto|]. apply Forall_forall. intros y Hy. rewrite Forall_forall in H2. apply H2.
    rewrite in_app_iff in *. cbn [In] in *. tauto.
Qed.
Lemma tiles_chain l : forall a, increasing (a :: l) -> chain a (last l a) (tiles (a :: l)).
Proof.
  induction l as [|b l IH]; intros a H; [reflexivity|].
  inversion H as [|? ? Hs Hf]; subst. cbn [tiles chain rI rJ]. split; [reflexivity|]. split; [inversion Hf; auto|].
  replace (last (b :: l) a) with (last l b); [apply (IH b Hs)|]. clear. revert b. destruct l as [|c l]; intros b; [reflexivity|].
  change (last (c :: l) b = last (c :: l) a). revert c. induction l as [|d l IH]; intros c; [reflexivity|]. exact (IH d).
Qed.
Lemma tiles_nodup l : increasing l -> NoDup (tiles l).
Proof.
  induction l as [|a l IH]; intros H; [constructor|]. destruct l as [|b l]; [constructor|]. inversion H as [|? ? Hs Hf]; subst.
  change (NoDup (Rng a b :: tiles (b :: l))). constructor; [|auto]. intros K. destruct (tiles_in _ Hs _ K) as (A & _). cbn [rI] in A.
  pose proof (inc_head _ _ H a A). lia.
Qed.
Lemma perm_concat {A} (a b : list (list A)) : Permutation a b -> Permutation (concat a) (concat b).
Proof.
  induction 1; cbn [concat].
  - constructor.
  - apply Permutation_app_head; auto.
  - rewrite !app_assoc. apply Permutation_app_tail, Permutation_app_comm.
  - etransitivity; eauto.
Qed.

Section Run.
  Variables (L : geomlib) (o : opts) (dist : point -> point -> point -> f64) (cs : list geometry) (pts : list point).
  Let score := max_offset dist.
  Let rel := score_rel (o_threshold o).
  Hypothesis HT : fle fzero (o_threshold o) = true.
  Hypothesis Hav : o_avoid_self o = false.
  Hypothesis Hscore : forall r, piece pts r -> 1 < rJ r - rI r -> 0 < fst (score (sub_coords pts r)) < rJ r - rI r.

  Notation valid := (r_valid L pts o cs).

  Lemma valid_chord a b : 0 <= a -> a < b -> valid (Rng a b) = chord_ok L o cs pts a b.
  Proof.
    intros H0 H1. unfold r_valid, rel_ok, chord_ok. rewrite geom_relate_all, dist_relate_all.
    assert (E1 : n_line (hl L pts (Rng a b)) = GLine (points_of pts (Rng a b))) by reflexivity.
    assert (E2 : n_seg (hl L pts (Rng a b)) = GSeg (vertex pts a) (vertex pts b)).
    { unfold n_seg, hl, create_node, cfirst, clast, vertex. cbn [n_coords]. rewrite clen_sub by (cbn; lia). cbn [rI rJ].
      rewrite !cpt_sub by (cbn; lia). cbn [rI]. f_equal; f_equal; f_equal; lia. }
    rewrite E1, E2. reflexivity.
  Qed.
  Definition fineb (r : rng) : bool := negb (r_big L pts r) || valid r.
  Lemma fine_part a b : 0 <= a -> a < b -> fineb (Rng a b) = part_fine L o cs pts a b.
  Proof.
    intros H0 H1. unfold fineb, part_fine, r_big, rsize. rewrite (valid_chord a b H0 H1). cbn [rI rJ].
    rewrite negb_andb, !negb_involutive. reflexivity.
  Qed.

  Lemma accepted_close a b : 0 <= a -> a < b -> b < zlen pts ->
    rel (snd (score (sub_coords pts (Rng a b)))) = all_close o dist pts a b.
  Proof.
    intros H0 H1 H2. unfold all_close. apply eq_true_iff_eq. rewrite forallb_forall. unfold rel, score. split.
    - intros A m Hm. apply zseq_in in Hm. apply negb_true_iff. destruct (flt _ _) eqn:E; [exfalso|reflexivity].
      assert (K := accepted_offsets dist (o_threshold o) pts (Rng a b) m H0 ltac:(cbn [rI rJ]; lia) HT A). cbv zeta in K. cbn [rI rJ] in K.
      unfold offset, vertex in E. specialize (K (flt_nan_r _ _ E)). apply fle_not_lt in K. congruence.
    - intros A. set (c := sub_coords pts (Rng a b)). assert (Hlen : clen c = b - a + 1) by (apply clen_sub; cbn; lia).
      pose proof (max_offset_farthest dist c ltac:(lia)) as F. cbv zeta in F.
      set (k := fst (max_offset dist c)) in *. set (v := snd (max_offset dist c)) in *.
      rewrite Hlen in F. replace (b - a + 1 - 1) with (b - a) in F by lia.
      destruct F as [(F1 & F2 & _)|(F1 & F2 & F3 & F4 & F5)]; [rewrite F2; exact HT|].
      specialize (A (a + k)). rewrite zseq_in in A. specialize (A ltac:(lia)). apply negb_true_iff in A.
      assert (Ed : v = offset dist pts a b (a + k)).
      { rewrite F2. unfold offset, vertex, c. rewrite !cpt_sub by (cbn [rI rJ]; lia). cbn [rI]. f_equal; f_equal; f_equal; lia. }
      rewrite <- Ed in A. unfold score_rel. apply flt_total in A; [exact A| |]; [apply (fle_nan_r _ _ HT)|apply (fle_nan_r _ _ F3)].
  Qed.

  Lemma score_farthest a b : piece pts (Rng a b) -> 1 < b - a -> farthest_vertex dist pts a b (a + fst (score (sub_coords pts (Rng a b)))).
  Proof.
    intros Hp H1. pose proof (Hscore _ Hp H1) as K. destruct Hp as (H0 & _ & H2). cbn [rI rJ] in *. unfold score in *.
    set (c := sub_coords pts (Rng a b)) in *. assert (Hlen : clen c = b - a + 1) by (apply clen_sub; cbn; lia).
    pose proof (max_offset_farthest dist c ltac:(lia)) as F. cbv zeta in F.
    set (k := fst (max_offset dist c)) in *. set (v := snd (max_offset dist c)) in *.
    rewrite Hlen in F. replace (b - a + 1 - 1) with (b - a) in F by lia.
    destruct F as [(F1 & _)|(F1 & F2 & F3 & F4 & F5)]; [lia|].
    assert (Ed : forall m, 0 <= m <= b - a -> dist (cpt c 0) (cpt c (b - a)) (cpt c m) = offset dist pts a b (a + m)).
    { intros m Hm. unfold c, offset, vertex. rewrite !cpt_sub by (cbn [rI rJ]; lia). cbn [rI]. f_equal; f_equal; f_equal; lia. }
    rewrite Ed in F2 by lia. split; [lia|]. rewrite <- F2. split; [apply (fle_nan_r _ _ F3)|]. split; intros m Hm.
    - specialize (F4 (m - a) ltac:(lia)). cbv beta in F4. rewrite Ed in F4 by lia. replace (a + (m - a)) with m in F4 by lia.
      destruct (flt v _) eqn:E; [|reflexivity]. specialize (F4 (flt_nan_r _ _ E)). apply fle_not_lt in F4. congruence.
    - specialize (F5 (m - a) ltac:(lia)). cbv beta in F5. rewrite Ed in F5 by lia. replace (a + (m - a)) with m in F5 by lia. exact F5.
  Qed.

  (** ** Splitting *)

  Inductive rtree : rng -> list rng -> Prop :=
  | RT_leaf r : fineb r = true -> rtree r [r]
  | RT_node r l1 l2 : fineb r = false ->
      rtree (Rng (rI r) (rI r + fst (score (sub_coords pts r)))) l1 ->
      rtree (Rng (rI r + fst (score (sub_coords pts r))) (rJ r)) l2 -> rtree r (l1 ++ l2).

  Lemma not_fine_long r : piece pts r -> fineb r = false -> 1 < rJ r - rI r.
  Proof. intros (A & B & C) H. unfold fineb, r_big, rsize in H. destruct (Z.eqb_spec (rJ r - rI r) 1); [discriminate|]. lia. Qed.

  Lemma rtree_split r l : rtree r l -> piece pts r ->
    chain (rI r) (rJ r) l /\ split_until_fine L o dist cs pts (rI r) (rJ r) (rI r :: map rJ l).
  Proof.
    induction 1 as [r F|r l1 l2 F H1 IH1 H2 IH2]; intros Hp.
    - destruct r as [a b]. destruct Hp as (A & B & C). cbn [rI rJ] in *. split; [cbn; auto|]. cbn [map].
      apply su_fine. rewrite <- fine_part; auto.
    - pose proof (not_fine_long r Hp F) as Hl. pose proof (Hscore r Hp Hl) as K.
      destruct r as [a b]. cbn [rI rJ] in *. set (k := fst (score (sub_coords pts (Rng a b)))) in *.
      pose proof Hp as (A & B & C). cbn [rI rJ] in *.
      destruct IH1 as [C1 S1]; [unfold piece; cbn [rI rJ]; lia|]. destruct IH2 as [C2 S2]; [unfold piece; cbn [rI rJ]; lia|].
      split; [apply chain_app; eauto|]. rewrite map_app. change (a :: map rJ l1 ++ map rJ l2) with ((a :: map rJ l1) ++ map rJ l2).
      apply (su_split L o dist cs pts a b (a + k)); auto.
      + rewrite <- fine_part by lia. exact F.
      + apply score_farthest; auto.
  Qed.

  Lemma sel_plain D ch r : r_sel L pts o cs D ch r = existsb (rng_eqb r) D && negb (fineb r).
  Proof.
    unfold r_sel. apply eq_true_iff_eq. rewrite existsb_exists, andb_true_iff, existsb_exists. unfold r_checked, fineb. rewrite Hav. cbn [andb orb].
    split.
    - intros (h & Hh & K). apply andb_prop in K. destruct K as [K1 K2]. apply andb_prop in K2. destruct K2 as [K2 K3].
      pose proof K2 as K4. apply rng_eqb_eq in K4. subst h. split; [exists r; auto|]. rewrite K1. cbn [negb orb]. exact K3.
    - intros ((h & Hh & K) & F). pose proof K as K4. apply rng_eqb_eq in K4. subst h. exists r. split; auto. rewrite K.
      rewrite negb_orb, negb_involutive in F. exact F.
  Qed.

  Lemma halves_trees l : Forall (piece pts) l -> Forall (fun r => fineb r = false) l -> forall ls,
    Forall2 rtree (flat_map (r_halves pts score) l) ls -> exists ls', Forall2 rtree l ls' /\ concat ls' = concat ls.
  Proof.
    induction l as [|r l IH]; intros Hp Hf ls H; [inversion H; subst; exists []; split; [constructor|reflexivity]|].
    inversion Hp as [|? ? Hr Hp']; subst. inversion Hf as [|? ? Fr Hf']; subst. cbn [flat_map] in H.
    assert (Eh : r_halves pts score r = [Rng (rI r) (rI r + fst (score (sub_coords pts r))); Rng (rI r + fst (score (sub_coords pts r))) (rJ r)]).
    { unfold r_halves, rsize. pose proof (not_fine_long r Hr Fr). destruct (Z.ltb_spec 1 (rJ r - rI r)); [reflexivity|lia]. }
    rewrite Eh in H. cbn [app] in H. inversion H as [|? l1 ? ls1 T1 H1]; subst. inversion H1 as [|? l2 ? ls2 T2 H2]; subst.
    destruct (IH Hp' Hf' ls2 H2) as (ls' & A & B). exists ((l1 ++ l2) :: ls'). split.
    - constructor; [apply RT_node; auto|exact A].
    - cbn [concat]. rewrite B, app_assoc. reflexivity.
  Qed.

  Lemma halves_pieces l : Forall (piece pts) l -> Forall (fun r => fineb r = false) l -> Forall (piece pts) (flat_map (r_halves pts score) l).
  Proof.
    intros Hp Hf. rewrite Forall_forall in *. intros x Hx. apply in_flat_map in Hx. destruct Hx as (r & Hr & Hx).
    pose proof (Hp r Hr) as (A & B & C). pose proof (not_fine_long r (Hp r Hr) (Hf r Hr)) as Hl. pose proof (Hscore r (Hp r Hr) Hl) as K.
    unfold r_halves in Hx. destruct (1 <? rsize r); [|destruct Hx as [<- |[]]; auto].
    destruct Hx as [<- |[<- |[]]]; unfold piece; cbn [rI rJ]; lia.
  Qed.

  Lemma filter_two {A} (p : A -> bool) l : Permutation l (filter p l ++ filter (fun x => negb (p x)) l).
  Proof.
    induction l as [|x l IH]; cbn [filter]; [constructor|]. destruct (p x); cbn [negb app].
    - constructor; exact IH.
    - apply Permutation_cons_app; exact IH.
  Qed.

  Lemma rounds_trees D ch c : r_rounds L pts o score cs D ch c -> Forall (piece pts) ch ->
    (forall r, In r ch -> ~ In r D -> fineb r = true) -> exists ls, Forall2 rtree ch ls /\ Permutation c (concat ls).
  Proof.
    induction 1 as [D ch H|D ch c H H1 IH]; intros Hp Hf.
    - exists (map (fun r => [r]) ch). assert (Hall : forall r, In r ch -> fineb r = true).
      { intros r Hr. destruct (fineb r) eqn:F; auto. exfalso.
        assert (K : In r (filter (r_sel L pts o cs D ch) ch)); [|rewrite H in K; destruct K].
        apply filter_In. split; auto. rewrite sel_plain, F. cbn [negb]. rewrite andb_true_r.
        destruct (existsb (rng_eqb r) D) eqn:E; [reflexivity|exfalso]. rewrite (Hf r Hr) in F; [discriminate|]. intros I.
        assert (E' : existsb (rng_eqb r) D = true); [|congruence]. apply existsb_exists. exists r. split; [exact I|].
        apply rng_eqb_eq. reflexivity. }
      clear - Hall. split.
      + induction ch as [|r ch IH]; cbn [map]; constructor; [apply RT_leaf, Hall; left; reflexivity|]. apply IH. intros; apply Hall; right; auto.
      + clear Hall. induction ch as [|r ch IH]; cbn [map concat app]; constructor; auto.
    - set (S := filter (r_sel L pts o cs D ch) ch) in *. set (N := filter (fun r => negb (r_sel L pts o cs D ch r)) ch) in *.
      assert (HpS : Forall (piece pts) S) by (apply Forall_forall; intros x Hx; apply filter_In in Hx; rewrite Forall_forall in Hp; apply Hp, Hx).
      assert (HpN : Forall (piece pts) N) by (apply Forall_forall; intros x Hx; apply filter_In in Hx; rewrite Forall_forall in Hp; apply Hp, Hx).
      assert (HfS : Forall (fun r => fineb r = false) S).
      { apply Forall_forall. intros x Hx. apply filter_In in Hx. destruct Hx as [_ Hx]. rewrite sel_plain in Hx. apply andb_prop in Hx.
        destruct Hx as [_ Hx]. apply negb_true_iff in Hx. exact Hx. }
      destruct IH as (ls & F & P).
      + apply Forall_app. split; [apply halves_pieces|]; assumption.
      + intros r Hr Hn. apply in_app_iff in Hr. destruct Hr as [Hr|Hr]; [contradiction|]. apply filter_In in Hr. destruct Hr as [Hr K].
        rewrite sel_plain in K. destruct (fineb r) eqn:Fr; auto. cbn [negb] in K. rewrite andb_true_r in K. apply negb_true_iff in K.
        rewrite <- Fr. apply (Hf r Hr). intros I. assert (E : existsb (rng_eqb r) D = true); [|congruence]. apply existsb_exists. exists r. split; [exact I|].
        apply rng_eqb_eq. reflexivity.
      + destruct (Forall2_app_inv_l _ _ F) as (lsD & lsN & FD & FN & ->). destruct (halves_trees S HpS HfS lsD FD) as (lsS & FS & E).
        destruct (Permutation_Forall2 (Permutation_sym (filter_two (r_sel L pts o cs D ch) ch)) (Forall2_app FS FN)) as (ls' & P' & F').
        exists ls'. split; [exact F'|]. rewrite P. rewrite <- (perm_concat _ _ P'). rewrite !concat_app, E. reflexivity.
  Qed.

  Lemma trees_split ch : forall lo hi ls, 0 <= lo -> hi < zlen pts -> chain lo hi ch -> Forall2 rtree ch ls ->
    chain lo hi (concat ls) /\ split_parts L o dist cs pts (lo :: map rJ ch) (lo :: map rJ (concat ls)).
  Proof.
    induction ch as [|r ch IH]; intros lo hi ls H0 Hh Hc F; inversion F as [|? l ? ls1 T F1]; subst.
    - cbn [map concat] in *. split; [exact Hc|constructor].
    - cbn [chain] in Hc. destruct Hc as (<- & H1 & H2). pose proof (chain_le _ _ _ H2) as H3.
      destruct (rtree_split r l T) as [C1 S1]; [unfold piece; lia|].
      destruct (IH (rJ r) hi ls1 ltac:(lia) Hh H2 F1) as [C2 S2]. cbn [concat map]. split; [apply chain_app; eauto|].
      rewrite map_app. change (rI r :: map rJ l ++ map rJ (concat ls1)) with ((rI r :: map rJ l) ++ map rJ (concat ls1)).
      apply sp_part; assumption.
  Qed.

  (** ** Merging *)

  Hypothesis Hfollow : forall a b, piece pts a -> piece pts b -> rJ a = rI b \/ rJ b = rI a -> r_near L pts a b = true.

  Notation replace_ := (may_replace L o dist cs pts).

  Lemma merge_replace a b base : 0 <= a -> a < b -> b < zlen pts ->
    rel (snd (score (sub_coords pts (Rng a b)))) && r_merge_valid L pts o cs base (Rng a b) = replace_ a b.
  Proof.
    intros A B C. unfold r_merge_valid, may_replace. rewrite Hav. cbn [negb orb andb]. rewrite (valid_chord a b A B), (accepted_close a b A B C).
    reflexivity.
  Qed.

  Definition cache_ok (i : Z) (cache : list (rng * rng)) : Prop :=
    forall a b, In (a, b) cache -> rI a < i /\ (rI b < i \/ (rI b = i /\ replace_ (rI a) (rJ b) = false)).

  Lemma cached_in cache a b : existsb (fun x => rng_eqb (fst x) a && rng_eqb (snd x) b) cache = true <-> In (a, b) cache.
  Proof.
    rewrite existsb_exists. split.
    - intros ([x y] & H & K). cbn [fst snd] in K. apply andb_prop in K. destruct K as [K1 K2]. apply rng_eqb_eq in K1, K2. subst. exact H.
    - intros H. exists (a, b). split; [exact H|]. cbn [fst snd]. apply andb_true_intro. split; apply rng_eqb_eq; reflexivity.
  Qed.

  Lemma step_drop cvs front i j rest ch cache :
    let l := rev front ++ i :: j :: rest in
    increasing l -> Forall (fun k => 0 <= k < zlen pts) l -> Permutation ch (tiles l) -> cache_ok i cache ->
    exists front' i' todo' ch' cache',
      r_step L pts o score rel cs cvs (Rng i j) (tiles (j :: rest)) ch cache = (tiles (i' :: todo'), ch', cache') /\
      (length todo' <= length rest)%nat /\
      drop_ends L o dist cs pts (fun k => zmem k cvs) front i (j :: rest) = drop_ends L o dist cs pts (fun k => zmem k cvs) front' i' todo' /\
      let l' := rev front' ++ i' :: todo' in
      increasing l' /\ Forall (fun k => 0 <= k < zlen pts) l' /\ Permutation ch' (tiles l') /\ cache_ok i' cache'.
  Proof.
    intros l Hi Hr Hp Hc.
    assert (Hij : i < j). { apply inc_app_r in Hi. apply (inc_head _ _ Hi). left; reflexivity. }
    assert (Hrange : forall k, In k l -> 0 <= k < zlen pts) by (rewrite Forall_forall in Hr; exact Hr).
    assert (Ii : In i l) by (apply in_app_iff; right; left; reflexivity).
    assert (Ij : In j l) by (apply in_app_iff; right; right; left; reflexivity).
    pose proof (Hrange i Ii) as Ri. pose proof (Hrange j Ij) as Rj.
    (* going on without a change *)
    assert (Go : forall cache', cache_ok j cache' ->
      let l' := rev (i :: front) ++ j :: rest in
      increasing l' /\ Forall (fun k => 0 <= k < zlen pts) l' /\ Permutation ch (tiles l') /\ cache_ok j cache').
    { intros cache' H'. cbn [rev]. rewrite <- app_assoc. cbn [app]. auto. }
    assert (Hcj : cache_ok j cache). { intros a b Hab. destruct (Hc a b Hab) as [A B]. split; [lia|]. left. lia. }
    unfold r_step. cbn [rI rJ rsize]. unfold rsize. cbn [rI rJ].
    destruct (Z.eqb_spec (j - i) 1) as [E1|E1]; cbn [negb].
    2: { exists (i :: front), j, rest, ch, cache. split; [reflexivity|]. split; [lia|]. split; [|apply Go, Hcj].
         cbn [drop_ends]. destruct (Z.eqb_spec j (i + 1)); [lia|]. cbn [andb]. destruct rest, front; reflexivity. }
    assert (Ej : (j =? i + 1) = true) by (apply Z.eqb_eq; lia).
    destruct (zmem i cvs && zmem j cvs) eqn:E2.
    { apply andb_prop in E2. destruct E2 as [F1 F2]. exists (i :: front), j, rest, ch, cache. split; [reflexivity|]. split; [lia|].
      split; [|apply Go, Hcj]. cbn [drop_ends]. rewrite F1, F2. cbn [negb]. rewrite !andb_false_r. cbn [andb]. destruct rest, front; reflexivity. }
    cbv zeta.
    (* the parts before and after *)
    assert (El : tiles l = tiles (rev front ++ [i]) ++ Rng i j :: tiles (j :: rest)) by (unfold l; rewrite tiles_app; reflexivity).
    assert (Hn : NoDup ch). { eapply Permutation_NoDup; [apply Permutation_sym, Hp|]. apply tiles_nodup, Hi. }
    set (A := tiles (rev front ++ [i])) in *. set (B := tiles (j :: rest)) in *.
    assert (P1 : Permutation (r_without (Rng i j) ch) (A ++ B)).
    { apply without_take; [exact Hn|]. rewrite Hp, El. symmetry. apply Permutation_middle. }
    assert (IA : increasing (rev front ++ [i])).
    { apply (inc_app_l _ (j :: rest)). rewrite <- app_assoc. exact Hi. }
    assert (IB : increasing (j :: rest)).
    { apply (inc_app_r (rev front ++ [i])). rewrite <- app_assoc. exact Hi. }
    assert (InA : forall x, In x A -> 0 <= rI x /\ rI x < rJ x /\ rJ x <= i).
    { intros x Hx. destruct (tiles_in _ IA x Hx) as (X1 & X2 & X3). split; [|split; [exact X3|]].
      - apply in_app_iff in X1. destruct X1 as [X1|[<- |[]]]; [|lia]. apply Hrange. unfold l. apply in_app_iff. left. exact X1.
      - apply in_app_iff in X2. destruct X2 as [X2|[<- |[]]]; [|lia]. pose proof (inc_app_lt _ _ IA (rJ x) i X2 (or_introl eq_refl)). lia. }
    assert (InB : forall x, In x B -> j <= rI x /\ rI x < rJ x /\ rJ x < zlen pts).
    { intros x Hx. destruct (tiles_in _ IB x Hx) as (X1 & X2 & X3). split; [|split; [exact X3|]].
      - destruct X1 as [<- |X1]; [lia|]. pose proof (inc_head _ _ IB _ X1). lia.
      - apply Hrange. unfold l. apply in_app_iff. right. right. exact X2. }
    assert (Pr : piece pts (Rng i j)) by (unfold piece; cbn [rI rJ]; lia).
    assert (Hpc : forall x, In x (r_without (Rng i j) ch) -> piece pts x).
    { intros x Hx. eapply Permutation_in in Hx; [|exact P1]. apply in_app_iff in Hx. unfold piece. destruct Hx as [Hx|Hx].
      - pose proof (InA x Hx). lia.
      - pose proof (InB x Hx). lia. }
    set (qp := match front with p :: _ => Some (Rng p i) | [] => None end).
    set (qn := match rest with k :: _ => Some (Rng j k) | [] => None end).
    assert (Ep : r_prev L pts (Rng i j) (r_without (Rng i j) ch) = qp).
    { apply find_is. intros x. cbn [rI]. split.
      - intros E. unfold qp in E. destruct front as [|p front']; [discriminate|]. injection E as <-.
        assert (Hx : In (Rng p i) (r_without (Rng i j) ch)).
        { eapply Permutation_in; [apply Permutation_sym, P1|]. apply in_app_iff. left. unfold A. cbn [rev]. rewrite <- app_assoc. cbn [app].
          rewrite tiles_app. apply in_app_iff. right. left. reflexivity. }
        split; [exact Hx|]. rewrite Hfollow; auto. cbn [andb rJ rI]. apply Z.eqb_refl.
      - intros [Hx K]. apply andb_prop in K. destruct K as [_ K]. apply Z.eqb_eq in K.
        eapply Permutation_in in Hx; [|exact P1]. apply in_app_iff in Hx. destruct Hx as [Hx|Hx]; [|pose proof (InB x Hx); lia].
        unfold A in Hx. unfold qp. destruct front as [|p front']; [destruct Hx|]. cbn [rev] in Hx, IA. rewrite <- app_assoc in Hx, IA. cbn [app] in Hx, IA.
        rewrite tiles_app in Hx. apply in_app_iff in Hx. destruct Hx as [Hx|[<- |[]]]; [exfalso|reflexivity].
        assert (I2 : increasing (rev front' ++ [p])). { apply (inc_app_l _ [i]). rewrite <- app_assoc. exact IA. }
        destruct (tiles_in _ I2 x Hx) as (_ & X2 & _).
        assert (rJ x < i); [|lia]. apply (inc_app_lt (rev front' ++ [p]) [i]); [rewrite <- app_assoc; exact IA|exact X2|left; reflexivity]. }
    assert (En : r_next L pts (Rng i j) (r_without (Rng i j) ch) = qn).
    { apply find_is. intros x. cbn [rJ]. split.
      - intros E. unfold qn in E. destruct rest as [|k rest']; [discriminate|]. injection E as <-.
        assert (Hx : In (Rng j k) (r_without (Rng i j) ch)).
        { eapply Permutation_in; [apply Permutation_sym, P1|]. apply in_app_iff. right. left. reflexivity. }
        split; [exact Hx|]. rewrite Hfollow; auto. cbn [andb rJ rI]. apply Z.eqb_refl.
      - intros [Hx K]. apply andb_prop in K. destruct K as [_ K]. apply Z.eqb_eq in K.
        eapply Permutation_in in Hx; [|exact P1]. apply in_app_iff in Hx. destruct Hx as [Hx|Hx]; [pose proof (InA x Hx); lia|].
        unfold B in Hx. unfold qn. destruct rest as [|k rest']; [destruct Hx|]. destruct Hx as [<- |Hx]; [reflexivity|exfalso].
        inversion IB as [|? ? IB1 IB2]; subst. destruct (tiles_in _ IB1 x Hx) as (X1 & _). rewrite Forall_forall in IB2.
        specialize (IB2 _ X1). lia. }
    rewrite Ep, En. clear Ep En.
    (* the part before *)
    set (e1 := negb (zmem i cvs)). set (e2 := negb (zmem j cvs)).
    assert (T1 : exists mp c1, r_try pts score rel e1 (match qp with Some p => Some (p, Rng i j) | None => None end) cache = (mp, c1) /\
      (forall a b, In (a, b) c1 -> In (a, b) cache \/ exists p, qp = Some p /\ (a, b) = (p, Rng i j)) /\
      match mp with
      | Some m => exists p front', front = p :: front' /\ e1 = true /\ m = Rng p j /\ rel (snd (score (sub_coords pts m))) = true
      | None => forall p front', front = p :: front' -> e1 && replace_ p j = false
      end).
    { unfold r_try. destruct e1 eqn:Ee1; [|exists None, cache; split; [reflexivity|]; split; [auto|]; reflexivity].
      destruct front as [|p front']; cbn [qp]; [exists None, cache; split; [reflexivity|]; split; [auto|]; discriminate|].
      destruct (existsb _ cache) eqn:Ec.
      - exists None, cache. split; [reflexivity|]. split; [auto|]. intros p0 f0 E0. injection E0 as <- <-. cbn [andb].
        apply cached_in in Ec. destruct (Hc _ _ Ec) as [_ [K|[_ K]]]; cbn [rI rJ] in K; [lia|exact K].
      - eexists _, _. split; [reflexivity|]. split.
        { intros a b [Hab|Hab]; [right; eexists; split; [reflexivity|]; injection Hab as <- <-; reflexivity|auto]. }
        cbn [rI rJ]. destruct (rel _) eqn:Er.
        + exists p, front'. auto.
        + intros p0 f0 E0. injection E0 as <- <-. cbn [andb].
          assert (Rp : 0 <= p /\ p < i).
          { assert (In p (rev (p :: front'))) by (apply in_rev; rewrite rev_involutive; left; reflexivity). split.
            - apply Hrange. unfold l. apply in_app_iff. left. assumption.
            - apply (inc_app_lt _ _ IA p i); [assumption|left; reflexivity]. }
          rewrite <- (merge_replace p j []) by lia. rewrite Er. reflexivity. }
    destruct T1 as (mp & c1 & -> & Hc1 & Hmp).
    assert (Hqp : forall p, qp = Some p -> rI p < i).
    { intros p E. unfold qp in E. destruct front as [|p0 f0]; [discriminate|]. injection E as <-. cbn [rI].
      apply (inc_app_lt _ _ IA); [|left; reflexivity]. apply in_rev. rewrite rev_involutive. left. reflexivity. }
    assert (T2 : exists mn c2, r_try pts score rel e2 (match qn with Some n => Some (Rng i j, n) | None => None end) c1 = (mn, c2) /\
      (forall a b, In (a, b) c2 -> In (a, b) c1 \/ exists n, e2 = true /\ qn = Some n /\ (a, b) = (Rng i j, n)) /\
      match mn with
      | Some m => exists k rest', rest = k :: rest' /\ e2 = true /\ m = Rng i k /\ rel (snd (score (sub_coords pts m))) = true
      | None => forall k rest', rest = k :: rest' -> e2 && replace_ i k = false
      end).
    { unfold r_try. destruct e2 eqn:Ee2; [|exists None, c1; split; [reflexivity|]; split; [auto|]; reflexivity].
      destruct rest as [|k rest']; cbn [qn]; [exists None, c1; split; [reflexivity|]; split; [auto|]; discriminate|].
      destruct (existsb _ c1) eqn:Ec.
      - exfalso. apply cached_in in Ec. destruct (Hc1 _ _ Ec) as [K|(p & Ep & K)].
        + destruct (Hc _ _ K) as [K1 _]. cbn [rI] in K1. lia.
        + injection K as <- _. specialize (Hqp _ Ep). cbn [rI] in Hqp. lia.
      - eexists _, _. split; [reflexivity|]. split.
        { intros a b [Hab|Hab]; [right; eexists; split; [reflexivity|]; split; [reflexivity|]; injection Hab as <- <-; reflexivity|auto]. }
        cbn [rI rJ]. destruct (rel _) eqn:Er.
        + exists k, rest'. auto.
        + intros k0 f0 E0. injection E0 as <- <-. cbn [andb].
          assert (Rk : j < k /\ k < zlen pts).
          { split; [apply (inc_head _ _ IB); left; reflexivity|]. apply Hrange. unfold l. apply in_app_iff. right. right. right. left. reflexivity. }
          rewrite <- (merge_replace i k []) by lia. rewrite Er. reflexivity. }
    destruct T2 as (mn & c2 & -> & Hc2 & Hmn).
    (* the cache afterwards *)
    assert (Hc2' : forall n, n > i -> (forall k, e2 = true -> qn = Some (Rng j k) -> n > j \/ (n = j /\ replace_ i k = false)) -> cache_ok n c2).
    { intros n Hni Hk a b Hab. destruct (Hc2 a b Hab) as [K|(q & Ee & Eq & K)].
      - destruct (Hc1 a b K) as [K'|(p & Eqp & K')].
        + destruct (Hc a b K') as [X Y]. split; [lia|]. left. lia.
        + injection K' as -> ->. specialize (Hqp _ Eqp). cbn [rI rJ]. split; [lia|]. left. lia.
      - injection K as -> ->. unfold qn in *. destruct rest as [|k rest']; [discriminate|]. injection Eq as <-. cbn [rI rJ].
        split; [lia|]. destruct (Hk k Ee eq_refl) as [X|[X Y]]; [left; lia|right]. split; [lia|exact Y]. }
    (* dropping the beginning, or nothing *)
    assert (Rest : forall base, (forall k rest', rest = k :: rest' -> e2 && replace_ i k = false) ->
      exists front' i' todo' ch' cache',
        match mp with
        | Some m => match qp with
                    | Some p => if r_merge_valid L pts o cs (r_without p base) m then (B, m :: r_without p (r_without (Rng i j) ch), c2) else (B, ch, c2)
                    | None => (B, ch, c2)
                    end
        | None => (B, ch, c2)
        end = (tiles (i' :: todo'), ch', cache') /\
        (length todo' <= length rest)%nat /\
        drop_ends L o dist cs pts (fun k => zmem k cvs) front i (j :: rest) = drop_ends L o dist cs pts (fun k => zmem k cvs) front' i' todo' /\
        let l' := rev front' ++ i' :: todo' in
        increasing l' /\ Forall (fun k => 0 <= k < zlen pts) l' /\ Permutation ch' (tiles l') /\ cache_ok i' cache').
    { intros base Hno.
      assert (Hcache : cache_ok j c2).
      { apply Hc2'; [lia|]. intros k Ee Ek. right. split; [reflexivity|]. unfold qn in Ek. destruct rest as [|k' rest']; [discriminate|].
        injection Ek as ->. specialize (Hno k rest' eq_refl). rewrite Ee in Hno. exact Hno. }
      assert (Spec : drop_ends L o dist cs pts (fun k => zmem k cvs) front i (j :: rest) =
        match front with
        | p :: _ => if e1 && replace_ p j then drop_ends L o dist cs pts (fun k => zmem k cvs) front j rest
                    else drop_ends L o dist cs pts (fun k => zmem k cvs) (i :: front) j rest
        | [] => drop_ends L o dist cs pts (fun k => zmem k cvs) (i :: front) j rest
        end).
      { cbn [drop_ends]. rewrite Ej. cbn [andb]. destruct rest as [|k rest']; [reflexivity|].
        specialize (Hno k rest' eq_refl). fold e1 e2. rewrite Hno. reflexivity. }
      rewrite Spec. clear Spec.
      assert (Same : forall b, b = false -> exists front' i' todo' ch' cache', (B, ch, c2) = (tiles (i' :: todo'), ch', cache') /\
        (length todo' <= length rest)%nat /\
        match front with
        | p :: _ => if b then drop_ends L o dist cs pts (fun k => zmem k cvs) front j rest
                    else drop_ends L o dist cs pts (fun k => zmem k cvs) (i :: front) j rest
        | [] => drop_ends L o dist cs pts (fun k => zmem k cvs) (i :: front) j rest
        end = drop_ends L o dist cs pts (fun k => zmem k cvs) front' i' todo' /\
        let l' := rev front' ++ i' :: todo' in
        increasing l' /\ Forall (fun k => 0 <= k < zlen pts) l' /\ Permutation ch' (tiles l') /\ cache_ok i' cache').
      { intros b ->. exists (i :: front), j, rest, ch, c2. split; [reflexivity|]. split; [lia|]. split; [destruct front; reflexivity|]. apply Go, Hcache. }
      destruct mp as [m|].
      - destruct Hmp as (p & front' & -> & He1 & -> & Hrel). cbn [qp].
        assert (Rp : 0 <= p /\ p < i).
        { split; [|apply (Hqp _ eq_refl)]. apply Hrange. unfold l. apply in_app_iff. left. apply in_rev. rewrite rev_involutive. left. reflexivity. }
        rewrite He1. cbn [andb]. rewrite <- (merge_replace p j (r_without (Rng p i) base)) by lia. rewrite Hrel. cbn [andb].
        destruct (r_merge_valid _ _ _ _ _ _) eqn:Em; [|apply (Same false eq_refl)].
        exists (p :: front'), j, rest, (Rng p j :: r_without (Rng p i) (r_without (Rng i j) ch)), c2.
        split; [reflexivity|]. split; [lia|]. split; [reflexivity|]. cbv zeta.
        unfold l in *. cbn [rev] in *. rewrite <- app_assoc in *. cbn [app] in *.
        split; [|split; [|split; [|exact Hcache]]].
        + eapply inc_drop; exact Hi.
        + rewrite Forall_forall in *. intros y Hy. apply Hr. rewrite in_app_iff in *. cbn [In] in *. tauto.
        + assert (Pa : Permutation (r_without (Rng i j) ch) (Rng p i :: tiles (rev front' ++ [p]) ++ B)).
          { rewrite P1. unfold A. rewrite <- (app_assoc (rev front') [p] [i]). cbn [app]. rewrite (tiles_app (rev front') p [i]). cbn [tiles].
            rewrite <- app_assoc. cbn [app]. symmetry. apply Permutation_middle. }
          rewrite tiles_app. change (tiles (p :: j :: rest)) with (Rng p j :: B).
          rewrite (without_take _ _ _ ltac:(unfold r_without; apply NoDup_filter, Hn) Pa). apply Permutation_middle.
      - destruct front as [|p front']; [apply (Same false eq_refl)|]. apply Same. apply (Hmp p front' eq_refl). }
    destruct mn as [m|]; [|exact (Rest _ Hmn)].
    destruct Hmn as (k & rest' & -> & He2 & -> & Hrel). cbn [qn].
    assert (Rk : j < k /\ k < zlen pts).
    { split; [apply (inc_head _ _ IB); left; reflexivity|]. apply Hrange. unfold l. apply in_app_iff. right. right. right. left. reflexivity. }
    pose proof (merge_replace i k (r_without (Rng j k) (r_without (Rng i j) ch)) ltac:(lia) ltac:(lia) ltac:(lia)) as Hm.
    rewrite Hrel in Hm. cbn [andb] in Hm. rewrite Hm. destruct (replace_ i k) eqn:Em.
    - clear Rest. exists (i :: front), k, rest', (Rng i k :: r_without (Rng j k) (r_without (Rng i j) ch)), c2.
      split; [reflexivity|]. split; [cbn [length]; lia|]. split.
      { cbn [drop_ends]. rewrite Ej. fold e2. rewrite He2, Em. reflexivity. }
      cbv zeta. unfold l in *. cbn [rev]. rewrite <- !app_assoc. cbn [app].
      split; [|split; [|split]].
      + eapply inc_drop; exact Hi.
      + rewrite Forall_forall in *. intros y Hy. apply Hr. rewrite in_app_iff in *. cbn [In] in *. tauto.
      + assert (Pa : Permutation (r_without (Rng i j) ch) (Rng j k :: A ++ tiles (k :: rest'))).
        { rewrite P1. change B with (Rng j k :: tiles (k :: rest')). symmetry. apply Permutation_middle. }
        rewrite tiles_app. change (tiles (i :: k :: rest')) with (Rng i k :: tiles (k :: rest')). fold A.
        rewrite (without_take _ _ _ ltac:(unfold r_without; apply NoDup_filter, Hn) Pa). apply Permutation_middle.
      + apply Hc2'; [lia|]. intros k0 _ Ek. left. lia.
    - apply Rest. intros k0 f0 E0. injection E0 as <- <-. rewrite Em. apply andb_false_r.
  Qed.

  Lemma agg_drop cvs fuel : forall front i todo ch cache,
    let l := rev front ++ i :: todo in
    (length todo <= fuel)%nat -> increasing l -> Forall (fun k => 0 <= k < zlen pts) l -> Permutation ch (tiles l) -> cache_ok i cache ->
    Permutation (r_agg L pts o score rel cs fuel cvs (tiles (i :: todo)) ch cache)
      (tiles (drop_ends L o dist cs pts (fun k => zmem k cvs) front i todo)) /\
    increasing (drop_ends L o dist cs pts (fun k => zmem k cvs) front i todo).
  Proof.
    induction fuel as [|fuel IH]; intros front i todo ch cache l Hf Hi Hr Hp Hc.
    - destruct todo; [|cbn in Hf; lia]. cbn [r_agg drop_ends rev]. split; assumption.
    - destruct todo as [|j rest]; [cbn [r_agg drop_ends rev tiles]; split; assumption|].
      destruct (step_drop cvs front i j rest ch cache Hi Hr Hp Hc) as (front' & i' & todo' & ch' & cache' & E & Hlen & Es & Hi' & Hr' & Hp' & Hc').
      rewrite Es. change (tiles (i :: j :: rest)) with (Rng i j :: tiles (j :: rest)). cbn [r_agg]. rewrite E.
      apply IH; auto. cbn [length] in Hf. lia.
  Qed.
End Run.

Lemma tiles_ends l : forall a, a :: map rJ (tiles (a :: l)) = a :: l.
Proof.
  induction l as [|b l IH]; intros a; [reflexivity|]. change (a :: b :: map rJ (tiles (b :: l)) = a :: b :: l). f_equal. apply IH.
Qed.

Section Result.
  Variables (L : geomlib) (o : opts) (dist : point -> point -> point -> f64) (cs : list geometry) (pts : list point).
  Variables (N : lnr_oracle) (verts : list Z).
  Hypothesis HT : fle fzero (o_threshold o) = true.
  Hypothesis Hscore : forall r, piece pts r -> 1 < rJ r - rI r -> 0 < fst (max_offset dist (sub_coords pts r)) < rJ r - rI r.
  Hypothesis Htwo : (2 <= length pts)%nat.
  Hypothesis Hfollow : forall a b, piece pts a -> piece pts b -> rJ a = rI b \/ rJ b = rI a -> r_near L pts a b = true.
  Hypothesis Hverts : Forall (fun k => 0 <= k < zlen pts) verts.
  Let found := self_intersection L (lo_sort N) (lo_segx N) (lo_near N pts) true (o_non_planar_self o) pts.
  Hypothesis Hon : o_planar_self o = true ->
    forall c, In c (found ++ map (fun k => (nth (Z.to_nat k) pts origin, [k])) verts) -> location_on_hulls L pts c.
  Let forced k := o_planar_self o = true /\ (In k verts \/ forced_by found k).

  Lemma cut_ends ch lo hi : chain lo hi ch -> forall x, In x (lo :: map rJ ch) <-> x = lo \/ cut ch x.
  Proof.
    intros _ x. cbn [In]. rewrite in_map_iff. unfold cut. split.
    - intros [E|(r & E & Hr)]; [auto|]. right. exists r. auto.
    - intros [E|(r & Hr & E)]; [auto|]. right. exists r. auto.
  Qed.

  Lemma forced_chain ch0 ch1 cvs : r_self L pts o N verts ch0 ch1 cvs -> chain 0 (zlen pts - 1) ch0 -> 0 < zlen pts - 1 ->
    chain 0 (zlen pts - 1) ch1 /\ (forall k, In k (0 :: map rJ ch1) <-> In k (0 :: map rJ ch0) \/ (forced k /\ 0 <= k < zlen pts)) /\
    (forall k, zmem k cvs = true <-> forced k).
  Proof.
    intros Hs C0 Hpos.
    unfold r_self in Hs. unfold forced. destruct (o_planar_self o) eqn:Hpl.
      - destruct Hs as (vset & inters & E & -> & ->). cbv zeta in E.
        destruct (consts_set verts L pts found Hverts (Hon eq_refl)) as (v1 & i1 & E1 & A1 & B1 & D1).
        change (add_const_verts pts verts (flat_map snd found) found = Ok (vset, inters)) in E. rewrite E1 in E. injection E as <- <-.
        destruct (cuts_chain L pts i1 ch0 0 (zlen pts - 1)) as [C1 C2]; auto; try lia.
        assert (Hfb : forall k, forced_by found k <-> In k (flat_map snd found)) by (intros k; unfold forced_by; rewrite in_flat_map; reflexivity).
        split; [exact C1|]. split; intros k.
        + rewrite (cut_ends _ _ _ C1), (cut_ends _ _ _ C0), C2, B1, Hfb.
          destruct (chain_ends_cut _ _ _ C0 Hpos) as [_ (r & Hr1 & Hr2)].
          assert (cut ch0 (zlen pts - 1)) by (exists r; auto). split.
          * intros [K|[K|[K1 K2]]]; [auto|auto|]. right. split; [split; [reflexivity|tauto]|lia].
          * intros [[K|K]|[[_ K1] K2]]; [auto|auto|]. destruct (Z.eq_dec k 0); [auto|]. destruct (Z.eq_dec k (zlen pts - 1)); [subst; auto|].
            right. right. split; [tauto|lia].
        + rewrite zmem_in, zset_in, A1, Hfb. tauto.
      - destruct Hs as [-> ->]. split; [exact C0|]. split; intros k.
        + split; [auto|]. intros [K|[[K _] _]]; [exact K|discriminate].
        + split; [discriminate|]. intros [K _]. discriminate.
  Qed.

  Hypothesis Hav : o_avoid_self o = false.
  Lemma result_exact R : r_result L pts o (max_offset dist) (score_rel (o_threshold o)) cs N verts R ->
    exists s, exact_result L o dist cs pts forced s /\ Permutation R (tiles s) /\ increasing s.
  Proof.
    intros (ch0 & ch1 & cvs & ch2 & sorted & Ht & Hs & Hr & Hp & Hc & ->).
    assert (Hpos : 0 < zlen pts - 1) by (unfold zlen; lia).
    pose proof (tree_chain pts (max_offset dist) (score_rel (o_threshold o)) _ _ (max_offset_splits dist _ HT) Ht Hpos) as C0. cbn [rI rJ] in C0.
    pose proof (tree_textbook dist (o_threshold o) pts HT _ _ Ht ltac:(cbn; lia) Hpos) as TB. cbn [rI rJ] in TB.
    pose proof (forced_chain ch0 ch1 cvs Hs C0 Hpos) as S1.
    destruct S1 as (C1 & S1 & Sf).
    assert (Pch1 : Forall (piece pts) ch1).
    { apply Forall_forall. intros r Hin. pose proof (chain_in _ _ _ _ C1 Hin). unfold piece. lia. }
    destruct (rounds_trees L o dist cs pts Hav Hscore _ _ _ Hr Pch1) as (ls & F & P2); [intros r A B; contradiction|].
    destruct (trees_split L o dist cs pts Hscore ch1 0 (zlen pts - 1) ls ltac:(lia) ltac:(lia) C1 F) as [C2 S2].
    assert (Es : sorted = concat ls).
    { apply (chain_perm_eq _ 0 (zlen pts - 1)); auto. rewrite <- Hp. exact P2. }
    subst sorted. set (l := map rJ (concat ls)) in *.
    assert (Et : tiles (0 :: l) = concat ls) by (eapply tiles_cut; exact C2).
    destruct (chain_ends _ _ _ C2) as (I2 & L2 & _).
    destruct (agg_drop L o dist cs pts HT Hav Hfollow cvs (length (concat ls)) [] 0 l ch2 []) as [G1 G2].
    - unfold l. rewrite map_length. lia.
    - exact I2.
    - apply Forall_forall. intros k Hk. apply (cut_ends _ _ _ C2) in Hk. destruct Hk as [->|(r & Hr1 & <-)]; [lia|].
      pose proof (chain_in _ _ _ _ C2 Hr1). lia.
    - cbn [rev app]. rewrite Et. exact Hp.
    - intros a b [].
    - rewrite Et in G1. eexists. split; [|split; [exact G1|exact G2]].
      exists (0 :: map rJ ch0), (0 :: map rJ ch1), (0 :: l), (fun k => zmem k cvs).
      split; [exact TB|]. split; [split; [apply (chain_ends _ _ _ C1)|exact S1]|]. split; [exact S2|]. split; [exact Sf|].
      exists 0, l. split; reflexivity.
  Qed.
End Result.

(** The set of vertices of hulls whose ranges are the parts of a list. *)
Lemma simple_set_tiles hs s lo hi : lo < hi -> tiling lo hi (map n_rng hs) -> Permutation (map n_rng hs) (tiles s) -> increasing s ->
  simple_set hs = s.
Proof.
  intros Hlt (c & Hpc & Hc) Hp Hi.
  destruct s as [|a l].
  { exfalso. cbn in Hp. apply Permutation_sym, Permutation_nil in Hp. rewrite Hp in Hpc. apply Permutation_nil in Hpc. subst c. cbn in Hc. lia. }
  destruct l as [|b l].
  { exfalso. cbn in Hp. apply Permutation_sym, Permutation_nil in Hp. rewrite Hp in Hpc. apply Permutation_nil in Hpc. subst c. cbn in Hc. lia. }
  unfold simple_set. destruct (point_set_spec hs) as [A B]. apply increasing_ext; auto.
  intros x. rewrite B. pose proof (tiles_chain _ _ Hi) as Ct. destruct (chain_ends _ _ _ Ct) as (_ & _ & M). rewrite tiles_ends in M.
  rewrite M. split.
  - intros (h & Hh & K). right. exists (n_rng h). split; [|exact K]. eapply Permutation_in; [exact Hp|]. apply in_map. exact Hh.
  - intros [->|(r & Hr & K)].
    + assert (Hr : In (Rng a b) (map n_rng hs)) by (eapply Permutation_in; [apply Permutation_sym, Hp|]; left; reflexivity).
      apply in_map_iff in Hr. destruct Hr as (h & E & Hh). exists h. split; [exact Hh|]. rewrite E. left. reflexivity.
    + eapply Permutation_in in Hr; [|apply Permutation_sym, Hp]. apply in_map_iff in Hr. destruct Hr as (h & E & Hh). exists h.
      rewrite E. auto.
Qed.

(** ** The description determines the result *)

Section Unique.
  Variables (L : geomlib) (o : opts) (dist : point -> point -> point -> f64) (cs : list geometry) (pts : list point).

  Lemma farthest_unique a b k k' : farthest_vertex dist pts a b k -> farthest_vertex dist pts a b k' -> k = k'.
  Proof.
    intros (H1 & H2 & H3 & H4) (G1 & G2 & G3 & G4). destruct (Z.lt_trichotomy k k') as [K|[K|K]]; [exfalso|auto|exfalso].
    - specialize (H4 k' ltac:(lia)). specialize (G3 k ltac:(lia)). apply flt_total in G3; auto. congruence.
    - specialize (G4 k ltac:(lia)). specialize (H3 k' ltac:(lia)). apply flt_total in H3; auto. congruence.
  Qed.
  Lemma split_until_unique a b l : split_until_fine L o dist cs pts a b l -> forall l', split_until_fine L o dist cs pts a b l' -> l = l'.
  Proof.
    induction 1 as [a b F|a b k l r F K H1 IH1 H2 IH2]; intros l' H'; inversion H' as [? ? F'|? ? k' l1 r1 F' K' H1' H2']; subst; try congruence.
    pose proof (farthest_unique _ _ _ _ K K') as <-. f_equal; [auto|]. specialize (IH2 _ H2'). congruence.
  Qed.
  Lemma split_parts_unique s l : split_parts L o dist cs pts s l -> forall l', split_parts L o dist cs pts s l' -> l = l'.
  Proof.
    induction 1 as [a|a b rest left right A B IH]; intros l' H'; inversion H' as [|? ? ? left' right' A' B']; subst; auto.
    f_equal; [eapply split_until_unique; eauto|]. specialize (IH _ B'). congruence.
  Qed.
  Lemma drop_ends_ext f g : (forall k : Z, f k = g k) -> forall n front i todo, (length todo <= n)%nat ->
    drop_ends L o dist cs pts f front i todo = drop_ends L o dist cs pts g front i todo.
  Proof.
    intros E. induction n as [|n IH]; intros front i todo Hn; (destruct todo as [|j rest]; [reflexivity|]); cbn [length] in Hn; [lia|].
    cbn [drop_ends]. rewrite !E.
    assert (D : forall fr, drop_ends L o dist cs pts f fr j rest = drop_ends L o dist cs pts g fr j rest) by (intros; apply IH; lia).
    destruct rest as [|k rest'].
    - destruct front; rewrite !D; reflexivity.
    - rewrite (IH (i :: front) k rest') by (cbn [length] in Hn; lia). destruct front; rewrite !D; reflexivity.
  Qed.
  Lemma exact_unique forced s s' : exact_result L o dist cs pts forced s -> exact_result L o dist cs pts forced s' -> s = s'.
  Proof.
    intros (d & w & p & f & T & (W1 & W2) & Sp & F & a & l & -> & ->) (d' & w' & p' & f' & T' & (W1' & W2') & Sp' & F' & a' & l' & -> & ->).
    pose proof (textbook_unique _ _ _ _ _ _ T _ T') as <-.
    assert (w' = w) as -> by (apply increasing_ext; auto; intros k; rewrite W2, W2'; reflexivity).
    pose proof (split_parts_unique _ _ Sp _ Sp') as E. injection E as <- <-.
    apply (drop_ends_ext f f') with (n := length l); [|lia].
    intros k. apply eq_true_iff_eq. rewrite F, F'. reflexivity.
  Qed.
End Unique.
