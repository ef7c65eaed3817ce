(** Two pictures of the same lines have the same description of a class run (Spec_Class.v). *)
From Coq Require Import Sorted.
From Verif Require Import M_Base M_Float M_Rng M_Geom M_Offset M_Node M_Decompose M_Split M_Hdb M_Knn M_Lnr M_Homotopy M_Relate
  M_Deform M_Constrain M_ConstDP M_IO Spec Spec_Hdb Spec_Lnr Spec_Relate Spec_Deform Spec_ConstDP Spec_IO Spec_Run Spec_Out Spec_Modes Spec_Move
  Spec_Exact Spec_Whole Spec_Class Spec_MoveClass
  P_Base P_Float P_Decompose P_Split P_Node P_Hdb P_Homotopy P_Relate P_Deform P_Conflict P_Constrain P_DpTree P_Ref P_Twin P_Modes P_Move P_Exact P_Whole.
Open Scope Z_scope.

Lemma nan_fle d : is_nan d = negb (fle d d).
Proof.
  destruct (is_nan d) eqn:E; destruct (fle d d) eqn:F; try reflexivity; exfalso.
  - apply fle_key in F. destruct F as (F & _). congruence.
  - pose proof (fle_total d d E E F) as K. rewrite flt_irrefl in K. discriminate.
Qed.
Lemma flt_fle a b : flt a b = fle a a && fle b b && negb (fle b a).
Proof.
  destruct (flt a b) eqn:E.
  - pose proof (flt_nan_l _ _ E) as Na. pose proof (flt_nan_r _ _ E) as Nb. rewrite nan_fle in Na, Nb. apply negb_false_iff in Na, Nb.
    rewrite Na, Nb, (flt_not_le _ _ E). reflexivity.
  - destruct (fle a a) eqn:A, (fle b b) eqn:B; try reflexivity. cbn [andb].
    assert (Na : is_nan a = false) by (rewrite nan_fle, A; reflexivity). assert (Nb : is_nan b = false) by (rewrite nan_fle, B; reflexivity).
    rewrite (flt_total a b Na Nb E). reflexivity.
Qed.

(** Increasing lists of vertices of a line. *)
Definition good (pts : list point) (l : list Z) : Prop := increasing l /\ Forall (fun k => 0 <= k < zlen pts) l.
Lemma good_parts pts l r : good pts l -> In r (parts l) -> piece pts r.
Proof.
  intros [A B]. revert r. induction l as [|a l IH]; intros r Hr; [destruct Hr|]. destruct l as [|b l]; [destruct Hr|].
  cbn [parts] in Hr. inversion A as [|? ? A1 A2]; subst. inversion B as [|? ? B1 B2]; subst. inversion A2; subst. inversion B2; subst.
  destruct Hr as [<- |Hr]; [unfold piece; cbn [rI rJ]; lia|]. apply IH; auto.
Qed.

Lemma rev_increasing l : StronglySorted Z.gt l -> increasing (rev l).
Proof.
  assert (App : forall (m : list Z) x, StronglySorted Z.lt m -> Forall (fun y => y < x) m -> StronglySorted Z.lt (m ++ [x])).
  { induction m as [|y m IH]; intros x H K; cbn [app]; [repeat constructor|]. inversion H; subst. inversion K; subst.
    constructor; [apply IH; assumption|]. apply Forall_app. split; [assumption|]. constructor; [assumption|constructor]. }
  induction l as [|x l IH]; intros H; [constructor|]. inversion H as [|? ? H1 H2]; subst. cbn [rev]. apply App; [apply IH, H1|].
  apply Forall_rev. eapply Forall_impl; [|exact H2]. cbv beta. intros; lia.
Qed.

Section Line.
  Variables (L L' : geomlib) (P : point -> point -> Prop) (C : geometry -> geometry -> Prop) (o o' : opts).
  Hypothesis HA : alike L L' P C o o'.
  Hypothesis HS : same_switches o o'.
  Variables (dist dist' : point -> point -> point -> f64) (pts pts' : list point) (cs cs' : list geometry).
  Hypothesis Hpts : Forall2 P pts pts'.
  Hypothesis Hcs : Forall2 C cs cs'.
  Hypothesis HB : sound_boxes L pts cs.
  Hypothesis HB' : sound_boxes L' pts' cs'.
  Hypothesis Hoff : offsets_alike pts pts' dist dist' (o_threshold o) (o_threshold o').
  Hypothesis HT : fle fzero (o_threshold o) = true.
  Hypothesis Htouch : point_touch L.
  Hypothesis Htouch' : point_touch L'.
  Hypothesis Hplaces : forall p, In p pts -> gl_eq2d L p p = true.
  Hypothesis Hplaces' : forall p, In p pts' -> gl_eq2d L' p p = true.

  Lemma off_le a b k l : 0 <= a -> b < zlen pts -> a < k < b -> a < l < b ->
    fle (offset dist' pts' a b k) (offset dist' pts' a b l) = fle (offset dist pts a b k) (offset dist pts a b l).
  Proof. intros A B K1 K2. exact (proj2 (proj2 Hoff a b A ltac:(lia) B) k l K1 K2). Qed.
  Lemma off_lt a b k l : 0 <= a -> b < zlen pts -> a < k < b -> a < l < b ->
    flt (offset dist' pts' a b k) (offset dist' pts' a b l) = flt (offset dist pts a b k) (offset dist pts a b l).
  Proof. intros A B K1 K2. rewrite !flt_fle, !off_le by assumption. reflexivity. Qed.
  Lemma off_nan a b k : 0 <= a -> b < zlen pts -> a < k < b -> is_nan (offset dist' pts' a b k) = is_nan (offset dist pts a b k).
  Proof. intros A B K. rewrite !nan_fle, off_le by assumption. reflexivity. Qed.
  Lemma threshold_ok T : fle fzero T = true -> fle T T = true.
  Proof. intros H. pose proof (nan_fle T) as N. apply fle_key in H. destruct H as (_ & H & _). rewrite H in N. symmetry in N. apply negb_false_iff in N. exact N. Qed.
  Lemma off_T a b k : 0 <= a -> b < zlen pts -> a < k < b ->
    flt (o_threshold o') (offset dist' pts' a b k) = flt (o_threshold o) (offset dist pts a b k).
  Proof.
    intros A B K. rewrite !flt_fle, off_le by assumption. destruct Hoff as [E0 E].
    rewrite (threshold_ok _ HT), (threshold_ok (o_threshold o')) by congruence.
    f_equal. f_equal. exact (proj2 (proj1 (E a b A ltac:(lia) B) k K)).
  Qed.

  Lemma far_iff a b k : 0 <= a -> b < zlen pts -> (farthest_vertex dist pts a b k <-> farthest_vertex dist' pts' a b k).
  Proof.
    intros A B. unfold farthest_vertex. split; intros (K & N & M1 & M2); (split; [exact K|]).
    - rewrite off_nan by assumption. split; [exact N|]. split; intros m Hm; [rewrite off_lt by assumption; auto|rewrite off_le by (assumption || lia); auto].
    - rewrite off_nan in N by assumption. split; [exact N|]. split; intros m Hm; [rewrite <- off_lt by assumption; auto|rewrite <- off_le by (assumption || lia); auto].
  Qed.
  Lemma close_eq a b : 0 <= a -> b < zlen pts -> all_close o' dist' pts' a b = all_close o dist pts a b.
  Proof.
    intros A B. unfold all_close. apply forallb_eq. intros m Hm. apply zseq_in in Hm. rewrite off_T by (assumption || lia). reflexivity.
  Qed.
  Lemma textbook_range i j s : textbook dist (o_threshold o) pts i j s -> i <= j -> Forall (fun k => i <= k <= j) s.
  Proof.
    induction 1 as [i j H|i j k left right d K1 K2 K3 K4 H1 IH1 H2 IH2]; intros Hij; [repeat constructor; lia|].
    apply Forall_app. specialize (IH1 ltac:(lia)). specialize (IH2 ltac:(lia)). inversion IH2; subst.
    split; (eapply Forall_impl; [|eassumption]); cbv beta; intros; lia.
  Qed.
  Lemma textbook_moved i j s : textbook dist (o_threshold o) pts i j s -> 0 <= i -> j < zlen pts -> textbook dist' (o_threshold o') pts' i j s.
  Proof.
    induction 1 as [i j H|i j k left right d K1 K2 K3 K4 H1 IH1 H2 IH2]; intros A B.
    - apply tb_keep_ends. intros m Hm. pose proof (off_T i j m A B Hm) as E. unfold offset in E. rewrite E. apply H, Hm.
    - apply tb_split with k; [exact K1| | | |apply IH1; lia|apply IH2; lia].
      + pose proof (off_T i j k A B K1) as E. unfold offset in E. rewrite E. exact K2.
      + intros m Hm. pose proof (off_lt i j k m A B K1 Hm) as E. unfold offset in E. rewrite E. apply K3, Hm.
      + intros m Hm. pose proof (off_le i j k m A B K1 ltac:(lia)) as E. unfold offset in E. rewrite E. apply K4, Hm.
  Qed.

  Lemma len' : zlen pts' = zlen pts.
  Proof. exact (len_eq P pts pts' Hpts). Qed.
  Lemma piece_iff r : piece pts r <-> piece pts' r.
  Proof. unfold piece. rewrite len'. reflexivity. Qed.
  Lemma chord_moved r : piece pts r -> chord_ok L' o' cs' pts' (rI r) (rJ r) = chord_ok L o cs pts (rI r) (rJ r).
  Proof.
    intros H. pose proof H as (A & B & _). destruct r as [a b]. cbn [rI rJ] in *. rewrite <- !valid_chord by assumption.
    exact (valid_eq L L' P C o o' HA HS pts pts' cs cs' Hpts Hcs HB HB' _ H).
  Qed.
  Lemma examined_moved r : piece pts r -> (examined (part L pts r) <-> examined (part L' pts' r)).
  Proof. intros H. rewrite <- !big_iff, (big_eq L L' P C o o' HA pts pts' Hpts r H). reflexivity. Qed.

  Lemma conflict_moved r q v : conflict L o pts r q v <-> conflict L' o' pts' r q v.
  Proof.
    assert (K : piece pts r -> piece pts q -> (conflict L o pts r q v <-> conflict L' o' pts' r q v)).
    { intros Hr Hq. rewrite (conflict_iff L o pts Htouch Hplaces r q v Hr Hq).
      rewrite (conflict_iff L' o' pts' Htouch' Hplaces' r q v) by (apply piece_iff; assumption).
      destruct HS as (_ & _ & Ea & _). rewrite Ea. destruct (o_avoid_self o) eqn:Hav; [|intuition discriminate].
      pose proof (near_flags L L' P C o o' HA pts pts' cs cs' Hpts HB HB' r q (fun p => (fst p && rng_eqb v r) || (snd p && rng_eqb v q)) eq_refl Hav Hr Hq) as E.
      cbv beta in E.
      assert (F : forall near fl, near = true /\ ((fst fl = true /\ v = r) \/ (snd fl = true /\ v = q)) <->
        near && ((fst fl && rng_eqb v r) || (snd fl && rng_eqb v q)) = true).
      { intros near fl. rewrite andb_true_iff, orb_true_iff, !andb_true_iff, !rng_eqb_eq. tauto. }
      rewrite !F, E. tauto. }
    split; intros H; pose proof H as (_ & A & B & _); [|apply piece_iff in A, B]; apply K; assumption.
  Qed.

  Lemma must_split_moved before now r : good pts now -> (must_split L o cs pts before now r <-> must_split L' o' cs' pts' before now r).
  Proof.
    intros Hg. unfold must_split.
    assert (K : forall h, In h (parts now) ->
      (examined (part L pts h) /\ ((r = h /\ chord_ok L o cs pts (rI h) (rJ h) = false) \/ exists q, In q (parts now) /\ conflict L o pts h q r) <->
       examined (part L' pts' h) /\ ((r = h /\ chord_ok L' o' cs' pts' (rI h) (rJ h) = false) \/ exists q, In q (parts now) /\ conflict L' o' pts' h q r))).
    { intros h Hh. pose proof (good_parts _ _ _ Hg Hh) as Hp. rewrite (chord_moved h Hp), (examined_moved h Hp).
      assert (X : (exists q, In q (parts now) /\ conflict L o pts h q r) <-> (exists q, In q (parts now) /\ conflict L' o' pts' h q r)).
      { split; intros (q & Hq & X); exists q; (split; [exact Hq|]); apply conflict_moved; exact X. }
      rewrite X. reflexivity. }
    split; intros (A & B & h & H1 & H2 & H3); (split; [exact A|]); (split; [exact B|]); exists h; (split; [exact H1|]); (split; [exact H2|]); apply (K h H1); exact H3.
  Qed.

  Lemma next_good now next (S : rng -> Prop) : good pts now -> (forall r, S r -> In r (parts now)) ->
    increasing next -> (forall k, In k next <-> In k now \/ exists r, S r /\ farthest_vertex dist pts (rI r) (rJ r) k) -> good pts next.
  Proof.
    intros Hg HS' Hi Hn. split; [exact Hi|]. apply Forall_forall. intros k Hk. apply Hn in Hk. destruct Hk as [Hk|(r & Hr & K & _)].
    - destruct Hg as [_ Hg]. rewrite Forall_forall in Hg. auto.
    - destruct (good_parts _ _ _ Hg (HS' r Hr)) as (A & B & D). lia.
  Qed.
  Lemma next_moved now k (S S' : rng -> Prop) : good pts now -> (forall r, S r -> In r (parts now)) -> (forall r, S r <-> S' r) ->
    (exists r, S r /\ farthest_vertex dist pts (rI r) (rJ r) k) <-> (exists r, S' r /\ farthest_vertex dist' pts' (rI r) (rJ r) k).
  Proof.
    intros Hg Hin E. split; intros (r & Hr & K); exists r; (split; [apply E; exact Hr|]).
    - destruct (good_parts _ _ _ Hg (Hin r Hr)) as (A & B & D). apply (far_iff _ _ k A D), K.
    - apply E in Hr. destruct (good_parts _ _ _ Hg (Hin r Hr)) as (A & B & D). apply (far_iff _ _ k A D), K.
  Qed.

  Lemma settle_moved before now result : settle L o dist cs pts before now result -> good pts now ->
    settle L' o' dist' cs' pts' before now result /\ good pts result.
  Proof.
    induction 1 as [before now H|before now next result Hex Hi Hn H IH]; intros Hg.
    - split; [|exact Hg]. apply se_done. intros r K. apply (H r), must_split_moved; assumption.
    - assert (Hin : forall r, must_split L o cs pts before now r -> In r (parts now)) by (intros r (A & _); exact A).
      pose proof (next_good now next _ Hg Hin Hi Hn) as Hg'. destruct (IH Hg') as [I1 I2]. split; [|exact I2].
      apply se_round with next; [|exact Hi| |exact I1].
      + destruct Hex as (r & Hr). exists r. apply must_split_moved; assumption.
      + intros k. rewrite Hn. rewrite (next_moved now k _ (must_split L' o' cs' pts' before now) Hg Hin (fun r => must_split_moved before now r Hg)). reflexivity.
  Qed.

  Lemma drop_moved fixed clear clear' :
    (forall l a b, piece pts (Rng a b) -> clear l a b = clear' l a b) ->
    forall n front i todo, (length todo <= n)%nat -> good pts (i :: todo) -> StronglySorted Z.gt (i :: front) -> Forall (fun k => 0 <= k < zlen pts) front ->
    drop_ends_clear o' dist' pts' fixed clear' front i todo = drop_ends_clear o dist pts fixed clear front i todo /\
    good pts (drop_ends_clear o dist pts fixed clear front i todo).
  Proof.
    intros Hc. induction n as [|n IH]; intros front i todo Hn [Hs Hr] Hf Hfr; (destruct todo as [|j rest]; [|cbn [length] in Hn; try lia]).
    1, 2: cbn [drop_ends_clear]; (split; [reflexivity|]); split; [|apply Forall_rev; constructor; [inversion Hr; assumption|exact Hfr]].
    1, 2: apply rev_increasing; exact Hf.
    cbn [drop_ends_clear].
    inversion Hs as [|? ? Hs1 Hs2]; subst. inversion Hr as [|? ? Hr1 Hr2]; subst. inversion Hs2 as [|? ? Hij _]; subst. inversion Hr2 as [|? ? Hrj Hr3]; subst.
    assert (Gj : good pts (j :: rest)) by (split; assumption).
    assert (Fi : StronglySorted Z.gt (j :: i :: front)).
    { constructor; [exact Hf|]. inversion Hf as [|? ? _ F2]; subst. constructor; [lia|]. eapply Forall_impl; [|exact F2]. cbv beta. intros; lia. }
    assert (Fj : StronglySorted Z.gt (j :: front)) by (inversion Fi as [|? ? F1 F2]; subst; inversion F1; subst; inversion F2; subst; constructor; assumption).
    assert (Fri : Forall (fun k => 0 <= k < zlen pts) (i :: front)) by (constructor; assumption).
    assert (Begin : forall behind,
      match front with
      | [] => drop_ends_clear o' dist' pts' fixed clear' (i :: front) j rest
      | p :: _ => if (j =? i + 1) && negb (fixed i) && (p + 1 <? i) && all_close o' dist' pts' p j && clear' (parts (rev front) ++ behind) p j
          then drop_ends_clear o' dist' pts' fixed clear' front j rest else drop_ends_clear o' dist' pts' fixed clear' (i :: front) j rest
      end =
      match front with
      | [] => drop_ends_clear o dist pts fixed clear (i :: front) j rest
      | p :: _ => if (j =? i + 1) && negb (fixed i) && (p + 1 <? i) && all_close o dist pts p j && clear (parts (rev front) ++ behind) p j
          then drop_ends_clear o dist pts fixed clear front j rest else drop_ends_clear o dist pts fixed clear (i :: front) j rest
      end /\ good pts
      match front with
      | [] => drop_ends_clear o dist pts fixed clear (i :: front) j rest
      | p :: _ => if (j =? i + 1) && negb (fixed i) && (p + 1 <? i) && all_close o dist pts p j && clear (parts (rev front) ++ behind) p j
          then drop_ends_clear o dist pts fixed clear front j rest else drop_ends_clear o dist pts fixed clear (i :: front) j rest
      end).
    { intros behind. destruct (IH (i :: front) j rest ltac:(lia) Gj Fi Fri) as [E1 G1]. destruct (IH front j rest ltac:(lia) Gj Fj Hfr) as [E2 G2].
      destruct front as [|p fr]; [auto|]. inversion Hfr; subst. inversion Fj as [|? ? _ X]; subst. inversion X; subst.
      rewrite E1, E2, close_eq, (Hc (parts (rev (p :: fr)) ++ behind) p j) by (try (unfold piece; cbn [rI rJ]); lia). split; [reflexivity|].
      destruct ((j =? i + 1) && negb (fixed i) && (p + 1 <? i) && all_close o dist pts p j && _); assumption. }
    destruct rest as [|k rest']; [apply Begin|]. inversion Hs1 as [|? ? Hs3 Hjk]; subst. inversion Hjk; subst. inversion Hr3; subst.
    assert (Gk : good pts (k :: rest')) by (split; assumption).
    assert (Fk : StronglySorted Z.gt (k :: i :: front)).
    { constructor; [exact Hf|]. inversion Fi as [|? ? _ X]; subst. eapply Forall_impl; [|exact X]. cbv beta. intros; lia. }
    destruct (IH (i :: front) k rest' ltac:(cbn [length] in *; lia) Gk Fk Fri) as [E3 G3].
    rewrite close_eq by lia. destruct ((j =? i + 1) && negb (fixed j) && all_close o dist pts i k); [|apply Begin].
    rewrite E3, (Hc (parts (rev (i :: front)) ++ parts (k :: rest')) i k) by (unfold piece; cbn [rI rJ]; lia).
    destruct (clear' (parts (rev (i :: front)) ++ parts (k :: rest')) i k); [auto|apply Begin].
  Qed.

  Lemma whole_moved (forced forced' : Z -> Prop) result : (2 <= length pts)%nat -> (forall k, forced k <-> forced' k) ->
    whole_result L o dist cs pts forced result -> whole_result L' o' dist' cs' pts' forced' result /\ good pts result.
  Proof.
    intros H2 Hf (dp & w & split & fixed & clear & T & (W1 & W2) & Se & Fx & Cl & first & others & -> & ->).
    assert (Hz : 2 <= zlen pts) by (unfold zlen; lia).
    assert (Gw : good pts w).
    { split; [exact W1|]. apply Forall_forall. intros k Hk. apply W2 in Hk. destruct Hk as [Hk|[_ Hk]]; [|exact Hk].
      pose proof (textbook_range _ _ _ T ltac:(lia)) as R. rewrite Forall_forall in R. specialize (R k Hk). lia. }
    destruct (settle_moved _ _ _ Se Gw) as [Se' Gs].
    set (clear' := clearb L' o' cs' pts').
    assert (Hc : forall l a b, piece pts (Rng a b) -> clear l a b = clear' l a b).
    { intros l a b Hp. apply eq_true_iff_eq. rewrite Cl. unfold clear'. rewrite (clearb_iff L' o' cs' pts' Htouch' Hplaces'). unfold clear_of.
      pose proof (chord_moved _ Hp) as Ec. cbn [rI rJ] in Ec. rewrite Ec. split; intros [A B]; (split; [exact A|]); intros q v Hq K; apply (B q v Hq), conflict_moved, K. }
    destruct (drop_moved fixed clear clear' Hc (length others) [] first others ltac:(lia) Gs) as [E G].
    { constructor; constructor. } { constructor. }
    split; [|exact G]. exists dp, w, (first :: others), fixed, clear'. rewrite len'. split; [apply textbook_moved; auto; lia|].
    split; [split; [exact W1|]; intros k; rewrite W2, Hf; reflexivity|]. split; [exact Se'|].
    split; [intros k; rewrite Fx, Hf; reflexivity|]. split; [intros l a b; apply clearb_iff; assumption|].
    exists first, others. split; [reflexivity|]. symmetry. exact E.
  Qed.
End Line.

(** ** Lines together *)

Definition class_flags (L : geomlib) (o : opts) (a b : node) : bool * bool :=
  match flags (pair_candidates L (o_non_planar_displacement o) true a b) with Ok p => p | _ => (false, false) end.

Lemma class_flags_iff L o pts i r j q k v : point_touch L -> (forall p, In p (pts i) -> gl_eq2d L p p = true) -> (forall p, In p (pts j) -> gl_eq2d L p p = true) ->
  piece (pts i) r -> piece (pts j) q ->
  (class_conflict L (o_non_planar_displacement o) (class_part L pts i r) (class_part L pts j q) (class_part L pts k v) <->
   (fst (class_flags L o (class_part L pts i r) (class_part L pts j q)) = true /\ k = i /\ v = r) \/
   (snd (class_flags L o (class_part L pts i r) (class_part L pts j q)) = true /\ k = j /\ v = q)).
Proof.
  intros Ht Pi Pj Hr Hq.
  assert (Hh : forall i r, hullish (class_part L pts i r)) by (intros; eexists; reflexivity).
  assert (Hpl : forall i r j q, (forall p, In p (pts j) -> gl_eq2d L p p = true) -> piece (pts j) q -> places_at L (class_part L pts i r) (class_part L pts j q)).
  { clear. intros i r j q H Hq p p' Hp Hp' _. apply H. exact (ends_in L (pts j) q p' Hq Hp'). }
  rewrite <- (pair_iff_at L (o_non_planar_displacement o) true _ _ (class_part L pts k v) (Hpl i r j q Pj Hq) (Hpl j q i r Pi Hr) Ht (Hh i r) (Hh j q)).
  destruct (pair_spec L (o_non_planar_displacement o) true _ _ Ht (Hh i r) (Hh j q)) as (sa & sb & E & K1 & K2).
  unfold class_flags. rewrite E. cbn [flags fst snd].
  assert (Inj : forall i r, Some (class_part L pts i r) = Some (class_part L pts k v) -> k = i /\ v = r).
  { clear. intros i r K. injection K. auto. }
  split.
  - intros (sa' & sb' & E' & K). injection E' as <- <-. destruct K as [->| ->].
    + destruct K1 as [K1|K1]; [discriminate|]. left. split; [reflexivity|]. apply Inj. congruence.
    + destruct K2 as [K2|K2]; [discriminate|]. right. split; [reflexivity|]. apply Inj. congruence.
  - intros K. exists sa, sb. split; [reflexivity|]. destruct K as [(K & -> & ->)|(K & -> & ->)].
    + destruct K1 as [-> | ->]; [discriminate|]. auto.
    + destruct K2 as [-> | ->]; [discriminate|]. auto.
Qed.

Lemma class_img L L' P C o o' a a' b b' : alike L L' P C o o' -> o_avoid_self o = true -> img L L' P a a' -> img L L' P b b' ->
  n_inst a' = n_inst a -> n_inst b' = n_inst b -> class_flags L' o' a' b' = class_flags L o a b.
Proof.
  intros HA Hav Ha Hb Ea Eb. unfold class_flags.
  assert (K : flags (pair_candidates L' (o_non_planar_displacement o') true a' b') = flags (pair_candidates L (o_non_planar_displacement o) true a b)); [|rewrite K; reflexivity]. pose proof (pair_img L L' P C o o' HA Hav a a' b b' Ha Hb) as Same. unfold pair_candidates in *.
  cbn [negb orb] in *. rewrite Ea, Eb. destruct (n_inst a =? n_inst b); [exact Same|]. clear Same.
  destruct (img_geom L L' P C o o' HA _ _ Ha) as [Ga _]. destruct (img_geom L L' P C o o' HA _ _ Hb) as [Gb _].
  rewrite (al_isect _ _ _ _ _ _ HA _ _ _ _ Ga Gb). destruct (gl_isect L (n_geom a) (n_geom b)); cbn [negb]; [|reflexivity].
  destruct (al_meet _ _ _ _ _ _ HA Hav _ _ _ _ Ga Gb) as (l & Hp & Hl).
  assert (El : zlen (gl_inter L' (n_geom a') (n_geom b')) = zlen (gl_inter L (n_geom a) (n_geom b))).
  { rewrite <- (Forall2_len P _ _ Hl). unfold zlen. rewrite (Permutation_length Hp). reflexivity. }
  rewrite El. destruct (0 <? zlen (gl_inter L (n_geom a) (n_geom b))); cbn [negb andb]; [|reflexivity].
  unfold non_contiguous_candidates. pose proof (img_seg L L' P C o o' HA _ _ Ha) as Sa. pose proof (img_seg L L' P C o o' HA _ _ Hb) as Sb.
  pose proof (img_line L L' P C o o' HA _ _ Ha) as La. pose proof (img_line L L' P C o o' HA _ _ Hb) as Lb.
  rewrite (al_isect _ _ _ _ _ _ HA _ _ _ _ Sa Sb), (al_isect _ _ _ _ _ _ HA _ _ _ _ Sa Lb),
    (al_isect _ _ _ _ _ _ HA _ _ _ _ Sb La), (al_isect _ _ _ _ _ _ HA _ _ _ _ La Lb).
  destruct (al_meet _ _ _ _ _ _ HA Hav _ _ _ _ La Lb) as (l1 & P1 & F1).
  destruct (al_meet _ _ _ _ _ _ HA Hav _ _ _ _ Sa Sb) as (l2 & P2 & F2).
  assert (E1 : zlen (gl_inter L' (n_line a') (n_line b')) = zlen (gl_inter L (n_line a) (n_line b))).
  { rewrite <- (Forall2_len P _ _ F1). unfold zlen. rewrite (Permutation_length P1). reflexivity. }
  assert (E2 : zlen (gl_inter L' (n_seg a') (n_seg b')) = zlen (gl_inter L (n_seg a) (n_seg b))).
  { rewrite <- (Forall2_len P _ _ F2). unfold zlen. rewrite (Permutation_length P2). reflexivity. }
  assert (E3 : existsb (fun p => existsb (fun q => fgt (gl_ptdist L' p q) (o_non_planar_displacement o')) (gl_inter L' (n_seg a') (n_seg b'))) (gl_inter L' (n_line a') (n_line b')) =
               existsb (fun p => existsb (fun q => fgt (gl_ptdist L p q) (o_non_planar_displacement o)) (gl_inter L (n_seg a) (n_seg b))) (gl_inter L (n_line a) (n_line b))).
  { rewrite (existsb_perm _ _ _ P1). symmetry. apply (Forall2_existsb P); [|exact F1]. intros p p' Hpp.
    rewrite (existsb_perm _ _ _ P2). apply (Forall2_existsb P); [|exact F2]. intros q q' Hqq. symmetry.
    apply (al_moved _ _ _ _ _ _ HA Hav); auto. }
  rewrite E1, E2, E3.
  repeat match goal with |- context [if ?c then _ else _] => destruct c end; reflexivity.
Qed.

Section Class.
  Variables (L L' : geomlib) (P : point -> point -> Prop) (C : geometry -> geometry -> Prop) (o o' : opts).
  Hypothesis HA : alike L L' P C o o'.
  Hypothesis HS : same_switches o o'.
  Variables (dist dist' : point -> point -> point -> f64) (ids : list Z) (pts pts' : Z -> list point) (cs cs' : list geometry).
  Hypothesis Hpts : forall i, In i ids -> Forall2 P (pts i) (pts' i).
  Hypothesis Htwo : forall i, In i ids -> (2 <= length (pts i))%nat.
  Hypothesis Hcs : Forall2 C cs cs'.
  Hypothesis HB : forall i, In i ids -> sound_boxes L (pts i) cs.
  Hypothesis HB' : forall i, In i ids -> sound_boxes L' (pts' i) cs'.
  Hypothesis HN : meet_near L ids pts.
  Hypothesis HN' : meet_near L' ids pts'.
  Hypothesis Hoff : forall i, In i ids -> offsets_alike (pts i) (pts' i) dist dist' (o_threshold o) (o_threshold o').
  Hypothesis HT : fle fzero (o_threshold o) = true.
  Hypothesis Htouch : point_touch L.
  Hypothesis Htouch' : point_touch L'.
  Hypothesis Hplaces : forall i p, In i ids -> In p (pts i) -> gl_eq2d L p p = true.
  Hypothesis Hplaces' : forall i p, In i ids -> In p (pts' i) -> gl_eq2d L' p p = true.

  Notation disp := (o_non_planar_displacement o).
  Notation disp' := (o_non_planar_displacement o').

  Lemma part_img i r : In i ids -> piece (pts i) r -> img L L' P (class_part L pts i r) (class_part L' pts' i r).
  Proof.
    intros Hi Hr. destruct (hl_img L L' P (pts i) (pts' i) (Hpts i Hi) r Hr) as [A B D E F G]. split; assumption.
  Qed.
  Lemma piece_moved i r : In i ids -> (piece (pts i) r <-> piece (pts' i) r).
  Proof. intros Hi. unfold piece. rewrite (Forall2_len P _ _ (Hpts i Hi)). reflexivity. Qed.

  Lemma class_conflict_moved i r j q k v : o_avoid_self o = true -> In i ids -> In j ids -> piece (pts i) r -> piece (pts j) q ->
    (class_conflict L disp (class_part L pts i r) (class_part L pts j q) (class_part L pts k v) <->
     class_conflict L' disp' (class_part L' pts' i r) (class_part L' pts' j q) (class_part L' pts' k v)).
  Proof.
    intros Hav Hi Hj Hr Hq. rewrite (class_flags_iff L o pts i r j q k v) by (auto; intros p; apply Hplaces; assumption).
    rewrite (class_flags_iff L' o' pts' i r j q k v); auto; try (apply piece_moved; assumption); try (intros p; apply Hplaces'; assumption).
    rewrite (class_img L L' P C o o' _ _ _ _ HA Hav (part_img i r Hi Hr) (part_img j q Hj Hq) eq_refl eq_refl). reflexivity.
  Qed.
  Lemma between_moved i r j q k v : In i ids -> In j ids -> piece (pts i) r -> piece (pts j) q ->
    (conflict_between L o pts i r j q k v <-> conflict_between L' o' pts' i r j q k v).
  Proof.
    intros Hi Hj Hr Hq. unfold conflict_between. destruct HS as (_ & _ & Ea & _). rewrite Ea.
    split; intros (Hav & Hne & _ & _ & K); (split; [exact Hav|]); (split; [exact Hne|]); pose proof K as (Hm & _).
    - apply (class_conflict_moved i r j q k v Hav Hi Hj Hr Hq) in K. pose proof K as (Hm' & _).
      destruct (HN' i j r q Hi Hj (proj1 (piece_moved i r Hi) Hr) (proj1 (piece_moved j q Hj) Hq) Hm'). auto.
    - apply (class_conflict_moved i r j q k v Hav Hi Hj Hr Hq) in K. pose proof K as (Hm' & _).
      destruct (HN i j r q Hi Hj Hr Hq Hm'). auto.
  Qed.

  Definition all_good (now : Z -> list Z) : Prop := forall i, In i ids -> good (pts i) (now i).

  Lemma checked_moved before now i r : all_good now -> (checked L ids pts before now i r <-> checked L' ids pts' before now i r).
  Proof.
    intros Hg. unfold checked.
    assert (K : In i ids -> In r (parts (now i)) -> (examined (class_part L pts i r) <-> examined (class_part L' pts' i r))).
    { intros Hi Hr. exact (examined_moved L L' P C o o' HA (pts i) (pts' i) (Hpts i Hi) r (good_parts _ _ _ (Hg i Hi) Hr)). }
    split; intros (A & B & D & E); (split; [exact A|]); (split; [exact B|]); (split; [exact D|]); apply (K A B), E.
  Qed.
  Lemma asks_moved changed now i r k v : all_good now -> In i ids -> piece (pts i) r ->
    (asks L o ids pts changed now i r k v <-> asks L' o' ids pts' changed now i r k v).
  Proof.
    intros Hg Hi Hr. unfold asks.
    split; intros (j & q & A & B & D & E); exists j, q; (split; [exact A|]); (split; [exact B|]); (split; [exact D|]);
      apply (between_moved i r j q k v Hi A Hr (good_parts _ _ _ (Hg j A) B)), E.
  Qed.
  Lemma checked_piece before now i r : all_good now -> checked L ids pts before now i r -> In i ids /\ piece (pts i) r.
  Proof. intros Hg (A & B & _). split; [exact A|]. exact (good_parts _ _ _ (Hg i A) B). Qed.

  Lemma round_moved changed before now split : all_good now -> split_in_round L o cs ids pts changed before now split ->
    split_in_round L' o' cs' ids pts' changed before now split.
  Proof.
    intros Hg (taken & T1 & T2 & T3 & T4). exists taken. split; [|split; [|split]].
    - intros i r k v K. destruct (T1 i r k v K) as [A B]. destruct (checked_piece _ _ _ _ Hg A) as [Hi Hr].
      split; [apply checked_moved; assumption|apply (asks_moved changed now i r k v Hg Hi Hr), B].
    - intros i r k v A B. apply checked_moved in A; [|exact Hg]. destruct (checked_piece _ _ _ _ Hg A) as [Hi Hr].
      apply (T2 i r k v A). apply (asks_moved changed now i r k v Hg Hi Hr), B.
    - exact T3.
    - intros k v. rewrite T4.
      assert (K : checked L ids pts before now k v /\ chord_ok L o cs (pts k) (rI v) (rJ v) = false <->
                  checked L' ids pts' before now k v /\ chord_ok L' o' cs' (pts' k) (rI v) (rJ v) = false).
      { rewrite <- (checked_moved before now k v Hg). split; intros [A B]; (split; [exact A|]); destruct (checked_piece _ _ _ _ Hg A) as [Hk Hv];
          pose proof (chord_moved L L' P C o o' HA HS (pts k) (pts' k) cs cs' (Hpts k Hk) Hcs (HB k Hk) (HB' k Hk) v Hv); congruence. }
      rewrite K. reflexivity.
  Qed.
  Lemma unambiguous_moved changed before now : all_good now -> unambiguous L o ids pts changed before now -> unambiguous L' o' ids pts' changed before now.
  Proof.
    intros Hg U i r k k' v A B B'. apply checked_moved in A; [|exact Hg]. destruct (checked_piece _ _ _ _ Hg A) as [Hi Hr].
    apply (U i r k k' v A); apply (asks_moved changed now i r _ v Hg Hi Hr); assumption.
  Qed.

  Lemma step_moved changed before now split next : all_good now -> split_in_round L o cs ids pts changed before now split ->
    (forall i, In i ids -> increasing (next i) /\
       forall k, In k (next i) <-> In k (now i) \/ exists v, split i v /\ farthest_vertex dist (pts i) (rI v) (rJ v) k) ->
    all_good next /\
    forall i, In i ids -> increasing (next i) /\
       forall k, In k (next i) <-> In k (now i) \/ exists v, split i v /\ farthest_vertex dist' (pts' i) (rI v) (rJ v) k.
  Proof.
    intros Hg (taken & _ & _ & _ & T4) Hn.
    assert (Hin : forall i v, split i v -> In v (parts (now i))) by (intros i v K; apply T4 in K; tauto).
    split; intros i Hi; destruct (Hn i Hi) as [A B].
    - exact (next_good dist (pts i) (now i) (next i) (split i) (Hg i Hi) (Hin i) A B).
    - split; [exact A|]. intros k. rewrite B.
      rewrite (next_moved o o' dist dist' (pts i) (pts' i) (Hoff i Hi) (now i) k (split i) (split i) (Hg i Hi) (Hin i) (fun r => conj (fun x => x) (fun x => x))). reflexivity.
  Qed.

  Lemma settle_class_moved changed before now result : settle_class L o dist cs ids pts changed before now result -> all_good now ->
    settle_class L' o' dist' cs' ids pts' changed before now result.
  Proof.
    induction 1 as [changed before now split result Hsp Hno Hr|changed before now split next result Hsp Hex Hn H IH]; intros Hg.
    - eapply sc_done; [apply round_moved; eassumption|exact Hno|exact Hr].
    - destruct (step_moved _ _ _ _ _ Hg Hsp Hn) as [Hg' Hn']. eapply sc_round; [apply round_moved; eassumption|exact Hex|exact Hn'|apply IH, Hg'].
  Qed.
  Lemma settle_clearly_moved changed before now result : settle_clearly L o dist cs ids pts changed before now result -> all_good now ->
    settle_clearly L' o' dist' cs' ids pts' changed before now result.
  Proof.
    induction 1 as [changed before now split result U Hsp Hno Hr|changed before now split next result U Hsp Hex Hn H IH]; intros Hg.
    - eapply sy_done; [apply unambiguous_moved; eassumption|apply round_moved; eassumption|exact Hno|exact Hr].
    - destruct (step_moved _ _ _ _ _ Hg Hsp Hn) as [Hg' Hn'].
      eapply sy_round; [apply unambiguous_moved; eassumption|apply round_moved; eassumption|exact Hex|exact Hn'|apply IH, Hg'].
  Qed.

  Variables forced forced' : Z -> Z -> Prop.
  Hypothesis Hforced : forall i k, In i ids -> (forced i k <-> forced' i k).

  Lemma alone_moved i s : In i ids -> whole_result L o dist cs (pts i) (forced i) s ->
    whole_result L' o' dist' cs' (pts' i) (forced' i) s /\ good (pts i) s.
  Proof.
    intros Hi. apply (whole_moved L L' P C o o' HA HS dist dist' (pts i) (pts' i) cs cs'); auto; try (intros p; auto; fail).
    - intros p. apply Hplaces, Hi.
    - intros p. apply Hplaces', Hi.
  Qed.
  Lemma class_moved result : class_result L o dist cs ids pts forced result -> class_result L' o' dist' cs' ids pts' forced' result.
  Proof.
    intros (alone & Ha & Hs). exists alone. split; [intros i Hi; apply alone_moved; auto|].
    apply settle_class_moved; [exact Hs|]. intros i Hi. apply (alone_moved i (alone i) Hi (Ha i Hi)).
  Qed.
  Lemma class_clear_moved result : class_result_clear L o dist cs ids pts forced result -> class_result_clear L' o' dist' cs' ids pts' forced' result.
  Proof.
    intros (alone & Ha & Hs). exists alone. split; [intros i Hi; apply alone_moved; auto|].
    apply settle_clearly_moved; [exact Hs|]. intros i Hi. apply (alone_moved i (alone i) Hi (Ha i Hi)).
  Qed.
End Class.
