(** R-tree: insertion, bulk loading and removal preserve the invariant and change the
    stored multiset as expected. *)
From Verif Require Import M_Base M_Float M_Rng M_Geom M_Node M_Hdb Spec P_Base P_Float P_Hdb.
Open Scope Z_scope.

Lemma expand_lub a b B : box_in a B -> box_in b B -> box_in (expand a b) B.
Proof.
  rewrite !box_in_iff; intros (A1 & A2 & A3 & A4) (B1 & B2 & B3 & B4); cbn [expand minx miny maxx maxy].
  repeat split; match goal with |- context [if ?c then _ else _] => destruct c end; auto.
Qed.

Lemma empty_in B : box_nonan B -> box_in empty_mbr B.
Proof.
  intros (A & B0 & C & D); apply box_in_iff; cbn [empty_mbr minx miny maxx maxy].
  repeat split; first [apply fle_inf; assumption | apply fle_ninf; assumption].
Qed.

Lemma dist_bbox_lub l B : box_nonan B -> (forall c, In c l -> box_in (db_bbox c) B) ->
  box_in (dist_bbox l) B.
Proof.
  intros HB; unfold dist_bbox. revert l.
  assert (G : forall l b, box_in b B -> (forall c, In c l -> box_in (db_bbox c) B) ->
     box_in (fold_left (fun b c => expand b (db_bbox c)) l b) B).
  { induction l as [|c l IH]; intros b Hb Hl; cbn [fold_left]; [exact Hb|].
    apply IH; [|intros; apply Hl; right; auto]. apply expand_lub; [exact Hb|apply Hl; left; auto]. }
  intros l Hl; apply G; [apply empty_in, HB|exact Hl].
Qed.

Lemma replace_nth_len {A} i (x : A) l : length (replace_nth i x l) = length l.
Proof. revert i; induction l; intros [|i]; cbn; auto. Qed.

Lemma replace_nth_in {A} i (x y : A) l : In y (replace_nth i x l) -> y = x \/ In y l.
Proof.
  revert i; induction l as [|a l IH]; intros [|i]; cbn; auto.
  - intros [<-|H]; auto.
  - intros [<-|H]; auto. destruct (IH _ H); auto.
Qed.

Lemma replace_nth_split {A} i (c x : A) l : nth_error l i = Some c ->
  exists l1 l2, l = l1 ++ c :: l2 /\ replace_nth i x l = l1 ++ x :: l2.
Proof.
  revert i; induction l as [|a l IH]; intros [|i] H; cbn in *; try discriminate.
  - injection H as ->; exists [], l; auto.
  - destruct (IH _ H) as (l1 & l2 & -> & E); exists (a :: l1), l2; cbn; rewrite E; auto.
Qed.

Record oracle_ok (O : hdb_oracle) : Prop := {
  ok_sort : forall ax l, Permutation l (o_sort O ax l);
  ok_msel : forall ax n l, Permutation l (o_msel O ax n l);
  ok_height : forall M N, (4 <= M)%nat -> (M < N)%nat ->
    (1 <= o_height O M N /\ M ^ (o_height O M N - 1) <= N <= M ^ o_height O M N)%nat
}.

Section Ins.
  Variable P : f64 -> Prop.
  Hypothesis HP : tame P.
  Variable O : hdb_oracle.
  Hypothesis HO : oracle_ok O.
  Variable M m : nat.
  Hypothesis Hm : (1 <= m)%nat.
  Hypothesis HM : (4 <= M)%nat.
  Hypothesis HmM : (2 * m <= M + 1)%nat.

  Notation wf := (wf P M).
  Notation cont := (cont).

  Lemma split_axis_perm c : Permutation c (choose_split_axis O c m (length c)).
  Proof.
    unfold choose_split_axis; cbv zeta.
    match goal with |- context [if ?x then _ else _] => destruct x end;
      repeat (etransitivity; [|apply (ok_sort O HO)]); reflexivity.
  Qed.

  Definition ocont (h : nat) (o : option dbnode) : list node :=
    match o with Some s => cont h s | None => [] end.

  Lemma split_node_spec h nd :
    db_height nd = S h -> db_item nd = None -> db_leaf nd = Nat.eqb h 0 ->
    length (db_children nd) = S M ->
    (forall c, In c (db_children nd) -> wf h c) ->
    let '(a, s) := split_node O m nd in
    wf (S h) a /\ wf (S h) s /\
    Permutation (cont (S h) a ++ cont (S h) s) (cont (S h) nd) /\
    (forall B, box_nonan B -> (forall c, In c (db_children nd) -> box_in (db_bbox c) B) ->
       box_in (db_bbox a) B /\ box_in (db_bbox s) B).
  Proof.
    intros H1 H2 H3 H4 H5; unfold split_node; cbv zeta.
    destruct nd as [ch it hh lf bb]; cbn [db_children db_height db_item db_leaf] in *; subst.
    pose proof (split_axis_perm ch) as Hp.
    set (c := choose_split_axis O ch m (length ch)) in *.
    assert (Hl : length c = length ch) by (symmetry; apply Permutation_length; exact Hp).
    assert (Hc : forall x, In x c -> wf h x)
      by (intros x Hx; apply H5; eapply Permutation_in; [symmetry; exact Hp|exact Hx]).
    assert (Hb : forall x, In x c -> box_all P (db_bbox x)) by (intros x Hx; eapply wf_box; eauto).
    pose proof (split_index_range P HP c m Hm ltac:(lia) Hb) as Hr.
    rewrite Hl in Hr. set (k := choose_split_index c m (length ch)) in *.
    assert (Hf : length (firstn k c) = k) by (rewrite firstn_length; lia).
    assert (Hs : length (skipn k c) = (length ch - k)%nat) by (rewrite skipn_length; lia).
    cbn [set_children create_dbnode].
    split; [|split; [|split]].
    - apply wf_calc; auto; try lia.
      + intros E; rewrite E in Hf; cbn in Hf; lia.
      + intros x Hx; apply Hc; eapply firstn_In; eauto.
    - apply wf_calc; auto; try lia.
      + intros E; rewrite E in Hs; cbn in Hs; lia.
      + intros x Hx; apply Hc; eapply skipn_In; eauto.
    - rewrite !cont_calc; cbn [P_Hdb.cont db_children].
      rewrite <- flat_map_app, firstn_skipn. apply flat_map_perm; symmetry; exact Hp.
    - intros B HB Hin; cbn [calc_bbox db_bbox].
      assert (Hin' : forall x, In x c -> box_in (db_bbox x) B)
        by (intros x Hx; apply Hin; eapply Permutation_in; [symmetry; exact Hp|exact Hx]).
      split; apply dist_bbox_lub; auto; intros x Hx; apply Hin'.
      + eapply firstn_In; eauto.
      + eapply skipn_In; eauto.
  Qed.

  Lemma nonan_of_in a B : box_in a B -> box_nonan B.
  Proof. apply box_in_nan_r. Qed.

  Lemma ins_spec rem : forall k nd x,
    wf (S (rem + k)) nd -> wf k x ->
    exists a o, ins O M m rem nd x = Ok (a, o) /\
      wf (S (rem + k)) a /\ (forall s, o = Some s -> wf (S (rem + k)) s) /\
      Permutation (cont (S (rem + k)) a ++ ocont (S (rem + k)) o)
                  (cont (S (rem + k)) nd ++ cont k x) /\
      (forall B, box_in (db_bbox nd) B -> box_in (db_bbox x) B ->
         box_in (db_bbox a) B /\ forall s, o = Some s -> box_in (db_bbox s) B).
  Proof.
    induction rem as [|rem IH]; intros k nd x Hnd Hx.
    - cbn [Nat.add] in *. destruct nd as [ch it hh lf bb]. destruct Hnd as (E1 & E2 & E3 & E4 & E5 & E6 & E7).
      cbn [db_children db_height db_item db_leaf db_bbox] in *; subst hh it lf.
      assert (Bn : box_nonan bb) by (eapply box_all_nonan; eauto).
      assert (Xn : box_nonan (db_bbox x)) by (eapply wf_nonan; eauto).
      pose proof (wf_box P M _ _ Hx) as Xa.
      rewrite Forall_forall in E7.
      cbn [ins set_children set_bbox db_children db_bbox].
      destruct (Nat.ltb_spec M (length (ch ++ [x]))) as [Hov|Hov]; rewrite app_length in Hov; cbn in Hov.
      + match goal with |- context [split_node O m ?n] => set (nd1 := n) end.
        pose proof (split_node_spec k nd1 eq_refl eq_refl eq_refl) as S1.
        cbn [nd1 db_children] in S1. rewrite app_length in S1. cbn [length] in S1.
        specialize (S1 ltac:(lia)).
        destruct (split_node O m nd1) as [a s].
        destruct S1 as (W1 & W2 & W3 & W4).
        { intros c Hc; apply in_app_or in Hc; destruct Hc as [Hc|[<-|[]]]; [apply E7, Hc|exact Hx]. }
        exists a, (Some s); split; [reflexivity|]. split; [exact W1|]. split; [intros ? [= <-]; exact W2|]. split.
        * cbn [ocont]. etransitivity; [exact W3|]. cbn [nd1 P_Hdb.cont db_children].
          rewrite flat_map_app. cbn [flat_map]. rewrite app_nil_r. reflexivity.
        * intros B HB1 HB2. destruct (W4 B) as [Q1 Q2].
          -- eapply nonan_of_in; eauto.
          -- intros c Hc; apply in_app_or in Hc; destruct Hc as [Hc|[<-|[]]]; [|exact HB2].
             eapply box_in_trans; [apply E7, Hc|exact HB1].
          -- split; [exact Q1|intros ? [= <-]; exact Q2].
      + set (B1 := expand bb (db_bbox x)).
        assert (In1 : box_in bb B1) by (apply expand_l; auto).
        assert (In2 : box_in (db_bbox x) B1) by (apply expand_r; auto).
        assert (Bn1 : box_nonan B1) by (eapply nonan_of_in; eauto).
        assert (Ba1 : box_all P B1) by (apply expand_all; auto).
        pose proof (expand_l B1 _ Bn1 Xn) as In3.
        eexists _, None; split; [reflexivity|]. split; [|split; [discriminate|split]].
        * cbn [P_Hdb.wf db_children db_height db_item db_leaf db_bbox].
          repeat split; auto; try apply expand_all; auto.
          -- destruct ch; discriminate.
          -- rewrite app_length; cbn; lia.
          -- apply Forall_forall; intros c Hc; apply in_app_or in Hc; destruct Hc as [Hc|[<-|[]]].
             ++ destruct (E7 c Hc) as [Hw Hb]; split; [exact Hw|].
                eapply box_in_trans; [exact Hb|]. eapply box_in_trans; eauto.
             ++ split; [exact Hx|]. eapply box_in_trans; eauto.
        * cbn [ocont P_Hdb.cont db_children]. rewrite flat_map_app; cbn [flat_map]; rewrite !app_nil_r. reflexivity.
        * intros B HB1 HB2; split; [|discriminate]. cbn [db_bbox].
          apply expand_lub; auto. apply expand_lub; auto.
    - cbn [Nat.add] in *. destruct nd as [ch it hh lf bb]. destruct Hnd as (E1 & E2 & E3 & E4 & E5 & E6 & E7).
      cbn [db_children db_height db_item db_leaf db_bbox] in *; subst hh it lf.
      assert (Bn : box_nonan bb) by (eapply box_all_nonan; eauto).
      assert (Xn : box_nonan (db_bbox x)) by (eapply wf_nonan; eauto).
      pose proof (wf_box P M _ _ Hx) as Xa.
      rewrite Forall_forall in E7.
      cbn [ins db_leaf db_children Nat.eqb].
      destruct (choose_some P HP (o_eps O) (db_bbox x) ch Xa E4
                  (fun c Hc => wf_box P M _ _ (proj1 (E7 c Hc)))) as (i & c & -> & Hi).
      rewrite Hi.
      pose proof (nth_error_In _ _ Hi) as Hci. destruct (E7 c Hci) as [Hwc Hbc].
      destruct (IH k c x Hwc Hx) as (c' & o & -> & W1 & W2 & W3 & W4).
      cbn [bind].
      destruct (replace_nth_split i c c' ch Hi) as (l1 & l2 & Hch & Hrep).
      set (B1 := expand bb (db_bbox x)).
      assert (In1 : box_in bb B1) by (apply expand_l; auto).
      assert (In2 : box_in (db_bbox x) B1) by (apply expand_r; auto).
      assert (Hrw : forall d, In d (replace_nth i c' ch) -> wf (S (rem + k)) d).
      { intros d Hd; apply replace_nth_in in Hd; destruct Hd as [->|Hd]; [exact W1|apply E7, Hd]. }
      assert (Hrb : forall B d, box_in bb B -> box_in (db_bbox x) B ->
                 In d (replace_nth i c' ch) -> box_in (db_bbox d) B).
      { intros B d HB1 HB2 Hd; apply replace_nth_in in Hd; destruct Hd as [->|Hd].
        - refine (proj1 (W4 B _ HB2)). eapply box_in_trans; [exact Hbc|exact HB1].
        - eapply box_in_trans; [apply E7, Hd|exact HB1]. }
      destruct o as [c2|].
      + cbn [set_children db_children].
        destruct (Nat.ltb_spec M (length (replace_nth i c' ch ++ [c2]))) as [Hov|Hov];
          rewrite app_length, replace_nth_len in Hov; cbn [length] in Hov.
        * match goal with |- context [split_node O m ?n] => set (nd1 := n) end.
          pose proof (split_node_spec (S (rem + k)) nd1 eq_refl eq_refl eq_refl) as S1.
          cbn [nd1 db_children] in S1. rewrite app_length, replace_nth_len in S1. cbn [length] in S1.
          specialize (S1 ltac:(lia)).
          destruct (split_node O m nd1) as [a s].
          destruct S1 as (V1 & V2 & V3 & V4).
          { intros d Hd; apply in_app_or in Hd; destruct Hd as [Hd|[<-|[]]]; auto. }
          exists a, (Some s); split; [reflexivity|]. split; [exact V1|]. split; [intros ? [= <-]; exact V2|]. split.
          -- cbn [ocont]. etransitivity; [exact V3|].
             change (cont (S (S (rem + k))) nd1) with (flat_map (cont (S (rem + k))) (replace_nth i c' ch ++ [c2])).
             change (cont (S (S (rem + k))) (DbNode ch None (S (S (rem + k))) false bb))
               with (flat_map (cont (S (rem + k))) ch).
             rewrite Hrep. rewrite Hch, !flat_map_app. cbn [flat_map]. rewrite !app_nil_r.
             set (f := cont (S (rem + k))) in *. cbn [ocont] in W3; fold f in W3.
             rewrite <- !app_assoc. apply Permutation_app_head.
             rewrite (Permutation_app_comm (flat_map f l2)), app_assoc, W3.
             rewrite <- !app_assoc. apply Permutation_app_head, Permutation_app_comm.
          -- intros B HB1 HB2. destruct (V4 B) as [Q1 Q2].
             ++ eapply nonan_of_in; eauto.
             ++ intros d Hd; apply in_app_or in Hd; destruct Hd as [Hd|[<-|[]]].
                ** apply Hrb; auto.
                ** apply (W4 B); auto. eapply box_in_trans; eauto.
             ++ split; [exact Q1|intros ? [= <-]; exact Q2].
        * eexists _, None; split; [reflexivity|]. split; [|split; [discriminate|split]].
          -- cbn [set_bbox]. unfold P_Hdb.wf; fold (P_Hdb.wf P M).
             cbn [db_children db_height db_item db_leaf db_bbox].
             split; [reflexivity|]. split; [reflexivity|]. split; [reflexivity|].
             split; [destruct (replace_nth i c' ch); discriminate|].
             split; [rewrite app_length, replace_nth_len; cbn; lia|].
             split; [apply expand_all; auto|].
             apply Forall_forall; intros d Hd; apply in_app_or in Hd; destruct Hd as [Hd|[<-|[]]].
             ++ split; [apply Hrw, Hd|apply Hrb; auto].
             ++ split; [apply W2; reflexivity|]. apply (W4 B1); auto. eapply box_in_trans; eauto.
          -- cbn [ocont]. rewrite app_nil_r.
             match goal with |- Permutation (cont ?h ?d) _ =>
               change (cont h d) with (flat_map (cont (S (rem + k))) (replace_nth i c' ch ++ [c2])) end.
             change (cont (S (S (rem + k))) (DbNode ch None (S (S (rem + k))) false bb))
               with (flat_map (cont (S (rem + k))) ch).
             rewrite Hrep. rewrite Hch, !flat_map_app. cbn [flat_map]. rewrite !app_nil_r.
             set (f := cont (S (rem + k))) in *. cbn [ocont] in W3; fold f in W3.
             rewrite <- !app_assoc. apply Permutation_app_head.
             rewrite (Permutation_app_comm (flat_map f l2)), app_assoc, W3.
             rewrite <- !app_assoc. apply Permutation_app_head, Permutation_app_comm.
          -- intros B HB1 HB2; split; [|discriminate]. cbn [db_bbox set_bbox].
             apply expand_lub; auto.
      + eexists _, None; split; [reflexivity|]. split; [|split; [discriminate|split]].
        * cbn [set_bbox set_children]. unfold P_Hdb.wf; fold (P_Hdb.wf P M).
          cbn [db_children db_height db_item db_leaf db_bbox].
          split; [reflexivity|]. split; [reflexivity|]. split; [reflexivity|].
          split; [rewrite Hrep; destruct l1; discriminate|].
          split; [rewrite replace_nth_len; exact E5|].
          split; [apply expand_all; auto|].
          apply Forall_forall; intros d Hd; split; [apply Hrw, Hd|apply Hrb; auto].
        * cbn [ocont]. rewrite app_nil_r.
          match goal with |- Permutation (cont ?h ?d) _ =>
            change (cont h d) with (flat_map (cont (S (rem + k))) (replace_nth i c' ch)) end.
          change (cont (S (S (rem + k))) (DbNode ch None (S (S (rem + k))) false bb))
            with (flat_map (cont (S (rem + k))) ch).
          rewrite Hrep. rewrite Hch, !flat_map_app. cbn [flat_map].
          set (f := cont (S (rem + k))) in *. cbn [ocont] in W3; fold f in W3. rewrite app_nil_r in W3.
          rewrite <- !app_assoc. apply Permutation_app_head.
          rewrite W3, <- !app_assoc. apply Permutation_app_head, Permutation_app_comm.
        * intros B HB1 HB2; split; [|discriminate]. cbn [db_bbox set_bbox set_children].
          apply expand_lub; auto.
  Qed.

  (** ** Trees *)

  Definition root_ok (d : dbnode) : Prop :=
    d = empty_root \/ (exists h, wf (S h) d).

  Definition contents (d : dbnode) : list node := cont (db_height d) d.

  Lemma contents_wf h d : wf (S h) d -> contents d = cont (S h) d.
  Proof. intros (E & _); unfold contents; rewrite E; reflexivity. Qed.

  Definition tree_ok (t : hdb) : Prop := h_max t = M /\ h_min t = m /\ root_ok (h_root t).

  Lemma split_root_wf h a s : wf (S h) a -> wf (S h) s ->
    wf (S (S h)) (split_root a s) /\
    Permutation (contents (split_root a s)) (cont (S h) a ++ cont (S h) s).
  Proof.
    intros Ha Hs. unfold split_root, create_dbnode.
    destruct Ha as (E & Ha'). assert (Ha : wf (S h) a) by (split; assumption). rewrite E.
    assert (W : wf (S (S h)) (calc_bbox (DbNode [a; s] None (S (S h)) false empty_mbr))).
    { apply wf_calc; auto; [discriminate|cbn; lia|]. intros c [<-|[<-|[]]]; auto. }
    split; [exact W|]. rewrite (contents_wf _ _ W), cont_calc.
    change (Permutation (flat_map (cont (S h)) [a; s]) (cont (S h) a ++ cont (S h) s)).
    cbn [flat_map]; rewrite app_nil_r; reflexivity.
  Qed.

  Lemma ins_root_spec t rem k x :
    h_max t = M -> h_min t = m -> wf (S (rem + k)) (h_root t) -> wf k x ->
    exists t', ins_root O t rem x = Ok t' /\ tree_ok t' /\
      Permutation (contents (h_root t')) (contents (h_root t) ++ cont k x).
  Proof.
    intros E1 E2 Hr Hx; unfold ins_root; rewrite E1, E2.
    destruct (ins_spec rem k _ _ Hr Hx) as (a & o & -> & W1 & W2 & W3 & _); cbn [bind].
    rewrite (contents_wf _ _ Hr).
    destruct o as [s|].
    - destruct (split_root_wf _ a s W1 (W2 s eq_refl)) as [W4 W5].
      eexists; split; [reflexivity|]; split; [split; [|split]; cbn; auto|].
      + right; eauto.
      + cbn [h_root]. rewrite W5. exact W3.
    - eexists; split; [reflexivity|]; split; [split; [|split]; cbn; auto|].
      + right; eauto.
      + cbn [h_root]. rewrite (contents_wf _ _ W1). cbn [ocont] in W3. rewrite app_nil_r in W3. exact W3.
  Qed.

  Lemma insert_spec t it : tree_ok t -> item_ok P it ->
    exists t', insert O t it = Ok t' /\ tree_ok t' /\
      Permutation (contents (h_root t')) (it :: contents (h_root t)).
  Proof.
    intros (E1 & E2 & [Hr|[h Hr]]) Hit; unfold insert.
    - destruct t as [r mx mn]; cbn [h_root h_max h_min] in *; subst.
      unfold ins_root, empty_root, create_dbnode; cbn [h_root h_max h_min db_height Nat.sub].
      cbn [ins]. unfold set_children, set_bbox; cbn [db_children db_bbox app length].
      replace (M <? 1)%nat with false by (symmetry; apply Nat.ltb_ge; lia).
      cbn [bind]. eexists; split; [reflexivity|]; cbn [h_root].
      assert (Xa : box_all P (n_mbr it)) by apply Hit.
      assert (Xn : box_nonan (n_mbr it)) by (eapply box_all_nonan; eauto).
      set (b := db_bbox (new_leaf it)); change (n_mbr it) with b in *.
      pose proof (expand_empty P b HP Xa) as Ea.
      assert (En : box_nonan (expand empty_mbr b)) by (eapply box_all_nonan; eauto).
      assert (W : wf 1 (DbNode [new_leaf it] None 1 true (expand (expand empty_mbr b) b))).
      { cbn [P_Hdb.wf db_children db_height db_item db_leaf db_bbox].
        split; [reflexivity|]. split; [reflexivity|]. split; [reflexivity|].
        split; [discriminate|]. split; [cbn; lia|]. split; [apply expand_all; auto|].
        repeat constructor.
        - exists it; split; [reflexivity|exact Hit].
        - apply expand_r; auto. }
      split; [split; [|split]; cbn; auto; right; eauto|].
      rewrite (contents_wf _ _ W). cbn. constructor. constructor.
    - destruct (ins_root_spec t (db_height (h_root t) - 1) 0 (new_leaf it) E1 E2) as (t' & A & B & C).
      + destruct Hr as (E & Hr'). rewrite E. replace (S (S h - 1 + 0)) with (S h) by lia. split; assumption.
      + exists it; split; [reflexivity|exact Hit].
      + exists t'; split; [exact A|]; split; [exact B|]. rewrite C. cbn [P_Hdb.cont item_of new_leaf db_item].
        rewrite Permutation_app_comm. reflexivity.
  Qed.

  Lemma insert_all_spec items : forall t, tree_ok t -> Forall (item_ok P) items ->
    exists t', insert_all O t items = Ok t' /\ tree_ok t' /\
      Permutation (contents (h_root t')) (contents (h_root t) ++ items).
  Proof.
    induction items as [|it r IH]; intros t Ht Hi.
    - exists t; cbn; rewrite app_nil_r; auto.
    - inversion Hi; subst. destruct (insert_spec t it Ht) as (t1 & A & B & C); [assumption|].
      destruct (IH t1 B) as (t2 & D & E & F); [assumption|].
      exists t2; cbn [insert_all]; rewrite A; cbn [bind]; split; [exact D|]; split; [exact E|].
      rewrite F, C. cbn. apply Permutation_middle.
  Qed.
End Ins.
