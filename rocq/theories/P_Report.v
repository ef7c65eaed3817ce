(** The callback of the class simplification. *)
From Verif Require Import M_Base M_Float M_Rng M_Geom M_Offset M_Node M_Decompose M_Split M_Hdb M_Knn M_Lnr M_Homotopy M_Relate
  M_Deform M_Constrain M_ConstDP M_Report Spec Spec_Hdb Spec_ConstDP Spec_Report
  P_Base P_Float P_Decompose P_Split P_Node P_Hdb P_HdbIns P_HdbLoad P_HdbHist P_Knn P_Homotopy P_Relate P_Db P_Bag
  P_Constrain P_Deform P_ConstDP P_Aggregate P_Simplify P_Class.
Open Scope Z_scope.

(** Reporting changes nothing. *)
Lemma loop_unreported W env ord fuel : forall round dirty D db ctr,
  snd (split_loop_reporting W env ord fuel round dirty D db ctr) = split_loop W env ord fuel round dirty D db ctr.
Proof.
  induction fuel as [|f IH]; intros round dirty D db ctr; cbn [split_loop_reporting split_loop]; destruct D as [|d0 D0]; try reflexivity.
  cbn [snd]. destruct (find_deformable W env dirty (d0 :: D0) db) as [found| |]; cbn [bind]; try reflexivity.
  destruct (ord (2 * round)%nat found) as [|s0 s1]; [reflexivity|].
  destruct (deform_nodes W env (s0 :: s1) ctr) as [[defs c]| |]; cbn [bind]; try reflexivity.
  destruct (load (w_hdb W) (clean_up db (ord (S (2 * round)) found)) defs) as [db'| |]; cbn [bind]; try reflexivity. apply IH.
Qed.
Lemma class_unreported W gens ords ord env selfs o fuel :
  snd (simplify_feature_class_reporting W gens ords ord env selfs o fuel) = simplify_feature_class W gens ords ord env selfs o fuel.
Proof.
  unfold simplify_feature_class_reporting, simplify_feature_class. cbv zeta.
  destruct (simplify_instances _ _ _ _ _ _) as [done| |]; cbn [bind]; try reflexivity.
  destruct (constrained o); [|reflexivity]. cbn [snd]. unfold class_phase_reporting, class_phase.
  destruct (load _ _ _) as [db| |]; cbn [bind snd]; try reflexivity. rewrite loop_unreported.
  destruct (split_loop _ _ _ _ _ _ _ _ _) as [[db2 c2]| |]; reflexivity.
Qed.

(** Each hull splits into at most two. *)
Lemma deform_at_most W env sel : forall ctr defs ctr', deform_nodes W env sel ctr = Ok (defs, ctr') ->
  (length defs <= 2 * length sel)%nat.
Proof.
  induction sel as [|h r IH]; intros ctr defs ctr'; cbn [deform_nodes].
  - intros E. injection E as <- <-. cbn. lia.
  - destruct (1 <? rsize (n_rng h)).
    + destruct (at_score_selection _ _ _ _ _) as [[[ha hb] c1]| |]; cbn [bind]; try discriminate.
      destruct (deform_nodes W env r c1) as [[rest c2]| |] eqn:E; cbn [bind]; try discriminate.
      intros K. injection K as <- <-. apply IH in E. cbn [length]. lia.
    + destruct (deform_nodes W env r ctr) as [[rest c2]| |] eqn:E; cbn [bind]; try discriminate.
      intros K. injection K as <- <-. apply IH in E. cbn [length]. lia.
Qed.

Section Loop.
  Variables (W : world) (env : Z -> cdp) (ids : list Z) (own : Z -> Prop).
  Hypothesis St : setting W env ids own.
  Notation inv := (bag_inv (w_geom W) (lines_of env) ids (Src (w_gen W) own)).

  Lemma calls_spec ord : (forall k l, Permutation (ord k l) l) ->
    forall fuel round dirty D db ctr b calls db' ctr',
    holds db b -> inv ctr b -> incl D b ->
    split_loop_reporting W env ord fuel round dirty D db ctr = (calls, Ok (db', ctr')) ->
    exists b', holds db' b' /\ inv ctr' b' /\ zlen b <= zlen b' /\
      (D = [] -> calls = []) /\
      (D <> [] -> exists later, calls = zlen D :: later /\ Forall (fun n => 0 < n <= zlen b') later /\
        zlen later <= zlen b' - zlen b + 1 /\ 2 * (zlen b' - zlen b) <= total later /\ (later = [] -> b' = b) /\
        ((forall h, In h D -> rsize (n_rng h) = 1) -> later = [])).
  Proof.
    intros Hord. induction fuel as [|f IH]; intros round dirty D db ctr b calls db' ctr' Hdb Hi Hsub E;
      cbn [split_loop_reporting] in E; (destruct D as [|d0 D0] eqn:ED; [|try discriminate E]).
    - injection E as <- <- <-. exists b. split; [exact Hdb|]. split; [exact Hi|]. split; [lia|]. split; [reflexivity|]. intros K; contradiction K; reflexivity.
    - injection E as <- <- <-. exists b. split; [exact Hdb|]. split; [exact Hi|]. split; [lia|]. split; [reflexivity|]. intros K; contradiction K; reflexivity.
    - rewrite <- ED in *. assert (HD : D <> []) by (rewrite ED; discriminate). clear ED d0 D0.
      destruct (find_spec W env ids own St dirty db ctr b D Hdb Hi Hsub) as (found & Ef & Hnd & Hin & Hno & _ & _).
      rewrite Ef in E.
      pose proof (Hord (2 * round)%nat found) as Hp1. pose proof (Hord (S (2 * round)) found) as Hp2.
      destruct (ord (2 * round)%nat found) as [|s0 s1] eqn:Es.
      + cbn [fst snd] in E. injection E as <- <- <-. exists b. split; [exact Hdb|]. split; [exact Hi|]. split; [lia|]. split; [contradiction|].
        intros _. exists []. split; [reflexivity|]. split; [constructor|]. split; [unfold zlen; cbn [length]; lia|]. split; [change (total []) with 0; lia|]. split; reflexivity.
      + set (sel := s0 :: s1) in *.
        destruct (incl_rest found b Hnd (bi_nodup _ _ _ _ _ _ Hi) Hin) as [rest Hrest].
        assert (Hsr : Permutation b (sel ++ rest)).
        { rewrite Hrest. apply Permutation_app_tail. symmetry. exact Hp1. }
        destruct (deform_spec W env ids own St sel rest ctr (inv_perm _ _ _ _ _ _ _ Hsr Hi))
          as (defs & c1 & Ed & Hi' & Hc' & Hlen & Hgrow & Hsame & _).
        pose proof (deform_at_most _ _ _ _ _ _ Ed) as Hmost. rewrite Ed in E.
        assert (Hrm : holds (clean_up db (ord (S (2 * round)) found)) rest).
        { apply holds_remove_all.
          - apply (Permutation_NoDup (l := map n_id b)); [|apply (bi_nodup _ _ _ _ _ _ Hi)].
            apply Permutation_map. rewrite Hrest. apply Permutation_app_tail. symmetry. exact Hp2.
          - apply (holds_perm db b); [|exact Hdb]. rewrite Hrest. apply Permutation_app_tail. symmetry. exact Hp2. }
        assert (Hgd : Forall good_item defs).
        { apply Forall_forall. intros h Hh. apply (inv_goods W env ids own St c1 (defs ++ rest)); auto. apply in_or_app; auto. }
        destruct (holds_load (w_hdb W) _ _ defs (st_hdb _ _ _ _ St) Hrm Hgd) as (db1 & El & Hdb'). rewrite El in E.
        apply (holds_perm _ _ (defs ++ rest)) in Hdb'; [|apply Permutation_app_comm].
        destruct (split_loop_reporting W env ord f (S round) (mark_dirty dirty sel) defs db1 c1) as [calls1 r1] eqn:E1.
        cbn [fst snd] in E. injection E as <- ->.
        destruct (IH _ _ _ _ _ (defs ++ rest) _ _ _ Hdb' Hi' (fun x Hx => in_or_app _ _ _ (or_introl Hx)) E1)
          as (b2 & B1 & B2 & B3 & _ & B5).
        assert (Hdne : defs <> []) by (intros ->; cbn in Hlen; lia).
        destruct (B5 Hdne) as (later & -> & L1 & L2 & L3 & _ & L5). clear B5.
        assert (Hzb : zlen b = zlen sel + zlen rest).
        { unfold zlen. rewrite (Permutation_length Hsr), app_length. lia. }
        assert (Hzd : zlen (defs ++ rest) = zlen defs + zlen rest) by (unfold zlen; rewrite app_length; lia).
        assert (Hz1 : zlen sel <= zlen defs) by (unfold zlen; lia).
        assert (Hz2 : zlen defs <= 2 * zlen sel) by (unfold zlen; lia).
        assert (Hzs : 0 < zlen sel) by (unfold zlen; cbn; lia).
        assert (Hzr : 0 <= zlen rest) by (unfold zlen; lia).
        exists b2. split; [exact B1|]. split; [exact B2|]. split; [lia|]. split; [contradiction|].
        intros _. exists (zlen defs :: later). split; [reflexivity|].
        split; [constructor; [lia|exact L1]|].
        assert (Hzl : zlen (zlen defs :: later) = zlen later + 1) by (unfold zlen; cbn [length]; lia).
        split.
        { rewrite Hzl. destruct (forallb (fun h => rsize (n_rng h) =? 1) sel) eqn:Efs.
          - assert (Hall : forall h, In h sel -> rsize (n_rng h) = 1) by (intros h Hh; rewrite forallb_forall in Efs; apply Z.eqb_eq, Efs, Hh).
            rewrite (L5 ltac:(rewrite (Hsame Hall); exact Hall)). change (zlen (@nil Z)) with 0. lia.
          - assert (Hs : exists h, In h sel /\ rsize (n_rng h) <> 1).
            { clear -Efs. induction sel as [|h t IHt]; cbn in Efs; [discriminate|].
              destruct (Z.eqb_spec (rsize (n_rng h)) 1) as [K|K]; [|exists h; split; [left; auto|exact K]].
              destruct (IHt Efs) as (g & Hg & Q). exists g. split; [right; auto|exact Q]. }
            specialize (Hgrow Hs). assert (zlen sel < zlen defs) by (unfold zlen; lia). lia. }
        split; [cbn [total fold_right]; fold (total later); lia|].
        split; [discriminate|].
        intros K. exfalso. assert (found = []).
        { apply Hno. intros h Hh [Q _]. apply Q, K, Hh. }
        subst found. apply Permutation_sym, Permutation_nil in Hp1. unfold sel in Hp1. discriminate.
  Qed.
End Loop.

(** Hulls that tile a line: one less than the vertices they keep. *)
Lemma kept_count hs n : 0 < n -> tiling 0 n (map n_rng hs) -> zlen (simple_set hs) - 1 = zlen hs.
Proof.
  intros Hn Ht. unfold simple_set. rewrite (point_set_perm _ _ (node_sort_perm hs)).
  rewrite (point_set_chain _ _ _ Hn (node_sort_chain _ _ _ Ht)). unfold zlen. cbn [length]. rewrite map_length.
  rewrite <- (Permutation_length (node_sort_perm hs)). lia.
Qed.
