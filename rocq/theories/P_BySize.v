(** Proofs about merging fragments by size. *)
From Verif Require Import M_Base M_Float M_Rng M_Geom M_Offset M_Node M_Decompose M_Split M_Hdb M_Knn M_Deform
  Spec Spec_Hdb P_Base P_Split P_HdbIns P_HdbHist P_Db P_Bag M_BySize Spec_BySize.
Open Scope Z_scope.

Lemma rng_eqb_spec a b : rng_eqb a b = true <-> a = b.
Proof.
  destruct a as [a b'], b as [c d]; unfold rng_eqb; cbn.
  rewrite andb_true_iff, !Z.eqb_eq. split; [intros [-> ->]; reflexivity|intros [= -> ->]; auto].
Qed.
Lemma rng_eqb_neq a b : a <> b -> rng_eqb a b = false.
Proof. intros H. destruct (rng_eqb a b) eqn:E; auto. apply rng_eqb_spec in E; contradiction. Qed.

Lemma dict_del_id r d : (forall x, In x d -> n_rng x <> r) -> dict_del r d = d.
Proof.
  induction d as [|y d IH]; intros H; cbn; [reflexivity|].
  rewrite rng_eqb_neq by (apply H; left; reflexivity). cbn. f_equal. apply IH. intros x Hx; apply H; right; auto.
Qed.

Lemma dict_has_del r r' d : dict_has r (dict_del r' d) = negb (rng_eqb r r') && dict_has r d.
Proof.
  unfold dict_has, dict_del. induction d as [|y d IH]; cbn; [rewrite andb_false_r; reflexivity|].
  destruct (rng_eqb (n_rng y) r') eqn:E; cbn; rewrite IH.
  - apply rng_eqb_spec in E. destruct (rng_eqb (n_rng y) r) eqn:E2; cbn.
    + apply rng_eqb_spec in E2. rewrite <- E, E2.
      rewrite (proj2 (rng_eqb_spec r r) eq_refl). reflexivity.
    + reflexivity.
  - destruct (rng_eqb (n_rng y) r) eqn:E2; cbn; [|reflexivity].
    apply rng_eqb_spec in E2. rewrite E2 in E. rewrite E. reflexivity.
Qed.

Lemma dict_has_set r h d : dict_has r (dict_set h d) = rng_eqb (n_rng h) r || dict_has r d.
Proof.
  unfold dict_set. unfold dict_has at 1. rewrite existsb_app. cbn.
  change (existsb (fun x => rng_eqb (n_rng x) r) (dict_del (n_rng h) d)) with (dict_has r (dict_del (n_rng h) d)).
  rewrite dict_has_del, orb_false_r.
  destruct (rng_eqb (n_rng h) r) eqn:E; [apply orb_true_r|].
  assert (rng_eqb r (n_rng h) = false) as ->.
  { apply rng_eqb_neq. intros ->. rewrite (proj2 (rng_eqb_spec _ _) eq_refl) in E. discriminate. }
  cbn. apply orb_false_r.
Qed.

Lemma dict_set_in x h d : In x (dict_set h d) -> x = h \/ In x d.
Proof.
  intros H. apply in_app_or in H. destruct H as [H|[<-|[]]]; [right|left; reflexivity].
  apply filter_In in H. tauto.
Qed.

Section BySize.
Variables (L : geomlib) (gen : idgen) (vset : Z -> bool) (size : Z) (valid : f64 -> bool) (score : scorefn).
Variables (pts : list point) (hulls unm0 : list node) (lo hi : Z).
Hypothesis HT : tiling lo hi (map n_rng hulls).
Hypothesis HH : Forall (hull_of pts) hulls.

Lemma same_start x y : In x hulls -> In y hulls -> rI (n_rng x) = rI (n_rng y) -> x = y.
Proof.
  intros Hx Hy E.
  assert (Er : n_rng x = n_rng y) by (apply (tiling_start lo hi _ _ _ HT); auto; apply in_map; auto).
  clear E. pose proof (tiling_nodup _ _ _ HT) as N. clear HT HH.
  induction hulls as [|z l IH]; [destruct Hx|]. cbn in N. inversion N as [|? ? N1 N2]; subst.
  destruct Hx as [->|Hx], Hy as [->|Hy]; auto.
  - exfalso. apply N1. rewrite Er. apply in_map, Hy.
  - exfalso. apply N1. rewrite <- Er. apply in_map, Hx.
Qed.

Lemma hulls_nodup : NoDup hulls.
Proof. apply (NoDup_map_inv n_rng). exact (tiling_nodup _ _ _ HT). Qed.

Lemma hull_ok x : In x hulls -> hull_of pts x.
Proof. intros H. exact (proj1 (Forall_forall _ _) HH x H). Qed.

Definition notm (mrg : list node) (x : node) : bool := negb (dict_has (n_rng x) mrg).

Record inv (done : list node) (st : frag_state) (ps : list (node * node)) (ms : list node) : Prop := {
  i_rm : fs_rm st = both ps;
  i_join : Forall2 (joined pts vset size valid score) ps ms;
  i_dict : Permutation (fs_hdict st) (filter (notm (fs_mrg st)) done ++ ms);
  i_mrg : forall x, In x hulls -> (dict_has (n_rng x) (fs_mrg st) = true <-> In x (fs_rm st));
  i_nodup : NoDup (fs_rm st);
  i_incl : incl (fs_rm st) hulls;
  i_unm : forall u, In u (fs_unmerged st) -> In u unm0 \/ (In u hulls /\ rJ (n_rng u) - rI (n_rng u) = size)
}.

Lemma join_part ps : forall ms m, Forall2 (joined pts vset size valid score) ps ms -> incl (both ps) hulls ->
  In m ms -> exists a, In a (both ps) /\ rI (n_rng m) = rI (n_rng a) /\ rJ (n_rng a) < rJ (n_rng m).
Proof.
  induction ps as [|[s h] ps IH]; intros ms m F I Hm; inversion F as [|? m' ? ms' J F']; subst; [destruct Hm|].
  cbn in I.
  destruct Hm as [<-|Hm].
  - destruct J as (_ & J & _).
    pose proof (hull_ok s (I s ltac:(left; reflexivity))) as (S1 & S2 & _).
    pose proof (hull_ok h (I h ltac:(right; left; reflexivity))) as (H1 & H2 & _).
    destruct J as [(J1 & _ & ->)|(J1 & _ & ->)]; [exists s|exists h]; cbn; split; auto; lia.
  - destruct (IH ms' m F') as (a & Ha & E); [intros x Hx; apply I; right; right; exact Hx|exact Hm|].
    exists a. cbn. split; auto.
Qed.

Lemma join_not_input done st ps ms x m : inv done st ps ms -> In x hulls -> In m ms -> n_rng m <> n_rng x.
Proof.
  intros I Hx Hm E.
  destruct (join_part ps ms m (i_join _ _ _ _ I)) as (a & Ha & E1 & E2); auto.
  { rewrite <- (i_rm _ _ _ _ I). apply (i_incl _ _ _ _ I). }
  assert (Ha' : In a hulls) by (apply (i_incl _ _ _ _ I); rewrite (i_rm _ _ _ _ I); exact Ha).
  rewrite E in E1. assert (x = a) by (apply same_start; auto). subst a. rewrite E in E2. lia.
Qed.

Lemma filter_ext_in_ {A} (f g : A -> bool) l : (forall x, In x l -> f x = g x) -> filter f l = filter g l.
Proof. intros H. induction l as [|x l IH]; cbn; auto. rewrite (H x) by (left; reflexivity). rewrite IH; auto. intros y Hy; apply H; right; exact Hy. Qed.

Lemma filter_filter_ {A} (f g : A -> bool) l : filter g (filter f l) = filter (fun x => f x && g x) l.
Proof. induction l as [|x l IH]; cbn; auto. destruct (f x); cbn; rewrite IH; reflexivity. Qed.

Lemma dict_del_perm r d d' : Permutation d d' -> Permutation (dict_del r d) (dict_del r d').
Proof.
  unfold dict_del. induction 1; cbn; auto.
  - destruct (negb (rng_eqb (n_rng x) r)); auto.
  - destruct (negb (rng_eqb (n_rng x) r)), (negb (rng_eqb (n_rng y) r)); auto. apply perm_swap.
  - etransitivity; eauto.
Qed.

Lemma mergeable_spec h s : In h hulls -> In s hulls ->
  exists b, mergeable vset valid score h s = Ok b /\
    (b = true -> meet_outside vset (n_rng s) (n_rng h) /\
                 contiguous_coords h s = Ok (sub_coords pts (merge_range (n_rng s) (n_rng h))) /\
                 valid (snd (score (sub_coords pts (merge_range (n_rng s) (n_rng h))))) = true) /\
    (b = false -> meet_outside vset (n_rng s) (n_rng h) ->
       valid (snd (score (both_points pts (n_rng s) (n_rng h)))) = false).
Proof.
  intros Hh Hs. pose proof (hull_ok h Hh) as Oh. pose proof (hull_ok s Hs) as Os.
  assert (Ah : rI (n_rng h) < rJ (n_rng h)) by apply Oh.
  assert (As : rI (n_rng s) < rJ (n_rng s)) by apply Os.
  unfold mergeable.
  set (test := ((rJ (n_rng h) =? rI (n_rng s)) && negb (vset (rI (n_rng s)))) ||
     ((rI (n_rng h) =? rJ (n_rng s)) && negb (vset (rJ (n_rng s))))).
  assert (T : test = true <-> meet_outside vset (n_rng s) (n_rng h)).
  { unfold test, meet_outside. rewrite orb_true_iff, !andb_true_iff, !negb_true_iff, !Z.eqb_eq.
    split; intros [[A B]|[A B]].
    - right; split; [exact A|exact B].
    - left; split; [symmetry; exact A|rewrite A; exact B].
    - right; split; [symmetry; exact A|rewrite A; exact B].
    - left; split; [exact A|exact B]. }
  destruct test.
  - assert (M : meet_outside vset (n_rng s) (n_rng h)) by (apply T; reflexivity).
    assert (C : rcontig (n_rng s) (n_rng h) = true) by (apply rcontig_spec; auto; destruct M as [[M _]|[M _]]; auto).
    assert (C' : rcontig (n_rng h) (n_rng s) = true) by (apply rcontig_spec; auto; destruct M as [[M _]|[M _]]; auto).
    rewrite (contiguous_coords_spec pts) by auto. cbn [bind].
    destruct (score (sub_coords pts (merge_range (n_rng s) (n_rng h)))) as [k v] eqn:E. cbn [snd].
    exists (valid v). split; [reflexivity|]. split.
    + intros Hv. split; [exact M|]. split; [|exact Hv].
      rewrite (contiguous_coords_spec pts) by auto. rewrite !merge_range_spec by lia.
      rewrite Z.min_comm, Z.max_comm. reflexivity.
    + intros Hv _. change (both_points pts (n_rng s) (n_rng h)) with
        (sub_coords pts (Rng (Z.min (rI (n_rng s)) (rI (n_rng h))) (Z.max (rJ (n_rng s)) (rJ (n_rng h))))).
      rewrite <- merge_range_spec by lia. rewrite E. exact Hv.
  - exists false. split; [reflexivity|]. split; [discriminate|].
    intros _ M. apply T in M. discriminate.
Qed.

Lemma frag_try_spec done h : In h hulls -> rJ (n_rng h) - rI (n_rng h) = size -> In h done -> incl done hulls ->
  NoDup done ->
  forall hs st ctr ps ms, inv done st ps ms -> dict_has (n_rng h) (fs_mrg st) = false ->
  (forall s, In s hs -> In s hulls /\ s <> h) ->
  exists st' ctr' ps' ms', frag_try L gen vset valid score h hs st ctr = Ok (st', ctr') /\
    inv done st' ps' ms' /\
    (forall x, In x hulls -> dict_has (n_rng x) (fs_mrg st) = true -> dict_has (n_rng x) (fs_mrg st') = true) /\
    (dict_has (n_rng h) (fs_mrg st') = true \/
     forall s, In s hs -> dict_has (n_rng s) (fs_mrg st') = true \/ mergeable vset valid score h s = Ok false).
Proof.
  intros Hh Hz Hd Hin Hnd. induction hs as [|s hs IH]; intros st ctr ps ms I Nm Hs.
  - exists st, ctr, ps, ms. split; [reflexivity|]. split; [exact I|]. split; [auto|]. right; intros s [].
  - cbn [frag_try]. destruct (Hs s ltac:(left; reflexivity)) as [Hsin Hsh].
    destruct (dict_has (n_rng s) (fs_mrg st)) eqn:Ms.
    + destruct (IH st ctr ps ms I Nm) as (st' & ctr' & ps' & ms' & E & I' & G & D).
      { intros x Hx; apply Hs; right; exact Hx. }
      exists st', ctr', ps', ms'. split; [exact E|]. split; [exact I'|]. split; [exact G|].
      destruct D as [D|D]; [left; exact D|right]. intros x [<-|Hx]; [left; auto|apply D, Hx].
    + destruct (mergeable_spec h s Hh Hsin) as (b & Eb & Tb & Fb). rewrite Eb; cbn [bind].
      destruct b; cbn [negb].
      * destruct (Tb eq_refl) as (M & Ec & V). rewrite Ec; cbn [bind].
        pose proof (hull_ok h Hh) as Oh. pose proof (hull_ok s Hsin) as Os.
        assert (Ah : rI (n_rng h) < rJ (n_rng h)) by apply Oh.
        assert (As : rI (n_rng s) < rJ (n_rng s)) by apply Os.
        set (nd := create_node L (gen ctr) (sub_coords pts (merge_range (n_rng s) (n_rng h)))
            (merge_range (n_rng s) (n_rng h)) (n_inst h)).
        assert (Rn : n_rng nd = Rng (Z.min (rI (n_rng s)) (rI (n_rng h))) (Z.max (rJ (n_rng s)) (rJ (n_rng h)))).
        { unfold nd; cbn. apply merge_range_spec; lia. }
        assert (J : joined pts vset size valid score (s, h) nd).
        { cbn [joined]. split; [exact Hz|]. split; [|split; [|split; [reflexivity|exact V]]].
          - rewrite Rn. destruct M as [[M1 M2]|[M1 M2]]; [left|right]; split; auto; split; auto; f_equal; lia.
          - unfold hull_of. rewrite Rn. cbn [rI rJ]. destruct Oh as (O1 & _ & O3 & _), Os as (O4 & _ & O6 & _).
            split; [lia|]. split; [lia|]. split; [lia|]. unfold nd; cbn. rewrite merge_range_spec by lia. reflexivity. }
        assert (Rsh : n_rng s <> n_rng h) by (intros E; apply Hsh, same_start; auto; rewrite E; reflexivity).
        (* the new range is not a key *)
        assert (Key : forall x, In x (fs_hdict st) -> n_rng x <> n_rng nd).
        { intros x Hx E.
          assert (Hfirst : exists a, (a = s \/ a = h) /\ rI (n_rng nd) = rI (n_rng a) /\ rJ (n_rng a) < rJ (n_rng nd)).
          { rewrite Rn; cbn [rI rJ]. destruct M as [[M1 M2]|[M1 M2]]; [exists s|exists h]; split; auto; lia. }
          destruct Hfirst as (a & Ha & Ea & La).
          assert (Hain : In a hulls) by (destruct Ha; subst; auto).
          assert (Nam : dict_has (n_rng a) (fs_mrg st) = false) by (destruct Ha; subst; auto).
          apply (Permutation_in _ (i_dict _ _ _ _ I)) in Hx. apply in_app_or in Hx. destruct Hx as [Hx|Hx].
          - apply filter_In in Hx. destruct Hx as [Hx _].
            assert (x = a) by (apply same_start; auto; rewrite E; exact Ea). subst x. rewrite E in La; lia.
          - destruct (join_part ps ms x (i_join _ _ _ _ I)) as (c & Hc & E1 & E2); auto.
            { rewrite <- (i_rm _ _ _ _ I). apply (i_incl _ _ _ _ I). }
            rewrite <- (i_rm _ _ _ _ I) in Hc.
            assert (Hcin : In c hulls) by (apply (i_incl _ _ _ _ I), Hc).
            assert (c = a) by (apply same_start; auto; rewrite <- E1, E; exact Ea). subst c.
            apply (i_mrg _ _ _ _ I a Hain) in Hc. congruence. }
        assert (HasNew : forall x, dict_has (n_rng x) (dict_set s (dict_set h (fs_mrg st))) =
            rng_eqb (n_rng s) (n_rng x) || (rng_eqb (n_rng h) (n_rng x) || dict_has (n_rng x) (fs_mrg st))).
        { intros x. rewrite !dict_has_set. reflexivity. }
        assert (Snm : ~ In s (fs_rm st)) by (intros X; apply (i_mrg _ _ _ _ I s Hsin) in X; congruence).
        assert (Hnm : ~ In h (fs_rm st)) by (intros X; apply (i_mrg _ _ _ _ I h Hh) in X; congruence).
        eexists _, _, (ps ++ [(s, h)]), (ms ++ [nd]). split; [reflexivity|].
        split; [|split; [intros x Hx E; cbn [fs_mrg]; rewrite HasNew, E, !orb_true_r; reflexivity|]].
        -- split; cbn [fs_rm fs_mrg fs_hdict fs_unmerged].
           ++ rewrite (i_rm _ _ _ _ I). unfold both. rewrite flat_map_app. reflexivity.
           ++ apply Forall2_app; [exact (i_join _ _ _ _ I)|]. constructor; [exact J|constructor].
           ++ unfold dict_set at 1. rewrite dict_del_id.
              2:{ intros x Hx. apply Key. unfold dict_del in Hx. apply filter_In in Hx. destruct Hx as [Hx _].
                  apply filter_In in Hx. tauto. }
              rewrite app_assoc. apply Permutation_app_tail.
              rewrite (dict_del_perm _ _ _ (dict_del_perm (n_rng s) _ _ (i_dict _ _ _ _ I))).
              unfold dict_del. rewrite !filter_app. 
              change (filter (fun x => negb (rng_eqb (n_rng x) (n_rng h)))
                 (filter (fun x => negb (rng_eqb (n_rng x) (n_rng s))) ms)) with
                 (dict_del (n_rng h) (dict_del (n_rng s) ms)).
              rewrite (dict_del_id (n_rng s) ms) by (intros x Hx; apply (join_not_input _ _ _ _ _ _ I Hsin Hx)).
              rewrite (dict_del_id (n_rng h) ms) by (intros x Hx; apply (join_not_input _ _ _ _ _ _ I Hh Hx)).
              apply Permutation_app_tail. rewrite !filter_filter_.
              erewrite filter_ext_in_; [reflexivity|]. intros x Hx. cbn beta. unfold notm. rewrite HasNew, !negb_orb.
              assert (Sy : forall u v, rng_eqb u v = rng_eqb v u).
              { intros u v. unfold rng_eqb. rewrite (Z.eqb_sym (rI u)), (Z.eqb_sym (rJ u)). reflexivity. }
              rewrite (Sy (n_rng s)), (Sy (n_rng h)).
              destruct (dict_has (n_rng x) (fs_mrg st)), (rng_eqb (n_rng x) (n_rng s)), (rng_eqb (n_rng x) (n_rng h)); reflexivity.
           ++ intros x Hx. rewrite HasNew. rewrite !orb_true_iff, !rng_eqb_spec, (i_mrg _ _ _ _ I x Hx).
              split.
              ** intros [E|[E|E]]; apply in_or_app; [right; left|right; right; left|left; exact E].
                 --- apply same_start; auto. rewrite E; reflexivity.
                 --- apply same_start; auto. rewrite E; reflexivity.
              ** intros E. apply in_app_or in E. destruct E as [E|[<-|[<-|[]]]]; auto.
           ++ apply (Permutation_NoDup (l := s :: h :: fs_rm st)).
              ** change (s :: h :: fs_rm st) with ([s; h] ++ fs_rm st). apply Permutation_app_comm.
              ** constructor; [intros [E|E]; [congruence|contradiction]|]. constructor; [exact Hnm|exact (i_nodup _ _ _ _ I)].
           ++ intros x Hx. apply in_app_or in Hx. destruct Hx as [Hx|[<-|[<-|[]]]]; auto. apply (i_incl _ _ _ _ I), Hx.
           ++ intros u Hu. apply filter_In in Hu. apply (i_unm _ _ _ _ I u). tauto.
        -- left. cbn [fs_mrg]. rewrite HasNew. rewrite (proj2 (rng_eqb_spec (n_rng h) (n_rng h)) eq_refl).
           cbn. apply orb_true_r.
      * destruct (IH (FragState (fs_hdict st) (fs_mrg st) (dict_set h (fs_unmerged st)) (fs_rm st)) ctr ps ms)
          as (st' & ctr' & ps' & ms' & E & I' & G & D).
        { destruct I as [I1 I2 I3 I4 I5 I6 I7]. split; cbn [fs_rm fs_mrg fs_hdict fs_unmerged]; auto.
          intros u Hu. apply dict_set_in in Hu. destruct Hu as [->|Hu]; [right; auto|apply I7, Hu]. }
        { exact Nm. }
        { intros x Hx; apply Hs; right; exact Hx. }
        exists st', ctr', ps', ms'. split; [exact E|]. split; [exact I'|]. split; [exact G|].
        destruct D as [D|D]; [left; exact D|right]. intros x [<-|Hx]; [right; exact Eb|apply D, Hx].
Qed.

Variable db : hdb.
Hypothesis HDB : holds db hulls.

Definition settled (st : frag_state) (h : node) : Prop :=
  rJ (n_rng h) - rI (n_rng h) = size -> dict_has (n_rng h) (fs_mrg st) = false ->
  forall s, In s hulls -> nearby L epsilon_dist h s = true -> dict_has (n_rng s) (fs_mrg st) = false ->
    mergeable vset valid score h s = Ok false.

Lemma frag_loop_spec : forall todo done st ctr ps ms,
  hulls = done ++ todo -> inv done st ps ms -> (forall h, In h done -> settled st h) ->
  exists st' ctr' ps' ms', frag_loop L gen db vset size valid score todo st ctr = Ok (st', ctr') /\
    inv hulls st' ps' ms' /\ (forall h, In h hulls -> settled st' h).
Proof.
  induction todo as [|h todo IH]; intros done st ctr ps ms Hsplit I S.
  - rewrite app_nil_r in Hsplit. subst done. exists st, ctr, ps, ms. split; [reflexivity|]. auto.
  - assert (Hh : In h hulls) by (rewrite Hsplit; apply in_or_app; right; left; reflexivity).
    assert (Hsplit' : hulls = (done ++ [h]) ++ todo) by (rewrite <- app_assoc; exact Hsplit).
    assert (Hin : incl (done ++ [h]) hulls).
    { intros x Hx. rewrite Hsplit'. apply in_or_app; left; exact Hx. }
    assert (Hhd : ~ In h done).
    { pose proof hulls_nodup as N. rewrite Hsplit in N. intros X. apply NoDup_remove_2 in N.
      apply N, in_or_app; left; exact X. }
    cbn [frag_loop]. destruct (dict_has (n_rng h) (fs_mrg st)) eqn:Mh.
    + apply (IH (done ++ [h]) st ctr ps ms Hsplit').
      * destruct I as [I1 I2 I3 I4 I5 I6 I7]. split; auto.
        rewrite filter_app. cbn [filter]. unfold notm at 2. rewrite Mh. cbn. rewrite app_nil_r. exact I3.
      * intros x Hx. apply in_app_or in Hx. destruct Hx as [Hx|[<-|[]]]; [apply S, Hx|].
        intros _ E; congruence.
    + set (st1 := FragState (dict_set h (fs_hdict st)) (fs_mrg st) (fs_unmerged st) (fs_rm st)).
      assert (I1 : inv (done ++ [h]) st1 ps ms).
      { pose proof I as I0. destruct I as [J1 J2 J3 J4 J5 J6 J7]. split; auto. cbn [st1 fs_hdict fs_mrg].
        unfold dict_set. rewrite dict_del_id.
        - rewrite filter_app. cbn [filter]. unfold notm at 2. rewrite Mh. cbn [negb].
          rewrite J3, <- !app_assoc. apply Permutation_app_head. apply Permutation_app_comm.
        - intros x Hx E. apply (Permutation_in _ J3) in Hx. apply in_app_or in Hx. destruct Hx as [Hx|Hx].
          + apply filter_In in Hx. destruct Hx as [Hx _].
            assert (Hxin : In x hulls) by (apply Hin, in_or_app; left; exact Hx).
            assert (x = h) by (apply same_start; auto; rewrite E; reflexivity). subst x. contradiction.
          + exact (join_not_input _ _ _ _ h x I0 Hh Hx E). }
      assert (S1 : forall x, In x done -> settled st1 x) by (intros x Hx; exact (S x Hx)).
      unfold rsize. destruct (Z.eqb_spec (rJ (n_rng h) - rI (n_rng h)) size) as [Hz|Hz]; cbn [negb].
      * destruct (holds_neighbours L db hulls h epsilon_dist HDB (holds_good _ _ _ HDB Hh)) as (hs & Eh & Ph).
        rewrite Eh; cbn [bind].
        assert (Hhs : forall s, In s (node_sort hs) <-> In s hulls /\ nearby L epsilon_dist h s = true).
        { intros s. rewrite <- filter_In. split; intros X.
          - eapply Permutation_in; [exact Ph|]. eapply Permutation_in; [apply Permutation_sym, node_sort_perm|exact X].
          - eapply Permutation_in; [apply node_sort_perm|]. eapply Permutation_in; [apply Permutation_sym, Ph|exact X]. }
        destruct (frag_try_spec (done ++ [h]) h Hh Hz) with (hs := node_sort hs) (st := st1) (ctr := ctr) (ps := ps) (ms := ms)
          as (st2 & ctr2 & ps2 & ms2 & E2 & I2 & G2 & D2); auto.
        { apply in_or_app; right; left; reflexivity. }
        { pose proof hulls_nodup as N. rewrite Hsplit' in N. clear -N.
          induction (done ++ [h]) as [|y l IHl]; [constructor|]. cbn in N. inversion N; subst. constructor; auto.
          intros X. apply H1, in_or_app; left; exact X. }
        { intros s Hs. apply Hhs in Hs. destruct Hs as [Hs1 Hs2]. split; [exact Hs1|]. intros ->.
          unfold nearby in Hs2. rewrite Z.eqb_refl in Hs2. cbn in Hs2. rewrite andb_false_r in Hs2. discriminate. }
        rewrite E2; cbn [bind].
        apply (IH (done ++ [h]) st2 ctr2 ps2 ms2 Hsplit' I2).
        assert (Back : forall x, In x hulls -> dict_has (n_rng x) (fs_mrg st2) = false -> dict_has (n_rng x) (fs_mrg st1) = false).
        { intros x Hx E. destruct (dict_has (n_rng x) (fs_mrg st1)) eqn:Q; auto. rewrite (G2 x Hx Q) in E; discriminate. }
        intros x Hx. apply in_app_or in Hx. destruct Hx as [Hx|[<-|[]]].
        -- intros Z1 Z2 s Hs1 Hs2 Hs3. apply (S1 x Hx Z1); auto. apply Back; auto.
           apply Hin, in_or_app; left; exact Hx.
        -- intros Z1 Z2 s Hs1 Hs2 Hs3. destruct D2 as [D2|D2]; [congruence|].
           destruct (D2 s) as [D3|D3]; [apply Hhs; auto|congruence|exact D3].
      * apply (IH (done ++ [h]) st1 ctr ps ms Hsplit' I1).
        intros x Hx. apply in_app_or in Hx. destruct Hx as [Hx|[<-|[]]]; [apply S1, Hx|]. intros Z1; contradiction.
Qed.

Lemma by_size_spec ctr : exists keep rm unm ctr' same ps ms,
  fragments_by_size L gen db vset size valid score hulls unm0 ctr = Ok (keep, rm, unm, ctr') /\
  Permutation keep (same ++ ms) /\ Permutation hulls (rm ++ same) /\ rm = both ps /\
  Forall2 (joined pts vset size valid score) ps ms /\
  (forall h s, In h same -> In s same -> rJ (n_rng h) - rI (n_rng h) = size ->
     nearby L epsilon_dist h s = true -> meet_outside vset (n_rng s) (n_rng h) ->
     valid (snd (score (both_points pts (n_rng s) (n_rng h)))) = false) /\
  (forall u, In u unm -> In u unm0 \/ (In u hulls /\ rJ (n_rng u) - rI (n_rng u) = size)).
Proof.
  destruct (frag_loop_spec hulls [] (FragState [] [] unm0 []) ctr [] []) as (st & ctr' & ps & ms & E & I & S).
  { reflexivity. }
  { split; cbn [fs_rm fs_mrg fs_hdict fs_unmerged].
    - reflexivity.
    - constructor.
    - reflexivity.
    - intros x _. cbn. split; [discriminate|intros []].
    - constructor.
    - intros x [].
    - auto. }
  { intros h []. }
  exists (fs_hdict st), (fs_rm st), (fs_unmerged st), ctr', (filter (notm (fs_mrg st)) hulls), ps, ms.
  split; [unfold fragments_by_size; rewrite E; reflexivity|].
  split; [exact (i_dict _ _ _ _ I)|]. split.
  { apply NoDup_Permutation.
    - exact hulls_nodup.
    - assert (D : forall x, In x (fs_rm st) -> ~ In x (filter (notm (fs_mrg st)) hulls)).
      { intros x Hx X. apply filter_In in X. destruct X as [X1 X2]. apply (i_mrg _ _ _ _ I x X1) in Hx.
        unfold notm in X2. rewrite Hx in X2. discriminate. }
      pose proof (i_nodup _ _ _ _ I) as N. revert D N. generalize (fs_rm st).
      induction l as [|y l IHl]; intros D N; [apply NoDup_filter, hulls_nodup|].
      inversion N; subst. cbn. constructor.
      + intros X. apply in_app_or in X. destruct X as [X|X]; [contradiction|].
        exact (D y ltac:(left; reflexivity) X).
      + apply IHl; auto. intros x Hx. apply D; right; exact Hx.
    - intros x. split; intros Hx.
      + apply in_or_app. destruct (dict_has (n_rng x) (fs_mrg st)) eqn:Q.
        * left. apply (i_mrg _ _ _ _ I x Hx), Q.
        * right. apply filter_In. unfold notm. rewrite Q. auto.
      + apply in_app_or in Hx. destruct Hx as [Hx|Hx]; [apply (i_incl _ _ _ _ I), Hx|].
        apply filter_In in Hx. tauto. }
  split; [exact (i_rm _ _ _ _ I)|]. split; [exact (i_join _ _ _ _ I)|]. split; [|exact (i_unm _ _ _ _ I)].
  intros h s Hh Hs Hz Hn Hm. apply filter_In in Hh, Hs. destruct Hh as [Hh1 Hh2], Hs as [Hs1 Hs2].
  unfold notm in Hh2, Hs2. apply negb_true_iff in Hh2, Hs2.
  pose proof (S h Hh1 Hz Hh2 s Hs1 Hn Hs2) as F.
  destruct (mergeable_spec h s Hh1 Hs1) as (b & Eb & _ & Fb). rewrite Eb in F. injection F as ->.
  apply Fb; auto.
Qed.

End BySize.

(** Replacing the pairs by their unions keeps a tiling. *)
Lemma tiling_join pts vset size valid score lo hi : forall ps ms rest,
  Forall2 (joined pts vset size valid score) ps ms ->
  tiling lo hi (map n_rng (both ps) ++ rest) -> tiling lo hi (map n_rng ms ++ rest).
Proof.
  induction ps as [|[s h] ps IH]; intros ms rest F T; inversion F as [|? m ? ms' J F']; subst; [exact T|].
  cbn [both flat_map fst snd app map] in T. 
  assert (T' : tiling lo hi (n_rng m :: map n_rng (both ps) ++ rest)).
  { destruct J as (_ & [(J1 & _ & ->)|(J1 & _ & ->)] & _).
    - apply tiling_merge; [exact T|exact J1].
    - apply tiling_merge; [|exact J1]. eapply tiling_perm; [apply perm_swap|exact T]. }
  cbn [map app].
  apply (tiling_perm lo hi (map n_rng ms' ++ n_rng m :: rest)); [symmetry; apply Permutation_middle|].
  apply IH; [exact F'|].
  eapply tiling_perm; [|exact T']. apply Permutation_middle.
Qed.
