(** R-tree: All, Search and Collides are exact with respect to the stored items. *)
From Verif Require Import M_Base M_Float M_Rng M_Geom M_Node M_Hdb Spec P_Base P_Float P_Hdb P_HdbIns.
Open Scope nat_scope.

Definition sizes_sum (l : list dbnode) : nat := fold_right (fun c a => db_size c + a) 0 l.

Lemma db_size_eq d : db_size d = S (sizes_sum (db_children d)).
Proof. destruct d; reflexivity. Qed.

Lemma sizes_sum_cons a l : sizes_sum (a :: l) = db_size a + sizes_sum l.
Proof. reflexivity. Qed.

Lemma sizes_sum_app a b : sizes_sum (a ++ b) = sizes_sum a + sizes_sum b.
Proof. induction a as [|x a IH]; [reflexivity|]. cbn [app]. rewrite !sizes_sum_cons, IH; lia. Qed.

Lemma sizes_sum_rev a : sizes_sum (rev a) = sizes_sum a.
Proof. induction a as [|x a IH]; [reflexivity|]. cbn [rev]. rewrite sizes_sum_app, IH, !sizes_sum_cons; cbn; lia. Qed.

Section Query.
  Variable P : f64 -> Prop.
  Hypothesis HP : tame P.
  Variable M : nat.
  Notation wf := (wf P M).

  Definition sub_ok (d : dbnode) : Prop := exists h, wf (S h) d.

  Lemma sub_ok_children d : sub_ok d -> db_leaf d = false ->
    (forall c, In c (db_children d) -> sub_ok c /\ box_in (db_bbox c) (db_bbox d)) /\
    contents d = flat_map contents (db_children d).
  Proof.
    intros [h Hd] Hl. rewrite (contents_wf P M _ _ Hd).
    destruct Hd as (E1 & E2 & E3 & E4 & E5 & E6 & E7). rewrite Hl in E3.
    destruct h as [|h]; [discriminate|]. rewrite Forall_forall in E7.
    split.
    - intros c Hc; destruct (E7 c Hc) as [A B]; split; [exists h; exact A|exact B].
    - change (flat_map (cont (S h)) (db_children d) = flat_map contents (db_children d)).
      assert (G : forall l, (forall c, In c l -> wf (S h) c) -> flat_map (cont (S h)) l = flat_map contents l).
      { induction l as [|c l IH]; intros H; [reflexivity|]. cbn [flat_map].
        rewrite IH by (intros; apply H; right; auto).
        rewrite (contents_wf P M h c) by (apply H; left; auto). reflexivity. }
      apply G. intros c Hc; apply E7, Hc.
  Qed.

  Lemma sub_ok_leaf d : sub_ok d -> db_leaf d = true ->
    contents d = flat_map item_of (db_children d) /\
    forall c, In c (db_children d) -> exists it, c = new_leaf it /\ item_ok P it.
  Proof.
    intros [h Hd] Hl. rewrite (contents_wf P M _ _ Hd).
    destruct Hd as (E1 & E2 & E3 & E4 & E5 & E6 & E7). rewrite Hl in E3.
    destruct h as [|h]; [|discriminate]. rewrite Forall_forall in E7.
    split; [reflexivity|]. intros c Hc; destruct (E7 c Hc) as [A _]; exact A.
  Qed.

  Lemma sub_ok_items d : sub_ok d -> forall it, In it (contents d) ->
    item_ok P it /\ box_in (n_mbr it) (db_bbox d).
  Proof.
    intros [h Hd] it Hit. rewrite (contents_wf P M _ _ Hd) in Hit.
    eapply (wf_items P M); eauto.
  Qed.

  Lemma sub_ok_nonempty d : sub_ok d -> contents d <> [].
  Proof.
    intros [h Hd]. rewrite (contents_wf P M _ _ Hd). eapply wf_nonempty; eauto.
  Qed.

  (** ** All *)

  Lemma all_loop_spec fuel : forall nd stack acc,
    sub_ok nd -> Forall sub_ok stack -> sizes_sum (nd :: stack) <= fuel ->
    exists r, all_loop fuel nd stack acc = Ok r /\
      Permutation r (acc ++ flat_map contents (nd :: stack)).
  Proof.
    induction fuel as [|f IH]; intros nd stack acc Hnd Hst Hf.
    - rewrite sizes_sum_cons, db_size_eq in Hf; lia.
    - cbn [all_loop]. rewrite sizes_sum_cons, db_size_eq in Hf.
      destruct (db_leaf nd) eqn:El.
      + destruct (sub_ok_leaf nd Hnd El) as [C _].
        cbn [flat_map]. rewrite C.
        destruct stack as [|x st].
        * eexists; split; [reflexivity|]. cbn; rewrite app_nil_r; reflexivity.
        * inversion Hst; subst. rewrite sizes_sum_cons in Hf.
          destruct (IH x st (acc ++ flat_map item_of (db_children nd))) as (r & E & R); auto.
          { rewrite sizes_sum_cons; lia. }
          exists r; split; [exact E|]. rewrite R, <- app_assoc. reflexivity.
      + destruct (sub_ok_children nd Hnd El) as [Ch C].
        cbn [flat_map]. rewrite C.
        assert (Hp : Permutation (flat_map contents (rev (db_children nd) ++ stack))
                       (flat_map contents (db_children nd) ++ flat_map contents stack)).
        { rewrite flat_map_app. apply Permutation_app_tail.
          apply flat_map_perm. symmetry; apply Permutation_rev. }
        destruct (rev (db_children nd) ++ stack) as [|x st] eqn:Es.
        * eexists; split; [reflexivity|]. cbn in Hp. rewrite <- Hp, app_nil_r. reflexivity.
        * assert (Hall : Forall sub_ok (x :: st)).
          { rewrite <- Es. apply Forall_app; split; [|exact Hst].
            apply Forall_forall; intros c Hc; apply in_rev in Hc; apply Ch, Hc. }
          inversion Hall; subst.
          destruct (IH x st acc) as (r & E & R); auto.
          { rewrite <- Es, sizes_sum_app, sizes_sum_rev; lia. }
          exists r; split; [exact E|]. rewrite R, Hp. reflexivity.
  Qed.

  Lemma all_from_spec nd acc : sub_ok nd ->
    exists r, all_from nd acc = Ok r /\ Permutation r (acc ++ contents nd).
  Proof.
    intros H. destruct (all_loop_spec (db_size nd) nd [] acc H (Forall_nil _)) as (r & E & R).
    - cbn; lia.
    - exists r; split; [exact E|]. rewrite R; cbn; rewrite app_nil_r; reflexivity.
  Qed.

  Lemma all_spec m t : tree_ok P M m t ->
    exists r, all t = Ok r /\ Permutation r (contents (h_root t)).
  Proof.
    intros (_ & _ & [Hr|Hr]); unfold all.
    - rewrite Hr; exists []; split; [reflexivity|constructor].
    - exact (all_from_spec _ [] Hr).
  Qed.

  (** ** Search *)

  Variable q : mbr.
  Hypothesis Hq : box_nonan q.

  Definition hit (it : node) : bool := mbr_intersects q (n_mbr it).
  Definition hits (d : dbnode) : list node := filter hit (contents d).

  Lemma filter_none {A} (f : A -> bool) l : (forall x, In x l -> f x = false) -> filter f l = [].
  Proof.
    induction l as [|a l IH]; intros H; [reflexivity|]. cbn. rewrite (H a) by (left; auto).
    apply IH; intros; apply H; right; auto.
  Qed.
  Lemma filter_all {A} (f : A -> bool) l : (forall x, In x l -> f x = true) -> filter f l = l.
  Proof.
    induction l as [|a l IH]; intros H; [reflexivity|]. cbn. rewrite (H a) by (left; auto).
    f_equal; apply IH; intros; apply H; right; auto.
  Qed.
  Lemma filter_flat_map {A B} (f : B -> bool) (g : A -> list B) l :
    filter f (flat_map g l) = flat_map (fun x => filter f (g x)) l.
  Proof. induction l as [|a l IH]; [reflexivity|]. cbn. rewrite filter_app, IH; reflexivity. Qed.

  Lemma miss_sub d : sub_ok d -> mbr_intersects q (db_bbox d) = false -> hits d = [].
  Proof.
    intros Hd Hm; apply filter_none; intros it Hit; unfold hit.
    destruct (sub_ok_items d Hd it Hit) as [_ Hb].
    destruct (mbr_intersects q (n_mbr it)) eqn:E; [|reflexivity].
    rewrite (intersects_mono q _ _ Hq Hb E) in Hm; discriminate.
  Qed.

  Lemma full_sub d : sub_ok d -> mbr_contains q (db_bbox d) = true -> hits d = contents d.
  Proof.
    intros Hd Hm; apply filter_all; intros it Hit; unfold hit.
    destruct (sub_ok_items d Hd it Hit) as [[_ Hok] Hb].
    apply contains_intersects; [exact Hok|]. eapply box_in_trans; eauto.
  Qed.

  Lemma search_children_inner l : forall stack acc,
    (forall c, In c l -> sub_ok c) ->
    exists new acc', search_children q false l stack acc = Ok (rev new ++ stack, acc') /\
      Forall sub_ok new /\ sizes_sum new <= sizes_sum l /\
      Permutation (acc' ++ flat_map hits new) (acc ++ flat_map hits l).
  Proof.
    induction l as [|c l IH]; intros stack acc Hl; cbn [search_children].
    - exists [], acc; split; [reflexivity|]. split; [constructor|]. split; [cbn; lia|reflexivity].
    - assert (Hc : sub_ok c) by (apply Hl; left; auto).
      assert (Hl' : forall x, In x l -> sub_ok x) by (intros; apply Hl; right; auto).
      rewrite sizes_sum_cons; cbn [flat_map].
      destruct (mbr_intersects q (db_bbox c)) eqn:Ei.
      + destruct (mbr_contains q (db_bbox c)) eqn:Ec.
        * destruct (all_from_spec c acc Hc) as (r & -> & R); cbn [bind].
          destruct (IH stack r Hl') as (new & acc' & E & F & S1 & R2).
          exists new, acc'; split; [exact E|]. split; [exact F|]. split; [lia|].
          rewrite R2, R, (full_sub c Hc Ec), <- app_assoc. reflexivity.
        * destruct (IH (c :: stack) acc Hl') as (new & acc' & E & F & S1 & R2).
          exists (c :: new), acc'; split; [rewrite E; cbn [rev]; rewrite <- app_assoc; reflexivity|].
          split; [constructor; auto|]. split; [cbn; fold (sizes_sum new); lia|].
          cbn [flat_map]. rewrite (Permutation_app_comm (hits c)), app_assoc, R2.
          rewrite <- app_assoc. apply Permutation_app_head, Permutation_app_comm.
      + destruct (IH stack acc Hl') as (new & acc' & E & F & S1 & R2).
        exists new, acc'; split; [exact E|]. split; [exact F|]. split; [lia|].
        rewrite (miss_sub c Hc Ei). exact R2.
  Qed.

  Lemma search_children_leaf l : forall stack acc,
    (forall c, In c l -> exists it, c = new_leaf it /\ item_ok P it) ->
    exists acc', search_children q true l stack acc = Ok (stack, acc') /\
      acc' = acc ++ filter hit (flat_map item_of l).
  Proof.
    induction l as [|c l IH]; intros stack acc Hl; cbn [search_children].
    - exists acc; cbn; rewrite app_nil_r; auto.
    - destruct (Hl c (or_introl eq_refl)) as (it & -> & _).
      assert (Hl' : forall x, In x l -> exists it, x = new_leaf it /\ item_ok P it)
        by (intros; apply Hl; right; auto).
      cbn [new_leaf db_bbox flat_map item_of db_item app filter]. unfold hit at 1.
      destruct (mbr_intersects q (n_mbr it)).
      + destruct (IH stack (acc ++ [it]) Hl') as (acc' & E & ->).
        eexists; split; [exact E|]. rewrite <- app_assoc; reflexivity.
      + apply IH; auto.
  Qed.

  Lemma search_loop_spec fuel : forall nd stack acc,
    sub_ok nd -> Forall sub_ok stack -> sizes_sum (nd :: stack) <= fuel ->
    exists r, search_loop fuel q nd stack acc = Ok r /\
      Permutation r (acc ++ flat_map hits (nd :: stack)).
  Proof.
    induction fuel as [|f IH]; intros nd stack acc Hnd Hst Hf.
    - rewrite sizes_sum_cons, db_size_eq in Hf; lia.
    - cbn [search_loop]. rewrite sizes_sum_cons, db_size_eq in Hf. cbn [flat_map].
      destruct (db_leaf nd) eqn:El.
      + destruct (sub_ok_leaf nd Hnd El) as [C Hch].
        destruct (search_children_leaf _ stack acc Hch) as (acc' & -> & ->). cbn [bind].
        unfold hits at 1; rewrite C.
        destruct stack as [|x st].
        * eexists; split; [reflexivity|]. cbn; rewrite app_nil_r; reflexivity.
        * inversion Hst; subst. rewrite sizes_sum_cons in Hf.
          destruct (IH x st (acc ++ filter hit (flat_map item_of (db_children nd)))) as (r & E & R); auto.
          { rewrite sizes_sum_cons; lia. }
          exists r; split; [exact E|]. rewrite R, <- app_assoc. reflexivity.
      + destruct (sub_ok_children nd Hnd El) as [Ch C].
        destruct (search_children_inner _ stack acc (fun c Hc => proj1 (Ch c Hc)))
          as (new & acc' & -> & F & S1 & R2). cbn [bind].
        assert (Eh : hits nd = flat_map hits (db_children nd)).
        { unfold hits at 1; rewrite C, filter_flat_map; reflexivity. }
        rewrite Eh.
        assert (Hp : Permutation (acc' ++ flat_map hits (rev new ++ stack))
                       (acc ++ flat_map hits (db_children nd) ++ flat_map hits stack)).
        { rewrite flat_map_app, (flat_map_perm hits (rev new) new) by (symmetry; apply Permutation_rev).
          rewrite app_assoc, R2, <- app_assoc; reflexivity. }
        destruct (rev new ++ stack) as [|x st] eqn:Es.
        * eexists; split; [reflexivity|]. rewrite <- Hp; cbn; rewrite app_nil_r; reflexivity.
        * assert (Hall : Forall sub_ok (x :: st)).
          { rewrite <- Es. apply Forall_app; split; [|exact Hst]. apply Forall_rev; exact F. }
          inversion Hall; subst.
          destruct (IH x st acc') as (r & E & R); auto.
          { rewrite <- Es, sizes_sum_app, sizes_sum_rev; lia. }
          exists r; split; [exact E|]. rewrite R, Hp. reflexivity.
  Qed.

  Lemma search_spec m t : tree_ok P M m t ->
    exists r, search t q = Ok r /\ Permutation r (filter hit (contents (h_root t))).
  Proof.
    intros (_ & _ & [Hr|Hr]); unfold search.
    - rewrite Hr. exists []; split; [|constructor].
      destruct (negb _); reflexivity.
    - destruct (mbr_intersects q (db_bbox (h_root t))) eqn:E; cbn [negb].
      + destruct (search_loop_spec (db_size (h_root t)) (h_root t) [] [] Hr (Forall_nil _)) as (r & E2 & R).
        * cbn; lia.
        * exists r; split; [exact E2|]. rewrite R. cbn. rewrite app_nil_r. reflexivity.
      + exists []; split; [reflexivity|]. fold (hits (h_root t)). rewrite (miss_sub _ Hr E). constructor.
  Qed.

  (** ** Collides *)

  Definition any (l : list node) : bool := existsb hit l.

  Lemma any_miss d : sub_ok d -> mbr_intersects q (db_bbox d) = false -> any (contents d) = false.
  Proof.
    intros Hd Hm. destruct (any (contents d)) eqn:E; [|reflexivity].
    apply existsb_exists in E; destruct E as (it & Hi & Hh).
    assert (In it (hits d)) by (apply filter_In; auto). rewrite (miss_sub d Hd Hm) in H. destruct H.
  Qed.

  Lemma any_full d : sub_ok d -> mbr_contains q (db_bbox d) = true -> any (contents d) = true.
  Proof.
    intros Hd Hm. pose proof (full_sub d Hd Hm) as E. pose proof (sub_ok_nonempty d Hd) as N.
    destruct (contents d) as [|it r] eqn:C; [congruence|].
    assert (In it (hits d)) by (rewrite E; left; auto). apply filter_In in H.
    cbn. apply orb_true_iff; left; apply H.
  Qed.

  Lemma existsb_flat_map {A B} (f : B -> bool) (g : A -> list B) l :
    existsb f (flat_map g l) = existsb (fun x => existsb f (g x)) l.
  Proof. induction l as [|a l IH]; [reflexivity|]. cbn. rewrite existsb_app, IH; reflexivity. Qed.

  Lemma collides_children_inner l : forall stack,
    (forall c, In c l -> sub_ok c) ->
    (exists st, collides_children q false l stack = (true, st) /\
        existsb (fun d => any (contents d)) l = true) \/
    (exists new, collides_children q false l stack = (false, rev new ++ stack) /\
      Forall sub_ok new /\ sizes_sum new <= sizes_sum l /\
      existsb (fun d => any (contents d)) new = existsb (fun d => any (contents d)) l).
  Proof.
    induction l as [|c l IH]; intros stack Hl; cbn [collides_children].
    - right; exists []; split; [reflexivity|]. split; [constructor|]. split; [cbn; lia|reflexivity].
    - assert (Hc : sub_ok c) by (apply Hl; left; auto).
      assert (Hl' : forall x, In x l -> sub_ok x) by (intros; apply Hl; right; auto).
      rewrite sizes_sum_cons; cbn [existsb].
      destruct (mbr_intersects q (db_bbox c)) eqn:Ei.
      + cbn [orb]. destruct (mbr_contains q (db_bbox c)) eqn:Ec.
        * left; eexists; split; [reflexivity|]. rewrite (any_full c Hc Ec); reflexivity.
        * destruct (IH (c :: stack) Hl') as [(st & E & H)|(new & E & F & S1 & R)].
          -- left; exists st; split; [exact E|]. rewrite H; apply orb_true_r.
          -- right; exists (c :: new). split; [rewrite E; cbn [rev]; rewrite <- app_assoc; reflexivity|].
             split; [constructor; auto|]. split; [cbn; fold (sizes_sum new); lia|].
             cbn [existsb]; rewrite R; reflexivity.
      + destruct (IH stack Hl') as [(st & E & H)|(new & E & F & S1 & R)].
        * left; exists st; split; [exact E|]. rewrite H; apply orb_true_r.
        * right; exists new; split; [exact E|]. split; [exact F|]. split; [lia|].
          rewrite (any_miss c Hc Ei); exact R.
  Qed.

  Lemma collides_children_leaf l : forall stack,
    (forall c, In c l -> exists it, c = new_leaf it /\ item_ok P it) ->
    (exists st, collides_children q true l stack = (true, st) /\ any (flat_map item_of l) = true) \/
    (collides_children q true l stack = (false, stack) /\ any (flat_map item_of l) = false).
  Proof.
    induction l as [|c l IH]; intros stack Hl; cbn [collides_children].
    - right; auto.
    - destruct (Hl c (or_introl eq_refl)) as (it & -> & _).
      assert (Hl' : forall x, In x l -> exists it, x = new_leaf it /\ item_ok P it)
        by (intros; apply Hl; right; auto).
      cbn [new_leaf db_bbox flat_map item_of db_item app]. unfold any; cbn [existsb]; unfold hit at 1 3.
      destruct (mbr_intersects q (n_mbr it)).
      + left; cbn [orb]; eexists; split; [reflexivity|reflexivity].
      + cbn [orb]. apply IH; auto.
  Qed.

  Lemma collides_loop_spec fuel : forall nd stack,
    sub_ok nd -> Forall sub_ok stack -> sizes_sum (nd :: stack) <= fuel ->
    collides_loop fuel q nd stack = Ok (existsb (fun d => any (contents d)) (nd :: stack)).
  Proof.
    induction fuel as [|f IH]; intros nd stack Hnd Hst Hf.
    - rewrite sizes_sum_cons, db_size_eq in Hf; lia.
    - cbn [collides_loop existsb]. rewrite sizes_sum_cons, db_size_eq in Hf.
      destruct (db_leaf nd) eqn:El.
      + destruct (sub_ok_leaf nd Hnd El) as [C Hch]. rewrite C.
        destruct (collides_children_leaf _ stack Hch) as [(st & -> & ->)|[-> ->]]; [reflexivity|].
        destruct stack as [|x st]; [reflexivity|].
        inversion Hst; subst. cbn [orb]. apply IH; auto. rewrite !sizes_sum_cons in *; lia.
      + destruct (sub_ok_children nd Hnd El) as [Ch C].
        assert (Ea : any (contents nd) = existsb (fun d => any (contents d)) (db_children nd)).
        { unfold any at 1; rewrite C, existsb_flat_map; reflexivity. }
        rewrite Ea.
        destruct (collides_children_inner _ stack (fun c Hc => proj1 (Ch c Hc)))
          as [(st & -> & ->)|(new & -> & F & S1 & R)]; [reflexivity|].
        assert (Er : existsb (fun d => any (contents d)) (rev new ++ stack) =
                     existsb (fun d => any (contents d)) (db_children nd) ||
                     existsb (fun d => any (contents d)) stack).
        { rewrite existsb_app. f_equal. rewrite <- R.
          apply eq_true_iff_eq; rewrite !existsb_exists; split; intros (x & Hx & Hy); exists x; split; auto;
            apply in_rev; [|rewrite rev_involutive]; auto. }
        rewrite <- Er.
        destruct (rev new ++ stack) as [|x st] eqn:Es; [reflexivity|].
        assert (Hall : Forall sub_ok (x :: st)).
        { rewrite <- Es. apply Forall_app; split; [|exact Hst]. apply Forall_rev; exact F. }
        inversion Hall; subst.
        apply IH; auto. rewrite <- Es, sizes_sum_app, sizes_sum_rev; lia.
  Qed.

  Lemma collides_spec m t : tree_ok P M m t ->
    collides t q = Ok (existsb hit (contents (h_root t))).
  Proof.
    intros (_ & _ & [Hr|Hr]); unfold collides.
    - rewrite Hr. destruct (negb _); reflexivity.
    - destruct (mbr_intersects q (db_bbox (h_root t))) eqn:E; cbn [negb].
      + rewrite (collides_loop_spec _ _ [] Hr (Forall_nil _)) by (cbn; lia).
        cbn. rewrite orb_false_r. reflexivity.
      + fold (any (contents (h_root t))). rewrite (any_miss _ Hr E). reflexivity.
  Qed.
End Query.
