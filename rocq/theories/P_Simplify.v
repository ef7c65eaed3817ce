(** Constrained simplification of one line. *)
From Verif Require Import M_Base M_Float M_Rng M_Geom M_Offset M_Node M_Decompose M_Split M_Hdb M_Knn M_Lnr M_Homotopy M_Relate
  M_Deform M_Constrain M_ConstDP Spec Spec_Hdb
  P_Base P_Float P_Decompose P_Split P_Node P_Hdb P_HdbIns P_HdbLoad P_HdbHist P_Knn P_Homotopy P_Relate P_Db P_Bag
  P_Constrain P_Deform P_ConstDP P_Aggregate.
Open Scope Z_scope.

Lemma point_set_perm hs hs' : Permutation hs hs' -> point_set hs = point_set hs'.
Proof.
  intros Hp. destruct (point_set_spec hs) as [A B], (point_set_spec hs') as [A' B'].
  apply increasing_ext; auto. intros x. rewrite B, B'.
  split; intros (h & Hh & K); exists h; (split; [|exact K]).
  - eapply Permutation_in; [exact Hp|exact Hh].
  - eapply Permutation_in; [symmetry; exact Hp|exact Hh].
Qed.
Lemma point_set_tiling hs (pts : list point) : (2 <= length pts)%nat -> tiling 0 (zlen pts - 1) (map n_rng hs) ->
  increasing (point_set hs) /\ hd (-1) (point_set hs) = 0 /\ last (point_set hs) (-1) = zlen pts - 1 /\
  Forall (fun k => 0 <= k < zlen pts) (point_set hs).
Proof.
  intros H2 Ht. rewrite (point_set_perm _ _ (node_sort_perm hs)). apply point_set_line; auto. apply node_sort_chain, Ht.
Qed.

Lemma pair_same_inst L disp a b : n_inst a = n_inst b -> pair_candidates L disp true a b = pair_candidates L disp false a b.
Proof. intros E. unfold pair_candidates. rewrite E, Z.eqb_refl. reflexivity. Qed.

(** With nothing to check, nothing is split. *)
Definition free (o : opts) : Prop :=
  o_avoid_self o = false /\ o_geom o = false /\ o_dist o = false /\ o_dir o = false.

Lemma check_free W env dirty db h : free (c_opts (env (n_inst h))) -> check_hull W env dirty db h = Ok [].
Proof.
  intros (A & B & C & D). unfold check_hull. destruct (rsize (n_rng h) =? 1); [reflexivity|].
  destruct (is_line (n_geom h)); [reflexivity|]. rewrite A. cbn [bind].
  unfold validate_context. rewrite B, C, D. reflexivity.
Qed.
Lemma find_free W env dirty db l : (forall h, In h l -> free (c_opts (env (n_inst h)))) ->
  find_deformable W env dirty l db = Ok [].
Proof.
  intros H. unfold find_deformable.
  assert (E : mapM (check_hull W env dirty db) l = Ok (map (fun _ => []) l)).
  { induction l as [|h r IH]; [reflexivity|]. cbn [mapM map]. rewrite check_free by (apply H; left; auto). cbn [bind].
    rewrite IH by (intros; apply H; right; auto). reflexivity. }
  rewrite E. cbn [bind]. clear. induction l as [|h r IH]; [reflexivity|]. cbn [map concat app]. exact IH.
Qed.
Lemma split_free W env ord : (forall k l, Permutation (ord k l) l) ->
  forall fuel round dirty D db ctr, (1 <= fuel)%nat -> (forall h, In h D -> free (c_opts (env (n_inst h)))) ->
  split_loop W env ord fuel round dirty D db ctr = Ok (db, ctr).
Proof.
  intros Hord fuel round dirty D db ctr Hf Hfree. destruct fuel as [|f]; [lia|]. cbn [split_loop]. destruct D as [|d D']; [reflexivity|].
  rewrite find_free by exact Hfree. cbn [bind].
  pose proof (Hord (2 * round)%nat []) as K. apply Permutation_sym, Permutation_nil in K. rewrite K. reflexivity.
Qed.

(** A tiling that keeps every end of another one refines it. *)
Lemma tiling_refines lo hi rs rs' : tiling lo hi rs -> tiling lo hi rs' ->
  (forall r, In r rs -> exists q, In q rs' /\ (rI q = rJ r \/ rJ q = rJ r)) ->
  forall q, In q rs' -> exists r, In r rs /\ rI r <= rI q /\ rJ q <= rJ r.
Proof.
  intros Ht Ht' He q Hq. destruct (tiling_in _ _ _ _ Ht' Hq) as (A & B & C).
  destruct (tiling_cover _ _ _ (rI q) Ht ltac:(lia)) as (r & Hr & D). exists r. split; [exact Hr|]. split; [lia|].
  destruct (Z.le_gt_cases (rJ q) (rJ r)) as [K|K]; [exact K|exfalso].
  destruct (He r Hr) as (p & Hp & E). destruct (tiling_in _ _ _ _ Ht' Hp) as (A' & B' & C').
  assert (p = q) by (eapply tiling_overlap; [exact Ht'|exact Hp|exact Hq|lia|lia]). subst p. lia.
Qed.

Section Simplify.
  Variable W : world.
  Variable self : cdp.
  Variable own : Z -> Prop.
  Variable ord : nat -> list node -> list node.
  Hypothesis Hord : forall k l, Permutation (ord k l) l.
  Hypothesis St : setting W (fun _ => self) [c_id self] own.
  Hypothesis H2 : (2 <= length (c_pts self))%nat.
  Hypothesis Hsplits : splits_inside (dp_score (c_score self) (c_sq self)) (dp_relation (o_threshold (c_opts self)) (c_sq self)).
  Notation inv := (bag_inv (w_geom W) (lines_of (fun _ => self)) [c_id self] (Src (w_gen W) own)).

  Lemma inv_start hs ctr :
    chain 0 (zlen (c_pts self) - 1) (map n_rng hs) ->
    Forall (fresh_hull (w_geom W) (c_pts self) (c_id self)) hs ->
    map n_id hs = map (w_gen W) (seq ctr (length hs)) -> inv (ctr + length hs) hs.
  Proof.
    intros Hc Hf Hid.
    assert (Hin : forall h, In h hs -> n_inst h = c_id self) by (intros h Hh; rewrite Forall_forall in Hf; apply (Hf h Hh)).
    assert (Hof : of_inst (c_id self) hs = hs).
    { apply of_inst_same. apply Forall_forall. exact Hin. }
    split.
    - eapply Forall_impl; [|exact Hf]. intros h Hh. unfold proper. cbn. replace (n_inst h) with (c_id self) by (symmetry; apply Hh).
      exact Hh.
    - apply Forall_forall. intros h Hh. left. symmetry. apply Hin, Hh.
    - intros i [<- |[]]. rewrite Hof. apply tiling_chain, Hc.
    - rewrite Hid. exact (gen_ids_nodup _ (st_gen _ _ _ _ St) ctr (length hs)).
    - intros h k Hh Hk E. apply (in_map n_id) in Hh. rewrite Hid in Hh. apply in_map_iff in Hh.
      destruct Hh as (j & Ej & Hj). apply in_seq in Hj.
      assert (j = k) by (apply (proj1 (st_gen _ _ _ _ St)); cbn in *; congruence). lia.
    - apply Forall_forall. intros h Hh. apply (in_map n_id) in Hh. rewrite Hid in Hh. apply in_map_iff in Hh.
      destruct Hh as (j & <- & _). apply (proj2 (st_gen _ _ _ _ St)).
  Qed.

  Lemma node_fresh score rel h : hull_of (c_pts self) h -> dp_node_ok (w_geom W) (c_pts self) (c_id self) score rel h ->
    fresh_hull (w_geom W) (c_pts self) (c_id self) h.
  Proof. intros A (B & C & D & E & _). unfold fresh_hull. auto. Qed.

  Definition reported : list (point * list Z) :=
    self_intersection (w_geom W) (lo_sort (w_lnr W)) (lo_segx (w_lnr W)) (lo_near (w_lnr W) (c_pts self)) true
      (o_non_planar_self (c_opts self)) (c_pts self).
  Definition forced (verts : list Z) : list (point * list Z) :=
    reported ++ map (fun k => (nth (Z.to_nat k) (c_pts self) origin, [k])) verts.
  (** The index search around a constrained vertex reaches every hull that has the vertex inside. *)
  Definition searchable (verts : list Z) : Prop :=
    pop_ok (fun x y : f64 => flt x y = true) (w_pop W) /\
    Forall (reaches (w_geom W) (fun _ => c_pts self) [c_id self]) (forced verts) /\
    Forall (boxes_nearer (w_geom W) (fun _ => c_pts self) [c_id self]) (forced verts).

  (** The hull lies in a part of the line whose chord was accepted. *)
  Definition in_accepted (h : node) : Prop :=
    exists r, 0 <= rI r /\ rI r <= rI (n_rng h) /\ rJ (n_rng h) <= rJ r /\ rJ r < zlen (c_pts self) /\
      dp_relation (o_threshold (c_opts self)) (c_sq self) (snd (dp_score (c_score self) (c_sq self) (sub_coords (c_pts self) r))) = true.

  Lemma simplify_spec verts fuel ctr :
    Forall (fun k => 0 <= k < zlen (c_pts self)) verts ->
    (2 * length (c_pts self) - 3 < fuel)%nat ->
    exists hs ctr', simplify W ord self verts fuel ctr = Ok (hs, ctr') /\ inv ctr' hs /\
      (forall h, In h hs -> big h -> valid_in W self h) /\
      (o_avoid_self (c_opts self) = true -> pairs_kept W self hs) /\
      (o_planar_self (c_opts self) = true -> searchable verts ->
         forall k, 0 <= k < zlen (c_pts self) -> (In k verts \/ exists c, In c reported /\ In k (snd c)) -> cut_at hs (c_id self) k) /\
      (free (c_opts self) -> o_planar_self (c_opts self) = false -> Forall (score_ok self) hs) /\
      Forall in_accepted hs.
  Proof.
    intros Hverts Hfuel. unfold simplify.
    destruct (decompose_total (w_geom W) (w_gen W) (c_pts self) (c_id self) _ _ fuel ctr Hsplits Hfuel) as (hs0 & ctr0 & E0).
    destruct (decompose_sound (w_geom W) (w_gen W) (c_pts self) (c_id self) _ _ fuel ctr hs0 ctr0 Hsplits H2 E0)
      as (Hch & Hhull & Hok & Hid & Ectr).
    unfold dp_decompose. rewrite E0. cbn [bind].
    assert (Hi0 : inv ctr0 hs0).
    { subst ctr0. apply inv_start; auto. rewrite Forall_forall in *. intros h Hh.
      eapply node_fresh; [apply Hhull, Hh|apply Hok, Hh]. }
    assert (Hgood : forall h, fresh_hull (w_geom W) (c_pts self) (c_id self) h -> good_item h).
    { intros h Hh. apply (fresh_good_item W self own St h Hh). }
    destruct (to_self_spec (w_geom W) (c_pts self) (c_id self) (Src (w_gen W) own) (st_gen _ _ _ _ St) (w_hdb W) (st_hdb _ _ _ _ St)
                (w_pop W) (st_pop _ _ _ _ St) Hgood (w_lnr W) hs0 (c_opts self) verts ctr0 Hi0 Hverts)
      as (hs1 & cvs & ctr1 & E1 & Hi1 & Hc1 & Hcut1 & Hoff & Hon).
    cbn [s_gen] in E1. rewrite E1. cbn [bind].
    assert (Hg1 : Forall good_item hs1).
    { apply Forall_forall. intros h Hh. eapply line_good; [exact St|exact Hi1|exact Hh]. }
    destruct (holds_load (w_hdb W) new_hdb_default [] hs1 (st_hdb _ _ _ _ St) holds_new Hg1) as (db1 & -> & Hdb1).
    cbn [bind app] in *.
    assert (Hne : hs1 <> []).
    { intros ->. pose proof (line_tiles W self own ctr1 [] Hi1) as [rs [A B]]. cbn [map] in A. apply Permutation_nil in A. subst rs.
      cbn in B. unfold zlen in B. lia. }
    destruct (split_loop_spec W (fun _ => self) [c_id self] own St ord Hord fuel 0 (fun _ => true) hs1 db1 ctr1 hs1)
      as (db2 & ctr2 & b2 & E2 & Hdb2 & Hi2 & Hc2 & Hcut2 & Hval2 & Hpair2); auto.
    { intros x Hx; exact Hx. }
    { unfold rounds. assert (capacity (lines_of (fun _ => self)) [c_id self] = zlen (c_pts self) - 1) as ->.
      { unfold capacity, lines_of. cbn. unfold zlen. lia. }
      assert (1 <= zlen hs1) by (destruct hs1; [contradiction|unfold zlen; cbn [length]; lia]).
      assert (zlen (c_pts self) = Z.of_nat (length (c_pts self))) by reflexivity.
      destruct (forallb _ hs1); lia. }
    rewrite E2. cbn [bind].
    destruct (holds_all _ _ Hdb2) as (objs & -> & Hpo). cbn [bind].
    assert (Hps : Permutation b2 (node_sort objs)) by (rewrite <- Hpo; apply node_sort_perm).
    destruct (aggregate_spec W self own St cvs (length (node_sort objs)) (node_sort objs) db2 b2 [] [] ctr2 0) as (db3 & ctr3 & b3 & -> & Hdb3 & Hst); auto.
    { intros x Hx. eapply Permutation_in; [symmetry; exact Hps|exact Hx]. }
    { apply node_sort_chain. eapply tiling_perm; [apply Permutation_map; symmetry; exact Hpo|]. eapply line_tiles; exact Hi2. }
    cbn [bind]. destruct (holds_all _ _ Hdb3) as (hs & -> & Hph). cbn [bind].
    exists hs, ctr3. split; [reflexivity|].
    assert (Hin3 : forall h, In h hs -> In h b3) by (intros h Hh; eapply Permutation_in; eauto).
    split; [|split; [|split; [|split; [|split]]]].
    - eapply inv_perm; [symmetry; exact Hph|apply Hst].
    - intros h Hh Hb. destruct (s_new _ _ _ _ _ _ _ _ Hst h (Hin3 h Hh)) as [K|(_ & K & _)]; auto.
    - intros Hav. assert (Hk3 : pairs_kept W self b3).
      { apply (s_pairs _ _ _ _ _ _ _ _ Hst Hav).
        assert (Hpd : pairs_done W (fun _ => self) [] b2).
        { apply Hpair2.
          - intros i _. exact Hav.
          - intros i _. reflexivity.
          - intros i j [<- |[]] [<- |[]]. reflexivity.
          - exists (fun _ => 0%nat). intros a c Ha Hc _ _ _. left; exact Ha. }
        destruct Hpd as (age & Hpd). exists age. intros u v Hu Hv Hne' Bu _ Nuv.
        assert (Ei : n_inst u = n_inst v) by (rewrite (line_inst _ _ _ _ _ _ Hi2 Hu), (line_inst _ _ _ _ _ _ Hi2 Hv); reflexivity).
        destruct (Hpd u v Hu Hv Hne' Bu Nuv) as [[]|[K|K]]; [left|right; exact K].
        unfold settled in K. rewrite pair_same_inst in K by auto. exact K. }
      destruct Hk3 as (age & Hk3). exists age. intros x y Hx Hy. apply Hk3; auto.
    - intros Hpl (Hpop & Hre & Hbx) k Hk Hrep. destruct (Hon Hpl) as (_ & _ & Hcv & Hforce).
      assert (Hkc : In k cvs) by (apply Hcv; exact Hrep).
      assert (Hcut : cut_at hs1 (c_id self) k) by (apply Hforce; auto).
      eapply cut_perm; [symmetry; exact Hph|]. apply (s_cut _ _ _ _ _ _ _ _ Hst); auto.
    - intros Hfree Hpl. destruct (Hoff Hpl) as [-> ->].
      rewrite (split_free W (fun _ => self) ord Hord) in E2; [|lia|auto]. injection E2 as <- <-.
      apply Forall_forall. intros h Hh. destruct (s_new _ _ _ _ _ _ _ _ Hst h (Hin3 h Hh)) as [K|[K _]]; auto.
      assert (Hh0 : In h hs0).
      { destruct Hdb1 as [_ B1], Hdb2 as [_ B2]. eapply Permutation_in; [|exact K].
        rewrite <- B1. symmetry. exact B2. }
      rewrite Forall_forall in Hok. apply (Hok h Hh0).
    - apply Forall_forall. intros h Hh.
      destruct (s_new _ _ _ _ _ _ _ _ Hst h (Hin3 h Hh)) as [K|[K _]].
      + assert (Hr : exists r, In r (map n_rng hs0) /\ rI r <= rI (n_rng h) /\ rJ (n_rng h) <= rJ r).
        { apply (tiling_refines 0 (zlen (c_pts self) - 1) (map n_rng hs0) (map n_rng b2)).
          - apply tiling_chain, Hch.
          - exact (line_tiles W self own ctr2 b2 Hi2).
          - intros r Hr. apply in_map_iff in Hr. destruct Hr as (g & <- & Hg).
            destruct (Hcut2 (c_id self) (rJ (n_rng g))) as (q & Hq & _ & E).
            { apply Hcut1. exists g. split; [exact Hg|]. split; [apply (line_inst W self own ctr0 hs0 g Hi0 Hg)|auto]. }
            exists (n_rng q). split; [apply in_map, Hq|exact E].
          - apply in_map, K. }
        destruct Hr as (r & Hr & A & B). apply in_map_iff in Hr. destruct Hr as (g & <- & Hg).
        rewrite Forall_forall in Hok. destruct (Hok g Hg) as (C & _ & _ & _ & D).
        pose proof (line_hull W self own ctr0 hs0 g Hi0 Hg) as (E1' & E2' & E3' & _).
        exists (n_rng g). rewrite <- C. repeat split; auto.
      + assert (Hb : inv ctr3 b3) by apply Hst.
        pose proof (line_hull W self own ctr3 b3 h Hb (Hin3 h Hh)) as (A & B & C & D).
        exists (n_rng h). unfold score_ok in K. rewrite D in K. repeat split; auto; lia.
  Qed.
End Simplify.
