(** Proofs about the relation checks. *)
From Verif Require Import M_Base M_Float M_Rng M_Geom M_Node M_Hdb M_Knn M_Homotopy M_Relate
  Spec Spec_Relate P_Base P_Float P_Homotopy.
Open Scope Z_scope.

Lemma geom_relate_spec L hull ctxs :
  geom_relate_valid L hull ctxs = true <->
  forall g, In g ctxs -> gl_isect L (n_line hull) g = gl_isect L (n_seg hull) g.
Proof.
  induction ctxs as [|g r IH]; cbn [geom_relate_valid In]; [tauto|].
  destruct (gl_isect L (n_line hull) g) eqn:E1, (gl_isect L (n_seg hull) g) eqn:E2; cbn.
  - rewrite IH. split; [|auto]. intros H x [<- |Hx]; auto. congruence.
  - split; [discriminate|]. intros H. specialize (H g (or_introl eq_refl)). congruence.
  - split; [discriminate|]. intros H. specialize (H g (or_introl eq_refl)). congruence.
  - rewrite IH. split; [|auto]. intros H x [<- |Hx]; auto. congruence.
Qed.

Lemma dist_relate_spec L md hull ctxs :
  dist_relate_valid L md hull ctxs = true <->
  forall g, In g ctxs ->
    fle md (gl_dist L (n_seg hull) g) = true \/ flt (gl_dist L (n_line hull) g) md = true.
Proof.
  induction ctxs as [|g r IH]; cbn [dist_relate_valid In]; [tauto|].
  destruct (fge (gl_dist L (n_seg hull) g) md || flt (gl_dist L (n_line hull) g) md) eqn:E.
  - rewrite IH. split; [|auto]. intros H x [<- |Hx]; auto.
    apply orb_true_iff in E. exact E.
  - split; [discriminate|]. intros H. specialize (H g (or_introl eq_refl)).
    apply orb_false_iff in E. destruct E as [A B].
    unfold fge in A. fold fle in A. destruct H as [H|H]; unfold fle, flt in *; congruence.
Qed.

(** ** Homotopy *)

Lemma not_both_clear L c g : ctx_both L c g = false -> ctx_disjoint L c g = true -> clear_of L c g.
Proof.
  unfold ctx_disjoint, clear_of. intros _ H. apply andb_true_iff in H. destruct H as [A B].
  apply negb_true_iff in A, B. auto.
Qed.

Lemma disjoint_iff L c g :
  negb (ctx_both L c g) && ctx_disjoint L c g = true <-> clear_of L c g.
Proof.
  unfold ctx_both, ctx_disjoint, clear_of.
  destruct (gl_isect L (GLine (cpts c)) g), (gl_isect L (GSeg (cfirst c) (clast c)) g); cbn;
    intuition discriminate.
Qed.
Lemma xor_iff L c g :
  negb (ctx_both L c g) && negb (ctx_disjoint L c g) = true <->
  gl_isect L (GLine (cpts c)) g <> gl_isect L (GSeg (cfirst c) (clast c)) g.
Proof.
  unfold ctx_both, ctx_disjoint.
  destruct (gl_isect L (GLine (cpts c)) g), (gl_isect L (GSeg (cfirst c) (clast c)) g); cbn;
    intuition (discriminate || congruence).
Qed.

Lemma two_ends (l : list Z) n : hd_or l None = Some 0 -> last_or l None = Some n -> 0 < n ->
  zlen l <= 2 -> l = [0; n].
Proof.
  intros H1 H2 H3 H4. destruct l as [|a [|b [|x r]]]; cbn in *; try discriminate.
  - injection H1; injection H2; lia.
  - injection H1 as ->; injection H2 as ->; auto.
  - exfalso. unfold zlen in H4; cbn in H4; lia.
Qed.

Lemma zseq_hd n : 1 <= n -> hd_or (zseq 0 (n - 1)) None = Some 0.
Proof.
  intros H. unfold zseq.
  replace (Z.to_nat (n - 1 - 0 + 1)) with (S (Z.to_nat (n - 1))) by lia. reflexivity.
Qed.
Lemma zseq_last n : 1 <= n -> last_or (zseq 0 (n - 1)) None = Some (n - 1).
Proof. intros H. rewrite zseq_snoc by lia. apply last_or_snoc. Qed.

Lemma next_of_two st n : linked st [0; n] -> ch_next st 0 = Some n.
Proof. intros [D _]. cbn in D. tauto. Qed.

Lemma homotopy_total L c ctxs : 2 <= clen c -> exists b, homotopy L c ctxs = Ok b.
Proof.
  intros Hn. unfold homotopy. destruct (filter_context L c ctxs) as [dj xr].
  destruct xr; [|eauto]. destruct dj as [|g r]; [eauto|].
  destruct (deformation_spec L c (g :: r)) as [st [l [E1 [E2 [E3 [E4 E5]]]]]]; [lia|].
  rewrite E1; cbn [bind]. destruct (Z.eqb_spec (ch_size st) 2); [|eauto].
  assert (El : l = [0; clen c - 1]).
  { apply two_ends.
    - rewrite <- (shrinks_hd _ _ _ E4). apply zseq_hd; lia.
    - rewrite <- (shrinks_last _ _ _ E4). apply zseq_last; lia.
    - lia.
    - lia. }
  subst l. rewrite (next_of_two _ _ E2). eauto.
Qed.

Lemma cpt_in c k : 0 <= k < clen c -> In (cpt c k) (cpts c).
Proof.
  intros H. rewrite <- cpts_map. apply in_map. apply zseq_mem. lia.
Qed.

Lemma homotopy_sound L c ctxs : 2 <= clen c -> boxes_enclose L c ctxs ->
  homotopy L c ctxs = Ok true ->
  (forall g, In g ctxs ->
     gl_isect L (GLine (cpts c)) g = gl_isect L (GSeg (cfirst c) (clast c)) g) /\
  shrinks (sweeps_free L c ctxs) (cpts c) [cfirst c; clast c].
Proof.
  intros Hn Hb. unfold homotopy, filter_context.
  set (xr := filter (fun g => negb (ctx_both L c g) && negb (ctx_disjoint L c g)) ctxs).
  set (dj := filter _ ctxs). cbv beta iota.
  destruct xr as [|x0 xr'] eqn:Ex; [|intros; discriminate].
  intros H. split.
  { intros g Hg. destruct (Bool.bool_dec (gl_isect L (GLine (cpts c)) g)
      (gl_isect L (GSeg (cfirst c) (clast c)) g)) as [E|E]; auto. exfalso.
    assert (In g xr) by (apply filter_In; split; auto; apply xor_iff; auto).
    rewrite Ex in H0; destruct H0. }
  assert (Hfree : forall l', shrinks (fun a b d => tri_free L c dj a b d = true) (zseq 0 (clen c - 1)) l' ->
      l' = [0; clen c - 1] -> shrinks (sweeps_free L c ctxs) (cpts c) [cfirst c; clast c]).
  { intros l' S ->. rewrite <- (cpts_map c).
    replace [cfirst c; clast c] with (map (cpt c) [0; clen c - 1]) by reflexivity.
    eapply shrinks_map; [|exact S]. intros a b d Ia Ib Id Hf g Hg Hc.
    destruct (gl_isect L (GPoly [[cpt c a; cpt c b; cpt c d; cpt c a]]) g) eqn:E; auto. exfalso.
    unfold tri_free, tri_collapsible in Hf. rewrite forallb_forall in Hf.
    specialize (Hf g). rewrite E in Hf. cbn in Hf. assert (false = true); [|discriminate].
    apply Hf. apply filter_In. split.
    - apply filter_In. split; auto. apply disjoint_iff; auto.
    - apply zseq_mem in Ia, Ib, Id. refine (Hb _ _ _ _ _ _ _ Hg E); apply cpt_in; lia. }
  destruct (deformation_spec L c dj) as [st [l [E1 [E2 [E3 [E4 E5]]]]]]; [lia|].
  assert (Hl2 : zlen l <= 2 -> l = [0; clen c - 1]).
  { intros Hl. apply two_ends; auto.
    - rewrite <- (shrinks_hd _ _ _ E4). apply zseq_hd; lia.
    - rewrite <- (shrinks_last _ _ _ E4). apply zseq_last; lia.
    - lia. }
  destruct dj as [|g r] eqn:Ed.
  - (* nothing to avoid: every removal is free *)
    apply (Hfree l E4). apply Hl2. destruct E5 as [E5|E5]; auto.
    destruct l as [|a [|b [|d w]]]; try (unfold zlen; cbn; lia).
    specialize (E5 [] a b d w eq_refl). unfold tri_free in E5. cbn in E5. discriminate.
  - rewrite E1 in H. cbn [bind] in H. destruct (Z.eqb_spec (ch_size st) 2) as [Es|Es]; [|discriminate].
    apply (Hfree l E4), Hl2. lia.
Qed.

(** A refusal has a reason: a constraint on one side only, or a deformation that is stuck. *)
Lemma homotopy_rejects L c ctxs : 2 <= clen c -> boxes_enclose L c ctxs ->
  gl_eq2d L (cfirst c) (cfirst c) = true -> gl_eq2d L (clast c) (clast c) = true ->
  homotopy L c ctxs = Ok false ->
  (exists g, In g ctxs /\ gl_isect L (GLine (cpts c)) g <> gl_isect L (GSeg (cfirst c) (clast c)) g) \/
  (exists l, shrinks (sweeps_free L c ctxs) (cpts c) l /\ (3 <= length l)%nat /\
     forall u a b d w, l = u ++ a :: b :: d :: w ->
       exists g, In g ctxs /\ clear_of L c g /\ gl_isect L (GPoly [[a; b; d; a]]) g = true).
Proof.
  intros Hn Hb Ef El. unfold homotopy, filter_context.
  set (xr := filter (fun g => negb (ctx_both L c g) && negb (ctx_disjoint L c g)) ctxs).
  set (dj := filter _ ctxs). cbv beta iota.
  destruct xr as [|x0 xr'] eqn:Ex.
  2:{ intros _. left. exists x0. assert (Hx : In x0 xr) by (rewrite Ex; left; reflexivity).
      apply filter_In in Hx. destruct Hx as [Hx Hx']. split; [exact Hx|]. apply xor_iff. exact Hx'. }
  assert (Hd : forall g, In g dj <-> In g ctxs /\ clear_of L c g).
  { intros g. unfold dj. rewrite filter_In, disjoint_iff. tauto. }
  clearbody dj. destruct (deformation_spec L c dj) as [st [l [E1 [E2 [E3 [E4 E5]]]]]]; [lia|].
  intros H. right. exists (map (cpt c) l).
  assert (Hl2 : zlen l <= 2 -> l = [0; clen c - 1]).
  { intros Hl. apply two_ends; auto.
    - rewrite <- (shrinks_hd _ _ _ E4). apply zseq_hd; lia.
    - rewrite <- (shrinks_last _ _ _ E4). apply zseq_last; lia.
    - lia. }
  assert (H3 : 2 < zlen l).
  { destruct (Z_lt_ge_dec 2 (zlen l)) as [K|K]; [exact K|exfalso].
    assert (El2 : l = [0; clen c - 1]) by (apply Hl2; lia). subst l.
    destruct dj as [|g r]; [discriminate|]. rewrite E1 in H. cbn [bind] in H.
    rewrite E3 in H. change (zlen [0; clen c - 1] =? 2) with true in H. cbv iota in H.
    rewrite (next_of_two _ _ E2) in H. unfold cfirst, clast in Ef, El. rewrite Ef, El in H. discriminate. }
  split; [|split].
  - rewrite <- (cpts_map c). eapply shrinks_map; [|exact E4]. intros a b d Ia Ib Id Hf g Hg Hc.
    destruct (gl_isect L (GPoly [[cpt c a; cpt c b; cpt c d; cpt c a]]) g) eqn:E; auto. exfalso.
    unfold tri_free, tri_collapsible in Hf. rewrite forallb_forall in Hf.
    specialize (Hf g). rewrite E in Hf. cbn in Hf. assert (false = true); [|discriminate].
    apply Hf. apply filter_In. split.
    + apply Hd. auto.
    + apply zseq_mem in Ia, Ib, Id. refine (Hb _ _ _ _ _ _ _ Hg E); apply cpt_in; lia.
  - rewrite map_length. unfold zlen in H3. lia.
  - destruct E5 as [E5|E5]; [lia|]. intros u a b d w E.
    apply map_eq_app in E as (u' & t & -> & <- & E). apply map_eq_cons in E as (a' & t1 & -> & <- & E).
    apply map_eq_cons in E as (b' & t2 & -> & <- & E). apply map_eq_cons in E as (d' & w' & -> & <- & <-).
    specialize (E5 u' a' b' d' w' eq_refl). unfold tri_free, tri_collapsible in E5.
    assert (X : existsb (fun g => gl_isect L (GPoly [[cpt c a'; cpt c b'; cpt c d'; cpt c a']]) g)
       (filter (fun g => mbr_intersects (tri_box (cpt c a') (cpt c b') (cpt c d')) (gl_bounds L g)) dj) = true).
    { revert E5. clear. induction (filter _ dj) as [|g m IH]; cbn; [discriminate|].
      destruct (gl_isect L _ g); cbn; auto. }
    apply existsb_exists in X. destruct X as [g [Hg Hi]]. apply filter_In in Hg. destruct Hg as [Hg _]. apply Hd in Hg.
    exists g. tauto.
Qed.

(** *** Only what can be touched matters *)

Section Inv.
Variable n : Z.
Definition in_range (v : Z) : Prop := 0 <= v < n.
Definition ptr_ok (o : option Z) : Prop := match o with Some v => in_range v | None => True end.
Definition ch_inv (st : chainst) : Prop :=
  forall v, ptr_ok (ch_prev st v) /\ ptr_ok (ch_next st v).

Lemma upd_ok f k o : (forall v, ptr_ok (f v)) -> ptr_ok o -> forall v, ptr_ok (upd f k o v).
Proof. intros H Ho v. unfold upd. destruct (v =? k); auto. Qed.

Lemma ptrs_inv st p q : ch_inv st -> ptr_ok p -> ptr_ok q -> ch_inv (ptrs st p q).
Proof.
  intros H Hp Hq.
  assert (A : forall v, ptr_ok (ch_prev st v)) by (intros; apply H).
  assert (B : forall v, ptr_ok (ch_next st v)) by (intros; apply H).
  intros v. unfold ptrs. destruct q as [k|], p as [j|]; cbn; split; auto; apply upd_ok; auto.
Qed.

Lemma new_inv : ch_inv (new_chain n).
Proof.
  unfold new_chain.
  assert (K : forall l st, ch_inv st -> (forall i, In i l -> 1 <= i <= n - 1) ->
     ch_inv (fold_left (fun st i => ptrs st (Some (i - 1)) (Some i)) l st)).
  { induction l as [|i l IH]; intros st Hs Hl; cbn [fold_left]; auto. apply IH.
    - apply ptrs_inv; auto; unfold ptr_ok, in_range; specialize (Hl i (or_introl eq_refl)); lia.
    - intros j Hj; apply Hl; cbn; auto. }
  apply K.
  - intros v; cbn; auto.
  - intros i Hi. apply zseq_mem in Hi. lia.
Qed.

Variables col col' : chainst -> Z -> bool.
Hypothesis Hcol : forall st v, ch_inv st -> in_range v -> col st v = col' st v.

Lemma ch_pass_inv : forall fuel st link d, ch_inv st -> ptr_ok link ->
  ch_pass col fuel st link d = ch_pass col' fuel st link d /\
  (forall st' d', ch_pass col fuel st link d = Ok (st', d') -> ch_inv st').
Proof.
  induction fuel as [|f IH]; intros st [v|] d Hs Hv; cbn [ch_pass].
  - split; auto. discriminate.
  - split; auto. intros st' d' E; injection E as <- <-; auto.
  - rewrite <- Hcol by auto. destruct (col st v).
    + assert (I' : ch_inv (Chain (ch_next (ch_remove st v)) (ch_prev (ch_remove st v))
                            (ch_size (ch_remove st v) - 1))).
      { intros x. cbn. apply ptrs_inv; auto; apply Hs. }
      apply IH; auto. apply I'.
    + apply IH; auto. apply Hs.
  - split; auto. intros st' d' E; injection E as <- <-; auto.
Qed.

Lemma ch_loop_inv inner : 1 <= n -> forall fuel st, ch_inv st ->
  ch_loop col inner fuel st = ch_loop col' inner fuel st.
Proof.
  intros Hn. induction fuel as [|f IH]; intros st Hs; cbn [ch_loop]; auto.
  destruct (2 <? ch_size st); auto.
  destruct (ch_pass_inv inner st (Some 0) false Hs) as [E P].
  { cbn; unfold in_range; lia. }
  rewrite <- E. destruct (ch_pass col inner st (Some 0) false) as [[st' d]| |]; cbn; auto.
  destruct d; auto. apply IH. eapply P; eauto.
Qed.
End Inv.

(** A constraint that no part of the hull of the line touches. *)
Definition untouched (L : geomlib) (c : coords) (g : geometry) : Prop :=
  clear_of L c g /\
  forall a b d, In a (cpts c) -> In b (cpts c) -> In d (cpts c) ->
    gl_isect L (GPoly [[a; b; d; a]]) g = false.


Lemma forallb_iff {A} (f : A -> bool) l l' :
  ((forall x, In x l -> f x = true) <-> (forall x, In x l' -> f x = true)) ->
  forallb f l = forallb f l'.
Proof.
  intros H. destruct (forallb f l) eqn:E, (forallb f l') eqn:E'; auto; exfalso.
  - rewrite forallb_forall in E. pose proof (proj1 H E) as K.
    rewrite <- forallb_forall in K. congruence.
  - rewrite forallb_forall in E'. pose proof (proj2 H E') as K.
    rewrite <- forallb_forall in K. congruence.
Qed.

Lemma homotopy_far L c near all_ : 2 <= clen c ->
  gl_eq2d L (cfirst c) (cfirst c) = true -> gl_eq2d L (clast c) (clast c) = true ->
  (forall g, In g near -> In g all_) ->
  (forall g, In g all_ -> In g near \/ untouched L c g) ->
  homotopy L c near = homotopy L c all_.
Proof.
  intros Hn Ef El Hsub Hfar. unfold homotopy, filter_context.
  set (fx := fun g => negb (ctx_both L c g) && negb (ctx_disjoint L c g)).
  set (fd := fun g => negb (ctx_both L c g) && ctx_disjoint L c g).
  cbv beta iota.
  assert (Hx : (exists g, In g near /\ fx g = true) <-> (exists g, In g all_ /\ fx g = true)).
  { split; intros [g [Hg Hf]]; exists g; split; auto.
    destruct (Hfar g Hg) as [?|[[U1 U2] _]]; auto. exfalso. apply xor_iff in Hf. congruence. }
  destruct (filter fx near) as [|x1 r1] eqn:X1, (filter fx all_) as [|x2 r2] eqn:X2; auto.
  2: { exfalso. destruct (proj2 Hx) as [g [Hg Hf]].
       - exists x2. apply filter_In. rewrite X2; cbn; auto.
       - assert (In g (filter fx near)) by (apply filter_In; auto). rewrite X1 in H; destruct H. }
  2: { exfalso. destruct (proj1 Hx) as [g [Hg Hf]].
       - exists x1. apply filter_In. rewrite X1; cbn; auto.
       - assert (In g (filter fx all_)) by (apply filter_In; auto). rewrite X2 in H; destruct H. }
  (* contexts clear of the line *)
  assert (Hd1 : forall g, In g (filter fd near) -> In g (filter fd all_)).
  { intros g Hg. apply filter_In in Hg. apply filter_In. intuition. }
  assert (Hd2 : forall g, In g (filter fd all_) -> In g (filter fd near) \/ untouched L c g).
  { intros g Hg. apply filter_In in Hg. destruct Hg as [Hg Hf].
    destruct (Hfar g Hg); auto. left. apply filter_In; auto. }
  clear Hsub Hfar Hx X1 X2.
  set (dn := filter fd near) in *. set (da := filter fd all_) in *.
  assert (Ecol : forall st v, ch_inv (clen c) st -> in_range (clen c) v ->
     collapse_vertex L c dn st v = collapse_vertex L c da st v).
  { intros st v Hst Hv. unfold collapse_vertex. destruct (Hst v) as [Hp Hq].
    destruct (ch_prev st v) as [a|]; auto. destruct (ch_next st v) as [d|]; auto.
    unfold tri_collapsible. apply forallb_iff. split; intros H g Hg; apply filter_In in Hg;
      destruct Hg as [Hg Hb].
    - destruct (Hd2 g Hg) as [Hg'|[_ U]].
      + apply H. apply filter_In; auto.
      + apply negb_true_iff, U; apply cpt_in; auto.
    - apply H. apply filter_In; auto. }
  assert (Edef : chain_deformation L c dn = chain_deformation L c da).
  { unfold chain_deformation. eapply ch_loop_inv; eauto; [lia|]. apply new_inv. }
  destruct dn as [|g1 r1'] eqn:D1; destruct da as [|g2 r2'] eqn:D2; auto.
  - (* only far contexts *)
    rewrite <- Edef.
    destruct (deformation_spec L c []) as [st [l [E1 [E2 [E3 [E4 E5]]]]]]; [lia|].
    rewrite E1. cbn [bind].
    assert (Hl : zlen l <= 2).
    { destruct E5 as [E5|E5]; auto. destruct l as [|a [|b [|d w]]]; try (unfold zlen; cbn; lia).
      specialize (E5 [] a b d w eq_refl). cbn in E5. discriminate. }
    assert (El' : l = [0; clen c - 1]).
    { apply two_ends; auto.
      - rewrite <- (shrinks_hd _ _ _ E4). apply zseq_hd; lia.
      - rewrite <- (shrinks_last _ _ _ E4). apply zseq_last; lia.
      - lia. }
    subst l. rewrite E3. cbn [zlen length]. change (zlen [0; clen c - 1]) with 2.
    rewrite Z.eqb_refl, (next_of_two _ _ E2). unfold cfirst, clast in *. rewrite Ef, El. reflexivity.
  - exfalso. destruct (Hd1 g1); cbn; auto.
  - rewrite Edef. reflexivity.
Qed.

(** ** Looking only at nearby constraints *)

Lemma map_perm_in {A B} (f : A -> B) l l' : Permutation l l' -> forall y, In y (map f l) <-> In y (map f l').
Proof.
  intros P y. split; apply Permutation_in; [|symmetry]; apply Permutation_map; auto.
Qed.

Lemma iff_eq_res (b : bool) (r : res bool) : r = Ok b -> (b = true <-> r = Ok true).
Proof. intros ->. split; congruence. Qed.

Lemma validate_near L pop o t h near all_ :
  2 <= clen (n_coords h) ->
  gl_eq2d L (cfirst (n_coords h)) (cfirst (n_coords h)) = true ->
  gl_eq2d L (clast (n_coords h)) (clast (n_coords h)) = true ->
  context_neighbours L pop t (n_geom h) (o_min_dist o) = Ok near ->
  (forall g, In g (map n_geom near) -> In g all_) ->
  (forall g, In g all_ -> In g (map n_geom near) \/
     (untouched L (n_coords h) g /\ fle (o_min_dist o) (gl_dist L (n_seg h) g) = true)) ->
  exists b, validate_context L pop o t h = Ok b /\
    (b = true <->
     (o_geom o = true -> geom_relation_holds L h all_) /\
     (o_dist o = true -> dist_relation_holds L (o_min_dist o) h all_) /\
     (o_dir o = true -> homotopy L (n_coords h) all_ = Ok true)).
Proof.
  intros Hn Ef El Ek Hsub Hfar.
  set (ctxs := map n_geom near) in *.
  assert (Hg : geom_relate_valid L h ctxs = true <-> geom_relation_holds L h all_).
  { rewrite geom_relate_spec. unfold geom_relation_holds. split; intros H g Hin; auto.
    destruct (Hfar g Hin) as [?|[[[U1 U2] _] _]]; auto.
    unfold n_line, n_seg. congruence. }
  assert (Hd : dist_relate_valid L (o_min_dist o) h ctxs = true <->
               dist_relation_holds L (o_min_dist o) h all_).
  { rewrite dist_relate_spec. unfold dist_relation_holds. split; intros H g Hin; auto.
    destruct (Hfar g Hin) as [?|[_ ?]]; auto. }
  assert (Hh : homotopy L (n_coords h) ctxs = homotopy L (n_coords h) all_).
  { apply homotopy_far; auto. intros g Hin. destruct (Hfar g Hin) as [?|[? _]]; auto. }
  destruct (homotopy_total L (n_coords h) ctxs Hn) as [bh Eh].
  unfold validate_context.
  destruct (o_geom o) eqn:Og, (o_dist o) eqn:Od, (o_dir o) eqn:Or; cbn [orb negb];
    try rewrite Ek; cbn [bind]; fold ctxs; unfold dir_relate_valid; rewrite ?andb_true_r, ?andb_false_r; cbn [andb].
  all: rewrite <- Hh, Eh.
  all: destruct (geom_relate_valid L h ctxs), (dist_relate_valid L (o_min_dist o) h ctxs), bh;
    cbn [andb bind].
  all: try (exists true; split; [reflexivity|]; intuition congruence).
  all: exists false; split; [reflexivity|]; intuition congruence.
Qed.

Lemma far_untouched L h g md : hull_encloses L h g -> fle fzero md = true ->
  fle (gl_dist L (n_geom h) g) md = false ->
  untouched L (n_coords h) g /\ fle md (gl_dist L (n_seg h) g) = true.
Proof.
  intros (E1 & E2 & E3 & E4) Hmd Hf.
  assert (K : ~ fle (gl_dist L (n_geom h) g) fzero = true).
  { intros K. rewrite (fle_trans _ _ _ K Hmd) in Hf. discriminate. }
  split; [split; [split|]|].
  - destruct (gl_isect L (GLine (cpts (n_coords h))) g) eqn:E; auto. exfalso; exact (K (E1 E)).
  - destruct (gl_isect L (GSeg (cfirst (n_coords h)) (clast (n_coords h))) g) eqn:E; auto.
    exfalso; exact (K (E2 E)).
  - intros a b d Ha Hb Hd. destruct (gl_isect L (GPoly [[a; b; d; a]]) g) eqn:E; auto. exfalso; exact (K (E3 a b d Ha Hb Hd E)).
  - eapply fle_trans; [|exact E4]. apply flt_le.
    apply fle_total; eauto using fle_nan_l, fle_nan_r.
Qed.
