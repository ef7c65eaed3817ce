(** Properties of the relation checks (C22-C25) and of the chain deformation (C48).
    Vocabulary: Spec_Relate.v. *)
From Verif Require Import M_Base M_Float M_Rng M_Geom M_Node M_Hdb M_Knn M_Homotopy M_Relate
  Spec Spec_Hdb Spec_Lnr Spec_Relate P_Base P_Float P_HdbIns P_Knn P_HdbHist P_Homotopy P_Relate
  P_Lnr Toy Toy_Box Properties_Hdb.
Open Scope Z_scope.

(** ** C22 *)

Theorem C22_geometric_relation :
  forall (L : geomlib) (h : node) (ctxs : list geometry),
  geom_relate_valid L h ctxs = true <->
  forall g, In g ctxs ->
    (gl_isect L (GLine (cpts (n_coords h))) g = true <->
     gl_isect L (GSeg (cfirst (n_coords h)) (clast (n_coords h))) g = true).
Proof.
  intros L h ctxs. rewrite geom_relate_spec. unfold n_line, n_seg.
  split; intros H g Hg; specialize (H g Hg).
  - rewrite H; tauto.
  - destruct (gl_isect L (GLine (cpts (n_coords h))) g),
      (gl_isect L (GSeg (cfirst (n_coords h)) (clast (n_coords h))) g); intuition congruence.
Qed.

(** ** C23 *)

Theorem C23_distance_relation :
  forall (L : geomlib) (md : f64) (h : node) (ctxs : list geometry),
  dist_relate_valid L md h ctxs = true <->
  forall g, In g ctxs ->
    fle md (gl_dist L (GSeg (cfirst (n_coords h)) (clast (n_coords h))) g) = true \/
    flt (gl_dist L (GLine (cpts (n_coords h))) g) md = true.
Proof. intros. apply dist_relate_spec. Qed.

(** A tent over a segment: a constraint on the replaced segment is refused, one on the apex
    too, one far away is accepted. *)
Definition tent : node :=
  create_node toy 1 (full_coords [P2 0 0; P2 5 5; P2 10 0]) (Rng 0 2) 1.
Example C22_C23_case :
  geom_relate_valid toy tent [GPoint (P2 5 9)] = true /\
  geom_relate_valid toy tent [GPoint (P2 5 9); GPoint (P2 5 0)] = false /\
  geom_relate_valid toy tent [GPoint (P2 5 5)] = false /\
  dist_relate_valid toy (f_of_Z 2) tent [GPoint (P2 5 9); GPoint (P2 5 5)] = true /\
  dist_relate_valid toy (f_of_Z 2) tent [GPoint (P2 6 (-1))] = false.
Proof. vm_compute. repeat split. Qed.

(** ** C24 *)

(** [clear_of L c g]: constraint g touches neither the line nor the segment. *)
Theorem C24_homotopy_sound :
  forall (L : geomlib) (c : coords) (ctxs : list geometry),
  2 <= clen c -> boxes_enclose L c ctxs ->
  homotopy L c ctxs = Ok true ->
  (forall g, In g ctxs ->
     gl_isect L (GLine (cpts c)) g = gl_isect L (GSeg (cfirst c) (clast c)) g) /\
  shrinks (fun a b d => forall g, In g ctxs -> clear_of L c g ->
             gl_isect L (GPoly [[a; b; d; a]]) g = false)
          (cpts c) [cfirst c; clast c].
Proof. intros L c ctxs Hn Hb H. exact (homotopy_sound L c ctxs Hn Hb H). Qed.

(** The check always gives an answer. *)
Theorem C24_homotopy_answers :
  forall (L : geomlib) (c : coords) (ctxs : list geometry),
  2 <= clen c -> exists b, homotopy L c ctxs = Ok b.
Proof. exact homotopy_total. Qed.

(** It refuses only with a reason: a constraint touches one of line and segment only, or the
    removal of vertices is stuck: every remaining triangle touches a constraint clear of both. *)
Theorem C24_homotopy_rejects :
  forall (L : geomlib) (c : coords) (ctxs : list geometry),
  2 <= clen c -> boxes_enclose L c ctxs ->
  gl_eq2d L (cfirst c) (cfirst c) = true -> gl_eq2d L (clast c) (clast c) = true ->
  homotopy L c ctxs = Ok false ->
  (exists g, In g ctxs /\ gl_isect L (GLine (cpts c)) g <> gl_isect L (GSeg (cfirst c) (clast c)) g) \/
  (exists l, shrinks (fun a b d => forall g, In g ctxs -> clear_of L c g ->
                        gl_isect L (GPoly [[a; b; d; a]]) g = false) (cpts c) l /\
     (3 <= length l)%nat /\
     forall u a b d w, l = u ++ a :: b :: d :: w ->
       exists g, In g ctxs /\ clear_of L c g /\ gl_isect L (GPoly [[a; b; d; a]]) g = true).
Proof. intros L c ctxs Hn Hb H1 H2 H. exact (homotopy_rejects L c ctxs Hn Hb H1 H2 H). Qed.

Lemma boxy_encloses c ctxs : Forall num_geom ctxs -> Forall num_pt (cpts c) ->
  boxes_enclose boxy c ctxs.
Proof.
  intros Hc Hp a b d g Ia Ib Id Hg H. rewrite Forall_forall in Hc, Hp.
  pose proof (Hp a Ia) as Ha. pose proof (Hp b Ib) as Hb. pose proof (Hp d Id) as Hd.
  cbn in H |- *. unfold bx_isect, bx_bounds in *.
  pose proof (pt_box_nonan a Ha) as Na. pose proof (pt_box_nonan b Hb) as Nb.
  pose proof (pt_box_nonan d Hd) as Nd.
  pose proof (P_Hdb.box_in_nan_r _ _ (P_Hdb.expand_l _ _ Na Nb)) as Nab.
  destruct (pts_box_in _ (Hc g Hg)) as [Ng _].
  pose proof (P_Hdb.expand_l _ _ Nab Nd) as J1. pose proof (P_Hdb.expand_r _ _ Nab Nd) as J2.
  pose proof (P_Hdb.expand_l _ _ Na Nb) as J3. pose proof (P_Hdb.expand_r _ _ Na Nb) as J4.
  assert (M : boxes_meet (tri_box a b d) (pts_box (verts g)) = true).
  { eapply meet_mono; [|exact H]. apply pts_box_lub; [discriminate|].
    intros p Hq. cbn [verts concat app In] in Hq. unfold tri_box.
    destruct Hq as [<- |[<- |[<- |[<- |[]]]]]; auto; eapply P_Hdb.box_in_trans; eauto. }
  revert M. unfold boxes_meet, mbr_intersects. rewrite !andb_true_iff.
  intros [[[M1 M2] M3] M4]. rewrite negb_true_iff, !orb_false_iff. unfold fgt.
  repeat split; apply fle_not_lt; auto.
Qed.

(** A zigzag whose bulges do not contain the constraint is accepted; one whose bulge
    contains it is refused. *)
Definition zigzag : coords := full_coords [P2 0 0; P2 2 3; P2 4 (-2); P2 6 3; P2 8 0].
Example C24_case :
  homotopy toy zigzag [GPoint (P2 4 6)] = Ok true /\
  homotopy toy zigzag [GPoint (P2 6 1)] = Ok false /\
  homotopy toy zigzag [GPoint (P2 4 0)] = Ok false.
Proof. vm_compute. repeat split. Qed.
Example C24_case_boxes :
  (2 <= clen zigzag)%Z /\ boxes_enclose boxy zigzag [GPoint (P2 4 6); GLine [P2 20 20; P2 30 21]] /\
  homotopy boxy zigzag [GPoint (P2 4 6); GLine [P2 20 20; P2 30 21]] = Ok true.
Proof.
  split; [vm_compute; discriminate|]. split; [|vm_compute; reflexivity].
  apply boxy_encloses.
  - repeat constructor; try discriminate.
  - repeat constructor.
Qed.
(** The refused zigzag meets the hypotheses of the last theorem; the constraint inside its
    second bulge touches neither the line nor the segment, so the deformation is stuck. *)
Example C24_case_refused :
  2 <= clen zigzag /\ boxes_enclose toy zigzag [GPoint (P2 6 1)] /\
  gl_eq2d toy (cfirst zigzag) (cfirst zigzag) = true /\ gl_eq2d toy (clast zigzag) (clast zigzag) = true /\
  homotopy toy zigzag [GPoint (P2 6 1)] = Ok false /\ clear_of toy zigzag (GPoint (P2 6 1)).
Proof.
  split; [vm_compute; discriminate|]. split; [|vm_compute; repeat split].
  intros a b d g Ha Hb Hd Hg. destruct Hg as [<- |[]].
  assert (K : forallb (fun a => forallb (fun b => forallb (fun d =>
     implb (gl_isect toy (GPoly [[a; b; d; a]]) (GPoint (P2 6 1))) (mbr_intersects (tri_box a b d) (gl_bounds toy (GPoint (P2 6 1)))))
     (cpts zigzag)) (cpts zigzag)) (cpts zigzag) = true) by (vm_compute; reflexivity).
  rewrite forallb_forall in K. specialize (K a Ha). rewrite forallb_forall in K. specialize (K b Hb).
  rewrite forallb_forall in K. specialize (K d Hd). intros E. rewrite E in K. exact K.
Qed.

(** ** C48 *)

(** The chain after deformation: [l] are the vertices still linked, in order; next and
    previous pointers agree with l; the recorded size is their number; the first and last
    vertex of the line are its ends; and either at most two vertices are left or no
    further vertex can be removed. *)
Theorem C48_chain_deformation :
  forall (L : geomlib) (c : coords) (ctxs : list geometry),
  1 <= clen c ->
  exists st l, chain_deformation L c ctxs = Ok st /\
    ch_size st = zlen l /\ NoDup l /\
    hd_error l = Some 0 /\ last l 0 = clen c - 1 /\
    (forall u a b w, l = u ++ a :: b :: w -> ch_next st a = Some b /\ ch_prev st b = Some a) /\
    ch_prev st 0 = None /\ ch_next st (clen c - 1) = None /\
    (forall k, In k l -> 0 <= k < clen c) /\
    (zlen l <= 2 \/ forall u a b d w, l = u ++ a :: b :: d :: w ->
       exists g, In g ctxs /\ gl_isect L (GPoly [[cpt c a; cpt c b; cpt c d; cpt c a]]) g = true).
Proof.
  intros L c ctxs Hn.
  destruct (deformation_spec L c ctxs Hn) as [st [l [E1 [[D N] [E3 [E4 E5]]]]]].
  pose proof (shrinks_hd _ _ _ E4) as Hh. rewrite zseq_hd in Hh by lia.
  pose proof (shrinks_last _ _ _ E4) as Hl. rewrite zseq_last in Hl by lia.
  assert (Hlast : forall (m : list Z) (p : option Z) x d, last_or m p = Some x -> m <> [] -> last m d = x).
  { induction m as [|y r IH]; intros p x d H Hne; [congruence|]. cbn in H |- *.
    destruct r as [|z r]; [cbn in H; congruence|]. eapply IH; eauto. discriminate. }
  exists st, l. destruct l as [|z r]; [discriminate|]. injection Hh as <-.
  split; [exact E1|]. split; [exact E3|]. split; [exact N|]. split; [reflexivity|].
  split; [eapply Hlast; [symmetry; exact Hl|discriminate]|].
  split.
  { intros u a b w E. rewrite E in D. apply dll_app in D. cbn in D. tauto. }
  split; [cbn in D; tauto|].
  split.
  { destruct (list_snoc (0 :: r)) as [E|[u [x E]]]; [discriminate|].
    rewrite E in D, Hl. rewrite last_or_snoc in Hl. injection Hl as ->.
    apply dll_app in D. cbn in D. tauto. }
  split.
  { assert (Hsub : forall (free : Z -> Z -> Z -> Prop) l1 l2, shrinks free l1 l2 ->
       forall k, In k l2 -> In k l1).
    { intros free l1 l2 S. induction S; auto. intros k Hk. specialize (IHS k Hk).
      apply in_app_or in IHS. apply in_or_app. cbn in *. tauto. }
    intros k Hk. apply (Hsub _ _ _ E4) in Hk. apply zseq_mem in Hk. lia. }
  destruct E5 as [E5|E5]; auto. right. intros u a b d w E. specialize (E5 u a b d w E).
  unfold tri_free, tri_collapsible in E5.
  assert (X : existsb (fun g => gl_isect L (GPoly [[cpt c a; cpt c b; cpt c d; cpt c a]]) g)
     (filter (fun g => mbr_intersects (tri_box (cpt c a) (cpt c b) (cpt c d)) (gl_bounds L g)) ctxs) = true).
  { revert E5. clear. induction (filter _ ctxs) as [|g m IH]; cbn; [discriminate|].
    destruct (gl_isect L _ g); cbn; auto. }
  apply existsb_exists in X. destruct X as [g [Hg Hi]]. apply filter_In in Hg.
  exists g. tauto.
Qed.

Example C48_case :
  match chain_deformation toy zigzag [GPoint (P2 6 1)] with
  | Ok st => ch_size st = 3 /\ ch_next st 0 = Some 3 /\ ch_next st 3 = Some 4 /\ ch_prev st 4 = Some 3
  | _ => False
  end.
Proof. vm_compute. repeat split. Qed.

(** ** C25 *)

Theorem C25_nearby_suffices :
  forall (L : geomlib) (O : hdb_oracle) (pop : popfn) (o : opts) (inst : Z)
         (geoms : list geometry) (h : node),
  oracle_ok O -> pop_ok (fun a b => flt a b = true) pop ->
  Forall (fun g => good_item (context_node L inst g)) geoms ->
  fle fzero (o_min_dist o) = true ->
  2 <= clen (n_coords h) ->
  gl_eq2d L (cfirst (n_coords h)) (cfirst (n_coords h)) = true ->
  gl_eq2d L (clast (n_coords h)) (clast (n_coords h)) = true ->
  (forall g, In g geoms -> hull_encloses L h g) ->
  (forall g, In g geoms -> box_distance_ok L (n_geom h) g (gl_bounds L g)) ->
  exists t b, build_context_db L O inst geoms = Ok t /\ validate_context L pop o t h = Ok b /\
    (b = true <->
     (o_geom o = true -> geom_relation_holds L h geoms) /\
     (o_dist o = true -> dist_relation_holds L (o_min_dist o) h geoms) /\
     (o_dir o = true -> homotopy L (n_coords h) geoms = Ok true)).
Proof.
  intros L O pop o inst geoms h HO Hp Hg Hmd Hn Ef El Henc Hbox.
  set (items := map (context_node L inst) geoms).
  assert (Hgood : Forall good_op [OpLoad items]).
  { constructor; [|constructor]. cbn. unfold items. apply Forall_map. exact Hg. }
  destruct (C13_operations_never_fail O 8 [OpLoad items] HO Hgood) as [t [Et _]].
  exists t. pose proof Et as Et'. cbn [run_ops] in Et'.
  assert (Eb : build_context_db L O inst geoms = Ok t).
  { unfold build_context_db, new_hdb_default. fold items.
    destruct (load O (new_hdb 8) items); cbn in Et'; congruence. }
  destruct (C15_neighbours_exact O 8 [OpLoad items] t L pop (n_geom h) (o_min_dist o) HO Hgood Et Hp)
    as (bag & near & B & K & Pm & _).
  - eapply fle_nan_r; eauto.
  - intros b it [its [[E|[]] Hit]] Hw. injection E as <-.
    apply in_map_iff in Hit. destruct Hit as [g [<- Hgin]]. cbn in *. apply Hbox; auto.
  - assert (Pb : Permutation bag items).
    { inversion B as [|b0 o0 b1 ops b2 S R]; subst. inversion R; subst. inversion S; subst. auto. }
    rewrite Pb in Pm || (rewrite (filter_perm _ _ _ _ Pb) in Pm).
    destruct (validate_near L pop o t h near geoms Hn Ef El K) as [b [Ev Hb]].
    + intros g Hin. apply in_map_iff in Hin. destruct Hin as [it [<- Hit]].
      apply (Permutation_in _ Pm) in Hit. apply filter_In in Hit. destruct Hit as [Hit _].
      apply in_map_iff in Hit. destruct Hit as [g [<- Hgin]]. exact Hgin.
    + intros g Hin. destruct (fle (gl_dist L (n_geom h) g) (o_min_dist o)) eqn:E.
      * left. apply in_map_iff. exists (context_node L inst g). split; auto.
        apply (Permutation_in _ (Permutation_sym Pm)). apply filter_In. split; auto.
        apply in_map_iff; eauto.
      * right. apply far_untouched; auto.
    + exists b. auto.
Qed.

(** With a negative minimum distance every constraint is ignored: the claim then fails.
    The constraint (5,0) lies on the segment that replaces the tent and not on the tent. *)
Definition tent_opts (md : Z) : opts :=
  Opts (f_of_Z 5) (f_of_Z md) fzero false false false true false false.
Theorem C25_negative_min_dist_refuted :
  ~ geom_relation_holds toy tent [GPoint (P2 5 0)] /\
  (exists t, build_context_db toy plain_oracle 1 [GPoint (P2 5 0)] = Ok t /\
     validate_context toy plain_pop (tent_opts (-1)) t tent = Ok true /\
     validate_context toy plain_pop (tent_opts 0) t tent = Ok false).
Proof.
  split.
  - intros H. specialize (H (GPoint (P2 5 0)) (or_introl eq_refl)). vm_compute in H. discriminate.
  - eexists. split; [vm_compute; reflexivity|]. split; vm_compute; reflexivity.
Qed.

(** The hypotheses of C25 hold together: the box library, a three-vertex hull, three
    constraints of which one is near. *)
Definition btent : node := create_node boxy 1 (full_coords [P2 0 0; P2 5 5; P2 10 0]) (Rng 0 2) 1.
Definition bgeoms : list geometry := [GPoint (P2 5 3); GLine [P2 20 20; P2 30 21]; GPoint (P2 (-7) 4)].
Definition bopts : opts := Opts (f_of_Z 5) fzero fzero false false false true true true.

Lemma num_P2 x y : is_nan (f_of_Z x) = false -> is_nan (f_of_Z y) = false -> num_pt (P2 x y).
Proof. split; auto. Qed.

Lemma boxy_hull_encloses i pts r inst g : num_pts pts -> 
  hull_encloses boxy (create_node boxy i (full_coords pts) r inst) g.
Proof.
  intros Hp. unfold hull_encloses, create_node; cbn [n_line n_seg n_geom n_coords gl_hull boxy gl_isect gl_dist].
  assert (Ec : cpts (full_coords pts) = pts).
  { unfold cpts, full_coords; cbn. transitivity (map (fun k => nth k pts origin) (seq 0 (length pts))).
    - unfold zseq. rewrite map_map.
      replace (Z.to_nat (zlen pts - 1 - 0 + 1)) with (length pts) by (unfold zlen; lia).
      apply map_ext. intros k. rewrite Z.add_0_l, Nat2Z.id. reflexivity.
    - apply map_nth_seq. }
  assert (Hlen : clen (full_coords pts) = zlen pts).
  { unfold clen, full_coords; cbn. unfold zseq, zlen. rewrite map_length, seq_length. lia. }
  assert (Hpos : 0 < zlen pts).
  { destruct Hp as [Hp _]. destruct pts; [congruence|]. unfold zlen; cbn; lia. }
  assert (Hin : forall k, 0 <= k < zlen pts -> In (cpt (full_coords pts) k) pts).
  { intros k Hk. rewrite <- Ec at 2. apply cpt_in. rewrite Hlen; lia. }
  assert (Z0 : forall part, verts part <> [] -> (forall p, In p (verts part) -> In p pts) ->
     bx_isect part g = true -> fle (bx_dist (hull_geometry (bx_hull pts)) g) fzero = true).
  { intros part Hne Hsub Hi. unfold bx_dist. rewrite (boxy_part pts part g Hp Hne Hsub Hi). reflexivity. }
  rewrite Ec. repeat split.
  - unfold n_line; cbn [n_coords]. rewrite Ec. apply Z0; cbn [verts]; auto. apply Hp.
  - apply Z0; [discriminate|]. unfold n_seg, cfirst, clast; cbn [n_coords verts In]. intros p [<- |[<- |[]]]; apply Hin; rewrite ?Hlen; lia.
  - intros a b d Ha Hb Hd. apply Z0; cbn; [discriminate|]. intuition congruence.
  - apply dist_mono. apply boxy_part; auto; [discriminate|].
    unfold n_seg, cfirst, clast; cbn [n_coords verts In]. intros p [<- |[<- |[]]]; apply Hin; rewrite ?Hlen; lia.
Qed.

Example C25_case :
  oracle_ok plain_oracle /\ pop_ok (fun a b => flt a b = true) plain_pop /\
  Forall (fun g => good_item (context_node boxy 1 g)) bgeoms /\
  fle fzero (o_min_dist bopts) = true /\ 2 <= clen (n_coords btent) /\
  (forall g, In g bgeoms -> hull_encloses boxy btent g) /\
  (forall g, In g bgeoms -> box_distance_ok boxy (n_geom btent) g (gl_bounds boxy g)) /\
  match build_context_db boxy plain_oracle 1 bgeoms with
  | Ok t => validate_context boxy plain_pop bopts t btent = Ok false /\
            validate_context boxy plain_pop (Opts (f_of_Z 5) fzero fzero false false false false true false) t btent = Ok true
  | _ => False
  end.
Proof.
  split; [exact plain_oracle_ok|]. split; [exact plain_pop_ok|].
  split; [|split; [reflexivity|split; [vm_compute; discriminate|split; [|split]]]].
  - repeat constructor; vm_compute; try reflexivity; discriminate.
  - intros g _. apply boxy_hull_encloses. split; [discriminate|].
    repeat constructor.
  - intros g Hg b Hw. apply boxy_box_dist; auto.
    destruct Hg as [<- |[<- |[<- |[]]]]; (split; [discriminate|]); repeat constructor.
  - vm_compute. auto.
Qed.

Print Assumptions C22_geometric_relation.
Print Assumptions C23_distance_relation.
Print Assumptions C24_homotopy_sound.
Print Assumptions C24_homotopy_answers.
Print Assumptions C24_homotopy_rejects.
Print Assumptions C48_chain_deformation.
Print Assumptions C25_nearby_suffices.
Print Assumptions C25_negative_min_dist_refuted.
