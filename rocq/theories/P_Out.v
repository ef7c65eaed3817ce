(** From runs to the outcome of simplification, line by line. *)
From Coq Require Import Ascii String.
From Verif Require Import M_Base M_Float M_Rng M_Geom M_Offset M_Node M_Decompose M_Hdb M_Knn M_Lnr M_Homotopy M_Relate M_Constrain M_ConstDP
  M_Text M_IO Spec Spec_Hdb Spec_Lnr Spec_Relate Spec_ConstDP Spec_Text Spec_IO Spec_Run Spec_Out
  P_Base P_Decompose P_Split P_Node P_Hdb P_HdbIns P_Db P_Lnr P_Bag P_ConstDP P_Aggregate P_Simplify P_Class P_Text P_IO P_Run
  Properties_Lnr Properties_Relate Properties_ConstDP.
Open Scope Z_scope.

(** ** Consecutive kept vertices are the hulls *)

Lemma chain_next rs : forall a b i j, chain a b rs -> 
  (exists r, In r rs /\ (i = rI r \/ i = rJ r)) -> (exists r, In r rs /\ (j = rI r \/ j = rJ r)) -> i < j ->
  (forall r, In r rs -> ~ i < rI r < j /\ ~ i < rJ r < j) -> In (Rng i j) rs.
Proof.
  induction rs as [|r rs IH]; intros a b i j Hc Hi Hj Hij Hn; [destruct Hi as (? & [] & _)|].
  cbn [chain] in Hc. destruct Hc as (E1 & E2 & Hc).
  destruct (Hn r (or_introl eq_refl)) as [N1 N2].
  assert (Hge : forall x, (exists q, In q rs /\ (x = rI q \/ x = rJ q)) -> rJ r <= x).
  { intros x (q & Hq & Hx). pose proof (chain_in _ _ _ _ Hc Hq). lia. }
  assert (Hst : rs <> [] -> exists q, In q rs /\ (rJ r = rI q \/ rJ r = rJ q)).
  { destruct rs as [|q rs']; [congruence|]. intros _. cbn in Hc. exists q. split; [left; auto|left; lia]. }
  destruct (Z.eq_dec i (rI r)) as [Ei|Ei].
  - assert (j = rJ r) as ->.
    { destruct Hj as (q & [<- |Hq] & Hx); [lia|]. pose proof (Hge j ltac:(eauto)). lia. }
    left. destruct r; cbn in *; subst; reflexivity.
  - right. apply (IH (rJ r) b i j Hc).
    + destruct Hi as (q & [<- |Hq] & Hx); [|eauto]. destruct Hx as [Hx|Hx]; [congruence|]. subst i. apply Hst.
      intros ->. cbn in Hc. destruct Hj as (q & [<- |[]] & Hx). lia.
    + destruct Hj as (q & [<- |Hq] & Hx); [|eauto].
      destruct Hi as (q' & [<- |Hq'] & Hx'); [|pose proof (Hge i ltac:(eauto))]; lia.
    + exact Hij.
    + intros q Hq. apply Hn. right. exact Hq.
Qed.

Lemma next_kept_hull hs n a b : tiling 0 n (map n_rng hs) -> next_kept (simple_set hs) a b ->
  exists h, In h hs /\ n_rng h = Rng a b.
Proof.
  intros [rs [Hp Hc]] (Ha & Hb & Hab & Hn).
  assert (Hends : forall x, (exists r, In r rs /\ (x = rI r \/ x = rJ r)) <-> In x (simple_set hs)).
  { intros x. unfold simple_set. rewrite (proj2 (point_set_spec hs)). split.
    - intros (r & Hr & K). apply (Permutation_in _ (Permutation_sym Hp)) in Hr. apply in_map_iff in Hr. destruct Hr as (h & <- & Hh). eauto.
    - intros (h & Hh & K). exists (n_rng h). split; [|exact K]. apply (Permutation_in _ Hp). apply in_map. exact Hh. }
  assert (K : In (Rng a b) rs).
  { apply (chain_next rs 0 n a b Hc); [apply Hends, Ha|apply Hends, Hb|exact Hab|].
    intros r Hr. split; apply Hn, Hends; eauto. }
  apply (Permutation_in _ (Permutation_sym Hp)) in K. apply in_map_iff in K. destruct K as (h & E & Hh). eauto.
Qed.

(** ** What holds of one line *)

Lemma fresh_part L pts inst h a b : fresh_hull L pts inst h -> n_rng h = Rng a b ->
  0 <= a /\ a < b /\ b < zlen pts /\ n_coords h = sub_coords pts (Rng a b) /\ n_geom h = piece_hull L pts (Rng a b).
Proof.
  intros (Hh & Eg & _) E. pose proof (cpts_hull _ _ Hh) as Ec. destruct Hh as (A & B & C & D). rewrite E in *. cbn [rI rJ] in *.
  repeat split; auto. rewrite Eg, Ec. reflexivity.
Qed.

Lemma part_ends pts a b : 0 <= a -> a < b -> cfirst (sub_coords pts (Rng a b)) = vertex pts a /\ clast (sub_coords pts (Rng a b)) = vertex pts b.
Proof.
  intros A B. unfold cfirst, clast. rewrite clen_sub by (cbn; lia). rewrite !cpt_sub by (cbn; lia). cbn [rI rJ]. unfold vertex.
  split; f_equal; f_equal; lia.
Qed.

(** A hull that passed the check of the relations. *)
Lemma valid_relations W self gs h : libs_ok W -> built_from W self gs -> fle fzero (o_min_dist (c_opts self)) = true ->
  geometry_ok (w_geom W) gs (c_pts self) ->
  fresh_hull (w_geom W) (c_pts self) (c_id self) h -> valid_in W self h ->
  (o_geom (c_opts self) = true -> geom_relation_holds (w_geom W) h gs) /\
  (o_dist (c_opts self) = true -> dist_relation_holds (w_geom W) (o_min_dist (c_opts self)) h gs) /\
  (o_dir (c_opts self) = true -> homotopy (w_geom W) (n_coords h) gs = Ok true).
Proof.
  intros HW Hb Hm [Hp Hg] Hf Hv. destruct (n_rng h) as [a b] eqn:Er.
  destruct (fresh_part _ _ _ _ _ _ Hf Er) as (A & B & C & Ec & Eg). set (L := w_geom W) in *.
  assert (Hin : forall k, 0 <= k < zlen (c_pts self) -> In (vertex (c_pts self) k) (c_pts self)).
  { intros k Hk. apply nth_In. unfold zlen in Hk. lia. }
  destruct (part_ends (c_pts self) a b A B) as [E1 E2].
  destruct (C25_nearby_suffices L (w_hdb W) (w_pop W) (c_opts self) (c_id self) gs h (lb_rtree _ HW) (lb_heap _ HW))
    as (t & v & Et & Eb & Hiff); auto.
  - exact (proj2 Hb).
  - rewrite Ec, clen_sub by (cbn; lia). cbn. lia.
  - rewrite Ec, E1. apply Hp, Hin. lia.
  - rewrite Ec, E2. apply Hp, Hin. lia.
  - intros g K. destruct (Hg a b g A B C K) as [K1 _]. unfold hull_encloses in *. unfold n_line, n_seg in *.
    unfold part, create_node in K1. cbn [n_coords n_geom] in K1. rewrite Ec, Eg. exact K1.
  - intros g K. rewrite Eg. apply (Hg a b g A B C K).
  - apply Hiff. assert (t = c_ctxdb self) as -> by (destruct Hb as [K _]; unfold L in Et; rewrite Et in K; congruence).
    unfold valid_in in Hv. fold L in Hv. rewrite Hv in Eb. congruence.
Qed.

Lemma hulls_honour W self gs hs : libs_ok W -> built_from W self gs -> fle fzero (o_min_dist (c_opts self)) = true ->
  geometry_ok (w_geom W) gs (c_pts self) ->
  tiling 0 (zlen (c_pts self) - 1) (map n_rng hs) ->
  Forall (fresh_hull (w_geom W) (c_pts self) (c_id self)) hs ->
  (forall h, In h hs -> big h -> valid_in W self h) ->
  honours (w_geom W) (c_opts self) gs (c_pts self) (simple_set hs).
Proof.
  intros HW Hb Hm Hg Ht Hf Hv a b Hn H1 H2 line chord.
  destruct (next_kept_hull hs _ a b Ht Hn) as (h & Hh & Er). rewrite Forall_forall in Hf. specialize (Hf h Hh).
  destruct (fresh_part _ _ _ _ _ _ Hf Er) as (A & B & C & Ec & Eg).
  destruct (valid_relations W self gs h HW Hb Hm Hg Hf) as (R1 & R2 & R3).
  { apply Hv; [exact Hh|]. split; [rewrite Er; unfold rsize; cbn; lia|]. rewrite Eg. exact H2. }
  destruct (part_ends (c_pts self) a b A B) as [E1 E2].
  assert (El : n_line h = line) by (unfold n_line, line; rewrite Ec; reflexivity).
  assert (Es : n_seg h = chord) by (unfold n_seg, chord; rewrite Ec, E1, E2; reflexivity).
  split; [|split].
  - intros K g K2. rewrite <- El, <- Es. apply (R1 K g K2).
  - intros K g K2. rewrite <- El, <- Es. apply (R2 K g K2).
  - intros K. rewrite <- Ec. apply (R3 K).
Qed.

(** ** The outcome of a run for one line *)

Definition line_world (S : setup) (i : Z) : world :=
  World (w_geom (su_world S)) (su_gens S i) (w_hdb (su_world S)) (w_pop (su_world S)) (w_lnr (su_world S)).
Definition class_junctions (S : setup) (is_class : bool) (o : opts) (selfs : list cdp) (i : Z) : list Z :=
  if is_class && o_planar_self o
  then fc_junctions (w_geom (su_world S)) (lo_sort (w_lnr (su_world S))) (map (fun s => (c_id s, c_pts s)) selfs) i
  else [].
Record outcome (S : setup) (is_class : bool) (o : opts) (selfs : list cdp) (s : cdp) (hs : list node) : Prop := {
  oc_alone : exists h0 n, simplify (line_world S (c_id s)) (su_ords S (c_id s)) s (class_junctions S is_class o selfs (c_id s))
      (su_fuel S) 0 = Ok (h0, n) /\ (forall k, In k (simple_set h0) -> In k (simple_set hs)) /\
      (is_class && constrained o = false -> hs = h0) /\
      (all_apart (su_world S) selfs -> simple_set hs = simple_set h0);
  oc_tiles : tiling 0 (zlen (c_pts s) - 1) (map n_rng hs);
  oc_fresh : Forall (fresh_hull (w_geom (su_world S)) (c_pts s) (c_id s)) hs;
  oc_valid : is_class && constrained o = true \/ is_class = false -> forall h, In h hs -> big h -> valid_in (su_world S) s h
}.

Lemma world_i_ok S i : setup_ok S -> libs_ok (line_world S i).
Proof.
  intros [[a b c d] _ H _ _ _]. split; auto. cbn. intros j k E. apply (H i i j k E).
Qed.

Lemma junctions_in_range S is_class o selfs : setup_ok S -> NoDup (map c_id selfs) ->
  (is_class = true -> class_ok S (map c_pts selfs)) ->
  forall s, In s selfs -> Forall (fun k => 0 <= k < zlen (c_pts s)) (class_junctions S is_class o selfs (c_id s)).
Proof.
  intros HS Hnd Hc s Hin. unfold class_junctions. destruct is_class; [|constructor]. cbn [andb]. destruct (o_planar_self o); [|constructor].
  destruct (Hc eq_refl) as [C1 C2 C3]. set (fc := map (fun s => (c_id s, c_pts s)) selfs).
  assert (Ep : class_points fc = concat (map c_pts selfs)).
  { unfold class_points, fc. clear. induction selfs as [|x l IH]; [reflexivity|]. cbn [map flat_map snd concat]. congruence. }
  apply Forall_forall. intros k Hk.
  destruct (C17_junctions_partial (w_geom (su_world S)) (lo_sort (w_lnr (su_world S))) fc C1) with (fid := c_id s) as [_ K].
  { unfold fc. rewrite map_map. exact Hnd. } { rewrite Ep. exact C2. } { rewrite Ep. exact C3. }
  apply K in Hk. destruct Hk as (p & (pts & Hp & Hq) & _).
  unfold fc in Hp. apply in_map_iff in Hp. destruct Hp as (s' & Es & Hs'). injection Es as E1 E2.
  assert (s' = s).
  { clear -Hnd Hin Hs' E1. induction selfs as [|x l IH]; [destruct Hin|]. cbn [map] in Hnd. inversion Hnd as [|? ? N1 N2]; subst.
    destruct Hin as [<- |Hin], Hs' as [<- |Hs']; auto.
    - destruct N1. rewrite <- E1. apply in_map, Hs'.
    - destruct N1. rewrite E1. apply in_map, Hin. }
  subst s'. subst pts.
  unfold znth in Hq. destruct (k <? 0) eqn:Ek; [discriminate|]. apply Z.ltb_ge in Ek.
  assert (nth_error (c_pts s) (Z.to_nat k) <> None) as Hne by congruence. apply nth_error_Some in Hne. unfold zlen. lia.
Qed.

Lemma capacity_points env selfs : (forall s, In s selfs -> env (c_id s) = s) -> (forall s, In s selfs -> (2 <= length (c_pts s))%nat) ->
  (Z.to_nat (capacity (lines_of env) (map c_id selfs)) <= length (concat (map c_pts selfs)))%nat
  /\ 0 <= capacity (lines_of env) (map c_id selfs).
Proof.
  intros Henv H2.
  assert (K : forall l, incl l selfs -> (Z.to_nat (capacity (lines_of env) (map c_id l)) <= length (concat (map c_pts l)))%nat
     /\ 0 <= capacity (lines_of env) (map c_id l)).
  { induction l as [|x l IH]; intros Hsub; [cbn; lia|]. unfold capacity. cbn [map fold_right concat].
    rewrite app_length. destruct (IH (fun y Hy => Hsub y (or_intror Hy))) as [I1 I2]. unfold capacity in I1, I2.
    unfold lines_of at 1 3. rewrite (Henv x) by (apply Hsub; left; auto).
    assert (Hx : In x selfs) by (apply Hsub; left; auto). specialize (H2 x Hx).
    set (q := fold_right _ _ _) in *. change (zlen (c_pts x)) with (Z.of_nat (length (c_pts x))). lia. }
  apply K, incl_refl.
Qed.

Lemma outcomes S is_class o selfs : setup_ok S -> NoDup (map c_id selfs) ->
  (forall s, In s selfs -> line_ok (w_geom (su_world S)) s /\ exists constraints, built_from (su_world S) s constraints) ->
  (is_class = true -> class_ok S (map c_pts selfs)) ->
  (2 * length (concat (map c_pts selfs)) + 2 <= su_fuel S)%nat ->
  exists done, (match selfs with
             | [] => Ok []
             | d :: _ =>
               if is_class
               then simplify_feature_class (su_world S) (su_gens S) (su_ords S) (su_ord S)
                      (env_of d selfs) selfs o (su_fuel S)
               else simplify_instances (su_world S) (su_gens S) (su_ords S) (fun _ => []) (su_fuel S) selfs
             end) = Ok done /\ map fst done = selfs /\
    forall s hs, In (s, hs) done -> outcome S is_class o selfs s hs.
Proof.
  intros HS Hnd Hl Hc Hf. pose proof HS as [HW Hids Hgens Hfresh Hords Hord].
  destruct selfs as [|d r] eqn:Es.
  { exists []. split; [reflexivity|]. split; [reflexivity|]. intros s hs []. }
  rewrite <- Es in *. clear Es r.
  pose proof (junctions_in_range S is_class o selfs HS Hnd Hc) as Hj.
  assert (Hfuel : forall s, In s selfs -> (2 * length (c_pts s) - 3 < su_fuel S)%nat).
  { intros s Hin. pose proof (length_concat_in (map c_pts selfs) (c_pts s) (in_map _ _ _ Hin)). lia. }
  set (J := class_junctions S is_class o selfs) in *.
  (* one line *)
  assert (Hone : forall s h0 n, In s selfs ->
    simplify (line_world S (c_id s)) (su_ords S (c_id s)) s (J (c_id s)) (su_fuel S) 0 = Ok (h0, n) ->
    tiling 0 (zlen (c_pts s) - 1) (map n_rng h0) /\
    Forall (fresh_hull (w_geom (su_world S)) (c_pts s) (c_id s)) h0 /\
    forall h, In h h0 -> big h -> valid_in (su_world S) s h).
  { intros s h0 n Hin E. destruct (Hl s Hin) as [Kl [cs Kb]].
    pose proof (one_setting (line_world S (c_id s)) s cs (fun _ => True) (world_i_ok S (c_id s) HS) Kl Kb (fun _ => I)) as St.
    destruct (simplify_spec (line_world S (c_id s)) s _ (su_ords S (c_id s)) (Hords (c_id s)) St (lk_two _ _ Kl) (lk_splits _ _ Kl)
      (J (c_id s)) (su_fuel S) 0 (Hj s Hin) (Hfuel s Hin)) as (h1 & c1 & E1 & Hi & Hval & _).
    rewrite E in E1. injection E1 as <- <-.
    split; [exact (line_tiles _ _ _ _ _ Hi)|]. split; [|exact Hval].
    apply Forall_forall. intros h Hh. pose proof (bi_proper _ _ _ _ _ _ Hi) as K. rewrite Forall_forall in K. specialize (K h Hh).
    unfold proper, lines_of in K. destruct (inv_member _ _ _ _ _ _ _ Hi Hh) as [Ei|[]]. rewrite <- Ei in K. exact K. }
  destruct is_class.
  - destruct (class_spec (su_world S) (su_gens S) (su_ords S) (su_ord S) (env_of d selfs) selfs HW Hords Hord Hnd
      (fun s H => env_of_spec d selfs s Hnd H) Hl Hgens Hfresh o (su_fuel S)) as (out & done & E & Ed & F & G & V).
    { exact Hj. } { exact Hfuel. }
    { destruct (capacity_points (env_of d selfs) selfs (fun s H => env_of_spec d selfs s Hnd H)) as [K _]; [|lia].
      intros s Hin. apply (lk_two _ _ (proj1 (Hl s Hin))). }
    destruct (instances_spec (su_world S) (su_gens S) (su_ords S) selfs HW Hords Hl Hgens J (su_fuel S) selfs (incl_refl _) Hj Hfuel)
      as (done' & Ed' & Fi).
    change (simplify_instances (su_world S) (su_gens S) (su_ords S) J (su_fuel S) selfs = Ok done) in Ed.
    rewrite Ed' in Ed. injection Ed as ->.
    exists out. split; [exact E|]. split.
    + clear - F. induction F as [|s r l l' (K & _) F IH]; cbn [map]; [reflexivity|]. rewrite K, IH. reflexivity.
    + intros s hs Hin.
      destruct (forall2_in_r _ _ _ F _ Hin) as (s' & Hs' & K1 & K2 & K3 & K4). cbn [fst snd] in *. subst s'.
      destruct (forall2_in_r _ _ _ G _ Hin) as ([s' h0] & Hd & K5 & K6 & K9). cbn [fst snd] in K5, K6, K9. subst s'.
      destruct (forall2_in_r _ _ _ Fi _ Hd) as (s' & _ & K7 & _ & n & K8). cbn [fst snd] in K7, K8. subst s'.
      split.
      * exists h0, n. split; [exact K8|]. split; [exact K6|]. split; [|exact K9]. cbn [andb]. intros Hun.
        unfold simplify_feature_class in E. 
        change (bind (simplify_instances (su_world S) (su_gens S) (su_ords S) J (su_fuel S) selfs)
          (fun done => if constrained o then bind (class_phase (su_world S) (env_of d selfs) (su_ord S) (flat_map snd done) (su_fuel S) 0)
             (fun '(hs, _) => Ok (map (fun s => (s, group_hulls hs (c_id s))) selfs)) else Ok done) = Ok out) in E.
        rewrite Ed' in E. cbn [bind] in E. rewrite Hun in E. injection E as <-.
        (* the same line appears once *)
        assert (Hm : map fst done = selfs).
        { clear - Fi. induction Fi as [|x r l l' (K & _) F IH]; cbn [map]; [reflexivity|]. rewrite K, IH. reflexivity. }
        rewrite <- Hm in Hnd. clear -Hnd Hin Hd. induction done as [|[x y] l IH]; [destruct Hin|].
        cbn [map fst] in Hnd. inversion Hnd as [|? ? N1 N2]; subst.
        assert (Hx : forall q, In (s, q) l -> In (c_id s) (map c_id (map fst l))).
        { intros q Hq. apply in_map. apply (in_map fst) in Hq. exact Hq. }
        destruct Hin as [Hin|Hin], Hd as [Hd|Hd].
        -- congruence.
        -- injection Hin as -> ->. destruct N1. eapply Hx, Hd.
        -- injection Hd as -> ->. destruct N1. eapply Hx, Hin.
        -- auto.
      * exact K4.
      * exact K2.
      * cbn [andb]. intros [Hco|Hco]; [|discriminate]. intros h Hh Hb. apply (V Hco s hs h Hin Hh Hb).
  - destruct (instances_spec (su_world S) (su_gens S) (su_ords S) selfs HW Hords Hl Hgens J (su_fuel S) selfs (incl_refl _) Hj Hfuel)
      as (done & Ed & Fi).
    exists done. split; [exact Ed|]. split.
    + clear - Fi. induction Fi as [|x r l l' (K & _) F IH]; cbn [map]; [reflexivity|]. rewrite K, IH. reflexivity.
    + intros s hs Hin. destruct (forall2_in_r _ _ _ Fi _ Hin) as (s' & Hs & K7 & _ & n & K8). cbn [fst snd] in K7, K8. subst s'.
      destruct (Hone s hs n Hs K8) as (A & B & C). split; auto.
      exists hs, n. split; [exact K8|]. split; auto.
Qed.

(** ** Whole runs *)

Lemma forall2_weaken {A B} (R R' : A -> B -> Prop) l m : (forall a b, R a b -> R' a b) -> Forall2 R l m -> Forall2 R' l m.
Proof. intros H. induction 1; constructor; auto. Qed.

Lemma set_simple_outcome (Q : cdp -> list node -> Prop) plns selfs (R : polyline -> cdp -> Prop) :
  Forall2 R plns selfs -> (forall p s, R p s -> c_pts s = pl_pts p) ->
  Forall (fun p => (2 <= length (pl_pts p))%nat) plns -> forall done, map fst done = selfs ->
  (forall s hs, In (s, hs) done -> Q s hs) ->
  exists qs, set_simple plns done = Ok qs /\
    Forall2 (fun p q => pl_id q = pl_id p /\ pl_meta q = pl_meta p /\ pl_pts q = pl_pts p /\
      exists s hs, R p s /\ In s selfs /\ Q s hs /\ pl_simple q = simple_set hs) plns qs.
Proof.
  intros H HR. induction H as [|p s plns selfs Hp H IH]; intros Hl done Em Hd.
  - exists []. split; [reflexivity|constructor].
  - destruct done as [|[s' hs] done]; [discriminate|]. cbn [map fst] in Em. injection Em as -> Em.
    inversion Hl; subst. cbn [set_simple].
    destruct (Z.ltb_spec (zlen (pl_pts p)) 2) as [K|K]; [unfold zlen in K; lia|].
    destruct (IH ltac:(assumption) done eq_refl) as (qs & -> & Hf).
    { intros x hx Hx. apply Hd. right. exact Hx. }
    cbn [bind]. eexists. split; [reflexivity|]. constructor.
    + cbn [pl_id pl_meta pl_pts pl_simple]. repeat split; auto. exists s, hs. split; [exact Hp|]. split; [left; reflexivity|].
      split; [apply Hd; left; reflexivity|reflexivity].
    + eapply forall2_weaken; [|exact Hf]. intros a b (A & B & C & x & y & D1 & D2 & D3 & D4). repeat split; auto.
      exists x, y. split; [exact D1|]. split; [right; exact D2|]. split; auto.
Qed.

Definition made (S : setup) (o : opts) (score : scorefn) (gs : list geometry) (s : cdp) : Prop :=
  c_opts s = o /\ c_score s = score /\ c_sq s = None /\ built_from (su_world S) s gs.

Lemma run_outcome {P} (lib : jsonlib P) S is_class o score input cinput fs gs :
  run_input lib S is_class o score input cinput fs gs ->
  exists selfs, map c_pts selfs = map (map (jl_point lib)) (flat_map feature_parts fs) /\ NoDup (map c_id selfs) /\
    (forall s, In s selfs -> made S o score gs s /\ line_ok (w_geom (su_world S)) s) /\
    writes lib S is_class o score input cinput fs (fun pts k =>
      exists s hs, In s selfs /\ c_pts s = pts /\ outcome S is_class o selfs s hs /\ k = simple_set hs).
Proof.
  intros [HJ HS Hi1 (toks & docs & Hi2 & Hr & H1) Hn Hp Hc1 (ctoks & cdocs & Hc2 & Hcr & Hcg & Hgs) Hg Hl Hc Hf].
  assert (Hn' : few fs) by (unfold few, max_int; lia).
  assert (Hp' : Forall (fun f => few (feature_parts f)) fs).
  { eapply Forall_impl; [|exact Hp]. intros f Hff. cbv beta in Hff. unfold few, max_int. lia. }
  assert (Hfeat : flat_map doc_features docs = fs).
  { clear -H1. induction H1 as [|d f docs fs [H _] H1 IH]; [reflexivity|].
    cbn [flat_map]. rewrite IH. destruct H as [-> |(g & -> & ->)]; reflexivity. }
  assert (Hgeo : Forall has_geometry (flat_map doc_features docs)).
  { rewrite Hfeat. apply Forall_forall. intros f Hin.
    destruct (forall2_in_r _ _ _ H1 f Hin) as (d & _ & _ & Hne). unfold has_geometry. intros K. apply Hne.
    unfold feature_parts. rewrite K. reflexivity. }
  set (plns := polylines_from lib 0 docs).
  set (lines := map (map (jl_point lib)) (flat_map feature_parts fs)) in *.
  assert (Elines : map pl_pts plns = lines).
  { unfold plns, lines. rewrite polylines_pts, Hfeat. reflexivity. }
  pose proof HS as [HW Hids Hgens Hfresh Hords Hord].
  destruct (forest_spec (su_world S) (su_ids S) gs o score (lb_rtree _ HW) Hg plns 0) as (selfs & E & Hs & Hi).
  exists selfs.
  assert (Epts : map c_pts selfs = lines).
  { rewrite <- Elines. clear -Hs. induction Hs as [|p s plns selfs (H & _) Hs IH]; [reflexivity|]. cbn [map]. rewrite H, IH. reflexivity. }
  assert (Hnd : NoDup (map c_id selfs)).
  { rewrite Hi. apply FinFun.Injective_map_NoDup; [exact Hids|apply seq_NoDup]. }
  assert (Hmade : forall s, In s selfs -> made S o score gs s /\ line_ok (w_geom (su_world S)) s).
  { intros s Hin. destruct (forall2_in_r _ _ _ Hs s Hin) as (p & Hpl & A & B & C & D & F).
    split; [unfold made; auto|]. rewrite Forall_forall in Hl.
    apply (line_ok_ext _ (proto o score (pl_pts p))); auto. apply Hl. rewrite <- Elines. apply in_map, Hpl. }
  split; [exact Epts|]. split; [exact Hnd|]. split; [exact Hmade|].
  destruct (outcomes S is_class o selfs HS Hnd) as (done & Ed & Em & Ho).
  { intros s Hin. destruct (Hmade s Hin) as [(_ & _ & _ & B) A]. eauto. }
  { rewrite Epts. exact Hc. } { rewrite Epts. exact Hf. }
  destruct (set_simple_outcome (outcome S is_class o selfs) plns selfs (fun p s => c_pts s = pl_pts p)) with (done := done)
    as (qs & Eq & Hq); auto.
  { clear -Hs. induction Hs as [|p s plns selfs (H & _)]; constructor; auto. }
  { apply Forall_forall. intros p Hin. rewrite Forall_forall in Hl.
    apply (lk_two _ (proto o score (pl_pts p))  (Hl (pl_pts p) ltac:(rewrite <- Elines; apply in_map, Hin))). }
  assert (Hkept : forall s hs, In s selfs -> outcome S is_class o selfs s hs -> kept_ok (zlen (c_pts s)) (simple_set hs)).
  { intros s hs Hin [_ Ht _ _]. apply (point_set_tiling hs (c_pts s)); [|exact Ht]. apply (lk_two _ _ (proj2 (Hmade s Hin))). }
  assert (Hq2 : Forall2 (fun p q => pl_id q = pl_id p /\ pl_meta q = pl_meta p /\ pl_pts q = pl_pts p /\
      kept_ok (zlen (pl_pts q)) (pl_simple q)) plns qs).
  { eapply forall2_weaken; [|exact Hq]. intros p q (A & B & C & s & hs & D1 & D2 & D3 & D4). split; [exact A|]. split; [exact B|]. split; [exact C|].
    rewrite C, <- D1, D4. apply (Hkept s hs D2 D3). }
  assert (Hni : NoDup (map pl_id plns)) by (apply (polylines_nodup lib docs fs); auto).
  destruct (group_spec lib (simple_of qs) docs fs HJ H1 Hn' Hp') as (outs & Eo & Elen & Hout).
  exists outs. split; [|split].
  - unfold run. rewrite (tokens_of input toks Hi1 Hi2), (tokens_of cinput ctoks Hc1 Hc2).
    rewrite (parse_constraints_spec lib ctoks cdocs Hcr Hcg), Hgs.
    unfold parse_input. rewrite (parse_from_spec lib toks docs Hr 0 Hgeo). cbn [bind]. fold plns. rewrite E. cbn [bind].
    rewrite Ed. cbn [bind]. rewrite Eq. cbn [bind]. rewrite <- (simple_of_map plns qs Hni Hq2). exact Eo.
  - rewrite Elen. clear -H1. induction H1; cbn [length]; congruence.
  - intros i f Hif. destruct (Hout i f Hif) as (ot & A & B & C). eexists ot, _.
    split; [exact A|]. split; [exact B|]. split; [|exact C].
    assert (Hqi : map pl_id qs = map pl_id plns).
    { clear -Hq. induction Hq as [|p q plns qs (E & _) H IH]; [reflexivity|]. cbn [map]. congruence. }
    pose proof (numbered_snd (feature_parts f)) as Hsnd. rewrite <- Hsnd at 1.
    match goal with |- Forall2 ?R _ _ => assert (K : forall l, incl l (numbered (feature_parts f)) ->
      Forall2 R (map snd l)
        (map (fun pc => pick origin (map (jl_point lib) (snd pc)) (simple_of qs (compose_id (Z.of_nat i) (fst pc)))) l)) end.
    { induction l as [|pc l IH]; intros Hin; [constructor|]. cbn [map]. constructor.
      - pose proof (polyline_in lib docs fs H1 0 i f pc Hif (Hin pc (or_introl eq_refl))) as Hpl. rewrite Z.add_0_l in Hpl.
        destruct (forall2_in_l _ _ _ Hq _ Hpl) as (q & Hqq & E1 & _ & E3 & s & hs & D1 & D2 & D3 & D4).
        cbn [mk_polyline pl_id pl_pts] in E1, E3, D1.
        exists (simple_set hs). rewrite <- D1. split; [apply Hkept; assumption|]. split.
        + exists s, hs. split; auto.
        + rewrite <- E1. rewrite simple_of_in; [rewrite D4; reflexivity| |exact Hqq]. rewrite Hqi. exact Hni.
      - apply IH. intros x Hx. apply Hin. right. exact Hx. }
    apply K. apply incl_refl.
Qed.

Lemma writes_impl {P} (lib : jsonlib P) S is_class o score input cinput fs (R R' : list point -> list Z -> Prop) :
  (forall pts k, In pts (map (map (jl_point lib)) (flat_map feature_parts fs)) -> R pts k -> R' pts k) ->
  writes lib S is_class o score input cinput fs R -> writes lib S is_class o score input cinput fs R'.
Proof.
  intros H (outs & E & El & Ho). exists outs. split; [exact E|]. split; [exact El|].
  intros i f Hif. destruct (Ho i f Hif) as (ot & kept & A & B & C & D). exists ot, kept. repeat split; auto.
  assert (Hin : forall c, In c (feature_parts f) -> In (map (jl_point lib) c) (map (map (jl_point lib)) (flat_map feature_parts fs))).
  { intros c Hc. apply in_map. apply in_flat_map. exists f. split; [eapply nth_error_In; exact Hif|exact Hc]. }
  clear -C Hin H. induction C as [|c k cs ks (s & Hk & Hr & Ek) C IH]; constructor.
  - exists s. split; [exact Hk|]. split; [|exact Ek]. apply H; [apply Hin; left; auto|exact Hr].
  - apply IH. intros x Hx. apply Hin. right; auto.
Qed.

(** ** Lines of a run, wherever they come from *)

Record in_run (S : setup) (is_class : bool) (o : opts) (score : scorefn) (gs : list geometry)
    (lines : list (list point)) (selfs : list cdp) : Prop := {
  ir_setup : setup_ok S;
  ir_lines : map c_pts selfs = lines;
  ir_nodup : NoDup (map c_id selfs);
  ir_made : forall s, In s selfs -> made S o score gs s /\ line_ok (w_geom (su_world S)) s;
  ir_class : is_class = true -> class_ok S lines;
  ir_fuel : (2 * length (concat lines) + 2 <= su_fuel S)%nat
}.
Definition result_of (S : setup) (is_class : bool) (o : opts) (selfs : list cdp) (pts : list point) (k : list Z) : Prop :=
  exists s hs, In s selfs /\ c_pts s = pts /\ outcome S is_class o selfs s hs /\ k = simple_set hs.

Lemma input_in_run {P} (lib : jsonlib P) S is_class o score input cinput fs gs :
  run_input lib S is_class o score input cinput fs gs ->
  exists selfs, in_run S is_class o score gs (map (map (jl_point lib)) (flat_map feature_parts fs)) selfs /\
    writes lib S is_class o score input cinput fs (result_of S is_class o selfs).
Proof.
  intros H. destruct (run_outcome lib S is_class o score input cinput fs gs H) as (selfs & Ep & Hnd & Hm & Hw).
  exists selfs. split; [|exact Hw]. destruct H. split; assumption.
Qed.
