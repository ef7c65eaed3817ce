(** From the text of the input to the features written. *)
From Coq Require Import Ascii String.
From Verif Require Import M_Base M_Float M_Rng M_Geom M_Offset M_Node M_Decompose M_Hdb M_Lnr M_Relate M_Constrain M_ConstDP M_Text M_IO
  Spec Spec_Hdb Spec_Lnr Spec_ConstDP Spec_Text Spec_IO Spec_Run
  P_Base P_Hdb P_HdbIns P_Db P_Lnr P_Text P_IO Properties_ConstDP.
Open Scope Z_scope.

Lemma lines_kept_fun ls ts : lines_kept ls ts -> ts = keep ls.
Proof.
  induction 1 as [|l ls ts Hb H IH|l ls t ts Hb Ht H IH]; [reflexivity| |];
    unfold keep in *; cbn [map filter].
  - rewrite (trim_blank l Hb). exact IH.
  - rewrite (trimmed_unique l t Ht). destruct t as [|c t]; cbn [nonempty].
    + destruct Hb. apply trim_nil. apply trimmed_unique. exact Ht.
    + rewrite <- IH. reflexivity.
Qed.
Lemma tokens_of ls ts : Forall (fun l => ~ In newline l) ls -> lines_kept ls ts ->
  read_json_tokens (unlines ls) = ts.
Proof.
  intros Hn H. destruct ls as [|l ls].
  - inversion H; subst. reflexivity.
  - rewrite (lines_kept_fun _ _ H), (lines_kept_fun _ _ (read_json_lines (l :: ls) ltac:(discriminate) Hn)).
    reflexivity.
Qed.

Lemma line_ok_ext L a b : c_pts a = c_pts b -> c_opts a = c_opts b -> c_score a = c_score b -> c_sq a = c_sq b ->
  line_ok L a -> line_ok L b.
Proof.
  intros E1 E2 E3 E4 [A B C D]. rewrite E1, E2, E3, E4 in *. split; assumption.
Qed.

Lemma all_geoms_some gs : all_geoms (map Some gs) = Ok gs.
Proof. induction gs as [|g gs IH]; [reflexivity|]. cbn [map all_geoms]. rewrite IH. reflexivity. Qed.

Lemma forest_spec W ids gs o score : oracle_ok (w_hdb W) ->
  Forall (fun g => good_bounds (gl_bounds (w_geom W) g)) gs ->
  forall plns k, exists selfs, forest W ids k plns (map Some gs) o score = Ok selfs /\
    Forall2 (fun p s => c_pts s = pl_pts p /\ c_opts s = o /\ c_score s = score /\ c_sq s = None /\ built_from W s gs) plns selfs /\
    map c_id selfs = map ids (seq k (length plns)).
Proof.
  intros Ho Hg. induction plns as [|p plns IH]; intros k.
  - exists []. cbn. repeat split; constructor.
  - cbn [forest]. rewrite all_geoms_some. cbn [bind].
    destruct (holds_load (w_hdb W) new_hdb_default [] (map (context_node (w_geom W) (ids k)) gs) Ho holds_new) as (t & Et & Ht).
    { apply Forall_map. exact Hg. }
    unfold new_const_dp, build_context_db. rewrite Et. cbn [bind].
    destruct (IH (S k)) as (selfs & -> & Hf & Hi). cbn [bind].
    eexists. split; [reflexivity|]. split.
    + constructor; [|exact Hf]. cbn [c_pts c_opts c_score c_sq]. repeat split; auto.
    + cbn [map c_id length seq]. f_equal. exact Hi.
Qed.

Lemma env_of_spec d selfs s : NoDup (map c_id selfs) -> In s selfs -> env_of d selfs (c_id s) = s.
Proof.
  intros Hn Hs. unfold env_of. induction selfs as [|x selfs IH]; [destruct Hs|].
  cbn [find]. cbn [map] in Hn. inversion Hn as [|? ? Hx Hr]; subst.
  destruct (Z.eqb_spec (c_id x) (c_id s)) as [E|E].
  - destruct Hs as [-> |Hs]; [reflexivity|]. destruct Hx. rewrite E. apply in_map. exact Hs.
  - destruct Hs as [-> |Hs]; [congruence|]. apply IH; assumption.
Qed.

Lemma instances_kept W gens ords fuel selfs :
  libs_ok W -> (forall i, any_order (ords i)) -> (forall i j k, gens i j = gens i k -> j = k) ->
  (forall s, In s selfs -> line_ok (w_geom W) s /\ exists constraints, built_from W s constraints) ->
  (forall s, In s selfs -> (2 * length (c_pts s) - 3 < fuel)%nat) ->
  exists done, simplify_instances W gens ords (fun _ => []) fuel selfs = Ok done /\ map fst done = selfs /\
    forall s hs, In (s, hs) done -> kept_ok (zlen (c_pts s)) (simple_set hs).
Proof.
  intros HW Ho Hg. induction selfs as [|s selfs IH]; intros Hl Hf.
  - exists []. split; [reflexivity|]. split; [reflexivity|]. intros s hs [].
  - cbn [simplify_instances].
    destruct (Hl s (or_introl eq_refl)) as [Kl [cs Kb]].
    destruct (C26_simplify_keeps_a_subset (World (w_geom W) (gens (c_id s)) (w_hdb W) (w_pop W) (w_lnr W)) (ords (c_id s)) s cs [] fuel 0)
      as (hs & ctr & E & _ & _ & A & B & C & D & _).
    + destruct HW as [w1 w2 w3 w4]. split; auto. cbn. apply Hg.
    + apply Ho.
    + exact Kl.
    + exact Kb.
    + constructor.
    + apply Hf. left. reflexivity.
    + rewrite E. cbn [bind]. destruct IH as (done & -> & Em & Hd).
      { intros x Hx. apply Hl. right. exact Hx. } { intros x Hx. apply Hf. right. exact Hx. }
      cbn [bind]. exists ((s, hs) :: done). split; [reflexivity|]. split; [cbn [map fst]; congruence|].
      intros s' hs' [Es|Hin]; [|apply Hd; exact Hin]. injection Es as <- <-. split; auto.
Qed.

Lemma set_simple_spec plns selfs : Forall2 (fun p s => c_pts s = pl_pts p) plns selfs ->
  Forall (fun p => (2 <= length (pl_pts p))%nat) plns -> forall done, map fst done = selfs ->
  (forall s hs, In (s, hs) done -> kept_ok (zlen (c_pts s)) (simple_set hs)) ->
  exists plns', set_simple plns done = Ok plns' /\
    Forall2 (fun p q => pl_id q = pl_id p /\ pl_meta q = pl_meta p /\ pl_pts q = pl_pts p /\
      kept_ok (zlen (pl_pts q)) (pl_simple q)) plns plns'.
Proof.
  induction 1 as [|p s plns selfs Hp H IH]; intros Hl done Em Hd.
  - exists []. split; [reflexivity|constructor].
  - destruct done as [|[s' hs] done]; [discriminate|]. cbn [map fst] in Em. injection Em as -> Em.
    inversion Hl; subst. cbn [set_simple].
    destruct (Z.ltb_spec (zlen (pl_pts p)) 2) as [K|K]; [unfold zlen in K; lia|].
    destruct (IH ltac:(assumption) done eq_refl) as (plns' & -> & Hf).
    { intros x hx Hx. apply Hd. right. exact Hx. }
    cbn [bind]. eexists. split; [reflexivity|]. constructor; [|exact Hf].
    cbn [pl_id pl_meta pl_pts pl_simple]. repeat split; auto;
      specialize (Hd s hs (or_introl eq_refl)); rewrite Hp in Hd; apply Hd.
Qed.

(** Ids of the polylines of a file are distinct. *)
Section Ids.
  Context {P : Type} (lib : jsonlib P).

  Lemma entries_keys plns : forall es, entries plns = Ok es -> NoDup (map fst es) -> NoDup (map pl_id plns).
  Proof.
    intros es H. unfold entries in H.
    assert (K : map snd es = plns /\ forall e, In e es -> index_pos (pl_id (snd e)) = Ok (fst e)).
    { revert es H. induction plns as [|p plns IH]; intros es H; cbn [mapM] in H.
      - injection H as <-. split; [reflexivity|intros e []].
      - destruct (index_pos (pl_id p)) as [ip| |] eqn:E; cbn [bind] in H; try discriminate.
        destruct (mapM _ plns) as [es'| |]; cbn [bind] in H; try discriminate. injection H as <-.
        destruct (IH es' eq_refl) as [A B]. cbn [map snd]. split; [congruence|].
        intros e [<- |He]; auto. }
    destruct K as [<- K]. clear H. induction es as [|e es IH]; intros Hn; [constructor|].
    cbn [map] in Hn |- *. inversion Hn as [|? ? He Hr]; subst. constructor.
    - intros Hin. apply in_map_iff in Hin as (p & Ep & Hp). apply in_map_iff in Hp as (e' & <- & He').
      apply He. apply in_map_iff. exists e'. split; [|exact He'].
      pose proof (K e (or_introl eq_refl)) as K1. pose proof (K e' (or_intror He')) as K2.
      rewrite Ep in K2. congruence.
    - apply IH; [|exact Hr]. intros e' He'. apply K. right. exact He'.
  Qed.

  Lemma incr_nodup l : increasing l -> NoDup l.
  Proof.
    unfold increasing. induction l as [|x l IH]; intros H; [constructor|].
    apply Sorted.StronglySorted_inv in H as [H Hf]. constructor; [|auto].
    rewrite Forall_forall in Hf. intros Hx. apply Hf in Hx. lia.
  Qed.
  Lemma nodup_app {A} (a b : list A) : NoDup a -> NoDup b -> (forall x, In x a -> ~ In x b) -> NoDup (a ++ b).
  Proof.
    induction a as [|x a IH]; intros Ha Hb Hab; [exact Hb|]. inversion Ha; subst. cbn [app]. constructor.
    - intros K. apply in_app_or in K as [K|K]; [auto|]. apply (Hab x); [left; reflexivity|exact K].
    - apply IH; auto. intros y Hy. apply Hab. right. exact Hy.
  Qed.

  Lemma entries_from_nodup simple fs : forall i, NoDup (map fst (entries_from lib simple i fs)).
  Proof.
    induction fs as [|f fs IH]; intros i; [constructor|].
    cbn [entries_from]. rewrite map_app. apply nodup_app; [|apply IH|].
    - apply (NoDup_map_inv snd). rewrite map_map.
      apply incr_nodup. exact (line_sorted lib simple i f).
    - intros [a b] H1 H2. apply in_map_iff in H1 as (e1 & E1 & H1). apply in_map_iff in H2 as (e2 & E2 & H2).
      apply line_index in H1. apply from_index in H2. unfold e_index in *. rewrite E1 in H1. rewrite E2 in H2. cbn in *. lia.
  Qed.

  Lemma with_simple_id simple plns : map pl_id (map (with_simple simple) plns) = map pl_id plns.
  Proof. rewrite map_map. reflexivity. Qed.

  Lemma polylines_nodup docs fs : Forall2 one_feature docs fs -> few fs ->
    Forall (fun f => few (feature_parts f)) fs -> NoDup (map pl_id (polylines_from lib 0 docs)).
  Proof.
    intros H Hf Hp. rewrite <- (with_simple_id (fun _ => [])).
    eapply entries_keys; [|apply (entries_from_nodup (fun _ => []) fs 0)].
    apply entries_from_spec; auto; unfold few in *; lia.
  Qed.

  (** The kept indices as a function of the id. *)
  Definition simple_of (qs : list polyline) (id : bytes) : list Z :=
    match find (fun q => bytes_eqb (pl_id q) id) qs with Some q => pl_simple q | None => [] end.

  Lemma simple_of_in qs q : NoDup (map pl_id qs) -> In q qs -> simple_of qs (pl_id q) = pl_simple q.
  Proof.
    intros Hn Hq. unfold simple_of. induction qs as [|x qs IH]; [destruct Hq|].
    cbn [find]. cbn [map] in Hn. inversion Hn as [|? ? Hx Hr]; subst.
    destruct (bytes_eqb (pl_id x) (pl_id q)) eqn:E.
    - apply bytes_eqb_spec in E. destruct Hq as [-> |Hq]; [reflexivity|].
      destruct Hx. rewrite E. apply in_map. exact Hq.
    - apply bytes_eqb_false in E. destruct Hq as [-> |Hq]; [congruence|]. apply IH; assumption.
  Qed.

  Lemma simple_of_map plns qs : NoDup (map pl_id plns) ->
    Forall2 (fun p q => pl_id q = pl_id p /\ pl_meta q = pl_meta p /\ pl_pts q = pl_pts p /\
      kept_ok (zlen (pl_pts q)) (pl_simple q)) plns qs ->
    map (with_simple (simple_of qs)) plns = qs.
  Proof.
    intros Hn H.
    assert (Ei : map pl_id qs = map pl_id plns).
    { clear Hn. induction H as [|p q plns qs (E & _) H IH]; [reflexivity|]. cbn [map]. congruence. }
    rewrite <- Ei in Hn. 
    assert (K : forall l m, Forall2 (fun p q => pl_id q = pl_id p /\ pl_meta q = pl_meta p /\ pl_pts q = pl_pts p /\
      kept_ok (zlen (pl_pts q)) (pl_simple q)) l m -> incl m qs -> map (with_simple (simple_of qs)) l = m).
    { induction 1 as [|p q l m (E1 & E2 & E3 & _) Hf IH]; intros Hin; [reflexivity|].
      cbn [map]. f_equal.
      - unfold with_simple. rewrite <- E1, <- E2, <- E3, simple_of_in; auto.
        + destruct q; reflexivity.
        + apply Hin. left. reflexivity.
      - apply IH. intros x Hx. apply Hin. right. exact Hx. }
    apply K; [exact H|apply incl_refl].
  Qed.

  Lemma polyline_in docs fs : Forall2 one_feature docs fs -> forall i n f pc,
    nth_error fs n = Some f -> In pc (numbered (feature_parts f)) ->
    In (mk_polyline lib (compose_id (i + Z.of_nat n) (fst pc)) (snd pc) (jl_marshal lib (jf_props f))) (polylines_from lib i docs).
  Proof.
    induction 1 as [|d g docs fs Hd H IH]; intros i n f pc Hn Hpc; [destruct n; discriminate|].
    cbn [polylines_from]. apply in_or_app. destruct n as [|n].
    - left. cbn in Hn. injection Hn as ->. rewrite (one_polylines lib d f) by exact Hd. rewrite Z.add_0_r.
      unfold feature_polylines. apply (in_map (fun pc => mk_polyline lib (compose_id i (fst pc)) (snd pc) (jl_marshal lib (jf_props f)))).
      exact Hpc.
    - right. replace (i + Z.of_nat (S n)) with (i + 1 + Z.of_nat n) by lia. apply IH; assumption.
  Qed.
End Ids.

Lemma forall2_in_r {A B} (R : A -> B -> Prop) l m : Forall2 R l m -> forall y, In y m -> exists x, In x l /\ R x y.
Proof.
  induction 1 as [|x y l m Hr H IH]; intros z Hz; [destruct Hz|].
  destruct Hz as [<- |Hz]; [exists x; split; [left; reflexivity|exact Hr]|].
  destruct (IH z Hz) as (x' & Hx & Hr'). exists x'. split; [right; exact Hx|exact Hr'].
Qed.
Lemma forall2_in_l {A B} (R : A -> B -> Prop) l m : Forall2 R l m -> forall x, In x l -> exists y, In y m /\ R x y.
Proof.
  induction 1 as [|x y l m Hr H IH]; intros z Hz; [destruct Hz|].
  destruct Hz as [<- |Hz]; [exists y; split; [left; reflexivity|exact Hr]|].
  destruct (IH z Hz) as (x' & Hx & Hr'). exists x'. split; [right; exact Hx|exact Hr'].
Qed.

Lemma class_points_selfs plns selfs : Forall2 (fun p s => c_pts s = pl_pts p) plns selfs ->
  class_points (map (fun s => (c_id s, c_pts s)) selfs) = concat (map pl_pts plns).
Proof.
  unfold class_points. induction 1 as [|p s plns selfs E H IH]; [reflexivity|].
  cbn [map flat_map snd concat]. rewrite E, IH. reflexivity.
Qed.
Lemma length_concat_in {A} (l : list (list A)) x : In x l -> (length x <= length (concat l))%nat.
Proof.
  induction l as [|y l IH]; intros H; [destruct H|]. cbn [concat]. rewrite app_length.
  destruct H as [-> |H]; [lia|]. apply IH in H. lia.
Qed.

(** Simplifying the polylines of a file, in either mode. *)
Lemma simplify_all S is_class o score gs plns : setup_ok S ->
  Forall (fun g => good_bounds (gl_bounds (w_geom (su_world S)) g)) gs ->
  Forall (fun p => line_ok (w_geom (su_world S)) (proto o score (pl_pts p))) plns ->
  (is_class = true -> class_ok S (map pl_pts plns)) ->
  (2 * length (concat (map pl_pts plns)) + 2 <= su_fuel S)%nat ->
  exists selfs, forest (su_world S) (su_ids S) 0 plns (map Some gs) o score = Ok selfs /\
  exists done, (match selfs with
             | [] => Ok []
             | d :: _ =>
               if is_class
               then simplify_feature_class (su_world S) (su_gens S) (su_ords S) (su_ord S)
                      (env_of d selfs) selfs o (su_fuel S)
               else simplify_instances (su_world S) (su_gens S) (su_ords S) (fun _ => []) (su_fuel S) selfs
             end) = Ok done /\
  exists qs, set_simple plns done = Ok qs /\
    Forall2 (fun p q => pl_id q = pl_id p /\ pl_meta q = pl_meta p /\ pl_pts q = pl_pts p /\
      kept_ok (zlen (pl_pts q)) (pl_simple q)) plns qs.
Proof.
  intros [HW Hids Hgens Hfresh Hords Hord] Hg Hl Hc Hf.
  destruct (forest_spec (su_world S) (su_ids S) gs o score (lb_rtree _ HW) Hg plns 0) as (selfs & E & Hs & Hi).
  exists selfs. split; [exact E|].
  assert (Hp : Forall2 (fun p s => c_pts s = pl_pts p) plns selfs).
  { clear -Hs. induction Hs as [|p s plns selfs (H & _)]; constructor; auto. }
  assert (Hlines : forall s, In s selfs -> line_ok (w_geom (su_world S)) s /\ exists constraints, built_from (su_world S) s constraints).
  { intros s Hin. destruct (forall2_in_r _ _ _ Hs s Hin) as (p & Hpl & A & B & C & D & F).
    split; [|exists gs; exact F]. rewrite Forall_forall in Hl.
    apply (line_ok_ext _ (proto o score (pl_pts p))); auto. }
  assert (Hnd : NoDup (map c_id selfs)).
  { rewrite Hi. apply FinFun.Injective_map_NoDup; [exact Hids|apply seq_NoDup]. }
  assert (Hfuel : forall s, In s selfs -> (2 * length (c_pts s) + 2 <= su_fuel S)%nat).
  { intros s Hin. destruct (forall2_in_r _ _ _ Hp s Hin) as (p & Hpl & A). rewrite A.
    pose proof (length_concat_in (map pl_pts plns) (pl_pts p) (in_map _ _ _ Hpl)). lia. }
  assert (K : exists done, (match selfs with
             | [] => Ok []
             | d :: _ =>
               if is_class
               then simplify_feature_class (su_world S) (su_gens S) (su_ords S) (su_ord S)
                      (env_of d selfs) selfs o (su_fuel S)
               else simplify_instances (su_world S) (su_gens S) (su_ords S) (fun _ => []) (su_fuel S) selfs
             end) = Ok done /\ map fst done = selfs /\
       forall s hs, In (s, hs) done -> kept_ok (zlen (c_pts s)) (simple_set hs)).
  { destruct selfs as [|d r] eqn:Es.
    - exists []. split; [reflexivity|]. split; [reflexivity|]. intros s hs [].
    - rewrite <- Es in *. clear Es r. destruct is_class.
      + destruct (Hc eq_refl) as [C1 C2 C3].
        destruct (C34_features_stay_separate (su_world S) (su_gens S) (su_ords S) (su_ord S) (env_of d selfs) selfs o (su_fuel S))
          as (out & Eo & Em & Ho); auto.
        * intros s Hin. apply env_of_spec; assumption.
        * rewrite (class_points_selfs _ _ Hp). exact C2.
        * rewrite (class_points_selfs _ _ Hp). exact C3.
        * rewrite (class_points_selfs _ _ Hp). exact Hf.
        * exists out. split; [exact Eo|]. split; [exact Em|].
          intros s hs Hin. destruct (Ho s hs Hin) as (_ & _ & A & B & C & D). split; auto.
      + apply instances_kept; auto.
        * intros i j k Ek. apply (Hgens i i j k Ek).
        * intros s Hin. specialize (Hfuel s Hin). lia. }
  destruct K as (done & Ed & Em & Hk). exists done. split; [exact Ed|].
  apply (set_simple_spec plns selfs Hp); auto.
  rewrite Forall_forall in *. intros p Hin. apply (lk_two _ _ (Hl p Hin)).
Qed.

(** Reading, simplifying and writing. *)
Lemma run_spec {P} (lib : jsonlib P) S is_class o score (inputs : list bytes) (docs : list (document P)) (fs : list (jfeat P)) gs :
  json_ok lib -> setup_ok S ->
  Forall2 (reads lib) inputs docs -> Forall2 one_feature docs fs ->
  few fs -> Forall (fun f => few (feature_parts f)) fs ->
  Forall (fun g => good_bounds (gl_bounds (w_geom (su_world S)) g)) gs ->
  let lines := map (map (jl_point lib)) (flat_map feature_parts fs) in
  Forall (fun pts => line_ok (w_geom (su_world S)) (proto o score pts)) lines ->
  (is_class = true -> class_ok S lines) ->
  (2 * length (concat lines) + 2 <= su_fuel S)%nat ->
  exists outs,
    (plns <- parse_input lib inputs ;;
     selfs <- forest (su_world S) (su_ids S) 0 plns (map Some gs) o score ;;
     done <- (match selfs with
             | [] => Ok []
             | d :: _ =>
               if is_class
               then simplify_feature_class (su_world S) (su_gens S) (su_ords S) (su_ord S)
                      (env_of d selfs) selfs o (su_fuel S)
               else simplify_instances (su_world S) (su_gens S) (su_ords S) (fun _ => []) (su_fuel S) selfs
             end) ;;
     plns <- set_simple plns done ;;
     group_plns lib plns) = Ok outs /\
    length outs = length inputs /\
    forall i f, nth_error fs i = Some f -> exists o kept, nth_error outs i = Some o /\
      of_props o = props_or_empty lib f /\
      Forall2 (fun c k => shortened (map (jl_point lib) c) k) (feature_parts f) kept /\
      written_parts (jl_zero lib) kept (of_geom o).
Proof.
  intros HJ HS Hr H1 Hn Hp Hg lines Hl Hc Hf.
  assert (Hfeat : flat_map doc_features docs = fs).
  { clear -H1. induction H1 as [|d f docs fs [H _] H1 IH]; [reflexivity|].
    cbn [flat_map]. rewrite IH. destruct H as [-> |(g & -> & ->)]; reflexivity. }
  assert (Hgeo : Forall has_geometry (flat_map doc_features docs)).
  { rewrite Hfeat. apply Forall_forall. intros f Hin.
    destruct (forall2_in_r _ _ _ H1 f Hin) as (d & _ & _ & Hne). unfold has_geometry. intros K. apply Hne.
    unfold feature_parts. rewrite K. reflexivity. }
  unfold parse_input. rewrite (parse_from_spec lib inputs docs Hr 0 Hgeo). cbn [bind].
  set (plns := polylines_from lib 0 docs) in *.
  assert (Elines : map pl_pts plns = lines).
  { unfold plns, lines. rewrite polylines_pts, Hfeat. reflexivity. }
  destruct (simplify_all S is_class o score gs plns HS Hg) as (selfs & -> & done & Ed & qs & Eq & Hq).
  { apply (proj1 (Forall_map pl_pts (fun pts => line_ok (w_geom (su_world S)) (proto o score pts)) plns)). rewrite Elines. exact Hl. }
  { rewrite Elines. exact Hc. }
  { rewrite Elines. exact Hf. }
  cbn [bind]. rewrite Ed. cbn [bind]. rewrite Eq. cbn [bind].
  assert (Hnd : NoDup (map pl_id plns)) by (apply (polylines_nodup lib docs fs); auto).
  rewrite <- (simple_of_map plns qs Hnd Hq).
  destruct (group_spec lib (simple_of qs) docs fs HJ H1 Hn Hp) as (outs & Eo & Elen & Ho).
  exists outs. split; [exact Eo|].
  assert (El : length docs = length inputs) by (clear -Hr; induction Hr; cbn [length]; congruence).
  split; [congruence|].
  intros i f Hif. destruct (Ho i f Hif) as (ot & A & B & C). eexists ot, _.
  split; [exact A|]. split; [exact B|]. split; [|exact C].
  assert (Hqi : map pl_id qs = map pl_id plns).
  { clear -Hq. induction Hq as [|p q plns qs (E & _) H IH]; [reflexivity|]. cbn [map]. congruence. }
  pose proof (numbered_snd (feature_parts f)) as Hsnd. rewrite <- Hsnd at 1.
  assert (K : forall l, incl l (numbered (feature_parts f)) ->
    Forall2 (fun c k => shortened (map (jl_point lib) c) k) (map snd l)
      (map (fun pc => pick origin (map (jl_point lib) (snd pc)) (simple_of qs (compose_id (Z.of_nat i) (fst pc)))) l)).
  { induction l as [|pc l IH]; intros Hin; [constructor|]. cbn [map]. constructor.
    - pose proof (polyline_in lib docs fs H1 0 i f pc Hif (Hin pc (or_introl eq_refl))) as Hpl. rewrite Z.add_0_l in Hpl.
      destruct (forall2_in_l _ _ _ Hq _ Hpl) as (q & Hqq & E1 & _ & E3 & Hk). cbn [mk_polyline pl_id pl_pts] in E1, E3.
      exists (pl_simple q). rewrite E3 in Hk. split; [exact Hk|].
      rewrite <- E1. rewrite simple_of_in; [reflexivity| |exact Hqq]. rewrite Hqi. exact Hnd.
    - apply IH. intros x Hx. apply Hin. right. exact Hx. }
  apply K. apply incl_refl.
Qed.
