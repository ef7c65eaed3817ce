(** Proofs about reading and writing GeoJSON. *)
From Coq Require Import Ascii String.
From Verif Require Import M_Base M_Float M_Rng M_Geom M_Node M_Lnr M_ConstDP M_Text M_IO Spec Spec_Text Spec_IO P_Base P_Text.
Open Scope Z_scope.

Lemma named_str s : named s = str s. Proof. reflexivity. Qed.
Lemma dec_eqb a s : (if list_eq_dec ascii_dec a (named s) then true else false) = bytes_eqb a (str s).
Proof.
  destruct (list_eq_dec ascii_dec a (named s)) as [E|E].
  - symmetry. apply bytes_eqb_spec. exact E.
  - symmetry. apply bytes_eqb_false. exact E.
Qed.
Lemma dec_if {A} a s (x y : A) :
  (if list_eq_dec ascii_dec a (named s) then x else y) = if bytes_eqb a (str s) then x else y.
Proof. rewrite <- dec_eqb. destruct (list_eq_dec ascii_dec a (named s)); reflexivity. Qed.

Lemma geometry_type_spec t : is_geometry_type t = true <-> In t geometry_types.
Proof.
  unfold is_geometry_type, geometry_types. cbn [map In]. rewrite !orb_true_iff, !bytes_eqb_spec.
  unfold TPoint, TLineString, TPolygon, TMultiPoint, TMultiLineString, TMultiPolygon.
  change named with str. intuition congruence.
Qed.
Lemma geometry_type_false t : is_geometry_type t = false <-> ~ In t geometry_types.
Proof. rewrite <- geometry_type_spec. destruct (is_geometry_type t); split; congruence. Qed.

Lemma mapM_map {A B} (f : A -> res B) (g : A -> B) l :
  (forall x, In x l -> f x = Ok (g x)) -> mapM f l = Ok (map g l).
Proof.
  induction l as [|x l IH]; intros H; [reflexivity|].
  cbn [mapM map]. rewrite H by (left; auto). cbn [bind].
  rewrite IH by (intros y Hy; apply H; right; auto). reflexivity.
Qed.
Lemma mapM_panic {A B} (f : A -> res B) l x :
  In x l -> f x = Panic -> (forall y, In y l -> f y <> NoFuel) -> mapM f l = Panic.
Proof.
  induction l as [|y l IH]; intros Hx Hp Hn; [destruct Hx|].
  cbn [mapM]. destruct (f y) as [b| |] eqn:E; cbn [bind]; [|reflexivity|].
  - destruct Hx as [-> |Hx]; [congruence|].
    rewrite IH by (auto; intros z Hz; apply Hn; right; auto). reflexivity.
  - destruct (Hn y); [left; reflexivity|exact E].
Qed.

Section Lib.
  Context {P : Type} (lib : jsonlib P).

  Lemma features_of_reads s d : reads lib s d -> features_of lib s = Ok (doc_features d).
  Proof.
    intros H. unfold features_of. destruct H as [t g Ht Hg Hd|f Ht Hd|fs Ht Hd|t Ht Hn Hf Hc]; rewrite Ht; cbn [check bind].
    - apply geometry_type_spec in Hg. rewrite Hg, Hd. reflexivity.
    - assert (E : is_geometry_type (named "Feature") = false) by reflexivity. rewrite E.
      assert (E2 : bytes_eqb (named "Feature") TFeature = true) by reflexivity. rewrite E2, Hd. reflexivity.
    - assert (E : is_geometry_type (named "FeatureCollection") = false) by reflexivity. rewrite E.
      assert (E2 : bytes_eqb (named "FeatureCollection") TFeature = false) by reflexivity. rewrite E2.
      assert (E3 : bytes_eqb (named "FeatureCollection") TFeatureCollection = true) by reflexivity. rewrite E3, Hd. reflexivity.
    - apply geometry_type_false in Hn. rewrite Hn.
      apply bytes_eqb_false in Hf, Hc. change TFeature with (named "Feature"). rewrite Hf.
      change TFeatureCollection with (named "FeatureCollection"). rewrite Hc. reflexivity.
  Qed.

  (** Polylines of a feature of line [idx]. *)
  Definition feature_polylines (idx : Z) (f : jfeat P) : list polyline :=
    map (fun pc => mk_polyline lib (compose_id idx (fst pc)) (snd pc) (jl_marshal lib (jf_props f)))
      (numbered (feature_parts f)).

  Lemma create_polylines_spec idx f : has_geometry f ->
    create_polylines lib idx f = Ok (feature_polylines idx f).
  Proof.
    unfold has_geometry, create_polylines, feature_polylines, feature_parts.
    destruct (jf_geom f) as [g|]; [intros _|congruence].
    unfold linear_parts. rewrite !dec_if. unfold is_type, line_strings, is_type.
    change TLineString with (str "LineString"). change TMultiLineString with (str "MultiLineString").
    destruct (bytes_eqb (jg_type g) (str "LineString")); cbn [orb].
    - reflexivity.
    - destruct (bytes_eqb (jg_type g) (str "MultiLineString")); reflexivity.
  Qed.
  Lemma create_polylines_null idx f : ~ has_geometry f -> create_polylines lib idx f = Panic.
  Proof.
    unfold has_geometry, create_polylines. destruct (jf_geom f); [|reflexivity].
    intros H. destruct H. discriminate.
  Qed.

  Definition doc_polylines (idx : Z) (d : document P) : list polyline :=
    flat_map (feature_polylines idx) (doc_features d).
  Fixpoint polylines_from (idx : Z) (docs : list (document P)) : list polyline :=
    match docs with
    | [] => []
    | d :: r => doc_polylines idx d ++ polylines_from (idx + 1) r
    end.

  Lemma parse_from_spec inputs docs : Forall2 (reads lib) inputs docs -> forall idx,
    Forall has_geometry (flat_map doc_features docs) ->
    parse_from lib idx inputs = Ok (polylines_from idx docs).
  Proof.
    induction 1 as [|s d inputs docs Hr H IH]; intros idx Hg; [reflexivity|].
    cbn [parse_from polylines_from]. rewrite (features_of_reads _ _ Hr). cbn [bind].
    cbn [flat_map] in Hg. apply Forall_app in Hg as [Hd Hg].
    rewrite (mapM_map _ (feature_polylines idx)).
    2: { intros f Hf. apply create_polylines_spec. rewrite Forall_forall in Hd. auto. }
    cbn [bind]. rewrite IH by exact Hg. cbn [bind].
    unfold doc_polylines. rewrite flat_map_concat_map. reflexivity.
  Qed.

  Lemma parse_from_null inputs docs : Forall2 (reads lib) inputs docs -> forall idx,
    ~ Forall has_geometry (flat_map doc_features docs) -> parse_from lib idx inputs = Panic.
  Proof.
    assert (dec : forall f : jfeat P, {has_geometry f} + {~ has_geometry f}).
    { intros f. unfold has_geometry. destruct (jf_geom f); [left; congruence|right; intros K; apply K; reflexivity]. }
    induction 1 as [|s d inputs docs Hr H IH]; intros idx Hg.
    - destruct Hg. constructor.
    - cbn [parse_from]. rewrite (features_of_reads _ _ Hr). cbn [bind].
      destruct (Forall_dec _ dec (doc_features d)) as [Hd|Hd].
      + rewrite (mapM_map _ (feature_polylines idx)).
        2: { intros f Hf. apply create_polylines_spec. rewrite Forall_forall in Hd. auto. }
        cbn [bind]. rewrite IH; [reflexivity|]. intros K. apply Hg. cbn [flat_map]. apply Forall_app. auto.
      + apply neg_Forall_Exists_neg in Hd; [|exact dec]. apply Exists_exists in Hd as (f & Hf & Hn).
        rewrite (mapM_panic _ _ f Hf); [reflexivity|apply create_polylines_null; exact Hn|].
        intros f' _. unfold create_polylines. destruct (jf_geom f'); [|discriminate].
        destruct (is_type _ _ || is_type _ _); discriminate.
  Qed.

  Lemma numbered_snd {A} (l : list A) : map snd (numbered l) = l.
  Proof.
    unfold numbered. assert (K : length (zseq 0 (zlen l - 1)) = length l).
    { unfold zseq. rewrite map_length, seq_length. unfold zlen. lia. }
    revert K. generalize (zseq 0 (zlen l - 1)). induction l as [|x l IH]; intros [|z zs] K; try discriminate; [reflexivity|].
    cbn [combine map snd]. f_equal. apply IH. cbn in K. lia.
  Qed.
  Lemma numbered_in {A} (l : list A) k x : In (k, x) (numbered l) -> 0 <= k /\ nth_error l (Z.to_nat k) = Some x.
  Proof.
    intros H. unfold numbered in H.
    assert (K : forall (l' : list A) lo, (0 <= lo) -> In (k, x) (combine (zseq lo (lo + zlen l' - 1)) l') ->
              lo <= k /\ nth_error l' (Z.to_nat (k - lo)) = Some x).
    { induction l' as [|y l' IH]; intros lo Hlo Hin.
      - rewrite combine_nil in Hin. destruct Hin.
      - unfold zlen in *. cbn [length] in Hin. rewrite zseq_cons in Hin by lia. cbn [combine In] in Hin.
        destruct Hin as [E|Hin].
        + injection E as <- <-. split; [lia|]. rewrite Z.sub_diag. reflexivity.
        + replace (lo + Z.of_nat (S (length l')) - 1) with (lo + 1 + Z.of_nat (length l') - 1) in Hin by lia.
          apply IH in Hin; [|lia]. destruct Hin as [H1 H2]. split; [lia|].
          replace (Z.to_nat (k - lo)) with (S (Z.to_nat (k - (lo + 1)))) by lia. exact H2. }
    specialize (K l 0 ltac:(lia)). rewrite Z.add_0_l, Z.sub_0_r in K. apply K. exact H.
  Qed.

  Lemma feature_pts idx f : map pl_pts (feature_polylines idx f) = map (map (jl_point lib)) (feature_parts f).
  Proof.
    unfold feature_polylines. rewrite map_map. cbn [mk_polyline pl_pts].
    rewrite <- (numbered_snd (feature_parts f)) at 2. rewrite map_map. reflexivity.
  Qed.

  Lemma polylines_pts docs : forall idx, map pl_pts (polylines_from idx docs) =
    map (map (jl_point lib)) (flat_map feature_parts (flat_map doc_features docs)).
  Proof.
    induction docs as [|d docs IH]; intros idx; [reflexivity|].
    cbn [polylines_from flat_map]. rewrite map_app, IH, flat_map_app, map_app. f_equal.
    unfold doc_polylines. induction (doc_features d) as [|f fs IHf]; [reflexivity|].
    cbn [flat_map]. rewrite !map_app, IHf, feature_pts. reflexivity.
  Qed.

  Lemma polylines_ids docs : forall idx p, In p (polylines_from idx docs) ->
    exists i k d f c, nth_error docs i = Some d /\ In f (doc_features d) /\
      nth_error (feature_parts f) k = Some c /\
      pl_id p = compose_id (idx + Z.of_nat i) (Z.of_nat k) /\
      pl_meta p = jl_marshal lib (jf_props f) /\ pl_pts p = map (jl_point lib) c.
  Proof.
    induction docs as [|d docs IH]; intros idx p H; [destruct H|].
    cbn [polylines_from] in H. apply in_app_or in H as [H|H].
    - unfold doc_polylines in H. apply in_flat_map in H as (f & Hf & H).
      unfold feature_polylines in H. apply in_map_iff in H as ([k c] & <- & H).
      apply numbered_in in H as [Hk Hn].
      exists 0%nat, (Z.to_nat k), d, f, c. cbn [mk_polyline pl_id pl_meta pl_pts fst snd].
      rewrite Z2Nat.id, Z.add_0_r by lia. repeat split; auto.
    - apply IH in H as (i & k & d' & f & c & A & B & C & D & E).
      exists (S i), k, d', f, c. repeat split; try tauto.
      rewrite D. f_equal. lia.
  Qed.

  (** ** Constraints *)

  Lemma line_constraint_spec c :
    line_constraint lib c = match map (jl_point lib) c with p :: q :: r => Some (GLine (p :: q :: r)) | _ => None end.
  Proof.
    unfold line_constraint. destruct c as [|a [|b c]]; [reflexivity|reflexivity|].
    destruct (Z.ltb_spec (zlen (a :: b :: c)) 2) as [K|K]; [unfold zlen in K; cbn [length] in K; lia|].
    reflexivity.
  Qed.
  Lemma create_constraints_spec f : has_geometry f -> create_constraints lib f = Ok (constraint_parts lib f).
  Proof.
    unfold has_geometry, create_constraints, constraint_parts. destruct (jf_geom f) as [g|]; [intros _|congruence].
    f_equal. cbv zeta. rewrite !dec_eqb. unfold is_type.
    change TPoint with (str "Point"). change TMultiPoint with (str "MultiPoint").
    change TLineString with (str "LineString"). change TMultiLineString with (str "MultiLineString").
    change TPolygon with (str "Polygon"). change TMultiPolygon with (str "MultiPolygon").
    repeat match goal with |- (if ?b then _ else _) = _ => destruct b end; auto.
    - rewrite map_map. reflexivity.
    - rewrite line_constraint_spec. reflexivity.
    - apply map_ext. apply line_constraint_spec.
  Qed.
  Lemma parse_constraints_spec inputs docs : Forall2 (reads lib) inputs docs ->
    Forall has_geometry (flat_map doc_features docs) ->
    parse_constraints lib inputs = Ok (flat_map (constraint_parts lib) (flat_map doc_features docs)).
  Proof.
    induction 1 as [|s d inputs docs Hr H IH]; intros Hg; [reflexivity|].
    cbn [parse_constraints]. rewrite (features_of_reads _ _ Hr). cbn [bind].
    cbn [flat_map] in Hg. apply Forall_app in Hg as [Hd Hg].
    rewrite (mapM_map _ (constraint_parts lib)).
    2: { intros f Hf. apply create_constraints_spec. rewrite Forall_forall in Hd. auto. }
    cbn [bind]. rewrite IH by exact Hg. cbn [bind flat_map].
    rewrite flat_map_app, !(flat_map_concat_map (constraint_parts lib)). reflexivity.
  Qed.

  (** ** Writing *)

  Lemma is_3d_spec pts : is_3d lib pts = true <-> Exists (fun p => jl_zero lib (pz p) = false) pts.
  Proof.
    induction pts as [|p pts IH]; cbn [is_3d].
    - split; [discriminate|intros H; inversion H].
    - destruct (jl_zero lib (pz p)) eqn:E; cbn [negb].
      + rewrite IH. split; [intros H; right; exact H|]. intros H. inversion H; subst; [congruence|assumption].
      + split; [intros _; left; exact E|reflexivity].
  Qed.
  Lemma is_3d_false pts : is_3d lib pts = false -> Forall (fun p => jl_zero lib (pz p) = true) pts.
  Proof.
    induction pts as [|p pts IH]; cbn [is_3d]; [constructor|].
    destruct (jl_zero lib (pz p)) eqn:E; cbn [negb]; [constructor; auto|discriminate].
  Qed.
  Lemma extract_written pts : written (jl_zero lib) pts (extract_coords lib pts).
  Proof.
    unfold extract_coords. destruct (is_3d lib pts) eqn:E; cbn [negb].
    - apply is_3d_spec in E. apply W3. exact E.
    - apply is_3d_false in E. apply W2. exact E.
  Qed.

  Lemma create_geojson_geom lns o : create_geojson lib lns = Ok o ->
    written_parts (jl_zero lib) (map simple_points lns) (of_geom o).
  Proof.
    destruct lns as [|p [|q lns]]; cbn [create_geojson]; [discriminate| |];
      destruct (get_meta lib p); cbn [bind]; try discriminate; intros H; injection H as <-; cbn [of_geom].
    - constructor. apply extract_written.
    - apply WP_many; [cbn; lia|]. cbn [map].
      repeat (constructor; [apply extract_written|]).
      induction lns as [|x lns IH]; constructor; auto using extract_written.
  Qed.

  (** Stable sorting of what is already in order. *)
  Definition pos_sorted (l : list entry) : Prop := increasing (map e_pos l).
  Lemma pos_sort_id l : pos_sorted l -> pos_sort l = l.
  Proof.
    unfold pos_sorted, increasing. induction l as [|x l IH]; intros H; [reflexivity|].
    cbn [map] in H. apply Sorted.StronglySorted_inv in H as [Hs Hf].
    unfold pos_sort in *. cbn [fold_right]. rewrite (IH Hs).
    destruct l as [|y l]; [reflexivity|]. cbn [pos_ins].
    cbn [map] in Hf. inversion Hf; subst.
    destruct (Z.leb_spec (e_pos x) (e_pos y)); [reflexivity|lia].
  Qed.

  (** *** One feature per line *)

  Definition with_simple (simple : bytes -> list Z) (p : polyline) : polyline :=
    Pln (pl_id p) (pl_meta p) (pl_pts p) (simple (pl_id p)).

  (** The entries of line [i]. *)
  Definition line_entries (simple : bytes -> list Z) (i : Z) (f : jfeat P) : list entry :=
    map (fun pc => (i, fst pc, with_simple simple (mk_polyline lib (compose_id i (fst pc)) (snd pc) (jl_marshal lib (jf_props f)))))
      (numbered (feature_parts f)).
  Fixpoint entries_from (simple : bytes -> list Z) (i : Z) (fs : list (jfeat P)) : list entry :=
    match fs with
    | [] => []
    | f :: r => line_entries simple i f ++ entries_from simple (i + 1) r
    end.
  Definition few {A} (l : list A) : Prop := zlen l <= max_int.

  Lemma numbered_small {A} (l : list A) k x : few l -> In (k, x) (numbered l) -> 0 <= k <= max_int.
  Proof.
    intros Hf H. apply numbered_in in H as [H1 H2]. split; [exact H1|].
    assert (Z.to_nat k < length l)%nat by (apply nth_error_Some; congruence).
    unfold few, zlen in Hf. lia.
  Qed.

  Lemma mapM_app {A B} (f : A -> res B) l1 l2 ys1 ys2 :
    mapM f l1 = Ok ys1 -> mapM f l2 = Ok ys2 -> mapM f (l1 ++ l2) = Ok (ys1 ++ ys2).
  Proof.
    revert ys1. induction l1 as [|x l1 IH]; intros ys1 H1 H2.
    - injection H1 as <-. exact H2.
    - cbn [mapM app] in *. destruct (f x) as [y| |]; cbn [bind] in *; try discriminate.
      destruct (mapM f l1) as [ys| |]; cbn [bind] in *; try discriminate.
      injection H1 as <-. rewrite (IH ys) by auto. reflexivity.
  Qed.

  Lemma entries_line simple i f : 0 <= i <= max_int -> few (feature_parts f) ->
    entries (map (with_simple simple) (feature_polylines i f)) = Ok (line_entries simple i f).
  Proof.
    intros Hi Hf. unfold entries, feature_polylines, line_entries. rewrite map_map.
    assert (K : forall l, (forall pc, In pc l -> In pc (numbered (feature_parts f))) ->
      mapM (fun p => ip <- index_pos (pl_id p);; Ok (ip, p))
        (map (fun x => with_simple simple (mk_polyline lib (compose_id i (fst x)) (snd x) (jl_marshal lib (jf_props f)))) l) =
      Ok (map (fun pc => (i, fst pc, with_simple simple (mk_polyline lib (compose_id i (fst pc)) (snd pc) (jl_marshal lib (jf_props f))))) l)).
    { induction l as [|[k c] l IH]; intros Hin; [reflexivity|]. cbn [map mapM fst snd].
      rewrite IH by (intros pc Hpc; apply Hin; right; exact Hpc).
      cbn [with_simple mk_polyline pl_id]. rewrite index_pos_id; [reflexivity|exact Hi|].
      eapply numbered_small; [exact Hf|]. apply Hin. left. reflexivity. }
    apply K. auto.
  Qed.

  Lemma one_polylines d f i : one_feature d f -> doc_polylines i d = feature_polylines i f.
  Proof.
    intros [[-> |(g & -> & ->)] _]; unfold doc_polylines; cbn [doc_features flat_map]; apply app_nil_r.
  Qed.

  Lemma entries_from_spec simple docs fs : Forall2 one_feature docs fs -> forall i,
    0 <= i -> i + zlen fs <= max_int + 1 -> Forall (fun f => few (feature_parts f)) fs ->
    entries (map (with_simple simple) (polylines_from i docs)) = Ok (entries_from simple i fs).
  Proof.
    induction 1 as [|d f docs fs Hd H IH]; intros i Hi Hb Hf; [reflexivity|].
    cbn [polylines_from entries_from]. inversion Hf; subst.
    assert (Hl : zlen (f :: fs) = 1 + zlen fs) by (unfold zlen; cbn [length]; lia).
    assert (Hz : 0 <= zlen fs) by (unfold zlen; lia).
    rewrite map_app. unfold entries. apply mapM_app.
    - rewrite (one_polylines d f) by exact Hd. apply entries_line; [lia|assumption].
    - apply IH; [lia|lia|assumption].
  Qed.

  Lemma line_index simple i f e : In e (line_entries simple i f) -> e_index e = i.
  Proof. unfold line_entries. intros H. apply in_map_iff in H as (pc & <- & _). reflexivity. Qed.
  Lemma from_index simple fs : forall i e, In e (entries_from simple i fs) -> i <= e_index e < i + zlen fs.
  Proof.
    induction fs as [|f fs IH]; intros i e H; [destruct H|]. cbn [entries_from] in H.
    assert (Hl : zlen (f :: fs) = 1 + zlen fs) by (unfold zlen; cbn [length]; lia).
    assert (Hz : 0 <= zlen fs) by (unfold zlen; lia).
    apply in_app_or in H as [H|H].
    - apply line_index in H. lia.
    - apply IH in H. lia.
  Qed.

  Lemma filter_none {A} (f : A -> bool) l : (forall x, In x l -> f x = false) -> filter f l = [].
  Proof.
    induction l as [|x l IH]; intros H; [reflexivity|]. cbn [filter].
    rewrite H by (left; auto). apply IH. intros y Hy. apply H. right. exact Hy.
  Qed.
  Lemma filter_same {A} (f : A -> bool) l : (forall x, In x l -> f x = true) -> filter f l = l.
  Proof. intros H. apply filter_all, forallb_forall. exact H. Qed.

  Lemma at_line simple fs : forall i n f, nth_error fs n = Some f ->
    at_index (entries_from simple i fs) (i + Z.of_nat n) = line_entries simple (i + Z.of_nat n) f.
  Proof.
    induction fs as [|g fs IH]; intros i n f Hn; [destruct n; discriminate|].
    cbn [entries_from]. unfold at_index in *. rewrite filter_app. destruct n as [|n].
    - cbn in Hn. injection Hn as ->. rewrite Z.add_0_r.
      rewrite filter_same, filter_none, app_nil_r; [reflexivity| |].
      + intros e He. apply from_index in He. lia.
      + intros e He. apply line_index in He. lia.
    - rewrite filter_none.
      + cbn [app]. replace (i + Z.of_nat (S n)) with (i + 1 + Z.of_nat n) by lia. apply IH. exact Hn.
      + intros e He. apply line_index in He. apply Z.eqb_neq. lia.
  Qed.

  Lemma line_entries_cons simple i f : feature_parts f <> [] -> line_entries simple i f <> [].
  Proof.
    intros H E. unfold line_entries in E. apply map_eq_nil in E.
    pose proof (numbered_snd (feature_parts f)) as K. rewrite E in K. cbn in K. congruence.
  Qed.

  Lemma indices_from simple fs : Forall (fun f => feature_parts f <> []) fs ->
    forall k, In k (indices (entries_from simple 0 fs)) <-> 0 <= k < zlen fs.
  Proof.
    intros Hne k. unfold indices. rewrite zset_in.
    split; intros H.
    - apply in_map_iff in H as (e & <- & He). apply from_index in He. lia.
    - destruct (nth_error fs (Z.to_nat k)) as [f|] eqn:En.
      2: { apply nth_error_None in En. unfold zlen in H. lia. }
      pose proof (at_line simple fs 0 (Z.to_nat k) f En) as Ha.
      rewrite Z2Nat.id in Ha by lia. cbn in Ha.
      assert (Hc : line_entries simple k f <> []).
      { apply line_entries_cons. rewrite Forall_forall in Hne. apply Hne. eapply nth_error_In; eauto. }
      destruct (line_entries simple k f) as [|e l] eqn:E; [congruence|].
      apply in_map_iff. exists e. split.
      + apply (line_index simple k f). rewrite E. left. reflexivity.
      + assert (K : In e (at_index (entries_from simple 0 fs) k)) by (rewrite Ha; left; reflexivity).
        unfold at_index in K. apply filter_In in K. tauto.
  Qed.

  Lemma zseq_incr lo hi : increasing (zseq lo hi).
  Proof.
    unfold increasing, zseq. generalize (Z.to_nat (hi - lo + 1)) as n. intros n.
    assert (K : forall n s, Sorted.StronglySorted Z.lt (map (fun k => lo + Z.of_nat k) (seq s n))).
    { clear n. induction n as [|m IH]; intros s; cbn [seq map]; constructor; [apply IH|].
      apply Forall_forall. intros x Hx. apply in_map_iff in Hx as (y & <- & Hy). apply in_seq in Hy. lia. }
    apply K.
  Qed.
  Lemma indices_count simple fs : Forall (fun f => feature_parts f <> []) fs ->
    zlen (indices (entries_from simple 0 fs)) = zlen fs.
  Proof.
    intros Hne. assert (E : indices (entries_from simple 0 fs) = zseq 0 (zlen fs - 1)).
    { apply increasing_ext; [apply zset_incr|apply zseq_incr|].
      intros k. rewrite indices_from by exact Hne. rewrite zseq_in. lia. }
    rewrite E, zseq_len; unfold zlen; lia.
  Qed.

  Lemma numbered_incr {A} (l : list A) : increasing (map fst (numbered l)).
  Proof.
    unfold numbered. rewrite <- (firstn_all (zseq 0 (zlen l - 1))).
    assert (K : forall (a : list Z) (b : list A), length a = length b -> map fst (combine a b) = a).
    { induction a as [|x a IH]; intros [|y b] H; try discriminate; [reflexivity|].
      cbn [combine map fst]. f_equal. apply IH. cbn in H. lia. }
    rewrite firstn_all. rewrite K; [apply zseq_incr|].
    unfold zseq. rewrite map_length, seq_length. unfold zlen. lia.
  Qed.
  Lemma line_sorted simple i f : pos_sorted (line_entries simple i f).
  Proof.
    unfold pos_sorted, line_entries. rewrite map_map. cbn [e_pos fst snd]. apply numbered_incr.
  Qed.

  Lemma line_simple simple i f :
    map (fun e => simple_points (snd e)) (line_entries simple i f) =
    map (fun pc => pick origin (map (jl_point lib) (snd pc)) (simple (compose_id i (fst pc)))) (numbered (feature_parts f)).
  Proof. unfold line_entries. rewrite map_map. reflexivity. Qed.

  Lemma get_meta_spec id pts s f : json_ok lib ->
    get_meta lib (Pln id (jl_marshal lib (jf_props f)) pts s) = Ok (props_or_empty lib f).
  Proof.
    intros [H1 H2 H3]. unfold get_meta, props_or_empty. cbn [pl_meta].
    destruct (jf_props f) as [p|].
    - assert (E : bytes_eqb (jl_marshal lib (Some p)) (str "null") = false) by (apply bytes_eqb_false, H3).
      rewrite E, H1. reflexivity.
    - rewrite H2. reflexivity.
  Qed.

  Lemma create_line simple i f : json_ok lib -> feature_parts f <> [] ->
    exists o, create_geojson lib (map snd (line_entries simple i f)) = Ok o /\
      of_props o = props_or_empty lib f /\
      written_parts (jl_zero lib)
        (map (fun pc => pick origin (map (jl_point lib) (snd pc)) (simple (compose_id i (fst pc)))) (numbered (feature_parts f)))
        (of_geom o).
  Proof.
    intros HJ Hne. pose proof (line_entries_cons simple i f Hne) as Hc.
    assert (K : exists o, create_geojson lib (map snd (line_entries simple i f)) = Ok o /\ of_props o = props_or_empty lib f).
    { unfold line_entries in *. destruct (numbered (feature_parts f)) as [|[k c] l]; [destruct (Hc eq_refl)|].
      cbn [map snd fst]. unfold with_simple at 1. cbn [mk_polyline pl_id pl_meta pl_pts].
      destruct l as [|[k2 c2] l]; cbn [create_geojson map].
      - rewrite get_meta_spec by exact HJ. cbn [bind]. eexists; split; reflexivity.
      - rewrite get_meta_spec by exact HJ. cbn [bind]. eexists; split; reflexivity. }
    destruct K as (o & E & Hp). exists o. split; [exact E|]. split; [exact Hp|].
    apply create_geojson_geom in E. rewrite map_map in E. rewrite line_simple in E. exact E.
  Qed.

  Lemma group_spec simple docs fs : json_ok lib -> Forall2 one_feature docs fs ->
    few fs -> Forall (fun f => few (feature_parts f)) fs ->
    exists outs, group_plns lib (map (with_simple simple) (polylines_from 0 docs)) = Ok outs /\
      length outs = length docs /\
      forall i f, nth_error fs i = Some f -> exists o, nth_error outs i = Some o /\
        of_props o = props_or_empty lib f /\
        written_parts (jl_zero lib)
          (map (fun pc => pick origin (map (jl_point lib) (snd pc)) (simple (compose_id (Z.of_nat i) (fst pc))))
             (numbered (feature_parts f)))
          (of_geom o).
  Proof.
    intros HJ H Hn Hf. unfold group_plns.
    rewrite (entries_from_spec simple docs fs H) by (auto; unfold few in *; lia). cbn [bind].
    assert (Hne : Forall (fun f => feature_parts f <> []) fs).
    { clear -H. induction H as [|d f docs fs [_ Hd] H IH]; constructor; auto. }
    rewrite indices_count by exact Hne.
    assert (Hlen : length docs = length fs) by (clear -H; induction H; cbn [length]; congruence).
    assert (K : forall m lo, lo + Z.of_nat m = zlen fs -> 0 <= lo ->
      exists outs, mapM (fun idx => create_geojson lib (map snd (pos_sort (at_index (entries_from simple 0 fs) idx)))) (zseq lo (zlen fs - 1)) = Ok outs /\
        length outs = m /\
        forall i f, nth_error fs (Z.to_nat lo + i) = Some f -> exists o, nth_error outs i = Some o /\
        of_props o = props_or_empty lib f /\
        written_parts (jl_zero lib)
          (map (fun pc => pick origin (map (jl_point lib) (snd pc)) (simple (compose_id (lo + Z.of_nat i) (fst pc))))
             (numbered (feature_parts f)))
          (of_geom o)).
    { induction m as [|m IH]; intros lo Hm Hlo.
      - rewrite zseq_nil by lia. exists []. split; [reflexivity|]. split; [reflexivity|].
        intros i f Hi. assert (Z.to_nat lo + i < length fs)%nat by (apply nth_error_Some; congruence).
        unfold zlen in Hm. lia.
      - rewrite zseq_cons by lia. cbn [mapM].
        destruct (nth_error fs (Z.to_nat lo)) as [f|] eqn:En.
        2: { apply nth_error_None in En. unfold zlen in Hm. lia. }
        pose proof (at_line simple fs 0 _ _ En) as Ha. rewrite Z2Nat.id, Z.add_0_l in Ha by lia.
        rewrite Ha, pos_sort_id by apply line_sorted.
        destruct (create_line simple lo f HJ) as (o & Eo & Hp & Hw).
        { rewrite Forall_forall in Hne. apply Hne. eapply nth_error_In; eauto. }
        rewrite Eo. cbn [bind].
        destruct (IH (lo + 1)) as (outs & -> & Hl & Hi); [lia|lia|]. cbn [bind].
        exists (o :: outs). split; [reflexivity|]. split; [cbn [length]; lia|].
        intros [|i] f' Hi'.
        + rewrite Nat.add_0_r in Hi'. rewrite En in Hi'. injection Hi' as <-.
          exists o. cbn [nth_error]. rewrite Z.add_0_r. auto.
        + replace (Z.to_nat lo + S i)%nat with (Z.to_nat (lo + 1) + i)%nat in Hi' by lia.
          destruct (Hi i f' Hi') as (o' & A & B & C). exists o'. cbn [nth_error].
          replace (lo + Z.of_nat (S i)) with (lo + 1 + Z.of_nat i) by lia. auto. }
    destruct (K (length fs) 0) as (outs & E & Hl & Hi); [unfold zlen; lia|lia|].
    exists outs. split; [exact E|]. split; [congruence|].
    intros i f Hif. apply (Hi i f). exact Hif.
  Qed.
End Lib.
