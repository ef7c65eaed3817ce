(** Claim C79 (reversed lines) and the general form of C78.  Vocabulary: Spec_Sym.v, Spec_Docs.v, Spec_Modes.v. *)
From Coq Require Import Ascii String.
From Verif Require Import M_Base M_Float M_Rng M_Geom M_Offset M_Node M_Decompose M_Hdb M_Knn M_Lnr M_Homotopy M_Relate M_Constrain M_ConstDP
  M_Text M_IO Spec Spec_Hdb Spec_Lnr Spec_Relate Spec_ConstDP Spec_Text Spec_IO Spec_Run Spec_Out Spec_Docs Spec_Modes Spec_Sym
  P_Base P_Float P_Modes Toy Toy_Box Properties_Core Properties_Lnr Properties_ConstDP Properties_IO Properties_Run Properties_Docs Properties_Modes Properties_Near.
Open Scope Z_scope.

Section Reverse.
  Variables (dist : point -> point -> point -> f64) (T : f64) (pts : list point).
  Hypothesis Hsym : either_way dist.
  Hypothesis Htie : no_ties dist T pts.
  Notation n := (zlen pts).

  Lemma vertex_rev k : 0 <= k < n -> vertex (rev pts) (n - 1 - k) = vertex pts k.
  Proof.
    intros H. unfold vertex, zlen in *. rewrite rev_nth by lia. f_equal. lia.
  Qed.

  Lemma vertex_rev' k : 0 <= k < n -> vertex (rev pts) k = vertex pts (n - 1 - k).
  Proof. intros H. rewrite <- vertex_rev by lia. f_equal. lia. Qed.

  Lemma dist_rev i j k : 0 <= i < n -> 0 <= j < n -> 0 <= k < n ->
    dist (vertex (rev pts) (n - 1 - j)) (vertex (rev pts) (n - 1 - i)) (vertex (rev pts) (n - 1 - k)) =
    dist (vertex pts i) (vertex pts j) (vertex pts k).
  Proof. intros Hi Hj Hk. rewrite !vertex_rev by auto. apply Hsym. Qed.

  Lemma textbook_last i j s : textbook dist T pts i j s -> exists s', s = s' ++ [j].
  Proof.
    induction 1 as [i j _|i j k l r d H1 H2 H3 H4 A (s1 & ->) B (s2 & E)]; [exists [i]; reflexivity|].
    destruct s2 as [|x s2]; [cbn in E; injection E as E _; lia|]. cbn in E. injection E as _ ->.
    exists ((s1 ++ [k]) ++ s2). rewrite app_assoc. reflexivity.
  Qed.

  Lemma mirror_app a b : mirror n (a ++ b) = mirror n b ++ mirror n a.
  Proof. unfold mirror. rewrite map_app, rev_app_distr. reflexivity. Qed.

  Lemma textbook_reverse i j s : textbook dist T pts i j s -> 0 <= i -> j < n ->
    textbook dist T (rev pts) (n - 1 - j) (n - 1 - i) (mirror n s).
  Proof.
    induction 1 as [i j H|i j k l r d H1 H2 H3 H4 A IHA B IHB]; intros Hi Hj.
    - cbn. apply tb_keep_ends. intros m Hm. replace m with (n - 1 - (n - 1 - m)) by lia. rewrite dist_rev by lia. apply H. lia.
    - destruct (textbook_last _ _ _ A) as (l' & ->). 
      replace ((l' ++ [k]) ++ r) with (l' ++ (k :: r)) by (rewrite <- app_assoc; reflexivity).
      rewrite mirror_app. rewrite mirror_app in IHA. cbn in IHA.
      apply (tb_split dist T (rev pts) (n - 1 - j) (n - 1 - i) (n - 1 - k)); cbv zeta.
      + lia.
      + rewrite dist_rev by lia. exact H2.
      + intros m Hm. replace m with (n - 1 - (n - 1 - m)) by lia. rewrite !dist_rev by lia. apply H3. lia.
      + intros m Hm. replace m with (n - 1 - (n - 1 - m)) by lia. rewrite !dist_rev by lia.
        specialize (H3 (n - 1 - m) ltac:(lia)). unfold d in H2, H3.
        set (x := n - 1 - m) in *. assert (Hx : i < x < k) by lia. clearbody x.
        destruct (fle _ _) eqn:E; [exfalso|reflexivity].
        assert (Hle : fle (dist (vertex pts i) (vertex pts j) (vertex pts x)) (dist (vertex pts i) (vertex pts j) (vertex pts k)) = true).
        { apply flt_total; [apply (fle_nan_l _ _ E)|apply (fle_nan_r _ _ E)|exact H3]. }
        assert (Hfar : flt T (dist (vertex pts i) (vertex pts j) (vertex pts x)) = true) by (eapply flt_le_trans; eauto).
        specialize (Htie i j x k Hi ltac:(lia) ltac:(lia) ltac:(lia) Hj Hfar).
        apply fle_key in E. apply fle_key in Hle. destruct E as (N1 & N2 & E), Hle as (_ & _ & Hle).
        assert (K : feq (dist (vertex pts i) (vertex pts j) (vertex pts x)) (dist (vertex pts i) (vertex pts j) (vertex pts k)) = true); [|congruence].
        apply feq_key. split; [exact N2|]. split; [exact N1|]. 
        unfold klt, keq in *. lia.
      + apply IHB; lia.
      + apply IHA; lia.
  Qed.
End Reverse.

Lemma mirror_points pts s : Forall (fun k => 0 <= k < zlen pts) s ->
  map (vertex (rev pts)) (mirror (zlen pts) s) = rev (map (vertex pts) s).
Proof.
  intros H. unfold mirror. rewrite map_rev, map_map. f_equal. apply map_ext_in. intros k Hk.
  rewrite Forall_forall in H. apply vertex_rev, H, Hk.
Qed.

(** Plain Douglas-Peucker treats a line and its reversal alike, unless vertices are equally far. *)
Theorem C79_reversed_line :
  forall L gen inst ctr L' gen' inst' ctr' pts distfn T fuel s,
  either_way distfn -> no_ties distfn T pts ->
  (2 <= length pts)%nat -> fle fzero T = true -> (2 * length pts - 3 < fuel)%nat ->
  dp_simple L gen (create_polyline pts) inst T (max_offset distfn) None fuel ctr = Ok s ->
  dp_simple L' gen' (create_polyline (rev pts)) inst' T (max_offset distfn) None fuel ctr' = Ok (mirror (zlen pts) s) /\
  map (vertex (rev pts)) (mirror (zlen pts) s) = rev (map (vertex pts) s).
Proof.
  intros L gen inst ctr L' gen' inst' ctr' pts distfn T fuel s Hs Ht Hl HT Hf E. split.
  - apply C68_plain_is_textbook; try (rewrite rev_length); auto.
    apply C68_plain_is_textbook in E; auto.
    apply (textbook_reverse distfn T pts Hs Ht 0 (zlen pts - 1)) in E; [|lia..].
    replace (zlen (rev pts)) with (zlen pts) by (unfold zlen; rewrite rev_length; reflexivity).
    replace (zlen pts - 1 - (zlen pts - 1)) with 0 in E by lia. replace (zlen pts - 1 - 0) with (zlen pts - 1) in E by lia. exact E.
  - apply mirror_points. apply (C05_plain_dp_subset L gen pts inst distfn T fuel ctr s Hl HT E).
Qed.

Theorem C79_reversed_line_squared :
  forall L gen inst ctr score L' gen' inst' ctr' score' pts distfn T fuel s,
  either_way distfn -> no_ties distfn (fmul T T) pts ->
  (2 <= length pts)%nat -> fle fzero (fmul T T) = true -> (2 * length pts - 3 < fuel)%nat ->
  dp_simple L gen (create_polyline pts) inst T score (Some (max_offset distfn)) fuel ctr = Ok s ->
  dp_simple L' gen' (create_polyline (rev pts)) inst' T score' (Some (max_offset distfn)) fuel ctr' = Ok (mirror (zlen pts) s) /\
  map (vertex (rev pts)) (mirror (zlen pts) s) = rev (map (vertex pts) s).
Proof.
  intros L gen inst ctr score L' gen' inst' ctr' score' pts distfn T fuel s Hs Ht Hl HT Hf E. split.
  - apply C68_squared_is_textbook; try (rewrite rev_length); auto.
    apply C68_squared_is_textbook in E; auto.
    apply (textbook_reverse distfn _ pts Hs Ht 0 (zlen pts - 1)) in E; [|lia..].
    replace (zlen (rev pts)) with (zlen pts) by (unfold zlen; rewrite rev_length; reflexivity).
    replace (zlen pts - 1 - (zlen pts - 1)) with 0 in E by lia. replace (zlen pts - 1 - 0) with (zlen pts - 1) in E by lia. exact E.
  - apply mirror_points. apply (C05_plain_dp_subset_squared L gen pts inst score distfn T fuel ctr s); auto.
    destruct T; auto; discriminate HT.
Qed.

Lemma toy_ptseg_either_way : either_way toy_ptseg.
Proof.
  intros a b p. unfold toy_ptseg, pt_seg_dist. set (A := zp a). set (B := zp b). set (Q := zp p).
  assert (E : d2 B A = d2 A B) by (unfold d2; ring). rewrite E.
  set (dab := (fst Q - fst A) * (fst B - fst A) + (snd Q - snd A) * (snd B - snd A)).
  assert (Ed : (fst Q - fst B) * (fst A - fst B) + (snd Q - snd B) * (snd A - snd B) = d2 A B - dab) by (unfold dab, d2; ring).
  rewrite Ed. assert (Ep : 0 <= d2 A B) by (unfold d2; nia).
  assert (Eo : orient B A Q ^ 2 = orient A B Q ^ 2) by (unfold orient; destruct A, B, Q; ring).
  assert (E0 : d2 A B = 0 -> d2 Q B = d2 Q A).
  { intros H. assert (fst A - fst B = 0 /\ snd A - snd B = 0) by (unfold d2 in H; nia). unfold d2.
    replace (fst B) with (fst A) by lia. replace (snd B) with (snd A) by lia. reflexivity. }
  destruct (Z.eqb_spec (d2 A B) 0) as [K|K]; [rewrite E0 by exact K; reflexivity|].
  destruct (Z.leb_spec dab 0), (Z.leb_spec (d2 A B - dab) 0), (Z.leb_spec (d2 A B) dab), (Z.leb_spec (d2 A B) (d2 A B - dab)); try lia; try reflexivity.
  rewrite Eo. reflexivity.
Qed.

(** The line of C05_case and its reversal. *)
Example C79_case :
  either_way toy_ptseg /\ no_ties toy_ptseg ex_T ex_line /\
  dp_simple toy ex_gen (create_polyline ex_line) 7 ex_T toy_score None 20 0 = Ok [0; 1; 2; 4] /\
  dp_simple toy ex_gen (create_polyline (rev ex_line)) 7 ex_T toy_score None 20 0 = Ok [0; 2; 3; 4].
Proof.
  split; [exact toy_ptseg_either_way|]. split; [|split; vm_compute; reflexivity].
  intros i j k m Hi Hk Hm Hj Hn d. change (zlen ex_line) with 5 in Hn. unfold d. clear d.
  assert (Hc : (i = 0 \/ i = 1) /\ (k = 1 \/ k = 2) /\ (m = 2 \/ m = 3) /\ (j = 3 \/ j = 4)) by lia.
  destruct Hc as ([-> | ->] & [-> | ->] & [-> | ->] & [-> | ->]); try lia; vm_compute; intros; congruence.
Qed.

(** With equally far vertices the result depends on the direction of the line. *)
Theorem C79_ties_refuted :
  exists pts distfn T s s', either_way distfn /\ fle fzero T = true /\
  (forall L gen inst ctr, dp_simple L gen (create_polyline pts) inst T (max_offset distfn) None 20 ctr = Ok s) /\
  (forall L gen inst ctr, dp_simple L gen (create_polyline (rev pts)) inst T (max_offset distfn) None 20 ctr = Ok s') /\
  s' <> mirror (zlen pts) s.
Proof.
  exists tie_pts, toy_ptseg, (f_of_Z 4), [0; 2; 3], [0; 2; 3].
  split; [exact toy_ptseg_either_way|]. split; [reflexivity|].
  assert (K : forall p s, dp_simple toy (fun k => Z.of_nat k) (create_polyline p) 0 (f_of_Z 4) (max_offset toy_ptseg) None 20 0 = Ok s ->
     (2 <= length p)%nat -> (2 * length p - 3 < 20)%nat ->
     forall L gen inst ctr, dp_simple L gen (create_polyline p) inst (f_of_Z 4) (max_offset toy_ptseg) None 20 ctr = Ok s).
  { intros p s H H2 H3 L gen inst ctr. apply C68_plain_is_textbook in H; auto. apply C68_plain_is_textbook; auto. }
  split; [apply K; [vm_compute; reflexivity|cbn; lia..]|].
  split; [apply K; [vm_compute; reflexivity|cbn; lia..]|]. discriminate.
Qed.

(** ** C78 *)

(** Without the class option, what is written for a document depends on that document, the constraints and the options:
    not on the other documents, on its place in the file, on ids or on orders of processing. *)
Theorem C78_a_feature_depends_on_its_document_only :
  forall {P} (lib : jsonlib P) (S S' : setup) o score input input' cinput cinput' docs docs' constraints constraints' m m' outs outs' i i' d,
  run_docs lib S false o score input cinput docs constraints ->
  run_docs lib S' false o score input' cinput' docs' constraints' ->
  linear_first docs m -> linear_first docs' m' ->
  let L := w_geom (su_world S) in
  w_geom (su_world S') = L -> w_lnr (su_world S') = w_lnr (su_world S) -> is_nan (o_min_dist o) = false ->
  (forall g, In g constraints <-> In g constraints') ->
  (forall pts, In pts (map (map (jl_point lib)) (doc_parts d)) ->
     (forall r g, piece pts r -> In g constraints -> box_distance_ok L (piece_hull L pts r) g (gl_bounds L g)) /\
     (o_planar_self o = true -> forall c, In c (self_intersections (su_world S) (proto o score pts)) -> boxes_not_farther L pts c)) ->
  run lib S false o score (unlines input) (unlines cinput) = Ok outs ->
  run lib S' false o score (unlines input') (unlines cinput') = Ok outs' ->
  nth_error docs i = Some d -> nth_error docs' i' = Some d -> (i < m)%nat ->
  exists f, nth_error outs i = Some f /\ nth_error outs' i' = Some f.
Proof.
  intros P lib S S' o score input input' cinput cinput' docs docs' cs cs' m m' outs outs' i i' d H H' Hm Hm' L EL EN Hnan Hc Hgeo Er Er' Ed Ed' Hi.
  assert (Hi' : (i' < m')%nat).
  { destruct Hm as [_ Hm], Hm' as [_ Hm']. apply (Hm' i' d Ed'), (Hm i d Ed), Hi. }
  destruct (C57_any_documents lib S o score input cinput docs cs m H Hm) as (outs0 & E & (N & W)).
  destruct (C57_any_documents lib S' o score input' cinput' docs' cs' m' H' Hm') as (outs0' & E' & (N' & W')).
  assert (outs0 = outs) by congruence. assert (outs0' = outs') by congruence. subst outs0 outs0'.
  destruct (W i d Hi Ed) as (ot & f & kept & A & B). destruct (W' i' d Hi' Ed') as (ot' & f' & kept' & A' & B').
  exists ot. split; [exact A|]. rewrite A'. f_equal. symmetry.
  apply (writes_doc_fun lib d ot ot' (simplified_alone S o score cs) (simplified_alone S' o score cs')); [exists f, kept; exact B|exists f', kept'; exact B'|].
  intros pts k k' Hp Hk Hk'. destruct (Hgeo pts Hp) as (G1 & G2).
  apply (alone_unique lib false false S S' o score input input' cinput cinput' docs docs' cs cs' H H' EL EN Hnan pts k k'
           (part_in lib _ _ _ _ Ed Hp) (part_in lib _ _ _ _ Ed' Hp)); auto.
  - intros r g _ _. apply Hc.
  - intros r g Hr [Hg|Hg]; apply G1; auto. apply Hc, Hg.
Qed.

Print Assumptions C78_a_feature_depends_on_its_document_only.
Print Assumptions C79_reversed_line.
Print Assumptions C79_reversed_line_squared.
Print Assumptions C79_ties_refuted.
