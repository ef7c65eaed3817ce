(** Grouping the lines of any documents into features. *)
From Coq Require Import Ascii String.
From Verif Require Import M_Base M_Float M_Rng M_Geom M_Offset M_Node M_Decompose M_Hdb M_Knn M_Lnr M_Homotopy M_Relate M_Constrain M_ConstDP
  M_Text M_IO Spec Spec_Hdb Spec_Lnr Spec_Relate Spec_ConstDP Spec_Text Spec_IO Spec_Run Spec_Out Spec_Docs
  P_Base P_Decompose P_Split P_Node P_Hdb P_Db P_Bag P_ConstDP P_Aggregate P_Simplify P_Class P_Text P_IO P_Run P_Out Properties_ConstDP.
Open Scope Z_scope.

(** ** Stable sorting by position *)

Lemma pos_ins_skip x a b : (forall y, In y a -> e_pos y < e_pos x) -> pos_ins x (a ++ b) = a ++ pos_ins x b.
Proof.
  induction a as [|y a IH]; intros H; [reflexivity|]. cbn [app pos_ins].
  pose proof (H y (or_introl eq_refl)). destruct (Z.leb_spec (e_pos x) (e_pos y)); [lia|]. f_equal. apply IH.
  intros z Hz. apply H. right; exact Hz.
Qed.
Lemma pos_ins_here x b : (forall y, In y b -> e_pos x <= e_pos y) -> pos_ins x b = x :: b.
Proof.
  destruct b as [|y b]; intros H; [reflexivity|]. cbn [pos_ins]. pose proof (H y (or_introl eq_refl)).
  destruct (Z.leb_spec (e_pos x) (e_pos y)); [reflexivity|lia].
Qed.

Definition bucket (l : list entry) (k : Z) : list entry := filter (fun e => e_pos e =? k) l.
Lemma bucket_pos l k e : In e (bucket l k) -> e_pos e = k.
Proof. intros H. apply filter_In in H. destruct H as [_ H]. lia. Qed.
Lemma buckets_same x l ks : ~ In (e_pos x) ks -> flat_map (bucket (x :: l)) ks = flat_map (bucket l) ks.
Proof.
  induction ks as [|k ks IH]; intros H; [reflexivity|]. cbn [flat_map]. rewrite IH by (intros K; apply H; right; exact K).
  f_equal. unfold bucket. cbn [filter]. destruct (Z.eqb_spec (e_pos x) k); [|reflexivity]. exfalso. apply H. left; auto.
Qed.

Lemma incr_app a b : increasing a -> increasing b -> (forall u v, In u a -> In v b -> u < v) -> increasing (a ++ b).
Proof.
  unfold increasing. induction a as [|u a IH]; intros Ha Hb Hab; [exact Hb|].
  apply Sorted.StronglySorted_inv in Ha as [Ha Hu]. cbn [app]. constructor.
  - apply IH; auto. intros p q Hp Hq. apply Hab; [right; exact Hp|exact Hq].
  - apply Forall_app. split; [exact Hu|]. apply Forall_forall. intros v Hv. apply Hab; [left; reflexivity|exact Hv].
Qed.

Lemma pos_sort_buckets l n : (forall e, In e l -> 0 <= e_pos e < n) -> pos_sort l = flat_map (bucket l) (zseq 0 (n - 1)).
Proof.
  induction l as [|x l IH]; intros H.
  { unfold pos_sort. cbn [fold_right]. symmetry. induction (zseq 0 (n - 1)) as [|k ks IHk]; [reflexivity|exact IHk]. }
  unfold pos_sort in *. cbn [fold_right]. rewrite IH by (intros e He; apply H; right; exact He).
  pose proof (H x (or_introl eq_refl)) as Hx.
  assert (Ez : zseq 0 (n - 1) = zseq 0 (e_pos x - 1) ++ e_pos x :: zseq (e_pos x + 1) (n - 1)).
  { apply increasing_ext; [apply zseq_incr| |].
    - apply incr_app; [apply zseq_incr| |].
      + constructor; [apply zseq_incr|]. apply Forall_forall. intros v Hv. apply zseq_in in Hv. lia.
      + intros u v Hu Hv. apply zseq_in in Hu. destruct Hv as [<- |Hv]; [lia|]. apply zseq_in in Hv. lia.
    - intros k. rewrite in_app_iff. cbn [In]. rewrite !zseq_in. lia. }
  rewrite Ez, !flat_map_app. cbn [flat_map].
  rewrite (buckets_same x l (zseq 0 _)) by (rewrite zseq_in; lia).
  rewrite (buckets_same x l (zseq (e_pos x + 1) _)) by (rewrite zseq_in; lia).
  rewrite pos_ins_skip.
  - f_equal. rewrite pos_ins_here.
    + unfold bucket at 3. cbn [filter]. rewrite Z.eqb_refl. reflexivity.
    + intros y Hy. apply in_app_or in Hy as [Hy|Hy]; [apply bucket_pos in Hy; lia|].
      apply in_flat_map in Hy as (k & Hk & Hy). apply bucket_pos in Hy. apply zseq_in in Hk. lia.
  - intros y Hy. apply in_flat_map in Hy as (k & Hk & Hy). apply bucket_pos in Hy. apply zseq_in in Hk. lia.
Qed.

(** ** Rows of polylines *)

Fixpoint row_from (i lo : Z) (r : list polyline) : list entry :=
  match r with [] => [] | q :: r' => (i, lo, q) :: row_from i (lo + 1) r' end.
Fixpoint row_ids (i lo : Z) (r : list polyline) : Prop :=
  match r with [] => True | q :: r' => pl_id q = compose_id i lo /\ row_ids i (lo + 1) r' end.
Definition doc_entries (i : Z) (rows : list (list polyline)) : list entry := flat_map (row_from i 0) rows.
Fixpoint all_entries (i : Z) (rowss : list (list (list polyline))) : list entry :=
  match rowss with [] => [] | rows :: r => doc_entries i rows ++ all_entries (i + 1) r end.
Fixpoint all_ids (i : Z) (rowss : list (list (list polyline))) : Prop :=
  match rowss with [] => True | rows :: r => Forall (row_ids i 0) rows /\ all_ids (i + 1) r end.

Lemma entries_row i r : 0 <= i <= max_int -> forall lo, 0 <= lo -> lo + zlen r <= max_int + 1 -> row_ids i lo r ->
  entries r = Ok (row_from i lo r).
Proof.
  intros Hi. unfold entries. induction r as [|q r IH]; intros lo Hlo Hb H; [reflexivity|].
  destruct H as [E H]. unfold zlen in *. cbn [length] in Hb. cbn [mapM row_from].
  rewrite E, index_pos_id by lia. cbn [bind]. rewrite (IH (lo + 1)) by (auto; lia). reflexivity.
Qed.

Lemma entries_doc i rows : 0 <= i <= max_int -> Forall few rows -> Forall (row_ids i 0) rows ->
  entries (concat rows) = Ok (doc_entries i rows).
Proof.
  intros Hi. induction rows as [|r rows IH]; intros Hf Hr; [reflexivity|]. inversion Hf; inversion Hr; subst.
  cbn [concat doc_entries flat_map]. unfold entries. apply mapM_app.
  - apply entries_row; auto; unfold few in *; lia.
  - apply IH; auto.
Qed.

Lemma entries_all rowss : forall i, 0 <= i -> i + zlen rowss <= max_int + 1 -> Forall (Forall few) rowss -> all_ids i rowss ->
  entries (concat (map (@concat _) rowss)) = Ok (all_entries i rowss).
Proof.
  induction rowss as [|rows rowss IH]; intros i Hi Hb Hf Ha; [reflexivity|]. inversion Hf; subst. destruct Ha as [Ha1 Ha2].
  unfold zlen in *. cbn [length] in Hb. cbn [map concat all_entries]. unfold entries. apply mapM_app.
  - apply entries_doc; auto. lia.
  - apply IH; auto; lia.
Qed.

Lemma row_from_in i r : forall lo e, In e (row_from i lo r) ->
  e_index e = i /\ lo <= e_pos e < lo + zlen r.
Proof.
  induction r as [|q r IH]; intros lo e H; [destruct H|]. unfold zlen in *. cbn [length]. destruct H as [<- |H].
  - cbn [e_index e_pos fst snd]. lia.
  - apply IH in H. lia.
Qed.
Lemma doc_index i rows e : In e (doc_entries i rows) -> e_index e = i /\ 0 <= e_pos e < Z.of_nat (list_max (map (@length _) rows)).
Proof.
  intros H. apply in_flat_map in H as (r & Hr & H). apply row_from_in in H as [A B]. split; [exact A|].
  assert (K : (length r <= list_max (map (@length _) rows))%nat).
  { pose proof (proj1 (list_max_le (map (@length _) rows) _) (le_n _)) as K. rewrite Forall_forall in K. apply K, in_map, Hr. }
  unfold zlen in B. lia.
Qed.
Lemma all_index rowss : forall i e, In e (all_entries i rowss) -> i <= e_index e.
Proof.
  induction rowss as [|rows rowss IH]; intros i e H; [destruct H|]. cbn [all_entries] in H.
  apply in_app_or in H as [H|H]; [apply doc_index in H; lia|apply IH in H; lia].
Qed.

Lemma at_all rowss : forall i n rows, nth_error rowss n = Some rows ->
  at_index (all_entries i rowss) (i + Z.of_nat n) = doc_entries (i + Z.of_nat n) rows.
Proof.
  induction rowss as [|r rowss IH]; intros i n rows Hn; [destruct n; discriminate|].
  cbn [all_entries]. unfold at_index in *. rewrite filter_app. destruct n as [|n].
  - cbn in Hn. injection Hn as ->. rewrite Z.add_0_r. rewrite filter_same, filter_none, app_nil_r; [reflexivity| |].
    + intros e He. apply all_index in He. lia.
    + intros e He. apply doc_index in He. lia.
  - rewrite filter_none.
    + cbn [app]. replace (i + Z.of_nat (S n)) with (i + 1 + Z.of_nat n) by lia. apply IH. exact Hn.
    + intros e He. apply doc_index in He. apply Z.eqb_neq. lia.
Qed.

Lemma row_nil i lo r : row_from i lo r = [] <-> r = [].
Proof. destruct r; cbn; split; congruence. Qed.
Lemma doc_nil i rows : doc_entries i rows = [] <-> concat rows = [].
Proof.
  induction rows as [|r rows IH]; [split; reflexivity|]. cbn [doc_entries flat_map concat].
  split; intros H; apply app_eq_nil in H as [A B].
  - apply row_nil in A. apply IH in B. rewrite A, B. reflexivity.
  - rewrite A. cbn [row_from app]. apply IH, B.
Qed.

Lemma at_none es k : at_index es k = [] <-> ~ In k (indices es).
Proof.
  unfold indices. rewrite zset_in. unfold at_index. split.
  - intros E H. apply in_map_iff in H as (e & Ek & He).
    assert (K : In e (filter (fun e => e_index e =? k) es)) by (apply filter_In; split; [exact He|lia]).
    rewrite E in K. destruct K.
  - intros H. apply filter_none. intros e He. apply Z.eqb_neq. intros E. apply H. apply in_map_iff. exists e. auto.
Qed.

Lemma indices_all rowss k : In k (indices (all_entries 0 rowss)) <->
  0 <= k /\ exists rows, nth_error rowss (Z.to_nat k) = Some rows /\ concat rows <> [].
Proof.
  assert (Hpos : In k (indices (all_entries 0 rowss)) -> 0 <= k).
  { unfold indices. rewrite zset_in. intros H. apply in_map_iff in H as (e & <- & He). apply all_index in He. exact He. }
  assert (Hin : In k (indices (all_entries 0 rowss)) -> exists rows, nth_error rowss (Z.to_nat k) = Some rows).
  { intros H. pose proof (Hpos H) as K. unfold indices in H. rewrite zset_in in H. apply in_map_iff in H as (e & <- & He).
    clear Hpos. cut (forall i, i <= e_index e -> In e (all_entries i rowss) -> exists rows, nth_error rowss (Z.to_nat (e_index e - i)) = Some rows).
    { intros C. specialize (C 0 K He). rewrite Z.sub_0_r in C. exact C. }
    clear K He. induction rowss as [|r rowss IH]; intros i Hi He; [destruct He|]. cbn [all_entries] in He. apply in_app_or in He as [He|He].
    - apply doc_index in He as [<- _]. rewrite Z.sub_diag. exists r. reflexivity.
    - pose proof (all_index _ _ _ He) as K. destruct (IH (i + 1) K He) as (rows & E). exists rows.
      replace (Z.to_nat (e_index e - i)) with (S (Z.to_nat (e_index e - (i + 1)))) by lia. exact E. }
  split.
  - intros H. split; [auto|]. destruct (Hin H) as (rows & E). exists rows. split; [exact E|].
    intros K. pose proof (at_all rowss 0 _ _ E) as Ha. rewrite Z2Nat.id, Z.add_0_l in Ha by auto.
    apply (doc_nil k) in K. rewrite K in Ha. apply at_none in Ha. auto.
  - intros (Hk & rows & E & Hne). destruct (in_dec Z.eq_dec k (indices (all_entries 0 rowss))) as [K|K]; [exact K|].
    apply at_none in K. pose proof (at_all rowss 0 _ _ E) as Ha. rewrite Z2Nat.id, Z.add_0_l in Ha by auto.
    rewrite K in Ha. symmetry in Ha. apply doc_nil in Ha. congruence.
Qed.

(** ** Columns *)

Lemma bucket_row i r : forall lo k, (0 <= k)%nat ->
  map snd (bucket (row_from i lo r) (lo + Z.of_nat k)) = match nth_error r k with Some q => [q] | None => [] end.
Proof.
  induction r as [|q r IH]; intros lo k Hk; [destruct k; reflexivity|]. unfold bucket in *. cbn [row_from filter e_pos fst snd].
  destruct k as [|k].
  - rewrite Z.add_0_r, Z.eqb_refl. cbn [nth_error map snd]. f_equal. rewrite filter_none; [reflexivity|].
    intros e He. apply row_from_in in He. lia.
  - destruct (Z.eqb_spec lo (lo + Z.of_nat (S k))) as [K|_]; [lia|]. cbn [nth_error].
    replace (lo + Z.of_nat (S k)) with (lo + 1 + Z.of_nat k) by lia. apply IH. lia.
Qed.
Lemma bucket_doc i rows k : map snd (bucket (doc_entries i rows) (Z.of_nat k)) = column k rows.
Proof.
  induction rows as [|r rows IH]; [reflexivity|]. cbn [doc_entries flat_map]. unfold bucket in *. rewrite filter_app, map_app.
  cbn [column flat_map]. f_equal; [|exact IH]. pose proof (bucket_row i r 0 k ltac:(lia)) as K. exact K.
Qed.
Lemma sorted_columns i rows : map snd (pos_sort (doc_entries i rows)) = columns rows.
Proof.
  rewrite (pos_sort_buckets _ (Z.of_nat (list_max (map (@length _) rows)))).
  2: { intros e He. apply (doc_index i rows e He). }
  unfold columns, zseq. generalize (list_max (map (@length polyline) rows)) as n. intros n.
  replace (Z.to_nat (Z.of_nat n - 1 - 0 + 1)) with n by lia.
  induction (seq 0 n) as [|k ks IH]; [reflexivity|]. cbn [map flat_map]. rewrite map_app. f_equal; [apply bucket_doc|exact IH].
Qed.

Lemma column_map {A B} (f : A -> B) k rows : map f (column k rows) = column k (map (map f) rows).
Proof.
  induction rows as [|r rows IH]; [reflexivity|]. cbn [column flat_map map]. rewrite map_app. f_equal; [|exact IH].
  rewrite nth_error_map. destruct (nth_error r k); reflexivity.
Qed.
Lemma columns_map {A B} (f : A -> B) rows : map f (columns rows) = columns (map (map f) rows).
Proof.
  unfold columns. rewrite map_map. rewrite (map_ext (fun x => length (map f x)) (@length A)) by (intros; apply map_length).
  generalize (seq 0 (list_max (map (@length A) rows))) as ks. induction ks as [|k ks IH]; [reflexivity|].
  cbn [flat_map]. rewrite map_app, column_map, IH. reflexivity.
Qed.

Lemma columns_head {A} (rows : list (list A)) : concat rows <> [] ->
  exists before p r after rest, rows = before ++ (p :: r) :: after /\ Forall (fun x => x = []) before /\ columns rows = p :: rest.
Proof.
  intros H. assert (K : exists before p r after, rows = before ++ (p :: r) :: after /\ Forall (fun x => x = []) before).
  { induction rows as [|[|p r] rows IH]; [destruct H; reflexivity| |].
    - destruct (IH H) as (b & p & r & a & -> & Hb). exists ([] :: b), p, r, a. split; [reflexivity|constructor; auto].
    - exists [], p, r, rows. split; [reflexivity|constructor]. }
  destruct K as (b & p & r & a & E & Hb). exists b, p, r, a.
  assert (Hm : (1 <= list_max (map (@length A) rows))%nat).
  { pose proof (proj1 (list_max_le (map (@length A) rows) _) (le_n _)) as K. rewrite Forall_forall in K.
    assert (Hin : In (length (p :: r)) (map (@length A) rows)) by (apply in_map; rewrite E; apply in_or_app; right; left; reflexivity).
    specialize (K _ Hin). cbn [length] in K. lia. }
  unfold columns. destruct (list_max (map (@length A) rows)) as [|n]; [lia|]. cbn [seq flat_map].
  eexists. split; [exact E|]. split; [exact Hb|]. rewrite E at 1. unfold column at 1. rewrite flat_map_app.
  replace (flat_map (fun row => match nth_error row 0 with Some x => [x] | None => [] end) b) with (@nil A).
  - cbn [app flat_map nth_error]. reflexivity.
  - clear -Hb. induction Hb as [|x b -> Hb IH]; [reflexivity|exact IH].
Qed.

(** ** Writing rows *)

Section Lib.
  Context {P : Type} (lib : jsonlib P).
  Context (R : polyline -> polyline -> Prop).
  Context (same : forall p q, R p q -> pl_id q = pl_id p /\ pl_meta q = pl_meta p /\ pl_pts q = pl_pts p).

  (** The rows of a document: one per feature, one polyline per part. *)
  Definition doc_rows (i : Z) (d : document P) (rows : list (list polyline)) : Prop :=
    Forall2 (fun f r => Forall2 R (feature_polylines lib i f) r) (doc_features d) rows.
  Fixpoint docs_rows (i : Z) (docs : list (document P)) (rowss : list (list (list polyline))) : Prop :=
    match docs, rowss with
    | [], [] => True
    | d :: docs, rows :: rowss => doc_rows i d rows /\ docs_rows (i + 1) docs rowss
    | _, _ => False
    end.

  Lemma split_rows docs : forall i qs, Forall2 R (polylines_from lib i docs) qs ->
    exists rowss, qs = concat (map (@concat _) rowss) /\ docs_rows i docs rowss.
  Proof.
    induction docs as [|d docs IH]; intros i qs H.
    - inversion H; subst. exists []. split; [reflexivity|exact I].
    - cbn [polylines_from] in H. apply Forall2_app_inv_l in H as (q1 & q2 & H1 & H2 & ->).
      destruct (IH _ _ H2) as (rowss & -> & Hr).
      assert (K : forall fs q, Forall2 R (flat_map (feature_polylines lib i) fs) q ->
        exists rows, q = concat rows /\ Forall2 (fun f r => Forall2 R (feature_polylines lib i f) r) fs rows).
      { clear. induction fs as [|f fs IH]; intros q H.
        - inversion H; subst. exists []. split; [reflexivity|constructor].
        - cbn [flat_map] in H. apply Forall2_app_inv_l in H as (q1 & q2 & H1 & H2 & ->).
          destruct (IH _ H2) as (rows & -> & Hr). exists (q1 :: rows). split; [reflexivity|constructor; auto]. }
      destruct (K _ _ H1) as (rows & -> & Hrows). exists (rows :: rowss). split; [reflexivity|]. split; [exact Hrows|exact Hr].
  Qed.

  Lemma docs_rows_nth docs : forall i rowss n d, docs_rows i docs rowss -> nth_error docs n = Some d ->
    exists rows, nth_error rowss n = Some rows /\ doc_rows (i + Z.of_nat n) d rows.
  Proof.
    induction docs as [|d docs IH]; intros i rowss n d' H Hn; [destruct n; discriminate|].
    destruct rowss as [|rows rowss]; [destruct H|]. destruct H as [H1 H2]. destruct n as [|n].
    - injection Hn as <-. exists rows. rewrite Z.add_0_r. auto.
    - destruct (IH _ _ _ _ H2 Hn) as (rows' & A & B). exists rows'. split; [exact A|].
      replace (i + Z.of_nat (S n)) with (i + 1 + Z.of_nat n) by lia. exact B.
  Qed.
  Lemma docs_rows_len docs : forall i rowss, docs_rows i docs rowss -> length rowss = length docs.
  Proof.
    induction docs as [|d docs IH]; intros i [|rows rowss] H; try destruct H; [reflexivity|]. cbn [length]. f_equal. eapply IH; eauto.
  Qed.

  Lemma row_len i f r : Forall2 R (feature_polylines lib i f) r -> length r = length (feature_parts f).
  Proof.
    intros H. assert (E : length (feature_polylines lib i f) = length r) by (clear -H; induction H; cbn [length]; congruence). rewrite <- E. unfold feature_polylines. rewrite map_length.
    pose proof (numbered_snd (feature_parts f)) as K. rewrite <- K at 2. rewrite map_length. reflexivity.
  Qed.

  Lemma row_ids_of i f r : Forall2 R (feature_polylines lib i f) r -> row_ids i 0 r.
  Proof.
    unfold feature_polylines, numbered. intros H.
    assert (K : forall (cs : list (list (list f64))) lo r, 0 <= lo ->
      Forall2 R (map (fun pc => mk_polyline lib (compose_id i (fst pc)) (snd pc) (jl_marshal lib (jf_props f))) (combine (zseq lo (lo + zlen cs - 1)) cs)) r ->
      row_ids i lo r).
    { clear r H. induction cs as [|c cs IH]; intros lo r Hlo H.
      - rewrite combine_nil in H. inversion H; subst. exact I.
      - unfold zlen in *. cbn [length] in H. replace (lo + Z.of_nat (S (length cs)) - 1) with (lo + 1 + Z.of_nat (length cs) - 1) in H by lia.
        rewrite zseq_cons in H by lia. cbn [combine map fst snd] in H.
        inversion H as [|p q l l' Hr H' E1 E2]; subst. split.
        + apply same in Hr as [Hr _]. exact Hr.
        + apply IH; [lia|exact H']. }
    apply (K (feature_parts f)); [lia|]. exact H.
  Qed.

  Lemma row_meta i f p r : Forall2 R (feature_polylines lib i f) (p :: r) -> pl_meta p = jl_marshal lib (jf_props f).
  Proof.
    unfold feature_polylines. destruct (numbered (feature_parts f)) as [|[k c] l]; intros H; inversion H; subst.
    match goal with K : R _ p |- _ => apply same in K as (_ & E & _); exact E end.
  Qed.

  Lemma doc_rows_parts i d rows : doc_rows i d rows -> (concat rows = [] <-> doc_parts d = []).
  Proof.
    unfold doc_rows, doc_parts. induction 1 as [|f r fs rows Hr H IH]; [split; reflexivity|].
    cbn [concat flat_map]. apply row_len in Hr.
    split; intros K; apply app_eq_nil in K as [A B]; apply IH in B; rewrite B, app_nil_r.
    - rewrite A in Hr. destruct (feature_parts f); [reflexivity|discriminate].
    - rewrite A in Hr. destruct r; [reflexivity|discriminate].
  Qed.

  Lemma docs_few docs : forall i rowss, docs_rows i docs rowss ->
    Forall (fun f => few (feature_parts f)) (flat_map doc_features docs) -> Forall (Forall few) rowss.
  Proof.
    induction docs as [|d docs IH]; intros i [|rows rowss] H Hf; try destruct H; constructor.
    - cbn [flat_map] in Hf. apply Forall_app in Hf as [Hf _]. clear -H Hf. unfold doc_rows in H. induction H as [|f r fs rows Hr H IH]; constructor.
      + inversion Hf; subst. apply row_len in Hr. unfold few, zlen in *. rewrite Hr. assumption.
      + inversion Hf; subst. auto.
    - cbn [flat_map] in Hf. apply Forall_app in Hf as [_ Hf]. eapply IH; eauto.
  Qed.
  Lemma docs_ids docs : forall i rowss, docs_rows i docs rowss -> all_ids i rowss.
  Proof.
    induction docs as [|d docs IH]; intros i [|rows rowss] H; try destruct H; [exact I|]. split; [|eapply IH; eauto].
    clear -H same. unfold doc_rows in H. induction H as [|f r fs rows Hr H IH]; constructor; auto. eapply row_ids_of, Hr.
  Qed.

  (** A document with a part. *)
  Lemma create_doc i d rows : json_ok lib -> doc_rows i d rows -> doc_parts d <> [] ->
    exists o f, create_geojson lib (columns rows) = Ok o /\ first_linear (doc_features d) f /\
      of_props o = props_or_empty lib f /\
      written_parts (jl_zero lib) (columns (map (map simple_points) rows)) (of_geom o).
  Proof.
    intros HJ Hd Hne. destruct (columns_head rows) as (b & p & r & a & rest & E & Hb & Ec).
    { intros K. apply Hne. apply (doc_rows_parts i d rows Hd). exact K. }
    unfold doc_rows in Hd. rewrite E in Hd. apply Forall2_app_inv_r in Hd as (fb & fa & H1 & H2 & Ef).
    inversion H2 as [|f x fa' y Hr H3 E1 E2]; subst.
    assert (Hmeta : get_meta lib p = Ok (props_or_empty lib f)).
    { pose proof (row_meta _ _ _ _ Hr) as Em. destruct p as [pid pm pp ps]. cbn [pl_meta] in Em. subst pm. apply get_meta_spec. exact HJ. }
    assert (K : exists o, create_geojson lib (columns (b ++ (p :: r) :: a)) = Ok o /\ of_props o = props_or_empty lib f).
    { rewrite Ec. destruct rest as [|q rest]; cbn [create_geojson]; rewrite Hmeta; cbn [bind]; eexists; split; reflexivity. }
    destruct K as (o & Eo & Ep). exists o, f. split; [exact Eo|]. split; [|split; [exact Ep|]].
    - exists fb, fa'. split; [exact Ef|]. split.
      + clear -H1 Hb. induction H1 as [|g r fs rows Hr H IH]; constructor.
        * inversion Hb; subst. apply row_len in Hr. destruct (feature_parts g); [reflexivity|discriminate].
        * inversion Hb; subst. auto.
      + apply row_len in Hr. intros K. rewrite K in Hr. discriminate.
    - apply create_geojson_geom in Eo. rewrite columns_map in Eo. exact Eo.
  Qed.

  Lemma rows_kept i d rows (K : list point -> list point -> Prop) : doc_rows i d rows ->
    (forall p q, R p q -> K (pl_pts p) (simple_points q)) ->
    Forall2 (fun g ks => Forall2 (fun c k => K (map (jl_point lib) c) k) (feature_parts g) ks) (doc_features d) (map (map simple_points) rows).
  Proof.
    intros Hd HK. unfold doc_rows in Hd. induction Hd as [|f r fs rows Hr Hd IH]; cbn [map]; constructor; auto.
    pose proof (feature_pts lib i f) as Ep. clear -Hr HK Ep.
    revert Ep. generalize (feature_parts f) as cs. induction Hr as [|p q ps qs Hpq Hr IH]; intros cs Ep.
    - destruct cs; [constructor|discriminate].
    - destruct cs as [|c cs]; [discriminate|]. cbn [map] in Ep |- *. injection Ep as E1 E2. constructor; [|apply IH; exact E2].
      rewrite <- E1. apply HK, Hpq.
  Qed.

  Lemma group_docs docs rowss m : json_ok lib -> docs_rows 0 docs rowss -> few docs ->
    Forall (fun f => few (feature_parts f)) (flat_map doc_features docs) -> linear_first docs m ->
    exists outs, group_plns lib (concat (map (@concat _) rowss)) = Ok outs /\ length outs = m /\
      forall i d, (i < m)%nat -> nth_error docs i = Some d -> exists rows ot f,
        nth_error rowss i = Some rows /\ doc_rows (Z.of_nat i) d rows /\
        nth_error outs i = Some ot /\ first_linear (doc_features d) f /\ of_props ot = props_or_empty lib f /\
        written_parts (jl_zero lib) (columns (map (map simple_points) rows)) (of_geom ot).
  Proof.
    intros HJ Hd Hn Hf [Hm Hlin]. pose proof (docs_rows_len _ _ _ Hd) as El.
    unfold group_plns. rewrite (entries_all rowss 0).
    2: lia. 2: { unfold few, zlen in *. rewrite El. lia. } 2: { eapply docs_few; eauto. } 2: { eapply docs_ids; eauto. }
    cbn [bind].
    assert (Ei : indices (all_entries 0 rowss) = zseq 0 (Z.of_nat m - 1)).
    { apply increasing_ext; [apply zset_incr|apply zseq_incr|]. intros k. rewrite indices_all, zseq_in. split.
      - intros (Hk & rows & E & Hne).
        destruct (nth_error docs (Z.to_nat k)) as [d|] eqn:Ed.
        2: { apply nth_error_None in Ed. assert (Z.to_nat k < length rowss)%nat by (apply nth_error_Some; congruence). lia. }
        destruct (docs_rows_nth _ _ _ _ _ Hd Ed) as (rows' & E' & Hr). rewrite E in E'. injection E' as <-.
        apply (doc_rows_parts _ _ _) in Hr. assert (Hp : doc_parts d <> []) by (intros K; apply Hne, Hr, K).
        apply (Hlin _ _ Ed) in Hp. lia.
      - intros Hk. split; [lia|]. destruct (nth_error docs (Z.to_nat k)) as [d|] eqn:Ed.
        2: { apply nth_error_None in Ed. lia. }
        destruct (docs_rows_nth _ _ _ _ _ Hd Ed) as (rows & E & Hr). exists rows. split; [exact E|].
        apply (doc_rows_parts _ _ _) in Hr. intros K. apply Hr in K. revert K. apply (Hlin _ _ Ed). lia. }
    rewrite Ei, zseq_len by lia.
    assert (K : forall n lo, lo + Z.of_nat n = Z.of_nat m -> 0 <= lo ->
      exists outs, mapM (fun idx => create_geojson lib (map snd (pos_sort (at_index (all_entries 0 rowss) idx)))) (zseq lo (Z.of_nat m - 1)) = Ok outs /\
        length outs = n /\
        forall i d, (i < n)%nat -> nth_error docs (Z.to_nat lo + i) = Some d -> exists rows ot f,
          nth_error rowss (Z.to_nat lo + i) = Some rows /\ doc_rows (lo + Z.of_nat i) d rows /\
          nth_error outs i = Some ot /\ first_linear (doc_features d) f /\ of_props ot = props_or_empty lib f /\
          written_parts (jl_zero lib) (columns (map (map simple_points) rows)) (of_geom ot)).
    { induction n as [|n IH]; intros lo Hlo Hp.
      - rewrite zseq_nil by lia. exists []. split; [reflexivity|]. split; [reflexivity|]. intros; lia.
      - rewrite zseq_cons by lia. cbn [mapM].
        destruct (nth_error docs (Z.to_nat lo)) as [d|] eqn:Ed.
        2: { apply nth_error_None in Ed. lia. }
        destruct (docs_rows_nth _ _ _ _ _ Hd Ed) as (rows & E & Hr). rewrite Z2Nat.id, Z.add_0_l in Hr by lia.
        pose proof (at_all rowss 0 _ _ E) as Ha. rewrite Z2Nat.id, Z.add_0_l in Ha by lia.
        rewrite Ha, sorted_columns.
        destruct (create_doc lo d rows HJ Hr) as (o & f & Eo & Hfl & Ep & Hw).
        { apply (Hlin _ _ Ed). lia. }
        rewrite Eo. cbn [bind]. destruct (IH (lo + 1)) as (outs & -> & Hl & Hi); [lia|lia|]. cbn [bind].
        exists (o :: outs). split; [reflexivity|]. split; [cbn [length]; lia|]. intros [|i] d' Hin Hi'.
        + rewrite Nat.add_0_r in Hi'. rewrite Ed in Hi'. injection Hi' as <-. rewrite Nat.add_0_r, Z.add_0_r.
          exists rows, o, f. cbn [nth_error]. repeat (split; [assumption || reflexivity|]). exact Hw.
        + replace (Z.to_nat lo + S i)%nat with (Z.to_nat (lo + 1) + i)%nat in * by lia.
          destruct (Hi i d' ltac:(lia) Hi') as (rows' & o' & f' & A1 & A2 & A3 & A4). exists rows', o', f'. cbn [nth_error].
          replace (lo + Z.of_nat (S i)) with (lo + 1 + Z.of_nat i) by lia. auto. }
    replace (Z.of_nat m - 1 - 0 + 1 - 1) with (Z.of_nat m - 1) by lia.
    destruct (K m 0) as (outs & E & Hl & Hi); [lia|lia|]. exists outs. split; [exact E|]. split; [exact Hl|].
    intros i d Hi1 Hi2. apply (Hi i d Hi1 Hi2).
  Qed.

  Lemma create_no_fuel l : create_geojson lib l <> NoFuel.
  Proof.
    destruct l as [|p [|q l]]; cbn [create_geojson]; [discriminate| |]; unfold get_meta, check;
      destruct (bytes_eqb _ _); cbn [bind]; try discriminate; destruct (jl_unmarshal lib _); discriminate.
  Qed.

  Lemma group_gap docs rowss : docs_rows 0 docs rowss -> few docs ->
    Forall (fun f => few (feature_parts f)) (flat_map doc_features docs) -> gap docs ->
    group_plns lib (concat (map (@concat _) rowss)) = Panic.
  Proof.
    intros Hd Hn Hf (i & j & d & e & Hij & Ed & Ee & Hdp & Hep). pose proof (docs_rows_len _ _ _ Hd) as El.
    unfold group_plns. rewrite (entries_all rowss 0).
    2: lia. 2: { unfold few, zlen in *. rewrite El. lia. } 2: { eapply docs_few; eauto. } 2: { eapply docs_ids; eauto. }
    cbn [bind]. set (ix := indices (all_entries 0 rowss)).
    assert (Hi : ~ In (Z.of_nat i) ix).
    { unfold ix. rewrite indices_all, Nat2Z.id. intros (_ & rows & E & Hne).
      destruct (docs_rows_nth _ _ _ _ _ Hd Ed) as (rows' & E' & Hr). rewrite E in E'. injection E' as <-.
      apply (doc_rows_parts _ _ _) in Hr. tauto. }
    assert (Hj : In (Z.of_nat j) ix).
    { unfold ix. rewrite indices_all, Nat2Z.id. split; [lia|].
      destruct (docs_rows_nth _ _ _ _ _ Hd Ee) as (rows & E & Hr). exists rows. split; [exact E|].
      apply (doc_rows_parts _ _ _) in Hr. tauto. }
    assert (Hex : exists k, In k (zseq 0 (zlen ix - 1)) /\ ~ In k ix).
    { destruct (Forall_Exists_dec (fun k => In k ix) (fun k => in_dec Z.eq_dec k ix) (zseq 0 (zlen ix - 1))) as [H|H].
      - exfalso. apply Hi. rewrite Forall_forall in H. apply H. apply zseq_in.
        assert (Hinc : incl ix (zseq 0 (zlen ix - 1))).
        { apply NoDup_length_incl; [apply incr_nodup, zseq_incr| |intros k Hk; apply H, Hk].
          pose proof (zseq_len 0 (zlen ix - 1) ltac:(unfold zlen; lia)) as K. unfold zlen in *. lia. }
        apply Hinc, zseq_in in Hj. lia.
      - apply Exists_exists in H. exact H. }
    destruct Hex as (k & Hk & Hnk). apply (mapM_panic _ _ k Hk).
    - apply at_none in Hnk. rewrite Hnk. reflexivity.
    - intros y _. apply create_no_fuel.
  Qed.
End Lib.

Lemma parts_dec {P} (d : document P) : {doc_parts d = []} + {doc_parts d <> []}.
Proof. destruct (doc_parts d); [left|right]; congruence. Qed.

(** Either a document without a part comes before one with a part, or the ones with a part
    come first. *)
Lemma gap_or_first {P} (docs : list (document P)) : gap docs \/ exists m, linear_first docs m.
Proof.
  induction docs as [|d docs IH].
  - right. exists 0%nat. split; [cbn; lia|]. intros i d H. destruct i; discriminate.
  - destruct IH as [(i & j & a & b & Hij & Ha & Hb & Hap & Hbp)|(m & Hm & Hl)].
    + left. exists (S i), (S j), a, b. split; [lia|]. auto.
    + destruct (parts_dec d) as [Hd|Hd].
      * destruct m as [|m].
        -- right. exists 0%nat. split; [lia|]. intros [|i] e He.
           ++ injection He as <-. split; [congruence|lia].
           ++ rewrite (Hl i e He). lia.
        -- left. destruct (nth_error docs 0) as [e|] eqn:Ee; [|apply nth_error_None in Ee; lia].
           exists 0%nat, 1%nat, d, e. split; [lia|]. split; [reflexivity|]. split; [exact Ee|]. split; [exact Hd|].
           apply (Hl 0%nat e Ee). lia.
      * right. exists (S m). split; [cbn; lia|]. intros [|i] e He.
        -- injection He as <-. split; [lia|auto].
        -- rewrite (Hl i e He). lia.
Qed.

(** ** Whole runs *)

Lemma flat_parts {P} (docs : list (document P)) : flat_map feature_parts (flat_map doc_features docs) = flat_map doc_parts docs.
Proof. induction docs as [|d docs IH]; [reflexivity|]. cbn [flat_map]. rewrite flat_map_app, IH. reflexivity. Qed.

Lemma docs_done {P} (lib : jsonlib P) S is_class o score input cinput docs gs :
  run_docs lib S is_class o score input cinput docs gs ->
  exists selfs done, in_run S is_class o score gs (map (map (jl_point lib)) (flat_map doc_parts docs)) selfs /\
    (match selfs with
     | [] => Ok []
     | d :: _ =>
       if is_class
       then simplify_feature_class (su_world S) (su_gens S) (su_ords S) (su_ord S) (env_of d selfs) selfs o (su_fuel S)
       else simplify_instances (su_world S) (su_gens S) (su_ords S) (fun _ => []) (su_fuel S) selfs
     end) = Ok done /\ map fst done = selfs /\
    (forall s hs, In (s, hs) done -> outcome S is_class o selfs s hs) /\
    (forall m, linear_first docs m -> exists outs,
       run lib S is_class o score (unlines input) (unlines cinput) = Ok outs /\
       writes_docs lib docs m outs (fun pts k => exists s hs, In (s, hs) done /\ c_pts s = pts /\ k = simple_set hs)) /\
    (gap docs -> run lib S is_class o score (unlines input) (unlines cinput) = Panic).
Proof.
  intros [HJ HS Hi1 (toks & Hi2 & Hr) Hgeo Hn Hp Hc1 (ctoks & cdocs & Hc2 & Hcr & Hcg & Hgs) Hg Hl Hc Hf].
  assert (Hn' : few docs) by (unfold few, max_int; lia).
  assert (Hp' : Forall (fun f => few (feature_parts f)) (flat_map doc_features docs)).
  { eapply Forall_impl; [|exact Hp]. intros f Hff. cbv beta in Hff. unfold few, max_int. lia. }
  set (plns := polylines_from lib 0 docs).
  set (lines := map (map (jl_point lib)) (flat_map doc_parts docs)) in *.
  assert (Elines : map pl_pts plns = lines).
  { unfold plns, lines. rewrite polylines_pts, flat_parts. reflexivity. }
  pose proof HS as [HW Hids Hgens Hfresh Hords Hord].
  destruct (forest_spec (su_world S) (su_ids S) gs o score (lb_rtree _ HW) Hg plns 0) as (selfs & E & Hs & Hi).
  assert (Epts : map c_pts selfs = lines).
  { rewrite <- Elines. clear -Hs. induction Hs as [|p s plns selfs (H & _) Hs IH]; [reflexivity|]. cbn [map]. rewrite H, IH. reflexivity. }
  assert (Hnd : NoDup (map c_id selfs)).
  { rewrite Hi. apply FinFun.Injective_map_NoDup; [exact Hids|apply seq_NoDup]. }
  assert (Hmade : forall s, In s selfs -> made S o score gs s /\ line_ok (w_geom (su_world S)) s).
  { intros s Hin. destruct (forall2_in_r _ _ _ Hs s Hin) as (p & Hpl & A & B & C & D & F).
    split; [unfold made; auto|]. rewrite Forall_forall in Hl.
    apply (line_ok_ext _ (proto o score (pl_pts p))); auto. apply Hl. rewrite <- Elines. apply in_map, Hpl. }
  destruct (outcomes S is_class o selfs HS Hnd) as (done & Ed & Em & Ho).
  { intros s Hin. destruct (Hmade s Hin) as [(_ & _ & _ & B) A]. eauto. }
  { rewrite Epts. exact Hc. } { rewrite Epts. exact Hf. }
  exists selfs, done. split; [split; assumption|]. split; [exact Ed|]. split; [exact Em|]. split; [exact Ho|].
  destruct (set_simple_outcome (fun s hs => In (s, hs) done /\ outcome S is_class o selfs s hs) plns selfs (fun p s => c_pts s = pl_pts p)) with (done := done)
    as (qs & Eq & Hq); auto.
  { clear -Hs. induction Hs as [|p s plns selfs (H & _)]; constructor; auto. }
  { apply Forall_forall. intros p Hin. rewrite Forall_forall in Hl.
    apply (lk_two _ (proto o score (pl_pts p))  (Hl (pl_pts p) ltac:(rewrite <- Elines; apply in_map, Hin))). }
  match type of Hq with Forall2 ?R _ _ => set (same := R) in Hq end.
  assert (Hsame : forall p q, same p q -> pl_id q = pl_id p /\ pl_meta q = pl_meta p /\ pl_pts q = pl_pts p).
  { intros p q (A & B & C & _). auto. }
  destruct (split_rows lib same docs 0 qs Hq) as (rowss & -> & Hrows).
  assert (Erun : run lib S is_class o score (unlines input) (unlines cinput) = group_plns lib (concat (map (@concat _) rowss))).
  { unfold run. rewrite (tokens_of input toks Hi1 Hi2), (tokens_of cinput ctoks Hc1 Hc2).
    rewrite (parse_constraints_spec lib ctoks cdocs Hcr Hcg), Hgs.
    unfold parse_input. rewrite (parse_from_spec lib toks docs Hr 0 Hgeo). cbn [bind]. fold plns. rewrite E. cbn [bind].
    rewrite Ed. cbn [bind]. rewrite Eq. reflexivity. }
  rewrite Erun. split.
  - intros m Hm. destruct (group_docs lib same Hsame docs rowss m HJ Hrows Hn' Hp' Hm) as (outs & Eo & El & Hw).
    exists outs. split; [exact Eo|]. split; [exact El|]. intros i d Him Hid.
    destruct (Hw i d Him Hid) as (rows & ot & f & _ & A2 & A3 & A4 & A5 & A6).
    exists ot, f, (map (map simple_points) rows). split; [exact A3|]. split; [exact A4|]. split; [exact A5|]. split; [|exact A6].
    apply (rows_kept lib same (Z.of_nat i) d rows _ A2). intros p q (B1 & B2 & B3 & s & hs & D1 & D2 & (D0 & D3) & D4).
    exists (simple_set hs). rewrite <- D1. split; [|split].
    + destruct D3 as [_ Ht _ _]. apply (point_set_tiling hs (c_pts s)); [|exact Ht]. apply (lk_two _ _ (proj2 (Hmade s D2))).
    + exists s, hs. split; [exact D0|]. split; reflexivity.
    + unfold simple_points. rewrite B3, D4, <- D1. reflexivity.
  - intros Hgap. exact (group_gap lib same Hsame docs rowss Hrows Hn' Hp' Hgap).
Qed.

Lemma writes_docs_impl {P} (lib : jsonlib P) docs m outs (R R' : list point -> list Z -> Prop) :
  (forall pts k, In pts (map (map (jl_point lib)) (flat_map doc_parts docs)) -> R pts k -> R' pts k) ->
  writes_docs lib docs m outs R -> writes_docs lib docs m outs R'.
Proof.
  intros H (El & Ho). split; [exact El|].
  intros i d Him Hid. destruct (Ho i d Him Hid) as (ot & f & kept & A & B & C & D & E). exists ot, f, kept.
  split; [exact A|]. split; [exact B|]. split; [exact C|]. split; [|exact E].
  assert (Hin : forall g c, In g (doc_features d) -> In c (feature_parts g) ->
    In (map (jl_point lib) c) (map (map (jl_point lib)) (flat_map doc_parts docs))).
  { intros g c Hg Hc. apply in_map. apply in_flat_map. exists d. split; [eapply nth_error_In; exact Hid|].
    unfold doc_parts. apply in_flat_map. eauto. }
  clear -D Hin H. induction D as [|g ks gs kss Hg D IH]; constructor.
  - assert (Hc : forall c, In c (feature_parts g) -> In (map (jl_point lib) c) (map (map (jl_point lib)) (flat_map doc_parts docs))).
    { intros c. apply Hin. left. reflexivity. }
    clear -Hg Hc H. induction Hg as [|c k cs ks (s & Hk & Hr & Ek) C IH]; constructor.
    + exists s. split; [exact Hk|]. split; [|exact Ek]. apply H; [apply Hc; left; auto|exact Hr].
    + apply IH. intros x Hx. apply Hc. right; auto.
  - apply IH. intros x c Hx. apply Hin. right; auto.
Qed.

Lemma docs_in_run {P} (lib : jsonlib P) S is_class o score input cinput docs gs :
  run_docs lib S is_class o score input cinput docs gs ->
  exists selfs, in_run S is_class o score gs (map (map (jl_point lib)) (flat_map doc_parts docs)) selfs /\
    (forall m, linear_first docs m -> exists outs,
       run lib S is_class o score (unlines input) (unlines cinput) = Ok outs /\
       writes_docs lib docs m outs (result_of S is_class o selfs)) /\
    (gap docs -> run lib S is_class o score (unlines input) (unlines cinput) = Panic).
Proof.
  intros H. destruct (docs_done lib S is_class o score input cinput docs gs H) as (selfs & done & Hr & _ & Ef & Ho & Hw & Hg).
  exists selfs. split; [exact Hr|]. split; [|exact Hg]. intros m Hm. destruct (Hw m Hm) as (outs & E & W). exists outs. split; [exact E|].
  eapply writes_docs_impl; [|exact W]. intros pts k _ (s & hs & Hd & Ep & Ek). exists s, hs.
  split; [rewrite <- Ef; exact (in_map fst _ _ Hd)|]. split; [exact Ep|]. split; [apply Ho, Hd|exact Ek].
Qed.
