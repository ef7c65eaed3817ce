(** Proofs about range splitting, hull splitting and merging. *)
From Verif Require Import M_Base M_Float M_Rng M_Geom M_Offset M_Node M_Decompose M_Split
  Spec P_Base P_Float P_Decompose.
From Coq Require Import Sorted.
Open Scope Z_scope.

(** ** rng.Split *)

Definition cut (rs : list rng) (x : Z) : Prop := exists r, In r rs /\ rJ r = x.

Lemma split_fold i j : i < j -> forall l acc m,
  increasing l ->
  chain i m (rev acc) ->
  match acc with [] => m = i | h :: _ => rJ h = m end ->
  m < j ->
  (forall x, In x l -> i < x < j -> m < x) ->
  let r := fold_left (split_step i j) l acc in
  exists m', chain i m' (rev r) /\
    match r with [] => m' = i | h :: _ => rJ h = m' end /\
    m' < j /\
    forall x, cut r x <-> cut acc x \/ (In x l /\ i < x < j).
Proof.
  intros Hij; induction l as [|y l IH]; intros acc m Hinc Hch Hhd Hm Hgt; cbn [fold_left].
  - exists m; repeat split; auto. intros [H|[[] _]]; exact H.
  - inversion Hinc as [|? ? Hinc' Hf]; subst. rewrite Forall_forall in Hf.
    assert (Hs : split_step i j acc y =
      if (i <? y) && (y <? j) then Rng m y :: acc else acc).
    { unfold split_step; destruct ((i <? y) && (y <? j)); auto.
      destruct acc; cbn in *; subst; reflexivity. }
    cbv zeta in *; rewrite Hs; clear Hs.
    destruct (Z.ltb_spec i y) as [H1|H1]; cbn [andb].
    + destruct (Z.ltb_spec y j) as [H2|H2].
      * destruct (IH (Rng m y :: acc) y) as (m' & A1 & A2 & A3 & A4); auto.
        -- cbn [rev]; apply chain_app; exists m; split; [exact Hch|].
           cbn; repeat split; auto; apply Hgt; [left; auto|lia].
        -- exists m'; repeat split; auto.
           ++ intros Hc; apply A4 in Hc. destruct Hc as [[r [[<-|Hr] E]]|[Hx Hb]].
              ** cbn in E; right; subst; split; [left; auto|lia].
              ** left; exists r; auto.
              ** right; split; [right; exact Hx|exact Hb].
           ++ intros [[r [Hr E]]|[[<-|Hx] Hb]]; apply A4.
              ** left; exists r; split; [right; auto|exact E].
              ** left; exists (Rng m y); split; [left; auto|reflexivity].
              ** right; auto.
      * destruct (IH acc m) as (m' & A1 & A2 & A3 & A4); auto.
        { intros x Hx Hb; apply Hgt; [right; auto|exact Hb]. }
        exists m'; repeat split; auto.
        -- intros Hc; apply A4 in Hc; intuition.
        -- intros [Hc|[[<-|Hx] Hb]]; apply A4; auto; lia.
    + destruct (IH acc m) as (m' & A1 & A2 & A3 & A4); auto.
      { intros x Hx Hb; apply Hgt; [right; auto|exact Hb]. }
      exists m'; repeat split; auto.
      * intros Hc; apply A4 in Hc; intuition.
      * intros [Hc|[[<-|Hx] Hb]]; apply A4; auto; lia.
Qed.

Lemma split_step_degenerate i j l : forall acc, j <= i -> fold_left (split_step i j) l acc = acc.
Proof.
  induction l as [|y l IH]; intros acc H; cbn [fold_left]; [reflexivity|].
  rewrite IH by exact H; unfold split_step.
  destruct (Z.ltb_spec i y), (Z.ltb_spec y j); auto; lia.
Qed.

Lemma rsplit_nil o idxs :
  (forall x, In x idxs -> ~ rI o < x < rJ o) -> rsplit o idxs = [].
Proof.
  intros H; unfold rsplit.
  assert (E : forall l acc, (forall x, In x l -> ~ rI o < x < rJ o) ->
             fold_left (split_step (rI o) (rJ o)) l acc = acc).
  { induction l as [|y l IH]; intros acc Hl; cbn [fold_left]; [reflexivity|].
    rewrite IH by (intros; apply Hl; right; auto).
    unfold split_step; specialize (Hl y (or_introl eq_refl)).
    destruct (Z.ltb_spec (rI o) y), (Z.ltb_spec y (rJ o)); auto; lia. }
  rewrite E; [reflexivity|]. intros x Hx; apply H; apply zset_in; exact Hx.
Qed.

Lemma rsplit_spec o idxs :
  (exists x, In x idxs /\ rI o < x < rJ o) ->
  chain (rI o) (rJ o) (rsplit o idxs) /\
  forall x, cut (rsplit o idxs) x <-> x = rJ o \/ (In x idxs /\ rI o < x < rJ o).
Proof.
  intros [w [Hw Hb]]; unfold rsplit.
  destruct (split_fold (rI o) (rJ o) ltac:(lia) (zset idxs) [] (rI o))
    as (m' & A1 & A2 & A3 & A4); auto.
  - apply zset_incr.
  - cbn; auto.
  - lia.
  - intros x _ H; lia.
  - cbv zeta in A1, A2, A4.
    remember (fold_left (split_step (rI o) (rJ o)) (zset idxs) []) as r eqn:Er.
    assert (Hne : exists h t, r = h :: t).
    { destruct r as [|h t]; [|eauto].
      assert (cut [] w) as [? [[] _]]. apply A4; right; split; [apply zset_in; exact Hw|exact Hb]. }
    destruct Hne as [h [t ->]].
    destruct (Z.ltb_spec (rJ h) (rJ o)); [|lia].
    split.
    + cbn [rev] in *; rewrite <- app_assoc.
      apply chain_app in A1; destruct A1 as [m1 [B1 B2]].
      apply chain_app; exists m1; split; [exact B1|]. cbn in B2 |- *. intuition lia.
    + intros x; split.
      * intros [r [Hr E]]; apply in_rev in Hr; destruct Hr as [<-|Hr].
        -- cbn in E; auto.
        -- assert (Hc : cut (h :: t) x) by (exists r; auto).
           apply A4 in Hc; destruct Hc as [[? [[] _]]|[Hx Hbx]].
           right; split; [apply zset_in; exact Hx|exact Hbx].
      * intros [->|[Hx Hbx]].
        -- exists (Rng (rJ h) (rJ o)); split; [apply in_rev; rewrite rev_involutive; left; auto|reflexivity].
        -- assert (Hc : cut (h :: t) x).
           { apply A4; right; split; [apply zset_in; exact Hx|exact Hbx]. }
           destruct Hc as [r [Hr E]]; exists r; split; [|exact E].
           apply in_rev; rewrite rev_involutive; right; exact Hr.
Qed.

Lemma rsplit_empty_iff o idxs :
  rsplit o idxs = [] <-> (forall x, In x idxs -> ~ rI o < x < rJ o).
Proof.
  split.
  - intros E x Hx Hb. destruct (rsplit_spec o idxs) as [_ H]; [exists x; auto|].
    assert (Hc : cut (rsplit o idxs) x) by (apply H; auto).
    rewrite E in Hc; destruct Hc as [? [[] _]].
  - apply rsplit_nil.
Qed.

(** ** Slices of a hull *)

Lemma cslice_hull pts I J i j :
  0 <= i -> i <= j -> j <= J - I + 1 -> I <= J ->
  cslice (Coords pts (zseq I J)) i j = Ok (Coords pts (zseq (I + i) (I + j - 1))).
Proof.
  intros H1 H2 H3 H4; unfold cslice, clen; cbn [cidxs cpnts].
  rewrite zseq_len by lia.
  destruct (Z.leb_spec 0 i), (Z.leb_spec i j), (Z.leb_spec j (J - I + 1)); try lia; cbn [andb].
  rewrite slice_zseq by lia; reflexivity.
Qed.

Lemma hull_len pts h : hull_of pts h -> clen (n_coords h) = rJ (n_rng h) - rI (n_rng h) + 1.
Proof.
  intros (H1 & H2 & H3 & ->); unfold clen; cbn [cidxs]; apply zseq_len; lia.
Qed.

(** What a freshly created hull looks like. *)
Definition fresh_hull (L : geomlib) (pts : list point) (inst : Z) (h : node) : Prop :=
  hull_of pts h /\
  n_geom h = hull_geometry (gl_hull L (cpts (n_coords h))) /\
  n_mbr h = gl_bounds L (n_geom h) /\
  n_inst h = inst.

Lemma at_ranges_spec L gen pts h :
  hull_of pts h -> forall rs ctr,
  (forall r, In r rs -> rI (n_rng h) <= rI r /\ rI r < rJ r /\ rJ r <= rJ (n_rng h)) ->
  exists hs, at_ranges L gen h rs ctr = Ok (hs, (ctr + length rs)%nat) /\
    map n_rng hs = rs /\
    Forall (fresh_hull L pts (n_inst h)) hs /\
    map n_id hs = map gen (seq ctr (length rs)).
Proof.
  intros Hh; destruct Hh as (H1 & H2 & H3 & Hc).
  induction rs as [|r rs IH]; intros ctr Hin.
  - exists []; cbn; rewrite Nat.add_0_r; auto.
  - destruct (IH (S ctr)) as (hs & E & Er & Ef & Ei); [intros; apply Hin; right; auto|].
    specialize (Hin r (or_introl eq_refl)).
    cbn [at_ranges]; rewrite Hc, cslice_hull by lia; cbn [bind].
    rewrite E; cbn [bind].
    eexists; split; [cbn [length]; rewrite Nat.add_succ_r; reflexivity|].
    split; [cbn; f_equal; exact Er|].
    split; [|cbn [map seq length n_id create_node]; f_equal; exact Ei].
    constructor; [|exact Ef].
    unfold fresh_hull, hull_of; cbn; repeat split; try lia.
    f_equal; f_equal; lia.
Qed.

Lemma at_index_spec L gen pts h idxs ctr :
  hull_of pts h ->
  exists hs, at_index L gen h idxs ctr = Ok (hs, (ctr + length hs)%nat) /\
    map n_rng hs = rsplit (n_rng h) idxs /\
    Forall (fresh_hull L pts (n_inst h)) hs /\
    map n_id hs = map gen (seq ctr (length hs)).
Proof.
  intros Hh; unfold at_index.
  destruct (at_ranges_spec L gen pts h Hh (rsplit (n_rng h) idxs) ctr) as (hs & E & Er & Ef & Ei).
  - destruct (rsplit (n_rng h) idxs) as [|r0 rs0] eqn:Es; [intros ? []|]. rewrite <- Es.
    assert (Hex : exists x, In x idxs /\ rI (n_rng h) < x < rJ (n_rng h)).
    { destruct (existsb (fun x => (rI (n_rng h) <? x) && (x <? rJ (n_rng h))) idxs) eqn:Ex.
      - apply existsb_exists in Ex; destruct Ex as [x [Hx Hb]]; exists x; split; [exact Hx|].
        apply andb_true_iff in Hb; lia.
      - exfalso. assert (rsplit (n_rng h) idxs = []) as E0; [|congruence].
        apply rsplit_nil; intros x Hx Hb.
        assert (existsb (fun x => (rI (n_rng h) <? x) && (x <? rJ (n_rng h))) idxs = true); [|congruence].
        apply existsb_exists; exists x; split; [exact Hx|]. apply andb_true_iff; lia. }
    destruct (rsplit_spec _ _ Hex) as [Hch _].
    intros r Hr; apply (chain_in _ _ _ _ Hch Hr).
  - exists hs. assert (Hl : length hs = length (rsplit (n_rng h) idxs)) by (rewrite <- Er, map_length; auto).
    rewrite Hl; auto.
Qed.

Lemma at_score_spec L gen pts h score ctr :
  hull_of pts h ->
  let k := fst (score (n_coords h)) in
  0 < k < rJ (n_rng h) - rI (n_rng h) ->
  exists ha hb, at_score_selection L gen h score ctr = Ok (ha, hb, S (S ctr)) /\
    n_rng ha = Rng (rI (n_rng h)) (rI (n_rng h) + k) /\
    n_rng hb = Rng (rI (n_rng h) + k) (rJ (n_rng h)) /\
    fresh_hull L pts (n_inst h) ha /\ fresh_hull L pts (n_inst h) hb /\
    n_id ha = gen ctr /\ n_id hb = gen (S ctr).
Proof.
  intros Hh k Hk; pose proof (hull_len _ _ Hh) as Hl.
  destruct Hh as (H1 & H2 & H3 & Hc).
  unfold at_score_selection. rewrite Hl. unfold k in *.
  destruct (score (n_coords h)) as [k0 v]; cbn [fst] in *.
  rewrite Hc, !cslice_hull by lia; cbn [bind].
  do 2 eexists; split; [reflexivity|].
  unfold fresh_hull, hull_of; cbn; repeat split; try lia; f_equal; f_equal; lia.
Qed.

(** Splitting at a score index that is not interior panics or fails to shrink. *)
Lemma at_score_end L gen pts h score ctr :
  hull_of pts h ->
  fst (score (n_coords h)) = rJ (n_rng h) - rI (n_rng h) ->
  exists ha hb, at_score_selection L gen h score ctr = Ok (ha, hb, S (S ctr)) /\
    n_rng ha = n_rng h /\ n_rng hb = Rng (rJ (n_rng h)) (rJ (n_rng h)).
Proof.
  intros Hh Hk; pose proof (hull_len _ _ Hh) as Hl.
  destruct Hh as (H1 & H2 & H3 & Hc).
  unfold at_score_selection. rewrite Hl.
  destruct (score (n_coords h)) as [k0 v]; cbn [fst] in *; subst k0.
  rewrite Hc, !cslice_hull by lia; cbn [bind].
  do 2 eexists; split; [reflexivity|].
  cbn; destruct (n_rng h) as [I J]; cbn; split; f_equal; lia.
Qed.

(** ** Merging *)

Lemma merge_range_spec ra rb :
  rI ra <= rJ ra -> rI rb <= rJ rb ->
  merge_range ra rb = Rng (Z.min (rI ra) (rI rb)) (Z.max (rJ ra) (rJ rb)).
Proof.
  intros Ha Hb; unfold merge_range.
  destruct ra as [a b], rb as [c d]; cbn in *.
  destruct (Z.leb_spec c d); cbn; [|lia].
  repeat match goal with
  | |- context [?x <=? ?y] => destruct (Z.leb_spec x y); cbn
  end; f_equal; lia.
Qed.

Lemma contiguous_coords_spec pts ha hb :
  hull_of pts ha -> hull_of pts hb ->
  rcontig (n_rng ha) (n_rng hb) = true ->
  contiguous_coords ha hb = Ok (sub_coords pts (merge_range (n_rng ha) (n_rng hb))).
Proof.
  intros (A1 & A2 & A3 & Ac) (B1 & B2 & B3 & Bc) Hcon.
  rewrite merge_range_spec by lia.
  unfold contiguous_coords; rewrite Hcon; cbn [negb].
  unfold rcontig in Hcon.
  destruct (Z.ltb_spec (rI (n_rng hb)) (rJ (n_rng ha))) as [E1|E1];
    destruct (Z.eqb_spec (rJ (n_rng hb)) (rI (n_rng ha))) as [E2|E2]; cbn [andb].
  - (* hb precedes ha *)
    rewrite Bc, Ac; unfold clen; cbn [cpnts cidxs]. rewrite zseq_len by lia.
    destruct (Z.ltb_spec (rJ (n_rng hb) - rI (n_rng hb) + 1 - 1) 0); [lia|].
    rewrite firstn_zseq by lia. unfold sub_coords; cbn [rI rJ].
    do 2 f_equal. rewrite (zseq_app (Z.min _ _) (rJ (n_rng hb) - 1) (Z.max _ _)) by lia.
    f_equal; f_equal; lia.
  - apply orb_true_iff in Hcon; destruct Hcon as [Hcon|Hcon]; apply andb_true_iff in Hcon; lia.
  - lia.
  - (* ha precedes hb *)
    assert (Hx : rJ (n_rng ha) = rI (n_rng hb)).
    { apply orb_true_iff in Hcon; destruct Hcon as [Hcon|Hcon]; apply andb_true_iff in Hcon; lia. }
    rewrite Bc, Ac; unfold clen; cbn [cpnts cidxs]. rewrite zseq_len by lia.
    destruct (Z.ltb_spec (rJ (n_rng ha) - rI (n_rng ha) + 1 - 1) 0); [lia|].
    rewrite firstn_zseq by lia. unfold sub_coords; cbn [rI rJ].
    do 2 f_equal. rewrite (zseq_app (Z.min _ _) (rJ (n_rng ha) - 1) (Z.max _ _)) by lia.
    f_equal; f_equal; lia.
Qed.

Lemma contiguous_coords_panic ha hb :
  rcontig (n_rng ha) (n_rng hb) = false -> contiguous_coords ha hb = Panic.
Proof. intros H; unfold contiguous_coords; rewrite H; reflexivity. Qed.

(** For non-degenerate ranges, contiguity is sharing an end vertex. *)
Lemma rcontig_spec a b :
  rI a < rJ a -> rI b < rJ b ->
  (rcontig a b = true <-> rJ a = rI b \/ rJ b = rI a).
Proof.
  intros Ha Hb; unfold rcontig; rewrite orb_true_iff, !andb_true_iff, !Z.ltb_lt, !Z.eqb_eq; lia.
Qed.

Lemma fragments_spec L gen pts score ha hb rel ctr :
  hull_of pts ha -> hull_of pts hb -> rcontig (n_rng ha) (n_rng hb) = true ->
  let r := merge_range (n_rng ha) (n_rng hb) in
  exists o, fragments_at_threshold L gen score ha hb rel ctr =
      Ok (o, if rel (snd (score (sub_coords pts r))) then S ctr else ctr) /\
  match o with
  | Some h => rel (snd (score (sub_coords pts r))) = true /\
              n_rng h = r /\ fresh_hull L pts (n_inst ha) h /\ n_id h = gen ctr
  | None => rel (snd (score (sub_coords pts r))) = false
  end.
Proof.
  intros Ha Hb Hc r.
  unfold fragments_at_threshold; rewrite (contiguous_coords_spec pts) by auto; cbn [bind].
  fold r. destruct (score (sub_coords pts r)) as [k v] eqn:Es; cbn [snd].
  destruct (rel v) eqn:Er.
  - eexists; split; [reflexivity|]. split; [reflexivity|]. cbn; split; [reflexivity|].
    split; [|reflexivity].
    destruct Ha as (A1 & A2 & A3 & Ac), Hb as (B1 & B2 & B3 & Bc).
    unfold r in *; rewrite merge_range_spec in * by lia.
    unfold fresh_hull, hull_of; cbn; repeat split; try lia.
  - eexists; split; reflexivity.
Qed.
