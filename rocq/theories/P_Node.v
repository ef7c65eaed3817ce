(** Neighbour search, distances of dropped vertices, SED with equal time stamps. *)
From Verif Require Import M_Base M_Float M_Rng M_Geom M_Offset M_Node M_Decompose Spec P_Base P_Float P_Decompose P_Tame.
Open Scope Z_scope.

(** ** Previous and next neighbours *)

(** What the loop has found in a prefix of the list. *)
Definition is_prev (hull h : node) : bool :=
  negb (n_id h =? n_id hull) && (rI (n_rng hull) =? rJ (n_rng h)).
Definition is_next (hull h : node) : bool :=
  negb (n_id h =? n_id hull) && (rJ (n_rng hull) =? rI (n_rng h)).

Definition same_opt (o : option node) (f : node -> bool) (l : list node) : Prop :=
  match o with
  | Some h => In h l /\ f h = true
  | None => forall h, In h l -> f h = false
  end.

Lemma nbrs_loop_spec hull l :
  rI (n_rng hull) < rJ (n_rng hull) ->
  (forall h, In h l -> rI (n_rng h) < rJ (n_rng h)) ->
  forall pre p n,
  same_opt p (is_prev hull) pre -> same_opt n (is_next hull) pre ->
  let '(p', n') := nbrs_loop hull l p n in
  same_opt p' (is_prev hull) (pre ++ l) /\ same_opt n' (is_next hull) (pre ++ l).
Proof.
  intros Hh; induction l as [|h l IH]; intros Hl pre p n Hp Hn; cbn [nbrs_loop].
  - rewrite app_nil_r; auto.
  - set (st := if n_id h =? n_id hull then (p, n)
      else if rI (n_rng hull) =? rJ (n_rng h) then (Some h, n)
      else if rJ (n_rng hull) =? rI (n_rng h) then (p, Some h) else (p, n)).
    assert (Hrh : rI (n_rng h) < rJ (n_rng h)) by (apply Hl; left; auto).
    assert (Hstep : same_opt (fst st) (is_prev hull) (pre ++ [h]) /\ same_opt (snd st) (is_next hull) (pre ++ [h])).
    { assert (K : forall o f, same_opt o f pre -> f h = false -> same_opt o f (pre ++ [h])).
      { intros [x|] f; cbn; intros H E.
        - destruct H; split; auto. apply in_or_app; auto.
        - intros y Hy; apply in_app_or in Hy; destruct Hy as [Hy|[<-|[]]]; auto. }
      assert (N : forall f : node -> bool, f h = true -> same_opt (Some h) f (pre ++ [h])).
      { intros f E; split; auto. apply in_or_app; right; left; auto. }
      unfold st, is_prev, is_next in *.
      destruct (n_id h =? n_id hull) eqn:E1; cbn [fst snd].
      - split; apply K; auto; rewrite E1; reflexivity.
      - destruct (rI (n_rng hull) =? rJ (n_rng h)) eqn:E2; cbn [fst snd].
        + split; [apply N; rewrite E1, E2; reflexivity|apply K; auto].
          rewrite E1; cbn. apply Z.eqb_eq in E2. apply Z.eqb_neq; lia.
        + destruct (rJ (n_rng hull) =? rI (n_rng h)) eqn:E3; cbn [fst snd].
          * split; [apply K; auto; rewrite E1, E2; reflexivity|apply N; rewrite E1, E3; reflexivity].
          * split; apply K; auto; rewrite E1; cbn; auto. }
    clearbody st. destruct st as [p1 n1]; cbn [fst snd] in Hstep. destruct Hstep as [S1 S2].
    assert (G : forall p1 n1, same_opt p1 (is_prev hull) (pre ++ [h]) -> same_opt n1 (is_next hull) (pre ++ [h]) ->
      let '(p', n') := nbrs_loop hull l p1 n1 in
      same_opt p' (is_prev hull) (pre ++ h :: l) /\ same_opt n' (is_next hull) (pre ++ h :: l)).
    { intros a b Ha Hb. specialize (IH (fun x Hx => Hl x (or_intror Hx)) (pre ++ [h]) a b Ha Hb).
      destruct (nbrs_loop hull l a b). rewrite <- !app_assoc in IH. exact IH. }
    assert (Ext : forall o f, same_opt (Some o) f (pre ++ [h]) -> same_opt (Some o) f (pre ++ h :: l)).
    { intros o f [A B]; split; auto. apply in_app_or in A; apply in_or_app; destruct A as [A|[<-|[]]]; auto.
      right; left; auto. }
    destruct p1 as [p1|]; [destruct n1 as [n1|]|]; try (apply G; assumption).
    split; apply Ext; assumption.
Qed.

Lemma neighbours_spec lo hi tiles hull l :
  chain lo hi (map n_rng tiles) ->
  (forall a b, In a tiles -> In b tiles -> n_id a = n_id b -> a = b) ->
  In hull tiles -> (forall h, In h l -> In h tiles) ->
  let '(p, n) := neighbours hull l in
  (forall h, p = Some h <-> In h l /\ rJ (n_rng h) = rI (n_rng hull)) /\
  (forall h, n = Some h <-> In h l /\ rI (n_rng h) = rJ (n_rng hull)).
Proof.
  intros Hc Hid Hhull Hl.
  assert (Hr : forall h, In h tiles -> rI (n_rng h) < rJ (n_rng h)).
  { intros h Hh. apply (chain_in _ _ _ (n_rng h) Hc). apply in_map, Hh. }
  assert (Hnd : NoDup (map n_rng tiles)) by (eapply chain_nodup; eauto).
  assert (Hinj : forall a b, In a tiles -> In b tiles -> n_rng a = n_rng b -> a = b).
  { clear - Hnd. induction tiles as [|t r IH]; intros a b Ha Hb E; [destruct Ha|].
    cbn in Hnd; inversion Hnd as [|? ? N1 N2]; subst.
    destruct Ha as [<-|Ha], Hb as [<-|Hb]; auto.
    - exfalso; apply N1; rewrite E; apply in_map, Hb.
    - exfalso; apply N1; rewrite <- E; apply in_map, Ha. }
  pose proof (nbrs_loop_spec hull l (Hr _ Hhull) (fun h H => Hr h (Hl h H)) [] None None) as H.
  unfold neighbours. destruct (nbrs_loop hull l None None) as [p n].
  destruct H as [A B]; [intros h []|intros h []|]. cbn [app] in A, B.
  assert (Hself : forall h, In h tiles -> n_id h = n_id hull -> h = hull) by (intros; apply Hid; auto).
  split; intros h; split.
  - intros ->. destruct A as [A1 A2]. unfold is_prev in A2. apply andb_true_iff in A2.
    destruct A2 as [_ A2]. apply Z.eqb_eq in A2. auto.
  - intros [H1 H2]. destruct p as [q|].
    + destruct A as [A1 A2]. unfold is_prev in A2. apply andb_true_iff in A2.
      destruct A2 as [_ A2]. apply Z.eqb_eq in A2. f_equal. apply Hinj; auto.
      eapply chain_end_inj; [exact Hc|apply in_map; auto|apply in_map; auto|congruence].
    + exfalso. specialize (A h H1). unfold is_prev in A.
      apply andb_false_iff in A. destruct A as [A|A].
      * apply negb_false_iff, Z.eqb_eq in A. apply Hself in A; auto. subst h.
        specialize (Hr _ Hhull). lia.
      * apply Z.eqb_neq in A. congruence.
  - intros ->. destruct B as [A1 A2]. unfold is_next in A2. apply andb_true_iff in A2.
    destruct A2 as [_ A2]. apply Z.eqb_eq in A2. auto.
  - intros [H1 H2]. destruct n as [q|].
    + destruct B as [A1 A2]. unfold is_next in A2. apply andb_true_iff in A2.
      destruct A2 as [_ A2]. apply Z.eqb_eq in A2. f_equal. apply Hinj; auto.
      eapply chain_start_inj; [exact Hc|apply in_map; auto|apply in_map; auto|congruence].
    + exfalso. specialize (B h H1). unfold is_next in B.
      apply andb_false_iff in B. destruct B as [B|B].
      * apply negb_false_iff, Z.eqb_eq in B. apply Hself in B; auto. subst h.
        specialize (Hr _ Hhull). lia.
      * apply Z.eqb_neq in B. congruence.
Qed.

(** ** Squares are never NaN *)

Lemma shr_fexp_nonneg m e l : 0 <= m -> 0 <= shr_m (fst (shr_fexp fprec femax m e l)).
Proof.
  intros Hm. unfold shr_fexp.
  assert (Hr : shr_m (shr_record_of_loc m l) = m) by (destruct l as [|[]]; reflexivity).
  unfold shr. destruct (fexp fprec femax (Zdigits2 m + e) - e); cbn [fst].
  - rewrite Hr; exact Hm.
  - rewrite iter_shr_div by (rewrite Hr; exact Hm). rewrite Hr. apply Z.div_pos; lia.
  - rewrite Hr; exact Hm.
Qed.

Lemma round_not_nan sx m e l : 0 <= m -> is_nan (binary_round_aux fprec femax sx m e l) = false.
Proof.
  intros Hm. unfold binary_round_aux.
  pose proof (shr_fexp_nonneg m e l Hm) as H1.
  destruct (shr_fexp fprec femax m e l) as [r e1]; cbn [fst] in H1.
  assert (H2 : 0 <= round_nearest_even (shr_m r) (loc_of_shr_record r))
    by (destruct (round_cases (shr_m r) (loc_of_shr_record r)) as [-> | ->]; lia).
  pose proof (shr_fexp_nonneg _ e1 loc_Exact H2) as H3.
  destruct (shr_fexp fprec femax _ e1 loc_Exact) as [r2 e2]; cbn [fst] in H3.
  destruct (shr_m r2); [reflexivity| |lia].
  destruct (Zle_bool e2 _); reflexivity.
Qed.

Lemma square_accepts_zero T : is_nan T = false -> square_score_rel T fzero = true.
Proof.
  intros H; apply square_threshold_ok; [exact H|].
  unfold fmul, SFmul. destruct T as [s|s| |s m e]; try reflexivity; [discriminate|].
  apply round_not_nan; lia.
Qed.

(** ** Points of a sub-view *)

Lemma cpt_sub pts r k : rI r <= rJ r -> 0 <= k <= rJ r - rI r ->
  cpt (sub_coords pts r) k = nth (Z.to_nat (rI r + k)) pts origin.
Proof.
  intros Hr Hk. unfold cpt, sub_coords; cbn [cpnts cidxs].
  f_equal. f_equal. replace k with ((rI r + k) - rI r) at 1 by lia. apply nth_zseq; lia.
Qed.

(** Every vertex strictly inside an accepted piece is within the threshold of the chord,
    as long as its own distance is a number. *)
Lemma accepted_offsets distfn T pts r k :
  0 <= rI r -> rI r < k < rJ r -> fle fzero T = true ->
  score_rel T (snd (max_offset distfn (sub_coords pts r))) = true ->
  let at_ i := nth (Z.to_nat i) pts origin in
  let d := distfn (at_ (rI r)) (at_ (rJ r)) (at_ k) in
  is_nan d = false -> fle d T = true.
Proof.
  intros H0 Hk HT Hacc at_ d Hd.
  assert (Hlen : clen (sub_coords pts r) = rJ r - rI r + 1) by (apply clen_sub; lia).
  pose proof (max_offset_farthest distfn (sub_coords pts r) ltac:(lia)) as Hf. cbv zeta in Hf.
  rewrite Hlen in Hf. replace (rJ r - rI r + 1 - 1) with (rJ r - rI r) in Hf by lia.
  assert (Ed : distfn (cpt (sub_coords pts r) 0) (cpt (sub_coords pts r) (rJ r - rI r))
                 (cpt (sub_coords pts r) (k - rI r)) = d).
  { unfold d, at_. rewrite !cpt_sub by lia. f_equal; f_equal; f_equal; lia. }
  destruct Hf as [(F1 & F2 & F3)|(F1 & F2 & F3 & F4 & F5)].
  - specialize (F3 (k - rI r) ltac:(lia)). cbv beta in F3. rewrite Ed in F3.
    apply fle_total in F3; [|reflexivity|exact Hd].
    eapply fle_trans; [apply flt_le; exact F3|exact HT].
  - specialize (F4 (k - rI r) ltac:(lia)). cbv beta in F4. rewrite Ed in F4.
    eapply fle_trans; [apply F4, Hd|exact Hacc].
Qed.

(** ** SED when the end time stamps are equal *)

Lemma fdiv_zero_inf_or_nan x s : is_nan (fdiv x (S754_zero s)) = true \/ exists b, fdiv x (S754_zero s) = S754_infinity b.
Proof. destruct x; cbn; eauto. Qed.

Lemma fsub_self x : is_fin x = true -> exists s, fsub x x = S754_zero s.
Proof.
  destruct x as [s|s| |s m e]; try discriminate; intros _; unfold fsub, SFsub.
  - destruct (Bool.eqb s (negb s)); eauto.
  - rewrite Z.min_id. rewrite Z.sub_diag. cbn. eauto.
Qed.

Lemma fmul_inf_zero b s : fmul (S754_infinity b) (S754_zero s) = S754_nan.
Proof. reflexivity. Qed.
Lemma fmul_nan_l x : fmul S754_nan x = S754_nan.
Proof. destruct x; reflexivity. Qed.
Lemma fadd_nan_r x : fadd x S754_nan = S754_nan.
Proof. destruct x; reflexivity. Qed.
Lemma fsub_nan_r x : fsub x S754_nan = S754_nan.
Proof. destruct x; reflexivity. Qed.
Lemma nan_eq x : is_nan x = true -> x = S754_nan.
Proof. destruct x; try discriminate; auto. Qed.

Lemma hypot_nan_l q : is_nan (hypot S754_nan q) = true.
Proof.
  unfold hypot.
  assert (E : forall q1, (if flt S754_nan q1 then (q1, S754_nan) else (S754_nan, q1)) = (S754_nan, q1)) by reflexivity.
  change (flt S754_nan fzero) with false. cbv iota. rewrite E.
  change (feq S754_nan fzero) with false. cbv iota. rewrite fmul_nan_l. reflexivity.
Qed.
Lemma square_hypot_nan_l q : is_nan (square_hypot S754_nan q) = true.
Proof. unfold square_hypot. rewrite fmul_nan_l. destruct (fmul q q); reflexivity. Qed.

Lemma sed_equal_times t hyp c :
  (forall q, is_nan (hyp S754_nan q) = true) ->
  3 <= clen c ->
  (forall k, 0 <= k < clen c -> is_fin (pz (cpt c k)) = true /\ pz (cpt c k) = pz (cpt c 0)) ->
  max_sed_offset t hyp c = (clen c - 1, fzero).
Proof.
  intros Hh Hl Hz.
  pose proof (max_offset_farthest (sed_dist t hyp) c ltac:(lia)) as F. cbv zeta in F.
  assert (Hn : forall k, 1 <= k < clen c - 1 ->
     is_nan (sed_dist t hyp (cpt c 0) (cpt c (clen c - 1)) (cpt c k)) = true).
  { intros k Hk. unfold sed_dist. rewrite (proj2 (Hz k ltac:(lia))), (proj2 (Hz (clen c - 1) ltac:(lia))).
    destruct (fsub_self (pz (cpt c 0))) as [s ->]; [apply Hz; lia|].
    assert (E : fmul (fdiv (tr_mag t (cpt c 0) (cpt c (clen c - 1))) (S754_zero s)) (S754_zero s) = S754_nan).
    { destruct (fdiv_zero_inf_or_nan (tr_mag t (cpt c 0) (cpt c (clen c - 1))) s) as [E|[b ->]];
        [rewrite (nan_eq _ E); reflexivity|reflexivity]. }
    rewrite E, fmul_nan_l, fadd_nan_r, fsub_nan_r. apply Hh. }
  unfold max_sed_offset in *. destruct F as [(F1 & F2 & _)|(F1 & F2 & F3 & _)].
  - destruct (max_offset (sed_dist t hyp) c) as [k d]; cbn in *; subst; reflexivity.
  - exfalso. rewrite F2 in F3. apply fle_nan_r in F3. rewrite Hn in F3 by lia. discriminate.
Qed.

(** ** Chains and vertex lists *)

Lemma chain_order rs lo hi r1 r2 :
  chain lo hi rs -> In r1 rs -> In r2 rs -> rI r1 < rI r2 -> rJ r1 <= rI r2.
Proof.
  revert lo; induction rs as [|a t IH]; cbn; intros lo H H1 H2 E; [contradiction|].
  destruct H as [Ha [Hb Hc]].
  destruct H1 as [->|H1], H2 as [->|H2].
  - lia.
  - apply (chain_in _ _ _ _ Hc) in H2. lia.
  - apply (chain_in _ _ _ _ Hc) in H1. lia.
  - eapply IH; eauto.
Qed.

Lemma point_set_line hs (pts : list point) :
  (2 <= length pts)%nat -> chain 0 (zlen pts - 1) (map n_rng hs) ->
  increasing (point_set hs) /\ hd (-1) (point_set hs) = 0 /\ last (point_set hs) (-1) = zlen pts - 1 /\
  Forall (fun k => 0 <= k < zlen pts) (point_set hs).
Proof.
  intros H2 Hc.
  assert (Hz : 0 < zlen pts - 1) by (unfold zlen; lia).
  pose proof (point_set_chain hs 0 (zlen pts - 1) Hz Hc) as E.
  destruct (chain_ends _ _ _ Hc) as (A & B & C). rewrite map_map in A, B, C.
  rewrite E. split; [exact A|]. split; [reflexivity|]. split.
  - rewrite <- B. remember (map (fun h => rJ (n_rng h)) hs) as l. clear.
    revert l; induction l as [|x l IH] using rev_ind; [reflexivity|].
    rewrite app_comm_cons, !last_last; reflexivity.
  - apply Forall_forall. intros k Hk. apply C in Hk. destruct Hk as [-> |(r & Hr & Hx)]; [lia|].
    apply (chain_in _ _ _ _ Hc) in Hr. lia.
Qed.

Lemma cpts_hull pts h : hull_of pts h -> cpts (n_coords h) = points_of pts (n_rng h).
Proof. intros (_ & _ & _ & ->). reflexivity. Qed.

Lemma tl_zseq i j : i <= j -> tl (zseq i j) = zseq (i + 1) j.
Proof.
  intros H. rewrite (zseq_app i i j) by lia. unfold zseq at 1.
  replace (Z.to_nat (i - i + 1)) with 1%nat by lia. reflexivity.
Qed.

Lemma tl_map {A B} (f : A -> B) l : tl (map f l) = map f (tl l).
Proof. destruct l; reflexivity. Qed.

Lemma tails_chain pts rs : forall lo hi, chain lo hi rs ->
  flat_map (fun r => tl (points_of pts r)) rs = map (fun k => nth (Z.to_nat k) pts origin) (zseq (lo + 1) hi).
Proof.
  induction rs as [|r t IH]; cbn [chain flat_map]; intros lo hi H.
  - subst. unfold zseq. replace (Z.to_nat (hi - (hi + 1) + 1)) with 0%nat by lia. reflexivity.
  - destruct H as (H1 & H2 & H3). rewrite (IH _ _ H3). pose proof (chain_le _ _ _ H3).
    unfold points_of. rewrite tl_map, tl_zseq, <- map_app by lia. f_equal.
    rewrite (zseq_app (lo + 1) (rJ r) hi) by lia. rewrite H1. reflexivity.
Qed.

(** The vertices of a chain of hulls, without repeated shared ends, are those of the
    hull they tile. *)
Lemma tails_join pts hs h :
  Forall (hull_of pts) hs -> hull_of pts h ->
  chain (rI (n_rng h)) (rJ (n_rng h)) (map n_rng hs) ->
  flat_map (fun g => tl (cpts (n_coords g))) hs = tl (cpts (n_coords h)).
Proof.
  intros Hhs Hh Hc.
  rewrite (cpts_hull pts h Hh). unfold points_of. rewrite tl_map, tl_zseq by (destruct Hh; lia).
  rewrite <- (tails_chain pts (map n_rng hs) _ _ Hc).
  clear Hc. induction Hhs as [|g hs Hg _ IH]; [reflexivity|]. cbn [flat_map map].
  rewrite IH, (cpts_hull pts g Hg). reflexivity.
Qed.

(** The reference point of the synchronized distance at the start time. *)
Lemma fmul_zero_r x s : is_fin x = true -> exists s', fmul x (S754_zero s) = S754_zero s'.
Proof. destruct x; try discriminate; intros _; cbn; eauto. Qed.
Lemma fmul_zero_l x s : is_fin x = true -> exists s', fmul (S754_zero s) x = S754_zero s'.
Proof. destruct x; try discriminate; intros _; cbn; eauto. Qed.
Lemma fadd_zero_r x s : is_fin x = true -> feq (fadd x (S754_zero s)) x = true.
Proof.
  destruct x as [s'|s'| |s' m e]; try discriminate; intros _.
  - destruct s, s'; reflexivity.
  - cbn. unfold feq, SFeqb, SFcompare. rewrite Z.compare_refl, Pcompare_refl. destruct s'; reflexivity.
Qed.
Lemma sed_start t hyp a b p :
  is_fin (px a) = true -> is_fin (py a) = true -> is_fin (pz a) = true ->
  pz p = pz a ->
  is_fin (fdiv (tr_mag t a b) (fsub (pz b) (pz a))) = true ->
  is_fin (tr_dx t a b) = true -> is_fin (tr_dy t a b) = true ->
  exists qx qy, feq qx (px a) = true /\ feq qy (py a) = true /\
    sed_dist t hyp a b p = hyp (fsub (px p) qx) (fsub (py p) qy).
Proof.
  intros Hx Hy Hz Ez Hs Hdx Hdy. unfold sed_dist. rewrite Ez.
  destruct (fsub_self _ Hz) as (s0 & ->). destruct (fmul_zero_r _ s0 Hs) as (s1 & ->).
  destruct (fmul_zero_l _ s1 Hdx) as (s2 & ->). destruct (fmul_zero_l _ s1 Hdy) as (s3 & ->).
  eexists. eexists. split; [|split; [|reflexivity]]; apply fadd_zero_r; assumption.
Qed.
