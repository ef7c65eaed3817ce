(** Proofs about the slice-level merge. *)
From Verif Require Import M_Base M_Rng P_Base P_Split M_Slice.
Open Scope Z_scope.

Lemma s_read_len m s : s_ok m s -> length (s_read m s) = s_len s.
Proof. intros (A & B & C). unfold s_read. rewrite firstn_length, skipn_length. lia. Qed.

Lemma append_full m s n xs grow : s_ok m s -> (n <= s_len s)%nat -> xs <> [] ->
  exists m' s', s_append grow m (s_full3 s n) xs = (m', s') /\
    (exists a, m' = m ++ [a]) /\ s_read m' s' = firstn n (s_read m s) ++ xs.
Proof.
  intros (A & B & C) Hn Hx. unfold s_append, s_full3. cbn [s_len s_cap s_arr s_off].
  destruct (Nat.leb_spec (n + length xs) n); [destruct xs; [contradiction|cbn in *; lia]|].
  eexists _, _. split; [reflexivity|]. split; [eexists; reflexivity|].
  unfold s_read. cbn [s_len s_cap s_arr s_off]. rewrite app_nth2, Nat.sub_diag by lia. cbn [nth skipn].
  rewrite firstn_firstn, Nat.min_l by exact Hn.
  assert (Hl : length (firstn n (skipn (s_off s) (nth (s_arr s) m []))) = n).
  { rewrite firstn_length, skipn_length. lia. }
  rewrite firstn_app, Hl. rewrite (firstn_all2 (n := (n + length xs)%nat)) by lia. f_equal.
  replace (n + length xs - n)%nat with (length xs) by lia.
  rewrite firstn_app, Nat.sub_diag, firstn_all. cbn. apply app_nil_r.
Qed.

(** Reading a slice of the old heap after an array was added. *)
Lemma read_app m a t : (s_arr t < length m)%nat -> s_read (m ++ [a]) t = s_read m t.
Proof. intros H. unfold s_read. rewrite app_nth1 by exact H. reflexivity. Qed.

Lemma contiguous_idxs_spec grow m ha hb :
  s_ok m (sh_idxs ha) -> s_ok m (sh_idxs hb) ->
  rI (sh_rng ha) < rJ (sh_rng ha) -> rI (sh_rng hb) < rJ (sh_rng hb) ->
  s_read m (sh_idxs ha) = zseq (rI (sh_rng ha)) (rJ (sh_rng ha)) ->
  s_read m (sh_idxs hb) = zseq (rI (sh_rng hb)) (rJ (sh_rng hb)) ->
  (rJ (sh_rng ha) = rI (sh_rng hb) \/ rJ (sh_rng hb) = rI (sh_rng ha)) ->
  exists m' s, contiguous_idxs grow m ha hb = Ok (m', s) /\ (exists a, m' = m ++ [a]) /\
    s_read m' s = zseq (Z.min (rI (sh_rng ha)) (rI (sh_rng hb))) (Z.max (rJ (sh_rng ha)) (rJ (sh_rng hb))).
Proof.
  intros Oa Ob La Lb Ra Rb Hc. unfold contiguous_idxs.
  rewrite (proj2 (rcontig_spec _ _ La Lb) Hc). cbn [negb].
  assert (G : forall p q, s_ok m (sh_idxs p) -> s_ok m (sh_idxs q) ->
    rI (sh_rng p) < rJ (sh_rng p) -> rI (sh_rng q) < rJ (sh_rng q) ->
    s_read m (sh_idxs p) = zseq (rI (sh_rng p)) (rJ (sh_rng p)) ->
    s_read m (sh_idxs q) = zseq (rI (sh_rng q)) (rJ (sh_rng q)) ->
    rJ (sh_rng p) = rI (sh_rng q) ->
    exists m' s, match s_len (sh_idxs p) with
      | 0%nat => Panic
      | S n => Ok (s_append grow m (s_full3 (sh_idxs p) n) (s_read m (sh_idxs q)))
      end = Ok (m', s) /\ (exists a, m' = m ++ [a]) /\ s_read m' s = zseq (rI (sh_rng p)) (rJ (sh_rng q))).
  { intros p q Op Oq Lp Lq Rp Rq E. pose proof (s_read_len m _ Op) as N. rewrite Rp in N.
    assert (N' : Z.of_nat (s_len (sh_idxs p)) = rJ (sh_rng p) - rI (sh_rng p) + 1).
    { rewrite <- N. apply zseq_len. lia. }
    destruct (s_len (sh_idxs p)) as [|n] eqn:En; [lia|].
    destruct (append_full m (sh_idxs p) n (s_read m (sh_idxs q)) grow Op ltac:(lia)) as (m' & s & A & B & C).
    { rewrite Rq. rewrite zseq_cons by lia. discriminate. }
    exists m', s. split; [rewrite A; reflexivity|]. split; [exact B|]. rewrite C, Rp, Rq.
    replace n with (Z.to_nat (rJ (sh_rng p) - rI (sh_rng p))) by lia.
    rewrite (firstn_zseq (rI (sh_rng p)) (rJ (sh_rng p))) by lia.
    rewrite (zseq_app (rI (sh_rng p)) (rJ (sh_rng p) - 1) (rJ (sh_rng q))) by lia.
    f_equal; f_equal; lia. }
  destruct (Z.ltb_spec (rI (sh_rng hb)) (rJ (sh_rng ha))), (Z.eqb_spec (rJ (sh_rng hb)) (rI (sh_rng ha))); cbn [andb].
  - destruct (G hb ha) as (m' & s & A & B & C); auto. exists m', s. split; [exact A|]. split; [exact B|].
    rewrite C. f_equal; lia.
  - lia.
  - lia.
  - destruct (G ha hb) as (m' & s & A & B & C); auto; [lia|]. exists m', s. split; [exact A|]. split; [exact B|].
    rewrite C. f_equal; lia.
Qed.
