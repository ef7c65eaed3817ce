(** Proofs for C97: the reference of P_Ref.v computes what Spec_Whole.v describes. *)
From Verif Require Import M_Base M_Float M_Rng M_Geom M_Offset M_Node M_Decompose M_Split M_Hdb M_Knn M_Lnr M_Homotopy M_Relate
  M_Deform M_Constrain M_ConstDP M_IO Spec Spec_Hdb Spec_Lnr Spec_Relate Spec_Deform Spec_ConstDP Spec_IO Spec_Run Spec_Out Spec_Modes Spec_Move
  Spec_Exact Spec_Whole
  P_Base P_Float P_Decompose P_Split P_Node P_Hdb P_HdbHist P_HdbLoad P_Knn P_Homotopy P_Relate P_Db P_Bag P_Constrain P_Deform P_Conflict P_ConstDP P_Aggregate P_Simplify P_DpTree
  P_Ref P_Twin P_Modes P_Move P_Exact.
Open Scope Z_scope.

Lemma parts_tiles s : parts s = tiles s.
Proof. reflexivity. Qed.
Lemma part_hl L pts r : part L pts r = hl L pts r.
Proof. reflexivity. Qed.

Lemma chain_flat_map (f : rng -> list rng) ch : forall lo hi, chain lo hi ch -> (forall r, In r ch -> chain (rI r) (rJ r) (f r)) ->
  chain lo hi (flat_map f ch).
Proof.
  induction ch as [|r ch IH]; intros lo hi H Hf; [exact H|]. cbn [chain flat_map] in *. destruct H as (<- & H1 & H2).
  apply chain_app. exists (rJ r). split; [apply Hf; left; reflexivity|]. apply IH; [exact H2|]. intros x Hx. apply Hf. right. exact Hx.
Qed.
Lemma flat_map_sel {A} (p : A -> bool) (f : A -> list A) l :
  Permutation (flat_map f (filter p l) ++ filter (fun x => negb (p x)) l) (flat_map (fun x => if p x then f x else [x]) l).
Proof.
  induction l as [|x l IH]; cbn [filter flat_map]; [constructor|]. destruct (p x); cbn [negb flat_map app].
  - rewrite <- app_assoc. apply Permutation_app_head, IH.
  - etransitivity; [apply Permutation_sym, Permutation_middle|]. constructor. exact IH.
Qed.
Lemma flat_map_perm {A B} (f : A -> list B) l l' : Permutation l l' -> Permutation (flat_map f l) (flat_map f l').
Proof.
  induction 1; cbn [flat_map].
  - constructor.
  - apply Permutation_app_head; auto.
  - rewrite !app_assoc. apply Permutation_app_tail, Permutation_app_comm.
  - etransitivity; eauto.
Qed.

Section Run.
  Variables (L : geomlib) (o : opts) (dist : point -> point -> point -> f64) (cs : list geometry) (pts : list point).
  Let score := max_offset dist.
  Let rel := score_rel (o_threshold o).
  Hypothesis HT : fle fzero (o_threshold o) = true.
  Hypothesis Hscore : forall r, piece pts r -> 1 < rJ r - rI r -> 0 < fst (score (sub_coords pts r)) < rJ r - rI r.
  Hypothesis Htouch : point_touch L.
  Hypothesis Hplaces : forall p, In p pts -> gl_eq2d L p p = true.

  Notation disp := (o_non_planar_displacement o).
  Notation hl := (hl L pts).

  Lemma ends_in r p : piece pts r -> is_end_of (hl r) p -> In p pts.
  Proof.
    intros (A & B & C) [-> | ->]; unfold P_Ref.hl, create_node, cfirst, clast; cbn [n_coords]; rewrite ?clen_sub by lia; rewrite cpt_sub by lia;
      apply nth_In; unfold zlen in *; lia.
  Qed.
  Lemma places_parts a b : piece pts a -> piece pts b -> places_at L (hl a) (hl b).
  Proof. intros Ha Hb p q Hp Hq _. unfold same_place. apply Hplaces. eapply ends_in; eauto. Qed.
  Lemma hl_hullish r : hullish (hl r).
  Proof. eexists. reflexivity. Qed.
  Lemma hl_inj a b : hl a = hl b -> a = b.
  Proof. intros E. exact (f_equal n_rng E). Qed.

  Lemma flags_conflict a b v : piece pts a -> piece pts b ->
    (line_conflict L disp (hl a) (hl b) (hl v) <->
     (fst (r_flags L pts o a b) = true /\ v = a) \/ (snd (r_flags L pts o a b) = true /\ v = b)).
  Proof.
    intros Ha Hb.
    rewrite <- (pair_iff_at L disp false (hl a) (hl b) (hl v) (places_parts a b Ha Hb) (places_parts b a Hb Ha) Htouch (hl_hullish a) (hl_hullish b)).
    destruct (pair_spec L disp false (hl a) (hl b) Htouch (hl_hullish a) (hl_hullish b)) as (sa & sb & E & K1 & K2).
    unfold r_flags. rewrite E. cbn [flags fst snd]. split.
    - intros (sa' & sb' & E' & K). injection E' as <- <-. destruct K as [->| ->].
      + destruct K1 as [K1|K1]; [discriminate|]. left. split; [reflexivity|]. apply hl_inj. congruence.
      + destruct K2 as [K2|K2]; [discriminate|]. right. split; [reflexivity|]. apply hl_inj. congruence.
    - intros K. exists sa, sb. split; [reflexivity|]. destruct K as [[K ->]|[K ->]].
      + destruct K1 as [-> | ->]; [discriminate|]. auto.
      + destruct K2 as [-> | ->]; [discriminate|]. auto.
  Qed.

  Lemma near_iff r q : r_near L pts r q = true <-> q <> r /\ near_parts L pts r q.
  Proof.
    unfold r_near, near_parts. rewrite !andb_true_iff, negb_true_iff.
    change (n_mbr (hl r)) with (gl_bounds L (piece_hull L pts r)). change (n_mbr (hl q)) with (gl_bounds L (piece_hull L pts q)).
    change (n_geom (hl r)) with (piece_hull L pts r). change (n_geom (hl q)) with (piece_hull L pts q).
    split.
    - intros (A & B & C). split; [|auto]. intros ->. assert (rng_eqb r r = true) by (apply rng_eqb_eq; reflexivity). congruence.
    - intros (A & B & C). split; [exact B|]. split; [|exact C]. destruct (rng_eqb q r) eqn:E; [|reflexivity]. apply rng_eqb_eq in E. contradiction.
  Qed.
  Lemma conflict_iff r q v : piece pts r -> piece pts q ->
    (conflict L o pts r q v <->
     o_avoid_self o = true /\ r_near L pts r q = true /\
     ((fst (r_flags L pts o r q) = true /\ v = r) \/ (snd (r_flags L pts o r q) = true /\ v = q))).
  Proof.
    intros Hr Hq. unfold conflict. rewrite !part_hl, (flags_conflict r q v Hr Hq), near_iff. tauto.
  Qed.
  Lemma conflict_in r q v : conflict L o pts r q v -> v = r \/ v = q.
  Proof. intros K. pose proof K as (_ & A & B & _). apply (conflict_iff r q v A B) in K. tauto. Qed.

  (** ** Rounds *)

  Lemma big_iff h : r_big L pts h = true <-> examined (part L pts h).
  Proof.
    unfold r_big, examined, rsize. change (n_rng (part L pts h)) with h. change (n_geom (part L pts h)) with (n_geom (hl h)). rewrite andb_true_iff, !negb_true_iff, Z.eqb_neq. reflexivity.
  Qed.

  Lemma sel_iff D ch before now r :
    Forall (piece pts) ch -> Permutation ch (parts now) ->
    (forall h, In h D -> In h ch) -> (forall h, In h ch -> rsize h <> 1 -> (In h D <-> ~ In h (parts before))) ->
    In r ch -> 1 < rJ r - rI r -> (r_sel L pts o cs D ch r = true <-> must_split L o cs pts before now r).
  Proof.
    intros Hp P D1 D2 Hr Hl. rewrite Forall_forall in Hp.
    assert (HP : forall x, In x ch <-> In x (parts now)) by (intros x; split; apply Permutation_in; [|apply Permutation_sym]; exact P).
    unfold r_sel. rewrite existsb_exists. unfold must_split. rewrite <- HP. split.
    - intros (h & Hh & K). split; [exact Hr|]. split; [exact Hl|]. unfold r_checked in K. apply andb_prop in K. destruct K as [Kb K].
      pose proof (D1 h Hh) as Hch. exists h. rewrite <- HP. split; [exact Hch|]. pose proof (proj1 (big_iff h) Kb) as Ke.
      split; [apply D2; auto; apply Ke|]. split; [exact Ke|]. apply orb_prop in K. destruct K as [K|K].
      + right. apply andb_prop in K. destruct K as [Ka K]. apply existsb_exists in K. destruct K as (x & Hx & K). exists x. rewrite <- HP. split; [exact Hx|].
        apply conflict_iff; auto. split; [exact Ka|]. apply andb_prop in K. destruct K as [Kn K]. split; [exact Kn|].
        apply orb_prop in K. destruct K as [K|K]; apply andb_prop in K; destruct K as [K1 K2]; apply rng_eqb_eq in K2; auto.
      + left. apply andb_prop in K. destruct K as [K1 K2]. apply rng_eqb_eq in K1. subst h. split; [reflexivity|].
        apply negb_true_iff in K2. destruct r as [a b]. pose proof (Hp _ Hr) as (A & B & C). cbn [rI rJ] in *.
        rewrite <- (valid_chord L o cs pts a b A B). exact K2.
    - intros (_ & _ & h & Hh & Hn & He & K). rewrite <- HP in Hh. exists h. split; [apply D2; auto; apply He|].
      unfold r_checked. rewrite (proj2 (big_iff h) He). cbn [andb]. apply orb_true_iff. destruct K as [[<- K]|(q & Hq & K)].
      + right. apply andb_true_intro. split; [apply rng_eqb_eq; reflexivity|]. apply negb_true_iff. destruct r as [a b].
        pose proof (Hp _ Hr) as (A & B & C). cbn [rI rJ] in *. rewrite (valid_chord L o cs pts a b A B). exact K.
      + left. rewrite <- HP in Hq. apply (conflict_iff h q r (Hp _ Hh) (Hp _ Hq)) in K. destruct K as (Ka & Kn & K). rewrite Ka. cbn [andb].
        apply existsb_exists. exists q. split; [exact Hq|]. rewrite Kn. cbn [andb]. apply orb_true_iff.
        destruct K as [[K ->]|[K ->]]; [left|right]; rewrite K; cbn [andb]; apply rng_eqb_eq; reflexivity.
  Qed.

  Lemma halves_chain r : piece pts r -> chain (rI r) (rJ r) (r_halves pts score r).
  Proof.
    intros (A & B & C). unfold r_halves, rsize. destruct (Z.ltb_spec 1 (rJ r - rI r)).
    - pose proof (Hscore r (conj A (conj B C)) H). cbn [chain rI rJ]. repeat split; lia.
    - destruct r as [a b]. cbn [chain rI rJ] in *. auto.
  Qed.

  Lemma rounds_settle lo hi D ch c : r_rounds L pts o score cs D ch c -> 0 <= lo -> hi < zlen pts -> forall before chn,
    Permutation ch chn -> chain lo hi chn ->
    (forall h, In h D -> In h ch) -> (forall h, In h ch -> rsize h <> 1 -> (In h D <-> ~ In h (parts before))) ->
    exists chs, settle L o dist cs pts before (lo :: map rJ chn) (lo :: map rJ chs) /\ Permutation c chs /\ chain lo hi chs.
  Proof.
    intros R Hlo Hhi. induction R as [D ch H|D ch c H R1 IH]; intros before chn P Hc D1 D2.
    - assert (Hp : Forall (piece pts) ch).
      { apply Forall_forall. intros r Hr. eapply Permutation_in in Hr; [|exact P]. pose proof (chain_in _ _ _ _ Hc Hr). unfold piece. lia. }
      assert (Et : parts (lo :: map rJ chn) = chn) by (rewrite parts_tiles; eapply tiles_cut; exact Hc).
      exists chn. split; [|auto]. apply se_done. intros r K. pose proof K as (Hr & Hl & _).
      assert (Hin : In r ch) by (rewrite Et in Hr; eapply Permutation_in; [apply Permutation_sym, P|exact Hr]).
      apply (sel_iff D ch) in K; auto; [|rewrite Et; exact P].
      assert (X : In r (filter (r_sel L pts o cs D ch) ch)) by (apply filter_In; auto). rewrite H in X. exact X.
    - assert (Hp : Forall (piece pts) ch).
      { apply Forall_forall. intros r Hr. eapply Permutation_in in Hr; [|exact P]. pose proof (chain_in _ _ _ _ Hc Hr). unfold piece. lia. }
      assert (Et : parts (lo :: map rJ chn) = chn) by (rewrite parts_tiles; eapply tiles_cut; exact Hc).
      set (sel := r_sel L pts o cs D ch) in *. set (S := filter sel ch) in *. set (N := filter (fun r => negb (sel r)) ch) in *.
      assert (Hpp : forall r, In r ch -> piece pts r) by (rewrite Forall_forall in Hp; exact Hp).
      assert (Hms : forall r, must_split L o cs pts before (lo :: map rJ chn) r <-> In r S /\ 1 < rJ r - rI r).
      { intros r. split.
        - intros K. pose proof K as (Hr & Hl & _).
          assert (Hin : In r ch) by (rewrite Et in Hr; eapply Permutation_in; [apply Permutation_sym, P|exact Hr]).
          split; [|exact Hl]. apply filter_In. split; [exact Hin|]. apply (sel_iff D ch before (lo :: map rJ chn)); auto. rewrite Et. exact P.
        - intros [K Hl]. apply filter_In in K. destruct K as [Hin K]. apply (sel_iff D ch before (lo :: map rJ chn)); auto. rewrite Et. exact P. }
      set (chn' := flat_map (fun r => if sel r then r_halves pts score r else [r]) chn).
      assert (P' : Permutation (flat_map (r_halves pts score) S ++ N) chn').
      { unfold S, N, chn'. etransitivity; [apply (flat_map_sel sel (r_halves pts score))|]. apply flat_map_perm. exact P. }
      assert (Hc' : chain lo hi chn').
      { apply chain_flat_map; [exact Hc|]. intros r Hr. eapply Permutation_in in Hr; [|apply Permutation_sym, P]. destruct (sel r).
        - apply halves_chain. auto.
        - pose proof (Hpp r Hr) as (A & B & C). cbn [chain]. auto. }
      assert (Hone : forall r, In r ch -> ~ 1 < rJ r - rI r -> r_halves pts score r = [r]).
      { intros r Hr Hl. unfold r_halves, rsize. destruct (Z.ltb_spec 1 (rJ r - rI r)); [contradiction|reflexivity]. }
      destruct (filter (fun r => 1 <? rJ r - rI r) S) as [|r0 S'] eqn:ES.
      + (* only segments selected *)
        assert (Hseg : forall r, In r S -> ~ 1 < rJ r - rI r).
        { intros r Hr K. assert (X : In r (filter (fun r => 1 <? rJ r - rI r) S)) by (apply filter_In; split; [exact Hr|apply Z.ltb_lt; exact K]).
          rewrite ES in X. exact X. }
        assert (Efm : flat_map (r_halves pts score) S = S).
        { assert (G : forall l, (forall r, In r l -> In r S) -> flat_map (r_halves pts score) l = l); [|apply G; auto].
          induction l as [|r l IHl]; intros Hl; [reflexivity|]. cbn [flat_map]. rewrite Hone, IHl; [reflexivity| | |].
          - intros x Hx. apply Hl. right. exact Hx.
          - assert (Hr : In r S) by (apply Hl; left; reflexivity). apply filter_In in Hr. apply Hr.
          - apply Hseg, Hl. left. reflexivity. }
        exists chn. split; [apply se_done; intros r K; apply Hms in K; destruct K as [K1 K2]; apply (Hseg r K1 K2)|]. split; [|exact Hc].
        assert (Ec : c = flat_map (r_halves pts score) S ++ N).
        { inversion R1 as [D0 ch0 H0|D0 ch0 c0 H0 R0]; subst; [reflexivity|]. exfalso. apply H0.
          match goal with |- filter ?f ?l = [] => assert (G : forall x, f x = false) end.
          { intros x. unfold r_sel. destruct (existsb _ _) eqn:E; [exfalso|reflexivity]. apply existsb_exists in E. destruct E as (h & Hh & K).
            rewrite Efm in Hh. unfold r_checked in K. apply andb_prop in K. destruct K as [K _]. apply big_iff in K. destruct K as [K _].
            change (rJ h - rI h <> 1) in K. specialize (Hseg h Hh). apply filter_In in Hh. destruct (Hpp h (proj1 Hh)) as (_ & K' & _). lia. }
          generalize (flat_map (r_halves pts score) S ++ N) at 2. intros l. induction l as [|x l IHl]; [reflexivity|]. cbn [filter]. rewrite G. exact IHl. }
        rewrite Ec, Efm. rewrite <- P. symmetry. apply filter_two.
      + assert (H0 : In r0 S /\ 1 < rJ r0 - rI r0).
        { assert (X : In r0 (filter (fun r => 1 <? rJ r - rI r) S)) by (rewrite ES; left; reflexivity). apply filter_In in X.
          destruct X as [X1 X2]. apply Z.ltb_lt in X2. auto. }
        assert (Et' : parts (lo :: map rJ chn') = chn') by (rewrite parts_tiles; eapply tiles_cut; exact Hc').
        destruct (IH (lo :: map rJ chn) chn' P' Hc') as (chs & S1 & S2 & S3).
        { intros h Hh. apply in_app_iff. left. exact Hh. }
        { intros h Hh Hl. rewrite Et. split.
          - intros K Hn. apply in_flat_map in K. destruct K as (r & Hr & K). pose proof Hr as Hr'. apply filter_In in Hr'. destruct Hr' as [Hr' _].
            destruct (Z_lt_dec 1 (rJ r - rI r)) as [Hlr|Hlr].
            + assert (Hrn : In r chn) by (eapply Permutation_in; eauto).
              pose proof (Hscore r (Hpp r Hr') Hlr) as Sc. unfold r_halves, rsize in K. destruct (Z.ltb_spec 1 (rJ r - rI r)); [|lia].
              destruct K as [<- |[<- |[]]].
              * pose proof (chain_start_inj _ _ _ _ _ Hc Hn Hrn eq_refl) as E. apply (f_equal rJ) in E. cbn [rJ] in E. lia.
              * pose proof (chain_end_inj _ _ _ _ _ Hc Hn Hrn eq_refl) as E. apply (f_equal rI) in E. cbn [rI] in E. lia.
            + rewrite (Hone r Hr' Hlr) in K. destruct K as [<- |[]]. destruct (Hpp r Hr') as (_ & K' & _). unfold rsize in Hl. lia.
          - intros K. apply in_app_iff in Hh. destruct Hh as [Hh|Hh]; [exact Hh|]. exfalso. apply K. apply filter_In in Hh. eapply Permutation_in; [exact P|apply Hh]. }
        exists chs. split; [|auto]. eapply se_round; [exists r0; apply Hms; exact H0|apply (chain_ends _ _ _ Hc')| |exact S1].
        assert (Hsplit : forall r, In r S -> 1 < rJ r - rI r -> forall k, farthest_vertex dist pts (rI r) (rJ r) k <-> k = rI r + fst (score (sub_coords pts r))).
        { intros r Hr Hl k. apply filter_In in Hr. pose proof (Hpp r (proj1 Hr)) as Hpr.
          assert (Fa : farthest_vertex dist pts (rI r) (rJ r) (rI r + fst (score (sub_coords pts r)))).
          { destruct r as [a b]. cbn [rI rJ] in *. apply score_farthest; auto. }
          split; [intros K; eapply farthest_unique; eauto|intros ->; exact Fa]. }
        intros k. cbn [In]. rewrite !in_map_iff. split.
        * intros [K|(x & Ex & Hx)]; [auto|]. apply in_flat_map in Hx. destruct Hx as (r & Hr & Hx).
          destruct (sel r) eqn:Es; [|destruct Hx as [<- |[]]; left; right; exists r; auto].
          assert (Hin : In r ch) by (eapply Permutation_in; [apply Permutation_sym, P|exact Hr]).
          assert (HS : In r S) by (apply filter_In; auto).
          destruct (Z_lt_dec 1 (rJ r - rI r)) as [Hlr|Hlr]; [|rewrite (Hone r Hin Hlr) in Hx; destruct Hx as [<- |[]]; left; right; exists r; auto].
          unfold r_halves, rsize in Hx. destruct (Z.ltb_spec 1 (rJ r - rI r)); [|lia]. destruct Hx as [<- |[<- |[]]].
          -- right. exists r. split; [apply Hms; auto|]. apply (Hsplit r HS Hlr). cbn [rJ] in Ex. symmetry. exact Ex.
          -- left. right. exists r. split; [exact Ex|exact Hr].
        * intros [[K|(r & Ex & Hr)]|(r & Hm & K)]; [auto| |].
          -- right. assert (Hin : In r ch) by (eapply Permutation_in; [apply Permutation_sym, P|exact Hr]).
             assert (X : exists x, In x (if sel r then r_halves pts score r else [r]) /\ rJ x = rJ r).
             { destruct (sel r); [|exists r; split; [left|]; reflexivity]. unfold r_halves. destruct (1 <? rsize r); [|exists r; split; [left|]; reflexivity].
               eexists. split; [right; left; reflexivity|reflexivity]. }
             destruct X as (x & X1 & X2). exists x. split; [congruence|]. apply in_flat_map. exists r. auto.
          -- right. apply Hms in Hm. destruct Hm as [HS Hl]. apply (Hsplit r HS Hl) in K. pose proof HS as HS'. apply filter_In in HS'. destruct HS' as [Hin Es].
             exists (Rng (rI r) k). split; [reflexivity|]. apply in_flat_map. exists r. split; [eapply Permutation_in; eauto|]. rewrite Es.
             unfold r_halves, rsize. destruct (Z.ltb_spec 1 (rJ r - rI r)); [|lia]. rewrite K. left. reflexivity.
  Qed.

  (** ** Merging *)

  Hypothesis Hfollow : forall a b, piece pts a -> piece pts b -> rJ a = rI b \/ rJ b = rI a -> r_near L pts a b = true.

  Definition pieceb (r : rng) : bool := (0 <=? rI r) && (rI r <? rJ r) && (rJ r <? zlen pts).
  Lemma pieceb_iff r : pieceb r = true <-> piece pts r.
  Proof. unfold pieceb, piece. rewrite !andb_true_iff, Z.leb_le, !Z.ltb_lt. tauto. Qed.
  Definition clearb (others : list rng) (a b : Z) : bool :=
    chord_ok L o cs pts a b &&
    (negb (o_avoid_self o) || negb (pieceb (Rng a b)) ||
     forallb (fun x => negb (pieceb x) || negb (r_near L pts (Rng a b) x) ||
       (negb (fst (r_flags L pts o (Rng a b) x)) && negb (snd (r_flags L pts o (Rng a b) x)))) others).
  Lemma clearb_iff others a b : clearb others a b = true <-> clear_of L o cs pts others a b.
  Proof.
    unfold clearb, clear_of. rewrite andb_true_iff, !orb_true_iff, !negb_true_iff, forallb_forall. split; intros [A B]; (split; [exact A|]).
    - intros q v Hq K. pose proof K as (K1 & K2 & K3 & _). destruct B as [[B|B]|B]; [congruence|apply pieceb_iff in K2; congruence|].
      apply (conflict_iff _ _ _ K2 K3) in K. destruct K as (_ & Kn & K). specialize (B q Hq). apply pieceb_iff in K3. rewrite K3, Kn in B. cbn [negb orb] in B.
      apply andb_prop in B. destruct B as [B1 B2]. apply negb_true_iff in B1, B2. intuition congruence.
    - destruct (o_avoid_self o) eqn:Ea; [|auto]. destruct (pieceb (Rng a b)) eqn:Ep; [right|auto]. apply pieceb_iff in Ep.
      intros x Hx. destruct (pieceb x) eqn:Ex; [|reflexivity]. apply pieceb_iff in Ex. destruct (r_near L pts (Rng a b) x) eqn:En; [|reflexivity].
      cbn [negb orb]. apply andb_true_intro. split; apply negb_true_iff; match goal with |- ?f = false => destruct f eqn:Ef; [exfalso|reflexivity] end.
      + apply (B x (Rng a b) Hx). apply conflict_iff; auto.
      + apply (B x x Hx). apply conflict_iff; auto.
  Qed.
  Lemma clearb_same others others' a b : (forall x, In x others <-> In x others') -> clearb others a b = clearb others' a b.
  Proof.
    intros H. apply eq_true_iff_eq. rewrite !clearb_iff. unfold clear_of. split; intros [A B]; (split; [exact A|]); intros q v Hq; apply B, H, Hq.
  Qed.
  Lemma merge_clear base a b : piece pts (Rng a b) -> Forall (piece pts) base ->
    r_merge_valid L pts o cs base (Rng a b) = clearb base a b.
  Proof.
    intros Hp Hb. unfold r_merge_valid, clearb. destruct Hp as (A & B & C). rewrite (valid_chord L o cs pts a b A B), andb_comm. f_equal.
    rewrite (proj2 (pieceb_iff (Rng a b)) (conj A (conj B C))). cbn [negb]. rewrite orb_false_r. f_equal.
    clear A B C. induction Hb as [|x base Hx Hb IH]; [reflexivity|]. cbn [forallb]. rewrite IH. f_equal.
    rewrite (proj2 (pieceb_iff x) Hx). reflexivity.
  Qed.

  Notation drop := (fun cvs => drop_ends_clear o dist pts (fun k => zmem k cvs) clearb).

  Definition cache_in (cvs : list Z) (front : list Z) (i : Z) (todo : list Z) (cache : list (rng * rng)) : Prop :=
    (forall a b, In (a, b) cache -> rI a < i /\ (rI b < i \/ (rI b = i /\ rI a + 1 = i))) /\
    (forall p f j t, front = p :: f -> todo = j :: t -> p + 1 = i -> zmem i cvs = false -> In (Rng p i, Rng i j) cache).

  Lemma step_clear cvs front i j rest ch cache :
    let l := rev front ++ i :: j :: rest in
    increasing l -> Forall (fun k => 0 <= k < zlen pts) l -> Permutation ch (tiles l) -> cache_in cvs front i (j :: rest) cache ->
    exists front' i' todo' ch' cache',
      r_step L pts o score rel cs cvs (Rng i j) (tiles (j :: rest)) ch cache = (tiles (i' :: todo'), ch', cache') /\
      (length todo' <= length rest)%nat /\
      drop cvs front i (j :: rest) = drop cvs front' i' todo' /\
      let l' := rev front' ++ i' :: todo' in
      increasing l' /\ Forall (fun k => 0 <= k < zlen pts) l' /\ Permutation ch' (tiles l') /\ cache_in cvs front' i' todo' cache'.
  Proof.
    intros l Hi Hr Hp Hc.
    assert (Hij : i < j). { apply inc_app_r in Hi. apply (inc_head _ _ Hi). left; reflexivity. }
    assert (Hrange : forall k, In k l -> 0 <= k < zlen pts) by (rewrite Forall_forall in Hr; exact Hr).
    assert (Ii : In i l) by (apply in_app_iff; right; left; reflexivity).
    assert (Ij : In j l) by (apply in_app_iff; right; right; left; reflexivity).
    pose proof (Hrange i Ii) as Ri. pose proof (Hrange j Ij) as Rj.
    (* going on without a change *)
    assert (Go : forall cache', cache_in cvs (i :: front) j rest cache' ->
      let l' := rev (i :: front) ++ j :: rest in
      increasing l' /\ Forall (fun k => 0 <= k < zlen pts) l' /\ Permutation ch (tiles l') /\ cache_in cvs (i :: front) j rest cache').
    { intros cache' H'. cbn [rev]. rewrite <- app_assoc. cbn [app]. auto. }
    assert (Old : forall a b, In (a, b) cache -> rI a < j /\ (rI b < j \/ (rI b = j /\ rI a + 1 = j))).
    { intros a b Hab. destruct (proj1 Hc a b Hab) as [A B]. split; [lia|]. left. lia. }
    unfold r_step. cbn [rI rJ rsize]. unfold rsize. cbn [rI rJ].
    destruct (Z.eqb_spec (j - i) 1) as [E1|E1]; cbn [negb].
    2: { exists (i :: front), j, rest, ch, cache. split; [reflexivity|]. split; [lia|]. split.
         - cbn [drop_ends_clear]. destruct (Z.eqb_spec j (i + 1)); [lia|]. cbn [andb]. destruct rest, front; reflexivity.
         - apply Go. split; [exact Old|]. intros p f j0 t E _ K _. injection E as <- <-. lia. }
    assert (Ej : (j =? i + 1) = true) by (apply Z.eqb_eq; lia).
    destruct (zmem i cvs && zmem j cvs) eqn:E2.
    { apply andb_prop in E2. destruct E2 as [F1 F2]. exists (i :: front), j, rest, ch, cache. split; [reflexivity|]. split; [lia|].
      split.
      - cbn [drop_ends_clear]. rewrite F1, F2. cbn [negb]. rewrite !andb_false_r. cbn [andb]. destruct rest, front; reflexivity.
      - apply Go. split; [exact Old|]. intros p f j0 t E _ K Kz. congruence. }
    cbv zeta.
    (* the parts before and after *)
    assert (El : tiles l = tiles (rev front ++ [i]) ++ Rng i j :: tiles (j :: rest)) by (unfold l; rewrite tiles_app; reflexivity).
    assert (Hn : NoDup ch). { eapply Permutation_NoDup; [apply Permutation_sym, Hp|]. apply tiles_nodup, Hi. }
    set (A := tiles (rev front ++ [i])) in *. set (B := tiles (j :: rest)) in *.
    assert (P1 : Permutation (r_without (Rng i j) ch) (A ++ B)).
    { apply without_take; [exact Hn|]. rewrite Hp, El. symmetry. apply Permutation_middle. }
    assert (IA : increasing (rev front ++ [i])).
    { apply (inc_app_l _ (j :: rest)). rewrite <- app_assoc. exact Hi. }
    assert (IB : increasing (j :: rest)).
    { apply (inc_app_r (rev front ++ [i])). rewrite <- app_assoc. exact Hi. }
    assert (InA : forall x, In x A -> 0 <= rI x /\ rI x < rJ x /\ rJ x <= i).
    { intros x Hx. destruct (tiles_in _ IA x Hx) as (X1 & X2 & X3). split; [|split; [exact X3|]].
      - apply in_app_iff in X1. destruct X1 as [X1|[<- |[]]]; [|lia]. apply Hrange. unfold l. apply in_app_iff. left. exact X1.
      - apply in_app_iff in X2. destruct X2 as [X2|[<- |[]]]; [|lia]. pose proof (inc_app_lt _ _ IA (rJ x) i X2 (or_introl eq_refl)). lia. }
    assert (InB : forall x, In x B -> j <= rI x /\ rI x < rJ x /\ rJ x < zlen pts).
    { intros x Hx. destruct (tiles_in _ IB x Hx) as (X1 & X2 & X3). split; [|split; [exact X3|]].
      - destruct X1 as [<- |X1]; [lia|]. pose proof (inc_head _ _ IB _ X1). lia.
      - apply Hrange. unfold l. apply in_app_iff. right. right. exact X2. }
    assert (Pr : piece pts (Rng i j)) by (unfold piece; cbn [rI rJ]; lia).
    assert (Hpc : forall x, In x (r_without (Rng i j) ch) -> piece pts x).
    { intros x Hx. eapply Permutation_in in Hx; [|exact P1]. apply in_app_iff in Hx. unfold piece. destruct Hx as [Hx|Hx].
      - pose proof (InA x Hx). lia.
      - pose proof (InB x Hx). lia. }
    set (qp := match front with p :: _ => Some (Rng p i) | [] => None end).
    set (qn := match rest with k :: _ => Some (Rng j k) | [] => None end).
    assert (Ep : r_prev L pts (Rng i j) (r_without (Rng i j) ch) = qp).
    { apply find_is. intros x. cbn [rI]. split.
      - intros E. unfold qp in E. destruct front as [|p front']; [discriminate|]. injection E as <-.
        assert (Hx : In (Rng p i) (r_without (Rng i j) ch)).
        { eapply Permutation_in; [apply Permutation_sym, P1|]. apply in_app_iff. left. unfold A. cbn [rev]. rewrite <- app_assoc. cbn [app].
          rewrite tiles_app. apply in_app_iff. right. left. reflexivity. }
        split; [exact Hx|]. rewrite Hfollow; auto. cbn [andb rJ rI]. apply Z.eqb_refl.
      - intros [Hx K]. apply andb_prop in K. destruct K as [_ K]. apply Z.eqb_eq in K.
        eapply Permutation_in in Hx; [|exact P1]. apply in_app_iff in Hx. destruct Hx as [Hx|Hx]; [|pose proof (InB x Hx); lia].
        unfold A in Hx. unfold qp. destruct front as [|p front']; [destruct Hx|]. cbn [rev] in Hx, IA. rewrite <- app_assoc in Hx, IA. cbn [app] in Hx, IA.
        rewrite tiles_app in Hx. apply in_app_iff in Hx. destruct Hx as [Hx|[<- |[]]]; [exfalso|reflexivity].
        assert (I2 : increasing (rev front' ++ [p])). { apply (inc_app_l _ [i]). rewrite <- app_assoc. exact IA. }
        destruct (tiles_in _ I2 x Hx) as (_ & X2 & _).
        assert (rJ x < i); [|lia]. apply (inc_app_lt (rev front' ++ [p]) [i]); [rewrite <- app_assoc; exact IA|exact X2|left; reflexivity]. }
    assert (En : r_next L pts (Rng i j) (r_without (Rng i j) ch) = qn).
    { apply find_is. intros x. cbn [rJ]. split.
      - intros E. unfold qn in E. destruct rest as [|k rest']; [discriminate|]. injection E as <-.
        assert (Hx : In (Rng j k) (r_without (Rng i j) ch)).
        { eapply Permutation_in; [apply Permutation_sym, P1|]. apply in_app_iff. right. left. reflexivity. }
        split; [exact Hx|]. rewrite Hfollow; auto. cbn [andb rJ rI]. apply Z.eqb_refl.
      - intros [Hx K]. apply andb_prop in K. destruct K as [_ K]. apply Z.eqb_eq in K.
        eapply Permutation_in in Hx; [|exact P1]. apply in_app_iff in Hx. destruct Hx as [Hx|Hx]; [pose proof (InA x Hx); lia|].
        unfold B in Hx. unfold qn. destruct rest as [|k rest']; [destruct Hx|]. destruct Hx as [<- |Hx]; [reflexivity|exfalso].
        inversion IB as [|? ? IB1 IB2]; subst. destruct (tiles_in _ IB1 x Hx) as (X1 & _). rewrite Forall_forall in IB2.
        specialize (IB2 _ X1). lia. }
    rewrite Ep, En. clear Ep En.
    set (e1 := negb (zmem i cvs)). set (e2 := negb (zmem j cvs)).
    assert (Hqp : forall p f, front = p :: f -> 0 <= p < i).
    { intros p f E. subst front. assert (I : In p (rev (p :: f))) by (apply in_rev; rewrite rev_involutive; left; reflexivity). split.
      - apply Hrange. unfold l. apply in_app_iff. left. exact I.
      - apply (inc_app_lt _ _ IA); [exact I|left; reflexivity]. }
    assert (Hqn : forall k r', rest = k :: r' -> j < k < zlen pts).
    { intros k r' E. subst rest. split; [apply (inc_head _ _ IB); left; reflexivity|]. apply Hrange. unfold l. apply in_app_iff. right. right. right. left. reflexivity. }
    (* the part before *)
    assert (T1 : exists c1, r_try pts score rel e1 (match qp with Some p => Some (p, Rng i j) | None => None end) cache =
        (match front with p :: _ => if e1 && (p + 1 <? i) && all_close o dist pts p j then Some (Rng p j) else None | [] => None end, c1) /\
      (forall a b, In (a, b) c1 -> In (a, b) cache \/ (rI a < i /\ b = Rng i j))).
    { unfold r_try. destruct e1 eqn:Ee1; [|exists cache; split; [destruct front; reflexivity|auto]].
      destruct front as [|p front']; cbn [qp]; [exists cache; split; [reflexivity|auto]|]. pose proof (Hqp p front' eq_refl) as Rp.
      destruct (existsb _ cache) eqn:Ec.
      - exists cache. split; [|auto]. apply cached_in in Ec. destruct (proj1 Hc _ _ Ec) as [_ [K|[_ K]]]; cbn [rI rJ] in K; [lia|].
        destruct (Z.ltb_spec (p + 1) i); [lia|]. reflexivity.
      - exists ((Rng p i, Rng i j) :: cache). split; [|intros a b [Hab|Hab]; [right; injection Hab as <- <-; cbn [rI]; split; [lia|reflexivity]|auto]].
        f_equal. cbn [rI rJ andb]. destruct (Z.ltb_spec (p + 1) i) as [K|K].
        + cbn [andb]. rewrite <- (accepted_close o dist pts HT p j) by lia. reflexivity.
        + exfalso. assert (In (Rng p i, Rng i j) cache); [|apply cached_in in H; congruence].
          apply (proj2 Hc p front' j rest eq_refl eq_refl); [lia|]. apply negb_true_iff. exact Ee1. }
    destruct T1 as (c1 & -> & Hc1).
    assert (T2 : exists c2, r_try pts score rel e2 (match qn with Some n => Some (Rng i j, n) | None => None end) c1 =
        (match rest with k :: _ => if e2 && all_close o dist pts i k then Some (Rng i k) else None | [] => None end, c2) /\
      (forall a b, In (a, b) c2 -> In (a, b) c1 \/ (a = Rng i j /\ rI b = j)) /\
      (forall k r', e2 = true -> rest = k :: r' -> In (Rng i j, Rng j k) c2)).
    { unfold r_try. destruct e2 eqn:Ee2; [|exists c1; split; [destruct rest; reflexivity|split; [auto|discriminate]]].
      destruct rest as [|k rest']; cbn [qn]; [exists c1; split; [reflexivity|split; [auto|discriminate]]|]. pose proof (Hqn k rest' eq_refl) as Rk.
      destruct (existsb _ c1) eqn:Ec.
      - exfalso. apply cached_in in Ec. destruct (Hc1 _ _ Ec) as [K|[K _]].
        + destruct (proj1 Hc _ _ K) as [K1 _]. cbn [rI] in K1. lia.
        + cbn [rI] in K. lia.
      - exists ((Rng i j, Rng j k) :: c1). split; [|split].
        + f_equal. cbn [rI rJ andb]. rewrite <- (accepted_close o dist pts HT i k) by lia. reflexivity.
        + intros a b [Hab|Hab]; [right; injection Hab as <- <-; auto|auto].
        + intros k0 r0 _ E. injection E as <- <-. left. reflexivity. }
    destruct T2 as (c2 & -> & Hc2 & Hadd).
    assert (Entries : forall a b, In (a, b) c2 -> rI a <= i /\ (rI b <= i \/ (rI b = j /\ rI a = i))).
    { intros a b Hab. destruct (Hc2 a b Hab) as [K|[-> K]]; [|cbn [rI]; lia]. destruct (Hc1 a b K) as [K'|[K' ->]]; [|cbn [rI]; lia].
      destruct (proj1 Hc a b K') as [X Y]. lia. }
    assert (CG : cache_in cvs (i :: front) j rest c2).
    { split.
      - intros a b Hab. pose proof (Entries a b Hab). lia.
      - intros p f k t E Et _ Kz. injection E as <- <-. apply (Hadd k t); [unfold e2; rewrite Kz; reflexivity|exact Et]. }
    (* dropping the beginning, or nothing *)
    assert (Rest : forall base behind, (forall x, In x base <-> In x (A ++ behind)) -> (forall x, In x behind -> In x B) ->
      exists front' i' todo' ch' cache',
        match (match front with p :: _ => if e1 && (p + 1 <? i) && all_close o dist pts p j then Some (Rng p j) else None | [] => None end) with
        | Some m => match qp with
                    | Some p => if r_merge_valid L pts o cs (r_without p base) m then (B, m :: r_without p (r_without (Rng i j) ch), c2) else (B, ch, c2)
                    | None => (B, ch, c2)
                    end
        | None => (B, ch, c2)
        end = (tiles (i' :: todo'), ch', cache') /\
        (length todo' <= length rest)%nat /\
        match front with
        | p :: _ =>
          if (j =? i + 1) && negb (zmem i cvs) && (p + 1 <? i) && all_close o dist pts p j && clearb (parts (rev front) ++ behind) p j
          then drop cvs front j rest else drop cvs (i :: front) j rest
        | [] => drop cvs (i :: front) j rest
        end = drop cvs front' i' todo' /\
        let l' := rev front' ++ i' :: todo' in
        increasing l' /\ Forall (fun k => 0 <= k < zlen pts) l' /\ Permutation ch' (tiles l') /\ cache_in cvs front' i' todo' cache').
    { intros base behind Hbase Hbehind. rewrite Ej. cbn [andb]. fold e1.
      destruct front as [|p front'].
      { exists [i], j, rest, ch, c2. split; [reflexivity|]. split; [lia|]. split; [reflexivity|]. apply Go, CG. }
      pose proof (Hqp p front' eq_refl) as Rp.
      assert (Same : exists fr' i' todo' ch' cache', (B, ch, c2) = (tiles (i' :: todo'), ch', cache') /\
        (length todo' <= length rest)%nat /\ drop cvs (i :: (p :: front')) j rest = drop cvs fr' i' todo' /\
        let l' := rev fr' ++ i' :: todo' in
        increasing l' /\ Forall (fun k => 0 <= k < zlen pts) l' /\ Permutation ch' (tiles l') /\ cache_in cvs fr' i' todo' cache').
      { exists (i :: (p :: front')), j, rest, ch, c2. split; [reflexivity|]. split; [lia|]. split; [reflexivity|]. apply Go, CG. }
      destruct (e1 && (p + 1 <? i) && all_close o dist pts p j) eqn:Et; cbn [andb]; [|exact Same].
      assert (Eqp : qp = Some (Rng p i)) by (reflexivity). rewrite Eqp.
      assert (EA : A = tiles (rev (p :: front')) ++ [Rng p i]).
      { unfold A. cbn [rev]. rewrite <- !app_assoc. cbn [app]. rewrite (tiles_app (rev front') p [i]). reflexivity. }
      assert (NA : ~ In (Rng p i) (tiles (rev (p :: front')))).
      { intros K. assert (ND : NoDup A) by (apply tiles_nodup, IA). rewrite EA in ND. apply NoDup_remove_2 in ND. apply ND. rewrite app_nil_r. exact K. }
      assert (Wo : forall x, In x (r_without (Rng p i) base) <-> In x (tiles (rev (p :: front')) ++ behind)).
      { intros x. unfold r_without. rewrite filter_In, Hbase, EA, !in_app_iff, negb_true_iff. cbn [In]. split.
        - intros [[[K|[K|[]]]|K] Kx]; auto. exfalso. subst x. assert (rng_eqb (Rng p i) (Rng p i) = true) by (apply rng_eqb_eq; reflexivity). congruence.
        - intros K. split; [tauto|]. destruct (rng_eqb x (Rng p i)) eqn:Ex; [exfalso|reflexivity]. apply rng_eqb_eq in Ex. subst x.
          destruct K as [K|K]; [exact (NA K)|]. pose proof (InB _ (Hbehind _ K)). cbn [rI] in *. lia. }
      assert (Em : r_merge_valid L pts o cs (r_without (Rng p i) base) (Rng p j) = clearb (parts (rev (p :: front')) ++ behind) p j).
      { rewrite merge_clear.
        - apply clearb_same. exact Wo.
        - unfold piece. cbn [rI rJ]. lia.
        - apply Forall_forall. intros x Hx. apply Wo in Hx. apply Hpc. eapply Permutation_in; [apply Permutation_sym, P1|].
          rewrite EA, !in_app_iff in *. intuition. }
      rewrite Em. destruct (clearb _ p j); [|exact Same]. clear Same.
      exists (p :: front'), j, rest, (Rng p j :: r_without (Rng p i) (r_without (Rng i j) ch)), c2.
      split; [reflexivity|]. split; [lia|]. split; [reflexivity|]. cbv zeta.
      assert (Ll : l = rev front' ++ p :: i :: j :: rest) by (unfold l; cbn [rev]; rewrite <- app_assoc; reflexivity).
      assert (Ll' : rev (p :: front') ++ j :: rest = rev front' ++ p :: j :: rest) by (cbn [rev]; rewrite <- app_assoc; reflexivity).
      rewrite Ll'. rewrite Ll in Hi, Hr.
      split; [|split; [|split]].
      - eapply inc_drop; exact Hi.
      - rewrite Forall_forall in *. intros y Hy. apply Hr. rewrite in_app_iff in *. cbn [In] in *. tauto.
      - assert (Er : tiles (rev (p :: front')) = tiles (rev front' ++ [p])) by (reflexivity).
        assert (Pa : Permutation (r_without (Rng i j) ch) (Rng p i :: tiles (rev front' ++ [p]) ++ B)).
        { rewrite P1, EA, Er, <- app_assoc. cbn [app]. symmetry. apply Permutation_middle. }
        rewrite tiles_app. change (tiles (p :: j :: rest)) with (Rng p j :: B).
        rewrite (without_take _ _ _ ltac:(unfold r_without; apply NoDup_filter, Hn) Pa). apply Permutation_middle.
      - split; [intros a b Hab; pose proof (Entries a b Hab); lia|]. intros p0 f0 k0 t0 E _ K _. injection E as <- <-. lia. }
    assert (InCh : forall x, In x (r_without (Rng i j) ch) <-> In x (A ++ B)).
    { intros x. split; apply Permutation_in; [|apply Permutation_sym]; exact P1. }
    cbn [drop_ends_clear]. rewrite Ej. cbn [andb]. rewrite Ej in Rest. cbn [andb] in Rest. fold e1 e2. fold e1 in Rest.
    destruct rest as [|k rest'].
    { apply (Rest _ B); auto. }
    pose proof (Hqn k rest' eq_refl) as Rk. cbn [andb] in *.
    destruct (e2 && all_close o dist pts i k) eqn:Et; [|apply (Rest _ B); auto].
    assert (Eqn : qn = Some (Rng j k)) by (reflexivity). rewrite Eqn.
    assert (EB : B = Rng j k :: tiles (k :: rest')) by (unfold B; reflexivity).
    assert (NB : ~ In (Rng j k) (tiles (k :: rest'))).
    { intros K. assert (ND : NoDup B) by (apply tiles_nodup, IB). rewrite EB in ND. inversion ND; contradiction. }
    assert (Wo : forall x, In x (r_without (Rng j k) (r_without (Rng i j) ch)) <-> In x (A ++ tiles (k :: rest'))).
    { intros x. unfold r_without at 1. rewrite filter_In, InCh, EB, !in_app_iff, negb_true_iff. cbn [In]. split.
      - intros [[K|[K|K]] Kx]; auto. exfalso. subst x. assert (rng_eqb (Rng j k) (Rng j k) = true) by (apply rng_eqb_eq; reflexivity). congruence.
      - intros K. split; [tauto|]. destruct (rng_eqb x (Rng j k)) eqn:Ex; [exfalso|reflexivity]. apply rng_eqb_eq in Ex. subst x.
        destruct K as [K|K]; [|exact (NB K)]. pose proof (InA _ K). cbn [rI rJ] in *. lia. }
    assert (Em : r_merge_valid L pts o cs (r_without (Rng j k) (r_without (Rng i j) ch)) (Rng i k) = clearb (parts (rev (i :: front)) ++ parts (k :: rest')) i k).
    { rewrite merge_clear.
      - apply clearb_same. exact Wo.
      - unfold piece. cbn [rI rJ]. lia.
      - apply Forall_forall. intros x Hx. apply filter_In in Hx. apply Hpc, Hx. }
    rewrite Em. destruct (clearb _ i k).
    - clear Rest. exists (i :: front), k, rest', (Rng i k :: r_without (Rng j k) (r_without (Rng i j) ch)), c2.
      split; [rewrite EB; reflexivity|]. split; [cbn [length]; lia|]. split; [reflexivity|].
      cbv zeta. unfold l in *. cbn [rev]. rewrite <- !app_assoc. cbn [app].
      split; [|split; [|split]].
      + eapply inc_drop; exact Hi.
      + rewrite Forall_forall in *. intros y Hy. apply Hr. rewrite in_app_iff in *. cbn [In] in *. tauto.
      + assert (Pa : Permutation (r_without (Rng i j) ch) (Rng j k :: A ++ tiles (k :: rest'))).
        { rewrite P1, EB. symmetry. apply Permutation_middle. }
        rewrite tiles_app. change (tiles (i :: k :: rest')) with (Rng i k :: tiles (k :: rest')). fold A.
        rewrite (without_take _ _ _ ltac:(unfold r_without; apply NoDup_filter, Hn) Pa). apply Permutation_middle.
      + split; [intros a b Hab; pose proof (Entries a b Hab); lia|]. intros p0 f0 k0 t0 E _ K _. injection E as <- <-. lia.
    - apply Rest; [exact Wo|]. intros x Hx. rewrite EB. right. exact Hx.
  Qed.

  Lemma agg_clear cvs fuel : forall front i todo ch cache,
    let l := rev front ++ i :: todo in
    (length todo <= fuel)%nat -> increasing l -> Forall (fun k => 0 <= k < zlen pts) l -> Permutation ch (tiles l) ->
    cache_in cvs front i todo cache ->
    Permutation (r_agg L pts o score rel cs fuel cvs (tiles (i :: todo)) ch cache) (tiles (drop cvs front i todo)) /\
    increasing (drop cvs front i todo).
  Proof.
    induction fuel as [|fuel IH]; intros front i todo ch cache l Hf Hi Hr Hp Hc.
    - destruct todo; [|cbn in Hf; lia]. cbn [r_agg drop_ends_clear rev]. split; assumption.
    - destruct todo as [|j rest]; [cbn [r_agg drop_ends_clear rev tiles]; split; assumption|].
      destruct (step_clear cvs front i j rest ch cache Hi Hr Hp Hc) as (front' & i' & todo' & ch' & cache' & E & Hlen & Es & Hi' & Hr' & Hp' & Hc').
      rewrite Es. change (tiles (i :: j :: rest)) with (Rng i j :: tiles (j :: rest)). cbn [r_agg]. rewrite E.
      apply IH; auto. cbn [length] in Hf. lia.
  Qed.
End Run.

Section Result.
  Variables (L : geomlib) (o : opts) (dist : point -> point -> point -> f64) (cs : list geometry) (pts : list point).
  Variables (N : lnr_oracle) (verts : list Z).
  Hypothesis HT : fle fzero (o_threshold o) = true.
  Hypothesis Hscore : forall r, piece pts r -> 1 < rJ r - rI r -> 0 < fst (max_offset dist (sub_coords pts r)) < rJ r - rI r.
  Hypothesis Htwo : (2 <= length pts)%nat.
  Hypothesis Htouch : point_touch L.
  Hypothesis Hplaces : forall p, In p pts -> gl_eq2d L p p = true.
  Hypothesis Hfollow : forall a b, piece pts a -> piece pts b -> rJ a = rI b \/ rJ b = rI a -> r_near L pts a b = true.
  Hypothesis Hverts : Forall (fun k => 0 <= k < zlen pts) verts.
  Let found := self_intersection L (lo_sort N) (lo_segx N) (lo_near N pts) true (o_non_planar_self o) pts.
  Hypothesis Hon : o_planar_self o = true ->
    forall c, In c (found ++ map (fun k => (nth (Z.to_nat k) pts origin, [k])) verts) -> location_on_hulls L pts c.
  Let forced k := o_planar_self o = true /\ (In k verts \/ forced_by found k).

  Lemma result_whole R : r_result L pts o (max_offset dist) (score_rel (o_threshold o)) cs N verts R ->
    exists s, whole_result L o dist cs pts forced s /\ Permutation R (tiles s) /\ increasing s.
  Proof.
    intros (ch0 & ch1 & cvs & ch2 & sorted & Ht & Hs & Hr & Hp & Hc & ->).
    assert (Hpos : 0 < zlen pts - 1) by (unfold zlen; lia).
    pose proof (tree_chain pts (max_offset dist) (score_rel (o_threshold o)) _ _ (max_offset_splits dist _ HT) Ht Hpos) as C0. cbn [rI rJ] in C0.
    pose proof (tree_textbook dist (o_threshold o) pts HT _ _ Ht ltac:(cbn; lia) Hpos) as TB. cbn [rI rJ] in TB.
    destruct (forced_chain L o pts N verts Htwo Hverts Hon ch0 ch1 cvs Hs C0 Hpos) as (C1 & S1 & Sf).
    destruct (rounds_settle L o dist cs pts Hscore Htouch Hplaces 0 (zlen pts - 1) ch1 ch1 ch2 Hr ltac:(lia) ltac:(lia) [] ch1)
      as (chs & S2 & P2 & C2); [apply Permutation_refl|exact C1|auto|intros h Hh _; cbn [parts In]; tauto|].
    assert (Es : sorted = chs) by (apply (chain_perm_eq _ 0 (zlen pts - 1)); auto; rewrite <- Hp; exact P2).
    subst sorted. set (l := map rJ chs) in *.
    assert (Et : tiles (0 :: l) = chs) by (eapply tiles_cut; exact C2).
    destruct (chain_ends _ _ _ C2) as (I2 & L2 & _).
    destruct (agg_clear L o dist cs pts HT Htouch Hplaces Hfollow cvs (length chs) [] 0 l ch2 []) as [G1 G2].
    - unfold l. rewrite map_length. lia.
    - exact I2.
    - apply Forall_forall. intros k Hk. apply (cut_ends chs 0 (zlen pts - 1) C2) in Hk. destruct Hk as [->|(r & Hr1 & <-)]; [lia|].
      pose proof (chain_in _ _ _ _ C2 Hr1). lia.
    - cbn [rev app]. rewrite Et. exact Hp.
    - split; [intros a b []|]. intros p f j t K. discriminate K.
    - rewrite Et in G1. eexists. split; [|split; [exact G1|exact G2]].
      exists (0 :: map rJ ch0), (0 :: map rJ ch1), (0 :: l), (fun k => zmem k cvs), (clearb L o cs pts).
      split; [exact TB|]. split; [split; [apply (chain_ends _ _ _ C1)|exact S1]|]. split; [exact S2|]. split; [exact Sf|].
      split; [intros others a b; apply clearb_iff; assumption|]. exists 0, l. split; reflexivity.
  Qed.
End Result.

(** ** The description determines the result *)

Section Unique.
  Variables (L : geomlib) (o : opts) (dist : point -> point -> point -> f64) (cs : list geometry) (pts : list point).

  Lemma settle_unique before now s : settle L o dist cs pts before now s -> forall s', settle L o dist cs pts before now s' -> s = s'.
  Proof.
    induction 1 as [before now H|before now next s H Hi Hn H1 IH]; intros s' H'; inversion H' as [? ? G|? ? next' ? G Gi Gn G1]; subst; auto.
    - destruct G as [r G]. destruct (H r G).
    - destruct H as [r H]. destruct (G r H).
    - assert (next' = next) as -> by (apply increasing_ext; auto; intros k; rewrite Hn, Gn; reflexivity). auto.
  Qed.
  Lemma drop_clear_ext f g c d : (forall k : Z, f k = g k) -> (forall l a b, c l a b = d l a b) -> forall n front i todo, (length todo <= n)%nat ->
    drop_ends_clear o dist pts f c front i todo = drop_ends_clear o dist pts g d front i todo.
  Proof.
    intros E Ec. induction n as [|n IH]; intros front i todo Hn; (destruct todo as [|j rest]; [reflexivity|]); cbn [length] in Hn; [lia|].
    cbn [drop_ends_clear]. rewrite !E.
    assert (D : forall fr, drop_ends_clear o dist pts f c fr j rest = drop_ends_clear o dist pts g d fr j rest) by (intros; apply IH; lia).
    destruct rest as [|k rest'].
    - destruct front; rewrite ?Ec, !D; reflexivity.
    - rewrite (IH (i :: front) k rest') by (cbn [length] in Hn; lia). destruct front; rewrite ?Ec, !D; reflexivity.
  Qed.
  Lemma whole_unique forced s s' : whole_result L o dist cs pts forced s -> whole_result L o dist cs pts forced s' -> s = s'.
  Proof.
    intros (d & w & p & f & c & T & (W1 & W2) & Sp & F & C & a & l & -> & ->) (d' & w' & p' & f' & c' & T' & (W1' & W2') & Sp' & F' & C' & a' & l' & -> & ->).
    pose proof (textbook_unique _ _ _ _ _ _ T _ T') as <-.
    assert (w' = w) as -> by (apply increasing_ext; auto; intros k; rewrite W2, W2'; reflexivity).
    pose proof (settle_unique _ _ _ Sp _ Sp') as E. injection E as <- <-.
    apply (drop_clear_ext f f' c c') with (n := length l); [| |lia].
    - intros k. apply eq_true_iff_eq. rewrite F, F'. reflexivity.
    - intros os x y. apply eq_true_iff_eq. rewrite C, C'. reflexivity.
  Qed.
End Unique.
