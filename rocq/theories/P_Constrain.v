(** Splitting at constrained vertices. *)
From Verif Require Import M_Base M_Float M_Rng M_Geom M_Offset M_Node M_Split M_Hdb M_Knn M_Lnr M_Relate
  M_Deform M_Constrain Spec Spec_Hdb
  P_Base P_Float P_Decompose P_Split P_Node P_Hdb P_HdbIns P_HdbLoad P_HdbHist P_Knn P_Db P_Bag.
From Coq Require Import Sorted.
Open Scope Z_scope.

Ltac ands := repeat match goal with |- _ /\ _ => split end.

(** Vertex k of line i is an end of some hull of the bag. *)
Definition cut_at (b : list node) (i k : Z) : Prop :=
  exists h, In h b /\ n_inst h = i /\ (rI (n_rng h) = k \/ rJ (n_rng h) = k).

Lemma cut_perm b b' i k : Permutation b b' -> cut_at b i k -> cut_at b' i k.
Proof. intros Hp (h & A & B). exists h. split; auto. eapply Permutation_in; eauto. Qed.

Lemma chain_ends_cut rs lo hi : chain lo hi rs -> lo < hi ->
  (exists r, In r rs /\ rI r = lo) /\ (exists r, In r rs /\ rJ r = hi).
Proof.
  revert lo. induction rs as [|r t IH]; cbn; intros lo H Hlt; [lia|].
  destruct H as (H1 & H2 & H3). split; [exists r; auto|].
  destruct t as [|r2 t2].
  - cbn in H3. exists r; auto.
  - assert (rJ r < hi).
    { cbn in H3. destruct H3 as (_ & K & K2). apply chain_le in K2. lia. }
    destruct (IH _ H3 H) as [_ (q & Hq & Eq)]. exists q; auto.
Qed.

Lemma cut_split x new rest i k :
  chain (rI (n_rng x)) (rJ (n_rng x)) (map n_rng new) -> rI (n_rng x) < rJ (n_rng x) ->
  (forall h, In h new -> n_inst h = n_inst x) ->
  cut_at (x :: rest) i k -> cut_at (new ++ rest) i k.
Proof.
  intros Hc Hlt Hi (h & [<- |Hh] & Ei & Hk).
  - destruct (chain_ends_cut _ _ _ Hc Hlt) as [(r & Hr & Er) (q & Hq & Eq)].
    apply in_map_iff in Hr. destruct Hr as (a & <- & Ha).
    apply in_map_iff in Hq. destruct Hq as (c & <- & Hcc).
    destruct Hk as [<- | <-].
    + exists a. split; [apply in_or_app; auto|]. split; [rewrite Hi; auto|auto].
    + exists c. split; [apply in_or_app; auto|]. split; [rewrite Hi; auto|auto].
  - exists h. split; [apply in_or_app; auto|auto].
Qed.

Section Constrain.
  Variable L : geomlib.
  Variable lines : Z -> list point.
  Variable ids : list Z.
  Variable src : idsrc.
  Notation gen := (s_gen src).
  Hypothesis Hgen : src_ok src.
  Variable O : hdb_oracle.
  Hypothesis HO : oracle_ok O.
  Variable pop : popfn.
  Hypothesis Hpop : pop_bag pop.
  Hypothesis Hgood : forall i h, In i ids -> fresh_hull L (lines i) i h -> good_item h.

  Notation inv := (bag_inv L lines ids src).

  Lemma inv_good ctr b : inv ctr b -> Forall good_item b.
  Proof.
    intros [A B _ _ _]. rewrite Forall_forall in *. intros h Hh. apply (Hgood (n_inst h)); [auto|]. apply (A h Hh).
  Qed.
  Lemma fresh_good i hs : In i ids -> Forall (fresh_hull L (lines i) i) hs -> Forall good_item hs.
  Proof. intros Hi. apply Forall_impl. intros h. apply Hgood, Hi. Qed.

  Lemma split_hulls_spec idxs hulls : forall rest db ctr,
    holds db (hulls ++ rest) -> inv ctr (hulls ++ rest) ->
    exists db' ctr' b', split_hulls L gen O idxs hulls db ctr = Ok (db', ctr') /\
      holds db' b' /\ inv ctr' b' /\ (ctr <= ctr')%nat /\
      (forall i k, cut_at (hulls ++ rest) i k -> cut_at b' i k) /\
      (forall h k, In h hulls -> In k idxs -> rI (n_rng h) < k < rJ (n_rng h) -> cut_at b' (n_inst h) k).
  Proof.
    induction hulls as [|h r IH]; intros rest db ctr Hh Hi; cbn [split_hulls].
    - exists db, ctr, rest. cbn [app] in *. ands; auto. cbn; tauto.
    - assert (Hin : In h ((h :: r) ++ rest)) by (left; auto).
      pose proof (inv_hull _ _ _ _ _ _ _ Hi Hin) as Hhull.
      destruct (at_index_spec L gen _ h idxs ctr Hhull) as (hs & E & Er & Ef & Ei).
      rewrite E. cbn [bind].
      destruct hs as [|t0 ts].
      + assert (Hno : forall x, In x idxs -> ~ rI (n_rng h) < x < rJ (n_rng h)).
        { apply rsplit_empty_iff. symmetry. exact Er. }
        cbn [length]. rewrite Nat.add_0_r.
        destruct (IH (h :: rest) db ctr) as (db' & ctr' & b' & A1 & A2 & A3 & A4 & A5 & A6).
        * eapply holds_perm; [|exact Hh]. cbn. apply Permutation_middle.
        * eapply inv_perm; [|exact Hi]. cbn. apply Permutation_middle.
        * exists db', ctr', b'. split; [exact A1|]. split; [exact A2|]. split; [exact A3|]. split; [exact A4|].
          split.
          -- intros i k Hk. apply A5. eapply cut_perm; [|exact Hk]. cbn. apply Permutation_middle.
          -- intros g k [<- |Hg] Hk Hb; [exfalso; exact (Hno k Hk Hb)|]. apply A6; auto.
      + set (toks := t0 :: ts) in *.
        assert (Hex : exists x, In x idxs /\ rI (n_rng h) < x < rJ (n_rng h)).
        { destruct (existsb (fun x => (rI (n_rng h) <? x) && (x <? rJ (n_rng h))) idxs) eqn:Ex.
          - apply existsb_exists in Ex; destruct Ex as [x [Hx Hb]]; exists x; split; [exact Hx|].
            apply andb_true_iff in Hb; lia.
          - exfalso. assert (rsplit (n_rng h) idxs = []) as E0.
            { apply rsplit_empty_iff. intros x Hx Hb.
              assert (existsb (fun x => (rI (n_rng h) <? x) && (x <? rJ (n_rng h))) idxs = true); [|congruence].
              apply existsb_exists. exists x. split; auto. apply andb_true_iff. lia. }
            rewrite E0 in Er. discriminate. }
        destruct (rsplit_spec (n_rng h) idxs Hex) as [Hch Hcut]. rewrite <- Er in Hch, Hcut.
        pose proof (inv_member _ _ _ _ _ _ _ Hi Hin) as Hm.
        pose proof (bi_nodup _ _ _ _ _ _ Hi) as Hnd.
        assert (Hdb : holds (remove db h) (r ++ rest)).
        { pose proof (holds_remove_all [h] (r ++ rest) db) as K. cbn [fold_left app] in K. apply K; auto. }
        destruct (holds_load O (remove db h) (r ++ rest) toks HO Hdb (fresh_good _ _ Hm Ef)) as (db1 & E1 & H1).
        rewrite E1. cbn [bind].
        assert (Hi1 : inv (ctr + length toks) (toks ++ (r ++ rest))) by (apply (inv_split L lines ids src Hgen ctr h); auto).
        assert (Hperm : Permutation (toks ++ (r ++ rest)) (r ++ (toks ++ rest))) by apply Permutation_app_swap_app.
        destruct (IH (toks ++ rest) db1 (ctr + length toks)%nat) as (db' & ctr' & b' & A1 & A2 & A3 & A4 & A5 & A6).
        * eapply holds_perm; [|exact H1]. rewrite Permutation_app_comm. exact Hperm.
        * eapply inv_perm; [exact Hperm|exact Hi1].
        * exists db', ctr', b'. split; [exact A1|]. split; [exact A2|]. split; [exact A3|]. split; [lia|].
          assert (Hinst : forall g, In g toks -> n_inst g = n_inst h).
          { intros g Hg. rewrite Forall_forall in Ef. apply (Ef g Hg). }
          split.
          -- intros i k Hk. apply A5. eapply cut_perm; [exact Hperm|].
             apply (cut_split h toks (r ++ rest)); auto. destruct Hhull; lia.
          -- intros g k [<- |Hg] Hk Hb; [|apply A6; auto].
             apply A5. assert (Hc : cut (map n_rng toks) k) by (apply Hcut; auto).
             destruct Hc as (q & Hq & Eq). apply in_map_iff in Hq. destruct Hq as (g & <- & Hg).
             exists g. split; [|split; [apply Hinst, Hg|right; exact Eq]].
             apply in_or_app. right. apply in_or_app. auto.
  Qed.

  (** The hulls that a context must cut are found by the search around it. *)
  Definition reaches (c : point * list Z) : Prop :=
    forall i h k, In i ids -> fresh_hull L (lines i) i h -> In k (snd c) -> rI (n_rng h) < k < rJ (n_rng h) ->
      fle (gl_dist L (GPoint (fst c)) (n_geom h)) epsilon_dist = true.
  Definition boxes_nearer (c : point * list Z) : Prop :=
    forall i h b, In i ids -> fresh_hull L (lines i) i h -> box_within (n_mbr h) b = true ->
      fle (gl_dist L (GPoint (fst c)) (mbr_polygon b)) (gl_dist L (GPoint (fst c)) (n_geom h)) = true.

  Lemma split_at_self_spec inters : forall db ctr b, holds db b -> inv ctr b ->
    exists db' ctr' b', split_at_self L gen O pop inters db ctr = Ok (db', ctr') /\
      holds db' b' /\ inv ctr' b' /\ (ctr <= ctr')%nat /\
      (forall i k, cut_at b i k -> cut_at b' i k) /\
      (pop_ok (fun x y => flt x y = true) pop -> Forall reaches inters -> Forall boxes_nearer inters ->
       forall c k i, In c inters -> In k (snd c) -> In i ids -> 0 <= k < zlen (lines i) ->
         (2 <= length (lines i))%nat -> cut_at b' i k).
  Proof.
    induction inters as [|[p idxs] inters IH]; intros db ctr b Hh Hi; cbn [split_at_self].
    - exists db, ctr, b. ands; auto. cbn; tauto.
    - destruct (holds_context L pop db b (GPoint p) epsilon_dist Hpop Hh) as (ns & rest & En & Hp).
      assert (Hstep : exists db1 ctr1 b1,
        (match idxs with
         | [] => split_at_self L gen O pop inters db ctr
         | _ => nodes <- context_neighbours L pop db (GPoint p) epsilon_dist ;;
                '(db', ctr') <- split_hulls L gen O idxs nodes db ctr ;;
                split_at_self L gen O pop inters db' ctr'
         end) = split_at_self L gen O pop inters db1 ctr1 /\
        holds db1 b1 /\ inv ctr1 b1 /\ (ctr <= ctr1)%nat /\
        (forall i k, cut_at b i k -> cut_at b1 i k) /\
        (forall h k, In h ns -> In k idxs -> rI (n_rng h) < k < rJ (n_rng h) -> cut_at b1 (n_inst h) k)).
      { destruct (split_hulls_spec idxs ns rest db ctr) as (db1 & ctr1 & b1 & A1 & A2 & A3 & A4 & A5 & A6).
        - eapply holds_perm; eauto.
        - eapply inv_perm; eauto.
        - destruct idxs as [|x idxs'].
          + exists db, ctr, b. ands; auto. cbn; tauto.
          + exists db1, ctr1, b1. rewrite En. cbn [bind]. rewrite A1. cbn [bind].
            ands; auto. intros i k Hk. apply A5. eapply cut_perm; eauto. }
      destruct Hstep as (db1 & ctr1 & b1 & -> & A2 & A3 & A4 & A5 & A6).
      destruct (IH db1 ctr1 b1 A2 A3) as (db' & ctr' & b' & B1 & B2 & B3 & B4 & B5 & B6).
      exists db', ctr', b'. split; [exact B1|]. split; [exact B2|]. split; [exact B3|]. split; [lia|].
      split; [auto|].
      intros Hpo Hr Hb c k i [<- |Hc] Hk Hii Hrange Hlen.
      2: { inversion Hr; inversion Hb; subst. apply (B6 Hpo) with (c := c); auto. }
      cbn [snd] in Hk. inversion Hr as [|? ? R1 _]; inversion Hb as [|? ? N1 _]; subst.
      apply B5.
      (* vertex k lies in some hull of the line *)
      destruct (tiling_cover _ _ _ (Z.min k (zlen (lines i) - 2)) (bi_tiles _ _ _ _ _ _ Hi i Hii))
        as (r & Hr' & Hk').
      { unfold zlen in *. lia. }
      apply in_map_iff in Hr'. destruct Hr' as (h & <- & Hh'). apply of_inst_in in Hh'.
      destruct Hh' as [Hhb Hhi].
      destruct (Z.eq_dec (rI (n_rng h)) k) as [E|E]; [apply A5; exists h; auto|].
      destruct (Z.eq_dec (rJ (n_rng h)) k) as [E2|E2]; [apply A5; exists h; auto|].
      assert (Hin : rI (n_rng h) < k < rJ (n_rng h)).
      { pose proof (inv_hull _ _ _ _ _ _ _ Hi Hhb) as (_ & _ & K & _). rewrite Hhi in K. lia. }
      assert (Hfr : forall g, In g b -> fresh_hull L (lines (n_inst g)) (n_inst g) g).
      { intros g Hg. pose proof (bi_proper _ _ _ _ _ _ Hi) as K. rewrite Forall_forall in K. apply K, Hg. }
      destruct (holds_context_exact L pop db b (GPoint p) epsilon_dist Hpo Hh eq_refl) as (ns' & En' & Hp').
      { intros bx it Hit Hw. apply (N1 (n_inst it) it bx); auto.
        apply (inv_member _ _ _ _ _ _ _ Hi Hit). }
      rewrite En' in En. injection En as ->.
      rewrite <- Hhi. apply A6; auto.
      apply (Permutation_in _ (Permutation_sym Hp')). apply filter_In. split; [exact Hhb|].
      apply (R1 (n_inst h) h k); auto. congruence.
  Qed.
End Constrain.

(** ** The set of constrained vertices *)

Lemma add_const_spec pts verts : forall vset out,
  Forall (fun k => 0 <= k < zlen pts) verts ->
  exists vset' extra, add_const_verts pts verts vset out = Ok (vset', out ++ extra) /\
    (forall k, In k vset' <-> In k vset \/ In k verts) /\
    (forall k, In k vset' -> In k vset \/ exists c, In c extra /\ In k (snd c)) /\
    (forall c, In c extra -> exists k p, c = (p, [k]) /\ In k verts /\ znth pts k = Some p).
Proof.
  induction verts as [|i r IH]; intros vset out Hf; cbn [add_const_verts].
  - exists vset, []. rewrite app_nil_r. split; [reflexivity|]. split; [cbn; tauto|]. split; [auto|cbn; tauto].
  - inversion Hf as [|? ? F1 F2]; subst. destruct (zmem i vset) eqn:Em.
    + destruct (IH vset out F2) as (v & ex & A & B & C & D). exists v, ex. split; [exact A|].
      apply zmem_in in Em. split; [|split].
      * intros k. rewrite B. cbn [In]. split; [tauto|]. intros [K|[<- |K]]; auto.
      * exact C.
      * intros c Hc. destruct (D c Hc) as (k & p & -> & Hk & Hz). exists k, p. split; auto. split; auto. right; auto.
    + assert (Hz : exists p, znth pts i = Some p).
      { unfold znth. destruct (Z.ltb_spec i 0); [lia|].
        destruct (nth_error pts (Z.to_nat i)) eqn:E; [eauto|]. apply nth_error_None in E. unfold zlen in *. lia. }
      destruct Hz as [p Hz]. rewrite Hz.
      destruct (IH (i :: vset) (out ++ [(p, [i])]) F2) as (v & ex & A & B & C & D).
      exists v, ((p, [i]) :: ex). rewrite <- app_assoc in A. split; [exact A|]. split; [|split].
      * intros k. rewrite B. cbn [In]. tauto.
      * intros k Hk. destruct (C k Hk) as [[<- |K]|(c & Hc & Hk')]; auto.
        -- right. exists (p, [i]). split; [left; auto|cbn; auto].
        -- right. exists c. split; [right; auto|auto].
      * intros c [<- |Hc]; [exists i, p; split; auto; split; [left; auto|auto]|].
        destruct (D c Hc) as (k & q & -> & Hk & Hzq). exists k, q. split; auto. split; auto. right; auto.
Qed.

(** ** ToSelfIntersects *)

Section ToSelf.
  Variable L : geomlib.
  Variable pts : list point.
  Variable inst : Z.
  Variable src : idsrc.
  Notation gen := (s_gen src).
  Hypothesis Hgen : src_ok src.
  Variable O : hdb_oracle.
  Hypothesis HO : oracle_ok O.
  Variable pop : popfn.
  Hypothesis Hpop : pop_bag pop.
  Hypothesis Hgood : forall h, fresh_hull L pts inst h -> good_item h.

  Notation inv1 := (bag_inv L (fun _ => pts) [inst] src).

  Lemma inv_of_line ctr hs : inv1 ctr hs -> tiling 0 (zlen pts - 1) (map n_rng hs).
  Proof.
    intros H. pose proof (bi_tiles _ _ _ _ _ _ H inst (or_introl eq_refl)) as K.
    rewrite of_inst_same in K; [exact K|]. eapply Forall_impl; [|apply (bi_inst _ _ _ _ _ _ H)].
    cbn. intros h [E|[]]; auto.
  Qed.

  Lemma to_self_spec N hs o verts ctr :
    inv1 ctr hs -> Forall (fun k => 0 <= k < zlen pts) verts ->
    exists hs' cvs ctr', to_self_intersects L gen O pop N hs pts o verts ctr = Ok (hs', cvs, ctr') /\
      inv1 ctr' hs' /\ (ctr <= ctr')%nat /\
      (forall k, cut_at hs inst k -> cut_at hs' inst k) /\
      (o_planar_self o = false -> hs' = hs /\ cvs = []) /\
      (o_planar_self o = true ->
         let inters := self_intersection L (lo_sort N) (lo_segx N) (lo_near N pts) true (o_non_planar_self o) pts in
         chain 0 (zlen pts - 1) (map n_rng hs') /\ increasing cvs /\
         (forall k, In k cvs <-> In k verts \/ exists c, In c inters /\ In k (snd c)) /\
         (pop_ok (fun x y => flt x y = true) pop ->
          let all := inters ++ map (fun k => (nth (Z.to_nat k) pts origin, [k])) verts in
          Forall (reaches L (fun _ => pts) [inst]) all -> Forall (boxes_nearer L (fun _ => pts) [inst]) all ->
          (2 <= length pts)%nat ->
          forall k, In k cvs -> 0 <= k < zlen pts -> cut_at hs' inst k)).
  Proof.
    intros Hi Hv. unfold to_self_intersects. destruct (o_planar_self o) eqn:Eo; cbn [negb].
    2: { exists hs, [], ctr. ands; auto; discriminate. }
    assert (Hg' : forall i h, In i [inst] -> fresh_hull L pts i h -> good_item h).
    { intros i h [<- |[]] K. apply Hgood, K. }
    destruct (holds_load O new_hdb_default [] hs HO holds_new) as (db & Edb & Hdb).
    { exact (inv_good L (fun _ => pts) [inst] src Hg' _ _ Hi). }
    cbn [app] in Hdb. rewrite Edb. cbn [bind].
    set (inters := self_intersection L (lo_sort N) (lo_segx N) (lo_near N pts) true (o_non_planar_self o) pts).
    destruct (add_const_spec pts verts (flat_map snd inters) inters Hv) as (vset & ex & Ea & A1 & A2 & A3).
    rewrite Ea. cbn [bind].
    destruct (split_at_self_spec L (fun _ => pts) [inst] src Hgen O HO pop Hpop Hg' (inters ++ ex) db ctr hs Hdb Hi)
      as (db' & ctr' & b' & B1 & B2 & B3 & B4 & B5 & B6).
    rewrite B1. cbn [bind]. destruct (holds_all _ _ B2) as (ns & En & Hp). rewrite En. cbn [bind].
    assert (Hpb : Permutation b' (node_sort ns)) by (rewrite <- Hp; apply node_sort_perm).
    exists (node_sort ns), (zset vset), ctr'. split; [reflexivity|].
    split; [eapply inv_perm; eauto|]. split; [exact B4|].
    split; [intros k Hk; eapply cut_perm; [exact Hpb|]; apply B5, Hk|].
    split; [discriminate|]. intros _. cbv zeta.
    split; [|split; [apply zset_incr|split]].
    - apply node_sort_chain. eapply tiling_perm; [|apply (inv_of_line _ _ B3)].
      apply Permutation_map. symmetry. exact Hp.
    - intros k. rewrite zset_in, A1, in_flat_map. tauto.
    - intros Hpo Hr Hb Hlen k Hk Hrange. rewrite zset_in in Hk.
      eapply cut_perm; [exact Hpb|].
      assert (Hex : forall c, In c ex -> In c (map (fun k => (nth (Z.to_nat k) pts origin, [k])) verts)).
      { intros c Hc. destruct (A3 c Hc) as (j & p & -> & Hj & Hz). apply in_map_iff. exists j. split; auto.
        f_equal. unfold znth in Hz. destruct (j <? 0); [discriminate|]. apply nth_error_nth. exact Hz. }
      assert (Hsub : forall c, In c (inters ++ ex) -> In c (inters ++ map (fun k => (nth (Z.to_nat k) pts origin, [k])) verts)).
      { intros c Hc. apply in_app_iff in Hc. apply in_or_app. destruct Hc; auto. }
      rewrite Forall_forall in Hr, Hb.
      assert (Hin : exists c, In c (inters ++ ex) /\ In k (snd c)).
      { destruct (A2 k Hk) as [K|(c & Hc & K)].
        - apply in_flat_map in K. destruct K as (c & Hc & K). exists c. split; [apply in_or_app; auto|auto].
        - exists c. split; [apply in_or_app; auto|auto]. }
      destruct Hin as (c & Hc & Hkc).
      apply (B6 Hpo) with (c := c); cbn [In]; auto.
      + apply Forall_forall. auto.
      + apply Forall_forall. auto.
  Qed.
End ToSelf.
