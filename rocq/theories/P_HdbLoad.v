(** R-tree: bulk loading (the OMT builder), Load and Remove. *)
From Verif Require Import M_Base M_Float M_Rng M_Geom M_Node M_Hdb Spec P_Base P_Float P_Hdb P_HdbIns.
Open Scope nat_scope.

(** ** Chunk sizes *)

Fixpoint sizes_fuel (fuel k n : nat) : list nat :=
  match fuel with
  | 0 => []
  | S f => match n with 0 => [] | _ => Nat.min k n :: sizes_fuel f k (n - k) end
  end.
Definition sizes (k n : nat) : list nat := sizes_fuel n k n.

Lemma sizes_fuel_enough k : 1 <= k -> forall f n, n <= f -> sizes_fuel f k n = sizes k n.
Proof.
  intros Hk; unfold sizes.
  assert (G : forall f n, n <= f -> forall g, n <= g -> sizes_fuel f k n = sizes_fuel g k n).
  { induction f as [|f IH]; intros n Hn g Hg.
    - assert (n = 0) by lia; subst; destruct g; reflexivity.
    - destruct n as [|n]; [destruct g; reflexivity|].
      destruct g as [|g]; [lia|]. cbn [sizes_fuel]. f_equal. apply IH; lia. }
  intros; apply G; lia.
Qed.

Lemma sizes_0 k : sizes k 0 = [].
Proof. reflexivity. Qed.

Lemma sizes_S k n : 1 <= k -> 1 <= n -> sizes k n = Nat.min k n :: sizes k (n - k).
Proof.
  intros Hk Hn; destruct n as [|n]; [lia|]. unfold sizes at 1. cbn [sizes_fuel]. f_equal.
  apply sizes_fuel_enough; lia.
Qed.

Lemma sizes_app k s r : 1 <= k -> sizes k (k * s + r) = sizes k (k * s) ++ sizes k r.
Proof.
  intros Hk; induction s as [|s IH].
  - rewrite Nat.mul_0_r; reflexivity.
  - rewrite sizes_S by nia. rewrite (sizes_S k (k * S s)) by nia.
    replace (k * S s + r - k) with (k * s + r) by nia.
    replace (k * S s - k) with (k * s) by nia.
    rewrite !Nat.min_l by nia. rewrite IH; reflexivity.
Qed.

Lemma sizes_nested k s : 1 <= k -> 1 <= s -> forall n,
  flat_map (sizes k) (sizes (k * s) n) = sizes k n.
Proof.
  intros Hk Hs n; induction n as [n IH] using lt_wf_ind.
  destruct n as [|n']; [reflexivity|]. set (n := S n') in *.
  rewrite sizes_S by nia. cbn [flat_map].
  destruct (Nat.le_gt_cases n (k * s)) as [Hle|Hgt].
  - rewrite Nat.min_r by lia. replace (n - k * s) with 0 by lia.
    cbn. rewrite app_nil_r; reflexivity.
  - rewrite Nat.min_l by lia. rewrite IH by nia.
    rewrite <- sizes_app by lia. f_equal; lia.
Qed.

Lemma sizes_bound k : 1 <= k -> forall n x, In x (sizes k n) ->
  1 <= x <= k /\ n <= x + (length (sizes k n) - 1) * k.
Proof.
  intros Hk n; induction n as [n IH] using lt_wf_ind; intros x Hx.
  destruct n as [|n']; [destruct Hx|]. set (n := S n') in *.
  rewrite sizes_S in Hx |- * by lia. cbn [length].
  destruct (Nat.le_gt_cases n k) as [Hle|Hgt].
  - replace (n - k) with 0 in * by lia. cbn [sizes sizes_fuel length] in *.
    destruct Hx as [<-|[]]. lia.
  - assert (Hne : 1 <= length (sizes k (n - k)))
      by (rewrite sizes_S by lia; cbn; lia).
    destruct Hx as [<-|Hx].
    + rewrite Nat.min_l by lia. split; [lia|].
      (* length >= remaining/k *)
      assert (G : forall j, j <= length (sizes k j) * k).
      { clear - Hk. intros j; induction j as [j IH] using lt_wf_ind.
        destruct j; [lia|]. rewrite sizes_S by lia. cbn [length].
        specialize (IH (S j - k) ltac:(lia)). nia. }
      specialize (G (n - k)). nia.
    + destruct (IH (n - k) ltac:(lia) x Hx) as [H1 H2]. split; [exact H1|]. nia.
Qed.

Lemma sizes_len k : 1 <= k -> forall n, 1 <= n -> (length (sizes k n) - 1) * k < n.
Proof.
  intros Hk n; induction n as [n IH] using lt_wf_ind; intros Hn.
  rewrite sizes_S by lia. cbn [length].
  destruct (Nat.le_gt_cases n k) as [Hle|Hgt].
  - replace (n - k) with 0 by lia. cbn. lia.
  - specialize (IH (n - k) ltac:(lia) ltac:(lia)).
    assert (Hne : 1 <= length (sizes k (n - k)))
      by (rewrite sizes_S by lia; cbn; lia).
    nia.
Qed.

Lemma chunks_fuel_sizes {A} k : 1 <= k -> forall f (l : list A),
  map (@length A) (chunks_fuel f k l) = sizes_fuel f k (length l).
Proof.
  intros Hk; induction f as [|f IH]; intros l; [reflexivity|].
  destruct l as [|a l]; [reflexivity|]. cbn [chunks_fuel sizes_fuel length map].
  rewrite IH, firstn_length, skipn_length. reflexivity.
Qed.

Lemma chunks_fuel_concat {A} k : 1 <= k -> forall f (l : list A), length l <= f ->
  concat (chunks_fuel f k l) = l.
Proof.
  intros Hk; induction f as [|f IH]; intros l Hl.
  - destruct l; [reflexivity|cbn in Hl; lia].
  - destruct l as [|a l]; [reflexivity|]. cbn [chunks_fuel concat].
    rewrite IH; [apply firstn_skipn|]. rewrite skipn_length; cbn [length] in *; lia.
Qed.

Lemma chunks_sizes {A} k (l : list A) : 1 <= k -> map (@length A) (chunks k l) = sizes k (length l).
Proof. intros; apply chunks_fuel_sizes; auto. Qed.

Lemma chunks_concat {A} k (l : list A) : 1 <= k -> concat (chunks k l) = l.
Proof. intros; apply chunks_fuel_concat; auto. Qed.

Lemma cdiv_spec a b : 1 <= b -> a <= cdiv a b * b /\ cdiv a b * b <= a + b - 1.
Proof.
  intros Hb; unfold cdiv. pose proof (Nat.div_mod (a + b - 1) b ltac:(lia)) as H.
  pose proof (Nat.mod_upper_bound (a + b - 1) b ltac:(lia)).
  rewrite (Nat.mul_comm _ b).
  set (q := b * ((a + b - 1) / b)) in *. lia.
Qed.

Lemma mapM_spec {A B} (f : A -> res B) (R : A -> B -> Prop) l :
  (forall x, In x l -> exists y, f x = Ok y /\ R x y) ->
  exists ys, mapM f l = Ok ys /\ Forall2 R l ys.
Proof.
  induction l as [|x l IH]; intros H.
  - exists []; split; [reflexivity|constructor].
  - destruct (H x (or_introl eq_refl)) as (y & E & Hy).
    destruct IH as (ys & E2 & H2); [intros; apply H; right; auto|].
    exists (y :: ys); cbn [mapM]. rewrite E; cbn [bind]. rewrite E2; cbn [bind].
    split; [reflexivity|constructor; auto].
Qed.

Lemma Forall2_len {A B} (R : A -> B -> Prop) l l' : Forall2 R l l' -> length l = length l'.
Proof. induction 1; cbn; auto. Qed.

Lemma pow_ge M k : 4 <= M -> 2 <= k -> M * M <= M ^ k.
Proof.
  intros HM Hk. replace k with (2 + (k - 2)) by lia. rewrite Nat.pow_add_r.
  cbn [Nat.pow]. rewrite Nat.mul_1_r.
  pose proof (Nat.pow_nonzero M (k - 2) ltac:(lia)). nia.
Qed.

Section Load.
  Variable P : f64 -> Prop.
  Hypothesis HP : tame P.
  Variable O : hdb_oracle.
  Hypothesis HO : oracle_ok O.
  Variable M m : nat.
  Hypothesis Hm : (1 <= m)%nat.
  Hypothesis HM : (4 <= M)%nat.
  Hypothesis HmM : (2 * m <= M + 1)%nat.

  Notation wf := (wf P M).
  Notation cont := (cont).

  Definition tiles_of (N1 N2 : nat) (items : list node) : list (list node) :=
    flat_map (fun s => chunks N2 (o_msel O false N2 s)) (chunks N1 (o_msel O true N1 items)).

  Lemma concat_flat_map_perm (f : list node -> list (list node)) ls :
    (forall s, Permutation s (concat (f s))) ->
    Permutation (concat ls) (concat (flat_map f ls)).
  Proof.
    intros H; induction ls as [|s ls IH]; [constructor|].
    cbn [concat flat_map]. rewrite concat_app. apply Permutation_app; auto.
  Qed.

  Lemma tiles_perm N1 N2 items : 1 <= N1 -> 1 <= N2 ->
    Permutation items (concat (tiles_of N1 N2 items)).
  Proof.
    intros H1 H2; unfold tiles_of.
    etransitivity; [apply (ok_msel O HO true N1)|].
    rewrite <- (chunks_concat N1 (o_msel O true N1 items) H1) at 1.
    apply concat_flat_map_perm. intros s. rewrite chunks_concat by exact H2.
    apply (ok_msel O HO).
  Qed.

  Lemma tiles_sizes N2 s items : 1 <= N2 -> 1 <= s ->
    map (@length node) (tiles_of (N2 * s) N2 items) = sizes N2 (length items).
  Proof.
    intros H2 Hs; unfold tiles_of.
    rewrite <- (sizes_nested N2 s H2 Hs (length items)).
    rewrite (Permutation_length (ok_msel O HO true (N2 * s) items)).
    rewrite <- chunks_sizes by nia.
    generalize (chunks (N2 * s) (o_msel O true (N2 * s) items)) as ls.
    induction ls as [|l ls IH]; [reflexivity|].
    cbn [flat_map map]. rewrite map_app, IH, chunks_sizes by exact H2.
    rewrite <- (Permutation_length (ok_msel O HO false N2 l)). reflexivity.
  Qed.

  Lemma leaf_level items : items <> [] -> length items <= M -> Forall (item_ok P) items ->
    wf 1 (calc_bbox (create_dbnode 1 true (map new_leaf items))) /\
    cont 1 (calc_bbox (create_dbnode 1 true (map new_leaf items))) = items.
  Proof.
    intros Hne Hlen Hok; split.
    - apply wf_calc; auto.
      + destruct items; [congruence|discriminate].
      + rewrite map_length; exact Hlen.
      + intros c Hc; apply in_map_iff in Hc; destruct Hc as (it & <- & Hit).
        exists it; split; [reflexivity|]. rewrite Forall_forall in Hok; auto.
    - rewrite cont_calc. cbn [P_Hdb.cont create_dbnode db_children].
      clear. induction items as [|it r IH]; [reflexivity|]. cbn; f_equal; exact IH.
  Qed.

  (** One inner level of the builder. *)
  Lemma inner_level h M' fuel items :
    1 <= M' <= M -> items <> [] -> Forall (item_ok P) items ->
    let N := length items in let N2 := cdiv N M' in
    (forall tile, tile <> [] -> Forall (item_ok P) tile -> length tile <= N2 ->
       N <= length tile * M' + (M' - 1) * (M' - 1) ->
       exists d, build O M fuel tile (S h) = Ok d /\ wf (S h) d /\ Permutation (cont (S h) d) tile) ->
    exists ch,
      mapM (fun tile => build O M fuel tile (S h))
           (flat_map (fun s => chunks N2 (o_msel O false N2 s))
              (chunks (N2 * Nat.sqrt_up M') (o_msel O true (N2 * Nat.sqrt_up M') items))) = Ok ch /\
      wf (S (S h)) (calc_bbox (create_dbnode (S (S h)) false ch)) /\
      Permutation (cont (S (S h)) (calc_bbox (create_dbnode (S (S h)) false ch))) items.
  Proof.
    intros HM' Hne Hok N N2 Hrec.
    assert (HN : 1 <= N) by (unfold N; destruct items; [congruence|cbn; lia]).
    destruct (cdiv_spec N M' ltac:(lia)) as [D1 D2]; fold N2 in D1, D2.
    assert (HN2 : 1 <= N2) by nia.
    assert (Hs : 1 <= Nat.sqrt_up M').
    { pose proof (Nat.sqrt_up_le_mono 1 M' ltac:(lia)). rewrite Nat.sqrt_up_1 in H. exact H. }
    fold (tiles_of (N2 * Nat.sqrt_up M') N2 items).
    pose proof (tiles_perm (N2 * Nat.sqrt_up M') N2 items ltac:(nia) HN2) as Tp.
    pose proof (tiles_sizes N2 (Nat.sqrt_up M') items HN2 Hs) as Ts. fold N in Ts.
    set (tiles := tiles_of (N2 * Nat.sqrt_up M') N2 items) in *.
    assert (Hcnt : length tiles = length (sizes N2 N)) by (rewrite <- Ts, map_length; reflexivity).
    pose proof (sizes_len N2 HN2 N HN) as Hlen.
    assert (Hcnt1 : length tiles <= M') by nia.
    destruct (mapM_spec (fun tile => build O M fuel tile (S h))
       (fun tile d => wf (S h) d /\ Permutation (cont (S h) d) tile) tiles) as (ch & E & F2).
    { intros tile Ht.
      assert (Hx : In (length tile) (sizes N2 N)) by (rewrite <- Ts; apply in_map, Ht).
      destruct (sizes_bound N2 HN2 N _ Hx) as [B1 B2].
      apply Hrec.
      - intros ->; cbn in B1; lia.
      - rewrite Forall_forall in Hok |- *. intros it Hit; apply Hok.
        eapply Permutation_in; [symmetry; exact Tp|]. apply in_concat; eauto.
      - lia.
      - rewrite <- Hcnt in B2.
        assert (length tiles - 1 <= M' - 1) by lia.
        assert (N <= length tile + (M' - 1) * N2) by nia.
        assert (M' * N2 <= N + M' - 1) by lia.
        nia. }
    exists ch; split; [exact E|].
    assert (Hl : length ch = length tiles) by (symmetry; eapply Forall2_len; eauto).
    assert (Hch : forall c, In c ch -> wf (S h) c).
    { clear - F2. induction F2 as [|x y l l' [H1 H2] F IH]; intros c Hc; [destruct Hc|].
      destruct Hc as [<-|Hc]; auto. }
    split.
    - apply wf_calc; auto.
      + intros ->; cbn in Hl. assert (tiles = []) by (destruct tiles; [auto|discriminate]).
        rewrite H in Tp; cbn in Tp. apply Permutation_sym, Permutation_nil in Tp. congruence.
      + lia.
    - rewrite cont_calc.
      change (Permutation (flat_map (cont (S h)) ch) items). rewrite Tp.
      clear - F2. induction F2 as [|x y l l' [H1 H2] F IH]; [constructor|].
      cbn [flat_map concat]. apply Permutation_app; auto.
  Qed.

  Lemma build_inner k : forall fuel items,
    items <> [] -> Forall (item_ok P) items -> length items <= M ^ S k ->
    (k = 0 \/ M ^ S k <= 2 * length items + 2 * (M - 1)) -> S k <= fuel ->
    exists d, build O M fuel items (S k) = Ok d /\ wf (S k) d /\ Permutation (cont (S k) d) items.
  Proof.
    induction k as [|k IH]; intros fuel items Hne Hok Hup Hlow Hf.
    - destruct fuel as [|f]; [lia|]. cbn [build].
      rewrite Nat.pow_1_r in Hup.
      rewrite (proj2 (Nat.leb_le _ _) Hup).
      destruct (leaf_level items Hne Hup Hok) as [W C].
      eexists; split; [reflexivity|]; split; [exact W|rewrite C; reflexivity].
    - destruct fuel as [|f]; [lia|].
      destruct Hlow as [|Hlow]; [lia|].
      pose proof (pow_ge M (S (S k)) HM ltac:(lia)) as Hp.
      assert (Hbig : M < length items) by nia.
      cbn [build]. rewrite (proj2 (Nat.leb_gt _ _) Hbig). cbn [Nat.eqb].
      replace (S (S k) - 1) with (S k) by lia.
      assert (Epow : M ^ S (S k) = M * M ^ S k) by reflexivity.
      destruct (inner_level k M f items ltac:(lia) Hne Hok) as (ch & E & W & C).
      { intros tile T1 T2 T3 T4. apply IH; auto; try lia.
        - pose proof (cdiv_spec (length items) M ltac:(lia)) as [_ D2]. nia.
        - right. nia. }
      rewrite E; cbn [bind]. eexists; split; [reflexivity|]; split; [exact W|exact C].
  Qed.

  Lemma build_spec fuel items :
    items <> [] -> Forall (item_ok P) items -> S (S (length items)) <= fuel ->
    exists d h, build O M fuel items 0 = Ok d /\ wf (S h) d /\ Permutation (cont (S h) d) items.
  Proof.
    intros Hne Hok Hf. destruct fuel as [|f]; [lia|].
    cbn [build]. destruct (Nat.leb_spec (length items) M) as [Hle|Hgt].
    - destruct (leaf_level items Hne Hle Hok) as [W C].
      exists (calc_bbox (create_dbnode 1 true (map new_leaf items))), 0.
      split; [reflexivity|]; split; [exact W|rewrite C; reflexivity].
    - cbn [Nat.eqb].
      destruct (ok_height O HO M (length items) HM Hgt) as (Hh & L & U).
      set (h := o_height O M (length items)) in *. set (N := length items) in *.
      assert (Hh2 : 2 <= h).
      { destruct (Nat.le_gt_cases 2 h); auto. assert (h = 1) by lia. rewrite H0, Nat.pow_1_r in U. lia. }
      destruct h as [|[|k]]; [lia|lia|]. replace (S (S k) - 1) with (S k) in * by lia.
      assert (Hpp : 1 <= M ^ S k) by (pose proof (Nat.pow_nonzero M (S k)); lia).
      assert (Epow : M ^ S (S k) = M * M ^ S k) by reflexivity.
      destruct (cdiv_spec N (M ^ S k) Hpp) as [D1 D2].
      set (M' := cdiv N (M ^ S k)) in *.
      assert (HM' : 1 <= M' <= M) by nia.
      assert (Hfk : S k <= f).
      { assert (S k < M ^ S k) by (apply Nat.pow_gt_lin_r; lia). lia. }
      destruct (inner_level k M' f items HM' Hne Hok) as (ch & E & W & C).
      { intros tile T1 T2 T3 T4. apply build_inner; auto; try lia.
        - pose proof (cdiv_spec (length items) M' ltac:(lia)) as [_ D3]. fold N in D3, T3.
          assert (cdiv N M' * M' <= M' * M ^ S k + M' - 1) by lia.
          nia.
        - fold N in T4. destruct k as [|k']; [left; reflexivity|]. right.
          set (Q := M ^ S (S k')) in *.
          destruct (Nat.eq_dec M' 1) as [E1|E1].
          + rewrite E1 in T4. nia.
          + (* (M'-1) Q + 1 <= N *)
            assert (G1 : (M' - 1) * Q + 1 <= N) by nia.
            assert (G2 : (M' - 1) * Q + 1 <= length tile * M' + (M' - 1) * (M' - 1)) by lia.
            assert (G3 : M' <= 2 * (M' - 1)) by lia.
            clear - G2 G3 HM' E1.
            set (a := M' - 1) in *. assert (M' = S a) by lia. rewrite H in *.
            set (t := length tile) in *.
            assert (1 <= a) by lia. assert (a <= M - 1) by lia.
            (* a Q + 1 <= t (a+1) + a a <= 2 t a + a a *)
            assert (a * Q < a * (2 * t + a) + 1) by nia.
            assert (Q <= 2 * t + a) by nia. lia. }
      fold N in E; rewrite E; cbn [bind]. eexists _, (S k); split; [reflexivity|]; split; [exact W|exact C].
  Qed.

  Lemma load_spec t items :
    tree_ok P M m t -> Forall (item_ok P) items ->
    exists t', load O t items = Ok t' /\ tree_ok P M m t' /\
      Permutation (contents (h_root t')) (contents (h_root t) ++ items).
  Proof.
    intros Ht Hok; unfold load.
    destruct Ht as (E1 & E2 & Hr). rewrite E1, E2.
    destruct (Nat.ltb_spec (length items) m) as [Hlt|Hge].
    - apply insert_all_spec; auto. split; auto.
    - assert (Hne : items <> []) by (intros ->; cbn in Hge; lia).
      destruct (build_spec (S (S (length items))) items Hne Hok (le_n _)) as (d & h & -> & W & C).
      cbn [bind].
      destruct Hr as [Hr|[g Hr]].
      + rewrite Hr; cbn [db_children empty_root create_dbnode].
        eexists; split; [reflexivity|]; split; [split; [|split]; cbn; auto; right; eauto|].
        cbn [h_root]. rewrite (contents_wf P M _ _ W), C. reflexivity.
      + assert (Hr0 := Hr). destruct Hr0 as (Eh & _ & _ & Hnn & _).
        destruct (db_children (h_root t)) as [|c0 cs] eqn:Ech; [congruence|].
        assert (W0 := W). destruct W0 as (Ed & _).
        rewrite Eh, Ed.
        destruct (Nat.eqb_spec (S g) (S h)) as [Heq|Hneq].
        * injection Heq as ->.
          destruct (split_root_wf P HP M m Hm HM HmM _ _ _ Hr W) as [W2 C2].
          eexists; split; [reflexivity|]; split; [split; [|split]; cbn; auto; right; eauto|].
          cbn [h_root]. rewrite C2, (contents_wf P M _ _ Hr), C. reflexivity.
        * destruct (Nat.ltb_spec (S g) (S h)) as [Hl|Hl].
          -- destruct (ins_root_spec P HP O HO M m Hm HM HmM (Hdb d M m) (S h - S g - 1) (S g) (h_root t))
               as (t' & A & B & D); auto.
             { cbn [h_root]. replace (S (S h - S g - 1 + S g)) with (S h) by lia. exact W. }
             exists t'; split; [exact A|]; split; [exact B|].
             rewrite D; cbn [h_root]. rewrite (contents_wf P M _ _ W), C, (contents_wf P M _ _ Hr).
             apply Permutation_app_comm.
          -- destruct (ins_root_spec P HP O HO M m Hm HM HmM t (S g - S h - 1) (S h) d)
               as (t' & A & B & D); auto.
             { replace (S (S g - S h - 1 + S h)) with (S g) by lia. exact Hr. }
             exists t'; split; [exact A|]; split; [exact B|].
             rewrite D, C. reflexivity.
  Qed.

  (** ** Removal *)

  Lemma remove_first_spec p l : 
    match remove_first p l with
    | None => forall c, In c l -> p c = false
    | Some r => exists l1 c l2, l = l1 ++ c :: l2 /\ p c = true /\ r = l1 ++ l2
    end.
  Proof.
    induction l as [|c l IH]; cbn [remove_first]; [intros c []|].
    destruct (p c) eqn:Ep; [exists [], c, l; auto|].
    destruct (remove_first p l) as [r|].
    - destruct IH as (l1 & c' & l2 & -> & H & ->). exists (c :: l1), c', l2; auto.
    - intros x [<-|Hx]; auto.
  Qed.

  Definition rm_go (p : dbnode -> bool) (b : mbr) : list dbnode -> option (list dbnode) :=
    fix go l :=
      match l with
      | [] => None
      | c :: rest =>
        match rm p b c with
        | Some c' => Some (match db_children c' with [] => rest | _ => c' :: rest end)
        | None => match go rest with Some r' => Some (c :: r') | None => None end
        end
      end.

  Lemma rm_inner p b ch it h bb :
    rm p b (DbNode ch it h false bb) =
    if mbr_contains bb b then
      match rm_go p b ch with
      | None => None
      | Some [] => Some (DbNode [] it h false bb)
      | Some ch' => Some (calc_bbox (DbNode ch' it h false bb))
      end
    else None.
  Proof. reflexivity. Qed.

  Definition rm_post (h : nat) (i : Z) (b : mbr) (nd : dbnode) (o : option dbnode) : Prop :=
    match o with
    | None => forall it, In it (cont (S h) nd) -> n_id it = i -> ~ box_in b (n_mbr it)
    | Some d => (db_children d = [] \/ (wf (S h) d /\ box_in (db_bbox d) (db_bbox nd))) /\
        exists l1 it l2, cont (S h) nd = l1 ++ it :: l2 /\ n_id it = i /\ cont (S h) d = l1 ++ l2
    end.

  Lemma calc_sub h ch lf bb :
    lf = Nat.eqb h 0 -> ch <> [] -> length ch <= M ->
    (forall c, In c ch -> wf h c /\ box_in (db_bbox c) bb) -> box_nonan bb ->
    wf (S h) (calc_bbox (DbNode ch None (S h) lf bb)) /\
    box_in (db_bbox (calc_bbox (DbNode ch None (S h) lf bb))) bb.
  Proof.
    intros Hlf Hne Hlen Hch Hb; split.
    - apply wf_calc; auto. intros c Hc; apply Hch, Hc.
    - apply dist_bbox_lub; auto. intros c Hc; apply Hch, Hc.
  Qed.

  Lemma rm_spec i b : forall h nd, wf (S h) nd -> rm_post h i b nd (rm (has_id i) b nd).
  Proof.
    induction h as [|h IH]; intros nd Hnd.
    - destruct nd as [ch it hh lf bb]. destruct Hnd as (E1 & E2 & E3 & E4 & E5 & E6 & E7).
      cbn [db_children db_height db_item db_leaf db_bbox] in *; subst hh it lf. rewrite Forall_forall in E7.
      cbn [Nat.eqb rm].
      pose proof (remove_first_spec (has_id i) ch) as Hr.
      destruct (remove_first (has_id i) ch) as [r|].
      + destruct Hr as (l1 & c & l2 & -> & Hp & ->).
        destruct (E7 c) as [[it [-> Hok]] _]; [apply in_or_app; right; left; auto|].
        cbn in Hp. apply Z.eqb_eq in Hp.
        assert (Hsplit : exists m1 m2, cont 1 (DbNode (l1 ++ new_leaf it :: l2) None 1 true bb) = m1 ++ it :: m2
                   /\ flat_map (cont 0) (l1 ++ l2) = m1 ++ m2).
        { exists (flat_map (cont 0) l1), (flat_map (cont 0) l2).
          cbn [P_Hdb.cont db_children]. rewrite !flat_map_app. split; reflexivity. }
        destruct Hsplit as (m1 & m2 & S1 & S2).
        assert (Hsub : forall d, In d (l1 ++ l2) -> wf 0 d /\ box_in (db_bbox d) bb).
        { intros d Hd; apply E7. apply in_app_or in Hd; apply in_or_app; destruct Hd; [left|right; right]; auto. }
        assert (Hlen : length (l1 ++ l2) <= M) by (rewrite app_length in *; cbn in E5; lia).
        destruct (l1 ++ l2) as [|d0 ds] eqn:El.
        * split; [left; reflexivity|]. exists m1, it, m2; split; [exact S1|]; split; [exact Hp|].
          cbn [P_Hdb.cont db_children]. rewrite <- S2. reflexivity.
        * destruct (calc_sub 0 (d0 :: ds) true bb eq_refl) as [W1 W2]; auto; [discriminate|eapply box_all_nonan; eauto|].
          split; [right; split; [exact W1|exact W2]|].
          exists m1, it, m2; split; [exact S1|]; split; [exact Hp|].
          rewrite <- S2, cont_calc; reflexivity.
      + intros it Hit Hid _. cbn [P_Hdb.cont db_children] in Hit. apply in_flat_map in Hit.
        destruct Hit as (c & Hc & Hit). destruct (E7 c Hc) as [[it' [-> _]] _].
        cbn in Hit; destruct Hit as [<-|[]]. specialize (Hr _ Hc). cbn in Hr.
        apply Z.eqb_neq in Hr; congruence.
    - destruct nd as [ch it hh lf bb]. destruct Hnd as (E1 & E2 & E3 & E4 & E5 & E6 & E7).
      cbn [db_children db_height db_item db_leaf db_bbox] in *; subst hh it lf. rewrite Forall_forall in E7.
      cbn [Nat.eqb]. rewrite rm_inner.
      destruct (mbr_contains bb b) eqn:Ebb.
      + assert (G : match rm_go (has_id i) b ch with
          | None => forall c, In c ch -> forall it, In it (cont (S h) c) -> n_id it = i -> ~ box_in b (n_mbr it)
          | Some r => (forall d, In d r -> wf (S h) d /\ box_in (db_bbox d) bb) /\ length r <= length ch /\
              exists m1 it m2, flat_map (cont (S h)) ch = m1 ++ it :: m2 /\ n_id it = i /\
                               flat_map (cont (S h)) r = m1 ++ m2
          end).
        { clear E4 E5. induction ch as [|c rest IHc]; cbn [rm_go]; [intros c []|].
          assert (E7c : wf (S h) c /\ box_in (db_bbox c) bb) by (apply E7; left; auto).
          assert (E7r : forall x, In x rest -> wf (S h) x /\ box_in (db_bbox x) bb) by (intros; apply E7; right; auto).
          pose proof (IH c (proj1 E7c)) as Hc. unfold rm_post in Hc.
          fold (rm_go (has_id i) b).
          destruct (rm (has_id i) b c) as [c'|].
          - destruct Hc as [Hc1 (l1 & it & l2 & C1 & C2 & C3)].
            destruct (db_children c') as [|x xs] eqn:Ex.
            + split; [exact E7r|]. split; [cbn; lia|].
              assert (l1 = [] /\ l2 = []) as [-> ->].
              { cbn [P_Hdb.cont] in C3. rewrite Ex in C3. cbn in C3. symmetry in C3.
                apply app_eq_nil in C3. exact C3. }
              exists [], it, (flat_map (cont (S h)) rest). cbn [flat_map]. rewrite C1; auto.
            + destruct Hc1 as [Hc1|[Hc1 Hc2]]; [congruence|].
              split; [intros d [<-|Hd]; [split; [exact Hc1|eapply box_in_trans; [exact Hc2|apply E7c]]|auto]|].
              split; [cbn; lia|].
              exists l1, it, (l2 ++ flat_map (cont (S h)) rest).
              cbn [flat_map]. rewrite C1, C3, <- !app_assoc. auto.
          - specialize (IHc E7r).
            destruct (rm_go (has_id i) b rest) as [r'|].
            + destruct IHc as (A & B & m1 & it & m2 & C1 & C2 & C3).
              split; [intros d [<-|Hd]; auto|]. split; [cbn; lia|].
              exists (cont (S h) c ++ m1), it, m2. cbn [flat_map].
              rewrite C1, C3, <- !app_assoc. auto.
            + intros d [<-|Hd]; [exact Hc|exact (IHc d Hd)]. }
        destruct (rm_go (has_id i) b ch) as [r|].
        * destruct G as (A & B & m1 & it & m2 & C1 & C2 & C3).
          destruct r as [|d0 ds].
          -- split; [left; reflexivity|]. exists m1, it, m2; split; [exact C1|]; split; [exact C2|exact C3].
          -- destruct (calc_sub (S h) (d0 :: ds) false bb eq_refl) as [W1 W2]; auto;
               [discriminate|lia|eapply box_all_nonan; eauto|].
             split; [right; split; [exact W1|exact W2]|].
             exists m1, it, m2; split; [exact C1|]; split; [exact C2|]. rewrite cont_calc. exact C3.
        * intros it Hit Hid. 
          change (In it (flat_map (cont (S h)) ch)) in Hit. apply in_flat_map in Hit.
          destruct Hit as (c & Hc & Hit). eapply G; eauto.
      + intros it Hit Hid Hb.
        change (In it (flat_map (cont (S h)) ch)) in Hit. apply in_flat_map in Hit.
        destruct Hit as (c & Hc & Hit). destruct (E7 c Hc) as [Hw Hbc].
        destruct (wf_items P M _ _ Hw it Hit) as [_ H2].
        assert (box_in b bb) by (eapply box_in_trans; [exact Hb|]; eapply box_in_trans; eauto).
        unfold box_in in H; congruence.
  Qed.

  (** Remove: drops exactly one stored entry with the id, if one with the same box is
      stored; the contents are otherwise untouched. *)
  Lemma remove_spec t it :
    tree_ok P M m t ->
    tree_ok P M m (remove t it) /\
    ((contents (h_root (remove t it)) = contents (h_root t) /\
      forall x, In x (contents (h_root t)) -> n_id x = n_id it -> ~ box_in (n_mbr it) (n_mbr x)) \/
     (exists l1 x l2, contents (h_root t) = l1 ++ x :: l2 /\ n_id x = n_id it /\
        contents (h_root (remove t it)) = l1 ++ l2)).
  Proof.
    intros (E1 & E2 & Hr); unfold remove.
    destruct Hr as [Hr|[h Hr]].
    - rewrite Hr. cbn. split; [split; [|split]; auto; left; auto|].
      rewrite Hr; left; split; [reflexivity|intros x []].
    - pose proof (rm_spec (n_id it) (n_mbr it) h _ Hr) as H. unfold rm_post in H.
      rewrite (contents_wf P M _ _ Hr).
      destruct (rm (has_id (n_id it)) (n_mbr it) (h_root t)) as [r|].
      + destruct H as [Hc (l1 & x & l2 & C1 & C2 & C3)].
        destruct (db_children r) as [|c cs] eqn:Er.
        * split; [split; [|split]; auto; left; reflexivity|].
          right; exists l1, x, l2; split; [exact C1|]; split; [exact C2|].
          cbn [P_Hdb.cont] in C3; rewrite Er in C3. cbn in C3 |- *. exact C3.
        * destruct Hc as [Hc|[Hc _]]; [congruence|].
          split; [split; [|split]; auto; right; eauto|].
          right; exists l1, x, l2; split; [exact C1|]; split; [exact C2|].
          cbn [h_root]. rewrite (contents_wf P M _ _ Hc). exact C3.
      + split; [split; [|split]; auto; right; eauto|].
        left; split; [apply (contents_wf P M); exact Hr|exact H].
  Qed.
End Load.
