(** R-tree: the depth of the index is logarithmic in the number of hulls ever loaded.  Every subtree carries a weight, the
    number of loads it accounts for; a subtree of height h weighs at least 2^(h-1), and a removal leaves the weights alone. *)
From Verif Require Import M_Base M_Float M_Rng M_Geom M_Node M_Hdb Spec Spec_Hdb P_Base P_Float P_Hdb P_HdbIns P_HdbLoad P_HdbQuery P_Tame P_HdbHist.
Open Scope nat_scope.

Fixpoint hv (h w : nat) (d : dbnode) : Prop :=
  match h with
  | 0 => 1 <= w
  | S h' => 2 ^ h' <= w /\ exists ws, Forall2 (hv h') ws (db_children d) /\ list_sum ws <= w
  end.

Lemma hv_mono h w w' d : w <= w' -> hv h w d -> hv h w' d.
Proof. destruct h; cbn [hv]; [lia|]. intros L (A & ws & B & C). split; [lia|]. exists ws. split; [exact B|lia]. Qed.

Lemma hv_pow h w d : hv h w d -> 2 ^ (h - 1) <= w.
Proof. destruct h; cbn [hv Nat.sub]; [cbn; auto|]. rewrite Nat.sub_0_r. tauto. Qed.

Lemma hv_children h w d d' : db_children d = db_children d' -> hv (S h) w d -> hv (S h) w d'.
Proof. cbn [hv]. intros ->. auto. Qed.

Lemma forall2_perm {A B} (R : A -> B -> Prop) l l' : Permutation l l' -> forall ws, Forall2 R ws l ->
  exists ws', Permutation ws ws' /\ Forall2 R ws' l'.
Proof.
  induction 1 as [|x l l' P IH|x y l|l1 l2 l3 P1 IH1 P2 IH2]; intros ws F.
  - inversion F; subst. exists []. auto.
  - inversion F as [|w ? ws0 ? F1 F2]; subst. destruct (IH ws0 F2) as (ws' & Q1 & Q2). exists (w :: ws'). auto.
  - inversion F as [|w1 ? ws0 ? F1 F2]; subst. inversion F2 as [|w2 ? ws1 ? F3 F4]; subst.
    exists (w2 :: w1 :: ws1). split; [apply perm_swap|auto].
  - destruct (IH1 ws F) as (ws1 & Q1 & Q2). destruct (IH2 ws1 Q2) as (ws2 & Q3 & Q4).
    exists ws2. split; [etransitivity; eauto|exact Q4].
Qed.

Lemma list_sum_perm l l' : Permutation l l' -> list_sum l = list_sum l'.
Proof. unfold list_sum. induction 1; cbn [fold_right]; lia. Qed.

Lemma forall2_firstn {A B} (R : A -> B -> Prop) n : forall l l', Forall2 R l l' ->
  Forall2 R (firstn n l) (firstn n l') /\ Forall2 R (skipn n l) (skipn n l').
Proof.
  induction n as [|n IH]; intros l l' F; cbn [firstn skipn]; [auto|].
  destruct F as [|x y l l' F1 F2]; [auto|]. destruct (IH _ _ F2). auto.
Qed.

Lemma two_pow h : 2 ^ h <= 2 * 2 ^ (h - 1).
Proof. destruct h; [cbn; lia|]. cbn [Nat.sub]. rewrite Nat.sub_0_r. cbn [Nat.pow]. lia. Qed.

Lemma two_heavy h ws l : Forall2 (hv h) ws l -> 2 <= length l -> 2 ^ h <= list_sum ws.
Proof.
  intros F L. destruct F as [|w1 c1 ws l F1 F]; [cbn in L; lia|]. destruct F as [|w2 c2 ws l F2 F]; [cbn in L; lia|].
  apply hv_pow in F1, F2. pose proof (two_pow h). cbn [list_sum fold_right]. lia.
Qed.

Lemma hv_node h ws d w : 2 <= length (db_children d) -> Forall2 (hv h) ws (db_children d) -> list_sum ws <= w -> hv (S h) w d.
Proof. intros L F E. cbn [hv]. split; [|exists ws; auto]. pose proof (two_heavy h ws _ F L). lia. Qed.

Lemma forall2_hole {A B} (R : A -> B -> Prop) ws l1 c l2 : Forall2 R ws (l1 ++ c :: l2) ->
  exists w1 w w2, ws = w1 ++ w :: w2 /\ Forall2 R w1 l1 /\ R w c /\ Forall2 R w2 l2.
Proof.
  intros F. apply Forall2_app_inv_r in F. destruct F as (w1 & w' & F1 & F2 & ->).
  inversion F2 as [|w ? w2 ? G1 G2]; subst. exists w1, w, w2. auto.
Qed.

Lemma sum_app a b : list_sum (a ++ b) = list_sum a + list_sum b.
Proof. apply list_sum_app. Qed.
Lemma sum_cons a l : list_sum (a :: l) = a + list_sum l.
Proof. reflexivity. Qed.

Section Depth.
  Variable P : f64 -> Prop.
  Hypothesis HP : tame P.
  Variable O : hdb_oracle.
  Hypothesis HO : oracle_ok O.
  Variable M m : nat.
  Hypothesis Hm : 2 <= m.
  Hypothesis HM : 4 <= M.
  Hypothesis HmM : 2 * m <= M + 1.

  Let Hm1 : 1 <= m. Proof. lia. Qed.

  Notation wf := (wf P M).

  Lemma split_hv h nd ws :
    length (db_children nd) = S M -> (forall c, In c (db_children nd) -> wf h c) ->
    Forall2 (hv h) ws (db_children nd) ->
    exists wa wb, wa + wb = list_sum ws /\ hv (S h) wa (fst (split_node O m nd)) /\ hv (S h) wb (snd (split_node O m nd)).
  Proof.
    intros H4 H5 F. unfold split_node. cbv zeta. destruct nd as [ch it hh lf bb]. cbn [db_children] in *.
    pose proof (split_axis_perm O HO m ch) as Hp.
    set (c := choose_split_axis O ch m (length ch)) in *.
    assert (Hl : length c = length ch) by (symmetry; apply Permutation_length; exact Hp).
    assert (Hb : forall x, In x c -> box_all P (db_bbox x)).
    { intros x Hx. eapply wf_box, H5. eapply Permutation_in; [symmetry; exact Hp|exact Hx]. }
    pose proof (split_index_range P HP c m Hm1 ltac:(lia) Hb) as Hr.
    rewrite Hl in Hr. set (k := choose_split_index c m (length ch)) in *.
    destruct (forall2_perm _ _ _ Hp _ F) as (ws' & Q1 & Q2).
    destruct (forall2_firstn _ k _ _ Q2) as (F1 & F2).
    exists (list_sum (firstn k ws')), (list_sum (skipn k ws')). cbn [fst snd set_children create_dbnode calc_bbox].
    split; [|split].
    - rewrite (list_sum_perm _ _ Q1), <- sum_app, firstn_skipn. reflexivity.
    - apply (hv_node h (firstn k ws')); cbn [db_children]; [rewrite firstn_length; lia|exact F1|lia].
    - apply (hv_node h (skipn k ws')); cbn [db_children]; [rewrite skipn_length; lia|exact F2|lia].
  Qed.

  Definition shared h (w : nat) (a : dbnode) (o : option dbnode) : Prop :=
    match o with
    | None => hv h w a
    | Some s => exists wa wb, wa + wb <= w /\ hv h wa a /\ hv h wb s
    end.

  Lemma finish_hv h nd1 b w ws a o :
    (if Nat.ltb M (length (db_children nd1)) then let '(a, s) := split_node O m nd1 in Ok (a, Some s)
     else Ok (set_bbox nd1 (expand (db_bbox nd1) b), None)) = Ok (a, o) ->
    length (db_children nd1) <= S M -> (forall c, In c (db_children nd1) -> wf h c) ->
    Forall2 (hv h) ws (db_children nd1) -> list_sum ws <= w -> 2 ^ h <= w -> shared (S h) w a o.
  Proof.
    intros E L W F S1 S2. destruct (Nat.ltb_spec M (length (db_children nd1))) as [Hov|Hov].
    - destruct (split_hv h nd1 ws ltac:(lia) W F) as (wa & wb & E1 & E2 & E3).
      destruct (split_node O m nd1) as [a' s']. injection E as <- <-. cbn [fst snd] in *.
      exists wa, wb. split; [lia|auto].
    - injection E as <- <-. cbn [shared]. apply hv_children with (d := nd1); [destruct nd1; reflexivity|].
      cbn [hv]. split; [exact S2|]. exists ws. auto.
  Qed.

  Lemma ins_hv rem : forall k nd x w wx a o,
    wf (S (rem + k)) nd -> wf k x -> hv (S (rem + k)) w nd -> hv k wx x ->
    ins O M m rem nd x = Ok (a, o) -> shared (S (rem + k)) (w + wx) a o.
  Proof.
    induction rem as [|rem IH]; intros k nd x w wx a o Wn Wx Vn Vx E.
    - cbn [Nat.add] in *. cbn [ins] in E. destruct Vn as (V1 & ws & V2 & V3).
      destruct Wn as (_ & _ & _ & _ & E5 & _ & E7). rewrite Forall_forall in E7.
      eapply (finish_hv k _ _ (w + wx) (ws ++ [wx])) in E; [exact E| | | | |]; destruct nd as [ch it hh lf bb]; cbn [set_bbox set_children db_children] in *.
      + rewrite app_length. cbn. lia.
      + intros c Hc. apply in_app_or in Hc. destruct Hc as [Hc|[<-|[]]]; [apply E7, Hc|exact Wx].
      + apply Forall2_app; [exact V2|]. constructor; [exact Vx|constructor].
      + rewrite sum_app, sum_cons. cbn [list_sum fold_right]. lia.
      + lia.
    - cbn [Nat.add] in *. cbn [ins] in E. destruct Vn as (V1 & ws & V2 & V3).
      destruct Wn as (_ & _ & E3 & E4 & E5 & _ & E7). rewrite Forall_forall in E7. rewrite E3 in E. cbn [Nat.eqb] in E.
      destruct (choose_child (o_eps O) (db_bbox x) (db_children nd)) as [i|]; [|discriminate].
      destruct (nth_error (db_children nd) i) as [c|] eqn:Hi; [|discriminate].
      pose proof (nth_error_In _ _ Hi) as Hci. destruct (E7 c Hci) as [Hwc _].
      destruct (ins_spec P HP O HO M m Hm1 HM HmM rem k c x Hwc Wx) as (c' & oc & Ec & W1 & W2 & _ & _).
      rewrite Ec in E. cbn [bind] in E.
      destruct (replace_nth_split i c c' _ Hi) as (l1 & l2 & Hch & Hrep).
      rewrite Hch in V2. destruct (forall2_hole _ _ _ _ _ V2) as (w1 & wc & w2 & -> & F1 & Fc & F2).
      rewrite sum_app, sum_cons in V3.
      specialize (IH k c x wc wx c' oc Hwc Wx Fc Vx Ec).
      assert (Hin : forall d, In d (replace_nth i c' (db_children nd)) -> wf (S (rem + k)) d).
      { intros d Hd. apply replace_nth_in in Hd. destruct Hd as [->|Hd]; [exact W1|apply E7, Hd]. }
      destruct oc as [c2|]; cbn [shared] in IH.
      + destruct IH as (wa & wb & I1 & I2 & I3).
        eapply (finish_hv (S (rem + k)) _ _ (w + wx) ((w1 ++ wa :: w2) ++ [wb])) in E; [exact E| | | | |]; destruct nd as [ch it hh lf bb]; cbn [set_bbox set_children db_children] in *.
        * rewrite app_length, replace_nth_len. cbn. lia.
        * intros d Hd. apply in_app_or in Hd. destruct Hd as [Hd|[<-|[]]]; [apply Hin, Hd|apply W2; reflexivity].
        * rewrite Hrep. apply Forall2_app; [apply Forall2_app; [exact F1|constructor; [exact I2|exact F2]]|].
          constructor; [exact I3|constructor].
        * rewrite !sum_app, !sum_cons. cbn [list_sum fold_right]. lia.
        * lia.
      + injection E as <- <-. destruct nd as [ch it hh lf bb]. cbn [shared set_bbox set_children db_children] in *.
        split; [lia|]. exists (w1 ++ (wc + wx) :: w2). split.
        * cbn [db_children]. rewrite Hrep. apply Forall2_app; [exact F1|constructor; [exact IH|exact F2]].
        * rewrite sum_app, sum_cons. lia.
  Qed.

  (** An index whose depth its weight accounts for. *)
  Definition deep (t : hdb) (w : nat) : Prop := h_root t = empty_root \/ hv (db_height (h_root t)) w (h_root t).

  Lemma deep_mono t w w' : w <= w' -> deep t w -> deep t w'.
  Proof. intros L [H|H]; [left; exact H|right]. eapply hv_mono; eauto. Qed.

  Lemma wf_height h d : wf (S h) d -> db_height d = S h.
  Proof. intros (E & _). exact E. Qed.

  Lemma split_root_hv h a s wa wb : wf (S h) a -> hv (S h) wa a -> hv (S h) wb s ->
    hv (db_height (split_root a s)) (wa + wb) (split_root a s).
  Proof.
    intros W H1 H2. cbn [split_root calc_bbox create_dbnode db_height]. rewrite (wf_height _ _ W).
    apply (hv_node (S h) [wa; wb]); cbn [db_children length]; [lia|auto|cbn; lia].
  Qed.

  Lemma ins_root_hv t rem k x t' w wx :
    h_max t = M -> h_min t = m -> wf (S (rem + k)) (h_root t) -> wf k x ->
    hv (S (rem + k)) w (h_root t) -> hv k wx x -> ins_root O t rem x = Ok t' -> deep t' (w + wx).
  Proof.
    intros E1 E2 Wr Wx Vr Vx E. unfold ins_root in E. rewrite E1, E2 in E.
    destruct (ins_spec P HP O HO M m Hm1 HM HmM rem k _ _ Wr Wx) as (a & o & Ei & W1 & W2 & _).
    pose proof (ins_hv rem k _ _ _ _ _ _ Wr Wx Vr Vx Ei) as S1. rewrite Ei in E. cbn [bind] in E.
    destruct o as [s|]; injection E as <-; right; cbn [h_root shared] in *.
    - destruct S1 as (wa & wb & L & H1 & H2).
      eapply hv_mono; [|apply (split_root_hv _ a s wa wb W1 H1 H2)]. lia.
    - rewrite (wf_height _ _ W1). exact S1.
  Qed.

  Lemma insert_hv t it t' w : tree_ok P M m t -> item_ok P it -> deep t w -> insert O t it = Ok t' -> deep t' (w + 1).
  Proof.
    intros (E1 & E2 & Hr) Hit D E. unfold insert in E. destruct D as [D|D].
    - destruct t as [r mx mn]. cbn [h_root h_max h_min] in *. subst. right.
      unfold ins_root, empty_root, create_dbnode in E. cbn [h_root h_max h_min db_height Nat.sub] in E.
      cbn [ins] in E. unfold set_children, set_bbox in E. cbn [db_children db_bbox app length] in E.
      replace (M <? 1) with false in E by (symmetry; apply Nat.ltb_ge; lia).
      cbn [bind] in E. injection E as <-. cbn [h_root db_height hv db_children]. split; [cbn; lia|].
      exists [1]. split; [constructor; [cbn; lia|constructor]|]. cbn. lia.
    - destruct Hr as [Hr|[h Hr]].
      { rewrite Hr in D. destruct t as [r mx mn]. cbn [h_root h_max h_min] in *. subst. right.
        unfold ins_root, empty_root, create_dbnode in E. cbn [h_root h_max h_min db_height Nat.sub] in E.
        cbn [ins] in E. unfold set_children, set_bbox in E. cbn [db_children db_bbox app length] in E.
        replace (M <? 1) with false in E by (symmetry; apply Nat.ltb_ge; lia).
        cbn [bind] in E. injection E as <-. cbn [h_root db_height hv db_children]. split; [cbn; lia|].
        exists [1]. split; [constructor; [cbn; lia|constructor]|]. cbn. lia. }
      rewrite (wf_height _ _ Hr) in D, E.
      apply (ins_root_hv t (S h - 1) 0 (new_leaf it) t' w 1); auto.
      + replace (S (S h - 1 + 0)) with (S h) by lia. exact Hr.
      + exists it. auto.
      + replace (S (S h - 1 + 0)) with (S h) by lia. exact D.
      + cbn. lia.
  Qed.

  Lemma insert_all_hv items : forall t t' w, tree_ok P M m t -> Forall (item_ok P) items -> deep t w ->
    insert_all O t items = Ok t' -> deep t' (w + length items).
  Proof.
    induction items as [|it r IH]; intros t t' w T Hi D E; cbn [insert_all length] in *.
    - injection E as <-. rewrite Nat.add_0_r. exact D.
    - inversion Hi as [|? ? I1 I2]; subst. destruct (insert_spec P HP O HO M m Hm1 HM HmM t it T I1) as (t1 & A & B & C).
      rewrite A in E. cbn [bind] in E.
      replace (w + S (length r)) with (w + 1 + length r) by lia.
      apply (IH t1); auto. exact (insert_hv t it t1 w T I1 D A).
  Qed.

  (** ** Bulk loading *)

  Lemma mapM_forall2 {A B} (f : A -> res B) l : forall ch, mapM f l = Ok ch -> Forall2 (fun x y => f x = Ok y) l ch.
  Proof.
    induction l as [|x l IH]; intros ch E; cbn [mapM] in E; [injection E as <-; constructor|].
    destruct (f x) as [y| |] eqn:Ef; try discriminate. cbn [bind] in E.
    destruct (mapM f l) as [ys| |] eqn:El; try discriminate. cbn [bind] in E. injection E as <-. auto.
  Qed.

  Lemma tile_bounds M' items tile :
    1 <= M' <= M -> items <> [] ->
    let N := length items in let N2 := cdiv N M' in
    In tile (tiles_of O (N2 * Nat.sqrt_up M') N2 items) ->
    tile <> [] /\ length tile <= N2 /\ N <= length tile * M' + (M' - 1) * (M' - 1).
  Proof.
    intros HM' Hne N N2 Ht.
    assert (HN : 1 <= N) by (unfold N; destruct items; [congruence|cbn; lia]).
    destruct (cdiv_spec N M' ltac:(lia)) as [D1 D2]; fold N2 in D1, D2.
    assert (HN2 : 1 <= N2) by nia.
    assert (Hs : 1 <= Nat.sqrt_up M').
    { pose proof (Nat.sqrt_up_le_mono 1 M' ltac:(lia)). rewrite Nat.sqrt_up_1 in H. exact H. }
    pose proof (tiles_sizes O HO M m Hm1 HM HmM N2 (Nat.sqrt_up M') items HN2 Hs) as Ts. fold N in Ts.
    set (tiles := tiles_of O (N2 * Nat.sqrt_up M') N2 items) in *.
    assert (Hcnt : length tiles = length (sizes N2 N)) by (rewrite <- Ts, map_length; reflexivity).
    pose proof (sizes_len N2 HN2 N HN) as Hlen.
    assert (Hcnt1 : length tiles <= M') by nia.
    assert (Hx : In (length tile) (sizes N2 N)) by (rewrite <- Ts; apply in_map, Ht).
    destruct (sizes_bound N2 HN2 N _ Hx) as [B1 B2].
    split; [intros ->; cbn in B1; lia|]. split; [lia|].
    rewrite <- Hcnt in B2.
    assert (length tiles - 1 <= M' - 1) by lia.
    assert (N <= length tile + (M' - 1) * N2) by nia.
    assert (M' * N2 <= N + M' - 1) by lia.
    nia.
  Qed.

  Lemma level_hv h M' fuel items ch :
    1 <= M' <= M -> items <> [] ->
    let N := length items in let N2 := cdiv N M' in
    mapM (fun tile => build O M fuel tile (S h))
         (flat_map (fun s => chunks N2 (o_msel O false N2 s))
            (chunks (N2 * Nat.sqrt_up M') (o_msel O true (N2 * Nat.sqrt_up M') items))) = Ok ch ->
    (forall tile d, tile <> [] -> length tile <= N2 -> N <= length tile * M' + (M' - 1) * (M' - 1) ->
       build O M fuel tile (S h) = Ok d -> hv (S h) (length tile) d) ->
    exists ws, Forall2 (hv (S h)) ws ch /\ list_sum ws = N.
  Proof.
    intros HM' Hne N N2 E Hrec. fold (tiles_of O (N2 * Nat.sqrt_up M') N2 items) in E.
    assert (HN : 1 <= N) by (unfold N; destruct items; [congruence|cbn; lia]).
    destruct (cdiv_spec N M' ltac:(lia)) as [D1 D2]; fold N2 in D1, D2.
    assert (HN2 : 1 <= N2) by nia.
    assert (Hs : 1 <= Nat.sqrt_up M').
    { pose proof (Nat.sqrt_up_le_mono 1 M' ltac:(lia)). rewrite Nat.sqrt_up_1 in H. exact H. }
    pose proof (tiles_perm O HO (N2 * Nat.sqrt_up M') N2 items ltac:(nia) HN2) as Tp.
    pose proof (tile_bounds M' items) as TB. cbv zeta in TB. fold N N2 in TB.
    apply mapM_forall2 in E.
    set (tiles := tiles_of O (N2 * Nat.sqrt_up M') N2 items) in *.
    exists (map (@length node) tiles). split.
    - assert (G : forall t, In t tiles -> forall d, build O M fuel t (S h) = Ok d -> hv (S h) (length t) d).
      { intros t Ht d Ed. destruct (TB t HM' Hne Ht) as (B1 & B2 & B3). apply Hrec; auto. }
      clear -E G. induction E as [|t d ts ds E1 E2 IH]; cbn [map]; constructor.
      + apply G; [left; reflexivity|exact E1].
      + apply IH. intros t' Ht'. apply G. right. exact Ht'.
    - unfold N. rewrite (Permutation_length Tp). clear. induction tiles as [|t ts IH]; [reflexivity|].
      cbn [map concat]. rewrite sum_cons, app_length, IH. reflexivity.
  Qed.

  Lemma leaf_hv items bb h : items <> [] -> hv 1 (length items) (DbNode (map new_leaf items) None h true bb).
  Proof.
    intros Hne. cbn [hv db_children]. split; [destruct items; [congruence|cbn; lia]|].
    exists (map (fun _ => 1) items). split.
    - clear. induction items; cbn [map]; constructor; auto.
    - clear. induction items as [|a l IH]; cbn [map length]; [cbn; lia|]. rewrite sum_cons. lia.
  Qed.

  Lemma pow_mono2 k : 2 ^ k <= M ^ k.
  Proof. apply Nat.pow_le_mono_l. lia. Qed.

  Lemma build_inner_hv k : forall fuel items d,
    items <> [] -> length items <= M ^ S k ->
    (k = 0 \/ M ^ S k <= 2 * length items + 2 * (M - 1)) ->
    build O M fuel items (S k) = Ok d -> hv (S k) (length items) d.
  Proof.
    induction k as [|k IH]; intros fuel items d Hne Hup Hlow E.
    - destruct fuel as [|f]; [discriminate|]. cbn [build] in E. rewrite Nat.pow_1_r in Hup.
      rewrite (proj2 (Nat.leb_le _ _) Hup) in E. injection E as <-. apply leaf_hv. exact Hne.
    - destruct fuel as [|f]; [discriminate|].
      destruct Hlow as [|Hlow]; [lia|].
      pose proof (pow_ge M (S (S k)) HM ltac:(lia)) as Hp.
      assert (Hbig : M < length items) by nia.
      cbn [build] in E. rewrite (proj2 (Nat.leb_gt _ _) Hbig) in E. cbn [Nat.eqb] in E.
      replace (S (S k) - 1) with (S k) in E by lia.
      assert (Epow : M ^ S (S k) = M * M ^ S k) by reflexivity.
      assert (Epow1 : M ^ S k = M * M ^ k) by reflexivity.
      pose proof (pow_mono2 (S k)) as P2. pose proof (pow_mono2 k) as P0.
      assert (P3 : 1 <= M ^ k) by (pose proof (Nat.pow_nonzero M k); lia).
      match type of E with context [mapM ?f ?l] => destruct (mapM f l) as [ch| |] eqn:Em end; try discriminate.
      cbn [bind] in E. injection E as <-.
      destruct (level_hv k M f items ch ltac:(lia) Hne Em) as (ws & F & S1).
      { intros tile d T1 T2 T3 T4. apply (IH f tile d T1); auto.
        - pose proof (cdiv_spec (length items) M ltac:(lia)) as [_ D2]. nia.
        - right. nia. }
      cbn [hv]. split; [|exists ws; split; [exact F|lia]]. nia.
  Qed.

  Lemma build_hv fuel items d h :
    items <> [] -> build O M fuel items 0 = Ok d -> wf (S h) d -> hv (S h) (length items) d.
  Proof.
    intros Hne E W. destruct fuel as [|f]; [discriminate|].
    cbn [build] in E. destruct (Nat.leb_spec (length items) M) as [Hle|Hgt].
    - injection E as <-. apply wf_height in W. cbn in W. injection W as <-. apply leaf_hv. exact Hne.
    - cbn [Nat.eqb] in E.
      destruct (ok_height O HO M (length items) HM Hgt) as (Hh & L & U).
      set (g := o_height O M (length items)) in *. set (N := length items) in *.
      assert (Hh2 : 2 <= g).
      { destruct (Nat.le_gt_cases 2 g); auto. assert (X : g = 1) by lia. rewrite X, Nat.pow_1_r in U. lia. }
      clearbody g. destruct g as [|[|k]]; [lia|lia|]. replace (S (S k) - 1) with (S k) in * by lia.
      assert (Hpp : 1 <= M ^ S k) by (pose proof (Nat.pow_nonzero M (S k)); lia).
      assert (Epow : M ^ S (S k) = M * M ^ S k) by reflexivity.
      destruct (cdiv_spec N (M ^ S k) Hpp) as [D1 D2].
      set (M' := cdiv N (M ^ S k)) in *.
      assert (HM' : 1 <= M' <= M) by nia.
      match type of E with context [mapM ?f ?l] => destruct (mapM f l) as [ch| |] eqn:Em end; try discriminate.
      cbn [bind] in E. injection E as <-.
      apply wf_height in W. cbn in W. injection W as <-.
      destruct (level_hv k M' f items ch HM' Hne Em) as (ws & F & S1).
      { intros tile d T1 T2 T3 T4. apply (build_inner_hv k f tile d T1); auto.
        - pose proof (cdiv_spec (length items) M' ltac:(lia)) as [_ D3]. fold N in D3, T2.
          assert (cdiv N M' * M' <= M' * M ^ S k + M' - 1) by lia.
          nia.
        - fold N in T3. destruct k as [|k']; [left; reflexivity|]. right.
          set (Q := M ^ S (S k')) in *.
          destruct (Nat.eq_dec M' 1) as [E1|E1].
          + rewrite E1 in T3. nia.
          + assert (G1 : (M' - 1) * Q + 1 <= N) by nia.
            assert (G2 : (M' - 1) * Q + 1 <= length tile * M' + (M' - 1) * (M' - 1)) by lia.
            assert (G3 : M' <= 2 * (M' - 1)) by lia.
            clear - G2 G3 HM' E1.
            set (a := M' - 1) in *. assert (M' = S a) by lia. rewrite H in *.
            set (t := length tile) in *.
            assert (1 <= a) by lia. assert (a <= M - 1) by lia.
            assert (a * Q < a * (2 * t + a) + 1) by nia.
            assert (Q <= 2 * t + a) by nia. lia. }
      fold N in S1. pose proof (pow_mono2 (S k)) as P2.
      cbn [hv]. split; [lia|]. exists ws. split; [exact F|lia].
  Qed.

  Lemma load_hv t items t' w :
    tree_ok P M m t -> Forall (item_ok P) items -> deep t w -> load O t items = Ok t' -> deep t' (w + length items).
  Proof.
    intros T Hok D E. unfold load in E. assert (T0 := T). destruct T as (E1 & E2 & Hr). rewrite E1, E2 in E.
    destruct (Nat.ltb_spec (length items) m) as [Hlt|Hge].
    - eapply insert_all_hv; eauto.
    - assert (Hne : items <> []) by (intros ->; cbn in Hge; lia).
      destruct (build_spec P HP O HO M m Hm1 HM HmM (S (S (length items))) items Hne Hok (le_n _)) as (d & h & Eb & W & _).
      pose proof (build_hv _ _ _ _ Hne Eb W) as V. rewrite Eb in E. cbn [bind] in E.
      destruct Hr as [Hr|[g Hr]].
      + rewrite Hr in E. cbn [db_children empty_root create_dbnode] in E. injection E as <-.
        right. cbn [h_root]. rewrite (wf_height _ _ W). eapply hv_mono; [|exact V]. lia.
      + destruct D as [D|D].
        { exfalso. rewrite D in Hr. destruct Hr as (_ & _ & _ & N & _). apply N. reflexivity. }
        rewrite (wf_height _ _ Hr) in D.
        destruct (db_children (h_root t)) as [|c0 cs] eqn:Ech; [destruct Hr as (_ & _ & _ & N & _); congruence|].
        rewrite (wf_height _ _ Hr), (wf_height _ _ W) in E.
        destruct (Nat.eqb_spec (S g) (S h)) as [Heq|Hneq].
        * injection Heq as ->. injection E as <-. right. cbn [h_root].
          apply (split_root_hv h); auto.
        * destruct (Nat.ltb_spec (S g) (S h)) as [Hl|Hl].
          -- rewrite Nat.add_comm. apply (ins_root_hv (Hdb d M m) (S h - S g - 1) (S g) (h_root t)); auto; cbn [h_root];
               replace (S (S h - S g - 1 + S g)) with (S h) by lia; assumption.
          -- apply (ins_root_hv t (S g - S h - 1) (S h) d); auto;
               replace (S (S g - S h - 1 + S h)) with (S g) by lia; assumption.
  Qed.

  (** ** Removal *)

  Lemma rm_hv p b : forall h nd d w, wf (S h) nd -> hv (S h) w nd -> rm p b nd = Some d -> hv (S h) w d.
  Proof.
    induction h as [|h IH]; intros nd d w Wn (V1 & ws & V2 & V3) E.
    - destruct nd as [ch it hh lf bb]. destruct Wn as (E1 & E2 & E3 & E4 & E5 & E6 & E7).
      cbn [db_children db_height db_item db_leaf db_bbox] in *; subst hh it lf. cbn [Nat.eqb rm] in E.
      pose proof (remove_first_spec p ch) as Hr. destruct (remove_first p ch) as [r|]; [|discriminate].
      destruct Hr as (l1 & c & l2 & -> & _ & ->).
      destruct (forall2_hole _ _ _ _ _ V2) as (w1 & wc & w2 & -> & F1 & _ & F2).
      rewrite sum_app, sum_cons in V3.
      assert (G : db_children d = l1 ++ l2) by (destruct (l1 ++ l2); injection E as <-; reflexivity).
      cbn [hv]. split; [exact V1|]. exists (w1 ++ w2). rewrite G. split; [apply Forall2_app; assumption|].
      rewrite sum_app. lia.
    - destruct nd as [ch it hh lf bb]. destruct Wn as (E1 & E2 & E3 & E4 & E5 & E6 & E7).
      cbn [db_children db_height db_item db_leaf db_bbox] in *; subst hh it lf. cbn [Nat.eqb] in E. rewrite rm_inner in E.
      destruct (mbr_contains bb b); [|discriminate].
      assert (G : forall r, rm_go p b ch = Some r -> exists ws', Forall2 (hv (S h)) ws' r /\ list_sum ws' <= list_sum ws).
      { clear V1 V3 E E4 E5 E6. revert ws V2. induction ch as [|c rest IHc]; intros ws V2 r Er; cbn [rm_go] in Er; [discriminate|].
        inversion E7 as [|? ? [Wc _] E7r]; subst. inversion V2 as [|wc ? ws0 ? Vc V2r]; subst. fold (rm_go p b) in Er.
        destruct (rm p b c) as [c'|] eqn:Ec.
        - specialize (IH c c' wc Wc Vc Ec). injection Er as <-. destruct (db_children c') as [|x xs].
          + exists ws0. split; [exact V2r|rewrite sum_cons; lia].
          + exists (wc :: ws0). split; [constructor; assumption|lia].
        - destruct (rm_go p b rest) as [r'|]; [|discriminate]. injection Er as <-.
          destruct (IHc E7r ws0 V2r r' eq_refl) as (ws' & A & B).
          exists (wc :: ws'). split; [constructor; assumption|rewrite !sum_cons; lia]. }
      destruct (rm_go p b ch) as [r|]; [|discriminate].
      destruct (G r eq_refl) as (ws' & A & B).
      assert (K : db_children d = r) by (destruct r; injection E as <-; reflexivity).
      cbn [hv]. split; [exact V1|]. exists ws'. rewrite K. split; [exact A|lia].
  Qed.

  Lemma rm_height p b nd d : rm p b nd = Some d -> db_height d = db_height nd.
  Proof.
    destruct nd as [ch it hh lf bb]. destruct lf.
    - cbn [rm]. destruct (remove_first p ch) as [[|x r]|]; intros E; try discriminate; injection E as <-; reflexivity.
    - rewrite rm_inner. destruct (mbr_contains bb b); [|discriminate].
      destruct (rm_go p b ch) as [[|x r]|]; intros E; try discriminate; injection E as <-; reflexivity.
  Qed.

  Lemma remove_hv t it w : tree_ok P M m t -> deep t w -> deep (remove t it) w.
  Proof.
    intros (_ & _ & Hr) D. unfold remove.
    destruct (rm (has_id (n_id it)) (n_mbr it) (h_root t)) as [r|] eqn:E; [|exact D].
    destruct (db_children r) eqn:Er; [left; reflexivity|]. right. cbn [h_root].
    destruct Hr as [Hr|[h Hr]]; [rewrite Hr in E; discriminate|].
    destruct D as [D|D]; [rewrite D in E; discriminate|].
    rewrite (rm_height _ _ _ _ E). rewrite (wf_height _ _ Hr) in *. eapply rm_hv; eauto.
  Qed.
End Depth.

Lemma min_entries_ge2 M : 2 <= min_entries M.
Proof. unfold min_entries. lia. Qed.
