(** Removal and the queries on the index in memory. *)
From Verif Require Import M_Base M_Float M_Rng M_Geom M_Node M_Slice M_Hdb M_HdbMem Spec_Hdb Spec_HdbMem P_HdbMem.
Open Scope nat_scope.

Lemma k_ok_own m s : k_ok m s -> 0 < s_len s -> own s = [s_arr s] /\ s_arr s < length m /\ s_cap s <= length (nth (s_arr s) m []).
Proof.
  intros (K0 & K1 & K2) H. assert (Ec : s_cap s <> 0) by lia. destruct (K2 Ec). unfold own. destruct (Nat.eqb_spec (s_cap s) 0); [lia|auto].
Qed.

Lemma remove_kid_rep m ch it h l bb s f i m' s' : rep m (DbNode ch it h l bb) (Cell s it h l bb) f -> i < length ch ->
  remove_kid m s i = (m', s') ->
  exists f', rep m' (DbNode (firstn i ch ++ skipn (S i) ch) it h l bb) (Cell s' it h l bb) f' /\ incl f' f /\
    length m' = length m /\ (forall a, ~ In a f -> nth_error m' a = nth_error m a).
Proof.
  intros H Hi E. inversion H as [ch0 it0 h0 l0 b0 s0 fs Hk Hr Hn]; subst. pose proof Hk as (K0 & K1 & K2).
  destruct (reps_length _ _ _ _ Hr) as (L1 & L2). pose proof (kids_len _ _ Hk) as Lk.
  destruct (k_ok_own m s Hk ltac:(lia)) as (Eo & A1 & A2). unfold remove_kid in E. cbv zeta in E.
  destruct (Nat.leb_spec (s_len s) i); [lia|]. apply pair_equal_spec in E. destruct E as (<- & <-).
  set (l0 := kids_of m s) in *. set (new := firstn i l0 ++ skipn (S i) l0 ++ [zero_cell]) in *.
  assert (Ln : length new = s_len s).
  { unfold new. rewrite !app_length, firstn_length, skipn_length. cbn [length]. lia. }
  assert (Ea : nth (s_arr s) (write_kids m s new) [] = new ++ skipn (s_len s) (nth (s_arr s) m [])).
  { unfold write_kids. rewrite nth_replace by exact A1. rewrite K0. reflexivity. }
  assert (Fr : forall a, a <> s_arr s -> nth_error (write_kids m s new) a = nth_error m a).
  { intros a Ha. unfold write_kids. apply replace_other. congruence. }
  assert (Lw : length (write_kids m s new) = length m) by (unfold write_kids; apply replace_len).
  exists (own s ++ concat (firstn i fs ++ skipn (S i) fs)). split; [|split; [|split; [exact Lw|]]].
  - apply (Rep _ _ it h l bb (Slice (s_arr s) (s_off s) (s_len s - 1) (s_cap s)) (firstn i fs ++ skipn (S i) fs)).
    + split; [exact K0|]. split; [cbn; lia|]. intros _. cbn [s_arr s_cap]. rewrite Lw, Ea, app_length, skipn_length, Ln. lia.
    + unfold kids_of. cbn [s_arr s_off s_len]. rewrite Ea, K0. cbn [skipn].
      assert (Es : firstn (s_len s - 1) (new ++ skipn (s_len s) (nth (s_arr s) m [])) = firstn i l0 ++ skipn (S i) l0).
      { unfold new. rewrite <- !app_assoc, (app_assoc (firstn i l0)).
        assert (Lx : length (firstn i l0 ++ skipn (S i) l0) = s_len s - 1) by (rewrite app_length, firstn_length, skipn_length; lia).
        rewrite <- Lx. rewrite firstn_app, Nat.sub_diag, firstn_all. cbn [firstn]. apply app_nil_r. }
      rewrite Es.
      assert (Hq : forall a, In a (concat fs) -> nth_error (write_kids m s new) a = nth_error m a).
      { intros a Ha. apply Fr. intros ->. rewrite Eo in Hn. inversion Hn; subst. tauto. }
      pose proof (reps_frame m _ _ _ _ Hr Hq) as Hr2. exact (reps_app _ _ _ _ _ _ _ (reps_firstn _ _ _ _ i Hr2) (reps_skipn _ _ _ _ (S i) Hr2)).
    + change (own (Slice (s_arr s) (s_off s) (s_len s - 1) (s_cap s))) with (own s).
      rewrite concat_app. rewrite <- (firstn_skipn i fs), concat_app in Hn.
      destruct (nth_error fs i) as [fi|] eqn:Ef; [|apply nth_error_None in Ef; lia].
      assert (Es : skipn i fs = fi :: skipn (S i) fs).
      { clear -Ef. revert i Ef. induction fs as [|f fs IH]; intros [|i] Ef; try discriminate; cbn in *; [injection Ef as ->; reflexivity|auto]. }
      rewrite Es in Hn. cbn [concat] in Hn. rewrite !nodup_app_iff in *. destruct Hn as (N1 & (N2 & (N3 & N4 & N5) & N6) & N7).
      repeat split; auto.
      * intros a Ha Hb. apply (N6 a Ha). apply in_app_iff. auto.
      * intros a Ha Hb. apply (N7 a Ha). rewrite !in_app_iff in *. tauto.
  - intros a. rewrite !in_app_iff. intros [Ha|Ha]; [auto|]. right. rewrite concat_app, in_app_iff in Ha.
    rewrite in_concat. rewrite !in_concat in Ha. destruct Ha as [(x & Hx & Hy)|(x & Hx & Hy)]; exists x; split; auto.
    + rewrite <- (firstn_skipn i fs). apply in_app_iff. auto.
    + rewrite <- (firstn_skipn (S i) fs). apply in_app_iff. auto.
  - intros a Ha. apply Fr. intros ->. apply Ha. rewrite Eo. left. reflexivity.
Qed.

Lemma find_item_spec m id : forall ts cs fs k, reps m ts cs fs -> Forall (fun t => db_item t <> None) ts ->
  match remove_first (has_id id) ts with
  | None => find_item id cs k = Ok None
  | Some r => exists j, find_item id cs k = Ok (Some (k + j)) /\ j < length ts /\ r = firstn j ts ++ skipn (S j) ts
  end.
Proof.
  intros ts cs fs k H. revert k. induction H as [|t ts c cs f fs R Rs IH]; intros k Hi; [reflexivity|].
  inversion Hi as [|? ? Hi1 Hi2]; subst. cbn [remove_first find_item]. assert (Ei : c_item c = db_item t) by (destruct R; reflexivity).
  unfold has_id at 1. rewrite Ei. destruct (db_item t) as [it|]; [|congruence].
  destruct (Z.eqb (n_id it) id).
  - exists 0. rewrite Nat.add_0_r. cbn. split; [reflexivity|]. split; [lia|reflexivity].
  - specialize (IH (S k) Hi2). destruct (remove_first (has_id id) ts) as [r|].
    + destruct IH as (j & E & Hj & ->). exists (S j). rewrite E. split; [do 2 f_equal; lia|]. cbn. split; [lia|reflexivity].
    + exact IH.
Qed.

Definition rm_kids (p : dbnode -> bool) (b : mbr) : list dbnode -> option (list dbnode) :=
  fix go l :=
    match l with
    | [] => None
    | c :: rest =>
      match rm p b c with
      | Some c' => Some (match db_children c' with [] => rest | _ => c' :: rest end)
      | None => match go rest with Some r' => Some (c :: r') | None => None end
      end
    end.

Lemma rm_unfold p b ch it h leaf bb : rm p b (DbNode ch it h leaf bb) =
  if leaf then
    match remove_first p ch with
    | None => None
    | Some [] => Some (DbNode [] it h leaf bb)
    | Some ch' => Some (calc_bbox (DbNode ch' it h leaf bb))
    end
  else if mbr_contains bb b then
    match rm_kids p b ch with
    | None => None
    | Some [] => Some (DbNode [] it h leaf bb)
    | Some ch' => Some (calc_bbox (DbNode ch' it h leaf bb))
    end
  else None.
Proof. reflexivity. Qed.

Lemma rm_kids_spec p b l : match rm_kids p b l with
  | None => forall c, In c l -> rm p b c = None
  | Some r => exists j c c', nth_error l j = Some c /\ rm p b c = Some c' /\ (forall k d, k < j -> nth_error l k = Some d -> rm p b d = None) /\
      r = match db_children c' with [] => firstn j l ++ skipn (S j) l | _ => replace_nth j c' l end
  end.
Proof.
  induction l as [|c l IH]; cbn [rm_kids]; [intros c []|]. destruct (rm p b c) as [c'|] eqn:E.
  - exists 0, c, c'. cbn. repeat (split; [auto; try reflexivity|]). { intros k d Hk. lia. } destruct (db_children c'); reflexivity.
  - fold (rm_kids p b). destruct (rm_kids p b l) as [r|].
    + destruct IH as (j & d & d' & E1 & E2 & E3 & E4). exists (S j), d, d'. split; [exact E1|]. split; [exact E2|]. split.
      * intros [|k] e Hk He; [injection He as <-; exact E|]. apply (E3 k e); [lia|exact He].
      * rewrite E4. destruct (db_children d'); reflexivity.
    + intros d [<- |Hd]; auto.
Qed.

Lemma find_ptr_spec s i : forall n k, k <= i < k + n -> find_ptr (kid s i) s n k = Some i.
Proof.
  induction n as [|n IH]; intros k H; [lia|]. cbn [find_ptr]. unfold kid, ptr_eqb. rewrite Nat.eqb_refl. cbn [andb].
  destruct (Nat.eqb_spec (s_off s + i) (s_off s + k)) as [E|E]; [f_equal; lia|]. apply IH. lia.
Qed.

Lemma drop_replaced {A} j (x : A) : forall l, firstn j (replace_nth j x l) ++ skipn (S j) (replace_nth j x l) = firstn j l ++ skipn (S j) l.
Proof. induction j as [|j IH]; intros [|a l]; try reflexivity. cbn [replace_nth firstn skipn app]. f_equal. exact (IH l). Qed.

Section Rm.
  Variable b : mbr.
  Variable id : Z.
  Variable M : nat.
  Let P := has_id id.
  Let loop fuel st nd parent path idx i up := m_remove_loop fuel b id st nd parent path idx i up.

  (** Going on to the right of the place that was the i-th child of the head of the path. *)
  Definition next fuel st (path : list ptr) idx i : res mstate :=
    match path with
    | [] => Ok st
    | q :: _ => pc <- deref st q ;;
        loop fuel st (if Nat.ltb (S i) (s_len (c_kids pc)) then Some (kid (c_kids pc) (S i)) else None) (Some q) path idx (S i) false
    end.

  Definition tidied (t : dbnode) (ch : list dbnode) : dbnode :=
    match ch with [] => set_children t [] | _ => calc_bbox (set_children t ch) end.

  Lemma dfs_core : forall h t, balanced M (S h) t -> forall st p c f path idx i, deref st p = Ok c -> rep (ms_heap st) t c f -> apart p f ->
    match rm P b t with
    | None => exists n, forall fuel, 1 <= fuel -> loop (n + fuel) st (Some p) (hd_error path) path idx i false = next fuel st path idx i
    | Some t' => exists n st2 ch' c' f', (forall fuel, 1 <= fuel -> loop (n + fuel) st (Some p) (hd_error path) path idx i false = m_condense st2 (p :: path)) /\
        deref st2 p = Ok c' /\ rep (ms_heap st2) (set_children t ch') c' f' /\ frame st st2 f p /\
        (forall a, In a f' -> In a f \/ length (ms_heap st) <= a) /\ t' = tidied t ch'
    end.
  Proof.
    induction h as [|h IH]; intros t Hb st p c f path idx i Ed H Hp; inversion Hb as [|h0 ch bb Hne Hm Hall]; subst h0 t;
      inversion H as [ch0 it0 hh0 l0 b0 s fs Hk Hr Hn]; subst; cbn [Nat.eqb] in *; rewrite rm_unfold.
    - assert (Hit : Forall (fun t => db_item t <> None) ch).
      { apply Forall_forall. intros d Hd. rewrite Forall_forall in Hall. destruct (Hall d Hd) as (B & _). inversion B. cbn. discriminate. }
      pose proof (find_item_spec (ms_heap st) id ch _ fs 0 Hr Hit) as Hf. fold P in Hf.
      destruct (remove_first P ch) as [r|].
      + destruct Hf as (j & Ef & Hj & ->). cbn [Nat.add] in Ef.
        destruct (remove_kid (ms_heap st) s j) as [m' s'] eqn:Er.
        destruct (remove_kid_rep _ _ _ _ _ _ _ _ _ _ _ H Hj Er) as (f' & R' & Inc & Lm & Fr).
        set (ch' := firstn j ch ++ skipn (S j) ch) in *. set (c' := Cell s' None 1 true bb) in *.
        assert (Fm : frame st (MState m' (ms_root st)) (own s ++ concat fs) p).
        { split; cbn [ms_heap ms_root]; auto; [lia|]. intros a k _ Ha. rewrite !nth_of_error, Fr by exact Ha. auto. }
        assert (Ed' : deref (MState m' (ms_root st)) p = Ok (Cell s None 1 true bb)).
        { eapply deref_kept; [exact Ed|reflexivity|]. intros a Ea. apply Fr. apply Hp. exact Ea. }
        assert (Goal : exists n st2 ch'0 c'0 f'0, (forall fuel, 1 <= fuel -> loop (n + fuel) st (Some p) (hd_error path) path idx i false = m_condense st2 (p :: path)) /\
          deref st2 p = Ok c'0 /\ rep (ms_heap st2) (set_children (DbNode ch None 1 true bb) ch'0) c'0 f'0 /\ frame st st2 (own s ++ concat fs) p /\
          (forall a, In a f'0 -> In a (own s ++ concat fs) \/ length (ms_heap st) <= a) /\ ch'0 = ch').
        { exists 1, (store (MState m' (ms_root st)) p c'), ch', c', f'. split; [|split; [|split; [|split; [|split; [|reflexivity]]]]].
          - intros fuel _. cbn [Nat.add]. unfold loop. cbn [m_remove_loop]. rewrite Ed. cbn [bind c_leaf c_kids]. rewrite Ef. cbn [bind]. rewrite Er. reflexivity.
          - eapply store_deref. exact Ed'.
          - cbn [set_children]. eapply rep_frame; [exact R'|]. intros a Ha. apply store_heap. intros Ea. apply (Hp a Ea), Inc, Ha.
          - eapply frame_trans; [exact Fm|apply store_frame| |apply (deref_alloc _ _ _ Ed)|intros a []]. intros a Ea _. exact (Hp a Ea).
          - intros a Ha. left. apply Inc, Ha. }
        destruct Goal as (n & st2 & ch2 & c2 & f2 & G1 & G2 & G3 & G4 & G5 & ->). destruct ch' as [|x0 r0] eqn:Ec'.
        all: exists n, st2; eexists; exists c2, f2; (split; [exact G1|]); (split; [exact G2|]); (split; [exact G3|]); (split; [exact G4|]); (split; [exact G5|]); reflexivity.
      + exists 1. intros fuel Hfu. cbn [Nat.add]. unfold loop. cbn [m_remove_loop]. rewrite Ed. cbn [bind c_leaf c_kids]. rewrite Hf. cbn [bind negb andb].
        destruct path as [|q path]; cbn [hd_error next]; [|reflexivity]. destruct fuel; [lia|]. reflexivity.
    - destruct (mbr_contains bb b) eqn:Eb.
      2: { exists 1. intros fuel Hfu. cbn [Nat.add]. unfold loop. cbn [m_remove_loop]. rewrite Ed. cbn [bind c_leaf c_kids negb andb c_bbox]. rewrite Eb.
        destruct path as [|q path]; cbn [hd_error next]; [|reflexivity]. destruct fuel; [lia|]. reflexivity. }
      destruct (reps_length _ _ _ _ Hr) as (L1 & L2). pose proof (kids_len _ _ Hk) as Lk. set (c := Cell s None (S (S h)) false bb) in *.
      assert (L0 : 0 < length ch) by (destruct ch; [congruence|cbn; lia]).
      destruct (k_ok_own _ s Hk ltac:(lia)) as (Eo & A1 & A2).
      assert (Harr : In (s_arr s) (own s ++ concat fs)) by (rewrite Eo; left; reflexivity).
      (* into the first child *)
      assert (Down : forall fuel, loop (S fuel) st (Some p) (hd_error path) path idx i false =
        loop fuel st (Some (kid s 0)) (Some p) (p :: path) (i :: idx) 0 false).
      { intros fuel. unfold loop at 1. cbn [m_remove_loop]. rewrite Ed. cbn [bind c_leaf c_kids negb andb c_bbox c]. rewrite Eb.
        destruct (s_len s) as [|k] eqn:El; [lia|]. reflexivity. }
      (* past the children without the item *)
      assert (Past : forall k, k < length ch -> (forall j d, j < k -> nth_error ch j = Some d -> rm P b d = None) ->
        exists n, forall fuel, 1 <= fuel -> loop (n + fuel) st (Some p) (hd_error path) path idx i false =
          loop fuel st (Some (kid s k)) (Some p) (p :: path) (i :: idx) k false).
      { induction k as [|k IHk]; intros Hl Hno.
        - exists 1. intros fuel _. apply Down.
        - destruct (IHk ltac:(lia)) as (n & Hn1); [intros j d Hj; apply Hno; lia|].
          destruct (nth_error ch k) as [d|] eqn:En; [|apply nth_error_None in En; lia].
          destruct (child_place st p _ _ _ _ _ _ _ _ _ H Hk Hr Hn Hp En) as (ci & fi & Dc & Ef & Ri & _ & Ai & Inc).
          rewrite Forall_forall in Hall. destruct (Hall d (nth_error_In _ _ En)) as (Bd & _).
          pose proof (IH d Bd st (kid s k) ci fi (p :: path) (i :: idx) k Dc Ri Ai) as Hd. rewrite (Hno k d ltac:(lia) En) in Hd.
          destruct Hd as (n2 & Hd). exists (n + n2). intros fuel Hf. rewrite <- Nat.add_assoc, Hn1 by lia. cbn [hd_error] in Hd. rewrite Hd by exact Hf.
          cbn [next]. rewrite Ed. cbn [bind c_kids c]. destruct (Nat.ltb_spec (S k) (s_len s)); [reflexivity|lia]. }
      pose proof (rm_kids_spec P b ch) as Hs. destruct (rm_kids P b ch) as [r|].
      + destruct Hs as (j & tj & tj' & En & Ej & Hno & Er).
        assert (Hj : j < length ch) by (apply nth_error_Some; rewrite En; discriminate).
        destruct (Past j Hj Hno) as (n & Hn1).
        destruct (child_place st p _ _ _ _ _ _ _ _ _ H Hk Hr Hn Hp En) as (ci & fi & Dc & Ef & Ri & _ & Ai & Inc).
        rewrite Forall_forall in Hall. destruct (Hall tj (nth_error_In _ _ En)) as (Bj & _).
        pose proof (IH tj Bj st (kid s j) ci fi (p :: path) (i :: idx) j Dc Ri Ai) as Hd. rewrite Ej in Hd.
        destruct Hd as (n2 & st2 & ch2 & c2 & f2 & G1 & G2 & G3 & G4 & G5 & G6). cbn [hd_error] in G1.
        assert (G4' : frame st st2 (fi ++ []) (kid s j)) by (rewrite app_nil_r; exact G4).
        pose proof (deref_alloc _ _ _ Ed) as Hal.
        assert (Pf : frame st st2 (own s ++ concat fs) p) by (rewrite <- (app_nil_r (own s ++ concat fs)); eapply parent_frame; eauto).
        assert (Dp : deref st2 p = Ok c).
        { eapply deref_kept; [exact Ed|intros _; apply (fr_root _ _ _ _ G4); discriminate|].
          intros a Ea. assert (La : a < length (ms_heap st)) by (destruct p as [|pa pi]; [discriminate|]; injection Ea as ->; eapply Hal; reflexivity).
          apply (fr_arr _ _ _ _ G4); [exact La| |].
          - intros K. apply (Hp a Ea), Inc, K.
          - cbn. intros K. injection K as <-. exact (Hp _ Ea Harr). }
        (* the child's own step of condense *)
        assert (Goal : exists st3 (c' : cell) (f' : list nat), (m_condense st2 (kid s j :: p :: path) = m_condense st3 (p :: path)) /\ deref st3 p = Ok c' /\ rep (ms_heap st3) (DbNode r None (S (S h)) false bb) c' f' /\ frame st st3 (own s ++ concat fs) p /\ (forall a, In a f' -> In a (own s ++ concat fs) \/ length (ms_heap st) <= a)).
        { cbn [m_condense]. rewrite G2. cbn [bind].
          assert (Sub : forall a, In a f2 -> In a (fi ++ []) \/ length (ms_heap st) <= a) by (intros a Ha; rewrite app_nil_r; exact (G5 a Ha)).
          assert (Hcc : forall a, In a (own s ++ concat (replace_nth j f2 fs)) -> In a (own s ++ concat fs) \/ length (ms_heap st) <= a).
          { intros a. rewrite concat_replace by lia. rewrite (concat_split fs j fi Ef), !in_app_iff. intros [K|[K|[K|K]]]; try tauto. destruct (G5 a K); tauto. }
          assert (Ap : forall F, (forall a, In a F -> In a (own s ++ concat fs) \/ length (ms_heap st) <= a) -> apart p F).
          { intros F HF a Ea Ha. destruct (HF a Ha) as [K|K]; [exact (Hp a Ea K)|]. destruct p as [|pa pi]; [discriminate|]. injection Ea as ->. pose proof (Hal a pi eq_refl). lia. }
          assert (Elen : s_len (c_kids c2) = length ch2) by (rewrite (rep_len _ _ _ _ G3); destruct tj; reflexivity). rewrite Elen.
          destruct ch2 as [|x2 r2].
          - cbn [length Nat.eqb]. rewrite Dp. cbn [bind c_kids c]. rewrite find_ptr_spec by lia.
            pose proof (parent_rep st st2 ch None (S (S h)) false bb s fs j c2 _ fi f2 [] Hk Hr Hn Eo Hj Ef G4' (fun a _ K => K) G2 G3 Sub) as Rp.
            destruct (remove_kid (ms_heap st2) s j) as [m3 s3] eqn:Erk.
            assert (Hj' : j < length (replace_nth j (set_children tj []) ch)) by (rewrite replace_len; exact Hj).
            destruct (remove_kid_rep _ _ _ _ _ _ _ _ _ _ _ Rp Hj' Erk) as (f3 & R3 & Inc3 & Lm3 & Fr3).
            set (F3 := own s ++ concat (replace_nth j f2 fs)) in *.
            set (st2' := MState m3 (ms_root st2)). change (MState m3 (ms_root st2)) with st2'.
            assert (Fm : frame st2 st2' F3 p).
            { split; unfold st2'; cbn [ms_heap ms_root]; auto; [lia|]. intros a k _ Ha. rewrite !nth_of_error, Fr3 by exact Ha. auto. }
            assert (Dp' : deref st2' p = Ok c).
            { eapply deref_kept; [exact Dp|reflexivity|]. intros a Ea. apply Fr3. intros Ha. exact (Ap F3 Hcc a Ea Ha). }
            exists (store st2' p (with_kids c s3)), (with_kids c s3), f3. split; [reflexivity|]. split; [eapply store_deref; exact Dp'|]. split; [|split].
            + assert (Er3 : r = firstn j (replace_nth j (set_children tj []) ch) ++ skipn (S j) (replace_nth j (set_children tj []) ch)).
              { rewrite Er. replace (db_children tj') with (@nil dbnode) by (rewrite G6; destruct tj; reflexivity).
                symmetry. apply drop_replaced. }
              rewrite Er3. eapply rep_frame; [exact R3|]. intros a Ha. apply store_heap. intros Ea. exact (Ap F3 Hcc a Ea (Inc3 a Ha)).
            + eapply frame_trans; [eapply frame_trans; [exact Pf|exact Fm| |exact Hal|exact Hcc]|apply store_frame| |exact Hal|intros a []]; intros a Ea _; exact (Hp a Ea).
            + intros a Ha. apply Hcc, Inc3, Ha.
          - cbn [length Nat.eqb].
            set (c3 := with_bbox c2 (boxes (kids_of (ms_heap st2) (c_kids c2)))).
            assert (R3 : rep (ms_heap (store st2 (kid s j) c3)) tj' c3 f2).
            { assert (Ak : apart (kid s j) f2).
              { intros a Ea Ha. cbn in Ea. injection Ea as <-. destruct (G5 _ Ha) as [K|K]; [exact (Ai _ eq_refl K)|lia]. }
              assert (Eb2 : boxes (kids_of (ms_heap st2) (c_kids c2)) = dist_bbox (x2 :: r2)).
              { destruct tj as [chj itj hj lj bj]. cbn [set_children] in G3. inversion G3 as [? ? ? ? ? ? ? Hk3 Hr3 Hn3]; subst. cbn [c_kids]. eapply boxes_reps. exact Hr3. }
              unfold c3. rewrite Eb2. rewrite G6. unfold tidied.
              replace (calc_bbox (set_children tj (x2 :: r2))) with (set_bbox (set_children tj (x2 :: r2)) (dist_bbox (x2 :: r2))) by (destruct tj; reflexivity).
              eapply rep_store_bbox; eauto. }
            pose proof (store_frame st2 (kid s j) c3) as Fs.
            assert (Fk : frame st (store st2 (kid s j) c3) (fi ++ []) (kid s j)).
            { eapply frame_trans; [exact G4'|exact Fs| | |intros a []].
              - intros a Ea _ K. rewrite app_nil_r in K. exact (Ai a Ea K).
              - apply (deref_alloc _ _ _ Dc). }
            pose proof (parent_rep st _ ch None (S (S h)) false bb s fs j c3 _ fi f2 [] Hk Hr Hn Eo Hj Ef Fk (fun a _ K => K) (store_deref _ _ _ _ G2) R3 Sub) as Rp.
            exists (store st2 (kid s j) c3), c, (own s ++ concat (replace_nth j f2 fs)). split; [reflexivity|]. split; [|split; [|split]].
            + eapply deref_kept; [exact Dp|reflexivity|]. intros a Ea. apply store_heap. cbn. intros K. injection K as <-. exact (Hp _ Ea Harr).
            + rewrite Er. replace (match db_children tj' with [] => _ | _ => _ end) with (replace_nth j tj' ch); [exact Rp|].
              rewrite G6. destruct tj; reflexivity.
            + rewrite <- (app_nil_r (own s ++ concat fs)). eapply parent_frame; eauto.
            + exact Hcc. }
        destruct Goal as (st3 & c' & f' & Q1 & Q2 & Q3 & Q4 & Q5).
        assert (Fin : forall fuel, 1 <= fuel -> loop (n + n2 + fuel) st (Some p) (hd_error path) path idx i false = m_condense st3 (p :: path)).
        { intros fuel Hf. rewrite <- Nat.add_assoc, Hn1 by lia. rewrite G1 by exact Hf. exact Q1. }
        destruct r as [|x0 r0].
        all: exists (n + n2), st3; eexists; exists c', f'; (split; [exact Fin|]); (split; [exact Q2|]); (split; [exact Q3|]); (split; [exact Q4|]); (split; [exact Q5|]); reflexivity.
      + destruct (Past (length ch - 1) ltac:(lia)) as (n & Hn1).
        { intros j d _ En. apply Hs. eapply nth_error_In. exact En. }
        destruct (nth_error ch (length ch - 1)) as [d|] eqn:En; [|apply nth_error_None in En; lia].
        destruct (child_place st p _ _ _ _ _ _ _ _ _ H Hk Hr Hn Hp En) as (ci & fi & Dc & Ef & Ri & _ & Ai & Inc).
        rewrite Forall_forall in Hall. destruct (Hall d (nth_error_In _ _ En)) as (Bd & _).
        pose proof (IH d Bd st (kid s (length ch - 1)) ci fi (p :: path) (i :: idx) (length ch - 1) Dc Ri Ai) as Hd. rewrite (Hs d (nth_error_In _ _ En)) in Hd.
        destruct Hd as (n2 & Hd). cbn [hd_error] in Hd. exists (n + n2 + 1). intros fuel Hf.
        rewrite <- !Nat.add_assoc, Hn1 by lia. rewrite Hd by lia. cbn [next]. rewrite Ed. cbn [bind c_kids c].
        destruct (Nat.ltb_spec (S (length ch - 1)) (s_len s)); [lia|].
        unfold loop at 1. cbn [Nat.add m_remove_loop hd_error tl hd]. rewrite Ed. cbn [bind c_leaf c negb andb c_kids].
        destruct path as [|q path]; cbn [hd_error]; [|reflexivity]. destruct fuel; [lia|]. reflexivity.
  Qed.
End Rm.

Lemma remove_holds M st t mx mn it : holds st t -> (t = empty_root \/ exists h, balanced M (S h) t) ->
  exists N st', (forall fuel, N <= fuel -> m_remove fuel st it = Ok st') /\ holds st' (h_root (remove (Hdb t mx mn) it)).
Proof.
  intros (f & H) Hs. unfold m_remove, remove. cbn [h_root h_max h_min].
  assert (None_ok : rm (has_id (n_id it)) (n_mbr it) t = None ->
    (exists n, forall fuel, 1 <= fuel -> m_remove_loop (n + fuel) (n_mbr it) (n_id it) st (Some PRoot) None [] [] 0 false = Ok st) ->
    exists N st', (forall fuel, N <= fuel -> m_remove_loop fuel (n_mbr it) (n_id it) st (Some PRoot) None [] [] 0 false = Ok st') /\
      holds st' (h_root (match rm (has_id (n_id it)) (n_mbr it) t with None => Hdb t mx mn | Some r => match db_children r with [] => Hdb empty_root mx mn | _ => Hdb r mx mn end end))).
  { intros E (n & Hn). rewrite E. exists (n + 1), st. split; [|exists f; exact H]. intros fuel Hf. replace fuel with (n + (fuel - n)) by lia. apply Hn. lia. }
  destruct Hs as [-> |(h & B)].
  - apply None_ok; [reflexivity|]. exists 1. intros fuel Hf. cbn [Nat.add m_remove_loop deref bind]. unfold empty_root, create_dbnode in H.
    inversion H as [ch0 it0 hh0 l0 b0 s fs Hk Hr Hn E1 E2]. cbn [c_leaf c_kids]. inversion Hr as [E3 E4 E5|]. cbn [find_item bind negb andb].
    destruct fuel; [lia|]. reflexivity.
  - pose proof (dfs_core (n_mbr it) (n_id it) M h t B st PRoot (ms_root st) f [] [] 0 eq_refl H) as D.
    assert (Ap : apart PRoot f) by (intros a Ea; discriminate). specialize (D Ap).
    destruct (rm (has_id (n_id it)) (n_mbr it) t) as [t'|] eqn:E.
    + destruct D as (n & st2 & ch' & c' & f' & G1 & G2 & G3 & G4 & G5 & G6). cbn [deref] in G2. injection G2 as <-.
      assert (El : s_len (c_kids (ms_root st2)) = length ch') by (rewrite (rep_len _ _ _ _ G3); destruct t; reflexivity).
      destruct ch' as [|x r].
      * assert (Et : db_children t' = []) by (rewrite G6; destruct t; reflexivity). rewrite Et.
        exists (n + 1), (MState (ms_heap st2) empty_cell). split.
        { intros fuel Hf. replace fuel with (n + (fuel - n)) by lia. cbn [hd_error] in G1. rewrite G1 by lia. cbn [m_condense deref bind]. rewrite El. reflexivity. }
        exists []. cbn [h_root ms_heap ms_root]. apply (Rep _ [] None 1 true empty_mbr nil_slice []); [split; [reflexivity|]; split; [auto|]; cbn; congruence|unfold kids_of; cbn; constructor|constructor].
      * assert (Et : db_children t' = x :: r) by (rewrite G6; destruct t; reflexivity). rewrite Et.
        set (bb := boxes (kids_of (ms_heap st2) (c_kids (ms_root st2)))).
        exists (n + 1), (store st2 PRoot (with_bbox (ms_root st2) bb)). split.
        { intros fuel Hf. replace fuel with (n + (fuel - n)) by lia. cbn [hd_error] in G1. rewrite G1 by lia. cbn [m_condense deref bind]. rewrite El. reflexivity. }
        exists f'. cbn [h_root]. rewrite G6. unfold tidied.
        assert (Eb : bb = dist_bbox (x :: r)).
        { unfold bb. destruct t as [chj itj hj lj bj]. cbn [set_children] in G3. inversion G3 as [? ? ? ? ? ? ? Hk3 Hr3 Hn3 E1 E2]; subst. cbn [c_kids]. eapply boxes_reps. exact Hr3. }
        replace (calc_bbox (set_children t (x :: r))) with (set_bbox (set_children t (x :: r)) bb) by (rewrite Eb; destruct t; reflexivity).
        eapply (rep_store_bbox st2 PRoot); [reflexivity|exact G3|intros a Ea; discriminate].
    + apply None_ok; [reflexivity|]. destruct D as (n & Hn). exists n. exact Hn.
Qed.

(** ** The queries *)

Definition at_ (st : mstate) (p : ptr) (d : dbnode) : Prop := exists c f, deref st p = Ok c /\ rep (ms_heap st) d c f.

Lemma reps_at st s ch fs : k_ok (ms_heap st) s -> reps (ms_heap st) ch (kids_of (ms_heap st) s) fs ->
  Forall2 (at_ st) (map (kid s) (seq 0 (s_len s))) ch.
Proof.
  intros Hk Hr. destruct (reps_length _ _ _ _ Hr) as (L1 & L2). pose proof (kids_len _ _ Hk) as Lk.
  assert (G : forall k n, k + n = s_len s -> Forall2 (at_ st) (map (kid s) (seq k n)) (skipn k ch)).
  { intros k n. revert k. induction n as [|n IH]; intros k E; cbn [seq map].
    - rewrite skipn_all2 by lia. constructor.
    - destruct (nth_error ch k) as [d|] eqn:En; [|apply nth_error_None in En; lia].
      assert (Es : skipn k ch = d :: skipn (S k) ch).
      { clear -En. revert k En. induction ch as [|f fs IH]; intros [|i] Ef; try discriminate; cbn in *; [injection Ef as ->; reflexivity|auto]. }
      rewrite Es. constructor; [|apply IH; lia].
      destruct (reps_nth _ _ _ _ _ _ Hr En) as (ci & fi & E1 & E2 & R). exists ci, fi. split; [|exact R].
      destruct Hk as (K0 & _). cbn [deref kid]. rewrite K0. cbn [Nat.add]. unfold kids_of in E1. rewrite K0 in E1. cbn [skipn] in E1.
      rewrite <- (firstn_skipn (s_len s) (nth (s_arr s) (ms_heap st) [])). rewrite nth_error_app1, E1; [reflexivity|].
      apply nth_error_Some. rewrite E1. discriminate. }
  exact (G 0 (s_len s) eq_refl).
Qed.

Lemma forall2_rev {A B} (R : A -> B -> Prop) l r : Forall2 R l r -> Forall2 R (rev l) (rev r).
Proof. induction 1; cbn; [constructor|]. apply Forall2_app; auto. Qed.

Lemma items_reps m ts cs fs : reps m ts cs fs ->
  flat_map (fun k => match c_item k with Some it => [it] | None => [] end) cs = flat_map item_of ts.
Proof. induction 1 as [|t ts c cs f fs R Rs IH]; cbn; [reflexivity|]. rewrite IH. destruct R. reflexivity. Qed.

Lemma all_holds st : forall fuel p d ps ds acc r, at_ st p d -> Forall2 (at_ st) ps ds ->
  all_loop fuel d ds acc = Ok r -> m_all_loop fuel st p ps acc = Ok r.
Proof.
  induction fuel as [|fuel IH]; intros p d ps ds acc r (c & f & Ed & R) Hs E; [discriminate|]. cbn [all_loop m_all_loop] in *.
  rewrite Ed. cbn [bind]. destruct R as [ch it h l b s fs Hk Hr Hn]. cbn [c_leaf c_kids db_leaf db_children] in *.
  rewrite (items_reps _ _ _ _ Hr).
  assert (Hs' : Forall2 (at_ st) (if l then ps else rev (map (kid s) (seq 0 (s_len s))) ++ ps) (if l then ds else rev ch ++ ds)).
  { destruct l; [exact Hs|]. apply Forall2_app; [|exact Hs]. apply forall2_rev. eapply reps_at; eauto. }
  destruct Hs' as [|x y xs ys Hx Hxs]; [exact E|]. eapply IH; eauto.
Qed.

Lemma all_mono st : forall fuel fuel' p ps acc r, fuel <= fuel' -> m_all_loop fuel st p ps acc = Ok r -> m_all_loop fuel' st p ps acc = Ok r.
Proof.
  induction fuel as [|fuel IH]; intros [|fuel'] p ps acc r Hl E; try discriminate; [lia|]. cbn [m_all_loop] in *.
  destruct (deref st p) as [c| |]; try discriminate. cbn [bind] in *. destruct (if c_leaf c then ps else _); [exact E|]. eapply IH; [|exact E]. lia.
Qed.

Lemma size_child c ch it h l b : In c ch -> db_size c <= db_size (DbNode ch it h l b).
Proof. cbn [db_size]. induction ch as [|d ch IH]; intros []; cbn [fold_right]; [subst; lia|]. specialize (IH H). lia. Qed.

Lemma search_kids_holds st q leaf s N : forall ch cs fs k ps ds acc ds' r, 
  reps (ms_heap st) ch cs fs -> Forall2 (at_ st) (map (kid s) (seq k (length cs))) ch ->
  Forall2 (at_ st) ps ds -> Forall (fun c => db_size c <= N) ch -> Forall (fun c => db_size c <= N) ds -> search_children q leaf ch ds acc = Ok (ds', r) ->
  exists ps', m_search_kids N q st leaf s cs k ps acc = Ok (ps', r) /\ Forall2 (at_ st) ps' ds' /\ Forall (fun c => db_size c <= N) ds'.
Proof.
  intros ch cs fs k ps ds acc ds' r H. revert k ps ds acc. induction H as [|t ts c cs f fs R Rs IH]; intros k ps ds acc Ha Hs Hn Hd E; cbn [search_children m_search_kids] in *.
  - injection E as <- <-. exists ps. auto.
  - cbn [length seq map] in Ha. inversion Ha as [|? ? ? ? A1 A2]; subst. inversion Hn as [|? ? N1 N2]; subst.
    rewrite (rep_bbox _ _ _ _ R). destruct (mbr_intersects q (db_bbox t)); [|eapply IH; eauto].
    destruct leaf.
    + replace (match c_item c with Some it => [it] | None => [] end) with (item_of t) by (destruct R; reflexivity). eapply IH; eauto.
    + destruct (mbr_contains q (db_bbox t)).
      * destruct (all_from t acc) as [acc'| |] eqn:Ea; try discriminate. cbn [bind] in E. unfold all_from in Ea.
        apply (all_holds st _ (kid s k) t [] [] acc acc' A1 (Forall2_nil _)) in Ea. apply (all_mono st _ N _ _ _ _ N1) in Ea. rewrite Ea. cbn [bind]. eapply IH; eauto.
      * eapply IH; eauto.
Qed.

Lemma search_holds st q N : forall fuel fuel' p d ps ds acc r, fuel <= fuel' -> at_ st p d -> db_size d <= N -> Forall2 (at_ st) ps ds -> Forall (fun c => db_size c <= N) ds ->
  search_loop fuel q d ds acc = Ok r -> m_search_loop fuel' N q st p ps acc = Ok r.
Proof.
  induction fuel as [|fuel IH]; intros [|fuel'] p d ps ds acc r Hl (c & f & Ed & R) Hd Hs Hds E; try discriminate; [lia|]. cbn [search_loop m_search_loop] in *.
  rewrite Ed. cbn [bind]. destruct R as [ch it h l b s fs Hk Hr Hn]. cbn [c_leaf c_kids db_leaf db_children] in *.
  destruct (search_children q l ch ds acc) as [[ds' acc']| |] eqn:Es; try discriminate. cbn [bind] in E.
  pose proof (reps_at st s ch fs Hk Hr) as Hat. rewrite <- (kids_len _ _ Hk) in Hat.
  assert (Hch : Forall (fun c => db_size c <= N) ch).
  { apply Forall_forall. intros x Hx. pose proof (size_child x ch it h l b Hx). lia. }
  destruct (search_kids_holds st q l s N ch _ fs 0 ps ds acc ds' acc' Hr Hat Hs Hch Hds Es) as (ps' & E1 & E2 & E3).
  rewrite E1. cbn [bind]. destruct E2 as [|x y xs ys Hx Hxs]; [exact E|]. inversion E3; subst. eapply (IH fuel'); eauto; lia.
Qed.

Lemma collides_kids_holds st q leaf s : forall ch cs fs k ps ds b ds', reps (ms_heap st) ch cs fs -> Forall2 (at_ st) (map (kid s) (seq k (length cs))) ch ->
  Forall2 (at_ st) ps ds -> collides_children q leaf ch ds = (b, ds') ->
  exists ps', m_collides_kids q leaf s cs k ps = (b, ps') /\ Forall2 (at_ st) ps' ds'.
Proof.
  intros ch cs fs k ps ds b ds' H. revert k ps ds. induction H as [|t ts c cs f fs R Rs IH]; intros k ps ds Ha Hs E; cbn [collides_children m_collides_kids] in *.
  - injection E as <- <-. exists ps. auto.
  - cbn [length seq map] in Ha. inversion Ha as [|? ? ? ? A1 A2]; subst.
    rewrite (rep_bbox _ _ _ _ R). destruct (mbr_intersects q (db_bbox t)); [|eapply IH; eauto].
    destruct (leaf || mbr_contains q (db_bbox t)); [|eapply IH; eauto].
    injection E as <- <-. eexists. split; [reflexivity|]. auto.
Qed.

Lemma collides_holds st q : forall fuel fuel' p d ps ds r, fuel <= fuel' -> at_ st p d -> Forall2 (at_ st) ps ds ->
  collides_loop fuel q d ds = Ok r -> m_collides_loop fuel' q st p ps = Ok r.
Proof.
  induction fuel as [|fuel IH]; intros [|fuel'] p d ps ds r Hl (c & f & Ed & R) Hs E; try discriminate; [lia|]. cbn [collides_loop m_collides_loop] in *.
  rewrite Ed. cbn [bind]. destruct R as [ch it h l b s fs Hk Hr Hn]. cbn [c_leaf c_kids db_leaf db_children] in *.
  destruct (collides_children q l ch ds) as [bb ds'] eqn:Es.
  pose proof (reps_at st s ch fs Hk Hr) as Hat. rewrite <- (kids_len _ _ Hk) in Hat.
  destruct (collides_kids_holds st q l s ch _ fs 0 ps ds bb ds' Hr Hat Hs Es) as (ps' & E1 & E2). rewrite E1.
  destruct bb; [exact E|]. destruct E2 as [|x y xs ys Hx Hxs]; [exact E|]. eapply (IH fuel'); eauto; lia.
Qed.

Lemma queries_hold st t mx mn : holds st t ->
  (forall r, all (Hdb t mx mn) = Ok r -> forall fuel, db_size t <= fuel -> m_all fuel st = Ok r) /\
  (forall q r, search (Hdb t mx mn) q = Ok r -> forall fuel, db_size t <= fuel -> m_search fuel st q = Ok r) /\
  (forall q r, collides (Hdb t mx mn) q = Ok r -> forall fuel, db_size t <= fuel -> m_collides fuel st q = Ok r) /\
  m_is_empty st = is_empty (Hdb t mx mn).
Proof.
  intros (f & H). assert (Ht : at_ st PRoot t) by (exists (ms_root st), f; split; [reflexivity|exact H]).
  split; [|split; [|split]].
  - intros r E fuel Hf. eapply all_mono; [exact Hf|]. eapply all_holds; [exact Ht|constructor|exact E].
  - intros q r E fuel Hf. unfold search, m_search in *. cbn [h_root] in E. rewrite (rep_bbox _ _ _ _ H). destruct (negb _); [exact E|].
    eapply search_holds; [exact Hf|exact Ht|exact Hf|constructor|constructor|exact E].
  - intros q r E fuel Hf. unfold collides, m_collides in *. cbn [h_root] in E. rewrite (rep_bbox _ _ _ _ H). destruct (negb _); [exact E|].
    eapply collides_holds; [exact Hf|exact Ht|constructor|exact E].
  - unfold m_is_empty, is_empty. rewrite (rep_len _ _ _ _ H). cbn [h_root]. destruct (db_children t); reflexivity.
Qed.
