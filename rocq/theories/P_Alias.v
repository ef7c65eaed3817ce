(** Proofs about hulls in memory. *)
From Verif Require Import M_Base M_Slice P_Slice M_Ctx P_Ctx M_Alias Spec_Alias.
Open Scope Z_scope.

(** The first arrays are as they were. *)
Definition extends (m m' : heap) : Prop := exists e, m' = m ++ e.
Lemma extends_refl m : extends m m.
Proof. exists []. symmetry. apply app_nil_r. Qed.
Lemma extends_trans a b c : extends a b -> extends b c -> extends a c.
Proof. intros [x ->] [y ->]. exists (x ++ y). rewrite app_assoc. reflexivity. Qed.
Lemma extends_nth m m' a : extends m m' -> (a < length m)%nat -> nth a m' [] = nth a m [].
Proof. intros [e ->] H. apply app_nth1. exact H. Qed.
Lemma extends_len m m' : extends m m' -> (length m <= length m')%nat.
Proof. intros [e ->]. rewrite app_length. lia. Qed.
Lemma extends_read m m' s : extends m m' -> (s_arr s < length m)%nat -> s_read m' s = s_read m s.
Proof. intros E H. unfold s_read. rewrite (extends_nth _ _ _ E H). reflexivity. Qed.
Lemma extends_ok m m' s : extends m m' -> s_ok m s -> s_ok m' s.
Proof.
  intros E (A & B & C). split; [pose proof (extends_len _ _ E); lia|]. split; [exact B|].
  rewrite (extends_nth _ _ _ E A). exact C.
Qed.
Lemma extends_deref m m' p : extends m m' -> (p_arr p < length m)%nat -> deref m' p = deref m p.
Proof. intros E H. unfold deref. rewrite (extends_nth _ _ _ E H). reflexivity. Qed.

(** Two heaps that agree on the first [n] arrays. *)
Lemma same_arrays (m m' : heap) n : (n <= length m)%nat -> (length m <= length m')%nat ->
  (forall a, (a < n)%nat -> nth a m' [] = nth a m []) -> firstn n m' = firstn n m.
Proof.
  revert m m'. induction n as [|n IH]; intros m m' H1 H2 H; [reflexivity|].
  destruct m as [|x r], m' as [|y s]; cbn [length] in *; try lia. cbn [firstn].
  f_equal; [exact (H 0%nat ltac:(lia))|]. apply IH; [lia|lia|]. intros a Ha. exact (H (S a) ltac:(lia)).
Qed.
Lemma extends_intro (m m' : heap) : (length m <= length m')%nat ->
  (forall a, (a < length m)%nat -> nth a m' [] = nth a m []) -> extends m m'.
Proof.
  intros H1 H. exists (skipn (length m) m'). rewrite <- (firstn_skipn (length m) m') at 1. f_equal.
  rewrite (same_arrays m m' (length m)) by (auto; lia). apply firstn_all.
Qed.

Lemma new_ok g m xs m' s : s_new g m xs = (m', s) ->
  extends m m' /\ s_ok m' s /\ s_read m' s = xs /\ s_arr s = length m /\ length m' = S (length m).
Proof.
  intros E. injection E as <- <-. split; [eexists; reflexivity|]. repeat split; cbn [s_arr s_off s_len s_cap].
  - rewrite app_length. cbn [length]. lia.
  - lia.
  - rewrite app_nth2, Nat.sub_diag by lia. cbn [nth]. rewrite app_length, repeat_length. lia.
  - unfold s_read. cbn [s_arr s_off s_len]. rewrite app_nth2, Nat.sub_diag by lia. cbn [nth skipn].
    rewrite firstn_app, Nat.sub_diag, firstn_all. apply app_nil_r.
  - rewrite app_length. cbn [length]. lia.
Qed.

Lemma cells_deref m s : s_ok m s -> map (deref m) (cells s) = s_read m s.
Proof.
  intros (A & B & C). unfold cells, s_read. rewrite map_map. unfold deref. cbn [p_arr p_idx].
  set (l := nth (s_arr s) m []) in *. clearbody l. clear A.
  assert (G : forall n off, (off + n <= length l)%nat -> map (fun i => nth (off + i) l 0) (seq 0 n) = firstn n (skipn off l)).
  { induction n as [|n IH]; intros off H; [reflexivity|].
    cbn [seq map]. rewrite <- seq_shift, map_map.
    replace (map (fun x => nth (off + S x) l 0) (seq 0 n)) with (map (fun i => nth (S off + i) l 0) (seq 0 n))
      by (apply map_ext; intros; f_equal; lia).
    rewrite IH by lia. rewrite Nat.add_0_r. clear - H. revert l H.
    induction off as [|off IH]; intros [|y l] H; cbn [length] in H; try lia; [reflexivity|].
    cbn [nth skipn]. apply IH. lia. }
  apply G. lia.
Qed.
Lemma cells_arr s p : In p (cells s) -> p_arr p = s_arr s.
Proof. unfold cells. rewrite in_map_iff. intros (i & <- & _). reflexivity. Qed.

Lemma pick_map {A B} (f : A -> B) l pos : map f (pick l pos) = pick (map f l) pos.
Proof.
  unfold pick. rewrite flat_map_concat_map, concat_map, map_map, flat_map_concat_map. f_equal. apply map_ext. intros i.
  rewrite nth_error_map. destruct (nth_error l i); reflexivity.
Qed.
Lemma pick_in {A} (l : list A) pos x : In x (pick l pos) -> In x l.
Proof.
  unfold pick. rewrite in_flat_map. intros (i & _ & H). destruct (nth_error l i) as [y|] eqn:E; [|destruct H].
  destruct H as [<-|[]]. eapply nth_error_In. exact E.
Qed.

(** The arrays the index points into are older than [n] or not [a]. *)
Definition avoids (a : nat) (m : heap) (db : list cell) : Prop :=
  Forall (fun p => (p_arr p < length m)%nat /\ p_arr p <> a) db.

Lemma rounds_ok g a rs : forall m db m' db', (a < length m)%nat -> avoids a m db -> rounds_mem g m db rs = (m', db') ->
  extends m m' /\ avoids a m' db' /\ map (deref m') db' = v_rounds (map (deref m) db) rs.
Proof.
  induction rs as [|[pos vals] r IH]; intros m db m' db' Ha Hd E; cbn [rounds_mem v_rounds] in *.
  - injection E as <- <-. split; [apply extends_refl|]. split; [exact Hd|reflexivity].
  - destruct (s_new g m vals) as [m1 s] eqn:N. apply new_ok in N. destruct N as (X & O & R & Ar & Ln).
    assert (Hd1 : avoids a m1 (pick (db ++ cells s) pos)).
    { apply Forall_forall. intros p Hp. apply pick_in in Hp. apply in_app_or in Hp. destruct Hp as [Hp|Hp].
      - unfold avoids in Hd. rewrite Forall_forall in Hd. destruct (Hd p Hp). cbn beta in *; split; [lia|assumption].
      - apply cells_arr in Hp. rewrite Hp, Ar. cbn beta. lia. }
    assert (Ha1 : (a < length m1)%nat) by lia. destruct (IH _ _ _ _ Ha1 Hd1 E) as (X' & D' & V'). split; [exact (extends_trans _ _ _ X X')|].
    split; [exact D'|]. rewrite V'. f_equal. rewrite pick_map, map_app, (cells_deref _ _ O), R. f_equal. f_equal.
    apply map_ext_in. intros p Hp. apply extends_deref; [exact X|].
    unfold avoids in Hd. rewrite Forall_forall in Hd. exact (proj1 (Hd p Hp)).
Qed.

Lemma append_one g m s x m' s' : s_ok m s -> s_append g m s [x] = (m', s') ->
  s_ok m' s' /\ s_read m' s' = s_read m s ++ [x] /\ (length m <= length m')%nat /\
  (forall a, (a < length m)%nat -> a <> s_arr s -> nth a m' [] = nth a m []) /\
  ((s_arr s' = s_arr s) \/ (length m <= s_arr s')%nat).
Proof.
  intros Ho E. pose proof (s_append_cases _ _ _ _ _ _ (or_intror Ho) E) as H.
  destruct (appended_ok _ _ _ _ _ (or_intror Ho) H) as [K R].
  assert (Hok : s_ok m' s').
  { destruct K as [[K1 K2]|K]; [|exact K]. exfalso. pose proof (f_equal (@length Z) R) as L.
    rewrite app_length in L. cbn [length] in L. rewrite (sl_read_nil _ _ K2) in L. cbn [length] in L. lia. }
  split; [exact Hok|]. split; [exact R|]. destruct H as [Ho' Hc|Hn _ _|a c Hc Ha Hf].
  - split; [rewrite h_write_length; lia|]. split; [intros a La Na; apply h_write_other; exact Na|]. left. reflexivity.
  - discriminate.
  - split; [rewrite app_length; lia|]. split; [intros b Lb _; apply app_nth1; exact Lb|]. right. cbn [s_arr]. lia.
Qed.

Lemma append_deref_ok g ps : forall m s m' s', s_ok m s -> avoids (s_arr s) m ps -> append_deref g m s ps = (m', s') ->
  s_ok m' s' /\ s_read m' s' = s_read m s ++ map (deref m) ps /\ (length m <= length m')%nat /\
  (forall a, (a < length m)%nat -> a <> s_arr s -> nth a m' [] = nth a m []) /\
  ((s_arr s' = s_arr s) \/ (length m <= s_arr s')%nat).
Proof.
  induction ps as [|p r IH]; intros m s m' s' Ho Hd E; cbn [append_deref] in E.
  - injection E as <- <-. split; [exact Ho|]. split; [cbn [map]; rewrite app_nil_r; reflexivity|]. split; [lia|].
    split; [reflexivity|]. left. reflexivity.
  - destruct (s_append (g (length m)) m s [deref m p]) as [m1 s1] eqn:A.
    destruct (append_one _ _ _ _ _ _ Ho A) as (O1 & R1 & L1 & K1 & B1).
    apply Forall_cons_iff in Hd. destruct Hd as [[P1 P2] Hd].
    assert (Hd1 : avoids (s_arr s1) m1 r).
    { eapply Forall_impl; [|exact Hd]. cbn beta. intros q [Q1 Q2]. split; [lia|]. destruct B1 as [-> | B1]; [exact Q2|lia]. }
    destruct (IH _ _ _ _ O1 Hd1 E) as (O2 & R2 & L2 & K2 & B2). split; [exact O2|]. split; [|split; [lia|]].
    + rewrite R2, R1, <- app_assoc. f_equal. cbn [map app]. f_equal. apply map_ext_in. intros q Hq.
      unfold avoids in Hd. rewrite Forall_forall in Hd. destruct (Hd q Hq) as [Q1 Q2]. unfold deref. rewrite K1 by assumption. reflexivity.
    + split.
      * intros a La Na. rewrite K2; [apply K1; assumption|lia|]. destruct B1 as [-> | B1]; [exact Na|lia].
      * destruct B2 as [-> | B2]; [exact B1|]. right. lia.
Qed.

Lemma clear_ok m s : s_ok m s -> s_ok m (clear s).
Proof. intros (A & B & C). split; [exact A|]. split; [cbn [clear s_len s_cap]; lia|exact C]. Qed.
Lemma clear_read m s : s_read m (clear s) = [].
Proof. reflexivity. Qed.

(** One run: the hulls are those of the run on values; no older array is touched; the array of the
    result is new. *)
Lemma simplify_mem_ok g m p m' s : simplify_mem g m p = (m', s) ->
  extends m m' /\ s_ok m' s /\ s_read m' s = v_simplify p /\ (length m <= s_arr s)%nat.
Proof.
  unfold simplify_mem, v_simplify. intros E.
  destruct (s_new g m (sp_dec p)) as [m1 h1] eqn:N1. apply new_ok in N1. destruct N1 as (X1 & O1 & R1 & A1 & L1).
  assert (H2 : exists m2 h2, match sp_con p with None => (m1, h1) | Some l => s_new g m1 l end = (m2, h2) /\
    extends m m2 /\ s_ok m2 h2 /\ s_read m2 h2 = match sp_con p with None => sp_dec p | Some l => l end /\ (length m <= s_arr h2)%nat).
  { destruct (sp_con p) as [l|].
    - destruct (s_new g m1 l) as [m2 h2] eqn:N2. apply new_ok in N2. destruct N2 as (X2 & O2 & R2 & A2 & L2).
      exists m2, h2. split; [reflexivity|]. split; [exact (extends_trans _ _ _ X1 X2)|]. split; [exact O2|]. split; [exact R2|lia].
    - exists m1, h1. split; [reflexivity|]. split; [exact X1|]. split; [exact O1|]. split; [exact R1|lia]. }
  destruct H2 as (m2 & h2 & E2 & X2 & O2 & R2 & A2). rewrite E2 in E.
  destruct (s_new g m2 (s_read m2 h2)) as [m3 d] eqn:N3. apply new_ok in N3. destruct N3 as (X3 & O3 & R3 & A3 & L3).
  destruct (rounds_mem g m3 (cells d) (sp_rounds p)) as [m4 db] eqn:N4.
  pose proof O2 as (O2a & _ & _).
  assert (Hd : avoids (s_arr h2) m3 (cells d)).
  { apply Forall_forall. intros q Hq. apply cells_arr in Hq. rewrite Hq, A3. cbn beta. lia. }
  assert (Ha3 : (s_arr h2 < length m3)%nat) by lia. destruct (rounds_ok _ (s_arr h2) _ _ _ _ _ Ha3 Hd N4) as (X4 & D4 & V4).
  rewrite (cells_deref _ _ O3), R3, R2 in V4.
  assert (X24 : extends m2 m4) by exact (extends_trans _ _ _ X3 X4).
  pose proof (clear_ok _ _ (clear_ok _ _ (extends_ok _ _ _ X24 O2))) as Oc.
  destruct (append_deref_ok g db m4 (clear (clear h2)) m' s Oc D4 E) as (O5 & R5 & L5 & K5 & B5).
  pose proof (extends_len _ _ X2) as Z2. pose proof (extends_len _ _ X24) as Z24.
  split; [|split; [exact O5|split]].
  - apply extends_intro; [lia|]. intros a La. rewrite K5; [|lia|cbn [clear s_arr]; lia].
    rewrite (extends_nth _ _ _ X24) by lia. apply extends_nth; assumption.
  - rewrite R5, clear_read. exact V4.
  - destruct B5 as [-> | B5]; [exact A2|lia].
Qed.

(** Slices with arrays of their own, all of them newer than [n]. *)
Definition owned (n : nat) (m : heap) (ss : list slice) : Prop :=
  Forall (fun s => s_ok m s /\ (n <= s_arr s)%nat) ss /\ NoDup (map s_arr ss).

Lemma owned_extends n m m' ss : extends m m' -> owned n m ss -> owned n m' ss.
Proof. intros X [A B]. split; [|exact B]. eapply Forall_impl; [|exact A]. intros s [O H]. split; [exact (extends_ok _ _ _ X O)|exact H]. Qed.
Lemma reads_extend m m' ss : extends m m' -> Forall (s_ok m) ss -> map (s_read m') ss = map (s_read m) ss.
Proof. intros X H. apply map_ext_in. intros s Hs. rewrite Forall_forall in H. apply extends_read; [exact X|]. apply (H s Hs). Qed.
Lemma owned_oks n m ss : owned n m ss -> Forall (s_ok m) ss.
Proof. intros [A _]. eapply Forall_impl; [|exact A]. intros s H. apply H. Qed.

Lemma simplify_all_ok g ps : forall m m' ss, simplify_all g m ps = (m', ss) ->
  extends m m' /\ owned (length m) m' ss /\ map (s_read m') ss = map v_simplify ps.
Proof.
  induction ps as [|p r IH]; intros m m' ss E; cbn [simplify_all] in E.
  - injection E as <- <-. split; [apply extends_refl|]. split; [split; constructor|reflexivity].
  - destruct (simplify_mem g m p) as [m1 s] eqn:E1. destruct (simplify_all g m1 r) as [m2 ss2] eqn:E2. injection E as <- <-.
    apply simplify_mem_ok in E1. destruct E1 as (X1 & O1 & R1 & A1). destruct (IH _ _ _ E2) as (X2 & [F2 N2] & R2).
    pose proof (extends_len _ _ X1) as L1. pose proof O1 as (O1a & _ & _). split; [exact (extends_trans _ _ _ X1 X2)|]. split.
    + split.
      * constructor; [split; [exact (extends_ok _ _ _ X2 O1)|exact A1]|]. eapply Forall_impl; [|exact F2]. cbn beta. intros t [O H]. split; [exact O|lia].
      * cbn [map]. constructor; [|exact N2]. rewrite in_map_iff. intros (t & Et & Ht). rewrite Forall_forall in F2.
        destruct (F2 t Ht) as [_ H]. lia.
    + cbn [map]. f_equal; [rewrite (extends_read _ _ _ X2 O1a); exact R1|exact R2].
Qed.

Lemma group_lists_ok g owner n : forall m db k m' ss, avoids (length m) m db -> group_lists g m db owner k n = (m', ss) ->
  extends m m' /\ owned (length m) m' ss /\
  map (s_read m') ss = map (fun j => filter (fun v => Nat.eqb (owner v) j) (map (deref m) db)) (seq k n).
Proof.
  induction n as [|n IH]; intros m db k m' ss Hd E; cbn [group_lists] in E.
  - injection E as <- <-. split; [apply extends_refl|]. split; [split; constructor|reflexivity].
  - destruct (s_new g m (filter (fun v => Nat.eqb (owner v) k) (map (deref m) db))) as [m1 s] eqn:E1.
    destruct (group_lists g m1 db owner (S k) n) as [m2 ss2] eqn:E2. injection E as <- <-.
    apply new_ok in E1. destruct E1 as (X1 & O1 & R1 & A1 & L1).
    assert (Hd1 : avoids (length m1) m1 db).
    { eapply Forall_impl; [|exact Hd]. cbn beta. intros q [Q1 _]. lia. }
    destruct (IH _ _ _ _ _ Hd1 E2) as (X2 & [F2 N2] & R2). pose proof O1 as (O1a & _ & _).
    split; [exact (extends_trans _ _ _ X1 X2)|]. split.
    + split.
      * constructor; [split; [exact (extends_ok _ _ _ X2 O1)|lia]|]. eapply Forall_impl; [|exact F2]. cbn beta. intros t [O H]. split; [exact O|lia].
      * cbn [map]. constructor; [|exact N2]. rewrite in_map_iff. intros (t & Et & Ht). rewrite Forall_forall in F2. destruct (F2 t Ht) as [_ H]. lia.
    + cbn [map seq]. f_equal; [rewrite (extends_read _ _ _ X2 O1a); exact R1|]. rewrite R2. apply map_ext. intros j. f_equal.
      apply map_ext_in. intros q Hq. unfold avoids in Hd. rewrite Forall_forall in Hd. apply extends_deref; [exact X1|]. apply (Hd q Hq).
Qed.

Lemma group_set_ok g lists : forall hulls m m' ss n, length hulls = length lists ->
  owned n m hulls -> Forall (s_ok m) lists ->
  (forall h l, In h hulls -> In l lists -> s_arr l <> s_arr h) -> (n <= length m)%nat ->
  group_set g m hulls lists = (m', ss) ->
  map (s_read m') ss = map (s_read m) lists /\ owned n m' ss /\ (length m <= length m')%nat /\
  (forall s, In s ss -> (length m <= s_arr s)%nat \/ In (s_arr s) (map s_arr hulls)) /\
  (forall a, (a < length m)%nat -> ~ In a (map s_arr hulls) -> nth a m' [] = nth a m []).
Proof.
  induction lists as [|l lr IH]; intros [|h hr] m m' ss n Hl [Ho Hn] Hk Hd Hm E; cbn [length] in Hl; try lia; cbn [group_set] in E.
  - injection E as <- <-. split; [reflexivity|]. split; [split; constructor|]. split; [lia|]. split; [intros s []|reflexivity].
  - destruct (append_deref g m (clear h) (cells l)) as [m1 s] eqn:E1. destruct (group_set g m1 hr lr) as [m2 ss2] eqn:E2. injection E as <- <-.
    apply Forall_cons_iff in Ho. destruct Ho as [[Oh Hh] Ho]. apply Forall_cons_iff in Hk. destruct Hk as [Ol Hk].
    cbn [map] in Hn. apply NoDup_cons_iff in Hn. destruct Hn as [Hn1 Hn].
    pose proof Ol as (Ola & _ & _). pose proof Oh as (Oha & _ & _).
    assert (Av : avoids (s_arr (clear h)) m (cells l)).
    { apply Forall_forall. intros q Hq. apply cells_arr in Hq. rewrite Hq. split; [exact Ola|]. cbn [clear s_arr]. apply Hd; left; reflexivity. }
    destruct (append_deref_ok _ _ _ _ _ _ (clear_ok _ _ Oh) Av E1) as (O1 & R1 & L1 & K1 & B1). cbn [clear s_arr] in K1, B1.
    rewrite clear_read, (cells_deref _ _ Ol) in R1. cbn [app] in R1.
    assert (Keep : forall t, s_ok m t -> s_arr t <> s_arr h -> s_ok m1 t /\ s_read m1 t = s_read m t).
    { intros t (Ta & Tb & Tc) Ne. split; [split; [lia|split; [exact Tb|rewrite K1 by assumption; exact Tc]]|].
      unfold s_read. rewrite K1 by assumption. reflexivity. }
    assert (Nh : forall t, In t hr -> s_arr t <> s_arr h).
    { intros t Ht Eq. apply Hn1. rewrite <- Eq. apply in_map. exact Ht. }
    assert (Ho1 : owned n m1 hr).
    { split; [|exact Hn]. rewrite Forall_forall in Ho |- *. intros t Ht. destruct (Ho t Ht) as [Ot Nt]. split; [|exact Nt].
      apply Keep; [exact Ot|apply Nh; exact Ht]. }
    assert (Hk1 : Forall (s_ok m1) lr).
    { rewrite Forall_forall in Hk |- *. intros t Ht. apply Keep; [exact (Hk t Ht)|]. apply Hd; [left; reflexivity|right; exact Ht]. }
    destruct (IH hr m1 m2 ss2 n ltac:(lia) Ho1 Hk1 ltac:(intros; apply Hd; right; assumption) ltac:(lia) E2) as (R2 & [F2 N2] & L2 & P2 & K2).
    pose proof O1 as (O1a & O1b & O1c).
    assert (Ns : ~ In (s_arr s) (map s_arr hr)).
    { rewrite in_map_iff. intros (t & Et & Ht). destruct B1 as [B1|B1]; [rewrite B1 in Et; exact (Nh t Ht Et)|].
      rewrite Forall_forall in Ho. destruct (Ho t Ht) as [(Ot & _ & _) _]. lia. }
    assert (Rs : s_read m2 s = s_read m1 s) by (unfold s_read; rewrite K2 by assumption; reflexivity).
    split; [|split; [|split; [lia|split]]].
    + cbn [map]. f_equal; [rewrite Rs; exact R1|]. rewrite R2. apply map_ext_in. intros t Ht. apply Keep.
      * rewrite Forall_forall in Hk. exact (Hk t Ht).
      * apply Hd; [left; reflexivity|right; exact Ht].
    + split.
      * constructor; [|exact F2]. split; [|destruct B1; lia]. split; [lia|]. split; [exact O1b|]. rewrite K2 by assumption. exact O1c.
      * cbn [map]. constructor; [|exact N2]. rewrite in_map_iff. intros (t & Et & Ht). destruct (P2 t Ht) as [P|P]; [lia|].
        rewrite Et in P. exact (Ns P).
    + intros t [<-|Ht].
      * destruct B1 as [B1|B1]; [right; left; symmetry; exact B1|left; exact B1].
      * destruct (P2 t Ht) as [P|P]; [left; lia|right; right; exact P].
    + intros a La Na. cbn [map] in Na. rewrite K2; [apply K1; [exact La|]|lia|].
      * intros ->. apply Na. left. reflexivity.
      * intros Hi. apply Na. right. exact Hi.
Qed.

Lemma flat_map_map_read m ss : flat_map (s_read m) ss = concat (map (s_read m) ss).
Proof. apply flat_map_concat_map. Qed.
Lemma map_arr_clear ss : map s_arr (map clear ss) = map s_arr ss.
Proof. rewrite map_map. reflexivity. Qed.

Lemma class_mem_ok g m ps b rs owner m' ss : class_mem g m ps b rs owner = (m', ss) ->
  extends m m' /\ owned (length m) m' ss /\ map (s_read m') ss = v_class ps b rs owner.
Proof.
  unfold class_mem, v_class. intros E. destruct (simplify_all g m ps) as [m1 hulls] eqn:E1.
  apply simplify_all_ok in E1. destruct E1 as (X1 & W1 & R1).
  destruct b; [|injection E as <- <-; split; [exact X1|split; [exact W1|exact R1]]].
  destruct (s_new g m1 (flat_map (s_read m1) hulls)) as [m2 d] eqn:E2. apply new_ok in E2. destruct E2 as (X2 & O2 & R2 & A2 & L2).
  destruct (rounds_mem g m2 (cells d) rs) as [m3 db] eqn:E3.
  pose proof (proj1 W1) as F1. rewrite Forall_forall in F1.
  (* the index never points into the array of a hull field *)
  assert (Hall : forall a, (a < length m1)%nat -> avoids a m3 db).
  { intros a Ha. eapply rounds_ok; [|  |exact E3]; [lia|]. apply Forall_forall. intros q Hq. apply cells_arr in Hq. rewrite Hq, A2. cbn beta. lia. }
  assert (V3 : extends m2 m3 /\ map (deref m3) db = v_rounds (concat (map v_simplify ps)) rs).
  { destruct (Nat.eq_dec (length m1) 0) as [Z|Z].
    - (* no array yet: any address outside the index will do *)
      clear Hall. rewrite <- R1, <- flat_map_map_read. rewrite <- R2 at 1. rewrite <- (cells_deref _ _ O2).
      assert (G : forall rs m db m' db', Forall (fun p => (p_arr p < length m)%nat) db -> rounds_mem g m db rs = (m', db') ->
        extends m m' /\ map (deref m') db' = v_rounds (map (deref m) db) rs).
      { clear. induction rs as [|[pos vals] r IH]; intros m db m' db' Hd E; cbn [rounds_mem v_rounds] in *.
        - injection E as <- <-. split; [apply extends_refl|reflexivity].
        - destruct (s_new g m vals) as [m1 s] eqn:N. apply new_ok in N. destruct N as (X & O & R & Ar & Ln).
          assert (Hd1 : Forall (fun p => (p_arr p < length m1)%nat) (pick (db ++ cells s) pos)).
          { apply Forall_forall. intros p Hp. apply pick_in in Hp. apply in_app_or in Hp. destruct Hp as [Hp|Hp].
            - rewrite Forall_forall in Hd. pose proof (Hd p Hp). cbn beta in *. lia.
            - apply cells_arr in Hp. rewrite Hp, Ar. cbn beta. lia. }
          destruct (IH _ _ _ _ Hd1 E) as (X' & V'). split; [exact (extends_trans _ _ _ X X')|]. rewrite V'. f_equal.
          rewrite pick_map, map_app, (cells_deref _ _ O), R. f_equal. f_equal. apply map_ext_in. intros p Hp.
          apply extends_deref; [exact X|]. rewrite Forall_forall in Hd. exact (Hd p Hp). }
      eapply G; [|exact E3]. apply Forall_forall. intros q Hq. apply cells_arr in Hq. rewrite Hq, A2. cbn beta. lia.
    - destruct (rounds_ok g 0 rs m2 (cells d) m3 db) as (X & _ & V); [lia| |exact E3|].
      + apply Forall_forall. intros q Hq. apply cells_arr in Hq. rewrite Hq, A2. cbn beta. lia.
      + split; [exact X|]. rewrite V, (cells_deref _ _ O2), R2, flat_map_map_read, R1. reflexivity. }
  destruct V3 as [X3 V3].
  destruct (group_lists g m3 db owner 0 (length (map clear hulls))) as [m4 lists] eqn:E4.
  assert (Dlt : avoids (length m3) m3 db).
  { destruct hulls as [|h hr].
    - (* pointers are into existing arrays *)
      assert (G : forall rs m db m' db', Forall (fun p => (p_arr p < length m)%nat) db -> rounds_mem g m db rs = (m', db') ->
        Forall (fun p => (p_arr p < length m')%nat) db').
      { clear. induction rs as [|[pos vals] r IH]; intros m db m' db' Hd E; cbn [rounds_mem] in *; [injection E as <- <-; exact Hd|].
        destruct (s_new g m vals) as [m1 s] eqn:N. apply new_ok in N. destruct N as (X & O & R & Ar & Ln).
        eapply IH; [|exact E]. apply Forall_forall. intros p Hp. apply pick_in in Hp. apply in_app_or in Hp. destruct Hp as [Hp|Hp].
        - rewrite Forall_forall in Hd. pose proof (Hd p Hp). cbn beta in *. lia.
        - apply cells_arr in Hp. rewrite Hp, Ar. cbn beta. lia. }
      eapply Forall_impl; [|eapply G; [|exact E3]].
      + cbn beta. intros q Q. lia.
      + apply Forall_forall. intros q Hq. apply cells_arr in Hq. rewrite Hq, A2. cbn beta. lia.
    - destruct (F1 h (or_introl eq_refl)) as [(Ha & _ & _) _].
      eapply Forall_impl; [|exact (Hall (s_arr h) Ha)]. cbn beta. intros q [Q _]. lia. }
  destruct (group_lists_ok _ _ _ _ _ _ _ _ Dlt E4) as (X4 & W4 & R4).
  pose proof (extends_len _ _ X1) as Z1. pose proof (extends_len _ _ X2) as Z2. pose proof (extends_len _ _ X3) as Z3. pose proof (extends_len _ _ X4) as Z4.
  assert (X14 : extends m1 m4) by exact (extends_trans _ _ _ X2 (extends_trans _ _ _ X3 X4)).
  assert (Wc : owned (length m) m4 (map clear hulls)).
  { destruct (owned_extends _ _ _ _ X14 W1) as [A B]. split; [|rewrite map_arr_clear; exact B].
    rewrite Forall_forall in A |- *. intros t Ht. apply in_map_iff in Ht. destruct Ht as (h & <- & Hh). destruct (A h Hh) as [O H].
    split; [apply clear_ok; exact O|exact H]. }
  assert (Ll : length (map clear hulls) = length lists).
  { pose proof (f_equal (@length _) R4) as L. rewrite !map_length, seq_length in L. rewrite map_length. symmetry. exact L. }
  destruct (group_set_ok g lists (map clear hulls) m4 m' ss (length m) Ll Wc (owned_oks _ _ _ W4)) as (R5 & W5 & L5 & P5 & K5); [| |exact E|].
  { intros h l Hh Hl'. apply in_map_iff in Hh. destruct Hh as (h0 & <- & Hh). cbn [clear s_arr]. destruct (F1 h0 Hh) as [(Ha & _ & _) _].
    destruct W4 as [W4 _]. rewrite Forall_forall in W4. destruct (W4 l Hl') as [_ H]. lia. }
  { lia. }
  split; [|split; [exact W5|]].
  - apply extends_intro; [lia|]. intros a La. rewrite K5; [|lia|].
    + rewrite (extends_nth _ _ _ X14) by lia. apply extends_nth; assumption.
    + rewrite map_arr_clear, in_map_iff. intros (h & Eh & Hh). destruct (F1 h Hh) as [_ H]. lia.
  - rewrite R5, R4, V3. rewrite map_length. f_equal. f_equal.
    pose proof (f_equal (@length _) R1) as L. rewrite !map_length in L. exact L.
Qed.

(** * Histories *)
Definition good (w : hmem) (vs : list (list Z)) : Prop :=
  Forall (sl_ok (fst w)) (snd w) /\ map (s_read (fst w)) (snd w) = vs.

Lemma h_set_map {A B} (f : A -> B) l k x : map f (h_set l k x) = h_set (map f l) k (f x).
Proof. revert k. induction l as [|y r IH]; intros [|k]; cbn [h_set map]; try reflexivity. f_equal. apply IH. Qed.
Lemma h_set_forall {A} (P : A -> Prop) l k x : Forall P l -> P x -> Forall P (h_set l k x).
Proof. intros H Hx. revert k. induction H as [|y r Hy Hr IH]; intros [|k]; cbn [h_set]; constructor; auto. Qed.
Lemma h_set_replace hs k v : h_set hs k v = v_replace hs k v.
Proof.
  unfold v_replace. assert (G : forall o, h_set hs k v =
    map (fun x => if Nat.eqb (fst x) (o + k) then v else snd x) (combine (seq o (length hs)) hs)); [|exact (G 0%nat)].
  revert k. induction hs as [|h r IH]; intros [|k] o; cbn [h_set length seq combine map fst snd]; try reflexivity.
  - rewrite Nat.add_0_r, Nat.eqb_refl. f_equal. rewrite <- (map_id r) at 1. clear IH. revert o.
    assert (K : forall n o, (o < n)%nat -> map (fun x => x) r = map (fun x => if Nat.eqb (fst x) o then v else snd x) (combine (seq n (length r)) r)).
    { induction r as [|a r IH]; intros n o Hn; [reflexivity|]. cbn [length seq combine map fst snd].
      destruct (Nat.eqb_spec n o); [lia|]. f_equal. apply IH. lia. }
    intros o. apply K. lia.
  - destruct (Nat.eqb_spec o (o + S k)); [lia|]. f_equal. rewrite (IH k (S o)). rewrite Nat.add_succ_comm. reflexivity.
Qed.
Lemma extends_sl_ok m m' s : extends m m' -> sl_ok m s -> sl_ok m' s.
Proof. intros X [H|H]; [left; exact H|right; exact (extends_ok _ _ _ X H)]. Qed.
Lemma extends_sl_read m m' s : extends m m' -> sl_ok m s -> s_read m' s = s_read m s.
Proof. intros X [[_ H]|H]; [rewrite !sl_read_nil by exact H; reflexivity|]. apply extends_read; [exact X|apply H]. Qed.

Lemma hrun_ok g w c vs : good w vs -> good (hrun g w c) (v_run vs c) /\ extends (fst w) (fst (hrun g w c)).
Proof.
  destruct w as [m hulls]. intros [A B]. cbn [fst snd] in *. destruct c as [k p|ps b rs owner]; cbn [hrun v_run].
  - destruct (simplify_mem g m p) as [m1 s] eqn:E. apply simplify_mem_ok in E. destruct E as (X & O & R & _).
    cbn [fst]. split; [|exact X]. split; cbn [fst snd].
    + apply h_set_forall; [|right; exact O]. eapply Forall_impl; [|exact A]. intros t. apply extends_sl_ok. exact X.
    + rewrite h_set_map, R, h_set_replace. f_equal. rewrite <- B. apply map_ext_in. intros t Ht. rewrite Forall_forall in A.
      apply extends_sl_read; [exact X|exact (A t Ht)].
  - destruct (class_mem g m ps b rs owner) as [m1 ss] eqn:E. apply class_mem_ok in E. destruct E as (X & W & R).
    cbn [fst]. split; [|exact X]. split; cbn [fst snd]; [|exact R]. eapply Forall_impl; [|exact (owned_oks _ _ _ W)]. intros t H. right. exact H.
Qed.
Lemma hruns_ok g cs : forall w vs, good w vs -> good (hruns g w cs) (fold_left v_run cs vs) /\ extends (fst w) (fst (hruns g w cs)).
Proof.
  induction cs as [|c r IH]; intros w vs H; [split; [exact H|apply extends_refl]|].
  destruct (hrun_ok g w c vs H) as [H1 X1]. destruct (IH _ _ H1) as [H2 X2]. split; [exact H2|]. exact (extends_trans _ _ _ X1 X2).
Qed.
Lemma hstart_good n : good (hstart n) (repeat [] n).
Proof.
  split; cbn [hstart fst snd].
  - apply Forall_forall. intros s Hs. apply repeat_spec in Hs. subst. left. split; reflexivity.
  - induction n as [|n IH]; [reflexivity|]. cbn [repeat map]. f_equal. exact IH.
Qed.
