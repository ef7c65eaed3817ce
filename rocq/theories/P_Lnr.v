(** Proofs about vertex coincidences and segment pairs. *)
From Verif Require Import M_Base M_Float M_Rng M_Geom M_Lnr Spec Spec_Lnr P_Base P_Float.
From Coq Require Import Sorted.
Open Scope Z_scope.

(** ** Order facts *)

Lemma feq_refl a : is_nan a = false -> feq a a = true.
Proof. intros; fkeys; repeat split; auto. Qed.
Lemma feq_sym a b : feq a b = true -> feq b a = true.
Proof. intros H; fkeys; intuition. Qed.
Lemma feq_trans a b c : feq a b = true -> feq b c = true -> feq a c = true.
Proof. intros H1 H2; fkeys; destruct H1 as [? [? ?]], H2 as [? [? ?]]; repeat split; auto; lia. Qed.
Lemma feq_lt_trans a b c : feq a b = true -> flt b c = true -> flt a c = true.
Proof. intros H1 H2; fkeys; destruct H1 as [? [? ?]], H2 as [? [? ?]]; repeat split; auto; lia. Qed.
Lemma flt_eq_trans a b c : flt a b = true -> feq b c = true -> flt a c = true.
Proof. intros H1 H2; fkeys; destruct H1 as [? [? ?]], H2 as [? [? ?]]; repeat split; auto; lia. Qed.
Lemma flt_trans a b c : flt a b = true -> flt b c = true -> flt a c = true.
Proof. intros H1 H2; eapply flt_le_trans; [exact H1|]; apply flt_le; auto. Qed.
Lemma flt_not_eq a b : flt a b = true -> feq a b = false.
Proof.
  intros H; destruct (feq a b) eqn:E; auto. exfalso.
  pose proof (feq_lt_trans _ _ _ (feq_sym _ _ E) H) as K. rewrite flt_irrefl in K; discriminate.
Qed.
Lemma ftri a b : is_nan a = false -> is_nan b = false ->
  flt a b = true \/ feq a b = true \/ flt b a = true.
Proof.
  intros Ha Hb. destruct (flt a b) eqn:E; auto. right.
  apply (flt_total _ _ Ha Hb) in E. fkeys.
  destruct E as [_ [_ [E|E]]]; [right|left]; fkeys; repeat split; auto; lia.
Qed.

Ltac bp := repeat match goal with
  | H : _ || _ = true |- _ => apply orb_true_iff in H
  | H : _ && _ = true |- _ => apply andb_true_iff in H; destruct H
  | |- _ && _ = true => apply andb_true_iff
  | |- _ || _ = true => apply orb_true_iff
  end.

Lemma loc_eq_refl p : num_pt p -> loc_eq p p = true.
Proof. intros [? ?]; unfold loc_eq; bp; split; apply feq_refl; auto. Qed.
Lemma loc_eq_sym p q : loc_eq p q = true -> loc_eq q p = true.
Proof. unfold loc_eq; intros; bp; split; apply feq_sym; auto. Qed.
Lemma loc_eq_trans p q r : loc_eq p q = true -> loc_eq q r = true -> loc_eq p r = true.
Proof. unfold loc_eq; intros; bp; split; eapply feq_trans; eauto. Qed.
Lemma loc_lt_trans p q r : loc_lt p q = true -> loc_lt q r = true -> loc_lt p r = true.
Proof.
  unfold loc_lt; intros H1 H2; bp. destruct H1 as [H1|H1], H2 as [H2|H2]; bp.
  - left; eapply flt_trans; eauto.
  - left; eapply flt_eq_trans; eauto.
  - left; eapply feq_lt_trans; eauto.
  - right; bp; split; [eapply feq_trans|eapply flt_trans]; eauto.
Qed.
Lemma loc_eq_lt_trans p q r : loc_eq p q = true -> loc_lt q r = true -> loc_lt p r = true.
Proof.
  unfold loc_eq, loc_lt; intros H1 H2; bp. destruct H2 as [H2|H2]; bp.
  - left; eapply feq_lt_trans; eauto.
  - right; bp; split; [eapply feq_trans|eapply feq_lt_trans]; eauto.
Qed.
Lemma loc_lt_eq_trans p q r : loc_lt p q = true -> loc_eq q r = true -> loc_lt p r = true.
Proof.
  unfold loc_eq, loc_lt; intros H1 H2; bp. destruct H1 as [H1|H1]; bp.
  - left; eapply flt_eq_trans; eauto.
  - right; bp; split; [eapply feq_trans|eapply flt_eq_trans]; eauto.
Qed.
Lemma loc_lt_irrefl p : loc_lt p p = false.
Proof.
  unfold loc_lt. rewrite !flt_irrefl, andb_false_r; reflexivity.
Qed.
Lemma loc_lt_not_eq p q : loc_lt p q = true -> loc_eq p q = false.
Proof.
  intros H; destruct (loc_eq p q) eqn:E; auto. exfalso.
  pose proof (loc_lt_eq_trans _ _ _ H (loc_eq_sym _ _ E)) as K.
  rewrite loc_lt_irrefl in K; discriminate.
Qed.
Lemma loc_lt_not_eq' p q : loc_lt p q = true -> loc_eq q p = false.
Proof.
  intros H; destruct (loc_eq q p) eqn:E; auto. exfalso.
  apply loc_eq_sym in E. rewrite (loc_lt_not_eq _ _ H) in E; discriminate.
Qed.
Lemma loc_tri p q : num_pt p -> num_pt q ->
  loc_lt p q = true \/ loc_eq p q = true \/ loc_lt q p = true.
Proof.
  intros [? ?] [? ?]; unfold loc_lt, loc_eq.
  destruct (ftri (px p) (px q)) as [E|[E|E]]; auto.
  - left; bp; auto.
  - destruct (ftri (py p) (py q)) as [K|[K|K]]; auto.
    + left; bp; right; bp; auto.
    + right; left; bp; auto.
    + right; right; bp; right; bp; split; auto. apply feq_sym; auto.
  - right; right; bp; auto.
Qed.

(** ** The scan *)

Definition vloc (a b : vertex) : bool := loc_eq (v_pt a) (v_pt b).
Definition vlt (a b : vertex) : bool := loc_lt (v_pt a) (v_pt b).

(** [v_less] is the lexicographic order. *)
Lemma v_less_lt a b : v_less a b = vlt a b.
Proof. reflexivity. Qed.

Definition runs_of (l : list vertex) (pre : list vertex) (out : list (vertex * list vertex)) :=
  flat_map snd out = filter (fun v => 1 <? zlen (filter (vloc v) l)) pre /\
  Forall (fun g => snd g = filter (vloc (fst g)) l /\ In (fst g) (snd g) /\
                   (2 <= length (snd g))%nat) out /\
  StronglySorted (fun g h => vlt (fst g) (fst h) = true) out /\
  Forall (fun g => In (fst g) pre) out.

Section Scan.
Variable L : geomlib.
Variable l : list vertex.
Hypothesis Hnum : Forall (fun v => num_pt (v_pt v)) l.
Hypothesis Heq : forall a b, In a l -> In b l -> gl_eq2d L (v_pt a) (v_pt b) = vloc a b.
Hypothesis Hsort : StronglySorted (fun a b => v_less b a = false) l.

Lemma num_in v : In v l -> num_pt (v_pt v).
Proof. rewrite Forall_forall in Hnum; auto. Qed.

Lemma filter_all {A} (f : A -> bool) m : Forall (fun x => f x = true) m -> filter f m = m.
Proof. induction 1; cbn; auto. rewrite H; congruence. Qed.
Lemma filter_none {A} (f : A -> bool) m : Forall (fun x => f x = false) m -> filter f m = [].
Proof. induction 1; cbn; auto. rewrite H; congruence. Qed.

Lemma sorted_app_le {A} (R : A -> A -> Prop) m1 m2 : StronglySorted R (m1 ++ m2) ->
  forall a b, In a m1 -> In b m2 -> R a b.
Proof.
  induction m1 as [|x r IH]; cbn; [tauto|]. intros H a b [<- |Ha] Hb.
  - inversion H; subst. rewrite Forall_forall in H3. apply H3, in_or_app; auto.
  - inversion H; subst. eapply IH; eauto.
Qed.

(** One flushed run. *)
Lemma flush pre run rest a out :
  l = pre ++ run ++ rest ->
  In a run -> Forall (fun v => vloc a v = true) run ->
  (forall u v, In u pre -> In v run -> vlt u v = true) ->
  (forall v, In v rest -> vlt a v = true) ->
  runs_of l pre out ->
  runs_of l (pre ++ run) (if 1 <? zlen run then out ++ [(a, run)] else out).
Proof.
  intros El Ha Hrun Hpre Hrest [O1 [O2 [O3 O4]]].
  rewrite Forall_forall in Hrun.
  assert (Ef : forall v, In v run -> filter (vloc v) l = run).
  { intros v Hv. rewrite El, !filter_app.
    rewrite (filter_none (vloc v) pre), (filter_all (vloc v) run), (filter_none (vloc v) rest).
    - rewrite app_nil_r; reflexivity.
    - apply Forall_forall; intros u Hu. apply loc_lt_not_eq.
      eapply loc_eq_lt_trans; [|apply (Hrest _ Hu)]. apply loc_eq_sym, (Hrun _ Hv).
    - apply Forall_forall; intros u Hu. unfold vloc.
      eapply loc_eq_trans; [apply loc_eq_sym, (Hrun _ Hv)|apply (Hrun _ Hu)].
    - apply Forall_forall; intros u Hu. apply loc_lt_not_eq'. apply Hpre; auto. }
  assert (Eg : filter (fun v => 1 <? zlen (filter (vloc v) l)) run
               = if 1 <? zlen run then run else []).
  { destruct (1 <? zlen run) eqn:E.
    - apply filter_all, Forall_forall; intros v Hv. rewrite (Ef _ Hv); auto.
    - apply filter_none, Forall_forall; intros v Hv. rewrite (Ef _ Hv); auto. }
  unfold runs_of. rewrite filter_app, Eg.
  destruct (1 <? zlen run) eqn:E.
  - apply Z.ltb_lt in E. unfold zlen in E. repeat split.
    + rewrite flat_map_app, O1; cbn. rewrite app_nil_r; reflexivity.
    + apply Forall_app; split; auto. constructor; auto; cbn. rewrite (Ef _ Ha).
      repeat split; auto. lia.
    + clear - O3 O4 Hpre Ha. induction out as [|g r IH]; cbn.
      * constructor; constructor.
      * inversion O3; inversion O4; subst. constructor; auto.
        apply Forall_app; split; auto.
    + apply Forall_app; split.
      * eapply Forall_impl; [|exact O4]. intros; apply in_or_app; auto.
      * constructor; auto. apply in_or_app; cbn; auto.
  - repeat split; auto.
    + rewrite app_nil_r; auto.
    + eapply Forall_impl; [|exact O4]. intros; apply in_or_app; auto.
Qed.

(** Invariant: [pre] is done, [cur] is the run of the current vertex [a]. *)
Definition scan_inv pre (cur : list vertex) d run out a :=
  In a cur /\ Forall (fun v => vloc a v = true) cur /\
  (forall u v, In u pre -> In v cur -> vlt u v = true) /\
  runs_of l pre out /\
  ((d = 0 /\ run = [] /\ cur = [a]) \/ (d = zlen cur /\ run = cur /\ 2 <= d)).

Lemma scan_spec rest : forall pre cur d run out a,
  l = pre ++ cur ++ rest -> scan_inv pre cur d run out a ->
  exists pre' cur', l = pre' ++ cur' /\ runs_of l pre' (scan_runs L d run out (a :: rest)) /\
    (exists z, In z cur' /\ Forall (fun v => vloc z v = true) cur') /\
    (forall u v, In u pre' -> In v cur' -> vlt u v = true).
Proof.
  induction rest as [|b r IH]; intros pre cur d run out a El [Ha [Hcur [Hpre [Hout Hd]]]].
  - exists pre, cur. rewrite app_nil_r in El. cbn [scan_runs]. repeat split; auto; try apply Hout.
    exists a; auto.
  - assert (HaL : In a l) by (rewrite El; apply in_or_app; right; apply in_or_app; auto).
    assert (HbL : In b l) by (rewrite El; apply in_or_app; right; apply in_or_app; cbn; auto).
    assert (Hba : v_less b a = false).
    { pose proof Hsort as S0. rewrite El, app_assoc in S0. apply (sorted_app_le _ _ _ S0).
      - apply in_or_app; auto.
      - cbn; auto. }
    cbn [scan_runs]. rewrite (Heq _ _ HaL HbL).
    assert (Hcase : forall d' run',
      vloc a b = true ->
      (d' = zlen (cur ++ [b]) /\ run' = cur ++ [b] /\ 2 <= d') ->
      exists pre' cur', l = pre' ++ cur' /\ runs_of l pre' (scan_runs L d' run' out (b :: r)) /\
        (exists z, In z cur' /\ Forall (fun v => vloc z v = true) cur') /\
        (forall u v, In u pre' -> In v cur' -> vlt u v = true)).
    { intros d' run' Eab Hd'. apply (IH pre (cur ++ [b])).
      - rewrite <- app_assoc; exact El.
      - repeat split; try apply Hout.
        + apply in_or_app; cbn; auto.
        + rewrite Forall_forall in Hcur |- *. intros v Hv. apply in_app_or in Hv.
          destruct Hv as [Hv|[<- |[]]].
          * unfold vloc. eapply loc_eq_trans; [apply loc_eq_sym, Eab|apply (Hcur _ Hv)].
          * apply loc_eq_refl, num_in; auto.
        + intros u v Hu Hv. apply in_app_or in Hv. destruct Hv as [Hv|[<- |[]]].
          * auto.
          * unfold vlt. eapply loc_lt_eq_trans; [apply (Hpre u a Hu Ha)|exact Eab].
        + right; exact Hd'. }
    assert (Hlen : forall x : list vertex, zlen (x ++ [b]) = zlen x + 1).
    { intros x; unfold zlen; rewrite app_length; cbn; lia. }
    destruct (vloc a b) eqn:Eab.
    + destruct Hd as [[-> [-> ->]]|[Ed [-> Hd2]]].
      * cbn [Z.eqb]. apply Hcase; auto. repeat split; auto; lia.
      * destruct (d =? 0) eqn:E0; [apply Z.eqb_eq in E0; lia|].
        apply Hcase; auto. rewrite Hlen. repeat split; auto; lia.
    + assert (Hab : vlt a b = true).
      { destruct (loc_tri (v_pt a) (v_pt b)) as [K|[K|K]]; auto using num_in.
        - unfold vloc in Eab; congruence.
        - rewrite v_less_lt in Hba. unfold vlt in Hba; congruence. }
      assert (Hrest : forall v, In v (b :: r) -> vlt a v = true).
      { intros v [<- |Hv]; auto.
        assert (HvL : In v l).
        { rewrite El. apply in_or_app; right; apply in_or_app; right; right; auto. }
        assert (Hvb : v_less v b = false).
        { pose proof Hsort as S0. rewrite El in S0.
          replace (pre ++ cur ++ b :: r) with ((pre ++ cur ++ [b]) ++ r) in S0
            by (rewrite <- !app_assoc; reflexivity).
          apply (sorted_app_le _ _ _ S0); auto.
          apply in_or_app; right; apply in_or_app; cbn; auto. }
        destruct (loc_tri (v_pt b) (v_pt v)) as [K|[K|K]]; auto using num_in.
        - eapply loc_lt_trans; eauto.
        - eapply loc_lt_eq_trans; eauto.
        - rewrite v_less_lt in Hvb. unfold vlt in Hvb; congruence. }
      assert (Eout : (if 1 <? d then out ++ [(a, run)] else out)
                     = if 1 <? zlen cur then out ++ [(a, cur)] else out).
      { destruct Hd as [[-> [-> ->]]|[Ed [-> Hd2]]]; [reflexivity|]. rewrite Ed; reflexivity. }
      rewrite Eout.
      apply (IH (pre ++ cur) [b]).
      * rewrite <- app_assoc; exact El.
      * repeat split.
        -- cbn; auto.
        -- constructor; auto. apply loc_eq_refl, num_in; auto.
        -- intros u v Hu [<- |[]]. apply in_app_or in Hu. destruct Hu as [Hu|Hu].
           ++ unfold vlt. eapply loc_lt_trans; [apply (Hpre u a Hu Ha)|exact Hab].
           ++ rewrite Forall_forall in Hcur. unfold vlt.
              eapply loc_eq_lt_trans; [apply loc_eq_sym, (Hcur _ Hu)|exact Hab].
        -- eapply (flush pre cur (b :: r) a out); eauto.
        -- eapply (flush pre cur (b :: r) a out); eauto.
        -- eapply (flush pre cur (b :: r) a out); eauto.
        -- eapply (flush pre cur (b :: r) a out); eauto.
        -- left; auto.
Qed.

Definition greater_exists (v : vertex) : bool := existsb (vlt v) l.

(** The scan of a sorted list: every run of two or more vertices is reported except
    the run at the greatest location. *)
Lemma scan_all :
  let out := scan_runs L 0 [] [] l in
  flat_map snd out =
    filter (fun v => (1 <? zlen (filter (vloc v) l)) && greater_exists v) l /\
  Forall (fun g => snd g = filter (vloc (fst g)) l /\ In (fst g) (snd g) /\
                   (2 <= length (snd g))%nat) out /\
  StronglySorted (fun g h => vlt (fst g) (fst h) = true) out.
Proof.
  cbv zeta.
  assert (D : l = [] \/ exists a r, l = a :: r) by (destruct l; eauto).
  destruct D as [El|[a [r El]]].
  - rewrite El; cbn; repeat split; constructor.
  - destruct (scan_spec r [] [a] 0 [] [] a) as [pre [cur [E [O [[z [Hz Hc]] Hp]]]]].
    + rewrite El; reflexivity.
    + repeat split; cbn; auto; try constructor; auto; try tauto; try constructor.
      apply loc_eq_refl, num_in. rewrite El; cbn; auto.
    + rewrite <- El in O. destruct O as [O1 [O2 [O3 _]]]. repeat split; auto.
      rewrite O1.
      transitivity (filter (fun v => (1 <? zlen (filter (vloc v) l)) && greater_exists v)
                      (pre ++ cur)); [|rewrite <- E; reflexivity].
      rewrite filter_app.
      rewrite (filter_none _ cur), app_nil_r.
      * apply filter_ext_in. intros v Hv.
        replace (greater_exists v) with true; [rewrite andb_true_r; reflexivity|].
        symmetry. unfold greater_exists. apply existsb_exists. exists z. split.
        -- rewrite E; apply in_or_app; auto.
        -- apply Hp; auto.
      * apply Forall_forall; intros v Hv. apply andb_false_iff; right.
        destruct (greater_exists v) eqn:G; auto. exfalso.
        apply existsb_exists in G. destruct G as [u [Hu Hlt]].
        rewrite E in Hu. apply in_app_or in Hu. destruct Hu as [Hu|Hu].
        -- pose proof (loc_lt_trans _ _ _ Hlt (Hp _ _ Hu Hv)) as K.
           rewrite loc_lt_irrefl in K; discriminate.
        -- rewrite Forall_forall in Hc.
           pose proof (loc_lt_not_eq _ _ Hlt) as K.
           assert (loc_eq (v_pt v) (v_pt u) = true)
             by (eapply loc_eq_trans; [apply loc_eq_sym, (Hc _ Hv)|apply (Hc _ Hu)]).
           congruence.
Qed.
End Scan.

(** ** Numbering *)

Lemma number_in pts : forall fid i v,
  In v (number_vertices fid i pts) <->
  v_fid v = fid /\ znth pts (v_idx v - i) = Some (v_pt v).
Proof.
  induction pts as [|p r IH]; intros fid i v; cbn [number_vertices In].
  - split; [tauto|]. intros [_ H]. unfold znth in H.
    destruct (_ <? 0); [discriminate|]. destruct (Z.to_nat _); discriminate.
  - rewrite IH. unfold znth. split.
    + intros [<- |[Hf H]].
      * cbn. rewrite Z.sub_diag; auto.
      * split; auto. destruct (Z.ltb_spec (v_idx v - (i + 1)) 0); [discriminate|].
        destruct (Z.ltb_spec (v_idx v - i) 0); [lia|].
        replace (Z.to_nat (v_idx v - i)) with (S (Z.to_nat (v_idx v - (i + 1)))) by lia. exact H.
    + intros [Hf H]. destruct (Z.ltb_spec (v_idx v - i) 0); [discriminate|].
      destruct (Z.eq_dec (v_idx v) i) as [E|E].
      * left. rewrite E, Z.sub_diag in H. cbn in H. injection H as ->.
        destruct v as [q k f]; cbn in *; subst; reflexivity.
      * right. split; auto. destruct (Z.ltb_spec (v_idx v - (i + 1)) 0); [lia|].
        replace (Z.to_nat (v_idx v - i)) with (S (Z.to_nat (v_idx v - (i + 1)))) in H by lia. exact H.
Qed.

Lemma class_in fc v :
  In v (class_vertices fc) <-> vertex_at fc (v_fid v) (v_idx v) (v_pt v).
Proof.
  unfold class_vertices, vertex_at. rewrite in_flat_map. split.
  - intros [[f pts] [Hf Hv]]. cbn in Hv. apply number_in in Hv. destruct Hv as [<- Hv].
    rewrite Z.sub_0_r in Hv. exists pts; auto.
  - intros [pts [Hf Hv]]. exists (v_fid v, pts). split; auto. cbn. apply number_in.
    rewrite Z.sub_0_r; auto.
Qed.

Lemma vertex_at_fun fc fid k p q : NoDup (map fst fc) ->
  vertex_at fc fid k p -> vertex_at fc fid k q -> p = q.
Proof.
  intros Hnd [P [HP Hp]] [Q [HQ Hq]].
  assert (P = Q).
  { clear - Hnd HP HQ. induction fc as [|[f X] r IH]; [destruct HP|].
    cbn in Hnd. inversion Hnd; subst.
    destruct HP as [E|HP], HQ as [E'|HQ].
    - congruence.
    - injection E as -> ->. exfalso; apply H1. apply (in_map fst) in HQ; exact HQ.
    - injection E' as -> ->. exfalso; apply H1. apply (in_map fst) in HP; exact HP.
    - auto. }
  congruence.
Qed.

Definition vkey (v : vertex) : Z * Z := (v_fid v, v_idx v).

Lemma number_key_ge pts : forall fid i v, In v (number_vertices fid i pts) -> i <= v_idx v.
Proof.
  induction pts as [|p r IH]; intros fid i v; cbn; [tauto|].
  intros [<- |H]; cbn; [lia|]. apply IH in H; lia.
Qed.
Lemma number_nodup pts : forall fid i, NoDup (map vkey (number_vertices fid i pts)).
Proof.
  induction pts as [|p r IH]; intros; cbn; constructor; auto.
  rewrite in_map_iff. intros [v [E Hv]]. apply number_key_ge in Hv.
  unfold vkey in E; cbn in E. injection E; lia.
Qed.
Lemma nodup_app {A} (l1 l2 : list A) : NoDup l1 -> NoDup l2 ->
  (forall x, In x l1 -> ~ In x l2) -> NoDup (l1 ++ l2).
Proof.
  induction l1 as [|x r IH]; cbn; auto. intros H1 H2 H. inversion H1; subst. constructor.
  - rewrite in_app_iff. intros [K|K]; [auto|]. apply (H x); auto.
  - apply IH; [assumption|assumption|]. intros y Hy; apply H; cbn; auto.
Qed.
Lemma class_nodup fc : NoDup (map fst fc) -> NoDup (map vkey (class_vertices fc)).
Proof.
  induction fc as [|[f pts] r IH]; cbn [map flat_map class_vertices fst snd]; [constructor|].
  intros H; inversion H; subst. rewrite map_app. apply nodup_app.
  - apply number_nodup.
  - apply IH; auto.
  - intros [a b] Hin Hin2. apply in_map_iff in Hin. destruct Hin as [v [E Hv]].
    apply number_in in Hv. destruct Hv as [Hv _].
    apply in_map_iff in Hin2. destruct Hin2 as [u [E' Hu]].
    apply class_in in Hu. destruct Hu as [Q [HQ _]].
    unfold vkey in *. apply H2. apply in_map_iff. exists (v_fid u, Q). split; auto. cbn. congruence.
Qed.

Lemma map_nodup {A B} (f : A -> B) l : NoDup (map f l) -> NoDup l.
Proof.
  induction l as [|x r IH]; cbn; intros H; constructor; inversion H; subst; auto.
  intros K. apply H2. apply in_map; auto.
Qed.

Lemma another {A} (m : list A) v : NoDup m -> In v m ->
  (1 <? zlen m) = true <-> exists u, In u m /\ u <> v.
Proof.
  intros Hnd Hv. rewrite Z.ltb_lt. unfold zlen. split.
  - intros H. destruct m as [|a [|b r]]; cbn in *; try lia. inversion Hnd; subst.
    destruct Hv as [<- |Hv].
    + exists b; split; auto. intros ->; apply H2; cbn; auto.
    + exists a; split; auto. intros ->; apply H2; exact Hv.
  - intros [u [Hu Hne]]. destruct m as [|a [|b r]]; cbn in *; try lia; try tauto.
    destruct Hu as [<- |[]], Hv as [<- |[]]; tauto.
Qed.

Lemma filter_nodup {A} (f : A -> bool) l : NoDup l -> NoDup (filter f l).
Proof. apply NoDup_filter. Qed.

Lemma map_snd_number pts : forall fid i, map v_pt (number_vertices fid i pts) = pts.
Proof. induction pts; intros; cbn; [auto|]. f_equal; auto. Qed.
Lemma map_pt_class fc : map v_pt (class_vertices fc) = class_points fc.
Proof.
  unfold class_vertices, class_points. induction fc as [|[f p] r IH]; cbn; auto.
  rewrite map_app, map_snd_number, IH; auto.
Qed.

Section Class.
Variable L : geomlib.
Variable srt : list vertex -> list vertex.
Hypothesis Hsrt : sorts srt.
Variable fc : list (Z * list point).
Hypothesis Hids : NoDup (map fst fc).
Hypothesis Hnum : Forall num_pt (class_points fc).
Hypothesis Heq : forall p q, In p (class_points fc) -> In q (class_points fc) ->
  gl_eq2d L p q = loc_eq p q.

Lemma znth_in {A} (l : list A) k x : znth l k = Some x -> In x l.
Proof. unfold znth. destruct (k <? 0); [discriminate|]. apply nth_error_In. Qed.

Lemma vertex_at_point fid k p : vertex_at fc fid k p -> In p (class_points fc).
Proof.
  intros [pts [H1 H2]]. unfold class_points. apply in_flat_map. exists (fid, pts).
  split; auto. cbn. eapply znth_in; eauto.
Qed.

Lemma point_vertex_at p : In p (class_points fc) -> exists fid k, vertex_at fc fid k p.
Proof.
  unfold class_points. rewrite in_flat_map. intros [[fid pts] [H1 H2]]. cbn in H2.
  apply In_nth_error in H2. destruct H2 as [n Hn]. exists fid, (Z.of_nat n), pts.
  split; auto. unfold znth. destruct (Z.ltb_spec (Z.of_nat n) 0); [lia|].
  rewrite Nat2Z.id; auto.
Qed.

Let vs := class_vertices fc.
Lemma vs_num : Forall (fun v => num_pt (v_pt v)) vs.
Proof.
  apply (proj1 (Forall_map v_pt num_pt vs)). unfold vs. rewrite map_pt_class; auto.
Qed.
Lemma srt_in v : In v (srt vs) <-> vertex_at fc (v_fid v) (v_idx v) (v_pt v).
Proof.
  rewrite <- class_in. destruct (Hsrt vs vs_num) as [P _].
  split; apply Permutation_in; auto. apply Permutation_sym; auto.
Qed.
Lemma srt_nodup : NoDup (srt vs).
Proof.
  destruct (Hsrt vs vs_num) as [P _]. eapply Permutation_NoDup; [exact P|].
  apply (map_nodup vkey), class_nodup; auto.
Qed.
Lemma srt_key u v : In u (srt vs) -> In v (srt vs) -> vkey u = vkey v -> u = v.
Proof.
  intros Hu Hv E. apply srt_in in Hu. apply srt_in in Hv. unfold vkey in E.
  injection E as E1 E2. rewrite <- E1, <- E2 in Hv.
  pose proof (vertex_at_fun _ _ _ _ _ Hids Hu Hv).
  destruct u, v; cbn in *; congruence.
Qed.

Lemma scan_class :
  let out := scan_runs L 0 [] [] (srt vs) in
  flat_map snd out =
    filter (fun v => (1 <? zlen (filter (vloc v) (srt vs))) && greater_exists (srt vs) v) (srt vs) /\
  Forall (fun g => snd g = filter (vloc (fst g)) (srt vs) /\ In (fst g) (snd g) /\
                   (2 <= length (snd g))%nat) out /\
  StronglySorted (fun g h => vlt (fst g) (fst h) = true) out.
Proof.
  apply scan_all.
  - apply Forall_forall. intros v Hv. apply srt_in in Hv. apply vertex_at_point in Hv.
    rewrite Forall_forall in Hnum; auto.
  - intros a b Ha Hb. apply srt_in in Ha. apply srt_in in Hb. apply Heq; eapply vertex_at_point; eauto.
  - apply Hsrt, vs_num.
Qed.

Lemma reported v :
  In v (flat_map snd (scan_runs L 0 [] [] (srt vs))) <->
  vertex_at fc (v_fid v) (v_idx v) (v_pt v) /\
  shared_vertex fc (v_fid v) (v_idx v) (v_pt v) /\
  not_greatest (class_points fc) (v_pt v).
Proof.
  rewrite (proj1 scan_class), filter_In, andb_true_iff.
  rewrite srt_in. split.
  - intros [Hv [H1 H2]]. split; auto.
    assert (Hvl : In v (filter (vloc v) (srt vs))).
    { apply filter_In. split; [apply srt_in; auto|]. apply loc_eq_refl.
      rewrite Forall_forall in Hnum. eapply Hnum, vertex_at_point; eauto. }
    split.
    + apply (another _ v) in H1; auto; [|apply filter_nodup, srt_nodup].
      destruct H1 as [u [Hu Hne]]. apply filter_In in Hu. destruct Hu as [Hu Hl].
      exists (v_fid u), (v_idx u), (v_pt u). repeat split; auto.
      * intros E. apply Hne. apply srt_key; auto. apply srt_in; auto.
      * apply srt_in; auto.
    + unfold greater_exists in H2. apply existsb_exists in H2. destruct H2 as [u [Hu Hl]].
      exists (v_pt u). split; auto. apply srt_in in Hu. eapply vertex_at_point; eauto.
  - intros [Hv [[f [k [q [Hne [Hq Hl]]]]] [z [Hz Hlt]]]]. split; auto. split.
    + apply (another _ v).
      * apply filter_nodup, srt_nodup.
      * apply filter_In. split; [apply srt_in; auto|]. apply loc_eq_refl.
        rewrite Forall_forall in Hnum. eapply Hnum, vertex_at_point; eauto.
      * exists (Vertex q k f). split.
        -- apply filter_In. split; [apply srt_in; auto|exact Hl].
        -- intros <-. apply Hne; reflexivity.
    + unfold greater_exists. apply existsb_exists.
      apply point_vertex_at in Hz. destruct Hz as [f' [k' Hz]].
      exists (Vertex z k' f'). split; [apply srt_in; auto|exact Hlt].
Qed.

Lemma junctions_spec fid :
  NoDup (fc_junctions L srt fc fid) /\
  forall k, In k (fc_junctions L srt fc fid) <->
    exists p, vertex_at fc fid k p /\ shared_vertex fc fid k p /\ not_greatest (class_points fc) p.
Proof.
  split.
  - unfold fc_junctions. fold vs.
    assert (Hnd : NoDup (flat_map snd (scan_runs L 0 [] [] (srt vs)))).
    { rewrite (proj1 scan_class). apply filter_nodup, srt_nodup. }
    apply (NoDup_filter (fun v => v_fid v =? fid)) in Hnd.
    assert (Hin : forall v, In v (filter (fun v => v_fid v =? fid)
       (flat_map snd (scan_runs L 0 [] [] (srt vs)))) -> In v (srt vs) /\ v_fid v = fid).
    { intros v Hv. apply filter_In in Hv. destruct Hv as [Hv E]. apply reported in Hv.
      split; [apply srt_in; tauto|apply Z.eqb_eq; auto]. }
    remember (filter (fun v => v_fid v =? fid)
       (flat_map snd (scan_runs L 0 [] [] (srt vs)))) as m eqn:Em. clear Em.
    induction m as [|v r IH]; cbn; [constructor|]. inversion Hnd; subst. constructor.
    + rewrite in_map_iff. intros [u [E Hu]]. apply H1.
      replace v with u; auto. apply srt_key.
      * apply Hin; cbn; auto.
      * apply Hin; cbn; auto.
      * unfold vkey. f_equal; auto.
        rewrite (proj2 (Hin u (or_intror Hu))), (proj2 (Hin v (or_introl eq_refl))); auto.
    + apply IH; auto. intros u Hu; apply Hin; cbn; auto.
  - intros k. unfold fc_junctions. fold vs. rewrite in_map_iff. split.
    + intros [v [E Hv]]. apply filter_In in Hv. destruct Hv as [Hv Ef]. apply Z.eqb_eq in Ef.
      apply reported in Hv. subst. exists (v_pt v); auto.
    + intros [p Hp]. exists (Vertex p k fid). split; auto. apply filter_In. split.
      * apply reported; auto.
      * apply Z.eqb_refl.
Qed.

End Class.

(** ** Planar self-intersections of one line *)

Lemma one_class pts k p f :
  vertex_at [(f, pts)] f k p <-> znth pts k = Some p.
Proof.
  unfold vertex_at. split.
  - intros [q [[E|[]] H]]. congruence.
  - intros H. exists pts. cbn; auto.
Qed.
Lemma one_class' pts k p f g : vertex_at [(f, pts)] g k p -> g = f.
Proof. intros [q [[E|[]] H]]. congruence. Qed.

Section Planar.
Variable L : geomlib.
Variable srt : list vertex -> list vertex.
Hypothesis Hsrt : sorts srt.
Variable pts : list point.
Hypothesis Hnum : Forall num_pt pts.
Hypothesis Heq : forall p q, In p pts -> In q pts -> gl_eq2d L p q = loc_eq p q.

Let fc := [(null_fid, pts)].
Lemma cp1 : class_points fc = pts.
Proof. unfold class_points, fc; cbn. apply app_nil_r. Qed.
Lemma cv1 : class_vertices fc = number_vertices null_fid 0 pts.
Proof. unfold class_vertices, fc; cbn. apply app_nil_r. Qed.

Lemma planar_spec :
  Forall (fun c => In (fst c) pts /\ increasing (snd c) /\ (2 <= length (snd c))%nat /\
            (forall k, In k (snd c) <-> exists q, znth pts k = Some q /\ loc_eq (fst c) q = true))
         (planar_intersects L srt pts) /\
  StronglySorted (fun c d => loc_lt (fst c) (fst d) = true) (planar_intersects L srt pts) /\
  (forall k p, znth pts k = Some p ->
     ((exists c, In c (planar_intersects L srt pts) /\ In k (snd c)) <->
      (exists k' q, k' <> k /\ znth pts k' = Some q /\ loc_eq p q = true) /\
      not_greatest pts p)).
Proof.
  assert (Hids : NoDup (map fst fc)) by (cbn; constructor; [tauto|constructor]).
  assert (Hn : Forall num_pt (class_points fc)) by (rewrite cp1; auto).
  assert (He : forall p q, In p (class_points fc) -> In q (class_points fc) ->
    gl_eq2d L p q = loc_eq p q) by (rewrite cp1; auto).
  destruct (scan_class L srt Hsrt fc Hn He) as [_ [S2 S3]].
  pose proof (reported L srt Hsrt fc Hids Hn He) as Rep.
  pose proof (srt_in srt Hsrt fc Hn) as Sin.
  pose proof (srt_nodup srt Hsrt fc Hids Hn) as Snd.
  unfold planar_intersects. rewrite <- cv1. rewrite cp1 in Rep.
  set (out := scan_runs L 0 [] [] (srt (class_vertices fc))) in *.
  assert (Hfid : forall v, In v (srt (class_vertices fc)) ->
            v_fid v = null_fid /\ znth pts (v_idx v) = Some (v_pt v)).
  { intros v Hv. apply Sin in Hv. pose proof (one_class' _ _ _ _ _ Hv) as E.
    rewrite E in Hv. apply one_class in Hv; auto. }
  split; [|split].
  - apply Forall_map. eapply Forall_impl; [|exact S2]. intros [v g]; cbn [fst snd].
    intros [Eg [Hv Hlen]]. repeat split.
    + rewrite Eg in Hv. apply filter_In in Hv. destruct (Hfid v) as [_ H]; [tauto|].
      eapply znth_in; eauto.
    + apply zset_incr.
    + assert (Hnd : NoDup (map v_idx g)).
      {
        assert (Hg : NoDup g) by (rewrite Eg; apply filter_nodup; auto).
        assert (Hin : forall u, In u g -> In u (srt (class_vertices fc)))
          by (intros u Hu; rewrite Eg in Hu; apply filter_In in Hu; tauto).
        clear - Hg Hin Hfid. induction g as [|u r IH]; cbn; [constructor|].
        inversion Hg; subst. constructor.
        - rewrite in_map_iff. intros [w [E Hw]]. apply H1.
          destruct (Hfid u) as [F1 F2]; [apply Hin; cbn; auto|].
          destruct (Hfid w) as [G1 G2]; [apply Hin; cbn; auto|].
          rewrite E in G2. assert (v_pt w = v_pt u) by congruence.
          replace u with w; auto. destruct u, w; cbn in *; congruence.
        - apply IH; auto. intros w Hw; apply Hin; cbn; auto. }
      rewrite <- (map_length v_idx) in Hlen.
      eapply Nat.le_trans; [exact Hlen|]. apply NoDup_incl_length; auto.
      intros x Hx. apply zset_in; auto.
    + intros Hk. apply zset_in, in_map_iff in Hk. destruct Hk as [u [<- Hu]].
      rewrite Eg in Hu. apply filter_In in Hu. destruct Hu as [Hu El].
      exists (v_pt u). split; [apply Hfid; auto|exact El].
    + intros [q [Hq El]]. apply zset_in, in_map_iff. exists (Vertex q k null_fid).
      split; auto. rewrite Eg. apply filter_In. split; [|exact El].
      apply Sin. cbn. apply one_class; auto.
  - clear - S3. induction out as [|g r IH]; cbn; [constructor|]. inversion S3; subst.
    constructor; auto. apply Forall_map. eapply Forall_impl; [|exact H2]. cbn. auto.
  - intros k p Hp. specialize (Rep (Vertex p k null_fid)). cbn in Rep.
    transitivity (In (Vertex p k null_fid) (flat_map snd out)).
    + rewrite in_flat_map. split.
      * intros [c [Hc Hk]]. apply in_map_iff in Hc. destruct Hc as [g [<- Hg]].
        cbn in Hk. apply zset_in, in_map_iff in Hk. destruct Hk as [u [E Hu]].
        exists g. split; auto. replace (Vertex p k null_fid) with u; auto.
        rewrite Forall_forall in S2. destruct (S2 _ Hg) as [Eg _]. pose proof Hu as Hu'.
        rewrite Eg in Hu'. apply filter_In in Hu'. destruct (Hfid u) as [F1 F2]; [tauto|].
        rewrite E in F2. destruct u; cbn in *; congruence.
      * intros [g [Hg Hv]]. exists (v_pt (fst g), zset (map v_idx (snd g))). split.
        -- apply in_map_iff. exists g; auto.
        -- cbn. apply zset_in, in_map_iff. exists (Vertex p k null_fid); auto.
    + rewrite Rep. unfold fc. rewrite one_class. split.
      * intros [_ [[f [k' [q [Hne [Hq El]]]]] Hg]]. split; auto.
        pose proof (one_class' _ _ _ _ _ Hq) as ->. apply one_class in Hq.
        exists k', q. repeat split; auto. congruence.
      * intros [[k' [q [Hne [Hq El]]]] Hg]. repeat split; auto.
        exists null_fid, k', q. repeat split; auto; [congruence|]. apply one_class; auto.
Qed.
End Planar.

(** ** Segment pairs *)

Lemma key_eqb_eq k l : key_eqb k l = true <-> k = l.
Proof.
  destruct k as [[[a b] c] d], l as [[[e f] g] h]; cbn.
  rewrite !andb_true_iff, !Z.eqb_eq. split.
  - intros [[[-> ->] ->] ->]; auto.
  - intros E; injection E; auto.
Qed.

Lemma cache_key_inj s o s' o' :
  cache_key s o = cache_key s' o' <-> same_pair (s, o) (s', o').
Proof.
  unfold cache_key, same_pair; cbn.
  destruct (Z.ltb_spec o s), (Z.ltb_spec o' s'); split; intros E;
    try (injection E; intros); try (destruct E as [E|E]; injection E; intros); subst;
    try lia; auto; try (f_equal; f_equal; lia).
  all: repeat f_equal; lia.
Qed.

Definition ckey (so : Z * Z) := cache_key (fst so) (snd so).

Definition pairs_inv (cache : list (Z * Z * Z * Z)) (seen : list (Z * Z)) : Prop :=
  NoDup (map ckey seen) /\ (forall k, In k cache <-> In k (map ckey seen)).

Lemma pairs_inner_spec s ns : forall cache seen cache' seen',
  pairs_inner s ns cache seen = (cache', seen') -> pairs_inv cache seen ->
  pairs_inv cache' seen' /\
  exists added, seen' = seen ++ added /\
    (forall x, In x added -> fst x = s /\ snd x <> s /\ In (snd x) ns) /\
    (forall o, In o ns -> o <> s -> In (cache_key s o) (map ckey seen')).
Proof.
  induction ns as [|o r IH]; intros cache seen cache' seen' E Inv; cbn [pairs_inner] in E.
  - injection E as <- <-. split; auto. exists []. rewrite app_nil_r. repeat split; auto; cbn in *; tauto.
  - destruct (Z.eqb_spec s o) as [Eso|Eso].
    + destruct (IH _ _ _ _ E Inv) as [I [ad [H1 [H2 H3]]]]. split; auto.
      exists ad. repeat split; auto; try (apply H2; auto).
      * right; apply H2; auto.
      * intros x [<- |Hx] Hne; [congruence|auto].
    + destruct (existsb (key_eqb (cache_key s o)) cache) eqn:Ec.
      * destruct (IH _ _ _ _ E Inv) as [I [ad [H1 [H2 H3]]]]. split; auto.
        exists ad. repeat split; auto; try (apply H2; auto).
        -- right; apply H2; auto.
        -- intros x [<- |Hx] Hne; auto.
           apply existsb_exists in Ec. destruct Ec as [k [Hk Ek]]. apply key_eqb_eq in Ek. subst k.
           apply Inv in Hk. rewrite H1, map_app. apply in_or_app; auto.
      * assert (Inv' : pairs_inv (cache_key s o :: cache) (seen ++ [(s, o)])).
        { destruct Inv as [N C]. split.
          - rewrite map_app; cbn. apply nodup_app; auto.
            + constructor; [tauto|constructor].
            + intros k Hk [Ek|[]]. unfold ckey in Ek; cbn in Ek. subst k.
              apply C in Hk. assert (existsb (key_eqb (cache_key s o)) cache = true); [|congruence].
              apply existsb_exists. exists (cache_key s o). split; auto. apply key_eqb_eq; auto.
          - intros k. rewrite map_app, in_app_iff. cbn. rewrite <- C. unfold ckey; cbn. tauto. }
        destruct (IH _ _ _ _ E Inv') as [I [ad [H1 [H2 H3]]]]. split; auto.
        exists ((s, o) :: ad). rewrite H1, <- app_assoc. cbn [app]. repeat split; auto.
        -- destruct H as [<- |H]; auto. apply H2; auto.
        -- destruct H as [<- |H]; cbn; auto. apply H2; auto.
        -- destruct H as [<- |H]; cbn; auto. right; apply H2; auto.
        -- intros x [<- |Hx] Hne.
           ++ rewrite map_app. apply in_or_app. right. left; reflexivity.
           ++ replace (seen ++ (s, o) :: ad) with ((seen ++ [(s, o)]) ++ ad)
                by (rewrite <- app_assoc; reflexivity). rewrite <- H1. auto.
Qed.

Lemma pairs_outer_spec near ds : forall cache seen, pairs_inv cache seen ->
  let out := pairs_outer near ds cache seen in
  NoDup (map ckey out) /\
  (exists added, out = seen ++ added /\
     forall x, In x added -> In (fst x) ds /\ snd x <> fst x /\ In (snd x) (near (fst x))) /\
  (forall s o, In s ds -> In o (near s) -> o <> s -> In (cache_key s o) (map ckey out)).
Proof.
  induction ds as [|s r IH]; intros cache seen Inv; cbn [pairs_outer].
  - cbv zeta. split; [apply Inv|]. split.
    + exists []. rewrite app_nil_r. split; auto. cbn; tauto.
    + cbn; tauto.
  - cbv zeta. destruct (pairs_inner s (near s) cache seen) as [c1 s1] eqn:E.
    destruct (pairs_inner_spec _ _ _ _ _ _ E Inv) as [I1 [ad1 [A1 [A2 A3]]]].
    destruct (IH c1 s1 I1) as [J1 [[ad2 [B1 B2]] B3]]. split; auto. split.
    + exists (ad1 ++ ad2). rewrite B1, A1, app_assoc. split; auto.
      intros x Hx. apply in_app_or in Hx. destruct Hx as [Hx|Hx].
      * destruct (A2 x Hx) as [<- [? ?]]. cbn; auto.
      * destruct (B2 x Hx) as [? [? ?]]. cbn; auto.
    + intros s' o [<- |Hs] Ho Hne; [|eapply B3; eauto].
      rewrite B1, map_app. apply in_or_app; left. auto.
Qed.

Lemma zseq_in lo hi x : In x (zseq lo hi) <-> lo <= x <= hi.
Proof.
  unfold zseq. rewrite in_map_iff. split.
  - intros [k [<- Hk]]. apply in_seq in Hk. lia.
  - intros H. exists (Z.to_nat (x - lo)). split; [lia|]. apply in_seq. lia.
Qed.
