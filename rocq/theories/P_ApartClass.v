(** The results described by Spec_Whole.v and Spec_Class.v keep parts apart in the plane. *)
From Coq Require Import Sorted QArith.
From Verif Require Import M_Base M_Float M_Rng M_Geom M_Offset M_Node M_Decompose M_Split M_Hdb M_Knn M_Lnr M_Homotopy M_Relate
  M_Deform M_Constrain M_ConstDP M_IO Spec Spec_Hdb Spec_Lnr Spec_Relate Spec_Deform Spec_ConstDP Spec_IO Spec_Run Spec_Out Spec_Modes Spec_Move Spec_Plane Spec_Apart
  Spec_Exact Spec_Whole Spec_Class Spec_ApartClass
  P_Base P_Float P_Decompose P_Split P_Node P_Lnr P_Plane P_Path P_Jordan P_Exact P_Whole P_MoveClass Properties_Apart.
Open Scope Z_scope.

(** ** Consecutive vertices *)
Lemma part_next s : increasing s -> forall r, In r (parts s) -> next_kept s (rI r) (rJ r).
Proof.
  induction s as [|a s IH]; intros Hi r Hr; [destruct Hr|]. destruct s as [|b s]; [destruct Hr|]. inversion Hi as [|? ? H1 H2]; subst.
  inversion H2 as [|? ? Hab H3]; subst. cbn [parts] in Hr. destruct Hr as [<- |Hr].
  - split; [cbn; auto|]. split; [cbn; auto|]. cbn [rI rJ]. split; [exact Hab|]. intros x [<- |[<- |Hx]]; try lia.
    pose proof (inc_head _ _ H1 x Hx). lia.
  - destruct (IH H1 r Hr) as (A & B & C & D). split; [right; exact A|]. split; [right; exact B|]. split; [exact C|].
    intros x [<- |Hx]; [|apply D, Hx]. rewrite Forall_forall in H2. specialize (H2 _ A). lia.
Qed.
Lemma next_part s : increasing s -> forall a b, next_kept s a b -> In (Rng a b) (parts s).
Proof.
  induction s as [|x s IH]; intros Hi a b (A & B & C & D); [destruct A|]. inversion Hi as [|? ? H1 H2]; subst. rewrite Forall_forall in H2.
  assert (Hb : In b s). { destruct B as [<- |B]; [|exact B]. destruct A as [<- |A]; [lia|]. specialize (H2 _ A). lia. }
  destruct s as [|y s]; [destruct Hb|]. cbn [parts]. destruct A as [<- |A].
  - left. f_equal. destruct Hb as [Hb|Hb]; [exact Hb|]. exfalso. pose proof (inc_head _ _ H1 b Hb) as K. apply (D y); [cbn; auto|].
    split; [apply H2; cbn; auto|exact K].
  - right. apply (IH H1). split; [exact A|]. split; [exact Hb|]. split; [exact C|]. intros z Hz. apply D. right. exact Hz.
Qed.
(** A part with a vertex put back inside is gone. *)
Lemma split_gone s r k : increasing s -> In k s -> rI r < k < rJ r -> ~ In r (parts s).
Proof. intros Hi Hk Hr K. destruct (part_next s Hi r K) as (_ & _ & _ & D). exact (D k Hk Hr). Qed.

Lemma parts_app l a m : parts (l ++ a :: m) = parts (l ++ [a]) ++ parts (a :: m).
Proof.
  induction l as [|x l IH]; [reflexivity|]. destruct l as [|y l].
  - cbn [app]. reflexivity.
  - cbn [app] in *. change (parts (x :: y :: l ++ a :: m)) with (Rng x y :: parts (y :: l ++ a :: m)).
    change (parts (x :: y :: l ++ [a])) with (Rng x y :: parts (y :: l ++ [a])). rewrite IH. reflexivity.
Qed.

(** ** Two parts whose chords cross *)
Section Plane.
  Variables (L : geomlib) (D : geometry -> place -> Prop).
  Hypothesis HP : plane_library L D.

  (** The chords of two parts that are apart meet. *)
  Definition bad (p : list point) (r : rng) (p' : list point) (q : rng) : Prop :=
    bends p (rI r) (rJ r) /\ bends p' (rI q) (rJ q) /\
    ~ meets (on_polyline (points_of p r)) (on_polyline (points_of p' q)) /\
    meets (in_hull [Spec_Out.vertex p (rI r); Spec_Out.vertex p (rJ r)]) (in_hull [Spec_Out.vertex p' (rI q); Spec_Out.vertex p' (rJ q)]).
  Lemma bad_sym p r p' q : bad p r p' q -> bad p' q p r.
  Proof.
    intros (A & B & C & (z & Z1 & Z2)). split; [exact B|]. split; [exact A|]. split; [|exists z; auto].
    intros (y & Y1 & Y2). apply C. exists y. auto.
  Qed.

  Lemma bad_conflict (x y : node) p r p' q inst inst' disp (nbrs : Prop) :
    Forall machine_pt p -> Forall machine_pt p' -> fresh_hull L p inst x -> fresh_hull L p' inst' y -> n_rng x = r -> n_rng y = q ->
    bad p r p' q -> (nbrs -> meet_as_neighbours L x y) ->
    boxes_meet (n_mbr x) (n_mbr y) = true /\ fle (gl_dist L (n_geom y) (n_geom x)) epsilon_dist = true /\
    gl_isect L (n_geom x) (n_geom y) = true /\ (reports_places L -> gl_inter L (n_geom x) (n_geom y) <> []) /\
    examined x /\ examined y /\
    (must_change L disp nbrs x y x \/ must_change L disp nbrs x y y).
  Proof.
    intros Hm Hm' Fx Fy Er Eq (Bab & Bcd & Hold & (z & Z1 & Z2)) Hnb. destruct r as [a b], q as [c d]. cbn [rI rJ] in *.
    pose proof (hull_facts _ D _ _ _ _ _ HP Hm Fx Er) as Hx. pose proof (hull_facts _ D _ _ _ _ _ HP Hm' Fy Eq) as Hy.
    destruct Hx as [X1 X2 X3 X4 X5 X6 X7 X8 X9 X10 X11 X12 X13 X14 X15 X16 X17].
    destruct Hy as [Y1 Y2 Y3 Y4 Y5 Y6 Y7 Y8 Y9 Y10 Y11 Y12 Y13 Y14 Y15 Y16 Y17].
    assert (Hmeet : forall g h, number_geometry g -> number_geometry h -> (exists z, D g z /\ D h z) -> gl_isect L g h = true).
    { intros g h Ng Nh Hz. apply (pl_isect L D HP); auto. }
    assert (Hcommon : forall u v, In u (points_of p (Rng a b)) -> In v (points_of p' (Rng c d)) -> loc_eq u v = true -> False).
    { intros u v Hu Hv E1. apply loc_eq_spot in E1. destruct E1 as [E1 E2]. apply Hold. exists (xof u, yof u). split.
      - apply member_on; assumption.
      - rewrite E1, E2. apply member_on; assumption. }
    assert (Nn : ~ nbrs).
    { intros K. destruct (Hnb K) as [(u & v & Hu & Hv & Huv) _]. unfold is_end_of in Hu, Hv. rewrite X3, sub_first, sub_last in Hu by tauto.
      rewrite Y3, sub_first, sub_last in Hv by tauto. unfold same_place in Huv.
      assert (Hu' : In u (points_of p (Rng a b)) /\ num_pt u) by (destruct Hu as [-> | ->]; tauto).
      assert (Hv' : In v (points_of p' (Rng c d)) /\ num_pt v) by (destruct Hv as [-> | ->]; tauto).
      rewrite (pl_eq L D HP) in Huv by tauto. apply (Hcommon u v); tauto. }
    assert (Hll : gl_isect L (n_line x) (n_line y) = false).
    { destruct (gl_isect L (n_line x) (n_line y)) eqn:E1; [|reflexivity]. exfalso. apply (pl_isect L D HP) in E1; auto. destruct E1 as (w & A & B).
      apply Hold. exists w. split; [apply X9|apply Y9]; assumption. }
    assert (Hss : gl_isect L (n_seg x) (n_seg y) = true).
    { apply Hmeet; auto. exists z. split; [apply X7|apply Y7]; assumption. }
    assert (Hg : gl_isect L (n_geom x) (n_geom y) = true) by (apply Hmeet; eauto).
    split; [eapply box_places_meet; eauto|]. split; [eapply fle_trans; [eapply (pl_touch L D HP); eauto|reflexivity]|]. split; [exact Hg|].
    split; [intros HR; apply HR; auto|].
    split; [split; [rewrite Er; apply (bend_long p); assumption|auto]|]. split; [split; [rewrite Eq; apply (bend_long p'); assumption|auto]|].
    destruct (gl_isect L (n_seg x) (n_line y)) eqn:E1; [left; apply mc_first; [exact Nn|split; assumption|exact E1]|].
    destruct (gl_isect L (n_seg y) (n_line x)) eqn:E2; [right; apply mc_second; [exact Nn|split; assumption|exact E1|exact E2]|]. exfalso.
    destruct (points_ends p a b (proj1 (proj2 X1))) as (l & Ex & Hlx & Elx).
    destruct (points_ends p' c d (proj1 (proj2 Y1))) as (m & Ey & Hly & Ely).
    refine (C92_chords_of_lines_apart (Spec_Out.vertex p a) l (Spec_Out.vertex p' c) m Hlx Hly _ _ _ _).
    - rewrite <- Ex, <- Ey. exact Hold.
    - rewrite <- Ey, Elx. intros (w & A & B). assert (K : gl_isect L (n_seg x) (n_line y) = true); [|congruence].
      apply Hmeet; auto. exists w. split; [apply X7|apply Y9]; assumption.
    - rewrite <- Ex, Ely. intros (w & A & B). assert (K : gl_isect L (n_seg y) (n_line x) = true); [|congruence].
      apply Hmeet; auto. exists w. split; [apply Y7|apply X9]; assumption.
    - rewrite Elx, Ely. exists z. auto.
  Qed.

  Lemma fresh_part pts i r inst : piece pts r -> fresh_hull L pts inst (Node i (sub_coords pts r) r (gl_bounds L (piece_hull L pts r)) (piece_hull L pts r) inst).
  Proof. intros (A & B & C). split; [split; [exact A|split; [exact B|split; [exact C|reflexivity]]]|]. repeat split. Qed.

  Lemma bend_many pts r : piece pts r -> bends pts (rI r) (rJ r) -> 1 < rJ r - rI r.
  Proof. intros (A & B & C) H. pose proof (bend_long _ _ _ H). lia. Qed.

  (** ** A line by itself *)
  Section Line.
    Variables (o : opts) (dist : point -> point -> point -> f64) (cs : list geometry) (pts : list point).
    Hypothesis Hm : Forall machine_pt pts.
    Hypothesis Hav : o_avoid_self o = true.
    Hypothesis Hfar : forall r, piece pts r -> 1 < rJ r - rI r -> exists k, farthest_vertex dist pts (rI r) (rJ r) k.

    Lemma bad_parts r q : piece pts r -> piece pts q -> bad pts r pts q ->
      examined (part L pts r) /\ examined (part L pts q) /\ exists v, (v = r \/ v = q) /\ conflict L o pts r q v.
    Proof.
      intros Hr Hq Hb.
      destruct (bad_conflict (part L pts r) (part L pts q) pts r pts q 0 0 (o_non_planar_displacement o)
        (meet_as_neighbours L (part L pts r) (part L pts q)) Hm Hm (fresh_part pts 0 r 0 Hr) (fresh_part pts 0 q 0 Hq) eq_refl eq_refl Hb (fun K => K))
        as (K1 & K2 & K3 & _ & K5 & K6 & K7).
      split; [exact K5|]. split; [exact K6|].
      assert (Hne : q <> r).
      { intros ->. destruct Hb as (_ & _ & K & _). apply K. destruct r as [a b]. destruct (points_ends pts a b (proj1 (proj2 Hr))) as (l & E & Hl & _).
        exists (xof (Spec_Out.vertex pts a), yof (Spec_Out.vertex pts a)).
        assert (X : on_polyline (points_of pts (Rng a b)) (xof (Spec_Out.vertex pts a), yof (Spec_Out.vertex pts a))); [|auto].
        rewrite E. apply member_on; [destruct l; [congruence|cbn; lia]|cbn; auto]. }
      destruct K7 as [K7|K7]; [exists r|exists q]; (split; [auto|]); (split; [exact Hav|]); repeat (split; [assumption|]); (split; [split; assumption|]); split; assumption.
    Qed.

    Definition fine (s : list Z) : Prop := forall r q, In r (parts s) -> In q (parts s) -> ~ bad pts r pts q.

    Lemma settle_good before now result : settle L o dist cs pts before now result -> good pts now -> good pts result.
    Proof.
      induction 1 as [|before now next result _ Hi Hn _ IH]; intros Hg; [exact Hg|]. apply IH.
      exact (next_good dist pts now next _ Hg (fun r (K : must_split L o cs pts before now r) => proj1 K) Hi Hn).
    Qed.
    Lemma new_bad_split before now r q : good pts now -> In r (parts now) -> In q (parts now) -> bad pts r pts q ->
      ~ In r (parts before) \/ ~ In q (parts before) -> must_split L o cs pts before now r \/ must_split L o cs pts before now q.
    Proof.
      intros Hg Hr Hq Hb Hn. pose proof (good_parts _ _ _ Hg Hr) as Pr. pose proof (good_parts _ _ _ Hg Hq) as Pq.
      pose proof Hb as (B1 & B2 & _). pose proof (bend_many _ _ Pr B1) as M1. pose proof (bend_many _ _ Pq B2) as M2.
      destruct Hn as [Hn|Hn].
      - destruct (bad_parts r q Pr Pq Hb) as (E & _ & v & [-> | ->] & K); [left|right]; (split; [assumption|]); (split; [assumption|]);
          exists r; (split; [assumption|]); (split; [assumption|]); (split; [assumption|]); right; exists q; auto.
      - destruct (bad_parts q r Pq Pr (bad_sym _ _ _ _ Hb)) as (E & _ & v & [-> | ->] & K); [right|left]; (split; [assumption|]); (split; [assumption|]);
          exists q; (split; [assumption|]); (split; [assumption|]); (split; [assumption|]); right; exists r; auto.
    Qed.
    Lemma range_dec (r : rng) l : {In r l} + {~ In r l}.
    Proof. apply in_dec. intros [a b] [c d]. destruct (Z.eq_dec a c), (Z.eq_dec b d); [left|right|right|right]; congruence. Qed.
    Lemma settle_fine before now result : settle L o dist cs pts before now result -> good pts now ->
      (forall r q, In r (parts now) -> In q (parts now) -> In r (parts before) -> In q (parts before) -> ~ bad pts r pts q) -> fine result.
    Proof.
      induction 1 as [before now H|before now next result Hex Hi Hn H IH]; intros Hg Hinv.
      - intros r q Hr Hq Hb. destruct (range_dec r (parts before)) as [Nr|Nr]; [destruct (range_dec q (parts before)) as [Nq|Nq]|].
        + exact (Hinv r q Hr Hq Nr Nq Hb).
        + destruct (new_bad_split before now r q Hg Hr Hq Hb (or_intror Nq)) as [K|K]; exact (H _ K).
        + destruct (new_bad_split before now r q Hg Hr Hq Hb (or_introl Nr)) as [K|K]; exact (H _ K).
      - pose proof (next_good dist pts now next _ Hg (fun r (K : must_split L o cs pts before now r) => proj1 K) Hi Hn) as Hg'.
        apply IH; [exact Hg'|]. intros r q Hr' Hq' Hr Hq Hb. 
        assert (Gone : forall v, must_split L o cs pts before now v -> ~ (In v (parts next))).
        { intros v Hv. pose proof Hv as (V1 & V2 & _). destruct (Hfar v (good_parts _ _ _ Hg V1) V2) as (k & Hk).
          apply (split_gone next v k Hi); [apply Hn; right; exists v; auto|apply Hk]. }
        destruct (range_dec r (parts before)) as [Nr|Nr]; [destruct (range_dec q (parts before)) as [Nq|Nq]|].
        + exact (Hinv r q Hr Hq Nr Nq Hb).
        + destruct (new_bad_split before now r q Hg Hr Hq Hb (or_intror Nq)) as [K|K]; exact (Gone _ K ltac:(assumption)).
        + destruct (new_bad_split before now r q Hg Hr Hq Hb (or_introl Nr)) as [K|K]; exact (Gone _ K ltac:(assumption)).
    Qed.

    Lemma adjacent_apart r q : piece pts r -> piece pts q -> rJ r = rI q -> ~ bad pts r pts q.
    Proof.
      intros Hr Hq E (_ & _ & K & _). apply K. destruct r as [a b], q as [b' c]. cbn [rI rJ] in E. subst b'.
      destruct (points_ends pts a b (proj1 (proj2 Hr))) as (l & E1 & Hl & El). destruct (points_ends pts b c (proj1 (proj2 Hq))) as (m & E2 & Hl2 & _).
      exists (xof (Spec_Out.vertex pts b), yof (Spec_Out.vertex pts b)). split.
      - rewrite E1. apply member_on; [destruct l; [congruence|cbn; lia]|]. right. rewrite <- El. destruct (exists_last Hl) as (u & z & ->). rewrite last_last.
        apply in_or_app. cbn. auto.
      - rewrite E2. apply member_on; [destruct m; [congruence|cbn; lia]|]. left. reflexivity.
    Qed.
    Lemma good_drop u x w : good pts (u ++ x :: w) -> good pts (u ++ w).
    Proof.
      intros [A B]. split.
      - clear B. induction u as [|y u IH]; cbn [app] in *; inversion A as [|? ? A1 A2]; subst; [exact A1|]. constructor; [apply IH, A1|].
        rewrite Forall_forall in *. intros z Hz. apply A2. rewrite in_app_iff in *. cbn [In]. tauto.
      - rewrite Forall_forall in *. intros z Hz. apply B. rewrite in_app_iff in *. cbn [In]. tauto.
    Qed.
    Lemma merge_fine l a j k m : good pts (l ++ a :: j :: k :: m) -> fine (l ++ a :: j :: k :: m) ->
      (forall q v, In q (parts (l ++ [a])) \/ (In q (parts (k :: m)) /\ rI q <> k) -> ~ conflict L o pts (Rng a k) q v) ->
      good pts (l ++ a :: k :: m) /\ fine (l ++ a :: k :: m).
    Proof.
      intros Hg Hf Hc.
      assert (Hg' : good pts (l ++ a :: k :: m)).
      { pose proof (good_drop (l ++ [a]) j (k :: m)) as K. rewrite <- !app_assoc in K. exact (K Hg). }
      split; [exact Hg'|].
      assert (Ep : parts (l ++ a :: k :: m) = parts (l ++ [a]) ++ Rng a k :: parts (k :: m)) by (rewrite parts_app; reflexivity).
      assert (Eo : parts (l ++ a :: j :: k :: m) = parts (l ++ [a]) ++ Rng a j :: Rng j k :: parts (k :: m)) by (rewrite parts_app; reflexivity).
      assert (Hk : piece pts (Rng a k)) by (apply (good_parts _ _ _ Hg'); rewrite Ep; apply in_or_app; cbn; auto).
      assert (Old : forall q, In q (parts (l ++ a :: k :: m)) -> q = Rng a k \/ In q (parts (l ++ a :: j :: k :: m))).
      { intros q. rewrite Ep, Eo, !in_app_iff. cbn [In]. intuition. }
      assert (New : forall q, In q (parts (l ++ a :: k :: m)) -> ~ bad pts (Rng a k) pts q).
      { intros q Hq Hb. pose proof (good_parts _ _ _ Hg' Hq) as Pq. destruct (bad_parts (Rng a k) q Hk Pq Hb) as (_ & _ & v & _ & K).
        rewrite Ep, in_app_iff in Hq. cbn [In] in Hq. destruct Hq as [Hq|[<- |Hq]].
        - exact (Hc q v (or_introl Hq) K).
        - destruct K as (_ & _ & _ & K & _). congruence.
        - destruct (Z.eq_dec (rI q) k) as [E|E]; [|exact (Hc q v (or_intror (conj Hq E)) K)].
          exact (adjacent_apart (Rng a k) q Hk Pq (eq_sym E) Hb). }
      intros r q Hr Hq Hb. destruct (Old r Hr) as [-> |Or]; [exact (New q Hq Hb)|]. destruct (Old q Hq) as [-> |Oq]; [exact (New r Hr (bad_sym _ _ _ _ Hb))|].
      exact (Hf r q Or Oq Hb).
    Qed.

    Lemma drop_fine fixed clear : (forall others a b, clear others a b = true -> clear_of L o cs pts others a b) ->
      forall n front i todo, (length todo <= n)%nat -> good pts (rev front ++ i :: todo) -> fine (rev front ++ i :: todo) ->
      good pts (drop_ends_clear o dist pts fixed clear front i todo) /\ fine (drop_ends_clear o dist pts fixed clear front i todo).
    Proof.
      intros Hc. induction n as [|n IH]; intros front i todo Hn Hg Hf; (destruct todo as [|j rest]; [|cbn [length] in Hn; try lia]).
      1, 2: cbn [drop_ends_clear rev]; auto.
      cbn [drop_ends_clear].
      assert (Keep : good pts (drop_ends_clear o dist pts fixed clear (i :: front) j rest) /\ fine (drop_ends_clear o dist pts fixed clear (i :: front) j rest)).
      { apply IH; [lia| |]; cbn [rev]; rewrite <- app_assoc; assumption. }
      assert (Begin : forall behind, (forall q, In q (parts (j :: rest)) -> rI q <> j -> In q behind) ->
        let l := match front with
          | [] => drop_ends_clear o dist pts fixed clear (i :: front) j rest
          | p :: _ => if (j =? i + 1) && negb (fixed i) && (p + 1 <? i) && all_close o dist pts p j && clear (parts (rev front) ++ behind) p j
              then drop_ends_clear o dist pts fixed clear front j rest else drop_ends_clear o dist pts fixed clear (i :: front) j rest
          end in good pts l /\ fine l).
      { intros behind Hb. cbv zeta. destruct front as [|p fr]; [exact Keep|].
        destruct ((j =? i + 1) && negb (fixed i) && (p + 1 <? i) && all_close o dist pts p j && clear (parts (rev (p :: fr)) ++ behind) p j) eqn:E; [|exact Keep].
        apply andb_prop in E. destruct E as [_ E]. destruct (Hc _ _ _ E) as [_ K]. cbn [rev] in Hg, Hf, K. rewrite <- !app_assoc in Hg, Hf. cbn [app] in Hg, Hf.
        destruct (merge_fine (rev fr) p i j rest Hg Hf) as [G F].
        { intros q v [Hq|[Hq Hn2]]; apply K, in_or_app; [left; exact Hq|right; apply Hb; assumption]. }
        apply IH; [lia| |]; cbn [rev]; rewrite <- app_assoc; assumption. }
      destruct rest as [|k rest']; [apply Begin; auto|].
      destruct ((j =? i + 1) && negb (fixed j) && all_close o dist pts i k); [|apply Begin; auto].
      destruct (clear (parts (rev (i :: front)) ++ parts (k :: rest')) i k) eqn:E.
      - destruct (Hc _ _ _ E) as [_ K]. cbn [rev] in K. destruct (merge_fine (rev front) i j k rest' Hg Hf) as [G F].
        { intros q v [Hq|[Hq _]]; apply K, in_or_app; auto. }
        apply IH; [cbn [length] in *; lia| |]; cbn [rev]; rewrite <- app_assoc; assumption.
      - apply Begin. intros q [<- |Hq] Hn2; [cbn [rI] in Hn2; congruence|exact Hq].
    Qed.

    Lemma whole_fine forced result : (2 <= length pts)%nat -> whole_result L o dist cs pts forced result -> good pts result /\ fine result.
    Proof.
      intros H2 (dp & w & split & fixed & clear & T & (W1 & W2) & Se & Fx & Cl & first & others & -> & ->).
      assert (Gw : good pts w).
      { split; [exact W1|]. apply Forall_forall. intros k Hk. apply W2 in Hk. destruct Hk as [Hk|[_ Hk]]; [|exact Hk].
        pose proof (textbook_range _ _ _ _ _ _ T ltac:(unfold zlen; lia)) as R. rewrite Forall_forall in R. specialize (R k Hk). lia. }
      pose proof (settle_good _ _ _ Se Gw) as Gs.
      assert (Fs : fine (first :: others)) by (apply (settle_fine _ _ _ Se Gw); intros r q _ _ []).
      apply (drop_fine fixed clear (fun l a b => proj1 (Cl l a b)) (length others)); auto.
    Qed.
  End Line.

  (** ** Lines together *)
  Section Class.
    Variables (o : opts) (dist : point -> point -> point -> f64) (cs : list geometry) (ids : list Z) (pts : Z -> list point).
    Hypothesis Hm : forall i, In i ids -> Forall machine_pt (pts i).
    Hypothesis Htwo : forall i, In i ids -> (2 <= length (pts i))%nat.
    Hypothesis Hav : o_avoid_self o = true.
    Hypothesis Hfar : forall i r, In i ids -> piece (pts i) r -> 1 < rJ r - rI r -> exists k, farthest_vertex dist (pts i) (rI r) (rJ r) k.
    Hypothesis HR : reports_places L.

    Notation badc i r j q := (bad (pts i) r (pts j) q).

    Lemma bad_class i r j q : In i ids -> In j ids -> piece (pts i) r -> piece (pts j) q -> badc i r j q ->
      examined (class_part L pts i r) /\ exists k v, ((k = i /\ v = r) \/ (k = j /\ v = q)) /\ conflict_between L o pts i r j q k v.
    Proof.
      intros Hi Hj Hr Hq Hb. set (x := class_part L pts i r). set (y := class_part L pts j q).
      set (nbrs := i = j /\ meet_as_neighbours L x y).
      destruct (bad_conflict x y (pts i) r (pts j) q i j (o_non_planar_displacement o) nbrs (Hm i Hi) (Hm j Hj) (fresh_part (pts i) 0 r i Hr)
        (fresh_part (pts j) 0 q j Hq) eq_refl eq_refl Hb (fun K => proj2 K)) as (K1 & K2 & K3 & K4 & K5 & K6 & K7).
      split; [exact K5|].
      assert (Hne : ~ (j = i /\ q = r)).
      { intros [-> ->]. destruct Hb as (_ & _ & K & _). apply K. destruct r as [a b]. destruct (points_ends (pts i) a b (proj1 (proj2 Hr))) as (l & E & Hl & _).
        exists (xof (Spec_Out.vertex (pts i) a), yof (Spec_Out.vertex (pts i) a)).
        assert (X : on_polyline (points_of (pts i) (Rng a b)) (xof (Spec_Out.vertex (pts i) a), yof (Spec_Out.vertex (pts i) a))); [|auto].
        rewrite E. apply member_on; [destruct l; [congruence|cbn; lia]|cbn; auto]. }
      assert (M : forall v, must_change L (o_non_planar_displacement o) nbrs x y v -> class_conflict L (o_non_planar_displacement o) x y v).
      { intros v K. split; [exact K3|]. destruct (Z.eq_dec i j) as [E|E]; [left; split; [exact E|]|right; split; [exact E|split; [exact (K4 HR)|]]].
        - destruct K as [N A B|N A B C|v N A B|N A B|N A B].
          + apply mc_first; auto. intros Q. apply N. split; assumption.
          + apply mc_second; auto. intros Q. apply N. split; assumption.
          + apply mc_both; auto. intros Q. apply N. split; assumption.
          + apply mc_flip_first; [exact (proj2 N)|exact A|exact B].
          + apply mc_flip_second; [exact (proj2 N)|exact A|exact B].
        - destruct K as [N A B|N A B C|v N A B|N A B|N A B].
          + apply mc_first; auto.
          + apply mc_second; auto.
          + apply mc_both; auto.
          + destruct N. contradiction.
          + destruct N. contradiction. }
      destruct K7 as [K7|K7]; [exists i, r|exists j, q]; (split; [auto|]); (split; [exact Hav|]); (split; [exact Hne|]); (split; [exact K1|]); (split; [exact K2|]);
        apply M, K7.
    Qed.

    Section Round.
      Variables (changed : Z -> Prop) (before now : Z -> list Z) (split : Z -> rng -> Prop).
      Hypothesis U : unambiguous L o ids pts changed before now.
      Hypothesis Hs : split_in_round L o cs ids pts changed before now split.
      Hypothesis Hg : forall i, In i ids -> good (pts i) (now i).

      Lemma bad_split i r j q : In i ids -> In j ids -> In r (parts (now i)) -> In q (parts (now j)) -> badc i r j q ->
        i <> j \/ changed i -> ~ In r (parts (before i)) -> split i r \/ split j q.
      Proof.
        intros Hi Hj Hr Hq Hb Hch Hn. pose proof (good_parts _ _ _ (Hg i Hi) Hr) as Pr. pose proof (good_parts _ _ _ (Hg j Hj) Hq) as Pq.
        destruct (bad_class i r j q Hi Hj Pr Pq Hb) as (He & k & v & Hkv & K).
        assert (Hck : checked L ids pts before now i r) by (repeat (split; [assumption|]); assumption).
        assert (Ha : asks L o ids pts changed now i r k v).
        { exists j, q. split; [exact Hj|]. split; [exact Hq|]. split; [|exact K]. destruct Hch as [Hch|Hch]; auto. }
        destruct Hs as (taken & T1 & T2 & _ & T4). destruct (T2 i r k v Hck Ha) as (k' & Hk').
        assert (k' = k) by (apply (U i r k' k v Hck (proj2 (T1 _ _ _ _ Hk')) Ha)). subst k'.
        pose proof Hb as (B1 & B2 & _). pose proof (bend_many _ _ Pr B1) as M1. pose proof (bend_many _ _ Pq B2) as M2.
        destruct Hkv as [[-> ->]|[-> ->]]; [left|right]; apply T4; repeat (split; [assumption|]); left; exists i, r; exact Hk'.
      Qed.
      Lemma bad_splits i r j q : In i ids -> In j ids -> In r (parts (now i)) -> In q (parts (now j)) -> badc i r j q ->
        i <> j \/ changed i -> ~ In r (parts (before i)) \/ ~ In q (parts (before j)) -> split i r \/ split j q.
      Proof.
        intros Hi Hj Hr Hq Hb Hch [Hn|Hn]; [apply bad_split; assumption|].
        destruct (bad_split j q i r Hj Hi Hq Hr (bad_sym _ _ _ _ Hb)) as [K|K]; auto.
        destruct Hch as [Hch|Hch]; [left; congruence|]. destruct (Z.eq_dec i j) as [<- |E]; [auto|left; congruence].
      Qed.
    End Round.

    Definition all_fine (now : Z -> list Z) : Prop :=
      forall i j r q, In i ids -> In j ids -> In r (parts (now i)) -> In q (parts (now j)) -> ~ badc i r j q.

    Lemma clearly_fine changed before now result : settle_clearly L o dist cs ids pts changed before now result ->
      (forall i, In i ids -> good (pts i) (now i)) ->
      (forall i j r q, In i ids -> In j ids -> In r (parts (now i)) -> In q (parts (now j)) -> badc i r j q ->
         (i <> j \/ changed i) /\ (~ In r (parts (before i)) \/ ~ In q (parts (before j)))) ->
      (forall i, In i ids -> good (pts i) (result i)) /\ all_fine result.
    Proof.
      induction 1 as [changed before now split result U Hs Hno Hres|changed before now split next result U Hs Hex Hn H IH]; intros Hg Hinv.
      - split; [intros i Hi; rewrite (Hres i Hi); auto|]. intros i j r q Hi Hj Hr Hq Hb. rewrite (Hres i Hi) in Hr. rewrite (Hres j Hj) in Hq.
        destruct (Hinv i j r q Hi Hj Hr Hq Hb) as [A B]. destruct (bad_splits _ _ _ _ U Hs Hg i r j q Hi Hj Hr Hq Hb A B) as [K|K]; exact (Hno _ _ K).
      - assert (Hsp : forall k v, split k v -> In k ids /\ In v (parts (now k)) /\ 1 < rJ v - rI v).
        { intros k v K. destruct Hs as (taken & _ & _ & _ & T4). apply T4 in K. tauto. }
        assert (Hg' : forall i, In i ids -> good (pts i) (next i)).
        { intros i Hi. destruct (Hn i Hi) as [N1 N2].
          exact (next_good dist (pts i) (now i) (next i) (split i) (Hg i Hi) (fun r K => proj1 (proj2 (Hsp i r K))) N1 N2). }
        assert (Gone : forall k v, split k v -> ~ In v (parts (next k))).
        { intros k v K. destruct (Hsp k v K) as (K1 & K2 & K3). destruct (Hn k K1) as [N1 N2].
          destruct (Hfar k v K1 (good_parts _ _ _ (Hg k K1) K2) K3) as (x & Hx). apply (split_gone (next k) v x N1); [apply N2; right; exists v; auto|apply Hx]. }
        apply IH; [exact Hg'|]. intros i j r q Hi Hj Hr Hq Hb.
        assert (Both : ~ (In r (parts (now i)) /\ In q (parts (now j)))).
        { intros [Or Oq]. destruct (Hinv i j r q Hi Hj Or Oq Hb) as [A B].
          destruct (bad_splits _ _ _ _ U Hs Hg i r j q Hi Hj Or Oq Hb A B) as [K|K]; exact (Gone _ _ K ltac:(assumption)). }
        assert (New : ~ In r (parts (now i)) \/ ~ In q (parts (now j))).
        { destruct (range_dec r (parts (now i))) as [Or|Or]; [|auto]. right. intros Oq. apply Both. auto. }
        split; [|exact New]. destruct (Z.eq_dec i j) as [<- |E]; [right; right|auto].
        assert (Fresh : forall v, In v (parts (next i)) -> ~ In v (parts (now i)) -> exists u, split i u).
        { intros v Hv Hnv. destruct (Hn i Hi) as [N1 N2]. destruct (part_next _ N1 v Hv) as (A & B & C & F).
          assert (Dec : forall x, In x (next i) -> In x (now i) \/ exists u, split i u).
          { intros x Hx. apply N2 in Hx. destruct Hx as [Hx|(u & Hu & _)]; eauto. }
          destruct (Dec _ A) as [A'|K]; [|exact K]. destruct (Dec _ B) as [B'|K]; [|exact K]. exfalso. apply Hnv. destruct v as [a b]. cbn [rI rJ] in *.
          apply next_part; [apply (Hg i Hi)|]. split; [exact A'|]. split; [exact B'|]. split; [exact C|]. intros x Hx. apply F, N2. auto. }
        destruct New as [K|K]; [exact (Fresh r Hr K)|exact (Fresh q Hq K)].
    Qed.

    Lemma class_fine forced result : class_result_clear L o dist cs ids pts forced result ->
      (forall i, In i ids -> good (pts i) (result i)) /\ all_fine result.
    Proof.
      intros (alone & Ha & Hs).
      assert (K : forall i, In i ids -> good (pts i) (alone i) /\ fine (pts i) (alone i)).
      { intros i Hi. apply (whole_fine o dist cs (pts i) (Hm i Hi) Hav (fun r => Hfar i r Hi) (forced i)); auto. }
      apply (clearly_fine _ _ _ _ Hs); [intros i Hi; apply K, Hi|]. intros i j r q Hi Hj Hr Hq Hb. split; [|left; intros []].
      destruct (Z.eq_dec i j) as [<- |E]; [|auto]. exfalso. exact (proj2 (K i Hi) r q Hr Hq Hb).
    Qed.
  End Class.
End Plane.
