(** From plane geometry to what the proofs about the program need. *)
From Coq Require Import QArith Lqa.
From Verif Require Import M_Base M_Float M_Rng M_Geom M_Node M_Hdb M_Homotopy M_Lnr M_Knn M_Relate M_Deform M_Constrain M_ConstDP
  Spec Spec_Hdb Spec_Lnr Spec_ConstDP Spec_Relate Spec_Out Spec_Plane P_Base P_Float P_Node P_Hdb P_HdbIns.
Open Scope Z_scope.

(** ** Values of floats *)

Lemma pow_pos_ k : 0 <= k -> 0 < 2 ^ k.
Proof. intros. apply Z.pow_pos_nonneg; lia. Qed.

Lemma magnitude_range m e : 0 <= magnitude m e <= 2 ^ 2098.
Proof.
  unfold magnitude. destruct (Z.ltb_spec e (-1074)); [pose proof (pow_pos_ 2098); lia|].
  destruct (Z.ltb_spec 971 e); [pose proof (pow_pos_ 2098); lia|].
  pose proof (pow_pos_ (e + 1074) ltac:(lia)) as Hp.
  assert (H1 : 0 <= Z.max (if e =? -1074 then 0 else 2 ^ 52) (Z.min (Z.pos m) (2 ^ 53)) <= 2 ^ 53)
    by (destruct (e =? -1074); lia).
  assert (H2 : 2 ^ 53 * 2 ^ (e + 1074) <= 2 ^ 2098).
  { rewrite <- Z.pow_add_r by lia. apply Z.pow_le_mono_r; lia. }
  split; [apply Z.mul_nonneg_nonneg; lia|].
  eapply Z.le_trans; [|exact H2]. apply Z.mul_le_mono_nonneg_r; lia.
Qed.

Lemma magnitude_exp m e m' e' : e < e' -> magnitude m e <= magnitude m' e'.
Proof.
  intros H. pose proof (magnitude_range m e) as R. pose proof (magnitude_range m' e') as R'.
  unfold magnitude in *. destruct (Z.ltb_spec e (-1074)); [lia|].
  destruct (Z.ltb_spec e' (-1074)); [lia|]. destruct (Z.ltb_spec 971 e'); [lia|].
  destruct (Z.ltb_spec 971 e); [lia|]. destruct (Z.eqb_spec e' (-1074)); [lia|].
  clear R R'.
  assert (K1 : Z.max (if e =? -1074 then 0 else 2 ^ 52) (Z.min (Z.pos m) (2 ^ 53)) <= 2 ^ 53)
    by (destruct (e =? -1074); lia).
  pose proof (pow_pos_ (e + 1074) ltac:(lia)) as Hp. pose proof (pow_pos_ (e' + 1074) ltac:(lia)) as Hp'.
  assert (K2 : 2 ^ 53 * 2 ^ (e + 1074) <= 2 ^ 52 * 2 ^ (e' + 1074)).
  { rewrite <- !Z.pow_add_r by lia. apply Z.pow_le_mono_r; lia. }
  eapply Z.le_trans; [apply Z.mul_le_mono_nonneg_r; [lia|exact K1]|].
  eapply Z.le_trans; [exact K2|]. apply Z.mul_le_mono_nonneg_r; lia.
Qed.
Lemma magnitude_man m m' e : Z.pos m <= Z.pos m' -> magnitude m e <= magnitude m' e.
Proof.
  intros H. unfold magnitude. destruct (Z.ltb_spec e (-1074)); [lia|]. destruct (Z.ltb_spec 971 e); [lia|].
  pose proof (pow_pos_ (e + 1074) ltac:(lia)) as Hp. apply Z.mul_le_mono_nonneg_r; [lia|].
  apply Z.max_le_compat_l, Z.min_le_compat_r, H.
Qed.

Lemma units_le a b : fle a b = true -> units a <= units b.
Proof.
  intros H. apply fle_key in H. destruct H as (Ha & Hb & H). unfold klt, keq in H.
  destruct a as [sa|sa| |sa ma ea]; try discriminate Ha; destruct b as [sb|sb| |sb mb eb]; try discriminate Hb;
  try destruct sa; try destruct sb; cbn [k1 k2 k3 units] in *;
  try pose proof (magnitude_range ma ea) as R; try pose proof (magnitude_range mb eb) as R';
  pose proof (pow_pos_ 2098 ltac:(lia)) as P; try lia.
  - destruct H as [[H|[_ [H|[E H]]]]|[_ [E H]]]; try lia.
    + pose proof (magnitude_exp mb eb ma ea). lia.
    + assert (ea = eb) by lia. subst. pose proof (magnitude_man mb ma eb). lia.
    + assert (ea = eb) by lia. subst. pose proof (magnitude_man mb ma eb). lia.
  - destruct H as [[H|[_ [H|[E H]]]]|[_ [E H]]]; try lia.
    + pose proof (magnitude_exp ma ea mb eb). lia.
    + subst. pose proof (magnitude_man ma mb eb). lia.
    + subst. pose proof (magnitude_man ma mb eb). lia.
Qed.
Lemma units_eq a b : feq a b = true -> units a = units b.
Proof.
  intros H. apply feq_key in H. destruct H as (Ha & Hb & K).
  apply Z.le_antisymm; apply units_le, fle_key; unfold keq in *; intuition.
Qed.

Lemma digits_bound m : 2 ^ (Z.pos (digits2_pos m) - 1) <= Z.pos m < 2 ^ Z.pos (digits2_pos m).
Proof.
  induction m as [m IH|m IH|]; cbn [digits2_pos]; [| |lia].
  - rewrite Pos2Z.inj_succ. set (d := Z.pos (digits2_pos m)) in *. assert (0 < d) by lia.
    replace (Z.succ d - 1) with (Z.succ (d - 1)) by lia. rewrite !Z.pow_succ_r by lia. lia.
  - rewrite Pos2Z.inj_succ. set (d := Z.pos (digits2_pos m)) in *. assert (0 < d) by lia.
    replace (Z.succ d - 1) with (Z.succ (d - 1)) by lia. rewrite !Z.pow_succ_r by lia. lia.
Qed.

Lemma valid_range s m e : valid_binary fprec femax (S754_finite s m e) = true ->
  -1074 <= e <= 971 /\ Z.pos m < 2 ^ 53 /\ (e <> -1074 -> 2 ^ 52 <= Z.pos m).
Proof.
  cbn [valid_binary]. unfold bounded, canonical_mantissa. rewrite andb_true_iff. intros [H1 H2].
  apply Zeq_bool_eq in H1. apply Z.leb_le in H2. unfold fexp, emin in H1. 
  pose proof (digits_bound m) as Hd. set (d := Z.pos (digits2_pos m)) in *. unfold fprec, femax in *.
  assert (d <= 53) by lia. split; [lia|]. split.
  - eapply Z.lt_le_trans; [apply Hd|]. apply Z.pow_le_mono_r; lia.
  - intros Hne. assert (d = 53) by lia. rewrite H0 in Hd. apply Hd.
Qed.

(** On the floats of the machine this is the value. *)
Lemma units_exact s m e : valid_binary fprec femax (S754_finite s m e) = true ->
  units (S754_finite s m e) = (if s then -1 else 1) * Z.pos m * 2 ^ (e + 1074).
Proof.
  intros H. destruct (valid_range s m e H) as (H1 & H2 & H3). cbn [units]. unfold magnitude.
  destruct (Z.ltb_spec e (-1074)); [lia|]. destruct (Z.ltb_spec 971 e); [lia|].
  destruct (Z.eqb_spec e (-1074)) as [->|Hne]; [|specialize (H3 Hne)];
  rewrite Z.min_l by lia; rewrite Z.max_r by lia; destruct s; lia.
Qed.

Lemma units_bound s m e : valid_binary fprec femax (S754_finite s m e) = true ->
  0 < magnitude m e < 2 ^ 2098 /\ magnitude m e = Z.pos m * 2 ^ (e + 1074).
Proof.
  intros H. pose proof (units_exact s m e H) as E. cbn [units] in E.
  assert (Em : magnitude m e = Z.pos m * 2 ^ (e + 1074)) by (destruct s; lia).
  destruct (valid_range s m e H) as (H1 & H2 & _). pose proof (pow_pos_ (e + 1074) ltac:(lia)). split; [|exact Em].
  rewrite Em. split; [apply Z.mul_pos_pos; lia|].
  apply Z.lt_le_trans with (2 ^ 53 * 2 ^ (e + 1074)); [apply Z.mul_lt_mono_pos_r; lia|].
  rewrite <- Z.pow_add_r by lia. apply Z.pow_le_mono_r; lia.
Qed.

Lemma magnitude_lt s s' m e m' e' : valid_binary fprec femax (S754_finite s m e) = true ->
  valid_binary fprec femax (S754_finite s' m' e') = true -> e < e' \/ e = e' /\ Z.pos m < Z.pos m' ->
  magnitude m e < magnitude m' e'.
Proof.
  intros V V' H. destruct (valid_range _ _ _ V) as (H1 & H2 & H3). destruct (valid_range _ _ _ V') as (H1' & H2' & H3').
  rewrite (proj2 (units_bound _ _ _ V)), (proj2 (units_bound _ _ _ V')).
  pose proof (pow_pos_ (e + 1074) ltac:(lia)). pose proof (pow_pos_ (e' + 1074) ltac:(lia)). destruct H as [H|[-> H]].
  - apply Z.lt_le_trans with (2 ^ 53 * 2 ^ (e + 1074)); [apply Z.mul_lt_mono_pos_r; lia|].
    apply Z.le_trans with (2 ^ 52 * 2 ^ (e' + 1074)).
    + rewrite <- !Z.pow_add_r by lia. apply Z.pow_le_mono_r; lia.
    + apply Z.mul_le_mono_nonneg_r; lia.
  - apply Z.mul_lt_mono_pos_r; lia.
Qed.

Lemma units_lt a b : machine a -> machine b -> flt a b = true -> units a < units b.
Proof.
  intros [Ha Va] [Hb Vb] H. apply flt_key in H. destruct H as (_ & _ & H). unfold klt in H.
  destruct a as [sa|sa| |sa ma ea]; try discriminate Ha; destruct b as [sb|sb| |sb mb eb]; try discriminate Hb;
  try pose proof (units_bound _ _ _ Va) as R; try pose proof (units_bound _ _ _ Vb) as R';
  try destruct sa; try destruct sb; cbn [k1 k2 k3 units] in *;
  pose proof (pow_pos_ 2098 ltac:(lia)) as P; try lia.
  - pose proof (magnitude_lt _ _ _ _ _ _ Vb Va). lia.
  - pose proof (magnitude_lt _ _ _ _ _ _ Va Vb). lia.
Qed.

(** ** Convex combinations *)

Definition cone (l : list point) (s x y : Q) : Prop :=
  exists ws, length ws = length l /\ Forall (fun w => (0 <= w)%Q) ws /\
    (weighted ws l (fun _ => 1%Q) == s)%Q /\ (weighted ws l xof == x)%Q /\ (weighted ws l yof == y)%Q.

Lemma cone_eq l s x y s' x' y' : (s == s')%Q -> (x == x')%Q -> (y == y')%Q -> cone l s x y -> cone l s' x' y'.
Proof.
  intros E1 E2 E3 (ws & A & B & C & D & E). exists ws. rewrite C, D, E. auto.
Qed.

Lemma weighted_zero l f : (weighted (map (fun _ => 0%Q) l) l f == 0)%Q.
Proof. induction l as [|p l IH]; cbn [map weighted]; [reflexivity|]. rewrite IH. ring. Qed.
Lemma cone_zero l : cone l 0 0 0.
Proof.
  exists (map (fun _ => 0%Q) l). rewrite map_length. split; [reflexivity|]. split.
  - apply Forall_forall. intros w Hw. apply in_map_iff in Hw. destruct Hw as (p & <- & _). apply Qle_refl.
  - rewrite !weighted_zero. repeat split; reflexivity.
Qed.

Lemma weighted_add l f : forall ws vs, length ws = length l -> length vs = length l ->
  (weighted (map (fun wv => fst wv + snd wv) (combine ws vs))%Q l f == weighted ws l f + weighted vs l f)%Q.
Proof.
  induction l as [|p l IH]; intros [|w ws] [|v vs] H1 H2; cbn [map combine weighted fst snd length] in *; try discriminate; [reflexivity|].
  rewrite IH by lia. ring.
Qed.
Lemma cone_add l s x y s' x' y' : cone l s x y -> cone l s' x' y' -> cone l (s + s') (x + x') (y + y').
Proof.
  intros (ws & A & B & C & D & E) (vs & A' & B' & C' & D' & E').
  exists (map (fun wv => (fst wv + snd wv)%Q) (combine ws vs)). rewrite map_length, combine_length.
  split; [lia|]. split.
  - apply Forall_forall. intros z Hz. apply in_map_iff in Hz. destruct Hz as ([w v] & <- & Hin). cbn [fst snd].
    rewrite Forall_forall in B, B'. pose proof (B w (in_combine_l _ _ _ _ Hin)). pose proof (B' v (in_combine_r _ _ _ _ Hin)). lra.
  - rewrite !weighted_add by congruence. rewrite C, D, E, C', D', E'. repeat split; reflexivity.
Qed.

Lemma weighted_scale l f k : forall ws, (weighted (map (Qmult k) ws) l f == k * weighted ws l f)%Q.
Proof.
  induction l as [|p l IH]; intros [|w ws]; cbn [map weighted]; try ring. rewrite IH. ring.
Qed.
Lemma cone_scale l k s x y : (0 <= k)%Q -> cone l s x y -> cone l (k * s) (k * x) (k * y).
Proof.
  intros Hk (ws & A & B & C & D & E). exists (map (Qmult k) ws). rewrite map_length. split; [exact A|]. split.
  - apply Forall_forall. intros z Hz. apply in_map_iff in Hz. destruct Hz as (w & <- & Hin).
    rewrite Forall_forall in B. apply Qmult_le_0_compat; auto.
  - rewrite !weighted_scale, C, D, E. repeat split; reflexivity.
Qed.

Lemma cone_skip p l s x y : cone l s x y -> cone (p :: l) s x y.
Proof.
  intros (ws & A & B & C & D & E). exists (0%Q :: ws). cbn [length weighted]. split; [congruence|]. split; [constructor; [apply Qle_refl|exact B]|].
  rewrite C, D, E. repeat split; ring.
Qed.
Lemma cone_member p l : In p l -> cone l 1 (xof p) (yof p).
Proof.
  induction l as [|q l IH]; intros H; [destruct H|]. destruct H as [-> |H]; [|apply cone_skip; auto].
  destruct (cone_zero l) as (ws & A & B & C & D & E). exists (1%Q :: ws). cbn [length weighted]. split; [congruence|].
  split; [constructor; [lra|exact B]|]. rewrite C, D, E. repeat split; ring.
Qed.

Lemma in_hull_member p l : In p l -> in_hull l (xof p, yof p).
Proof. exact (cone_member p l). Qed.

Lemma hull_incl l l' : (forall p, In p l -> in_hull l' (xof p, yof p)) -> forall q, in_hull l q -> in_hull l' q.
Proof.
  intros H q (ws & A & B & C & D & E).
  assert (K : forall l ws, length ws = length l -> Forall (fun w => (0 <= w)%Q) ws -> (forall p, In p l -> in_hull l' (xof p, yof p)) ->
    cone l' (weighted ws l (fun _ => 1%Q)) (weighted ws l xof) (weighted ws l yof)).
  { clear. induction l as [|p l IH]; intros [|w ws] Hl Hw H; try discriminate; cbn [weighted]; [apply cone_zero|].
    inversion Hw; subst. apply cone_add; [|apply IH; auto; intros; apply H; cbn; auto].
    apply (cone_scale l' w 1 (xof p) (yof p)); [assumption|]. apply (H p). cbn; auto. }
  eapply cone_eq; [exact C|exact D|exact E|]. apply K; auto.
Qed.
Lemma hull_sub l l' : (forall p, In p l -> In p l') -> forall q, in_hull l q -> in_hull l' q.
Proof. intros H. apply hull_incl. intros p Hp. apply in_hull_member, H, Hp. Qed.

Lemma weighted_ge l f lo : (forall p, In p l -> (lo <= f p)%Q) -> forall ws, length ws = length l -> Forall (fun w => (0 <= w)%Q) ws ->
  (lo * weighted ws l (fun _ => 1) <= weighted ws l f)%Q.
Proof.
  induction l as [|p l IH]; intros H [|w ws] Hl Hw; try discriminate; cbn [weighted]; [rewrite Qmult_0_r; apply Qle_refl|].
  inversion Hw; subst. assert (K := IH (fun p0 Hp => H p0 (or_intror Hp)) ws ltac:(cbn in Hl; lia) H3).
  pose proof (H p (or_introl eq_refl)). assert (0 <= w * (f p - lo))%Q by (apply Qmult_le_0_compat; lra). lra.
Qed.
Lemma weighted_opp l f : forall ws, (weighted ws l (fun p => - f p) == - weighted ws l f)%Q.
Proof. induction l as [|p l IH]; intros [|w ws]; cbn [weighted]; try reflexivity. rewrite IH. ring. Qed.
Lemma weighted_le l f hi : (forall p, In p l -> (f p <= hi)%Q) -> forall ws, length ws = length l -> Forall (fun w => (0 <= w)%Q) ws ->
  (weighted ws l f <= hi * weighted ws l (fun _ => 1))%Q.
Proof.
  intros H ws Hl Hw. assert (K : (- hi * weighted ws l (fun _ => 1) <= weighted ws l (fun p => - f p))%Q).
  { apply weighted_ge; auto. intros p Hp. specialize (H p Hp). lra. }
  rewrite weighted_opp in K. lra.
Qed.

Definition pt_in_box (b : mbr) (p : point) : Prop := in_box b (xof p, yof p).
Lemma hull_in_box b l : (forall p, In p l -> pt_in_box b p) -> forall q, in_hull l q -> in_box b q.
Proof.
  intros H q (ws & A & B & C & D & E).
  assert (L1 := weighted_ge l xof (inject_Z (units (minx b))) (fun p Hp => proj1 (H p Hp)) ws A B).
  assert (L2 := weighted_le l xof (inject_Z (units (maxx b))) (fun p Hp => proj1 (proj2 (H p Hp))) ws A B).
  assert (L3 := weighted_ge l yof (inject_Z (units (miny b))) (fun p Hp => proj1 (proj2 (proj2 (H p Hp)))) ws A B).
  assert (L4 := weighted_le l yof (inject_Z (units (maxy b))) (fun p Hp => proj2 (proj2 (proj2 (H p Hp)))) ws A B).
  rewrite C, D, E in *. unfold in_box. repeat split; lra.
Qed.

Lemma polyline_in_hull l q : on_polyline l q -> in_hull l q.
Proof.
  intros (u & a & b & w & -> & H). revert H. apply hull_sub. intros p [<- |[<- |[]]]; apply in_or_app; cbn; auto.
Qed.

Lemma box_within_places a b : box_within a b = true -> forall q, in_box a q -> in_box b q.
Proof.
  unfold box_within. rewrite !andb_true_iff. intros [[[H1 H2] H3] H4] q (A & B & C & D).
  apply units_le in H1, H2, H3, H4. rewrite Zle_Qle in H1, H2, H3, H4. unfold in_box. repeat split; lra.
Qed.
Lemma in_box_ordered b q : in_box b q -> units (minx b) <= units (maxx b) /\ units (miny b) <= units (maxy b).
Proof. intros (A & B & C & D). rewrite !Zle_Qle. split; lra. Qed.

(** ** The facts used about the program *)

Lemma zseq_nat i j : i <= j + 1 -> length (zseq i j) = Z.to_nat (j - i + 1).
Proof. intros H. pose proof (zseq_len i j H) as E. unfold zlen in E. lia. Qed.

Section Plane.
Context (L : geomlib) (D : geometry -> place -> Prop) (HP : plane_library L D).

Lemma part_points pts a b : 0 <= a -> a < b -> b < zlen pts -> Forall num_pt pts ->
  (2 <= length (points_of pts (Rng a b)))%nat /\ points_of pts (Rng a b) <> [] /\ Forall num_pt (points_of pts (Rng a b)) /\
  (forall p, In p (points_of pts (Rng a b)) -> In p pts).
Proof.
  intros Ha Hab Hb Hn. unfold points_of. cbn [rI rJ].
  assert (Hl : length (map (fun k => nth (Z.to_nat k) pts origin) (zseq a b)) = Z.to_nat (b - a + 1))
    by (rewrite map_length, zseq_nat; lia).
  assert (Hin : forall p, In p (map (fun k => nth (Z.to_nat k) pts origin) (zseq a b)) -> In p pts).
  { intros p Hp. apply in_map_iff in Hp. destruct Hp as (k & <- & Hk). apply zseq_in in Hk. apply nth_In. unfold zlen in Hb. lia. }
  split; [lia|]. split; [intros E; rewrite E in Hl; cbn in Hl; lia|]. split; [|exact Hin].
  rewrite Forall_forall in *. auto.
Qed.

Lemma part_vertex pts a b k : a <= k <= b -> In (Spec_Out.vertex pts k) (points_of pts (Rng a b)).
Proof. intros H. unfold points_of, Spec_Out.vertex. apply in_map_iff. exists k. split; [reflexivity|]. apply zseq_in. cbn. lia. Qed.

Ltac nums := repeat (apply Forall_cons; [first [assumption|split; assumption]|]); apply Forall_nil.
Lemma box_polygon_num b b' : box_within b b' = true -> number_geometry (mbr_polygon b').
Proof.
  unfold box_within. rewrite !andb_true_iff. intros [[[H1 H2] H3] H4].
  apply fle_key in H1, H2, H3, H4. destruct H1 as (A1 & A2 & _), H2 as (B1 & B2 & _), H3 as (C1 & C2 & _), H4 as (D1 & D2 & _).
  split; [discriminate|]. split; [|exact I]. cbn [mbr_polygon geometry_pts concat app]. nums.
Qed.

(** A box around a geometry is not farther than the geometry. *)
Lemma plane_box_distance query g : number_geometry query -> number_geometry g ->
  box_distance_ok L query g (gl_bounds L g).
Proof.
  intros Hq Hg b Hb. apply (pl_closer L D HP); auto; [eapply box_polygon_num; exact Hb|].
  intros q Hd. pose proof (box_within_places _ _ Hb q (pl_bounds L D HP g q Hg Hd)) as K.
  apply (pl_box L D HP); [apply (in_box_ordered b q K)..|exact K].
Qed.

Lemma seg_number a b : num_pt a -> num_pt b -> number_geometry (GSeg a b).
Proof. intros. split; [discriminate|]. split; [|exact I]. cbn. nums. Qed.
Lemma point_number a : num_pt a -> number_geometry (GPoint a).
Proof. intros. split; [discriminate|]. split; [|exact I]. cbn. nums. Qed.
Lemma line_number l : (2 <= length l)%nat -> Forall num_pt l -> number_geometry (GLine l).
Proof. intros H1 H2. split; [destruct l; [cbn in H1; lia|discriminate]|]. auto. Qed.
Lemma triangle_number a b c : num_pt a -> num_pt b -> num_pt c -> number_geometry (GPoly [[a; b; c; a]]).
Proof. intros. split; [discriminate|]. split; [|exact I]. cbn. nums. Qed.

Lemma plane_hull_encloses pts a b g : 0 <= a -> a < b -> b < zlen pts -> Forall num_pt pts -> number_geometry g ->
  hull_encloses L (part L pts a b) g.
Proof.
  intros Ha Hab Hb Hn Hg. destruct (part_points pts a b Ha Hab Hb Hn) as (H2 & Hne & Hnum & Hin).
  unfold hull_encloses, part, create_node, n_line, n_seg. cbn [n_coords n_geom].
  change (cpts (sub_coords pts (Rng a b))) with (points_of pts (Rng a b)).
  set (l := points_of pts (Rng a b)) in *.
  assert (Hf : In (cfirst (sub_coords pts (Rng a b))) l).
  { unfold cfirst, cpt, sub_coords, l, points_of. cbn [cidxs cpnts rI rJ]. apply in_map_iff.
    exists (nth (Z.to_nat 0) (zseq a b) 0). split; [reflexivity|]. apply nth_In. rewrite zseq_nat; lia. }
  assert (Hla : In (clast (sub_coords pts (Rng a b))) l).
  { unfold clast, cpt, sub_coords, l, points_of, clen. cbn [cidxs cpnts rI rJ]. apply in_map_iff.
    eexists. split; [reflexivity|]. apply nth_In. unfold zlen. rewrite zseq_nat; lia. }
  pose proof (pl_hull_num L D HP l Hne Hnum) as Hh. set (h := hull_geometry (gl_hull L l)) in *.
  assert (Dh : forall q, D h q <-> in_hull l q) by (intros q; apply (pl_hull L D HP), Hne).
  rewrite Forall_forall in Hnum.
  assert (Hs : number_geometry (GSeg (cfirst (sub_coords pts (Rng a b))) (clast (sub_coords pts (Rng a b))))) by (apply seg_number; auto).
  assert (Ds : forall q, D (GSeg (cfirst (sub_coords pts (Rng a b))) (clast (sub_coords pts (Rng a b)))) q -> D h q).
  { intros q Hq. apply Dh. apply (pl_seg L D HP) in Hq. revert Hq. apply hull_sub. intros p [<- |[<- |[]]]; assumption. }
  split; [|split; [|split]].
  - intros H. apply (pl_isect L D HP) in H; [|apply line_number; [lia|apply Forall_forall; exact Hnum]|exact Hg].
    destruct H as (q & Q1 & Q2). apply (pl_touch L D HP h g q); auto. apply Dh, polyline_in_hull, (pl_line L D HP); auto.
  - intros H. apply (pl_isect L D HP) in H; [|exact Hs|exact Hg]. destruct H as (q & Q1 & Q2). apply (pl_touch L D HP h g q); auto.
  - intros u v w Hu Hv Hw H. apply (pl_isect L D HP) in H; [|apply triangle_number; auto|exact Hg]. destruct H as (q & Q1 & Q2).
    apply (pl_touch L D HP h g q); auto. apply Dh. apply (pl_triangle L D HP) in Q1. revert Q1. apply hull_sub.
    intros p [<- |[<- |[<- |[]]]]; assumption.
  - apply (pl_closer L D HP); auto.
Qed.

Lemma loc_eq_self p : num_pt p -> loc_eq p p = true.
Proof.
  intros [Hx Hy]. unfold loc_eq. apply andb_true_iff. split; apply feq_key; unfold keq; auto.
Qed.

Lemma plane_geometry_ok cs pts : Forall num_pt pts -> Forall number_geometry cs -> geometry_ok L cs pts.
Proof.
  intros Hn Hc. rewrite Forall_forall in Hc. split.
  - intros p Hp. rewrite Forall_forall in Hn. rewrite (pl_eq L D HP) by auto. apply loc_eq_self; auto.
  - intros a b g Ha Hab Hb Hg. destruct (part_points pts a b Ha Hab Hb Hn) as (_ & Hne & Hnum & _).
    split; [apply plane_hull_encloses; auto|]. apply plane_box_distance; auto. apply (pl_hull_num L D HP); auto.
Qed.

Lemma piece_number pts r : Forall num_pt pts -> piece pts r -> number_geometry (piece_hull L pts r).
Proof.
  intros Hn (H1 & H2 & H3). destruct r as [a b]. cbn [rI rJ] in *.
  destruct (part_points pts a b H1 H2 H3 Hn) as (_ & Hne & Hnum & _). apply (pl_hull_num L D HP); auto.
Qed.

Lemma plane_not_farther pts c : Forall num_pt pts -> num_pt (fst c) -> boxes_not_farther L pts c.
Proof.
  intros Hn Hc r b Hr Hb. apply (plane_box_distance (GPoint (fst c)) (piece_hull L pts r)); auto.
  - apply point_number; exact Hc.
  - apply piece_number; auto.
Qed.

Lemma loc_eq_places p q x : loc_eq p q = true -> in_hull [p] x -> in_hull [q] x.
Proof.
  unfold loc_eq. rewrite andb_true_iff. intros [H1 H2] (ws & A & B & C & E & F). apply units_eq in H1, H2.
  exists ws. destruct ws as [|w [|? ?]]; try discriminate. cbn [weighted] in *. unfold xof, yof in *. rewrite <- H1, <- H2. auto.
Qed.

Lemma loc_eq_num p q : loc_eq p q = true -> num_pt p /\ num_pt q.
Proof.
  unfold loc_eq. rewrite andb_true_iff. intros [H1 H2]. apply feq_key in H1, H2. unfold num_pt. tauto.
Qed.

(** A location of the line is on every part with a vertex there. *)
Lemma plane_vertex_location pts c : Forall num_pt pts -> num_pt (fst c) ->
  (forall k, In k (snd c) -> loc_eq (fst c) (Spec_Out.vertex pts k) = true) ->
  location_on_hulls L pts c.
Proof.
  intros Hn Hc Hk r k Hr Hin Hi. pose proof (piece_number pts r Hn Hr) as Hh. destruct r as [a b]. destruct Hr as (H1 & H2 & H3). cbn [rI rJ] in *.
  assert (E : fle (gl_dist L (GPoint (fst c)) (piece_hull L pts (Rng a b))) fzero = true).
  { apply (pl_touch L D HP) with (xof (fst c), yof (fst c)); auto.
    - apply point_number; exact Hc.
    - apply (pl_point L D HP), in_hull_member. cbn; auto.
    - destruct (part_points pts a b H1 H2 H3 Hn) as (_ & Hne & Hnum & _).
      apply (pl_hull L D HP); [exact Hne|]. apply (hull_sub [Spec_Out.vertex pts k]).
      + intros p [<- |[]]. apply part_vertex. lia.
      + apply (loc_eq_places (fst c)); auto. apply in_hull_member. cbn; auto. }
  eapply fle_trans; [exact E|reflexivity].
Qed.

(** A crossing is near every part that contains one of the two segments. *)
Lemma plane_crossing_location segx pts c : crossings_near L segx -> Forall num_pt pts ->
  crossing_location segx pts c -> num_pt (fst c) /\ location_on_hulls L pts c.
Proof.
  intros Hx Hn (s & o & (Hs & Ho & Hne & _ & ip & Hip & Ep & _) & _ & Hks). unfold is_segment in Hs, Ho.
  assert (Hv : forall k, 0 <= k < zlen pts -> num_pt (nth (Z.to_nat k) pts origin)).
  { intros k Hk. rewrite Forall_forall in Hn. apply Hn, nth_In. unfold zlen in Hk. lia. }
  destruct (Hx _ _ _ _ ip (Hv s ltac:(lia)) (Hv (s + 1) ltac:(lia)) (Hv o ltac:(lia)) (Hv (o + 1) ltac:(lia)) Hip) as (Np & D1 & D2).
  rewrite Ep in *. split; [exact Np|]. intros r k Hr Hk Hin. pose proof (piece_number pts r Hn Hr) as Hh.
  destruct r as [a b]. destruct Hr as (H1 & H2 & H3). cbn [rI rJ] in *.
  destruct (part_points pts a b H1 H2 H3 Hn) as (_ & Hpne & Hnum & _).
  assert (K : forall t, a <= t -> t + 1 <= b ->
    fle (gl_dist L (GPoint (fst c)) (GSeg (nth (Z.to_nat t) pts origin) (nth (Z.to_nat (t + 1)) pts origin))) epsilon_dist = true ->
    fle (gl_dist L (GPoint (fst c)) (piece_hull L pts (Rng a b))) epsilon_dist = true).
  { intros t Ht Ht' Hd. eapply fle_trans; [|exact Hd]. apply (pl_closer L D HP); auto.
    - apply point_number; exact Np.
    - apply point_number; exact Np.
    - apply seg_number; apply Hv; lia.
    - intros q Hq. apply (pl_seg L D HP) in Hq. apply (pl_hull L D HP); [exact Hpne|]. revert Hq. apply hull_sub.
      intros p [<- |[<- |[]]]; [apply (part_vertex pts a b t)|apply (part_vertex pts a b (t + 1))]; lia. }
  apply Hks in Hk. destruct Hk as [-> |[-> |[-> | ->]]]; [apply (K s)|apply (K s)|apply (K o)|apply (K o)]; try lia; assumption.
Qed.

(** Boxes of triangles. *)
Lemma machine_num p : machine_pt p -> num_pt p.
Proof. intros [[A _] [B _]]. split; assumption. Qed.

Lemma pt_box_in p b : box_in (pt_box p) b -> pt_in_box b p.
Proof.
  intros H. apply box_in_iff in H. cbn [pt_box minx miny maxx maxy] in H. unfold pt_in_box, in_box, xof, yof. cbn [fst snd].
  destruct H as (A & B & C & E). apply units_le in A, B, C, E. rewrite Zle_Qle in A, B, C, E. auto.
Qed.

Lemma plane_boxes_enclose c ctxs : Forall machine_pt (cpts c) ->
  Forall (fun g => number_geometry g /\ Forall machine_pt (geometry_pts g)) ctxs -> boxes_enclose L c ctxs.
Proof.
  intros Hc Hg a b d g Ia Ib Id Hin H. rewrite Forall_forall in Hc, Hg. destruct (Hg g Hin) as [Ng Mg].
  pose proof (Hc a Ia) as Ma. pose proof (Hc b Ib) as Mb. pose proof (Hc d Id) as Md.
  pose proof (machine_num a Ma) as Na. pose proof (machine_num b Mb) as Nb. pose proof (machine_num d Md) as Nd.
  apply (pl_isect L D HP) in H; [|apply triangle_number; auto|exact Ng]. destruct H as (q & Q1 & Q2).
  apply (pl_triangle L D HP) in Q1. apply (pl_bounds L D HP) in Q2; [|exact Ng].
  assert (NB : forall p, num_pt p -> box_nonan (pt_box p)) by (intros p [? ?]; repeat split; assumption).
  pose proof (expand_l _ _ (NB a Na) (NB b Nb)) as E1. pose proof (expand_r _ _ (NB a Na) (NB b Nb)) as E2.
  pose proof (box_in_nan_r _ _ E1) as Nab.
  pose proof (expand_l _ _ Nab (NB d Nd)) as E3. pose proof (expand_r _ _ Nab (NB d Nd)) as E4.
  assert (B1 : in_box (tri_box a b d) q).
  { revert Q1. apply hull_in_box. intros p [<- |[<- |[<- |[]]]]; apply pt_box_in; unfold tri_box; auto; eapply box_in_trans; eauto. }
  assert (M1 : machine_box (tri_box a b d)).
  { assert (K : forall p, machine_pt p -> box_all machine (pt_box p)) by (intros p [? ?]; repeat split; assumption || apply H || apply H0).
    unfold tri_box. apply (expand_all machine); [apply expand_all|]; apply K; assumption. }
  pose proof (pl_bounds_machine L D HP g (proj1 Ng) Mg) as M2.
  destruct M1 as (M11 & M12 & M13 & M14), M2 as (M21 & M22 & M23 & M24).
  destruct B1 as (X1 & X2 & Y1 & Y2), Q2 as (X3 & X4 & Y3 & Y4).
  unfold mbr_intersects. rewrite negb_true_iff, !orb_false_iff. unfold fgt.
  repeat split; match goal with |- ?f ?x ?y = false => destruct (f x y) eqn:E; [|reflexivity] end; exfalso;
    apply units_lt in E; auto; rewrite Zlt_Qlt in E; lra.
Qed.
End Plane.
