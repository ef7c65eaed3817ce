(** A second concrete geometry library for examples: every geometry is taken as its
    bounding box, and the distance is 0 or 1.  Unlike Toy.v it is simple enough for the
    geometric hypotheses of the theorems to be proved of it, which shows that they can be
    met together.  It is not part of the model of the program. *)
From Verif Require Import M_Base M_Float M_Rng M_Geom M_Node M_Hdb M_Homotopy
  Spec_Hdb Spec_Lnr Spec_Relate P_Base P_Float P_Hdb P_HdbIns P_HdbHist Toy.
Open Scope Z_scope.

Definition pts_box (l : list point) : mbr :=
  match l with
  | [] => pt_box origin
  | p :: r => fold_left (fun b q => expand b (pt_box q)) r (pt_box p)
  end.
Definition fone : f64 := f_of_Z 1.
Definition bx_bounds (g : geometry) : mbr := pts_box (verts g).
Definition bx_isect (g h : geometry) : bool := boxes_meet (bx_bounds g) (bx_bounds h).
Definition bx_dist (g h : geometry) : f64 := if bx_isect g h then fzero else fone.
Definition bx_inter (g h : geometry) : list point :=
  let l := filter (fun p => boxes_meet (bx_bounds h) (pt_box p)) (verts g) in
  match h with GPoint _ => firstn 1 l | _ => l end.
Definition bx_hull (l : list point) : point * list point :=
  match l with [] => (origin, []) | p :: r => (p, r) end.
Definition boxy : geomlib :=
  GeomLib bx_hull bx_isect bx_inter bx_dist bx_bounds loc_eq
    (fun r p => boxes_meet (pts_box r) (pt_box p)) (fun p q => if loc_eq p q then fzero else fone).

Definition num_pts (l : list point) : Prop := l <> [] /\ Forall num_pt l.
Definition num_geom (g : geometry) : Prop := num_pts (verts g).

Lemma pt_box_nonan p : num_pt p -> box_nonan (pt_box p).
Proof. intros [? ?]. repeat split; auto. Qed.

Lemma box_in_within a b : box_in a b <-> box_within a b = true.
Proof.
  rewrite box_in_iff. unfold box_within. rewrite !andb_true_iff. tauto.
Qed.

Lemma fold_box r : forall b, box_nonan b -> Forall num_pt r ->
  let B := fold_left (fun b q => expand b (pt_box q)) r b in
  box_nonan B /\ box_in b B /\ forall p, In p r -> box_in (pt_box p) B.
Proof.
  induction r as [|q r IH]; intros b Hb Hr; cbn [fold_left].
  - cbv zeta. split; auto. split; [apply box_in_refl; auto|cbn; tauto].
  - inversion Hr; subst. pose proof (pt_box_nonan q H1) as Hq.
    pose proof (expand_l _ _ Hb Hq) as El. pose proof (expand_r _ _ Hb Hq) as Er.
    assert (Hn : box_nonan (expand b (pt_box q))).
    { eapply box_in_nan_r; eauto. }
    destruct (IH _ Hn H2) as [I1 [I2 I3]]. cbv zeta. split; auto. split.
    + eapply box_in_trans; eauto.
    + intros p [<- |Hp]; auto. eapply box_in_trans; eauto.
Qed.

Lemma pts_box_in l : num_pts l ->
  box_nonan (pts_box l) /\ forall p, In p l -> box_in (pt_box p) (pts_box l).
Proof.
  intros [Hne Hn]. destruct l as [|p r]; [congruence|]. inversion Hn; subst.
  destruct (fold_box r (pt_box p) (pt_box_nonan p H1) H2) as [I1 [I2 I3]].
  split; auto. intros q [<- |Hq]; auto.
Qed.

Lemma fold_box_lub r : forall b B, box_in b B -> (forall p, In p r -> box_in (pt_box p) B) ->
  box_in (fold_left (fun b q => expand b (pt_box q)) r b) B.
Proof.
  induction r as [|q r IH]; intros b B Hb Hr; cbn; auto. apply IH.
  - apply expand_lub; auto. apply Hr; cbn; auto.
  - intros; apply Hr; cbn; auto.
Qed.
Lemma pts_box_lub l B : l <> [] -> (forall p, In p l -> box_in (pt_box p) B) -> box_in (pts_box l) B.
Proof.
  intros Hne H. destruct l as [|p r]; [congruence|]. apply fold_box_lub; [apply H; cbn; auto|].
  intros; apply H; cbn; auto.
Qed.

Lemma pts_box_sub l l' : num_pts l' -> l <> [] -> (forall p, In p l -> In p l') ->
  box_in (pts_box l) (pts_box l').
Proof.
  intros H Hne Hsub. apply pts_box_lub; auto. intros p Hp. apply pts_box_in; auto.
Qed.

Lemma meet_sym a b : boxes_meet a b = boxes_meet b a.
Proof.
  unfold boxes_meet. destruct (fle (minx a) (maxx b)), (fle (minx b) (maxx a)),
    (fle (miny a) (maxy b)), (fle (miny b) (maxy a)); reflexivity.
Qed.
Lemma meet_mono a a' b : box_in a a' -> boxes_meet a b = true -> boxes_meet a' b = true.
Proof.
  intros Hi H. apply box_in_iff in Hi. destruct Hi as (A & B & C & D). unfold boxes_meet in *. rewrite !andb_true_iff in *.
  destruct H as [[[H1 H2] H3] H4]. repeat split; eapply fle_trans; eauto.
Qed.
Lemma meet_mono2 a b b' : box_in b b' -> boxes_meet a b = true -> boxes_meet a b' = true.
Proof. rewrite !(meet_sym a). apply meet_mono. Qed.

Lemma dist_mono g g' h h' :
  (bx_isect g' h' = true -> bx_isect g h = true) -> fle (bx_dist g h) (bx_dist g' h') = true.
Proof.
  unfold bx_dist. intros H. destruct (bx_isect g' h').
  - rewrite H; auto.
  - destruct (bx_isect g h); reflexivity.
Qed.

(** The ring of the corners of an ordered box has that box. *)
Lemma corner_in b : box_in b b -> fle (minx b) (maxx b) = true -> fle (miny b) (maxy b) = true ->
  box_in b (bx_bounds (mbr_polygon b)).
Proof.
  intros Hb Hx Hy.
  assert (N : num_pts (verts (mbr_polygon b))).
  { apply box_in_iff in Hb. destruct Hb as (A & B & C & D). split; [discriminate|].
    cbn. repeat constructor; cbn; eauto using fle_nan_l. }
  destruct (pts_box_in _ N) as [_ I].
  pose proof (I (Pt (minx b) (miny b) fzero)) as I1. pose proof (I (Pt (maxx b) (maxy b) fzero)) as I2.
  specialize (I1 ltac:(cbn; auto)). specialize (I2 ltac:(cbn; auto)).
  apply box_in_iff in I1, I2. cbn in I1, I2. apply box_in_iff. tauto.
Qed.

(** Hulls of this library: the geometry has the vertices of the line. *)
Lemma hull_verts l : l <> [] -> forall p, In p l <-> In p (verts (hull_geometry (bx_hull l))).
Proof.
  intros Hne p. destruct l as [|a [|b [|c r]]]; [congruence|..]; cbn; try tauto.
  rewrite app_nil_r. cbn. tauto.
Qed.
Lemma hull_verts_ne l : verts (hull_geometry (bx_hull l)) <> [].
Proof. destruct l as [|a [|b [|c r]]]; cbn; congruence. Qed.

(** ** The geometric laws *)

(** Parts of the line touch only what the hull touches. *)
Lemma boxy_part l part g : num_pts l -> verts part <> [] -> (forall p, In p (verts part) -> In p l) ->
  bx_isect part g = true -> bx_isect (hull_geometry (bx_hull l)) g = true.
Proof.
  intros Hl Hne Hsub. unfold bx_isect. apply meet_mono. unfold bx_bounds.
  apply pts_box_sub; auto.
  - split; [apply hull_verts_ne|]. apply Forall_forall. intros p Hp.
    apply hull_verts in Hp; [|apply Hl]. destruct Hl as [_ Hl]. rewrite Forall_forall in Hl; auto.
  - intros p Hp. apply (proj1 (hull_verts l (proj1 Hl) p)). auto.
Qed.

(** A box is no farther than what it encloses. *)
Lemma boxy_box_dist q b g : num_geom g ->
  box_within (bx_bounds g) b = true ->
  fle (bx_dist q (mbr_polygon b)) (bx_dist q g) = true.
Proof.
  intros Hg Hw. apply dist_mono. unfold bx_isect. apply meet_mono2.
  apply box_in_within in Hw. destruct (pts_box_in _ Hg) as [Hn Hp].
  assert (Ho : exists p, In p (verts g)) by (destruct (verts g) as [|p r] eqn:E; [destruct Hg; congruence|exists p; cbn; auto]).
  destruct Ho as [p Hin]. specialize (Hp p Hin). unfold bx_bounds in *.
  pose proof Hw as Hw'. apply box_in_iff in Hp, Hw.
  destruct Hp as (P1 & P2 & P3 & P4), Hw as (W1 & W2 & W3 & W4). cbn [pt_box minx miny maxx maxy] in *.
  assert (X : fle (minx b) (maxx b) = true).
  { eapply fle_trans; [exact W1|]. eapply fle_trans; [exact P1|].
    eapply fle_trans; [|exact W2]. exact P2. }
  assert (Y : fle (miny b) (maxy b) = true).
  { eapply fle_trans; [exact W3|]. eapply fle_trans; [exact P3|].
    eapply fle_trans; [|exact W4]. exact P4. }
  eapply box_in_trans; [exact Hw'|]. apply corner_in; auto.
  apply box_in_refl. eapply box_in_nan_r; eauto.
Qed.
