(** A reference simplification over ranges: what the constrained simplification of one line
    computes once the ids, the index and the orders of iteration are forgotten. *)
From Verif Require Import M_Base M_Float M_Rng M_Geom M_Offset M_Node M_Decompose M_Split M_Hdb M_Knn M_Lnr M_Homotopy M_Relate
  M_Deform M_Constrain M_ConstDP Spec Spec_Hdb Spec_Relate
  P_Base P_Float P_Decompose P_Split P_Node P_Hdb P_HdbIns P_HdbLoad P_HdbHist P_Knn P_Homotopy P_Relate P_Db P_Bag
  P_Constrain P_Deform P_ConstDP P_Aggregate P_Simplify P_DpTree.
Open Scope Z_scope.

(** ** The relations do not depend on the order of the constraints *)

Lemma homotopy_set L c a b : 2 <= clen c -> (forall g, In g a <-> In g b) -> homotopy L c a = homotopy L c b.
Proof.
  intros Hn Hab. unfold homotopy, filter_context.
  set (fx := fun g => negb (ctx_both L c g) && negb (ctx_disjoint L c g)).
  set (fd := fun g => negb (ctx_both L c g) && ctx_disjoint L c g). cbv beta iota.
  assert (Hf : forall f g, In g (filter f a) <-> In g (filter f b)) by (intros f g; rewrite !filter_In, Hab; reflexivity).
  pose proof (Hf fx) as Hx. pose proof (Hf fd) as Hd.
  destruct (filter fx a) as [|x1 r1], (filter fx b) as [|x2 r2]; auto.
  2: { exfalso. apply (proj2 (Hx x2)). left; auto. }
  2: { exfalso. apply (proj1 (Hx x1)). left; auto. }
  assert (Ec : chain_deformation L c (filter fd a) = chain_deformation L c (filter fd b)).
  { unfold chain_deformation. apply (ch_loop_inv (clen c)); [|lia|apply new_inv].
    intros st v _ _. unfold collapse_vertex. destruct (ch_prev st v); auto. destruct (ch_next st v); auto.
    unfold tri_collapsible. apply forallb_iff. split; intros H g Hg; apply H; rewrite filter_In in *; destruct Hg; split; auto; apply Hd; auto. }
  destruct (filter fd a) as [|g1 s1], (filter fd b) as [|g2 s2]; auto.
  - exfalso. apply (proj2 (Hd g2)). left; auto.
  - exfalso. apply (proj1 (Hd g1)). left; auto.
  - rewrite Ec. reflexivity.
Qed.

Definition res_true (r : res bool) : bool := match r with Ok b => b | _ => false end.
Definition rel_ok (L : geomlib) (o : opts) (h : node) (ctxs : list geometry) : bool :=
  (negb (o_geom o) || geom_relate_valid L h ctxs) &&
  (negb (o_dist o) || dist_relate_valid L (o_min_dist o) h ctxs) &&
  (negb (o_dir o) || res_true (homotopy L (n_coords h) ctxs)).

Lemma rel_ok_set L o h a b : 2 <= clen (n_coords h) -> (forall g, In g a <-> In g b) -> rel_ok L o h a = rel_ok L o h b.
Proof.
  intros Hn Hab. unfold rel_ok. rewrite (homotopy_set L _ a b Hn Hab). f_equal. f_equal; f_equal.
  - apply eq_true_iff_eq. rewrite !geom_relate_spec. unfold geom_relation_holds. split; intros H g Hg; apply H, Hab, Hg.
  - apply eq_true_iff_eq. rewrite !dist_relate_spec. unfold dist_relation_holds. split; intros H g Hg; apply H, Hab, Hg.
Qed.

Lemma validate_rel L pop o t h objs : 2 <= clen (n_coords h) ->
  context_neighbours L pop t (n_geom h) (o_min_dist o) = Ok objs ->
  validate_context L pop o t h = Ok (rel_ok L o h (map n_geom objs)).
Proof.
  intros Hn E. unfold validate_context, rel_ok, dir_relate_valid.
  destruct (homotopy_total L (n_coords h) (map n_geom objs) Hn) as [bh Eh].
  destruct (o_geom o), (o_dist o), (o_dir o); cbn [orb negb]; try rewrite E; cbn [bind andb]; try reflexivity;
    rewrite ?Eh; cbn [res_true];
    destruct (geom_relate_valid L h (map n_geom objs)), (dist_relate_valid L (o_min_dist o) h (map n_geom objs)), bh; reflexivity.
Qed.

(** ** Hulls that differ in id and instance only *)

Definition twin (a b : node) : Prop := n_coords a = n_coords b /\ n_rng a = n_rng b /\ n_geom a = n_geom b.
Definition is_some {A} (o : option A) : bool := match o with Some _ => true | None => false end.
Definition flags (r : res (option node * option node)) : res (bool * bool) :=
  match r with Ok (a, b) => Ok (is_some a, is_some b) | Panic => Panic | NoFuel => NoFuel end.

Lemma contig_loop_twin L a a' b b' l : twin a a' -> twin b b' -> forall c, contig_loop L a b l c = contig_loop L a' b' l c.
Proof.
  intros (A1 & A2 & A3) (B1 & B2 & B3). induction l as [|p r IH]; intros c; cbn [contig_loop]; [reflexivity|].
  unfold ends_meet. rewrite A1, B1, IH. reflexivity.
Qed.
Lemma collapsible_twin L a a' b b' : twin a a' -> twin b b' -> collapsible L a b = collapsible L a' b'.
Proof. intros (A1 & A2 & A3) (B1 & B2 & B3). unfold collapsible. rewrite A1, A2, A3, B1. reflexivity. Qed.
Lemma pair_twin L disp a a' b b' : twin a a' -> twin b b' ->
  flags (pair_candidates L disp false a b) = flags (pair_candidates L disp false a' b').
Proof.
  intros Ha Hb. unfold pair_candidates. cbn [negb orb]. unfold is_contiguous. rewrite (contig_loop_twin L a a' b b' _ Ha Hb).
  unfold contiguous_candidates. rewrite (collapsible_twin L a a' b b' Ha Hb), (collapsible_twin L b b' a a' Hb Ha).
  unfold non_contiguous_candidates, n_seg, n_line.
  destruct Ha as (A1 & A2 & A3), Hb as (B1 & B2 & B3). rewrite A1, A3, B1, B3.
  destruct (gl_isect L (n_geom a') (n_geom b')); cbn [negb]; [|reflexivity].
  destruct (contig_loop _ _ _ _ _); cbn [andb negb].
  - destruct (1 <? _); [|reflexivity]. destruct (collapsible L a' b') as [x| |]; cbn [bind]; try reflexivity.
    destruct (collapsible L b' a') as [y| |]; cbn [bind]; try reflexivity. destruct x, y; reflexivity.
  - repeat match goal with |- context [if ?c then _ else _] => destruct c end; reflexivity.
Qed.

(** ** The reference *)

Section Ref.
  Variable L : geomlib.
  Variable pts : list point.
  Variable o : opts.
  Variable score : scorefn.
  Variable rel : f64 -> bool.
  Variable cs : list geometry.

  Definition hl (r : rng) : node := create_node L 0 (sub_coords pts r) r 0.
  Definition r_big (r : rng) : bool := negb (rsize r =? 1) && negb (is_line (n_geom (hl r))).
  Definition r_near (a b : rng) : bool :=
    boxes_meet (n_mbr (hl a)) (n_mbr (hl b)) && (negb (rng_eqb b a) && fle (gl_dist L (n_geom (hl b)) (n_geom (hl a))) epsilon_dist).
  Definition r_flags (a b : rng) : bool * bool :=
    match flags (pair_candidates L (o_non_planar_displacement o) false (hl a) (hl b)) with Ok p => p | _ => (false, false) end.
  Definition r_valid (r : rng) : bool :=
    rel_ok L o (hl r) (filter (fun g => fle (gl_dist L (n_geom (hl r)) g) (o_min_dist o)) cs).

  (** r is selected by the check of h among the ranges ch. *)
  Definition r_checked (ch : list rng) (h r : rng) : bool :=
    r_big h &&
    ((o_avoid_self o &&
      existsb (fun x => r_near h x && ((fst (r_flags h x) && rng_eqb r h) || (snd (r_flags h x) && rng_eqb r x))) ch) ||
     (rng_eqb r h && negb (r_valid h))).
  Definition r_sel (D ch : list rng) (r : rng) : bool := existsb (fun h => r_checked ch h r) D.
  Definition r_halves (r : rng) : list rng :=
    if 1 <? rsize r then
      let k := rI r + fst (score (sub_coords pts r)) in [Rng (rI r) k; Rng k (rJ r)]
    else [r].

  Inductive r_rounds : list rng -> list rng -> list rng -> Prop :=
  | R_done D ch : filter (r_sel D ch) ch = [] -> r_rounds D ch ch
  | R_next D ch ch' : filter (r_sel D ch) ch <> [] ->
      r_rounds (flat_map r_halves (filter (r_sel D ch) ch))
               (flat_map r_halves (filter (r_sel D ch) ch) ++ filter (fun r => negb (r_sel D ch r)) ch) ch' ->
      r_rounds D ch ch'.

  Lemma r_rounds_unique D ch c1 : r_rounds D ch c1 -> forall c2, r_rounds D ch c2 -> c1 = c2.
  Proof.
    induction 1 as [D ch H|D ch c' H H1 IH]; intros c2 H2; inversion H2; subst; auto; contradiction.
  Qed.

  Definition r_cut (p : point) (idxs : list Z) (r : rng) : list rng :=
    if fle (gl_dist L (GPoint p) (n_geom (hl r))) epsilon_dist then
      match rsplit r idxs with [] => [r] | rs => rs end
    else [r].
  Definition r_cuts (inters : list (point * list Z)) (ch : list rng) : list rng :=
    fold_left (fun c i => flat_map (r_cut (fst i) (snd i)) c) inters ch.

  (** Merging. *)
  Definition r_merge_valid (base : list rng) (m : rng) : bool :=
    (negb (o_avoid_self o) ||
     forallb (fun x => negb (r_near m x) || (negb (fst (r_flags m x)) && negb (snd (r_flags m x)))) base) && r_valid m.
  Definition r_without (r : rng) (ch : list rng) : list rng := filter (fun x => negb (rng_eqb x r)) ch.
  Definition r_try (enabled : bool) (ab : option (rng * rng)) (cache : list (rng * rng)) : option rng * list (rng * rng) :=
    match enabled, ab with
    | true, Some (a, b) =>
      if existsb (fun x => rng_eqb (fst x) a && rng_eqb (snd x) b) cache then (None, cache)
      else (if rel (snd (score (sub_coords pts (Rng (rI a) (rJ b))))) then Some (Rng (rI a) (rJ b)) else None, (a, b) :: cache)
    | _, _ => (None, cache)
    end.
  Definition r_prev (r : rng) (ch : list rng) : option rng := find (fun x => r_near r x && (rJ x =? rI r)) ch.
  Definition r_next (r : rng) (ch : list rng) : option rng := find (fun x => r_near r x && (rI x =? rJ r)) ch.

  Definition r_step (cvs : list Z) (r : rng) (rest ch : list rng) (cache : list (rng * rng))
    : list rng * list rng * list (rng * rng) :=
    if negb (rsize r =? 1) then (rest, ch, cache)
    else if zmem (rI r) cvs && zmem (rJ r) cvs then (rest, ch, cache)
    else
      let ch1 := r_without r ch in
      let prev := r_prev r ch1 in
      let nxt := r_next r ch1 in
      let '(mprev, cache) := r_try (negb (zmem (rI r) cvs)) (match prev with Some p => Some (p, r) | None => None end) cache in
      let '(mnext, cache) := r_try (negb (zmem (rJ r) cvs)) (match nxt with Some n => Some (r, n) | None => None end) cache in
      let '(base, done) :=
        match mnext, nxt with
        | Some m, Some n => let base := r_without n ch1 in (base, if r_merge_valid base m then Some m else None)
        | _, _ => (ch1, None)
        end in
      match done with
      | Some m => (tl rest, m :: base, cache)
      | None =>
        match mprev, prev with
        | Some m, Some p =>
          if r_merge_valid (r_without p base) m then (rest, m :: r_without p ch1, cache) else (rest, ch, cache)
        | _, _ => (rest, ch, cache)
        end
      end.
  Fixpoint r_agg (fuel : nat) (cvs : list Z) (objects ch : list rng) (cache : list (rng * rng)) : list rng :=
    match fuel with
    | 0%nat => ch
    | S f =>
      match objects with
      | [] => ch
      | r :: rest => let '(objects', ch', cache') := r_step cvs r rest ch cache in r_agg f cvs objects' ch' cache'
      end
    end.

  (** Forced vertices: the ranges after them and the vertices merging must keep. *)
  Definition r_self (N : lnr_oracle) (verts : list Z) (ch0 ch1 : list rng) (cvs : list Z) : Prop :=
    if o_planar_self o then
      exists vset inters,
        (let found := self_intersection L (lo_sort N) (lo_segx N) (lo_near N pts) true (o_non_planar_self o) pts in
         add_const_verts pts verts (flat_map snd found) found = Ok (vset, inters)) /\
        cvs = zset vset /\ ch1 = r_cuts inters ch0
    else cvs = [] /\ ch1 = ch0.

  (** The whole simplification. *)
  Definition r_result (N : lnr_oracle) (verts : list Z) (R : list rng) : Prop :=
    exists ch0 ch1 cvs ch2 sorted,
      tree pts score rel (Rng 0 (zlen pts - 1)) ch0 /\ r_self N verts ch0 ch1 cvs /\ r_rounds ch1 ch1 ch2 /\
      Permutation ch2 sorted /\ chain 0 (zlen pts - 1) sorted /\ R = r_agg (length sorted) cvs sorted ch2 [].
End Ref.
