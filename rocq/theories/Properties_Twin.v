(** Claims C61 and C62: the result does not depend on ids, map iteration, index internals or
    the order of the constraints.  Vocabulary: Spec_ConstDP.v, Spec_Run.v, Spec_Out.v. *)
From Coq Require Import Ascii String.
From Verif Require Import M_Base M_Float M_Rng M_Geom M_Offset M_Node M_Decompose M_Hdb M_Knn M_Lnr M_Relate M_Constrain M_ConstDP
  M_Text M_IO Spec Spec_Hdb Spec_Lnr Spec_Relate Spec_ConstDP Spec_Text Spec_IO Spec_Run Spec_Out
  P_Base P_Float P_Decompose P_Split P_Node P_HdbHist P_HdbLoad P_Knn P_ConstDP P_Constrain P_Simplify P_Class P_Ref P_Twin P_IO P_Run P_Out
  Toy Toy_Box Properties_Relate Properties_ConstDP Properties_IO Properties_Run.
Open Scope Z_scope.

(** ** C61 *)

Lemma line_ok_twin L s s' : c_pts s' = c_pts s -> c_opts s' = c_opts s -> c_score s' = c_score s -> c_sq s' = c_sq s ->
  line_ok L s -> line_ok L s'.
Proof. intros E1 E2 E3 E4 [A B C D]. split; rewrite ?E1, ?E2, ?E3, ?E4; assumption. Qed.

Lemma one_run W ord self constraints known verts fuel ctr :
  libs_ok W -> any_order ord -> line_ok (w_geom W) self -> built_from W self constraints ->
  agree_near (w_geom W) (o_min_dist (c_opts self)) (c_pts self) constraints known ->
  Forall (fun k => 0 <= k < zlen (c_pts self)) verts -> (2 * length (c_pts self) - 3 < fuel)%nat ->
  let L := w_geom W in let pts := c_pts self in
  is_nan (o_min_dist (c_opts self)) = false ->
  (forall r g, piece pts r -> In g constraints -> box_distance_ok L (piece_hull L pts r) g (gl_bounds L g)) ->
  (o_planar_self (c_opts self) = true ->
     forall c, In c (self_intersections W self ++ map (fun k => (nth (Z.to_nat k) pts origin, [k])) verts) ->
     boxes_not_farther L pts c) ->
  exists hs n R, simplify W ord self verts fuel ctr = Ok (hs, n) /\
    r_result L pts (c_opts self) (dp_score (c_score self) (c_sq self)) (dp_relation (o_threshold (c_opts self)) (c_sq self))
      known (w_lnr W) verts R /\ Permutation (map n_rng hs) R.
Proof.
  intros HW Ho Hl Hb Hk Hv Hf L pts Hnan Hbox Hfar.
  pose proof (one_setting W self constraints (fun _ => True) HW Hl Hb (fun _ => I)) as St.
  destruct (simplify_spec W self _ ord Ho St (lk_two _ _ Hl) (lk_splits _ _ Hl) verts fuel ctr Hv Hf) as (hs & n & E & _).
  assert (Hfr : forall h, fresh_hull L pts (c_id self) h ->
    piece pts (n_rng h) /\ n_geom h = piece_hull L pts (n_rng h) /\ n_mbr h = gl_bounds L (piece_hull L pts (n_rng h))).
  { intros h (A & B & C & _). pose proof A as A'. destruct A' as (A1 & A2 & A3 & _).
    rewrite (cpts_hull _ _ A) in B. split; [split; [|split]; auto|]. split; [exact B|]. rewrite C, B. reflexivity. }
  destruct (run_exact W self (fun _ => True) constraints known St (lb_heap _ HW) (built_holds W _ _ (lb_rtree _ HW) Hb))
    with (ord := ord) (verts := verts) (fuel := fuel) (ctr := ctr) (hs := hs) (ctr' := n) as (R & HR & Hp); auto.
  - intros h g Hh Hd. destruct (Hfr h Hh) as (P1 & P2 & _). rewrite P2 in Hd. exact (Hk (n_rng h) g P1 Hd).
  - intros h g bx Hh Hg Hw. destruct (Hfr h Hh) as (P1 & P2 & _). rewrite P2. apply (Hbox (n_rng h) g); auto.
  - exact (lk_two _ _ Hl).
  - exact (lk_splits _ _ Hl).
  - intros Hpl. apply Forall_forall. intros c Hc i h b [<- |[]] Hh Hin. destruct (Hfr h Hh) as (P1 & P2 & P3). rewrite P2.
    apply (Hfar Hpl c Hc (n_rng h) b); auto. rewrite <- P3. exact Hin.
  - exists hs, n, R. auto.
Qed.

(** Two runs on the same vertices and options, with the same geometry library, and with
    constraints that agree near the line: those farther than the minimum distance do not matter. *)
Theorem C73_only_near_constraints_matter :
  forall (W W' : world) ord ord' (self self' : cdp) constraints constraints' verts fuel fuel' ctr ctr',
  libs_ok W -> libs_ok W' -> any_order ord -> any_order ord' ->
  let L := w_geom W in let pts := c_pts self in
  w_geom W' = L -> w_lnr W' = w_lnr W ->
  c_pts self' = pts -> c_opts self' = c_opts self -> c_score self' = c_score self -> c_sq self' = c_sq self ->
  line_ok L self -> built_from W self constraints -> built_from W' self' constraints' ->
  agree_near L (o_min_dist (c_opts self)) pts constraints constraints' ->
  Forall (fun k => 0 <= k < zlen pts) verts ->
  (2 * length pts - 3 < fuel)%nat -> (2 * length pts - 3 < fuel')%nat ->
  is_nan (o_min_dist (c_opts self)) = false ->
  (forall r g, piece pts r -> In g constraints \/ In g constraints' ->
     box_distance_ok L (piece_hull L pts r) g (gl_bounds L g)) ->
  (o_planar_self (c_opts self) = true ->
     forall c, In c (self_intersections W self ++ map (fun k => (nth (Z.to_nat k) pts origin, [k])) verts) ->
     boxes_not_farther L pts c) ->
  exists hs n hs' n', simplify W ord self verts fuel ctr = Ok (hs, n) /\ simplify W' ord' self' verts fuel' ctr' = Ok (hs', n') /\
    simple_set hs = simple_set hs' /\ Permutation (map n_rng hs) (map n_rng hs').
Proof.
  intros W W' ord ord' self self' cs cs' verts fuel fuel' ctr ctr' HW HW' Ho Ho' L pts EL EN Ep Eo Es Eq Hl Hb Hb' Hcs Hv Hf Hf' Hnan Hbox Hfar.
  destruct (one_run W ord self cs cs verts fuel ctr) as (hs & n & R & E & HR & Hp); auto; [intros r g _ _; tauto|].
  assert (Hself : self_intersections W' self' = self_intersections W self).
  { unfold self_intersections. rewrite EL, EN, Ep, Eo. reflexivity. }
  destruct (one_run W' ord' self' cs' cs verts fuel' ctr') as (hs' & n' & R' & E' & HR' & Hp'); auto.
  - rewrite EL. eapply line_ok_twin; eauto.
  - rewrite EL, Ep, Eo. intros r g Hr Hd. symmetry. exact (Hcs r g Hr Hd).
  - rewrite Ep; auto.
  - rewrite Ep; auto.
  - rewrite Eo; auto.
  - rewrite Ep, EL. auto.
  - rewrite Hself, Ep, EL, Eo. auto.
  - rewrite Ep, EL, EN, Eo, Es, Eq in HR'.
    pose proof (r_result_unique _ _ _ _ _ _ _ _ _ _ HR HR') as <-.
    assert (Hpp : Permutation (map n_rng hs) (map n_rng hs')) by (rewrite Hp, Hp'; reflexivity).
    exists hs, n, hs', n'. split; [exact E|]. split; [exact E'|]. split; [apply simple_set_rng|]; exact Hpp.
Qed.

(** Two runs on the same vertices, options and constraints, with the same geometry library:
    hull ids, instance ids, the order in which maps are iterated and constraints are listed,
    the choices of the R-tree and of the heap, and the number of rounds allowed may all
    differ. *)
Theorem C61_same_input_same_result :
  forall (W W' : world) ord ord' (self self' : cdp) constraints constraints' verts fuel fuel' ctr ctr',
  libs_ok W -> libs_ok W' -> any_order ord -> any_order ord' ->
  let L := w_geom W in let pts := c_pts self in
  w_geom W' = L -> w_lnr W' = w_lnr W ->
  c_pts self' = pts -> c_opts self' = c_opts self -> c_score self' = c_score self -> c_sq self' = c_sq self ->
  line_ok L self -> built_from W self constraints -> built_from W' self' constraints' ->
  (forall g, In g constraints <-> In g constraints') ->
  Forall (fun k => 0 <= k < zlen pts) verts ->
  (2 * length pts - 3 < fuel)%nat -> (2 * length pts - 3 < fuel')%nat ->
  is_nan (o_min_dist (c_opts self)) = false ->
  (forall r g, piece pts r -> In g constraints -> box_distance_ok L (piece_hull L pts r) g (gl_bounds L g)) ->
  (o_planar_self (c_opts self) = true ->
     forall c, In c (self_intersections W self ++ map (fun k => (nth (Z.to_nat k) pts origin, [k])) verts) ->
     boxes_not_farther L pts c) ->
  exists hs n hs' n', simplify W ord self verts fuel ctr = Ok (hs, n) /\ simplify W' ord' self' verts fuel' ctr' = Ok (hs', n') /\
    simple_set hs = simple_set hs' /\ Permutation (map n_rng hs) (map n_rng hs').
Proof.
  intros W W' ord ord' self self' cs cs' verts fuel fuel' ctr ctr' HW HW' Ho Ho' L pts EL EN Ep Eo Es Eq Hl Hb Hb' Hcs Hv Hf Hf' Hnan Hbox Hfar.
  apply (C73_only_near_constraints_matter W W' ord ord' self self' cs cs' verts fuel fuel' ctr ctr'); auto.
  - intros r g _ _. apply Hcs.
  - intros r g Hr [Hg|Hg]; apply Hbox; auto. apply Hcs, Hg.
Qed.

(** ** C62 *)

Lemma written_fun zero pts cs cs' : written zero pts cs -> written zero pts cs' -> cs = cs'.
Proof.
  intros H H'. destruct H as [H|H], H' as [H'|H']; auto; exfalso.
  - apply Exists_exists in H. destruct H as (p & Hp & K). rewrite Forall_forall in H'. rewrite (H' p Hp) in K. discriminate.
  - apply Exists_exists in H'. destruct H' as (p & Hp & K). rewrite Forall_forall in H. rewrite (H p Hp) in K. discriminate.
Qed.
Lemma written_parts_fun zero parts g g' : written_parts zero parts g -> written_parts zero parts g' -> g = g'.
Proof.
  intros H H'. destruct H as [pts cs Hw|parts css Hn Hw].
  - inversion H'; subst; [f_equal; eapply written_fun; eauto|]. exfalso. cbn in *. congruence.
  - inversion H' as [pts cs Hw' |? css' Hn' Hw']; subst; [cbn in Hn; congruence|]. f_equal.
    clear - Hw Hw'. revert css' Hw'. induction Hw as [|p c ps cs H Hw IH]; intros css' Hw'; inversion Hw'; subst; auto.
    f_equal; [eapply written_fun; eauto|apply IH; assumption].
Qed.

Lemma nth_error_ext {A} (l : list A) : forall l', (forall i, nth_error l i = nth_error l' i) -> l = l'.
Proof.
  induction l as [|x l IH]; intros [|y l'] H; auto; try (specialize (H 0%nat); discriminate).
  f_equal; [specialize (H 0%nat); injection H; auto|]. apply IH. intros i. exact (H (S i)).
Qed.

(** Two runs of the program without the class option on input files with the same features and
    constraint files with the same geometries in any order write the same features. *)
Theorem C62_same_files_same_output :
  forall {P} (lib : jsonlib P) (S S' : setup) o score input input' cinput cinput' fs constraints constraints',
  run_input lib S false o score input cinput fs constraints ->
  run_input lib S' false o score input' cinput' fs constraints' ->
  let L := w_geom (su_world S) in
  w_geom (su_world S') = L -> w_lnr (su_world S') = w_lnr (su_world S) ->
  (forall g, In g constraints <-> In g constraints') ->
  is_nan (o_min_dist o) = false ->
  (forall pts, In pts (map (map (jl_point lib)) (flat_map feature_parts fs)) ->
     (forall r g, piece pts r -> In g constraints -> box_distance_ok L (piece_hull L pts r) g (gl_bounds L g)) /\
     (o_planar_self o = true -> forall c, In c (self_intersections (su_world S) (proto o score pts)) -> boxes_not_farther L pts c)) ->
  exists outs, run lib S false o score (unlines input) (unlines cinput) = Ok outs /\
    run lib S' false o score (unlines input') (unlines cinput') = Ok outs.
Proof.
  intros P lib S S' o score input input' cinput cinput' fs cs cs' H H' L EL EN Hcs Hnan Hgeo.
  destruct (C57_lines_simplified_alone lib S o score input cinput fs cs H) as (outs & E & Hlen & Hall).
  destruct (C57_lines_simplified_alone lib S' o score input' cinput' fs cs' H') as (outs' & E' & Hlen' & Hall').
  exists outs. split; [exact E|]. rewrite E'. f_equal.
  apply nth_error_ext. intros i. destruct (nth_error fs i) as [f|] eqn:Ef.
  2: { apply nth_error_None in Ef. assert (K : nth_error outs i = None) by (apply nth_error_None; lia).
       assert (K' : nth_error outs' i = None) by (apply nth_error_None; lia). congruence. }
  destruct (Hall i f Ef) as (ot & kept & Eo & Ep & Hk & Hw).
  destruct (Hall' i f Ef) as (ot' & kept' & Eo' & Ep' & Hk' & Hw').
  rewrite Eo, Eo'. f_equal.
  assert (Hin : forall c, In c (feature_parts f) -> In (map (jl_point lib) c) (map (map (jl_point lib)) (flat_map feature_parts fs))).
  { intros c Hc. apply in_map, in_flat_map. exists f. split; [eapply nth_error_In; eauto|exact Hc]. }
  assert (Ekept : kept' = kept).
  { clear - H H' Hk Hk' Hin Hgeo EL EN Hcs Hnan. revert kept' Hk' Hin. induction Hk as [|c k l kept (s & Hs & Ra & ->) Hk IH]; intros kept' Hk' Hin.
    - inversion Hk'. reflexivity.
    - inversion Hk' as [|? k' ? kept'' (s' & Hs' & Rb & ->) Hk'']; subst.
      f_equal; [|apply IH; auto; intros x Hx; apply Hin; right; auto]. f_equal.
      specialize (Hin c (or_introl eq_refl)). set (pts := map (jl_point lib) c) in *. destruct (Hgeo pts Hin) as [G1 G2].
      destruct Ra as (id & db & hs & n & Eb & Er & ->), Rb as (id' & db' & hs' & n' & Eb' & Er' & ->).
      pose proof (ri_ok _ _ _ _ _ _ _ _ _ H) as Hl. rewrite Forall_forall in Hl. specialize (Hl pts Hin). cbv zeta in *.
      assert (Hle : (length pts <= length (concat (map (map (jl_point lib)) (flat_map feature_parts fs))))%nat).
      { clear - Hin. revert Hin. generalize (map (map (jl_point lib)) (flat_map feature_parts fs)). intros ls.
        induction ls as [|x ls IHl]; intros Hin; [destruct Hin|]. cbn [concat]. rewrite app_length.
        destruct Hin as [<- |Hin]; [lia|specialize (IHl Hin); lia]. }
      pose proof (ri_fuel _ _ _ _ _ _ _ _ _ H) as Hfuel. pose proof (ri_fuel _ _ _ _ _ _ _ _ _ H') as Hfuel'.
      assert (Hworld : forall (T : setup) i, setup_ok T ->
        libs_ok (World (w_geom (su_world T)) (su_gens T i) (w_hdb (su_world T)) (w_pop (su_world T)) (w_lnr (su_world T)))).
      { intros T i [[A B C D] Hids Hg _ _ _]. split; cbn; auto. intros j k K. apply (Hg _ _ _ _ K). }
      pose proof (ri_setup _ _ _ _ _ _ _ _ _ H) as Hs0. pose proof (ri_setup _ _ _ _ _ _ _ _ _ H') as Hs1.
      destruct (C61_same_input_same_result _ _ (su_ords S id) (su_ords S' id') (Cdp id pts o score None db) (Cdp id' pts o score None db')
                  cs cs' [] (su_fuel S) (su_fuel S') 0 0 (Hworld S id Hs0) (Hworld S' id' Hs1) (so_ords _ Hs0 id) (so_ords _ Hs1 id'))
        as (a & na & b & nb & Ea & Ebb & Eset & _); cbn [w_geom w_lnr c_pts c_opts c_score c_sq]; auto.
      + apply (line_ok_twin L (proto o score pts)); auto.
      + split; [exact Eb|]. exact (ri_boxes _ _ _ _ _ _ _ _ _ H).
      + split; [exact Eb'|]. exact (ri_boxes _ _ _ _ _ _ _ _ _ H').
      + lia.
      + lia.
      + intros Hpl c0 Hc. rewrite app_nil_r in Hc. apply (G2 Hpl). exact Hc.
      + rewrite Er in Ea. rewrite Er' in Ebb. injection Ea as <- <-. injection Ebb as <- <-. symmetry. exact Eset. }
  rewrite Ekept in Hw'. destruct ot as [p g], ot' as [p' g']. cbn [of_props of_geom] in *. subst. f_equal.
  eapply written_parts_fun; eauto.
Qed.

(** ** Cases *)

(** A line with a junction inside and two constraints, all options on; the second run draws
    other ids, lists the constraints in the other order and iterates maps backwards. *)
Definition two_ctx : list geometry := [GPoint (P2 5 2); GPoint (P2 11 1)].
Definition backwards (k : nat) (l : list node) : list node := rev l.
Definition other_gen (k : nat) : Z := 7 + 3 * Z.of_nat k.
Definition exB' : world := World boxy other_gen plain_oracle plain_pop ex_lnr.
Definition twin_db : hdb := Eval vm_compute in get new_hdb_default (build_context_db boxy plain_oracle 7 two_ctx).
Definition twin_db' : hdb := Eval vm_compute in get new_hdb_default (build_context_db boxy plain_oracle 9 (rev two_ctx)).
Definition twin1 : cdp := Cdp 7 zig fc_opts toy_score None twin_db.
Definition twin2 : cdp := Cdp 9 zig fc_opts toy_score None twin_db'.

Example C61_case :
  libs_ok exB /\ libs_ok exB' /\ any_order in_turn /\ any_order backwards /\
  line_ok boxy twin1 /\ built_from exB twin1 two_ctx /\ built_from exB' twin2 (rev two_ctx) /\
  (forall g, In g two_ctx <-> In g (rev two_ctx)) /\
  is_nan (o_min_dist fc_opts) = false /\
  (forall r g, piece zig r -> In g two_ctx -> box_distance_ok boxy (piece_hull boxy zig r) g (gl_bounds boxy g)) /\
  (forall c, In c (self_intersections exB twin1 ++ map (fun k => (nth (Z.to_nat k) zig origin, [k])) [3]) ->
     boxes_not_farther boxy zig c) /\
  match simplify exB in_turn twin1 [3] 20 0, simplify exB' backwards twin2 [3] 30 5 with
  | Ok (hs, _), Ok (hs', _) => map n_id hs <> map n_id hs' /\ simple_set hs = [0; 3; 4] /\ simple_set hs' = [0; 3; 4]
  | _, _ => False
  end /\
  (* without the junction *)
  match simplify exB in_turn twin1 [] 20 0, simplify exB' backwards twin2 [] 30 5 with
  | Ok (hs, _), Ok (hs', _) => simple_set hs = [0; 1; 4] /\ simple_set hs' = [0; 1; 4]
  | _, _ => False
  end.
Proof.
  split; [exact exB_ok|]. split.
  { destruct exB_ok as [A B C D]. split; auto. intros j k. unfold exB', other_gen; cbn [w_gen]. lia. }
  split; [exact in_turn_ok|]. split; [intros k l; symmetry; apply Permutation_rev|].
  split; [line_ok_compute (f_of_Z 10)|].
  split. { split; [vm_compute; reflexivity|]. repeat (constructor; [vm_compute; repeat split; try reflexivity; discriminate|]). constructor. }
  split. { split; [vm_compute; reflexivity|]. repeat (constructor; [vm_compute; repeat split; try reflexivity; discriminate|]). constructor. }
  split; [intros g; apply in_rev|]. split; [reflexivity|]. split; [|split; [|split]].
  - intros r g _ Hg b Hw. apply boxy_box_dist; auto. destruct Hg as [<- |[<- |[]]]; (split; [discriminate|]); repeat constructor.
  - intros c _. apply boxy_not_farther. split; [discriminate|]. repeat constructor.
  - destruct (simplify exB in_turn twin1 [3] 20 0) as [[hs c]| |] eqn:E; vm_compute in E; try discriminate E. injection E as <- <-.
    destruct (simplify exB' backwards twin2 [3] 30 5) as [[hs' c']| |] eqn:E; vm_compute in E; try discriminate E. injection E as <- <-.
    split; [vm_compute; discriminate|]. split; vm_compute; reflexivity.
  - vm_compute. split; reflexivity.
Qed.

(** The run of C57_case, repeated with other ids and other orders on the same files. *)
Definition exB_setup' : setup := Setup exB' (fun k => Z.of_nat k + 5) ex_gens (fun _ => backwards) backwards 80.
Example C62_case :
  run_input ex_lib exB_setup false fc_opts toy_score ex_input [str "p"] ex_features [ex_constraint] /\
  run_input ex_lib exB_setup' false fc_opts toy_score ex_input [str "p"] ex_features [ex_constraint] /\
  (forall pts, In pts [zig; zig; feat2_pts] ->
     (forall r g, piece pts r -> In g [ex_constraint] -> box_distance_ok boxy (piece_hull boxy pts r) g (gl_bounds boxy g)) /\
     (forall c, In c (self_intersections exB (proto fc_opts toy_score pts)) -> boxes_not_farther boxy pts c)) /\
  run ex_lib exB_setup false fc_opts toy_score (unlines ex_input) (unlines [str "p"]) =
  run ex_lib exB_setup' false fc_opts toy_score (unlines ex_input) (unlines [str "p"]).
Proof.
  assert (H : run_input ex_lib exB_setup false fc_opts toy_score ex_input [str "p"] ex_features [ex_constraint])
    by (ex_input_ok (f_of_Z 10)).
  split; [exact H|]. split; [|split].
  - destruct H as [A1 A2 A3 A4 A5 A6 A7 A8 A9 A10 A11 A12]. split; auto.
    + destruct A2 as [B1 B2 B3 B4 B5 B6]. split.
      * destruct exB_ok as [A B C D]. split; auto. intros j k. cbn [exB_setup' su_world exB' w_gen]. unfold other_gen. lia.
      * cbn. intros i j. lia.
      * exact B3.
      * intros i k l. change (other_gen k <> ex_gens i l). unfold other_gen, ex_gens. lia.
      * intros i k l. symmetry. apply Permutation_rev.
      * intros k l. symmetry. apply Permutation_rev.
    + intros Hc. discriminate Hc.
    + cbn [su_fuel exB_setup exB_setup'] in *. lia.
  - intros pts Hp. split.
    + intros r g _ [<- |[]] b Hw. apply boxy_box_dist; auto. split; [discriminate|]. repeat constructor.
    + intros c _. apply boxy_not_farther. destruct Hp as [<- |[<- |[<- |[]]]]; (split; [discriminate|]); repeat constructor.
  - vm_compute. reflexivity.
Qed.

Print Assumptions C61_same_input_same_result.
Print Assumptions C62_same_files_same_output.
