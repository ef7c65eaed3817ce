(** Claims C08 (sharing) and C10: merging hulls.  Vocabulary: Spec.v, Spec_BySize.v. *)
From Verif Require Import M_Base M_Float M_Rng M_Geom M_Offset M_Node M_Decompose M_Split M_Hdb M_Knn M_Deform
  Spec Spec_Hdb P_Base P_Split P_HdbIns P_HdbHist P_Db P_Bag M_BySize Spec_BySize P_BySize M_Slice P_Slice Toy.
Open Scope Z_scope.

(** ** C08: merging does not write to the arrays its arguments (or any other slice) read *)

(** The hulls' index slices may overlap in one array, as the sub-slices of a polyline do. *)
Theorem C08_arguments_untouched :
  forall grow m ha hb,
  s_ok m (sh_idxs ha) -> s_ok m (sh_idxs hb) ->
  rI (sh_rng ha) < rJ (sh_rng ha) -> rI (sh_rng hb) < rJ (sh_rng hb) ->
  s_read m (sh_idxs ha) = zseq (rI (sh_rng ha)) (rJ (sh_rng ha)) ->
  s_read m (sh_idxs hb) = zseq (rI (sh_rng hb)) (rJ (sh_rng hb)) ->
  (rJ (sh_rng ha) = rI (sh_rng hb) \/ rJ (sh_rng hb) = rI (sh_rng ha)) ->
  exists m' s, contiguous_idxs grow m ha hb = Ok (m', s) /\
    s_read m' s = zseq (Z.min (rI (sh_rng ha)) (rI (sh_rng hb))) (Z.max (rJ (sh_rng ha)) (rJ (sh_rng hb))) /\
    forall t, s_ok m t -> s_read m' t = s_read m t.
Proof.
  intros grow m ha hb Oa Ob La Lb Ra Rb Hc.
  destruct (contiguous_idxs_spec grow m ha hb Oa Ob La Lb Ra Rb Hc) as (m' & s & A & (a & ->) & C).
  exists (m ++ [a]), s. split; [exact A|]. split; [exact C|]. intros t (T & _). apply read_app, T.
Qed.

(** A polyline of six vertices and two hulls that are slices of its index array. *)
Definition ex_heap : heap := [[0; 1; 2; 3; 4; 5]].
Definition ex_sa : shull := SHull (Rng 1 3) (Slice 0 1 3 5).
Definition ex_sb : shull := SHull (Rng 3 5) (Slice 0 3 3 3).
Example C08_arguments_untouched_case :
  s_ok ex_heap (sh_idxs ex_sa) /\ s_ok ex_heap (sh_idxs ex_sb) /\
  s_read ex_heap (sh_idxs ex_sa) = zseq 1 3 /\ s_read ex_heap (sh_idxs ex_sb) = zseq 3 5 /\
  contiguous_idxs 2 ex_heap ex_sb ex_sa =
    Ok ([[0; 1; 2; 3; 4; 5]; [1; 2; 3; 4; 5; 0; 0]], Slice 1 0 5 7).
Proof. unfold s_ok; cbn. repeat split; lia. Qed.

(** ** C10 *)

(** The kept hulls tile what the input tiled; the removed ones are exactly the inputs that
    were merged away, in pairs; every pair met at a vertex outside the vertex set, one of
    the two had the given size, and the score of the union was accepted. *)
Theorem C10_merging_keeps_tiling :
  forall O L gen db vset size valid (score : scorefn) pts hulls unmerged lo hi ctr,
  oracle_ok O -> Forall good_item hulls -> load O new_hdb_default hulls = Ok db ->
  tiling lo hi (map n_rng hulls) -> Forall (hull_of pts) hulls ->
  exists keep rm unm ctr' same pairs merged,
    fragments_by_size L gen db vset size valid score hulls unmerged ctr = Ok (keep, rm, unm, ctr') /\
    tiling lo hi (map n_rng keep) /\ Forall (hull_of pts) keep /\
    Permutation keep (same ++ merged) /\ Permutation hulls (rm ++ same) /\
    rm = both pairs /\ Forall2 (joined pts vset size valid score) pairs merged.
Proof.
  intros O L gen db vset size valid score pts hulls unm0 lo hi ctr HO Hg Hl HT HH.
  destruct (holds_load O new_hdb_default [] hulls HO holds_new Hg) as (db' & E & Hdb).
  rewrite Hl in E; injection E as <-. cbn [app] in Hdb.
  destruct (by_size_spec L gen vset size valid score pts hulls unm0 lo hi HT HH db Hdb ctr)
    as (keep & rm & unm & ctr' & same & ps & ms & R & K & P & B & F & _ & _).
  exists keep, rm, unm, ctr', same, ps, ms. split; [exact R|].
  split.
  { apply (tiling_perm lo hi (map n_rng ms ++ map n_rng same)).
    - rewrite <- map_app. apply Permutation_map. rewrite K. apply Permutation_app_comm.
    - apply (tiling_join pts vset size valid score lo hi ps); [exact F|].
      rewrite <- B, <- map_app. eapply tiling_perm; [|exact HT]. apply Permutation_map, P. }
  split; [|auto].
  apply (Permutation_Forall (Permutation_sym K)). apply Forall_app. split.
  - apply Forall_forall. intros x Hx. apply (proj1 (Forall_forall _ _) HH).
    eapply Permutation_in; [symmetry; exact P|]. apply in_or_app; right; exact Hx.
  - clear -F. induction F as [|[s h] m ps ms J F IH]; constructor; auto. apply J.
Qed.

(** Nothing mergeable is left: two kept inputs, one of the given size, that meet at a vertex
    outside the vertex set and that the neighbour search relates have a rejected score. *)
Theorem C10_nothing_left :
  forall O L gen db vset size valid (score : scorefn) pts hulls unmerged lo hi ctr keep rm unm ctr' h s,
  oracle_ok O -> Forall good_item hulls -> load O new_hdb_default hulls = Ok db ->
  tiling lo hi (map n_rng hulls) -> Forall (hull_of pts) hulls ->
  fragments_by_size L gen db vset size valid score hulls unmerged ctr = Ok (keep, rm, unm, ctr') ->
  In h hulls -> ~ In h rm -> In s hulls -> ~ In s rm -> rJ (n_rng h) - rI (n_rng h) = size ->
  boxes_meet (n_mbr h) (n_mbr s) = true -> n_id s <> n_id h ->
  fle (gl_dist L (n_geom s) (n_geom h)) epsilon_dist = true ->
  meet_outside vset (n_rng s) (n_rng h) ->
  valid (snd (score (both_points pts (n_rng s) (n_rng h)))) = false.
Proof.
  intros O L gen db vset size valid score pts hulls unm0 lo hi ctr keep rm unm ctr' h s
    HO Hg Hl HT HH R Hh Nh Hs Ns Hz Bx Id Ds Mt.
  destruct (holds_load O new_hdb_default [] hulls HO holds_new Hg) as (db' & E & Hdb).
  rewrite Hl in E; injection E as <-. cbn [app] in Hdb.
  destruct (by_size_spec L gen vset size valid score pts hulls unm0 lo hi HT HH db Hdb ctr)
    as (keep' & rm' & unm' & ctr2 & same & ps & ms & R' & K & P & B & F & Mx & _).
  rewrite R in R'. injection R' as <- <- <- <-.
  assert (In_same : forall x, In x hulls -> ~ In x rm -> In x same).
  { intros x Hx Nx. apply (Permutation_in _ P) in Hx. apply in_app_or in Hx. tauto. }
  apply Mx; auto. unfold nearby. rewrite Bx, Ds. cbn [andb].
  destruct (Z.eqb_spec (n_id s) (n_id h)); [contradiction|reflexivity].
Qed.

(** The map of unmerged fragments only gains inputs of the given size. *)
Theorem C10_unmerged_are_inputs :
  forall O L gen db vset size valid (score : scorefn) pts hulls unmerged lo hi ctr keep rm unm ctr' u,
  oracle_ok O -> Forall good_item hulls -> load O new_hdb_default hulls = Ok db ->
  tiling lo hi (map n_rng hulls) -> Forall (hull_of pts) hulls ->
  fragments_by_size L gen db vset size valid score hulls unmerged ctr = Ok (keep, rm, unm, ctr') ->
  In u unm -> In u unmerged \/ (In u hulls /\ rJ (n_rng u) - rI (n_rng u) = size).
Proof.
  intros O L gen db vset size valid score pts hulls unm0 lo hi ctr keep rm unm ctr' u HO Hg Hl HT HH R Hu.
  destruct (holds_load O new_hdb_default [] hulls HO holds_new Hg) as (db' & E & Hdb).
  rewrite Hl in E; injection E as <-. cbn [app] in Hdb.
  destruct (by_size_spec L gen vset size valid score pts hulls unm0 lo hi HT HH db Hdb ctr)
    as (keep' & rm' & unm' & ctr2 & same & ps & ms & R' & K & P & B & F & _ & U).
  rewrite R in R'. injection R' as <- <- <- <-. apply U, Hu.
Qed.

(** Six vertices, five hulls of size one, vertex 2 in the vertex set. *)
Definition fr_line : list point := [P2 0 0; P2 2 1; P2 4 0; P2 6 1; P2 8 0; P2 10 9].
Definition fr_hull (i j id : Z) : node := create_node toy id (sub_coords fr_line (Rng i j)) (Rng i j) 7.
Definition fr_hulls : list node := [fr_hull 0 1 1; fr_hull 1 2 2; fr_hull 2 3 3; fr_hull 3 4 4; fr_hull 4 5 5].
Definition fr_run : res (list node * list node * list node * nat) :=
  db <- load plain_oracle new_hdb_default fr_hulls ;;
  fragments_by_size toy (fun n => 100 + Z.of_nat n) db (fun v => v =? 2) 1
    (fun d => fle d (f_of_Z 2)) toy_score fr_hulls [] 0.
Definition fr_shown :=
  match fr_run with
  | Ok (keep, rm, unm, _) => (map n_rng keep, map n_rng rm, map n_rng unm)
  | _ => ([], [], [])
  end.
Example C10_case :
  chain 0 5 (map n_rng fr_hulls) /\ is_ok (load plain_oracle new_hdb_default fr_hulls) = true /\
  fr_shown = ([Rng 0 2; Rng 2 4; Rng 4 5], [Rng 1 2; Rng 0 1; Rng 3 4; Rng 2 3], []).
Proof. split; [vm_compute; repeat split; reflexivity|]. split; vm_compute; reflexivity. Qed.

Example C10_case_hypotheses :
  oracle_ok plain_oracle /\ Forall good_item fr_hulls /\ Forall (hull_of fr_line) fr_hulls.
Proof.
  split; [exact plain_oracle_ok|]. split.
  - repeat (constructor; [vm_compute; repeat split; discriminate || reflexivity|]). constructor.
  - repeat (constructor; [vm_compute; repeat split; discriminate || reflexivity|]). constructor.
Qed.

Print Assumptions C08_arguments_untouched.
Print Assumptions C10_merging_keeps_tiling.
Print Assumptions C10_nothing_left.
Print Assumptions C10_unmerged_are_inputs.
