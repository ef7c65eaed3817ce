(** Model of the optional callback of constdp/fc_simplify.go: what the caller is told while a
    feature class is simplified. *)
From Verif Require Import M_Base M_Float M_Rng M_Geom M_Offset M_Node M_Decompose M_Split M_Hdb M_Knn M_Lnr M_Homotopy M_Relate
  M_Deform M_Constrain M_ConstDP.
Open Scope Z_scope.

(** constdp/fc_simplify.go:51-66 with the call of line 52: the numbers the callback is called
    with, in order (also those before a panic), and the outcome of the loop. *)
Fixpoint split_loop_reporting (W : world) (env : Z -> cdp) (ord : nat -> list node -> list node)
    (fuel : nat) (round : nat) (dirty : Z -> bool) (deformables : list node) (db : hdb) (ctr : nat)
  : list Z * res (hdb * nat) :=
  match deformables with
  | [] => ([], Ok (db, ctr))
  | _ =>
    match fuel with
    | 0%nat => ([], NoFuel)
    | S f =>
      let after :=
        match find_deformable W env dirty deformables db with
        | Ok found =>
          match ord (2 * round)%nat found with
          | [] => ([], Ok (db, ctr))
          | sel =>
            match deform_nodes W env sel ctr with
            | Ok (defs, ctr') =>
              match load (w_hdb W) (clean_up db (ord (S (2 * round)) found)) defs with
              | Ok db' => split_loop_reporting W env ord f (S round) (mark_dirty dirty sel) defs db' ctr'
              | Panic => ([], Panic)
              | NoFuel => ([], NoFuel)
              end
            | Panic => ([], Panic)
            | NoFuel => ([], NoFuel)
            end
          end
        | Panic => ([], Panic)
        | NoFuel => ([], NoFuel)
        end in
      (zlen deformables :: fst after, snd after)
    end
  end.

(** constdp/fc_simplify.go:38-68, as [class_phase]. *)
Definition class_phase_reporting (W : world) (env : Z -> cdp) (ord : nat -> list node -> list node)
    (hulls : list node) (fuel : nat) (ctr : nat) : list Z * res (list node * nat) :=
  match load (w_hdb W) new_hdb_default hulls with
  | Ok db =>
    let loop := split_loop_reporting W env ord fuel 0 (fun _ => false) hulls db ctr in
    (fst loop, '(db, ctr) <- snd loop ;; hs <- all db ;; Ok (hs, ctr))
  | Panic => ([], Panic)
  | NoFuel => ([], NoFuel)
  end.

(** constdp/fc_simplify.go:14-69, as [simplify_feature_class]; the callback is called by the
    class phase only. *)
Definition simplify_feature_class_reporting (W : world) (gens : Z -> idgen)
    (ords : Z -> nat -> list node -> list node) (ord : nat -> list node -> list node)
    (env : Z -> cdp) (selfs : list cdp) (o : opts) (fuel : nat) : list Z * res (list (cdp * list node)) :=
  let junctions i :=
    if o_planar_self o
    then fc_junctions (w_geom W) (lo_sort (w_lnr W)) (map (fun s => (c_id s, c_pts s)) selfs) i
    else [] in
  match simplify_instances W gens ords junctions fuel selfs with
  | Ok done =>
    if constrained o then
      let phase := class_phase_reporting W env ord (flat_map snd done) fuel 0%nat in
      (fst phase, '(hs, _) <- snd phase ;; Ok (map (fun s => (s, group_hulls hs (c_id s))) selfs))
    else ([], Ok done)
  | Panic => ([], Panic)
  | NoFuel => ([], NoFuel)
  end.
