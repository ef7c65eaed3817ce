(** Model of constrain.ToSelfIntersects. *)
From Verif Require Import M_Base M_Float M_Rng M_Geom M_Node M_Split M_Hdb M_Knn M_Lnr M_Relate M_Deform.
Open Scope Z_scope.

(** External choices of package lnr: the vertex sort, geom.SegSegIntersection and the
    segment index (see M_Lnr). *)
Record lnr_oracle := LnrOracle {
  lo_sort : list vertex -> list vertex;
  lo_segx : point -> point -> point -> point -> list interpoint;
  lo_near : list point -> Z -> list Z
}.

(** constrain/split.go:33-40, the loop over the hulls near one intersection: db and the
    id counter. *)
Fixpoint split_hulls (L : geomlib) (gen : idgen) (O : hdb_oracle) (idxs : list Z) (hulls : list node)
    (db : hdb) (ctr : nat) : res (hdb * nat) :=
  match hulls with
  | [] => Ok (db, ctr)
  | hull :: r =>
    '(tokens, ctr') <- at_index L gen hull idxs ctr ;;
    match tokens with
    | [] => split_hulls L gen O idxs r db ctr'
    | _ => db' <- load O (remove db hull) tokens ;; split_hulls L gen O idxs r db' ctr'
    end
  end.

(** constrain/split.go:16-42 splitAtSelfIntersects; a context is its point and its vertex
    indices. *)
Fixpoint split_at_self (L : geomlib) (gen : idgen) (O : hdb_oracle) (pop : popfn)
    (inters : list (point * list Z)) (db : hdb) (ctr : nat) : res (hdb * nat) :=
  match inters with
  | [] => Ok (db, ctr)
  | (p, idxs) :: r =>
    match idxs with
    | [] => split_at_self L gen O pop r db ctr
    | _ =>
      nodes <- context_neighbours L pop db (GPoint p) epsilon_dist ;;
      '(db', ctr') <- split_hulls L gen O idxs nodes db ctr ;;
      split_at_self L gen O pop r db' ctr'
    end
  end.

(** constrain/toself.go:40-50: the junctions that are not already in the vertex set become
    contexts; [vset] is the set, [out] the contexts.  polyline.Pt(i) panics out of range. *)
Fixpoint add_const_verts (pts : list point) (verts : list Z) (vset : list Z)
    (out : list (point * list Z)) : res (list Z * list (point * list Z)) :=
  match verts with
  | [] => Ok (vset, out)
  | i :: r =>
    if zmem i vset then add_const_verts pts r vset out
    else match znth pts i with
         | None => Panic
         | Some p => add_const_verts pts r (i :: vset) (out ++ [(p, [i])])
         end
  end.

(** constrain/toself.go:15-67 ToSelfIntersects: the hulls, the constrained vertices and the
    id counter. *)
Definition to_self_intersects (L : geomlib) (gen : idgen) (O : hdb_oracle) (pop : popfn)
    (N : lnr_oracle) (nodes : list node) (pts : list point) (o : opts) (const_verts : list Z)
    (ctr : nat) : res (list node * list Z * nat) :=
  if negb (o_planar_self o) then Ok (nodes, [], ctr)
  else
    hulldb <- load O new_hdb_default nodes ;;
    let inters := self_intersection L (lo_sort N) (lo_segx N) (lo_near N pts)
                    (o_planar_self o) (o_non_planar_self o) pts in
    '(vset, inters) <- add_const_verts pts const_verts (flat_map snd inters) inters ;;
    '(hulldb, ctr') <- split_at_self L gen O pop inters hulldb ctr ;;
    ns <- all hulldb ;;
    Ok (node_sort ns, zset vset, ctr').
