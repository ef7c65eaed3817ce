(** merge.ContiguousFragmentsBySize. *)
From Verif Require Import M_Base M_Float M_Rng M_Geom M_Offset M_Node M_Decompose M_Split M_Hdb M_Knn M_Deform.
Open Scope Z_scope.

(** Go maps keyed by [Range.AsArray()] whose values are hulls (the key is the range of the
    value): lists of hulls. *)
Definition dict_del (r : rng) (d : list node) : list node :=
  filter (fun x => negb (rng_eqb (n_rng x) r)) d.
Definition dict_set (h : node) (d : list node) : list node := dict_del (n_rng h) d ++ [h].
Definition dict_has (r : rng) (d : list node) : bool := existsb (fun x => rng_eqb (n_rng x) r) d.

(** merge/merge.go:75-79: hdict, mrgdict, the caller's map unmerged, and the list rm. *)
Record frag_state := FragState {
  fs_hdict : list node; fs_mrg : list node; fs_unmerged : list node; fs_rm : list node
}.

(** merge/merge.go:113-118: are h and s mergeable? *)
Definition mergeable (vset : Z -> bool) (valid : f64 -> bool) (score : scorefn) (h s : node) : res bool :=
  let hr := n_rng h in let sr := n_rng s in
  if ((rJ hr =? rI sr) && negb (vset (rI sr))) || ((rI hr =? rJ sr) && negb (vset (rJ sr))) then
    c <- contiguous_coords s h ;;
    let (_, val) := score c in Ok (valid val)
  else Ok false.

(** merge/merge.go:102-145: the loop over the neighbours of h. *)
Fixpoint frag_try (L : geomlib) (gen : idgen) (vset : Z -> bool) (valid : f64 -> bool) (score : scorefn)
    (h : node) (hs : list node) (st : frag_state) (ctr : nat) : res (frag_state * nat) :=
  match hs with
  | [] => Ok (st, ctr)
  | s :: rest =>
    if dict_has (n_rng s) (fs_mrg st) then frag_try L gen vset valid score h rest st ctr
    else
      m <- mergeable vset valid score h s ;;
      if negb m then
        frag_try L gen vset valid score h rest
          (FragState (fs_hdict st) (fs_mrg st) (dict_set h (fs_unmerged st)) (fs_rm st)) ctr
      else
        c <- contiguous_coords h s ;;
        let nd := create_node L (gen ctr) c (merge_range (n_rng s) (n_rng h)) (n_inst h) in
        Ok (FragState
              (dict_set nd (dict_del (n_rng h) (dict_del (n_rng s) (fs_hdict st))))
              (dict_set s (dict_set h (fs_mrg st)))
              (dict_del (n_rng h) (fs_unmerged st))
              (fs_rm st ++ [s; h]), S ctr)
  end.

(** merge/merge.go:86-146: the loop over the hulls. *)
Fixpoint frag_loop (L : geomlib) (gen : idgen) (db : hdb) (vset : Z -> bool) (size : Z)
    (valid : f64 -> bool) (score : scorefn) (hulls : list node) (st : frag_state) (ctr : nat)
  : res (frag_state * nat) :=
  match hulls with
  | [] => Ok (st, ctr)
  | h :: rest =>
    if dict_has (n_rng h) (fs_mrg st) then frag_loop L gen db vset size valid score rest st ctr
    else
      let st := FragState (dict_set h (fs_hdict st)) (fs_mrg st) (fs_unmerged st) (fs_rm st) in
      if negb (rsize (n_rng h) =? size) then frag_loop L gen db vset size valid score rest st ctr
      else
        hs <- node_neighbours L db h epsilon_dist ;;
        '(st, ctr) <- frag_try L gen vset valid score h (node_sort hs) st ctr ;;
        frag_loop L gen db vset size valid score rest st ctr
  end.

(** merge/merge.go:62-154 ContiguousFragmentsBySize: the kept hulls (Go returns the values
    of a map, in arbitrary order), the removed ones and the caller's map. *)
Definition fragments_by_size (L : geomlib) (gen : idgen) (db : hdb) (vset : Z -> bool) (size : Z)
    (valid : f64 -> bool) (score : scorefn) (hulls unmerged : list node) (ctr : nat)
  : res (list node * list node * list node * nat) :=
  '(st, ctr) <- frag_loop L gen db vset size valid score hulls (FragState [] [] unmerged []) ctr ;;
  Ok (fs_hdict st, fs_rm st, fs_unmerged st, ctr).
