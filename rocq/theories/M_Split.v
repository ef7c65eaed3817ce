(** Model of packages split and merge. *)
From Verif Require Import M_Base M_Float M_Rng M_Geom M_Offset M_Node.
Open Scope Z_scope.

(** split/split.go:13-25 AtScoreSelection. *)
Definition at_score_selection (L : geomlib) (gen : idgen) (hull : node)
    (score : scorefn) (ctr : nat) : res (node * node * nat) :=
  let c := n_coords hull in
  let i := rI (n_rng hull) in
  let j := rJ (n_rng hull) in
  let (k, _) := score c in
  let idx := i + k in
  ca <- cslice c 0 (k + 1) ;;
  cb <- cslice c k (clen c) ;;
  let ha := create_node L (gen ctr) ca (Rng i idx) (n_inst hull) in
  let hb := create_node L (gen (S ctr)) cb (Rng idx j) (n_inst hull) in
  Ok (ha, hb, S (S ctr)).

(** split/split.go:28-38 AtIndex. *)
Fixpoint at_ranges (L : geomlib) (gen : idgen) (hull : node) (rs : list rng) (ctr : nat)
  : res (list node * nat) :=
  match rs with
  | [] => Ok ([], ctr)
  | r :: rest =>
    let I := rI (n_rng hull) in
    c <- cslice (n_coords hull) (rI r - I) (rJ r - I + 1) ;;
    let h := create_node L (gen ctr) c r (n_inst hull) in
    '(hs, ctr') <- at_ranges L gen hull rest (S ctr) ;;
    Ok (h :: hs, ctr')
  end.
Definition at_index (L : geomlib) (gen : idgen) (hull : node) (idxs : list Z) (ctr : nat)
  : res (list node * nat) :=
  at_ranges L gen hull (rsplit (n_rng hull) idxs) ctr.

(** merge/merge.go:16-20 Range: least and greatest of the four ends. *)
Definition merge_range (ra rb : rng) : rng :=
  let s := zsort (rslice ra ++ rslice rb) in
  Rng (hd 0 s) (last s 0).

(** merge/merge.go:39-52 ContiguousCoordinates; the three-index slice forces append
    to copy, so the result is a fresh list (proved at array level in Properties_Merge). *)
Definition contiguous_coords (ha hb : node) : res coords :=
  if negb (rcontig (n_rng ha) (n_rng hb)) then Panic
  else
    let '(ha, hb) :=
      if (rI (n_rng hb) <? rJ (n_rng ha)) && (rJ (n_rng hb) =? rI (n_rng ha))
      then (hb, ha) else (ha, hb) in
    let c := n_coords ha in
    let n := clen c - 1 in
    if n <? 0 then Panic
    else Ok (Coords (cpnts c) (firstn (Z.to_nat n) (cidxs c) ++ cidxs (n_coords hb))).

(** merge/merge.go:23-37 ContiguousFragmentsAtThreshold (and 55-59
    contiguousFragments); [None] is (false, Node{}). *)
Definition fragments_at_threshold (L : geomlib) (gen : idgen) (score : scorefn)
    (ha hb : node) (rel : f64 -> bool) (ctr : nat) : res (option node * nat) :=
  c <- contiguous_coords ha hb ;;
  let (_, val) := score c in
  if rel val then
    Ok (Some (create_node L (gen ctr) c (merge_range (n_rng ha) (n_rng hb)) (n_inst ha)), S ctr)
  else Ok (None, ctr).
