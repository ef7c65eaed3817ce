(** Small helpers around lines, ranges and hull slices that the main path does not use, or uses through
    other definitions. *)
From Verif Require Import M_Base M_Float M_Rng M_Geom M_Node M_Slice M_Text.
Open Scope Z_scope.

(** geometry/pln.go:11-16 Polyline by its coordinate view; [None]: the LineString is nil. *)
Record vline := VLine { v_id : bytes; v_meta : bytes; v_coords : option coords }.

(** geometry/pln.go:19-24 CreatePolyline. *)
Definition v_create (id : bytes) (c : coords) (meta : bytes) : vline :=
  VLine id meta (if clen c <? 2 then None else Some c).

(** Using the nil LineString panics. *)
Definition v_view (p : vline) : res coords := match v_coords p with Some c => Ok c | None => Panic end.

(** geometry/pln.go:69-71 Len. *)
Definition v_len (p : vline) : res Z := c <- v_view p ;; Ok (clen c).

(** geometry/pln.go:44-46 Range; FirstIndex and LastIndex (external): first and last element of Idxs. *)
Definition v_range (p : vline) : res rng :=
  c <- v_view p ;; Ok (Rng (nth 0 (cidxs c) 0) (nth (length (cidxs c) - 1) (cidxs c) 0)).

(** geometry/pln.go:59-66 SubCoordinates; make panics on a negative capacity. *)
Definition v_sub_coords (p : vline) (r : rng) : res coords :=
  c <- v_view p ;;
  if rJ r - rI r + 1 <? 0 then Panic else Ok (Coords (cpnts c) (zseq (rI r) (rJ r))).

(** geometry/pln.go:54-56 SubPolyline. *)
Definition v_sub (p : vline) (r : rng) : res vline :=
  c <- v_sub_coords p r ;; Ok (v_create (v_id p) c (v_meta p)).

(** geometry/pln.go:49-51 Segment; geom.NewSegment (external) joins the points at positions i and j of the view. *)
Definition v_segment (p : vline) (i j : Z) : res geometry :=
  c <- v_view p ;;
  if (0 <=? i) && (i <? clen c) && (0 <=? j) && (j <? clen c) then Ok (GSeg (cpt c i) (cpt c j)) else Panic.

(** geometry/pln.go:27-41 SegmentBounds: for every segment its two ends, of which mbr.CreateMBR (external) makes
    the box, and the indices I, J. *)
Definition v_bounds (mk : point -> point -> mbr) (p : vline) : res (list (mbr * Z * Z)) :=
  c <- v_view p ;;
  Ok (map (fun i => (mk (cpt c i) (cpt c (i + 1)),
                     nth (Z.to_nat i) (cidxs c) 0, nth (Z.to_nat (i + 1)) (cidxs c) 0))
          (zseq 0 (clen c - 2))).

(** common/common.go:34-43 CreateHulls with nodeFromPolyline (46-49) and SubCoordinates (51-58); every element of
    [indices] is a slice of ints of which the first two are read. *)
Fixpoint create_hulls (L : geomlib) (gen : idgen) (pts : list point) (inst : Z) (indices : list (list Z))
    (ctr : nat) : res (list node * nat) :=
  match indices with
  | [] => Ok ([], ctr)
  | (i :: j :: _) :: r =>
    if j - i + 1 <? 0 then Panic
    else
      let h := create_node L (gen ctr) (sub_coords pts (Rng i j)) (Rng i j) inst in
      '(hs, ctr) <- create_hulls L gen pts inst r (S ctr) ;;
      Ok (h :: hs, ctr)
  | _ :: _ => Panic
  end.

(** node/node.go:78-83 SegmentAsPolyline: the view of the first and the last index; the hull keeps its own. *)
Definition segment_as_polyline (h : node) : res coords :=
  let c := n_coords h in
  match cidxs c with
  | [] => Panic
  | a :: _ => Ok (Coords (cpnts c) [a; nth (length (cidxs c) - 1) (cidxs c) 0])
  end.

(** rng/stride.go:6-22 Stride and ExclusiveStride.  iter.NewGenerator(start, stop, step).Values() (external) gives
    start, start+step, ... below stop, for a positive step; other steps are not modelled. *)
Fixpoint gen_values (fuel : nat) (start stop step : Z) : list Z :=
  match fuel with
  | O => []
  | S f => if start <? stop then start :: gen_values f (start + step) stop step else []
  end.
Definition step_of (step : list Z) : Z := match step with [] => 1 | s :: _ => s end.
Definition stride (r : rng) (step : list Z) : list Z :=
  gen_values (Z.to_nat (rJ r + 1 - rI r)) (rI r) (rJ r + 1) (step_of step).
Definition exclusive_stride (r : rng) (step : list Z) : list Z :=
  gen_values (Z.to_nat (rJ r - (rI r + 1))) (rI r + 1) (rJ r) (step_of step).

(** node/nodes.go:44-52 Pop on a slice of hulls, hulls being numbers and Node{} the number 0: the heap, the
    caller's slice and the value returned. *)
Definition node_pop (m : heap) (s : slice) : heap * slice * slice :=
  match s_len s with
  | O => (m, s, s)
  | S n => (h_write m (s_arr s) (s_off s + n) [0], Slice (s_arr s) (s_off s) n (s_cap s), s)
  end.
