(** Context geometries and their collections (package ctx), over shared arrays of pointers. *)
From Coq Require Import String.
From Verif Require Import M_Base M_Slice.
Open Scope Z_scope.

(** ctx/ctx.go:9-16: the six kinds. *)
Definition t_self : string := "self".
Definition t_planar_vertex : string := "planar_vertex".
Definition t_non_planar_vertex : string := "non_planar_vertex".
Definition t_planar_segment : string := "planar_segment".
Definition t_linear_simple : string := "linear_simple".
Definition t_context_neighbour : string := "context_neighbour".

(** ctx/ctx.go:18-29 type Meta and type ContextGeometry; the geometry is of any type [G]. *)
Record ctxg (G : Type) := Ctxg {
  cg_geom : G; cg_type : string; cg_i : Z; cg_j : Z; cg_planar : list Z; cg_non_planar : list Z }.
Arguments Ctxg {G}. Arguments cg_geom {G}. Arguments cg_type {G}. Arguments cg_i {G}. Arguments cg_j {G}.
Arguments cg_planar {G}. Arguments cg_non_planar {G}.

(** ctx/ctx.go:31-39 New. *)
Definition cg_new {G} (g : G) (i j : Z) : ctxg G := Ctxg g t_self i j [] [].

(** The assignment to the field CtxType that every As... method makes. *)
Definition cg_set {G} (t : string) (o : ctxg G) : ctxg G :=
  Ctxg (cg_geom o) t (cg_i o) (cg_j o) (cg_planar o) (cg_non_planar o).

(** ctx/ctx.go:92-99 AsSelf, IsSelf. *)
Definition as_self {G} (o : ctxg G) := cg_set t_self o.
Definition is_self {G} (o : ctxg G) : bool := String.eqb (cg_type o) t_self.
(** ctx/ctx.go:102-109 AsPlanarVertex, IsPlanarVertex. *)
Definition as_planar_vertex {G} (o : ctxg G) := cg_set t_planar_vertex o.
Definition is_planar_vertex {G} (o : ctxg G) : bool := String.eqb (cg_type o) t_planar_vertex.
(** ctx/ctx.go:112-119 AsNonPlanarVertex, IsNonPlanarVertex. *)
Definition as_non_planar_vertex {G} (o : ctxg G) := cg_set t_non_planar_vertex o.
Definition is_non_planar_vertex {G} (o : ctxg G) : bool := String.eqb (cg_type o) t_non_planar_vertex.
(** ctx/ctx.go:122-129 AsPlanarSegment, IsPlanarSegment. *)
Definition as_planar_segment {G} (o : ctxg G) := cg_set t_planar_segment o.
Definition is_planar_segment {G} (o : ctxg G) : bool := String.eqb (cg_type o) t_planar_segment.
(** ctx/ctx.go:132-139 AsLinearSimple, IsLinearSimple. *)
Definition as_linear_simple {G} (o : ctxg G) := cg_set t_linear_simple o.
Definition is_linear_simple {G} (o : ctxg G) : bool := String.eqb (cg_type o) t_linear_simple.
(** ctx/ctx.go:146-153 AsContextNeighbour, IsContextNeighbour. *)
Definition as_context_neighbour {G} (o : ctxg G) := cg_set t_context_neighbour o.
Definition is_context_neighbour {G} (o : ctxg G) : bool := String.eqb (cg_type o) t_context_neighbour.

(** The memory a program with collections works on: arrays of pointers, the field I of the context
    behind each pointer ([None]: a nil pointer; the other fields play no part here), and the field
    [list] of every collection (ctx/ctxs.go:7-9). *)
Record cmem := Cmem { cm_heap : heap; cm_cols : list slice }.

(** The nil slice of a zero ContextGeometries. *)
Definition s_nil : slice := Slice 0 0 0 0.

(** A slice with a new array: the array behind variadic arguments, or a slice literal. *)
Definition s_fresh (m : heap) (ps : list Z) : heap * slice :=
  (m ++ [ps], Slice (length m) 0 (length ps) (length ps)).

(** Where a slice handed to a method comes from: built for the call, or the data view of a
    collection, which the caller passes on. *)
Inductive csrc :=
| Fresh (ps : list Z)
| View (k : nat).

(** ctx/ctxs.go:51-53 DataView of collection [k]: its slice itself, not a copy. *)
Definition data_view (w : cmem) (k : nat) : res slice :=
  match nth_error (cm_cols w) k with Some s => Ok s | None => Panic end.

(** ctx/ctxs.go:24-26 Len. *)
Definition col_len (w : cmem) (k : nat) : res Z := s <- data_view w k ;; Ok (Z.of_nat (s_len s)).

Definition src_slice (w : cmem) (x : csrc) : res (heap * slice) :=
  match x with
  | Fresh ps => Ok (s_fresh (cm_heap w) ps)
  | View k => s <- data_view w k ;; Ok (cm_heap w, s)
  end.

Fixpoint set_nth {A} (l : list A) (k : nat) (x : A) : list A :=
  match l, k with
  | [], _ => []
  | _ :: r, O => x :: r
  | y :: r, S k' => y :: set_nth r k' x
  end.

(** ctx/ctxs.go:11-13 NewContexts(src...): the variadic slice is kept as it is. *)
Definition new_contexts (w : cmem) (x : csrc) : res cmem :=
  '(m, s) <- src_slice w x ;; Ok (Cmem m (cm_cols w ++ [s])).

(** ctx/ctxs.go:15-22 NewContextsFromObjects: [None] is an object of another type, on which the type
    assertion panics.  The capacity suffices for every append. *)
Fixpoint all_some {A} (l : list (option A)) : option (list A) :=
  match l with
  | [] => Some []
  | Some x :: r => option_map (cons x) (all_some r)
  | None :: _ => None
  end.
Fixpoint append_each (m : heap) (s : slice) (ps : list Z) : heap * slice :=
  match ps with
  | [] => (m, s)
  | p :: r => let '(m, s) := s_append 0 m s [p] in append_each m s r
  end.
Definition from_objects (w : cmem) (objs : list (option Z)) : res cmem :=
  match all_some objs with
  | None => Panic
  | Some ps =>
    let m := cm_heap w ++ [repeat 0 (length objs)] in
    let '(m, s) := append_each m (Slice (length (cm_heap w)) 0 0 (length objs)) ps in
    Ok (Cmem m (cm_cols w ++ [s]))
  end.

(** ctx/ctxs.go:36-39 Push; [grow] is the spare capacity the runtime gives a new array. *)
Definition push (w : cmem) (k : nat) (p : Z) (grow : nat) : res cmem :=
  s <- data_view w k ;;
  let '(m, s) := s_append grow (cm_heap w) s [p] in Ok (Cmem m (set_nth (cm_cols w) k s)).

(** ctx/ctxs.go:41-44 Extend. *)
Definition extend (w : cmem) (k : nat) (x : csrc) (grow : nat) : res cmem :=
  '(m, t) <- src_slice w x ;;
  s <- data_view w k ;;
  let '(m, s) := s_append grow m s (s_read m t) in Ok (Cmem m (set_nth (cm_cols w) k s)).

(** ctx/ctx.go:142-144 AsContextGeometries(objects...): NewContexts(o).Extend(objects). *)
Definition as_contexts (w : cmem) (p : Z) (x : csrc) (grow : nat) : res cmem :=
  '(m, t) <- src_slice w x ;;
  let '(m, s) := s_fresh m [p] in
  let '(m, s) := s_append grow m s (s_read m t) in Ok (Cmem m (cm_cols w ++ [s])).

(** ctx/ctxs.go:28-30 Swap. *)
Definition swap (w : cmem) (k i j : nat) : res cmem :=
  s <- data_view w k ;;
  match nth_error (s_read (cm_heap w) s) i, nth_error (s_read (cm_heap w) s) j with
  | Some a, Some b =>
    let m := h_write (cm_heap w) (s_arr s) (s_off s + i) [b] in
    Ok (Cmem (h_write m (s_arr s) (s_off s + j) [a]) (cm_cols w))
  | _, _ => Panic
  end.

(** ctx/ctxs.go:32-34 Less. *)
Definition less (fi : Z -> option Z) (w : cmem) (k i j : nat) : res bool :=
  s <- data_view w k ;;
  match nth_error (s_read (cm_heap w) s) i, nth_error (s_read (cm_heap w) s) j with
  | Some a, Some b => match fi a, fi b with Some x, Some y => Ok (x <? y) | _, _ => Panic end
  | _, _ => Panic
  end.

(** ctx/ctxs.go:46-49 Sort: sort.Sort reaches the collection only through Len, Less and Swap, so what it
    does to it is a series of swaps ... *)
Fixpoint swaps (w : cmem) (k : nat) (l : list (nat * nat)) : res cmem :=
  match l with
  | [] => Ok w
  | (i, j) :: r => w' <- swap w k i j ;; swaps w' k r
  end.
(** ... after which, by its documentation, no element is less than the one before it. *)
Definition in_order (fi : Z -> option Z) (w : cmem) (k : nat) : Prop :=
  forall i n, col_len w k = Ok n -> Z.of_nat (S i) < n -> less fi w k (S i) i = Ok false.

(** ctx/ctxs.go:55-58 SetData: the slice is kept as it is. *)
Definition set_data (w : cmem) (k : nat) (x : csrc) : res cmem :=
  _ <- data_view w k ;; '(m, s) <- src_slice w x ;; Ok (Cmem m (set_nth (cm_cols w) k s)).

(** The calls a program can make. *)
Inductive cop :=
| ONew (x : csrc)                       (* NewContexts(x...) *)
| OZero                                 (* &ContextGeometries{} *)
| OFromObjects (objs : list (option Z)) (* NewContextsFromObjects(objs) *)
| OAsContexts (p : Z) (x : csrc) (grow : nat) (* p.AsContextGeometries(x...) *)
| OPush (k : nat) (p : Z) (grow : nat)
| OExtend (k : nat) (x : csrc) (grow : nat)
| OSort (k : nat) (sw : list (nat * nat))
| OSetData (k : nat) (x : csrc).

Definition call (w : cmem) (o : cop) : res cmem :=
  match o with
  | ONew x => new_contexts w x
  | OZero => Ok (Cmem (cm_heap w) (cm_cols w ++ [s_nil]))
  | OFromObjects objs => from_objects w objs
  | OAsContexts p x g => as_contexts w p x g
  | OPush k p g => push w k p g
  | OExtend k x g => extend w k x g
  | OSort k sw => _ <- col_len w k ;; swaps w k sw
  | OSetData k x => set_data w k x
  end.

(** The program makes the calls one after the other; a Sort leaves its collection in order. *)
Inductive history (fi : Z -> option Z) : cmem -> list cop -> cmem -> Prop :=
| h_done w : history fi w [] w
| h_call w o w' h w'' :
    call w o = Ok w' -> (forall k sw, o = OSort k sw -> in_order fi w' k) ->
    history fi w' h w'' -> history fi w (o :: h) w''.
