(** Model of package homotopy: the linked chain, its deformation, the sidedness check. *)
From Verif Require Import M_Base M_Float M_Rng M_Geom M_Node M_Hdb.
Open Scope Z_scope.

(** homotopy/chain.go:7-18 types Vertex and Chain.  A vertex is named by its index in the
    coordinates (field i); the heap is the pair of pointer maps.  The field link always
    points to vertex 0; the field simple is never read. *)
Record chainst := Chain { ch_next : Z -> option Z; ch_prev : Z -> option Z; ch_size : Z }.

Definition upd (f : Z -> option Z) (k : Z) (v : option Z) : Z -> option Z :=
  fun i => if i =? k then v else f i.

(** homotopy/chain.go:45-52 ptrs. *)
Definition ptrs (st : chainst) (prev next : option Z) : chainst :=
  let st := match next with
            | Some k => Chain (ch_next st) (upd (ch_prev st) k prev) (ch_size st)
            | None => st end in
  match prev with
  | Some k => Chain (upd (ch_next st) k next) (ch_prev st) (ch_size st)
  | None => st
  end.

(** homotopy/chain.go:20-36 NewChain for n coordinates (n >= 1: coordinates.Pt(0)). *)
Definition new_chain (n : Z) : chainst :=
  fold_left (fun st i => ptrs st (Some (i - 1)) (Some i)) (zseq 1 (n - 1))
    (Chain (fun _ => None) (fun _ => None) n).

(** homotopy/chain.go:38-42 remove (of a vertex that is not nil). *)
Definition ch_remove (st : chainst) (v : Z) : chainst :=
  ptrs st (ch_prev st v) (ch_next st v).

(** homotopy/deform.go:55-57: a.BBox().ExpandIncludeXY(b).ExpandIncludeXY(c). *)
Definition pt_box (p : point) : mbr := MBR (px p) (py p) (px p) (py p).
Definition tri_box (a b c : point) : mbr := expand (expand (pt_box a) (pt_box b)) (pt_box c).

(** homotopy/deform.go:66-74 isTriangleCollapsible. *)
Definition tri_collapsible (L : geomlib) (a b c : point) (neighbours : list geometry) : bool :=
  forallb (fun g => negb (gl_isect L (GPoly [[a; b; c; a]]) g)) neighbours.

(** homotopy/deform.go:46-63 collapseVertex; db.Search of the external r-tree
    (homotopy/deform.go:35-44 contextDB) returns the contexts whose boxes intersect. *)
Definition collapse_vertex (L : geomlib) (c : coords) (ctxs : list geometry)
    (st : chainst) (v : Z) : bool :=
  match ch_prev st v, ch_next st v with
  | Some va, Some vc =>
    let a := cpt c va in let b := cpt c v in let d := cpt c vc in
    tri_collapsible L a b d
      (filter (fun g => mbr_intersects (tri_box a b d) (gl_bounds L g)) ctxs)
  | _, _ => false
  end.

(** homotopy/deform.go:21-29: one pass along the chain from [link]. *)
Fixpoint ch_pass (col : chainst -> Z -> bool) (fuel : nat) (st : chainst) (link : option Z)
    (deformable : bool) : res (chainst * bool) :=
  match link with
  | None => Ok (st, deformable)
  | Some v =>
    match fuel with
    | 0%nat => NoFuel
    | S f =>
      if col st v then
        let st := ch_remove st v in
        let st := Chain (ch_next st) (ch_prev st) (ch_size st - 1) in
        ch_pass col f st (ch_next st v) true
      else ch_pass col f st (ch_next st v) deformable
    end
  end.

(** homotopy/deform.go:19-31. *)
Fixpoint ch_loop (col : chainst -> Z -> bool) (inner fuel : nat) (st : chainst) : res chainst :=
  match fuel with
  | 0%nat => NoFuel
  | S f =>
    if 2 <? ch_size st then
      '(st', d) <- ch_pass col inner st (Some 0) false ;;
      if (d : bool) then ch_loop col inner f st' else Ok st'
    else Ok st
  end.

(** homotopy/deform.go:11-33 chainDeformation. *)
Definition chain_deformation (L : geomlib) (c : coords) (ctxs : list geometry) : res chainst :=
  let n := Z.to_nat (clen c) in
  ch_loop (collapse_vertex L c ctxs) (S n) (S n) (new_chain (clen c)).

(** homotopy/homotopy.go:29-52 filterContext: (disjoint, xor); the list of excluded
    contexts is not used. *)
Definition ctx_disjoint (L : geomlib) (c : coords) (g : geometry) : bool :=
  negb (gl_isect L (GLine (cpts c)) g) && negb (gl_isect L (GSeg (cfirst c) (clast c)) g).
Definition ctx_both (L : geomlib) (c : coords) (g : geometry) : bool :=
  gl_isect L (GLine (cpts c)) g && gl_isect L (GSeg (cfirst c) (clast c)) g.
Definition filter_context (L : geomlib) (c : coords) (ctxs : list geometry)
  : list geometry * list geometry :=
  (filter (fun g => negb (ctx_both L c g) && ctx_disjoint L c g) ctxs,
   filter (fun g => negb (ctx_both L c g) && negb (ctx_disjoint L c g)) ctxs).

(** homotopy/homotopy.go:9-27 Homotopy; relate/sidedness.go:10-12, relate/dir.go:9-11.
    [Panic] is the nil dereference of ch.link.next. *)
Definition homotopy (L : geomlib) (c : coords) (ctxs : list geometry) : res bool :=
  let '(disjoint, xor) := filter_context L c ctxs in
  match xor with
  | _ :: _ => Ok false
  | [] =>
    match disjoint with
    | [] => Ok true
    | _ =>
      ch <- chain_deformation L c disjoint ;;
      if ch_size ch =? 2 then
        match ch_next ch 0 with
        | Some k => Ok (gl_eq2d L (cpt c 0) (cpt c 0) && gl_eq2d L (cpt c (clen c - 1)) (cpt c k))
        | None => Panic
        end
      else Ok false
    end
  end.
