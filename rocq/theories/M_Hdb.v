(** Model of package hdb: the R-tree over hulls. *)
From Verif Require Import M_Base M_Float M_Rng M_Geom M_Node.
Open Scope Z_scope.

(** hdb/dbnode.go:9-15 type dbNode.  [children] holds values (not pointers) in Go too,
    so a tree is a value; functions that mutate through a pointer return the new
    value. *)
Inductive dbnode :=
| DbNode (children : list dbnode) (item : option node) (height : nat) (leaf : bool) (bbox : mbr).

Definition db_children (d : dbnode) := let '(DbNode c _ _ _ _) := d in c.
Definition db_item (d : dbnode) := let '(DbNode _ i _ _ _) := d in i.
Definition db_height (d : dbnode) := let '(DbNode _ _ h _ _) := d in h.
Definition db_leaf (d : dbnode) := let '(DbNode _ _ _ l _) := d in l.
Definition db_bbox (d : dbnode) := let '(DbNode _ _ _ _ b) := d in b.

(** hdb/clear.go:8-13 emptyMBR. *)
Definition empty_mbr : mbr := MBR finf finf fninf fninf.

(** mbr.ExpandIncludeMBR (external): component-wise minimum and maximum. *)
Definition expand (a b : mbr) : mbr :=
  MBR (if flt (minx b) (minx a) then minx b else minx a)
      (if flt (miny b) (miny a) then miny b else miny a)
      (if fgt (maxx b) (maxx a) then maxx b else maxx a)
      (if fgt (maxy b) (maxy a) then maxy b else maxy a).

(** hdb/insert.go:164-166 contains. *)
Definition mbr_contains (a b : mbr) : bool :=
  fge (minx b) (minx a) && fle (maxx b) (maxx a) && fge (miny b) (miny a) && fle (maxy b) (maxy a).

(** hdb/insert.go:169-171 intersects. *)
Definition mbr_intersects (a b : mbr) : bool :=
  negb (fgt (minx b) (maxx a) || flt (maxx b) (minx a) || fgt (miny b) (maxy a) || flt (maxy b) (miny a)).

(** hdb/insert.go:132-134 bboxMargin; mbr.Area (external). *)
Definition bbox_margin (a : mbr) : f64 :=
  fadd (fsub (maxx a) (minx a)) (fsub (maxy a) (miny a)).
Definition mbr_area (a : mbr) : f64 :=
  fmul (fsub (maxx a) (minx a)) (fsub (maxy a) (miny a)).

(** hdb/insert.go:137-161 intersectionArea. *)
Definition intersection_area (a b : mbr) : f64 :=
  if negb (mbr_intersects a b) then fzero
  else
    let x0 := if fgt (minx b) (minx a) then minx b else minx a in
    let y0 := if fgt (miny b) (miny a) then miny b else miny a in
    let x1 := if flt (maxx b) (maxx a) then maxx b else maxx a in
    let y1 := if flt (maxy b) (maxy a) then maxy b else maxy a in
    fmul (fsub x1 x0) (fsub y1 y0).

(** hdb/mbr.go:14-20 distBBox over a given run of children. *)
Definition dist_bbox (l : list dbnode) : mbr :=
  fold_left (fun b c => expand b (db_bbox c)) l empty_mbr.

(** hdb/mbr.go:9-11 calcBBox. *)
Definition calc_bbox (d : dbnode) : dbnode :=
  let '(DbNode c i h l _) := d in DbNode c i h l (dist_bbox c).

Definition set_children (d : dbnode) (c : list dbnode) : dbnode :=
  let '(DbNode _ i h l b) := d in DbNode c i h l b.
Definition set_bbox (d : dbnode) (b : mbr) : dbnode :=
  let '(DbNode c i h l _) := d in DbNode c i h l b.

(** hdb/dbnode.go:18-33 createDBNode with a nil item. *)
Definition create_dbnode (h : nat) (leaf : bool) (c : list dbnode) : dbnode :=
  DbNode c None h leaf empty_mbr.

(** hdb/dbnode.go:36-44 newLeafNode. *)
Definition new_leaf (it : node) : dbnode := DbNode [] (Some it) 1 true (n_mbr it).

(** Order-dependent parts that do not matter for the results: sort.Sort (not stable)
    by MinX/MinY (hdb/nodepath.go), multiSelect (hdb/select.go:11-27, modelled
    separately in M_Select.v), the floating-point height estimate (hdb/build.go:22)
    and the tolerance math.EPSILON (external). *)
Record hdb_oracle := HdbOracle {
  o_sort : bool -> list dbnode -> list dbnode;
  o_msel : bool -> nat -> list node -> list node;
  o_height : nat -> nat -> nat;
  o_eps : f64
}.

(** hdb/rtree.go:10-14 type Hdb. *)
Record hdb := Hdb { h_root : dbnode; h_max : nat; h_min : nat }.

(** hdb/core.go:22-28 maxEntries, minEntries: ceil(0.4 x) in integers. *)
Definition max_entries (x : Z) : nat := Z.to_nat (Z.max 4 x).
Definition min_entries (M : nat) : nat := Nat.max 2 ((2 * M + 4) / 5).

(** hdb/clear.go:15-18 Clear; hdb/rtree.go:16-27 NewHdb. *)
Definition empty_root : dbnode := create_dbnode 1 true [].
Definition new_hdb (cap : Z) : hdb :=
  Hdb empty_root (max_entries cap) (min_entries (max_entries cap)).
Definition new_hdb_default : hdb := new_hdb 8.

(** hdb/insert.go:62-129 chooseSubtree: the choice of a child at one level.  State:
    least area, least enlargement, chosen index.  (Go keeps targetNode across levels;
    [None] here means no child of this level was chosen, a stale or nil pointer.) *)
Definition choose_step (eps : f64) (bbox : mbr) (st : f64 * f64 * option nat * nat) (child : dbnode)
  : f64 * f64 * option nat * nat :=
  let '(min_area, min_enl, target, i) := st in
  let cb := db_bbox child in
  let x0 := if flt (minx cb) (minx bbox) then minx cb else minx bbox in
  let y0 := if flt (miny cb) (miny bbox) then miny cb else miny bbox in
  let x1 := if fgt (maxx cb) (maxx bbox) then maxx cb else maxx bbox in
  let y1 := if fgt (maxy cb) (maxy bbox) then maxy cb else maxy bbox in
  let area := fmul (fsub (maxx cb) (minx cb)) (fsub (maxy cb) (miny cb)) in
  let enl := fmul (fsub x1 x0) (fsub y1 y0) in
  let d := fsub enl min_enl in
  if flt d fzero then
    ((if flt area min_area then area else min_area), enl, Some i, S i)
  else if feq d fzero || flt (fabs d) eps then
    if flt area min_area then (area, min_enl, Some i, S i)
    else (min_area, min_enl, target, S i)
  else (min_area, min_enl, target, S i).

Definition choose_child (eps : f64) (bbox : mbr) (children : list dbnode) : option nat :=
  let '(_, _, target, _) :=
    fold_left (choose_step eps bbox) children (finf, finf, None, 0%nat) in
  target.

Fixpoint replace_nth {A} (i : nat) (x : A) (l : list A) : list A :=
  match l, i with
  | [], _ => []
  | _ :: r, O => x :: r
  | y :: r, S i' => y :: replace_nth i' x r
  end.

(** hdb/mbr.go:24-48 allDistMargin (after the sort). *)
Definition all_dist_margin (c : list dbnode) (m M : nat) : f64 :=
  let left := dist_bbox (firstn m c) in
  let right := dist_bbox (firstn m (skipn (M - m) c)) in
  let margin := fadd (bbox_margin left) (bbox_margin right) in
  let mid := firstn (M - m - m) (skipn m c) in
  let step := fun (st : mbr * f64) ch =>
    let b := expand (fst st) (db_bbox ch) in (b, fadd (snd st) (bbox_margin b)) in
  let '(_, margin) := fold_left step mid (left, margin) in
  let '(_, margin) := fold_left step (rev mid) (right, margin) in
  margin.

(** hdb/split.go:73-82 chooseSplitAxis: the final order of the children. *)
Definition choose_split_axis (O : hdb_oracle) (c : list dbnode) (m M : nat) : list dbnode :=
  let cx := o_sort O true c in
  let xm := all_dist_margin cx m M in
  let cy := o_sort O false cx in
  let ym := all_dist_margin cy m M in
  if flt xm ym then o_sort O true cy else cy.

(** hdb/split.go:38-69 chooseSplitIndex. *)
Definition split_index_step (c : list dbnode) (st : nat * f64 * f64) (i : nat) : nat * f64 * f64 :=
  let '(index, min_overlap, min_area) := st in
  let b1 := dist_bbox (firstn i c) in
  let b2 := dist_bbox (skipn i c) in
  let overlap := intersection_area b1 b2 in
  let area := fadd (mbr_area b1) (mbr_area b2) in
  if flt overlap min_overlap then
    (i, overlap, (if flt area min_area then area else min_area))
  else if feq overlap min_overlap then
    if flt area min_area then (i, min_overlap, area) else st
  else st.

Definition choose_split_index (c : list dbnode) (m M : nat) : nat :=
  let '(index, _, _) :=
    fold_left (split_index_step c) (seq m (M - m + 1 - m)) (0%nat, finf, finf) in
  index.

(** hdb/split.go:9-28 split (without the parent update). *)
Definition split_node (O : hdb_oracle) (m : nat) (nd : dbnode) : dbnode * dbnode :=
  let M := length (db_children nd) in
  let c := choose_split_axis O (db_children nd) m M in
  let at_ := choose_split_index c m M in
  (calc_bbox (set_children nd (firstn at_ c)),
   calc_bbox (create_dbnode (db_height nd) (db_leaf nd) (skipn at_ c))).

(** hdb/insert.go:10-59, hdb/adj.go:6-10: choose the path, add the entry, split on
    overflow upwards, enlarge the boxes of the rest of the path.  The Go code walks a
    slice of pointers down and then up; here the recursion returns the new node and,
    when it was split, its new sibling.  [rem] is level minus the current depth. *)
Fixpoint ins (O : hdb_oracle) (mx mn : nat) (rem : nat) (nd x : dbnode)
  : res (dbnode * option dbnode) :=
  let b := db_bbox x in
  let finish nd1 :=
    if Nat.ltb mx (length (db_children nd1)) then
      let '(a, s) := split_node O mn nd1 in Ok (a, Some s)
    else Ok (set_bbox nd1 (expand (db_bbox nd1) b), None) in
  match rem with
  | 0%nat =>
    finish (set_bbox (set_children nd (db_children nd ++ [x])) (expand (db_bbox nd) b))
  | S rem' =>
    if db_leaf nd then Panic (* insertPath[level] is out of range *)
    else
      match choose_child (o_eps O) b (db_children nd) with
      | None => Panic
      | Some i =>
        match nth_error (db_children nd) i with
        | None => Panic
        | Some c =>
          '(c', o) <- ins O mx mn rem' c x ;;
          let ch := replace_nth i c' (db_children nd) in
          match o with
          | None => Ok (set_bbox (set_children nd ch) (expand (db_bbox nd) b), None)
          | Some c2 => finish (set_children nd (ch ++ [c2]))
          end
        end
      end
  end.

(** hdb/split.go:31-35 splitRoot. *)
Definition split_root (a b : dbnode) : dbnode :=
  calc_bbox (create_dbnode (S (db_height a)) false [a; b]).

Definition ins_root (O : hdb_oracle) (t : hdb) (rem : nat) (x : dbnode) : res hdb :=
  '(a, o) <- ins O (h_max t) (h_min t) rem (h_root t) x ;;
  match o with
  | None => Ok (Hdb a (h_max t) (h_min t))
  | Some s => Ok (Hdb (split_root a s) (h_max t) (h_min t))
  end.

(** hdb/insert.go:10-32 insert. *)
Definition insert (O : hdb_oracle) (t : hdb) (it : node) : res hdb :=
  ins_root O t (db_height (h_root t) - 1) (new_leaf it).

(** Consecutive chunks of k elements (the loops of hdb/build.go:39-48). *)
Fixpoint chunks_fuel {A} (fuel k : nat) (l : list A) : list (list A) :=
  match fuel with
  | 0%nat => []
  | S f => match l with
         | [] => []
         | _ => firstn k l :: chunks_fuel f k (skipn k l)
         end
  end.
Definition chunks {A} (k : nat) (l : list A) : list (list A) := chunks_fuel (length l) k l.

Definition cdiv (a b : nat) : nat := ((a + b - 1) / b)%nat.

(** hdb/build.go:9-52 buildTree on the sub-slice [items] (left..right).  float64
    ceilings of quotients of small integers are exact integer ceilings. *)
Fixpoint build (O : hdb_oracle) (M : nat) (fuel : nat) (items : list node) (height : nat)
  : res dbnode :=
  match fuel with
  | 0%nat => NoFuel
  | S f =>
    let N := length items in
    if Nat.leb N M then
      Ok (calc_bbox (create_dbnode 1 true (map new_leaf items)))
    else
      let h := if Nat.eqb height 0 then o_height O M N else height in
      let M' := if Nat.eqb height 0 then cdiv N (M ^ (h - 1)) else M in
      let N2 := cdiv N M' in
      let N1 := (N2 * Nat.sqrt_up M')%nat in
      let slabs := chunks N1 (o_msel O true N1 items) in
      let tiles := flat_map (fun s => chunks N2 (o_msel O false N2 s)) slabs in
      ch <- mapM (fun tile => build O M f tile (h - 1)) tiles ;;
      Ok (calc_bbox (create_dbnode h false ch))
  end.

Fixpoint insert_all (O : hdb_oracle) (t : hdb) (items : list node) : res hdb :=
  match items with
  | [] => Ok t
  | it :: r => t' <- insert O t it ;; insert_all O t' r
  end.

(** hdb/load.go:19-53 Load. *)
Definition load (O : hdb_oracle) (t : hdb) (items : list node) : res hdb :=
  let n := length items in
  if Nat.ltb n (h_min t) then insert_all O t items
  else
    nd <- build O (h_max t) (S (S n)) items 0 ;;
    match db_children (h_root t) with
    | [] => Ok (Hdb nd (h_max t) (h_min t))
    | _ =>
      let hr := db_height (h_root t) in
      let hn := db_height nd in
      if Nat.eqb hr hn then Ok (Hdb (split_root (h_root t) nd) (h_max t) (h_min t))
      else if Nat.ltb hr hn then
        ins_root O (Hdb nd (h_max t) (h_min t)) (hn - hr - 1) (h_root t)
      else ins_root O t (hr - hn - 1) nd
    end.

(** A stored item; Go appends the pointer [child.item] as is. *)
Definition item_of (d : dbnode) : list node :=
  match db_item d with Some it => [it] | None => [] end.

(** hdb/util.go:15-24 sliceIndex and hdb/remove.go:48-55 removeNode: drop the first
    child satisfying the predicate. *)
Fixpoint remove_first (p : dbnode -> bool) (l : list dbnode) : option (list dbnode) :=
  match l with
  | [] => None
  | c :: r => if p c then Some r else
      match remove_first p r with Some r' => Some (c :: r') | None => None end
  end.

(** hdb/remove.go:58-160 removeItem and condense: depth-first search for the first leaf
    holding a matching child; the child is removed, empty nodes on the path are removed
    from their parents and the boxes of the others are recomputed.  A leaf is examined
    without a box test; an inner node is entered only when its box contains the given
    box.  The explicit path/index stacks of the Go loop are the recursion. *)
Fixpoint rm (p : dbnode -> bool) (b : mbr) (nd : dbnode) : option dbnode :=
  match nd with
  | DbNode ch it h leaf bb =>
    if leaf then
      match remove_first p ch with
      | None => None
      | Some [] => Some (DbNode [] it h leaf bb)
      | Some ch' => Some (calc_bbox (DbNode ch' it h leaf bb))
      end
    else if mbr_contains bb b then
      let fix go l :=
        match l with
        | [] => None
        | c :: rest =>
          match rm p b c with
          | Some c' => Some (match db_children c' with [] => rest | _ => c' :: rest end)
          | None => match go rest with Some r' => Some (c :: r') | None => None end
          end
        end in
      match go ch with
      | None => None
      | Some [] => Some (DbNode [] it h leaf bb)
      | Some ch' => Some (calc_bbox (DbNode ch' it h leaf bb))
      end
    else None
  end.

(** hdb/remove.go:86-94 Remove: matches by node Id. *)
Definition has_id (i : Z) (d : dbnode) : bool :=
  match db_item d with Some it => n_id it =? i | None => false end.
Definition remove (t : hdb) (it : node) : hdb :=
  match rm (has_id (n_id it)) (n_mbr it) (h_root t) with
  | None => t
  | Some r => match db_children r with
              | [] => Hdb empty_root (h_max t) (h_min t)
              | _ => Hdb r (h_max t) (h_min t)
              end
  end.

(** Number of nodes of a tree (fuel of the traversals). *)
Fixpoint db_size (d : dbnode) : nat :=
  match d with
  | DbNode ch _ _ _ _ => S (fold_right (fun c a => (db_size c + a)%nat) 0%nat ch)
  end.

(** hdb/search.go:52-72 all.  The Go stack grows at its end; here its top is the head. *)
Fixpoint all_loop (fuel : nat) (nd : dbnode) (stack : list dbnode) (acc : list node)
  : res (list node) :=
  match fuel with
  | 0%nat => NoFuel
  | S f =>
    let acc := if db_leaf nd then acc ++ flat_map item_of (db_children nd) else acc in
    let stack := if db_leaf nd then stack else rev (db_children nd) ++ stack in
    match stack with
    | [] => Ok acc
    | x :: st => all_loop f x st acc
    end
  end.
Definition all_from (nd : dbnode) (acc : list node) : res (list node) :=
  all_loop (db_size nd) nd [] acc.

(** hdb/search.go:47-49 All. *)
Definition all (t : hdb) : res (list node) := all_from (h_root t) [].

(** hdb/search.go:23-36 the scan of one node's children. *)
Fixpoint search_children (q : mbr) (leaf : bool) (l : list dbnode) (stack : list dbnode)
    (acc : list node) : res (list dbnode * list node) :=
  match l with
  | [] => Ok (stack, acc)
  | c :: r =>
    if mbr_intersects q (db_bbox c) then
      if leaf then search_children q leaf r stack (acc ++ item_of c)
      else if mbr_contains q (db_bbox c) then
        acc' <- all_from c acc ;; search_children q leaf r stack acc'
      else search_children q leaf r (c :: stack) acc
    else search_children q leaf r stack acc
  end.

(** hdb/search.go:9-44 Search. *)
Fixpoint search_loop (fuel : nat) (q : mbr) (nd : dbnode) (stack : list dbnode) (acc : list node)
  : res (list node) :=
  match fuel with
  | 0%nat => NoFuel
  | S f =>
    '(stack, acc) <- search_children q (db_leaf nd) (db_children nd) stack acc ;;
    match stack with
    | [] => Ok acc
    | x :: st => search_loop f q x st acc
    end
  end.
Definition search (t : hdb) (q : mbr) : res (list node) :=
  if negb (mbr_intersects q (db_bbox (h_root t))) then Ok []
  else search_loop (db_size (h_root t)) q (h_root t) [] [].

(** hdb/collides.go:5-26 Collides. *)
Fixpoint collides_children (q : mbr) (leaf : bool) (l : list dbnode) (stack : list dbnode)
  : bool * list dbnode :=
  match l with
  | [] => (false, stack)
  | c :: r =>
    if mbr_intersects q (db_bbox c) then
      if leaf || mbr_contains q (db_bbox c) then (true, c :: stack)
      else collides_children q leaf r (c :: stack)
    else collides_children q leaf r stack
  end.
Fixpoint collides_loop (fuel : nat) (q : mbr) (nd : dbnode) (stack : list dbnode) : res bool :=
  match fuel with
  | 0%nat => NoFuel
  | S f =>
    let '(b, stack) := collides_children q (db_leaf nd) (db_children nd) stack in
    if b then Ok true
    else match stack with
         | [] => Ok false
         | x :: st => collides_loop f q x st
         end
  end.
Definition collides (t : hdb) (q : mbr) : res bool :=
  if negb (mbr_intersects q (db_bbox (h_root t))) then Ok false
  else collides_loop (db_size (h_root t)) q (h_root t) [].

(** hdb/clear.go:21-23 IsEmpty. *)
Definition is_empty (t : hdb) : bool :=
  match db_children (h_root t) with [] => true | _ => false end.
