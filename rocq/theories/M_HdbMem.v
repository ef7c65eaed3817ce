(** Package hdb in memory: nodes live in arrays, a node's children are a slice of an array, and
    insertion and removal work through pointers into these arrays while append moves them. *)
From Verif Require Import M_Base M_Float M_Rng M_Geom M_Node M_Slice M_Hdb.
Open Scope nat_scope.

(** hdb/dbnode.go:9-15 type dbNode as it lies in memory.  The item pointer is represented by the
    hull it points to (what may happen to that hull is the subject of M_Alias.v). *)
Record cell := Cell { c_kids : slice; c_item : option node; c_height : nat; c_leaf : bool; c_bbox : mbr }.

(** The arrays of nodes by address, and the field [data] of the tree (hdb/rtree.go:10-14). *)
Definition mheap := list (list cell).
Record mstate := MState { ms_heap : mheap; ms_root : cell }.

(** The nil slice; also the empty literal []dbNode{}, which has no element to point to. *)
Definition nil_slice : slice := Slice 0 0 0 0.
(** dbNode{}. *)
Definition zero_cell : cell := Cell nil_slice None 0 false (MBR fzero fzero fzero fzero).

(** The elements of a slice of nodes. *)
Definition kids_of (m : mheap) (s : slice) : list cell :=
  firstn (s_len s) (skipn (s_off s) (nth (s_arr s) m [])).

(** Overwriting the elements of a slice with as many others. *)
Definition write_kids (m : mheap) (s : slice) (cells : list cell) : mheap :=
  let a := nth (s_arr s) m [] in
  replace_nth (s_arr s) (firstn (s_off s) a ++ cells ++ skipn (s_off s + s_len s) a) m.

(** A *dbNode: &tree.data or a place in an array. *)
Inductive ptr := PRoot | PCell (a i : nat).
Definition kid (s : slice) (i : nat) : ptr := PCell (s_arr s) (s_off s + i).

Definition deref (st : mstate) (p : ptr) : res cell :=
  match p with
  | PRoot => Ok (ms_root st)
  | PCell a i => match nth_error (nth a (ms_heap st) []) i with Some c => Ok c | None => Panic end
  end.
Definition store (st : mstate) (p : ptr) (c : cell) : mstate :=
  match p with
  | PRoot => MState (ms_heap st) c
  | PCell a i => MState (replace_nth a (replace_nth i c (nth a (ms_heap st) [])) (ms_heap st)) (ms_root st)
  end.
Definition with_kids (c : cell) (s : slice) : cell := Cell s (c_item c) (c_height c) (c_leaf c) (c_bbox c).
Definition with_bbox (c : cell) (b : mbr) : cell := Cell (c_kids c) (c_item c) (c_height c) (c_leaf c) b.

(** A node without its children: the functions of hdb that choose by boxes do not look at them. *)
Definition bare (c : cell) : dbnode := DbNode [] (c_item c) (c_height c) (c_leaf c) (c_bbox c).
(** hdb/mbr.go:14-20 distBBox over the given nodes. *)
Definition boxes (l : list cell) : mbr := dist_bbox (map bare l).

(** What the code does not determine: the order sort.Sort makes of equal boxes (as the list of old positions; it sees
    only the boxes through Less), the selection, the height and the tolerance as in M_Hdb.v, and the spare capacity
    the runtime gives a new array. *)
Record m_oracle := MOracle {
  mo_sort : bool -> list mbr -> list nat;
  mo_msel : bool -> nat -> list node -> list node;
  mo_height : nat -> nat -> nat;
  mo_eps : f64;
  mo_grow : mheap -> nat
}.

(** hdb/dbnode.go:52-54 addChild: built-in append of one node. *)
Definition append_kid (O : m_oracle) (m : mheap) (s : slice) (c : cell) : mheap * slice :=
  if Nat.ltb (s_len s) (s_cap s) then
    (let a := nth (s_arr s) m [] in replace_nth (s_arr s) (replace_nth (s_off s + s_len s) c a) m,
     Slice (s_arr s) (s_off s) (S (s_len s)) (s_cap s))
  else
    (m ++ [kids_of m s ++ c :: repeat zero_cell (mo_grow O m)],
     Slice (length m) 0 (S (s_len s)) (S (s_len s) + mo_grow O m)).

(** hdb/insert.go:62-129 chooseSubtree.  [rem] is level - (len(path) - 1); [target] is the variable targetNode, which
    keeps its value from level to level.  The path grows at the head. *)
Fixpoint m_walk (O : m_oracle) (b : mbr) (st : mstate) (rem : nat) (nd : ptr) (target : option ptr) (path : list ptr)
  : res (ptr * list ptr) :=
  c <- deref st nd ;;
  match rem with
  | 0 => Ok (nd, nd :: path)
  | S rem' =>
    if c_leaf c then Ok (nd, nd :: path)
    else
      let target := match choose_child (mo_eps O) b (map bare (kids_of (ms_heap st) (c_kids c))) with
                    | Some i => Some (kid (c_kids c) i)
                    | None => target
                    end in
      match target with
      | None => Panic
      | Some q => m_walk O b st rem' q target (nd :: path)
      end
  end.

(** sort.Sort(xNodePath), sort.Sort(yNodePath) (hdb/nodepath.go). *)
Definition m_sort (O : m_oracle) (ax : bool) (l : list cell) : list cell :=
  map (fun k => nth k l zero_cell) (mo_sort O ax (map c_bbox l)).

(** hdb/split.go:73-82 chooseSplitAxis and the sorting of hdb/mbr.go:24-32: the final order of the children. *)
Definition m_split_axis (O : m_oracle) (l : list cell) (m M : nat) : list cell :=
  let cx := m_sort O true l in
  let xm := all_dist_margin (map bare cx) m M in
  let cy := m_sort O false cx in
  let ym := all_dist_margin (map bare cy) m M in
  if flt xm ym then m_sort O true cy else cy.

(** hdb/split.go:31-35 splitRoot. *)
Definition m_split_root (st : mstate) (a b : cell) : mstate :=
  MState (ms_heap st ++ [[a; b]])
    (Cell (Slice (length (ms_heap st)) 0 2 2) None (S (c_height a)) false (boxes [a; b])).

(** hdb/split.go:23-27: the new node goes to the parent, insertPath[level-1], or under a new root. *)
Definition m_attach (O : m_oracle) (st : mstate) (nd : ptr) (up : list ptr) (other : cell) : res mstate :=
  match up with
  | q :: _ =>
    pc <- deref st q ;;
    let '(m, s) := append_kid O (ms_heap st) (c_kids pc) other in
    Ok (store (MState m (ms_root st)) q (with_kids pc s))
  | [] => c <- deref st nd ;; Ok (m_split_root st c other)
  end.

(** hdb/split.go:9-22: the children are sorted in place, those from the split index on are copied to a new array and
    zeroed in the old one (hdb/util.go:4-12 splitAtIndex), and both boxes are computed. *)
Definition m_cut (O : m_oracle) (mn : nat) (st : mstate) (nd : ptr) : res (mstate * cell) :=
  c <- deref st nd ;;
  let s := c_kids c in
  let M := s_len s in
  let l := m_split_axis O (kids_of (ms_heap st) s) mn M in
  let at_ := choose_split_index (map bare l) mn M in
  let ext := skipn at_ l in
  let m := write_kids (ms_heap st) s (firstn at_ l ++ repeat zero_cell (M - at_)) in
  let c1 := Cell (Slice (s_arr s) (s_off s) at_ (s_cap s)) (c_item c) (c_height c) (c_leaf c) (boxes (firstn at_ l)) in
  let other := Cell (Slice (length m) 0 (length ext) (length ext)) None (c_height c) (c_leaf c) (boxes ext) in
  Ok (store (MState (m ++ [ext]) (ms_root st)) nd c1, other).

(** hdb/split.go:9-28 split. *)
Definition m_split (O : m_oracle) (mn : nat) (st : mstate) (nd : ptr) (up : list ptr) : res mstate :=
  '(st, other) <- m_cut O mn st nd ;; m_attach O st nd up other.

(** hdb/insert.go:53-59 splitOnOverflow: the rest of the path is returned instead of the level. *)
Fixpoint m_overflow (O : m_oracle) (mx mn : nat) (st : mstate) (path : list ptr) : res (mstate * list ptr) :=
  match path with
  | [] => Ok (st, [])
  | p :: up =>
    c <- deref st p ;;
    if Nat.ltb mx (s_len (c_kids c)) then st' <- m_split O mn st p up ;; m_overflow O mx mn st' up
    else Ok (st, path)
  end.

(** hdb/adj.go:6-10 adjustParentBBoxes. *)
Fixpoint m_adjust (st : mstate) (b : mbr) (path : list ptr) : res mstate :=
  match path with
  | [] => Ok st
  | p :: up => c <- deref st p ;; m_adjust (store st p (with_bbox c (expand (c_bbox c) b))) b up
  end.

(** hdb/insert.go:10-49 insert and insertNode.  insertPath[level] is out of range if the path is shorter. *)
Definition m_insert (O : m_oracle) (mx mn : nat) (st : mstate) (level : nat) (x : cell) : res mstate :=
  '(nd, path) <- m_walk O (c_bbox x) st level PRoot None [] ;;
  c <- deref st nd ;;
  let '(m, s) := append_kid O (ms_heap st) (c_kids c) x in
  let st := store (MState m (ms_root st)) nd (with_bbox (with_kids c s) (expand (c_bbox c) (c_bbox x))) in
  if negb (Nat.eqb (length path) (S level)) then Panic
  else
    '(st, path) <- m_overflow O mx mn st path ;;
    m_adjust st (c_bbox x) path.

(** hdb/dbnode.go:36-44 newLeafNode. *)
Definition leaf_cell (it : node) : cell := Cell nil_slice (Some it) 1 true (n_mbr it).

(** hdb/build.go:40-48: each subtree is appended to the children of the new node. *)
Fixpoint m_build_kids (O : m_oracle) (f : mheap -> list node -> res (mheap * cell)) (m : mheap) (s : slice)
    (tiles : list (list node)) : res (mheap * slice) :=
  match tiles with
  | [] => Ok (m, s)
  | t :: r =>
    '(m, c) <- f m t ;;
    let '(m, s) := append_kid O m s c in
    m_build_kids O f m s r
  end.

(** hdb/build.go:9-52 buildTree. *)
Fixpoint m_build (O : m_oracle) (M : nat) (fuel : nat) (m : mheap) (items : list node) (height : nat)
  : res (mheap * cell) :=
  match fuel with
  | 0 => NoFuel
  | S f =>
    let N := length items in
    if Nat.leb N M then
      let l := map leaf_cell items in
      Ok (m ++ [l], Cell (Slice (length m) 0 N N) None 1 true (boxes l))
    else
      let h := if Nat.eqb height 0 then mo_height O M N else height in
      let M' := if Nat.eqb height 0 then cdiv N (M ^ (h - 1)) else M in
      let N2 := cdiv N M' in
      let N1 := N2 * Nat.sqrt_up M' in
      let slabs := chunks N1 (mo_msel O true N1 items) in
      let tiles := flat_map (fun s => chunks N2 (mo_msel O false N2 s)) slabs in
      '(m, s) <- m_build_kids O (fun m tile => m_build O M f m tile (h - 1)) m nil_slice tiles ;;
      Ok (m, Cell s None h false (boxes (kids_of m s)))
  end.

Fixpoint m_insert_all (O : m_oracle) (mx mn : nat) (st : mstate) (items : list node) : res mstate :=
  match items with
  | [] => Ok st
  | it :: r => st <- m_insert O mx mn st (c_height (ms_root st) - 1) (leaf_cell it) ;; m_insert_all O mx mn st r
  end.

(** hdb/load.go:19-53 Load. *)
Definition m_load (O : m_oracle) (mx mn : nat) (st : mstate) (items : list node) : res mstate :=
  let n := length items in
  if Nat.ltb n mn then m_insert_all O mx mn st items
  else
    '(m, nd) <- m_build O mx (S (S n)) (ms_heap st) items 0 ;;
    let data := ms_root st in
    if Nat.eqb (s_len (c_kids data)) 0 then Ok (MState m nd)
    else if Nat.eqb (c_height data) (c_height nd) then Ok (m_split_root (MState m data) data nd)
    else if Nat.ltb (c_height data) (c_height nd) then
      m_insert O mx mn (MState m nd) (c_height nd - c_height data - 1) data
    else m_insert O mx mn (MState m data) (c_height data - c_height nd - 1) nd.

(** hdb/remove.go:48-55 removeNode: shifts in place and zeroes the last element. *)
Definition remove_kid (m : mheap) (s : slice) (i : nat) : mheap * slice :=
  if Nat.leb (s_len s) i then (m, s)
  else
    let l := kids_of m s in
    (write_kids m s (firstn i l ++ skipn (S i) l ++ [zero_cell]),
     Slice (s_arr s) (s_off s) (s_len s - 1) (s_cap s)).

(** hdb/util.go:15-24 sliceIndex with the test of hdb/remove.go:91-93 (a nil item panics). *)
Fixpoint find_item (id : Z) (l : list cell) (k : nat) : res (option nat) :=
  match l with
  | [] => Ok None
  | c :: r =>
    match c_item c with
    | None => Panic
    | Some it => if Z.eqb (n_id it) id then Ok (Some k) else find_item id r (S k)
    end
  end.

(** sliceIndex with the test of hdb/remove.go:67-69: which child is at this address. *)
Definition ptr_eqb (p q : ptr) : bool :=
  match p, q with
  | PRoot, PRoot => true
  | PCell a i, PCell b j => Nat.eqb a b && Nat.eqb i j
  | _, _ => false
  end.
Fixpoint find_ptr (p : ptr) (s : slice) (n k : nat) : option nat :=
  match n with
  | 0 => None
  | S n' => if ptr_eqb p (kid s k) then Some k else find_ptr p s n' (S k)
  end.

(** hdb/clear.go:15-18 Clear. *)
Definition empty_cell : cell := Cell nil_slice None 1 true empty_mbr.

(** hdb/remove.go:58-82 condense; the path ends at the head. *)
Fixpoint m_condense (st : mstate) (path : list ptr) : res mstate :=
  match path with
  | [] => Ok st
  | p :: up =>
    c <- deref st p ;;
    if Nat.eqb (s_len (c_kids c)) 0 then
      match up with
      | q :: _ =>
        pc <- deref st q ;;
        match find_ptr p (c_kids pc) (s_len (c_kids pc)) 0 with
        | Some i =>
          let '(m, s) := remove_kid (ms_heap st) (c_kids pc) i in
          m_condense (store (MState m (ms_root st)) q (with_kids pc s)) up
        | None => m_condense st up
        end
      | [] => m_condense (MState (ms_heap st) empty_cell) up
      end
    else m_condense (store st p (with_bbox c (boxes (kids_of (ms_heap st) (c_kids c))))) up
  end.

(** hdb/remove.go:106-160 removeItem: the loop with its explicit stacks (tops at the head).  hdb/remove.go:8-46
    nodeAtIndex, nodeSiblingAtIndex, popNode and popIndex are the list operations used here. *)
Fixpoint m_remove_loop (fuel : nat) (b : mbr) (id : Z) (st : mstate) (nd parent : option ptr) (path : list ptr)
    (indexes : list nat) (i : nat) (going_up : bool) : res mstate :=
  match fuel with
  | 0 => NoFuel
  | S f =>
    match nd, path with
    | None, [] => Ok st
    | _, _ =>
      let '(nd, path, parent, i, indexes, going_up) :=
        match nd with
        | Some _ => (nd, path, parent, i, indexes, going_up)
        | None => (hd_error path, tl path, hd_error (tl path), hd 0 indexes, tl indexes, true)
        end in
      match nd with
      | None => Panic
      | Some p =>
        c <- deref st p ;;
        let l := kids_of (ms_heap st) (c_kids c) in
        found <- (if c_leaf c then find_item id l 0 else Ok None) ;;
        match found with
        | Some k =>
          let '(m, s) := remove_kid (ms_heap st) (c_kids c) k in
          m_condense (store (MState m (ms_root st)) p (with_kids c s)) (p :: path)
        | None =>
          if negb going_up && negb (c_leaf c) && mbr_contains (c_bbox c) b then
            match s_len (c_kids c) with
            | 0 => Panic
            | S _ => m_remove_loop f b id st (Some (kid (c_kids c) 0)) (Some p) (p :: path) (i :: indexes) 0 going_up
            end
          else
            match parent with
            | Some q =>
              pc <- deref st q ;;
              m_remove_loop f b id st (if Nat.ltb (S i) (s_len (c_kids pc)) then Some (kid (c_kids pc) (S i)) else None)
                parent path indexes (S i) false
            | None => m_remove_loop f b id st None None path indexes i going_up
            end
        end
      end
    end
  end.

(** hdb/remove.go:86-94 Remove. *)
Definition m_remove (fuel : nat) (st : mstate) (it : node) : res mstate :=
  m_remove_loop fuel (n_mbr it) (n_id it) st (Some PRoot) None [] [] 0 false.

(** hdb/search.go:52-72 all. *)
Fixpoint m_all_loop (fuel : nat) (st : mstate) (nd : ptr) (stack : list ptr) (acc : list node) : res (list node) :=
  match fuel with
  | 0 => NoFuel
  | S f =>
    c <- deref st nd ;;
    let n := s_len (c_kids c) in
    let acc := if c_leaf c
      then acc ++ flat_map (fun k => match c_item k with Some it => [it] | None => [] end) (kids_of (ms_heap st) (c_kids c))
      else acc in
    let stack := if c_leaf c then stack else rev (map (kid (c_kids c)) (seq 0 n)) ++ stack in
    match stack with
    | [] => Ok acc
    | x :: r => m_all_loop f st x r acc
    end
  end.
Definition m_all (fuel : nat) (st : mstate) : res (list node) := m_all_loop fuel st PRoot [] [].

(** hdb/search.go:22-36 the scan of one node's children from the k-th on. *)
Fixpoint m_search_kids (fuel : nat) (q : mbr) (st : mstate) (leaf : bool) (s : slice) (l : list cell) (k : nat)
    (stack : list ptr) (acc : list node) : res (list ptr * list node) :=
  match l with
  | [] => Ok (stack, acc)
  | c :: r =>
    if mbr_intersects q (c_bbox c) then
      if leaf then
        m_search_kids fuel q st leaf s r (S k) stack (acc ++ match c_item c with Some it => [it] | None => [] end)
      else if mbr_contains q (c_bbox c) then
        acc' <- m_all_loop fuel st (kid s k) [] acc ;; m_search_kids fuel q st leaf s r (S k) stack acc'
      else m_search_kids fuel q st leaf s r (S k) (kid s k :: stack) acc
    else m_search_kids fuel q st leaf s r (S k) stack acc
  end.

(** hdb/search.go:9-44 Search. *)
Fixpoint m_search_loop (fuel all_fuel : nat) (q : mbr) (st : mstate) (nd : ptr) (stack : list ptr) (acc : list node)
  : res (list node) :=
  match fuel with
  | 0 => NoFuel
  | S f =>
    c <- deref st nd ;;
    '(stack, acc) <- m_search_kids all_fuel q st (c_leaf c) (c_kids c) (kids_of (ms_heap st) (c_kids c)) 0 stack acc ;;
    match stack with
    | [] => Ok acc
    | x :: r => m_search_loop f all_fuel q st x r acc
    end
  end.
Definition m_search (fuel : nat) (st : mstate) (q : mbr) : res (list node) :=
  if negb (mbr_intersects q (c_bbox (ms_root st))) then Ok []
  else m_search_loop fuel fuel q st PRoot [] [].

(** hdb/collides.go:5-26 Collides: the scan of one node's children from the k-th on, and the loop. *)
Fixpoint m_collides_kids (q : mbr) (leaf : bool) (s : slice) (l : list cell) (k : nat) (stack : list ptr) : bool * list ptr :=
  match l with
  | [] => (false, stack)
  | c :: r =>
    if mbr_intersects q (c_bbox c) then
      if leaf || mbr_contains q (c_bbox c) then (true, kid s k :: stack)
      else m_collides_kids q leaf s r (S k) (kid s k :: stack)
    else m_collides_kids q leaf s r (S k) stack
  end.
Fixpoint m_collides_loop (fuel : nat) (q : mbr) (st : mstate) (nd : ptr) (stack : list ptr) : res bool :=
  match fuel with
  | 0 => NoFuel
  | S f =>
    c <- deref st nd ;;
    let '(b, stack) := m_collides_kids q (c_leaf c) (c_kids c) (kids_of (ms_heap st) (c_kids c)) 0 stack in
    if b then Ok true
    else match stack with
         | [] => Ok false
         | x :: r => m_collides_loop f q st x r
         end
  end.
Definition m_collides (fuel : nat) (st : mstate) (q : mbr) : res bool :=
  if negb (mbr_intersects q (c_bbox (ms_root st))) then Ok false
  else m_collides_loop fuel q st PRoot [].

(** hdb/clear.go:21-23 IsEmpty. *)
Definition m_is_empty (st : mstate) : bool := Nat.eqb (s_len (c_kids (ms_root st))) 0.

(** hdb/rtree.go:16-27 NewHdb. *)
Definition m_new : mstate := MState [] empty_cell.
