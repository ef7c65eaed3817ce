(** The in-place partial selection of bulk loading (hdb/select.go). *)
From Verif Require Import M_Base M_Float M_Geom M_Node M_Hdb.
Open Scope Z_scope.

(** Slice element assignment [a[i] = x]; an index out of range is a panic. *)
Definition zput {A} (a : list A) (i : Z) (x : A) : res (list A) :=
  if (0 <=? i) && (i <? zlen a) then Ok (replace_nth (Z.to_nat i) x a) else Panic.

(** Slice element access [a[i]]. *)
Definition zget {A} (a : list A) (i : Z) : res A :=
  match znth a i with Some x => Ok x | None => Panic end.

(** hdb/core.go:30-32 swapItem. *)
Definition swap_item {A} (a : list A) (i j : Z) : res (list A) :=
  x <- zget a i ;; y <- zget a j ;; a1 <- zput a i y ;; zput a1 j x.

Section Select.
Context {A : Type}.

(** hdb/select.go:69-72: [for arr[i].MBR.MinX-tMinX < 0 { i++ }]; [less] is the test. *)
Fixpoint scan_up (less : A -> bool) (fuel : nat) (a : list A) (i : Z) : res Z :=
  match fuel with
  | 0%nat => NoFuel
  | S f => x <- zget a i ;; if less x then scan_up less f a (i + 1) else Ok i
  end.

(** hdb/select.go:74-77: [for arr[j].MBR.MinX-tMinX > 0 { j-- }]. *)
Fixpoint scan_down (greater : A -> bool) (fuel : nat) (a : list A) (j : Z) : res Z :=
  match fuel with
  | 0%nat => NoFuel
  | S f => x <- zget a j ;; if greater x then scan_down greater f a (j - 1) else Ok j
  end.

(** hdb/select.go:64-78: the loop [for i < j]. *)
Fixpoint part_loop (less greater : A -> bool) (fuel : nat) (a : list A) (i j : Z)
  : res (list A * Z) :=
  match fuel with
  | 0%nat => NoFuel
  | S f =>
    if i <? j then
      a1 <- swap_item a i j ;;
      i1 <- scan_up less (S (length a)) a1 (i + 1) ;;
      j1 <- scan_down greater (S (length a)) a1 (j - 1) ;;
      part_loop less greater f a1 i1 j1
    else Ok (a, j)
  end.

(** hdb/select.go:54-86: one partition of [left..right] around the item at k; the new
    array and the final j.  The tests compare the difference of the keys with 0. *)
Definition partition (key : A -> f64) (a : list A) (k left right : Z) : res (list A * Z) :=
  tx <- zget a k ;;
  let t := key tx in
  let less x := flt (fsub (key x) t) fzero in
  let greater x := fgt (fsub (key x) t) fzero in
  let equal x := feq (fsub (key x) t) fzero in
  a1 <- swap_item a left k ;;
  xr <- zget a1 right ;;
  a2 <- (if greater xr then swap_item a1 left right else Ok a1) ;;
  '(a3, j) <- part_loop less greater (S (length a)) a2 left right ;;
  xl <- zget a3 left ;;
  if equal xl then a4 <- swap_item a3 left j ;; Ok (a4, j)
  else a4 <- swap_item a3 (j + 1) right ;; Ok (a4, j + 1).

(** hdb/select.go:30-95 selectBox.  [samp l r k] is the sample range computed at lines
    40-50 with math.Log, math.Exp and math.Sqrt (external) from the bounds at entry
    [l0], [r0] (the variables fleft, fright of line 34, never updated) and from k. *)
Fixpoint sel (samp : Z -> Z -> Z -> Z * Z) (key : A -> f64) (fuel : nat)
    (a : list A) (k l0 r0 left right : Z) : res (list A) :=
  match fuel with
  | 0%nat => NoFuel
  | S f =>
    if left <? right then
      a1 <- (if 600 <? right - left
             then let '(nl, nr) := samp l0 r0 k in sel samp key f a k nl nr nl nr
             else Ok a) ;;
      '(a2, j) <- partition key a1 k left right ;;
      let left' := if j <=? k then j + 1 else left in
      let right' := if k <=? j then j - 1 else right in
      sel samp key f a2 k l0 r0 left' right'
    else Ok a
  end.

Definition sel_fuel (left right : Z) : nat :=
  let n := Z.to_nat (right - left) in S (n * n + n).

Definition select_box samp key (a : list A) (k left right : Z) : res (list A) :=
  sel samp key (sel_fuel left right) a k left right left right.

(** hdb/select.go:11-27 multiSelect; the stack of ints as a list, top first
    (hdb/core.go:34-47 popInt, appendInts).  [math.Ceil(float64(right-left)/float64(n)/2)]
    is taken as the exact integer ceiling (the quotients are of small integers). *)
Fixpoint multi_loop samp key (n : Z) (fuel : nat) (a : list A) (stack : list Z)
  : res (list A) :=
  match fuel with
  | 0%nat => NoFuel
  | S f =>
    match stack with
    | [] => Ok a
    | hi :: lo :: st =>
      if hi - lo <=? n then multi_loop samp key n f a st
      else
        let mid := lo + (hi - lo + 2 * n - 1) / (2 * n) * n in
        a1 <- select_box samp key a mid lo hi ;;
        multi_loop samp key n f a1 (hi :: mid :: mid :: lo :: st)
    | _ => Panic
    end
  end.

Definition multi_select samp key (a : list A) (left right n : Z) : res (list A) :=
  multi_loop samp key n (S (S (2 * Z.to_nat (right - left)))) a [right; left].

End Select.

(** The key compared under cmpMinX ([true]) and cmpMinY ([false]) (hdb/core.go:17-20). *)
Definition sel_key (cmp : bool) (nd : node) : f64 :=
  if cmp then minx (n_mbr nd) else miny (n_mbr nd).
