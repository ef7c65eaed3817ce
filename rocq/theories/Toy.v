(** A concrete executable geometry library on integer-valued coordinates.  It is used
    only in examples and in counter-examples, where [vm_compute] evaluates the model.
    It is not part of the model of the program. *)
From Verif Require Import M_Base M_Float M_Rng M_Geom M_Offset M_Node M_Hdb.
Open Scope Z_scope.

Definition z_of_f (x : f64) : Z :=
  match x with
  | S754_finite s m e =>
    let v := if 0 <=? e then Zpos m * 2 ^ e else Zpos m / 2 ^ (- e) in
    if s then - v else v
  | _ => 0
  end.

Definition P2 (x y : Z) : point := Pt (f_of_Z x) (f_of_Z y) fzero.
Definition P3 (x y z : Z) : point := Pt (f_of_Z x) (f_of_Z y) (f_of_Z z).
Definition zp (p : point) : Z * Z := (z_of_f (px p), z_of_f (py p)).

Definition orient (a b c : Z * Z) : Z :=
  (fst b - fst a) * (snd c - snd a) - (snd b - snd a) * (fst c - fst a).
Definition zbetween (a b x : Z) : bool := (Z.min a b <=? x) && (x <=? Z.max a b).
Definition on_seg (a b p : Z * Z) : bool :=
  (orient a b p =? 0) && zbetween (fst a) (fst b) (fst p) && zbetween (snd a) (snd b) (snd p).

Definition proper_cross (s t : (Z * Z) * (Z * Z)) : bool :=
  let '(a, b) := s in let '(c, d) := t in
  (orient a b c * orient a b d <? 0) && (orient c d a * orient c d b <? 0).
Definition seg_isect (s t : (Z * Z) * (Z * Z)) : bool :=
  let '(a, b) := s in let '(c, d) := t in
  proper_cross s t || on_seg a b c || on_seg a b d || on_seg c d a || on_seg c d b.

Fixpoint pairs_of {A} (l : list A) : list (A * A) :=
  match l with
  | a :: ((b :: _) as r) => (a, b) :: pairs_of r
  | _ => []
  end.
Definition ring_pairs {A} (l : list A) : list (A * A) :=
  match l with [] => [] | a :: _ => pairs_of (l ++ [a]) end.

Definition verts (g : geometry) : list point :=
  match g with
  | GPoint p => [p] | GLine l => l | GSeg a b => [a; b] | GPoly rs => concat rs
  end.
Definition segs (g : geometry) : list ((Z * Z) * (Z * Z)) :=
  match g with
  | GPoint p => [(zp p, zp p)]
  | GLine [p] => [(zp p, zp p)]
  | GLine l => pairs_of (map zp l)
  | GSeg a b => [(zp a, zp b)]
  | GPoly rs => flat_map (fun r => ring_pairs (map zp r)) rs
  end.

(** Strict interior (even-odd) and boundary tests of a ring. *)
Definition crosses (p : Z * Z) (e : (Z * Z) * (Z * Z)) : bool :=
  let '(a, b) := e in
  if Bool.eqb (snd p <? snd a) (snd p <? snd b) then false
  else if snd a <? snd b then 0 <? orient a b p else orient a b p <? 0.
Definition on_ring (r : list (Z * Z)) (p : Z * Z) : bool :=
  existsb (fun e => on_seg (fst e) (snd e) p) (ring_pairs r).
Definition in_ring (r : list (Z * Z)) (p : Z * Z) : bool :=
  negb (on_ring r p) && fold_left (fun b e => xorb b (crosses p e)) (ring_pairs r) false.

Definition covers (g : geometry) (p : Z * Z) : bool :=
  match g with
  | GPoly (shell :: _) => in_ring (map zp shell) p || on_ring (map zp shell) p
  | _ => existsb (fun e => on_seg (fst e) (snd e) p) (segs g)
  end.

Definition toy_isect (g h : geometry) : bool :=
  existsb (fun s => existsb (seg_isect s) (segs h)) (segs g) ||
  existsb (fun p => covers h (zp p)) (firstn 1 (verts g)) ||
  existsb (fun p => covers g (zp p)) (firstn 1 (verts h)).

Definition toy_eq2d (p q : point) : bool := feq (px p) (px q) && feq (py p) (py q).

Fixpoint dedup (l : list point) : list point :=
  match l with
  | [] => []
  | p :: r => if existsb (toy_eq2d p) r then dedup r else p :: dedup r
  end.

(** Crossing point of two properly crossing segments. *)
Definition cross_pt (s t : (Z * Z) * (Z * Z)) : list point :=
  if proper_cross s t then
    let '(a, b) := s in let '(c, d) := t in
    let n := orient c d a in
    let m := n - orient c d b in
    let u := fdiv (f_of_Z n) (f_of_Z m) in
    [Pt (fadd (f_of_Z (fst a)) (fmul u (f_of_Z (fst b - fst a))))
        (fadd (f_of_Z (snd a)) (fmul u (f_of_Z (snd b - snd a)))) fzero]
  else [].
Definition toy_inter_all (g h : geometry) : list point :=
  dedup (filter (fun p => covers h (zp p)) (verts g) ++ filter (fun p => covers g (zp p)) (verts h) ++
         flat_map (fun s => flat_map (cross_pt s) (segs h)) (segs g)).
Definition toy_inter (g h : geometry) : list point :=
  match g, h with
  | GPoint _, _ | _, GPoint _ => firstn 1 (toy_inter_all g h)
  | _, _ => toy_inter_all g h
  end.

Definition d2 (a b : Z * Z) : Z := (fst a - fst b) ^ 2 + (snd a - snd b) ^ 2.
Definition zsqrt (n : Z) : f64 := fsqrt (f_of_Z n).
Definition pt_seg_dist (p : Z * Z) (s : (Z * Z) * (Z * Z)) : f64 :=
  let '(a, b) := s in
  let l := d2 a b in
  let dot := (fst p - fst a) * (fst b - fst a) + (snd p - snd a) * (snd b - snd a) in
  if l =? 0 then zsqrt (d2 p a)
  else if dot <=? 0 then zsqrt (d2 p a)
  else if l <=? dot then zsqrt (d2 p b)
  else fsqrt (fdiv (f_of_Z (orient a b p ^ 2)) (f_of_Z l)).
Definition fmin_list (l : list f64) : f64 :=
  fold_left (fun m x => if flt x m then x else m) l finf.
Definition toy_dist (g h : geometry) : f64 :=
  if toy_isect g h then fzero
  else fmin_list
    (flat_map (fun p => map (pt_seg_dist (zp p)) (segs h)) (verts g) ++
     flat_map (fun p => map (pt_seg_dist (zp p)) (segs g)) (verts h)).

(** geom.DistanceToPoint on a segment. *)
Definition toy_ptseg (a b p : point) : f64 := pt_seg_dist (zp p) (zp a, zp b).
Definition toy_ptseg_sq (a b p : point) : f64 := let d := toy_ptseg a b p in fmul d d.

Definition toy_bounds (g : geometry) : mbr :=
  fold_left (fun b p => expand b (MBR (px p) (py p) (px p) (py p))) (verts g) empty_mbr.

(** Convex hull by monotone chain. *)
Definition pt_le (p q : point) : bool :=
  let '(a, b) := zp p in let '(c, d) := zp q in (a <? c) || ((a =? c) && (b <=? d)).
Fixpoint pt_ins (p : point) (l : list point) : list point :=
  match l with [] => [p] | q :: r => if pt_le p q then p :: l else q :: pt_ins p r end.
Definition pt_sort (l : list point) : list point := fold_right pt_ins [] l.
Fixpoint hpush (fuel : nat) (st : list point) (p : point) : list point :=
  match fuel with
  | O => p :: st
  | S f => match st with
           | b :: ((a :: _) as r) => if orient (zp a) (zp b) (zp p) <=? 0 then hpush f r p else p :: st
           | _ => p :: st
           end
  end.
Definition half (l : list point) : list point := fold_left (hpush (length l)) l [].
Definition toy_hull (l : list point) : point * list point :=
  match dedup (pt_sort l) with
  | [] => (origin, [])
  | [p] => (p, [])
  | [p; q] => (p, [q])
  | s => match removelast (rev (half s)) ++ removelast (rev (half (rev s))) with
         | [] => (origin, [])
         | p :: r => (p, r)
         end
  end.

Definition toy : geomlib := GeomLib toy_hull toy_isect toy_inter toy_dist toy_bounds toy_eq2d
  (fun r p => in_ring (map zp r) (zp p))
  (fun p q => zsqrt (d2 (zp p) (zp q))).

Definition toy_score : coords -> Z * f64 := max_offset toy_ptseg.
