(** Model of package offset. *)
From Verif Require Import M_Base M_Float M_Geom.
Open Scope Z_scope.

(** lnr.ScoreFn / offset/dp.go:8 ScoreFn: index and score of a coordinate view. *)
Definition scorefn : Type := coords -> Z * f64.

(** offset/dp.go:37-42 one iteration of the scan (also offset/sed.go:40-51). *)
Definition scan_step (dist : Z -> f64) (st : Z * f64) (k : Z) : Z * f64 :=
  let d := dist k in
  if fge d (snd st) then (k, d) else st.

(** offset/dp.go:27-45 maxOffset; [distfn a b p] is geom.DistanceToPoint (or its
    square), external. *)
Definition max_offset (distfn : point -> point -> point -> f64) : scorefn :=
  fun c =>
    let n := clen c - 1 in
    if n <=? 1 then (n, fzero)
    else
      let a := cpt c 0 in
      let b := cpt c n in
      fold_left (scan_step (fun k => distfn a b (cpt c k))) (zseq 1 (n - 1)) (n, fzero).

(** offset/sed.go:70-85 hypot. *)
Definition hypot (p q : f64) : f64 :=
  let p1 := if flt p fzero then fopp p else p in
  let q1 := if flt q fzero then fopp q else q in
  let (p2, q2) := if flt p1 q1 then (q1, p1) else (p1, q1) in
  if feq p2 fzero then fzero
  else
    let q3 := fdiv q2 p2 in
    fmul p2 (fsqrt (fadd (f_of_Z 1) (fmul q3 q3))).

(** offset/sed.go:65-67 squareHypot. *)
Definition square_hypot (p q : f64) : f64 := fadd (fmul p p) (fmul q q).

(** Transcendental functions used by the SED offset (Go math, intdxdt/vect). *)
Record trig := Trig {
  tr_mag : point -> point -> f64;   (* vect.NewVector(a,b).Magnitude() *)
  tr_dx : point -> point -> f64;    (* cos of the direction a->b *)
  tr_dy : point -> point -> f64     (* sin of the direction a->b *)
}.

(** offset/sed.go:20-53 maxSEDOffset. *)
Definition sed_dist (t : trig) (hyp : f64 -> f64 -> f64) (a b p : point) : f64 :=
  let dt := fsub (pz b) (pz a) in
  let m := fmul (fdiv (tr_mag t a b) dt) (fsub (pz p) (pz a)) in
  let qx := fadd (px a) (fmul m (tr_dx t a b)) in
  let qy := fadd (py a) (fmul m (tr_dy t a b)) in
  hyp (fsub (px p) qx) (fsub (py p) qy).

Definition max_sed_offset (t : trig) (hyp : f64 -> f64 -> f64) : scorefn :=
  max_offset (sed_dist t hyp).
