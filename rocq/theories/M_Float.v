(** Go float64 as IEEE 754 binary64 (standard library [SpecFloat]). *)
From Coq Require Export SpecFloat.
From Verif Require Import M_Base.
Open Scope Z_scope.

Definition f64 : Type := spec_float.
Definition fprec : Z := 53.
Definition femax : Z := 1024.

Definition fzero : f64 := S754_zero false.
Definition fnan : f64 := S754_nan.
Definition finf : f64 := S754_infinity false.
Definition fninf : f64 := S754_infinity true.

(** Exact image of an integer of moderate size (used for constants only). *)
Definition f_of_Z (z : Z) : f64 := binary_normalize fprec femax z 0 false.

(** Go operators [<], [<=], [==], [>], [>=] on float64: false on NaN. *)
Definition flt (a b : f64) : bool := SFltb a b.
Definition fle (a b : f64) : bool := SFleb a b.
Definition feq (a b : f64) : bool := SFeqb a b.
Definition fgt (a b : f64) : bool := SFltb b a.
Definition fge (a b : f64) : bool := SFleb b a.

Definition fadd (a b : f64) : f64 := SFadd fprec femax a b.
Definition fsub (a b : f64) : f64 := SFsub fprec femax a b.
Definition fmul (a b : f64) : f64 := SFmul fprec femax a b.
Definition fdiv (a b : f64) : f64 := SFdiv fprec femax a b.
Definition fsqrt (a : f64) : f64 := SFsqrt fprec femax a.
Definition fopp (a : f64) : f64 := SFopp a.
Definition fabs (a : f64) : f64 := SFabs a.

Definition is_nan (a : f64) : bool :=
  match a with S754_nan => true | _ => false end.
Definition is_fin (a : f64) : bool :=
  match a with S754_zero _ | S754_finite _ _ _ => true | _ => false end.
