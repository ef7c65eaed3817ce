(** Parts of a line. *)
From Verif Require Import M_Base M_Float M_Geom.
Open Scope Z_scope.

(** Vertex number k of a line. *)
Definition vertex (pts : list point) (k : Z) : point := nth (Z.to_nat k) pts origin.
(** The vertices number i to j. *)
Definition vertices (pts : list point) (i j : Z) : list point :=
  firstn (Z.to_nat (j - i + 1)) (skipn (Z.to_nat i) pts).
