(** Vocabulary for the callback of the class simplification (C95). *)
From Verif Require Import M_Base M_Float M_Rng M_Geom M_Offset M_Node M_Decompose M_Split M_Hdb M_Knn M_Lnr M_Homotopy M_Relate
  M_Deform M_Constrain M_ConstDP.
Open Scope Z_scope.

(** The number of segments of all simplified lines: one less than the vertices kept, for each line. *)
Definition segments (r : list (cdp * list node)) : Z :=
  fold_right (fun x s => zlen (simple_set (snd x)) - 1 + s) 0 r.
(** The number of segments of the lines given. *)
Definition segments_given (selfs : list cdp) : Z := fold_right (fun x s => zlen (c_pts x) - 1 + s) 0 selfs.
Definition total (l : list Z) : Z := fold_right Z.add 0 l.
