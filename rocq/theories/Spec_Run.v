(** What a whole run assumes and promises. *)
From Verif Require Import M_Base M_Float M_Rng M_Geom M_Offset M_Node M_Hdb M_Lnr M_Relate M_Constrain M_ConstDP M_Text M_IO
  Spec Spec_Lnr Spec_ConstDP.
Open Scope Z_scope.

(** A run draws distinct ids for lines and hulls; map iteration comes in any order. *)
Record setup_ok (S : setup) : Prop := {
  so_libs : libs_ok (su_world S);
  so_ids : forall i j, su_ids S i = su_ids S j -> i = j;
  so_gens : forall i j k l, su_gens S i k = su_gens S j l -> i = j /\ k = l;
  so_fresh : forall i k l, w_gen (su_world S) k <> su_gens S i l;
  so_ords : forall i, any_order (su_ords S i);
  so_ord : any_order (su_ord S)
}.

(** The line as an instance, before its id and its index of constraints. *)
Definition proto (o : opts) (score : scorefn) (pts : list point) : cdp :=
  Cdp 0 pts o score None new_hdb_default.

(** For feature classes: vertices are numbers compared by location. *)
Record class_ok (S : setup) (lines : list (list point)) : Prop := {
  cl_sorts : sorts (lo_sort (w_lnr (su_world S)));
  cl_num : Forall num_pt (concat lines);
  cl_eq : forall p q, In p (concat lines) -> In q (concat lines) ->
    gl_eq2d (w_geom (su_world S)) p q = loc_eq p q
}.

(** Kept indices of a line of [n] vertices: increasing, from the first to the last. *)
Definition kept_ok (n : Z) (s : list Z) : Prop :=
  increasing s /\ hd (-1) s = 0 /\ last s (-1) = n - 1 /\ Forall (fun k => 0 <= k < n) s.

(** [kept] is a sub-sequence of the vertices [pts] with the same first and last vertex. *)
Definition shortened (pts kept : list point) : Prop :=
  exists s, kept_ok (zlen pts) s /\ kept = map (fun k => nth (Z.to_nat k) pts origin) s.
