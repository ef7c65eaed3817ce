(** What collections of contexts should do: every collection is a list of its own. *)
From Verif Require Import M_Base M_Slice M_Ctx.
Open Scope Z_scope.

(** The list a source stands for. *)
Definition src_list (cols : list (list Z)) (x : csrc) : option (list Z) :=
  match x with Fresh ps => Some ps | View k => nth_error cols k end.

(** Only collection [k] changes, from [l] to [l']. *)
Definition only_at (k : nat) (l l' : list Z) (cols cols' : list (list Z)) : Prop :=
  exists a b, cols = a ++ l :: b /\ cols' = a ++ l' :: b /\ length a = k.

(** The effect of a call on lists. *)
Definition effect (fi : Z -> option Z) (o : cop) (cols cols' : list (list Z)) : Prop :=
  match o with
  | ONew x => exists l, src_list cols x = Some l /\ cols' = cols ++ [l]
  | OZero => cols' = cols ++ [[]]
  | OFromObjects objs => exists l, objs = map Some l /\ cols' = cols ++ [l]
  | OAsContexts p x _ => exists l, src_list cols x = Some l /\ cols' = cols ++ [p :: l]
  | OPush k p _ => exists l, only_at k l (l ++ [p]) cols cols'
  | OExtend k x _ => exists l y, src_list cols x = Some y /\ only_at k l (l ++ y) cols cols'
  | OSort k _ =>
    exists l l', only_at k l l' cols cols' /\ Permutation l l' /\
      forall i a b, nth_error l' i = Some a -> nth_error l' (S i) = Some b ->
        exists x y, fi a = Some x /\ fi b = Some y /\ x <= y
  | OSetData k x => exists l y, src_list cols x = Some y /\ only_at k l y cols cols'
  end.

Inductive effects (fi : Z -> option Z) : list (list Z) -> list cop -> list (list Z) -> Prop :=
| e_done c : effects fi c [] c
| e_call c o c' h c'' : effect fi o c c' -> effects fi c' h c'' -> effects fi c (o :: h) c''.

(** A call that makes no collection keep the array of another. *)
Definition keeps_apart (o : cop) : Prop :=
  match o with
  | ONew (View _) | OSetData _ (View _) => False
  | _ => True
  end.

(** What a program sees of collection [k]. *)
Definition sees (w : cmem) (k : nat) : option (list Z) :=
  option_map (s_read (cm_heap w)) (nth_error (cm_cols w) k).
