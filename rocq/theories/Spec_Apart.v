(** Parts of a line that were apart stay apart. *)
From Verif Require Import M_Base M_Rng M_Geom Spec Spec_Out Spec_Plane.
Open Scope Z_scope.

(** For any two parts of the line that have a bend each and are replaced by their chords: if the parts have no place in
    common then neither have the chords. *)
Definition stays_apart (pts : list point) (s : list Z) : Prop :=
  forall a b c d, next_kept s a b -> next_kept s c d -> bends pts a b -> bends pts c d ->
  ~ meets (on_polyline (points_of pts (Rng a b))) (on_polyline (points_of pts (Rng c d))) ->
  ~ meets (in_hull [Spec_Out.vertex pts a; Spec_Out.vertex pts b]) (in_hull [Spec_Out.vertex pts c; Spec_Out.vertex pts d]).
