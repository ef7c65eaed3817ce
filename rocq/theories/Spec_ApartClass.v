(** Lines that were apart stay apart in a run with the class option. *)
From Verif Require Import M_Base M_Rng M_Geom Spec Spec_Out Spec_Plane.
Open Scope Z_scope.

(** For any part of one line and part of another that have a bend each and are replaced by their chords: if the parts have no
    place in common then neither have the chords.  (With one line twice this is [stays_apart] of Spec_Apart.v.) *)
Definition stay_apart (pts : list point) (s : list Z) (pts' : list point) (s' : list Z) : Prop :=
  forall a b c d, next_kept s a b -> next_kept s' c d -> bends pts a b -> bends pts' c d ->
  ~ meets (on_polyline (points_of pts (Rng a b))) (on_polyline (points_of pts' (Rng c d))) ->
  ~ meets (in_hull [Spec_Out.vertex pts a; Spec_Out.vertex pts b]) (in_hull [Spec_Out.vertex pts' c; Spec_Out.vertex pts' d]).

(** Where geometries meet the library reports at least one place. *)
Definition reports_places (L : geomlib) : Prop :=
  forall g h, number_geometry g -> number_geometry h -> gl_isect L g h = true -> gl_inter L g h <> [].
