(** Specification vocabulary for vertex coincidences and segment pairs. *)
From Verif Require Import M_Base M_Float M_Geom M_Lnr Spec_Hdb.
From Coq Require Import Sorted.
Open Scope Z_scope.

(** Same x and y. *)
Definition loc_eq (p q : point) : bool := feq (px p) (px q) && feq (py p) (py q).
(** Lexicographic order of locations: by x, then by y. *)
Definition loc_lt (p q : point) : bool :=
  flt (px p) (px q) || (feq (px p) (px q) && flt (py p) (py q)).
(** x and y are numbers. *)
Definition num_pt (p : point) : Prop := is_nan (px p) = false /\ is_nan (py p) = false.

(** The points of a list of lines. *)
Definition class_points (fc : list (Z * list point)) : list point := flat_map snd fc.

(** Line [fid] of the class has point p as its k-th vertex. *)
Definition vertex_at (fc : list (Z * list point)) (fid k : Z) (p : point) : Prop :=
  exists pts, In (fid, pts) fc /\ znth pts k = Some p.

(** Another vertex of the class lies at the location of p. *)
Definition shared_vertex (fc : list (Z * list point)) (fid k : Z) (p : point) : Prop :=
  exists fid' k' q, (fid', k') <> (fid, k) /\ vertex_at fc fid' k' q /\ loc_eq p q = true.

(** Some vertex of the class lies at a lexicographically greater location. *)
Definition not_greatest (all : list point) (p : point) : Prop :=
  exists q, In q all /\ loc_lt p q = true.

(** Unordered pairs of segments. *)
Definition same_pair (a b : Z * Z) : Prop := a = b \/ a = (snd b, fst b).

(** Smallest and largest of two numbers, and the bounding box of the k-th segment. *)
Definition fmin2 (a b : f64) : f64 := if flt b a then b else a.
Definition fmax2 (a b : f64) : f64 := if flt a b then b else a.
Definition seg_box (pts : list point) (k : Z) : mbr :=
  let a := nth (Z.to_nat k) pts origin in
  let b := nth (Z.to_nat (k + 1)) pts origin in
  MBR (fmin2 (px a) (px b)) (fmin2 (py a) (py b)) (fmax2 (px a) (px b)) (fmax2 (py a) (py b)).

(** The segments of a line of n vertices are numbered 0 .. n-2. *)
Definition is_segment (pts : list point) (k : Z) : Prop := 0 <= k <= zlen pts - 2.

(** [srt] sorts vertices by location; ties may come in any order. *)
Definition sorts (srt : list vertex -> list vertex) : Prop :=
  forall l, Forall (fun v => num_pt (v_pt v)) l ->
    Permutation l (srt l) /\
    StronglySorted (fun a b => loc_lt (v_pt b) (v_pt a) = false) (srt l).

(** The segment index finds exactly the segments whose boxes meet the box of a segment. *)
Definition finds_segments (near : Z -> list Z) (pts : list point) : Prop :=
  forall s o, is_segment pts s ->
    (In o (near s) <-> is_segment pts o /\ boxes_meet (seg_box pts s) (seg_box pts o) = true).

(** The intersection of two segments does not depend on which comes first. *)
Definition segx_sym (segx : point -> point -> point -> point -> list interpoint) : Prop :=
  forall a b c d, Permutation (segx a b c d) (segx c d a b).

(** A location [fst c] of the line where several vertices coincide, with all of them. *)
Definition repeated_location (pts : list point) (c : point * list Z) : Prop :=
  In (fst c) pts /\ StronglySorted Z.lt (snd c) /\ (2 <= length (snd c))%nat /\
  forall k, In k (snd c) <-> exists q, znth pts k = Some q /\ loc_eq (fst c) q = true.

(** Segments [s] and [o] of the line meet at [p], which is not just a shared vertex. *)
Definition segments_cross (segx : point -> point -> point -> point -> list interpoint)
    (pts : list point) (s o : Z) (p : point) : Prop :=
  is_segment pts s /\ is_segment pts o /\ s <> o /\
  boxes_meet (seg_box pts s) (seg_box pts o) = true /\
  let at_ i := nth (Z.to_nat i) pts origin in
  exists ip, In ip (segx (at_ s) (at_ (s + 1)) (at_ o) (at_ (o + 1))) /\ ip_pt ip = p /\
    (ip_vertex ip = false \/ ip_xor ip = true).

(** A crossing of two segments with the four ends. *)
Definition crossing_location (segx : point -> point -> point -> point -> list interpoint)
    (pts : list point) (c : point * list Z) : Prop :=
  exists s o, segments_cross segx pts s o (fst c) /\ StronglySorted Z.lt (snd c) /\
    forall k, In k (snd c) <-> k = s \/ k = s + 1 \/ k = o \/ k = o + 1.
