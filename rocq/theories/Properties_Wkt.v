(** Claims C76 (WKT files) and C77 (TOML files). *)
From Coq Require Import Ascii String.
From Verif Require Import M_Base M_Float M_Geom M_Text M_Wkt Spec_Text P_Base P_Text P_Run Toy.
Open Scope Z_scope.

(** ** Vocabulary *)

(** [f] turns every element of [l] into the corresponding one of [r]. *)
Definition all_to {A B} (f : A -> res B) (l : list A) (r : list B) : Prop := Forall2 (fun x y => f x = Ok y) l r.

(** A number in a TOML file and its value: integers go to the nearest binary64. *)
Inductive number : tval -> f64 -> Prop :=
| N_f64 x : number (TF64 x) x
| N_f32 x : number (TF32 x) x
| N_i64 z : number (TI64 z) (f_of_Z z)
| N_i32 z : number (TI32 z) (f_of_Z z).
(** An array of what [R] accepts. *)
Definition array_of {A} (R : tval -> A -> Prop) (v : tval) (l : list A) : Prop :=
  exists items, v = TArr items /\ Forall2 R items l.

(** The texts a line writer writes for these lines can be read back. *)
Definition wkt_ok (lib : wktlib) (writer : list point -> bytes) (coords : list (list point)) : Prop :=
  forall c t, In c coords -> trimmed (writer c) t ->
    ~ In newline (writer c) /\ ~ blank (writer c) /\ wl_type lib t = wkt_linestring /\ wl_coords lib t = Ok [c].

(** ** Lemmas *)

Lemma mapM_iff {A B} (f : A -> res B) l r : mapM f l = Ok r <-> all_to f l r.
Proof.
  revert r. induction l as [|x l IH]; intros r; cbn [mapM].
  - split; [intros H; injection H as <-; constructor|intros H; inversion H; reflexivity].
  - split.
    + destruct (f x) as [y| |] eqn:E; cbn [bind]; try discriminate. destruct (mapM f l) as [ys| |]; cbn [bind]; try discriminate.
      intros H. injection H as <-. constructor; [exact E|]. apply IH. reflexivity.
    + intros H. inversion H as [|? y ? ys E F]; subst. rewrite E. cbn [bind]. rewrite (proj2 (IH ys) F). reflexivity.
Qed.
Lemma mapM_total {A B} (f : A -> res B) l : (forall x, In x l -> f x <> NoFuel) -> mapM f l <> NoFuel.
Proof.
  induction l as [|x l IH]; cbn [mapM]; intros H; [discriminate|].
  destruct (f x) as [y| |] eqn:E; cbn [bind]; [|discriminate|exfalso; apply (H x (or_introl eq_refl)); exact E].
  destruct (mapM f l) as [ys| |] eqn:E2; cbn [bind]; [discriminate..|]. intros _. apply IH; auto. intros z Hz. apply H. right; exact Hz.
Qed.
Lemma parse_float_iff v x : parse_float v = Ok x <-> number v x.
Proof.
  split; [destruct v; cbn; intros H; try discriminate; injection H as <-; constructor|intros H; inversion H; reflexivity].
Qed.
Lemma forall2_impl {A B} (R S : A -> B -> Prop) l r : (forall x y, R x y <-> S x y) -> (Forall2 R l r <-> Forall2 S l r).
Proof. intros H. split; induction 1; constructor; auto; apply H; auto. Qed.
Lemma point_array_iff v xs : parse_point_array v = Ok xs <-> array_of number v xs.
Proof.
  unfold parse_point_array, array_of. destruct v as [x|x|z|z|l|]; cbn [as_array bind];
    try (split; [discriminate|intros (? & H & _); discriminate H]).
  rewrite mapM_iff. unfold all_to. rewrite (forall2_impl _ _ _ _ parse_float_iff).
  split; [intros H; exists l; auto|]. intros (i & H & K). injection H as ->. exact K.
Qed.
Lemma linear_array_iff v xss : parse_linear_array v = Ok xss <-> array_of (array_of number) v xss.
Proof.
  unfold parse_linear_array, array_of at 1. destruct v as [x|x|z|z|l|]; cbn [as_array bind];
    try (split; [discriminate|intros (? & H & _); discriminate H]).
  rewrite mapM_iff. unfold all_to. rewrite (forall2_impl _ _ _ _ point_array_iff).
  split; [intros H; exists l; auto|]. intros (i & H & K). injection H as ->. exact K.
Qed.
Lemma mapM_perm {A B} (f : A -> res B) l l' : Permutation l l' -> forall r, mapM f l = Ok r -> exists r', mapM f l' = Ok r' /\ Permutation r r'.
Proof.
  intros H r Hr. apply mapM_iff in Hr. destruct (Permutation_Forall2 H Hr) as (r' & P1 & P2).
  exists r'. split; [apply mapM_iff; exact P2|exact P1].
Qed.

(** ** C76 *)

(** Every line string of a file is read, in order; lines of other types are skipped; the error returned is io.EOF. *)
Theorem C76_reads_every_line : forall (lib : wktlib) (lines toks : list bytes) (rows : list (list (list point))),
  Forall (fun l => ~ In newline l) lines -> lines_kept lines toks ->
  Forall2 (fun t row => (wl_type lib t = str "linestring" /\ wl_coords lib t = Ok row) \/
                        (wl_type lib t <> str "linestring" /\ row = [])) toks rows ->
  read_wkt_input lib (Some (unlines (lines ++ [[]]))) = Ok (concat rows, EOF).
Proof.
  intros lib lines toks rows Hn Hk Hr. unfold read_wkt_input.
  assert (E : read_lines (unlines (lines ++ [[]])) = toks).
  { rewrite read_lines_spec; [|exact Hn|intros []]. symmetry. apply lines_kept_fun. exact Hk. }
  rewrite E. rewrite (proj2 (mapM_iff _ toks rows)); [reflexivity|]. clear -Hr.
  induction Hr as [|t row ts rs H _ IH]; constructor; [|exact IH]. unfold wkt_linestring.
  destruct H as [[H1 H2]|[H1 ->]].
  - rewrite H1. exact H2.
  - destruct (bytes_eqb (wl_type lib t) (str "linestring")) eqn:K; [apply bytes_eqb_spec in K; congruence|reflexivity].
Qed.
(** The constraints: points, line strings and polygons are read, in order, and nothing else. *)
Theorem C76_reads_every_constraint : forall (lib : wktlib) (lines toks : list bytes) (rows : list (list geometry)),
  Forall (fun l => ~ In newline l) lines -> lines_kept lines toks ->
  Forall2 (fun t row =>
    let known := wl_type lib t = str "point" \/ wl_type lib t = str "linestring" \/ wl_type lib t = str "polygon" in
    (known /\ exists g, wl_geometry lib t = Ok g /\ row = [g]) \/ (~ known /\ row = [])) toks rows ->
  read_wkt_constraints lib (Some (unlines (lines ++ [[]]))) = Ok (concat rows, EOF).
Proof.
  intros lib lines toks rows Hn Hk Hr. unfold read_wkt_constraints.
  assert (E : read_lines (unlines (lines ++ [[]])) = toks).
  { rewrite read_lines_spec; [|exact Hn|intros []]. symmetry. apply lines_kept_fun. exact Hk. }
  rewrite E. rewrite (proj2 (mapM_iff _ toks rows)); [reflexivity|]. clear -Hr.
  induction Hr as [|t row ts rs H _ IH]; constructor; [|exact IH]. cbv zeta in *. unfold wkt_point, wkt_linestring, wkt_polygon.
  assert (B : forall s, bytes_eqb (wl_type lib t) s = true <-> wl_type lib t = s).
  { intros s. apply bytes_eqb_spec. }
  destruct (bytes_eqb (wl_type lib t) (str "point") || bytes_eqb (wl_type lib t) (str "linestring") ||
            bytes_eqb (wl_type lib t) (str "polygon")) eqn:K.
  - rewrite !orb_true_iff, !B in K. destruct H as [(_ & g & -> & ->)|(H & _)]; [reflexivity|tauto].
  - destruct H as [(H & _)|(_ & ->)]; [|reflexivity]. rewrite <- !B, <- !orb_true_iff in H.
    rewrite orb_assoc in H. congruence.
Qed.
(** What is written is read back. *)
Theorem C76_written_lines_read_back : forall (lib : wktlib) writer coords, wkt_ok lib writer coords ->
  read_wkt_input lib (Some (write_coords writer coords)) = Ok (coords, EOF).
Proof.
  intros lib writer coords H.
  assert (E : write_coords writer coords = unlines (map writer coords ++ [[]])).
  { clear H. induction coords as [|o r IH]; [reflexivity|]. cbn [write_coords map app]. rewrite IH. destruct r; reflexivity. }
  rewrite E. etransitivity;
    [apply (C76_reads_every_line lib (map writer coords) (map (fun c => trim (writer c)) coords) (map (fun c => [c]) coords))|].
  - apply Forall_forall. intros l Hl. apply in_map_iff in Hl. destruct Hl as (c & <- & Hc). apply (H c _ Hc (trim_spec _)).
  - clear E. induction coords as [|c r IH]; cbn [map]; [constructor|].
    apply LK_keep; [apply (H c _ (or_introl eq_refl) (trim_spec _))|apply trim_spec|apply IH; intros x t Hx; apply H; right; exact Hx].
  - clear E. induction coords as [|c r IH]; cbn [map]; constructor; [|apply IH; intros x t Hx; apply H; right; exact Hx].
    left. apply (H c _ (or_introl eq_refl) (trim_spec _)).
  - assert (C : concat (map (fun c => [c]) coords) = coords) by (clear; induction coords as [|c r IH]; cbn; [reflexivity|f_equal; exact IH]).
    rewrite C. reflexivity.
Qed.
(** A caller that takes the returned error for a failure never gets a file: reading ends with io.EOF or fails.  Only a
    missing file is reported as such, and nothing is read from it. *)
Theorem C76_always_an_error_refuted : forall (lib : wktlib) file,
  (forall lines err, read_wkt_input lib file = Ok (lines, err) ->
     err = EOF /\ file <> None \/ err = NotFound /\ file = None /\ lines = []) /\
  (forall gs err, read_wkt_constraints lib file = Ok (gs, err) ->
     err = EOF /\ file <> None \/ err = NotFound /\ file = None /\ gs = []).
Proof.
  intros lib [data|]; (split; [intros lines err; cbn [read_wkt_input]|intros gs err; cbn [read_wkt_constraints]]).
  1, 2: destruct (mapM _ _); cbn [bind]; try discriminate; intros H; injection H as _ <-; left; split; [reflexivity|discriminate].
  all: intros H; injection H as <- <-; auto.
Qed.

(** ** C77 *)

(** An array of arrays of numbers is read as their values; everything else panics. *)
Theorem C77_arrays_of_numbers : forall v,
  (forall xss, parse_linear_array v = Ok xss <-> array_of (array_of number) v xss) /\
  (~ (exists xss, array_of (array_of number) v xss) -> parse_linear_array v = Panic).
Proof.
  intros v. split; [apply linear_array_iff|]. intros H. destruct (parse_linear_array v) as [x| |] eqn:E; [|reflexivity|].
  - exfalso. apply H. exists x. apply linear_array_iff. exact E.
  - exfalso. revert E. unfold parse_linear_array. destruct v as [x|x|z|z|l|]; cbn [as_array bind]; try discriminate.
    apply mapM_total. intros w _. unfold parse_point_array. destruct w as [x|x|z|z|l'|]; cbn [as_array bind]; try discriminate.
    apply mapM_total. intros u _. destruct u; discriminate.
Qed.
(** Every entry of the three tables becomes one geometry: points, then lines, then polygons. *)
Theorem C77_every_entry : forall lib c gs,
  toml_geometries lib c = Ok gs <->
  exists ps ls gons, gs = ps ++ ls ++ gons /\
    Forall2 (fun e g => exists a, array_of number (snd e) a /\ tg_point lib a = Ok g) (ct_points c) ps /\
    Forall2 (fun e g => exists a, array_of (array_of number) (snd e) a /\ tg_line lib a = Ok g) (ct_polylines c) ls /\
    Forall2 (fun e g => exists a, array_of (array_of (array_of number)) (snd e) a /\ tg_polygon lib a = Ok g) (ct_polygons c) gons.
Proof.
  intros lib c gs.
  assert (A : forall l r, mapM (fun e : bytes * tval => bind (parse_point_array (snd e)) (fun a => tg_point lib a)) l = Ok r <->
     Forall2 (fun e g => exists a, array_of number (snd e) a /\ tg_point lib a = Ok g) l r).
  { intros l r. rewrite mapM_iff. unfold all_to. apply forall2_impl. intros e g. split.
    - destruct (parse_point_array (snd e)) as [a| |] eqn:E; cbn [bind]; try discriminate. intros H. exists a. split; [apply point_array_iff|]; auto.
    - intros (a & H & K). apply point_array_iff in H. rewrite H. exact K. }
  assert (B : forall l r, mapM (fun e : bytes * tval => bind (parse_linear_array (snd e)) (fun a => tg_line lib a)) l = Ok r <->
     Forall2 (fun e g => exists a, array_of (array_of number) (snd e) a /\ tg_line lib a = Ok g) l r).
  { intros l r. rewrite mapM_iff. unfold all_to. apply forall2_impl. intros e g. split.
    - destruct (parse_linear_array (snd e)) as [a| |] eqn:E; cbn [bind]; try discriminate. intros H. exists a. split; [apply linear_array_iff|]; auto.
    - intros (a & H & K). apply linear_array_iff in H. rewrite H. exact K. }
  assert (C : forall l r, mapM (fun e : bytes * tval => bind (as_array (snd e)) (fun shells => bind (mapM parse_linear_array shells) (fun cs => tg_polygon lib cs))) l = Ok r <->
     Forall2 (fun e g => exists a, array_of (array_of (array_of number)) (snd e) a /\ tg_polygon lib a = Ok g) l r).
  { intros l r. rewrite mapM_iff. unfold all_to. apply forall2_impl. intros e g. split.
    - destruct (snd e) as [x|x|z|z|i|]; cbn [as_array bind]; try discriminate.
      destruct (mapM parse_linear_array i) as [a| |] eqn:E; cbn [bind]; try discriminate. intros H. exists a. split; [|exact H].
      exists i. split; [reflexivity|]. apply mapM_iff in E. revert E. apply forall2_impl. intros x y. symmetry. apply linear_array_iff.
    - intros (a & (i & -> & H) & K). cbn [as_array bind]. rewrite (proj2 (mapM_iff _ i a)); [exact K|].
      revert H. apply forall2_impl. intros x y. apply linear_array_iff. }
  unfold toml_geometries, parse_points, parse_polylines, parse_polygons. split.
  - destruct (mapM _ (ct_points c)) as [a| |] eqn:E1; cbn [bind]; try discriminate.
    destruct (mapM _ (ct_polylines c)) as [b| |] eqn:E2; cbn [bind]; try discriminate.
    destruct (mapM _ (ct_polygons c)) as [d| |] eqn:E3; cbn [bind]; try discriminate. intros H. injection H as <-.
    exists a, b, d. split; [reflexivity|]. split; [apply A, E1|]. split; [apply B, E2|apply C, E3].
  - intros (a & b & d & -> & H1 & H2 & H3). apply A in H1. apply B in H2. apply C in H3. rewrite H1. cbn [bind]. rewrite H2. cbn [bind].
    rewrite H3. reflexivity.
Qed.
(** Every named line of an input file is read under its name. *)
Theorem C77_named_lines : forall coords data out,
  toml_input coords data = Ok out <->
  Forall2 (fun e r => fst r = fst e /\ exists a, array_of (array_of number) (snd e) a /\ coords a = Ok (snd r)) data out.
Proof.
  intros coords data out. unfold toml_input. rewrite mapM_iff. unfold all_to. apply forall2_impl. intros [k v] [k' c]. cbn [fst snd]. split.
  - destruct (parse_linear_array v) as [a| |] eqn:E; cbn [bind]; try discriminate.
    destruct (coords a) as [c'| |] eqn:E2; cbn [bind]; try discriminate. intros H. injection H as <- <-. split; [reflexivity|].
    exists a. split; [apply linear_array_iff; exact E|exact E2].
  - intros (-> & a & H & K). apply linear_array_iff in H. rewrite H. cbn [bind]. rewrite K. reflexivity.
Qed.
(** The order in which maps are iterated only permutes the geometries. *)
Theorem C77_map_order : forall lib c c' gs,
  Permutation (ct_points c) (ct_points c') -> Permutation (ct_polylines c) (ct_polylines c') ->
  Permutation (ct_polygons c) (ct_polygons c') ->
  toml_geometries lib c = Ok gs -> exists gs', toml_geometries lib c' = Ok gs' /\ Permutation gs gs'.
Proof.
  intros lib c c' gs P1 P2 P3. unfold toml_geometries, parse_points, parse_polylines, parse_polygons.
  destruct (mapM _ (ct_points c)) as [a| |] eqn:E1; cbn [bind]; try discriminate.
  destruct (mapM _ (ct_polylines c)) as [b| |] eqn:E2; cbn [bind]; try discriminate.
  destruct (mapM _ (ct_polygons c)) as [d| |] eqn:E3; cbn [bind]; try discriminate. intros H. injection H as <-.
  destruct (mapM_perm _ _ _ P1 _ E1) as (a' & -> & Pa). destruct (mapM_perm _ _ _ P2 _ E2) as (b' & -> & Pb).
  destruct (mapM_perm _ _ _ P3 _ E3) as (d' & -> & Pd). cbn [bind]. eexists. split; [reflexivity|]. auto using Permutation_app.
Qed.

(** ** Cases *)

Definition ex_wkt : wktlib := WktLib
  (fun t => match t with c :: _ => if Ascii.eqb c "L"%char then str "linestring" else if Ascii.eqb c "P"%char then str "point" else str "multipoint" | [] => [] end)
  (fun t => Ok [repeat (P2 1 2) (length t)]) (fun t => Ok (GPoint (P2 1 2))).
Example C76_case :
  let lines := [str " LL"; str ""; str "P"; str "x"] in
  let toks := [str "LL"; str "P"; str "x"] in
  Forall (fun l => ~ In newline l) lines /\ lines_kept lines toks /\
  Forall2 (fun t row => (wl_type ex_wkt t = str "linestring" /\ wl_coords ex_wkt t = Ok row) \/
                        (wl_type ex_wkt t <> str "linestring" /\ row = [])) toks [[[P2 1 2; P2 1 2]]; []; []] /\
  Forall2 (fun t row =>
    let known := wl_type ex_wkt t = str "point" \/ wl_type ex_wkt t = str "linestring" \/ wl_type ex_wkt t = str "polygon" in
    (known /\ exists g, wl_geometry ex_wkt t = Ok g /\ row = [g]) \/ (~ known /\ row = [])) toks [[GPoint (P2 1 2)]; [GPoint (P2 1 2)]; []].
Proof.
  cbv zeta. split.
  { repeat constructor; vm_compute; intros H; repeat (destruct H as [H|H]; [discriminate H|]); exact H. }
  split.
  { assert (K : lines_kept [str " LL"; str ""; str "P"; str "x"] (keep [str " LL"; str ""; str "P"; str "x"])) by apply keep_kept.
    vm_compute in K. exact K. }
  split.
  - constructor; [left; split; reflexivity|]. constructor; [right; split; [discriminate|reflexivity]|].
    constructor; [right; split; [discriminate|reflexivity]|constructor].
  - constructor; [left; split; [right; left; reflexivity|eexists; split; reflexivity]|].
    constructor; [left; split; [left; reflexivity|eexists; split; reflexivity]|].
    constructor; [|constructor]. right. split; [|reflexivity]. intros [H|[H|H]]; discriminate H.
Qed.
(** A writer of lines of repeated points, which the library above reads back. *)
Definition ex_tally (c : list point) : bytes := repeat "L"%char (length c).
Definition ex_tally_lib : wktlib := WktLib (wl_type ex_wkt) (fun t => Ok [repeat (P2 1 2) (length t)]) (wl_geometry ex_wkt).
Example C76_case_write :
  let coords := [[P2 1 2; P2 1 2]; [P2 1 2; P2 1 2; P2 1 2]] in
  wkt_ok ex_tally_lib ex_tally coords /\
  write_coords ex_tally coords = str "LL" ++ [newline] ++ str "LLL" ++ [newline] /\
  read_wkt_input ex_tally_lib (Some (write_coords ex_tally coords)) = Ok (coords, EOF).
Proof.
  cbv zeta. split; [|split; vm_compute; reflexivity]. intros c t Hc Ht. apply trimmed_unique in Ht.
  destruct Hc as [<- |[<- |[]]]; vm_compute in Ht; subst t; (split; [|split; [|split; reflexivity]]).
  1,3: vm_compute; intros H; repeat (destruct H as [H|H]; [discriminate H|]); exact H.
  all: intros H; inversion H as [|? ? K _]; vm_compute in K; repeat (destruct K as [K|K]; [discriminate K|]); exact K.
Qed.

Example C77_case :
  let v := TArr [TArr [TI64 1; TF64 (f_of_Z 2)]; TArr [TI32 3; TF32 (f_of_Z 4)]] in
  array_of (array_of number) v [[f_of_Z 1; f_of_Z 2]; [f_of_Z 3; f_of_Z 4]] /\
  ~ (exists xss, array_of (array_of number) (TArr [TArr [TOther]]) xss) /\
  let lib := TomlGeom (fun _ => Ok (GPoint (P2 0 0))) (fun _ => Ok (GLine [])) (fun l => Ok (GPoly [])) in
  let c := ConstToml [(str "a", v)] [(str "b", TArr [v])] [(str "c", TArr [TI64 1; TI64 2])] in
  toml_geometries lib c = Ok [GPoint (P2 0 0); GLine []; GPoly []].
Proof.
  cbv zeta. split; [|split].
  - eexists. split; [reflexivity|]. repeat (constructor; [eexists; split; [reflexivity|]; repeat constructor|]). constructor.
  - intros (xss & H). apply linear_array_iff in H. vm_compute in H. discriminate H.
  - reflexivity.
Qed.

Print Assumptions C76_reads_every_line.
Print Assumptions C76_reads_every_constraint.
Print Assumptions C76_written_lines_read_back.
Print Assumptions C76_always_an_error_refuted.
Print Assumptions C77_arrays_of_numbers.
Print Assumptions C77_every_entry.
Print Assumptions C77_map_order.
Print Assumptions C77_named_lines.
