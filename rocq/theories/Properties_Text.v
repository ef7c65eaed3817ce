(** Ids, base64 transport, line readers and the choice of the configuration. *)
From Coq Require Import Ascii String.
From Verif Require Import M_Base M_Text Spec_Text P_Text.
Open Scope Z_scope.

(** ** C39 *)

(** Go ints are below 2^63. *)
Theorem C39_ids_round_trip : forall i p, 0 <= i < 2 ^ 63 -> 0 <= p < 2 ^ 63 ->
  index_pos (compose_id i p) = Ok (i, p).
Proof. intros i p Hi Hp. apply index_pos_id; unfold max_int; lia. Qed.

(** A number that is no Go int is read as the greatest one. *)
Theorem C39_long_numbers : forall i p, 0 <= i -> 0 <= p ->
  index_pos (compose_id i p) = Ok (Z.min i (2 ^ 63 - 1), Z.min p (2 ^ 63 - 1)).
Proof.
  intros i p Hi Hp. unfold index_pos. rewrite runs_id by assumption. unfold atoi. fold dstep. rewrite !fmt_value by assumption.
  unfold max_int. destruct (Z.leb_spec i (2 ^ 63 - 1)), (Z.leb_spec p (2 ^ 63 - 1)); f_equal; f_equal; lia.
Qed.

Theorem C39_ids_distinct : forall i p j q, 0 <= i -> 0 <= p -> 0 <= j -> 0 <= q ->
  compose_id i p = compose_id j q -> i = j /\ p = q.
Proof.
  intros i p j q Hi Hp Hj Hq E. apply (f_equal (digit_runs [])) in E. rewrite !runs_id in E by assumption.
  injection E as E1 E2. split; [rewrite <- (fmt_value i), <- (fmt_value j) by assumption|
    rewrite <- (fmt_value p), <- (fmt_value q) by assumption]; congruence.
Qed.

Example C39_case : compose_id 120 7 = str "idx:120-pos:7" /\ index_pos (str "idx:120-pos:7") = Ok (120, 7).
Proof. split; vm_compute; reflexivity. Qed.

(** ** C43 *)

Theorem C43_base64_round_trip : forall s, decode64 (encode64 s) = Ok s.
Proof. exact decode64_encode64. Qed.

(** The standard encoding: read as one number, the characters are the bytes followed by two zero bits for each padding character. *)
Definition number (base : Z) (digits : list Z) : Z := fold_left (fun v d => v * base + d) digits 0.

Lemma code_bits a0 a1 a2 a3 a4 a5 a6 a7 : code (Ascii a0 a1 a2 a3 a4 a5 a6 a7) =
  bit a7 128 + bit a6 64 + bit a5 32 + bit a4 16 + bit a3 8 + bit a2 4 + bit a1 2 + bit a0 1.
Proof. destruct a0, a1, a2, a3, a4, a5, a6, a7; reflexivity. Qed.
Lemma sextet_range s : 0 <= sextet_val s < 64.
Proof. destruct s as [[[[[[] []] []] []] []] []]; cbn; lia. Qed.
Lemma bits_add a b c d e f : sextet_val (a, b, c, d, e, f) = 32 * bit a 1 + 16 * bit b 1 + 8 * bit c 1 + 4 * bit d 1 + 2 * bit e 1 + bit f 1.
Proof. destruct a, b, c, d, e, f; reflexivity. Qed.
Lemma code_add a0 a1 a2 a3 a4 a5 a6 a7 : code (Ascii a0 a1 a2 a3 a4 a5 a6 a7) =
  128 * bit a7 1 + 64 * bit a6 1 + 32 * bit a5 1 + 16 * bit a4 1 + 8 * bit a3 1 + 4 * bit a2 1 + 2 * bit a1 1 + bit a0 1.
Proof. rewrite code_bits. destruct a0, a1, a2, a3, a4, a5, a6, a7; reflexivity. Qed.

Theorem C43_standard_encoding : forall s, exists digits n,
  encode64 s = map (fun d => nth (Z.to_nat d) base64_alphabet newline) digits ++ repeat (ascii_of_N 61) n /\
  Forall (fun d => 0 <= d < 64) digits /\ (n < 3)%nat /\ (3 * (length digits + n) = 4 * (length s + n))%nat /\
  number 64 digits = number 256 (map code s) * 4 ^ Z.of_nat n.
Proof.
  assert (G : forall k s, (length s < k)%nat -> exists digits n,
    encode64 s = map (fun d => nth (Z.to_nat d) base64_alphabet newline) digits ++ repeat (ascii_of_N 61) n /\
    Forall (fun d => 0 <= d < 64) digits /\ (n < 3)%nat /\ (3 * (length digits + n) = 4 * (length s + n))%nat /\
    forall v, fold_left (fun v d => v * 64 + d) digits v = fold_left (fun v d => v * 256 + d) (map code s) v * 4 ^ Z.of_nat n).
  2:{ intros s. destruct (G (S (length s)) s (Nat.lt_succ_diag_r _)) as (ds & n & E & R & N & L & V). exists ds, n.
      split; [exact E|]. split; [exact R|]. split; [exact N|]. split; [exact L|]. apply V. }
  induction k as [|k IH]; intros s Hk; [lia|].
  assert (C : forall x, b64_char x = nth (Z.to_nat (sextet_val x)) base64_alphabet newline) by reflexivity.
  destruct s as [|[a0 a1 a2 a3 a4 a5 a6 a7] [|[b0 b1 b2 b3 b4 b5 b6 b7] [|[c0 c1 c2 c3 c4 c5 c6 c7] r]]].
  - exists [], 0%nat. cbn. repeat split; auto. intros; ring.
  - exists [sextet_val (a7, a6, a5, a4, a3, a2); sextet_val (a1, a0, false, false, false, false)], 2%nat.
    split; [reflexivity|]. split; [repeat constructor; apply sextet_range|]. split; [lia|]. split; [reflexivity|].
    intros v. cbn [map fold_left]. rewrite code_add, !bits_add. change (4 ^ Z.of_nat 2) with 16. unfold bit at 9 10 11 12. ring.
  - exists [sextet_val (a7, a6, a5, a4, a3, a2); sextet_val (a1, a0, b7, b6, b5, b4); sextet_val (b3, b2, b1, b0, false, false)], 1%nat.
    split; [reflexivity|]. split; [repeat constructor; apply sextet_range|]. split; [lia|]. split; [reflexivity|].
    intros v. cbn [map fold_left]. rewrite !code_add, !bits_add. change (4 ^ Z.of_nat 1) with 4. cbn [bit]. ring.
  - destruct (IH r) as (ds & n & E & R & N & L & V); [cbn [length] in Hk; lia|].
    exists (sextet_val (a7, a6, a5, a4, a3, a2) :: sextet_val (a1, a0, b7, b6, b5, b4) :: sextet_val (b3, b2, b1, b0, c7, c6) ::
      sextet_val (c5, c4, c3, c2, c1, c0) :: ds), n.
    split; [cbn [encode64 map app]; rewrite E; reflexivity|]. split; [repeat (constructor; [apply sextet_range|]); exact R|]. split; [exact N|].
    split; [cbn [length]; lia|]. intros v. cbn [map fold_left]. rewrite V. f_equal. f_equal. rewrite !code_add, !bits_add. ring.
Qed.

(** A text is decoded exactly when it is base64: any other one makes the program panic.  Three
    bytes come from four characters, less the padding, and an unpadded text is the encoding of
    what it decodes to. *)
Theorem C43_decode_accepts : forall s t, unbroken s t ->
  ((exists out, decode64 s = Ok out) <-> exists n, base64_text t n) /\
  (forall n out, base64_text t n -> decode64 s = Ok out ->
     (4 * (length out + n) = 3 * length t)%nat /\ (n = 0%nat -> encode64 out = t)) /\
  (decode64 s = Panic \/ exists out, decode64 s = Ok out).
Proof.
  intros s t H. apply unbroken_unique in H. subst t. unfold decode64.
  set (t := filter (fun c => negb (is_break c)) s). split; [split|split].
  - intros (out & E). exact (decode_quads_ok t out E).
  - intros (n & Hn). destruct (decode_quads_text t n Hn) as (out & E & _). eauto.
  - intros n out Hn E. destruct (decode_quads_text t n Hn) as (out' & E' & K). rewrite E in E'. injection E' as <-. exact K.
  - apply decode_quads_total.
Qed.

(** What is decoded: the number the characters spell, without the bits that the padding makes superfluous. *)
Lemma sextet_read c x : b64_sextet c = Some x -> c = nth (Z.to_nat (sextet_val x)) base64_alphabet newline.
Proof. intros H. symmetry. exact (sextet_fwd _ _ H). Qed.

Theorem C43_decoded_number : forall s t out, unbroken s t -> decode64 s = Ok out -> exists digits n rest,
  t = map (fun d => nth (Z.to_nat d) base64_alphabet newline) digits ++ repeat (ascii_of_N 61) n /\
  Forall (fun d => 0 <= d < 64) digits /\ (n < 3)%nat /\ (3 * (length digits + n) = 4 * (length out + n))%nat /\
  0 <= rest < 4 ^ Z.of_nat n /\ number 64 digits = number 256 (map code out) * 4 ^ Z.of_nat n + rest.
Proof.
  intros s t out Ht. apply unbroken_unique in Ht. subst t. unfold decode64. set (t := filter (fun c => negb (is_break c)) s). clearbody t.
  assert (G : forall out, decode_quads t = Ok out -> exists digits n rest,
    t = map (fun d => nth (Z.to_nat d) base64_alphabet newline) digits ++ repeat (ascii_of_N 61) n /\
    Forall (fun d => 0 <= d < 64) digits /\ (n < 3)%nat /\ (3 * (length digits + n) = 4 * (length out + n))%nat /\
    0 <= rest < 4 ^ Z.of_nat n /\
    forall v, fold_left (fun v d => v * 64 + d) digits v = fold_left (fun v d => v * 256 + d) (map code out) v * 4 ^ Z.of_nat n + rest).
  2:{ intros E. destruct (G out E) as (ds & n & q & A & B & C & D & F & V). exists ds, n, q.
      split; [exact A|]. split; [exact B|]. split; [exact C|]. split; [exact D|]. split; [exact F|]. apply V. }
  clear s out. revert t. intros t. refine (bytes4_ind (fun t => _) _ _ _ _ _ t); clear t; [intros out H|intros a out H|intros a b out H|intros a b c out H|intros x y z w r IH out H]; try discriminate.
  - injection H as <-. exists [], 0%nat, 0. cbn. repeat split; auto; lia.
  - assert (E : decode_quads (x :: y :: z :: w :: r) = match r with
      | [] => decode_quads [x; y; z; w]
      | _ => match b64_sextet x, b64_sextet y, b64_sextet z, b64_sextet w with
        | Some (a7, a6, a5, a4, a3, a2), Some (a1, a0, b7, b6, b5, b4), Some (b3, b2, b1, b0, c7, c6),
          Some (c5, c4, c3, c2, c1, c0) =>
          rest <- decode_quads r ;;
          Ok (Ascii a0 a1 a2 a3 a4 a5 a6 a7 :: Ascii b0 b1 b2 b3 b4 b5 b6 b7 :: Ascii c0 c1 c2 c3 c4 c5 c6 c7 :: rest)
        | _, _, _, _ => Panic
        end
      end) by (destruct r; reflexivity).
    rewrite E in H. clear E.
    assert (R : exists o, (r = [] \/ r <> []) /\ o = decode_quads r) by (exists (decode_quads r); split; [destruct r; [left; reflexivity|right; discriminate]|reflexivity]).
    destruct R as (o & [->|Hr] & Eo).
    + cbn [decode_quads] in H.
      destruct (b64_sextet x) as [[[[[[x1 x2] x3] x4] x5] x6]|] eqn:Ex; [|discriminate].
      destruct (b64_sextet y) as [[[[[[y1 y2] y3] y4] y5] y6]|] eqn:Ey; [|discriminate].
      apply sextet_read in Ex, Ey.
      destruct (b64_sextet z) as [[[[[[z1 z2] z3] z4] z5] z6]|] eqn:Ez; destruct (b64_sextet w) as [[[[[[w1 w2] w3] w4] w5] w6]|] eqn:Ew;
        try discriminate.
      * injection H as <-. apply sextet_read in Ez, Ew.
        eexists [sextet_val _; sextet_val _; sextet_val _; sextet_val _], 0%nat, 0.
        split; [cbn [map repeat app]; rewrite Ex, Ey, Ez, Ew at 1; reflexivity|].
        split; [repeat constructor; apply sextet_range|]. split; [lia|]. split; [reflexivity|]. split; [cbn; lia|].
        intros v. cbn [map fold_left]. rewrite !code_add, !bits_add. change (4 ^ Z.of_nat 0) with 1. ring.
      * destruct (Ascii.eqb w pad) eqn:Ep; [|discriminate]. apply Ascii.eqb_eq in Ep. injection H as <-. apply sextet_read in Ez.
        eexists [sextet_val _; sextet_val _; sextet_val _], 1%nat, (2 * bit z5 1 + bit z6 1).
        split; [cbn [map repeat app]; rewrite Ex, Ey, Ez, Ep at 1; reflexivity|].
        split; [repeat constructor; apply sextet_range|]. split; [lia|]. split; [reflexivity|].
        split; [change (4 ^ Z.of_nat 1) with 4; destruct z5, z6; cbn; lia|].
        intros v. cbn [map fold_left]. rewrite !code_add, !bits_add. change (4 ^ Z.of_nat 1) with 4. ring.
      * destruct (Ascii.eqb z pad) eqn:Ep; [|discriminate]. destruct (Ascii.eqb w pad) eqn:Ep'; [|discriminate].
        apply Ascii.eqb_eq in Ep, Ep'. injection H as <-.
        eexists [sextet_val _; sextet_val _], 2%nat, (8 * bit y3 1 + 4 * bit y4 1 + 2 * bit y5 1 + bit y6 1).
        split; [cbn [map repeat app]; rewrite Ex, Ey, Ep, Ep' at 1; reflexivity|].
        split; [repeat constructor; apply sextet_range|]. split; [lia|]. split; [reflexivity|].
        split; [change (4 ^ Z.of_nat 2) with 16; destruct y3, y4, y5, y6; cbn; lia|].
        intros v. cbn [map fold_left]. rewrite !code_add, !bits_add. change (4 ^ Z.of_nat 2) with 16. ring.
    + destruct r as [|u r]; [contradiction|]. rewrite <- Eo in H.
      destruct (b64_sextet x) as [[[[[[x1 x2] x3] x4] x5] x6]|] eqn:Ex; [|discriminate].
      destruct (b64_sextet y) as [[[[[[y1 y2] y3] y4] y5] y6]|] eqn:Ey; [|discriminate].
      destruct (b64_sextet z) as [[[[[[z1 z2] z3] z4] z5] z6]|] eqn:Ez; [|discriminate].
      destruct (b64_sextet w) as [[[[[[w1 w2] w3] w4] w5] w6]|] eqn:Ew; [|discriminate].
      destruct o as [o| |]; cbn [bind] in H; try discriminate. injection H as <-.
      destruct (IH o (eq_sym Eo)) as (ds & n & q & A & B & C & D & F & V). clear IH.
      apply sextet_read in Ex, Ey, Ez, Ew.
      exists (sextet_val (x1, x2, x3, x4, x5, x6) :: sextet_val (y1, y2, y3, y4, y5, y6) :: sextet_val (z1, z2, z3, z4, z5, z6) ::
        sextet_val (w1, w2, w3, w4, w5, w6) :: ds), n, q.
      split; [cbn [map app]; rewrite <- Ex, <- Ey, <- Ez, <- Ew, <- A; reflexivity|].
      split; [repeat (apply Forall_cons; [apply sextet_range|]); exact B|]. split; [exact C|]. split; [cbn [length]; lia|]. split; [exact F|].
      intros v. cbn [map fold_left]. rewrite V. do 2 f_equal. f_equal. rewrite !code_add, !bits_add. ring.
Qed.

(** The text of the configuration is the same from a file and as a base64 argument; neither
    can be mistaken for an absent argument. *)
Theorem C43_file_or_argument : forall file path text t, path <> str "-" -> file path = Some text ->
  trimmed text t ->
  config_text file (str "-") path = Ok t /\ config_text file (encode64 t) (str "-") = Ok t.
Proof.
  intros file path text t Hp Ht Htr. apply trimmed_unique in Htr. subst t. split.
  - apply config_file; assumption.
  - apply config_b64.
Qed.

(** Exactly one of the two is accepted. *)
Theorem C43_exactly_one_source : forall file b f text, config_text file b f = Ok text ->
  (b = str "-" /\ f <> str "-") \/ (b <> str "-" /\ f = str "-").
Proof.
  intros file b f text. unfold config_text, dash.
  destruct (bytes_eqb b (str "-")) eqn:Eb, (bytes_eqb f (str "-")) eqn:Ef; cbn [negb andb]; try discriminate.
  - intros _. left. rewrite bytes_eqb_spec in Eb. rewrite bytes_eqb_false in Ef. auto.
  - intros _. right. rewrite bytes_eqb_spec in Ef. rewrite bytes_eqb_false in Eb. auto.
Qed.

Example C43_decode_case :
  unbroken (str "TW" ++ newline :: str "E=") (str "TWE=") /\ base64_text (str "TWE=") 1 /\
  decode64 (str "TW" ++ newline :: str "E=") = Ok (str "Ma") /\
  decode64 (str "TW=E") = Panic /\ decode64 (str "TW.=") = Panic /\ decode64 (str "TWE=TWE=") = Panic /\ decode64 (str "TWE") = Panic /\
  decode64 (str "TWF=") = Ok (str "Ma") /\ number 64 [19; 22; 5] = number 256 (map code (str "Ma")) * 4 ^ 1 + 1.
Proof.
  split; [repeat (first [apply UB_nil|apply UB_keep; [unfold line_break; cbn; intuition discriminate|]|apply UB_skip; [cbn; auto|]])|].
  split; [|vm_compute; repeat split].
  exists (str "TWE"). split; [reflexivity|]. split; [|split; [lia|exists 1%nat; reflexivity]].
  repeat (apply Forall_cons; [vm_compute; tauto|]). apply Forall_nil.
Qed.

Example C43_case :
  encode64 (str "{""a"":1}") = str "eyJhIjoxfQ==" /\ decode64 (str "eyJhIjoxfQ==") = Ok (str "{""a"":1}") /\
  trimmed (str " x ") (str "x") /\
  config_text (fun _ => Some (str " x ")) (str "-") (str "cfg.json") = Ok (str "x") /\
  encode64 (str "Ma") = str "TWE=" /\ encode64 (str "Man") = str "TWFu".
Proof.
  split; [vm_compute; reflexivity|]. split; [vm_compute; reflexivity|]. split.
  { exists (str " "), (str " "). split; [reflexivity|].
    assert (H : Forall space (str " ")) by (constructor; [unfold space; cbn; tauto|constructor]).
    split; [exact H|]. split; [exact H|]. split.
    - intros c r E. injection E as <- <-. unfold space. cbn. intuition discriminate.
    - intros c [|a r] E; cbn in E; [|destruct r; discriminate]. injection E as <-. unfold space. cbn. intuition discriminate. }
  split; [vm_compute; reflexivity|]. split; vm_compute; reflexivity.
Qed.

(** ** C44 *)

(** The input and constraint files: every line that is not blank, trimmed, in order, with or
    without a line feed at the end of the file. *)
Theorem C44_every_line : forall ls, ls <> [] -> Forall (fun l => ~ In newline l) ls ->
  lines_kept ls (read_json_tokens (unlines ls)).
Proof. exact read_json_lines. Qed.

(** The reader of WKT lines: every terminated line.  Missing: a last line without line feed. *)
Theorem C44_terminated_lines_partial : forall ls, Forall (fun l => ~ In newline l) ls ->
  lines_kept ls (read_lines (unlines (ls ++ [[]]))).
Proof.
  intros ls H. rewrite read_lines_spec; [apply keep_kept|exact H|intros []].
Qed.
(** It is lost. *)
Theorem C44_last_line_lost_refuted : forall ls last, Forall (fun l => ~ In newline l) ls -> ~ In newline last ->
  read_lines (unlines (ls ++ [last])) = read_lines (unlines (ls ++ [[]])).
Proof.
  intros ls last H Hl. rewrite !read_lines_spec; auto.
Qed.

Example C44_case :
  let text := str " a" ++ [newline] ++ str "  " ++ [newline] ++ str "b c " in
  text = unlines [str " a"; str "  "; str "b c "] /\
  read_json_tokens text = [str "a"; str "b c"] /\ read_lines text = [str "a"].
Proof. cbv zeta. split; [reflexivity|]. split; vm_compute; reflexivity. Qed.

(** ** C51 *)

(** The type of simplification: dp or sed, in any case, with white space around.  An upper
    case letter has the code of the lower case letter less 32. *)
Definition same_letter (c d : ascii) : Prop :=
  c = d \/ (nat_of_ascii c + 32 = nat_of_ascii d /\ 97 <= nat_of_ascii d <= 122)%nat.
Definition same_letters (s : bytes) (t : string) : Prop := Forall2 same_letter s (list_ascii_of_string t).
Lemma lower_same c d : (97 <= nat_of_ascii d <= 122)%nat -> lower c = d <-> same_letter c d.
Proof.
  intros Hd. split.
  - intros <-. revert Hd. unfold same_letter. destruct c as [[] [] [] [] [] [] [] []];
      first [left; reflexivity | intros Hd; right; split; [vm_compute; reflexivity|exact Hd]].
  - intros [-> |[E _]].
    + revert Hd. destruct d as [[] [] [] [] [] [] [] []]; first [reflexivity | intros [H1 H2]; vm_compute in H1, H2; lia].
    + assert (Hc : (65 <= nat_of_ascii c <= 90)%nat) by lia.
      rewrite <- (ascii_nat_embedding d), <- E. clear E Hd d. revert Hc.
      destruct c as [[] [] [] [] [] [] [] []]; first [reflexivity | intros [H1 H2]; vm_compute in H1, H2; lia].
Qed.
Lemma lower_word s w : Forall (fun d => 97 <= nat_of_ascii d <= 122)%nat w -> map lower s = w <-> Forall2 same_letter s w.
Proof.
  intros H. revert s. induction H as [|d w Hd H IH]; intros [|c s]; cbn [map]; split; intros K; try discriminate; try (inversion K; fail).
  - constructor.
  - reflexivity.
  - injection K as K1 K2. constructor; [apply lower_same; assumption|apply IH, K2].
  - inversion K; subst. f_equal; [apply lower_same; assumption|apply IH; assumption].
Qed.
Theorem C51_simplification_type : forall text t, trimmed text t ->
  (offset_fn text = Some DP <-> same_letters t "dp") /\
  (offset_fn text = Some SED <-> same_letters t "sed") /\
  (offset_fn text = None <-> ~ same_letters t "dp" /\ ~ same_letters t "sed").
Proof.
  intros text t Ht. apply trimmed_unique in Ht. subst t. unfold offset_fn, same_letters.
  rewrite <- !lower_word by (repeat constructor; vm_compute; lia).
  change (list_ascii_of_string "dp") with (str "dp"). change (list_ascii_of_string "sed") with (str "sed").
  destruct (bytes_eqb (map lower (trim text)) (str "dp")) eqn:E1.
  - apply bytes_eqb_spec in E1. rewrite E1. repeat split; intros; try discriminate; auto.
    destruct H as [H _]. destruct (H eq_refl).
  - apply bytes_eqb_false in E1. destruct (bytes_eqb (map lower (trim text)) (str "sed")) eqn:E2.
    + apply bytes_eqb_spec in E2. rewrite E2. repeat split; intros; try discriminate; auto.
      destruct H as [_ H]. destruct (H eq_refl).
    + apply bytes_eqb_false in E2. repeat split; intros; try discriminate; auto; contradiction.
Qed.

Example C51_case : offset_fn (str " Dp ") = Some DP /\ offset_fn (str "SED") = Some SED /\ offset_fn (str "vw") = None.
Proof. repeat split; vm_compute; reflexivity. Qed.

Print Assumptions C39_ids_round_trip.
Print Assumptions C39_ids_distinct.
Print Assumptions C43_base64_round_trip.
Print Assumptions C43_decode_accepts.
Print Assumptions C43_standard_encoding.
Print Assumptions C43_decoded_number.
Print Assumptions C43_file_or_argument.
Print Assumptions C43_exactly_one_source.
Print Assumptions C44_every_line.
Print Assumptions C44_terminated_lines_partial.
Print Assumptions C44_last_line_lost_refuted.
Print Assumptions C51_simplification_type.
Print Assumptions C39_long_numbers.
