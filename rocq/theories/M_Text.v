(** Model of the text handling: polyline ids, base64 transport, line readers, the choice of
    the configuration source.  Strings are lists of bytes. *)
From Coq Require Import Ascii String.
From Verif Require Import M_Base.
Open Scope Z_scope.

Definition bytes := list ascii.
Definition str (s : string) : bytes := list_ascii_of_string s.

Fixpoint bytes_eqb (a b : bytes) : bool :=
  match a, b with
  | [], [] => true
  | x :: r, y :: s => Ascii.eqb x y && bytes_eqb r s
  | _, _ => false
  end.

(** ** Numbers in ids *)

Definition code (c : ascii) : Z := Z.of_N (N_of_ascii c).
Definition digit (d : Z) : ascii := ascii_of_N (Z.to_N (48 + d)).

(** fmt %v of a non-negative int: decimal digits, most significant first. *)
Fixpoint digits (fuel : nat) (n : Z) (acc : bytes) : bytes :=
  match fuel with
  | O => acc
  | S f => if n <? 10 then digit n :: acc else digits f (n / 10) (digit (n mod 10) :: acc)
  end.
Definition fmt_int (n : Z) : bytes := digits (S (Z.to_nat (Z.log2 n))) n [].

(** geometry/geojson.go:155-157 composeId. *)
Definition compose_id (index pos : Z) : bytes :=
  str "idx:" ++ fmt_int index ++ str "-pos:" ++ fmt_int pos.

(** encode.go:13 and 22: all matches of [0-9]+, leftmost and longest: the maximal runs of
    digits.  [run] is the run being read, in reverse. *)
Definition is_digit (c : ascii) : bool := (48 <=? code c) && (code c <=? 57).
Definition flush (run : bytes) : list bytes := match run with [] => [] | _ => [rev run] end.
Fixpoint digit_runs (run : bytes) (s : bytes) : list bytes :=
  match s with
  | [] => flush run
  | c :: r => if is_digit c then digit_runs (c :: run) r else flush run ++ digit_runs [] r
  end.

(** strconv.Atoi on digits: the value, or the greatest int on overflow (its error is ignored). *)
Definition max_int : Z := 2 ^ 63 - 1.
Definition atoi (s : bytes) : Z :=
  let v := fold_left (fun v c => 10 * v + (code c - 48)) s 0 in
  if v <=? max_int then v else max_int.

(** encode.go:21-26 indexPos; vals[0], vals[1] panic when missing. *)
Definition index_pos (id : bytes) : res (Z * Z) :=
  match digit_runs [] id with
  | a :: b :: _ => Ok (atoi a, atoi b)
  | _ => Panic
  end.

(** ** White space and lines *)

(** strings.TrimSpace for ASCII text (Go also trims other Unicode spaces). *)
Definition is_space (c : ascii) : bool := ((9 <=? code c) && (code c <=? 13)) || (code c =? 32).
Fixpoint trim_left (s : bytes) : bytes :=
  match s with
  | [] => []
  | c :: r => if is_space c then trim_left r else s
  end.
Definition trim (s : bytes) : bytes := rev (trim_left (rev (trim_left s))).

Definition nl : ascii := ascii_of_N 10.
(** strings.Split(s, "\n"): at least one piece. *)
Fixpoint split_lines (s : bytes) : list bytes :=
  match s with
  | [] => [[]]
  | c :: r =>
    if Ascii.eqb c nl then [] :: split_lines r
    else match split_lines r with
         | l :: ls => (c :: l) :: ls
         | [] => [[c]]
         end
  end.

Definition nonempty (s : bytes) : bool := match s with [] => false | _ => true end.

(** geometry/geojson.go:159-171 readJsonFile on the contents of the file. *)
Definition read_json_tokens (data : bytes) : list bytes :=
  filter nonempty (map trim (split_lines (trim data))).

(** bufio ReadString('\n') repeated until the error at the end: the terminated lines. *)
Fixpoint terminated (run : bytes) (s : bytes) : list bytes :=
  match s with
  | [] => []
  | c :: r => if Ascii.eqb c nl then rev (c :: run) :: terminated [] r else terminated (c :: run) r
  end.
(** io.go:98-113 readlinesFromReader: the lines given to the callback. *)
Definition read_lines (data : bytes) : list bytes :=
  filter nonempty (map trim (terminated [] data)).

(** ** Base64 *)

(** encoding/base64 StdEncoding (external), RFC 4648: six bits per character. *)
Definition alphabet : bytes :=
  str "ABCDEFGHIJKLMNOPQRSTUVWXYZabcdefghijklmnopqrstuvwxyz0123456789+/".
Definition sextet := (bool * bool * bool * bool * bool * bool)%type.
Definition bit (b : bool) (k : Z) : Z := if b then k else 0.
Definition sextet_val (s : sextet) : Z :=
  let '(a, b, c, d, e, f) := s in bit a 32 + bit b 16 + bit c 8 + bit d 4 + bit e 2 + bit f 1.
Definition val_sextet (v : Z) : sextet :=
  (Z.testbit v 5, Z.testbit v 4, Z.testbit v 3, Z.testbit v 2, Z.testbit v 1, Z.testbit v 0).
Definition b64_char (s : sextet) : ascii := nth (Z.to_nat (sextet_val s)) alphabet nl.
Fixpoint index_of (c : ascii) (l : bytes) (i : Z) : option Z :=
  match l with
  | [] => None
  | x :: r => if Ascii.eqb x c then Some i else index_of c r (i + 1)
  end.
Definition b64_sextet (c : ascii) : option sextet :=
  match index_of c alphabet 0 with Some v => Some (val_sextet v) | None => None end.

Definition pad : ascii := ascii_of_N 61.

(** util.go:12-14 encode64. *)
Fixpoint encode64 (s : bytes) : bytes :=
  match s with
  | [] => []
  | [Ascii a0 a1 a2 a3 a4 a5 a6 a7] =>
    [b64_char (a7, a6, a5, a4, a3, a2); b64_char (a1, a0, false, false, false, false); pad; pad]
  | [Ascii a0 a1 a2 a3 a4 a5 a6 a7; Ascii b0 b1 b2 b3 b4 b5 b6 b7] =>
    [b64_char (a7, a6, a5, a4, a3, a2); b64_char (a1, a0, b7, b6, b5, b4);
     b64_char (b3, b2, b1, b0, false, false); pad]
  | Ascii a0 a1 a2 a3 a4 a5 a6 a7 :: Ascii b0 b1 b2 b3 b4 b5 b6 b7 :: Ascii c0 c1 c2 c3 c4 c5 c6 c7 :: r =>
    b64_char (a7, a6, a5, a4, a3, a2) :: b64_char (a1, a0, b7, b6, b5, b4) ::
    b64_char (b3, b2, b1, b0, c7, c6) :: b64_char (c5, c4, c3, c2, c1, c0) :: encode64 r
  end.

(** util.go:16-22 decode64; a malformed text panics.  Padding ends the text; carriage returns and
    line feeds are skipped by the library. *)
Fixpoint decode_quads (s : bytes) : res bytes :=
  match s with
  | [] => Ok []
  | [x; y; z; w] =>
    match b64_sextet x, b64_sextet y, b64_sextet z, b64_sextet w with
    | Some (a7, a6, a5, a4, a3, a2), Some (a1, a0, b7, b6, b5, b4), Some (b3, b2, b1, b0, c7, c6),
      Some (c5, c4, c3, c2, c1, c0) =>
      Ok [Ascii a0 a1 a2 a3 a4 a5 a6 a7; Ascii b0 b1 b2 b3 b4 b5 b6 b7; Ascii c0 c1 c2 c3 c4 c5 c6 c7]
    | Some (a7, a6, a5, a4, a3, a2), Some (a1, a0, b7, b6, b5, b4), Some (b3, b2, b1, b0, _, _), None =>
      if Ascii.eqb w pad
      then Ok [Ascii a0 a1 a2 a3 a4 a5 a6 a7; Ascii b0 b1 b2 b3 b4 b5 b6 b7] else Panic
    | Some (a7, a6, a5, a4, a3, a2), Some (a1, a0, _, _, _, _), None, None =>
      if Ascii.eqb z pad && Ascii.eqb w pad then Ok [Ascii a0 a1 a2 a3 a4 a5 a6 a7] else Panic
    | _, _, _, _ => Panic
    end
  | x :: y :: z :: w :: r =>
    match b64_sextet x, b64_sextet y, b64_sextet z, b64_sextet w with
    | Some (a7, a6, a5, a4, a3, a2), Some (a1, a0, b7, b6, b5, b4), Some (b3, b2, b1, b0, c7, c6),
      Some (c5, c4, c3, c2, c1, c0) =>
      rest <- decode_quads r ;;
      Ok (Ascii a0 a1 a2 a3 a4 a5 a6 a7 :: Ascii b0 b1 b2 b3 b4 b5 b6 b7 ::
          Ascii c0 c1 c2 c3 c4 c5 c6 c7 :: rest)
    | _, _, _, _ => Panic
    end
  | _ => Panic
  end.
Definition is_break (c : ascii) : bool := (code c =? 10) || (code c =? 13).
Definition decode64 (s : bytes) : res bytes := decode_quads (filter (fun c => negb (is_break c)) s).

(** ** The command line *)

(** main.go:22-52: the JSON text of the configuration from the flags -b and -f, both "-" when
    not given.  os.Exit(13) and the panics are [Panic]; [file] reads a file. *)
Definition dash : bytes := str "-".
Definition config_text (file : bytes -> option bytes) (b f : bytes) : res bytes :=
  if bytes_eqb b dash && bytes_eqb f dash then Panic
  else if negb (bytes_eqb b dash) && negb (bytes_eqb f dash) then Panic
  else
    b <- (if negb (bytes_eqb f dash)
          then match file f with None => Panic | Some t => Ok (encode64 (trim t)) end
          else Ok b) ;;
    decode64 (trim b).

(** main.go:56, strings.ToLower for ASCII text. *)
Definition lower (c : ascii) : ascii :=
  if (65 <=? code c) && (code c <=? 90) then ascii_of_N (Z.to_N (code c + 32)) else c.

Inductive stype := DP | SED.
(** main.go:55-61 and offset.go:8-11: the offset function. *)
Definition offset_fn (t : bytes) : option stype :=
  let t := map lower (trim t) in
  if bytes_eqb t (str "dp") then Some DP
  else if bytes_eqb t (str "sed") then Some SED
  else None.
