(** Specification vocabulary for text: trimming, lines, decimal numerals. *)
From Coq Require Import Ascii String.
From Verif Require Import M_Base.
Open Scope Z_scope.

(** White space: tab, line feed, vertical tab, form feed, carriage return, space. *)
Definition space (c : ascii) : Prop := In (N_of_ascii c) [9; 10; 11; 12; 13; 32]%N.
Definition newline : ascii := "010"%char.

(** [t] is [s] without the white space around it. *)
Definition trimmed (s t : list ascii) : Prop :=
  exists a b, s = a ++ t ++ b /\ Forall space a /\ Forall space b /\
    (forall c r, t = c :: r -> ~ space c) /\ (forall c r, t = r ++ [c] -> ~ space c).
Definition blank (s : list ascii) : Prop := Forall space s.

(** A text from its lines. *)
Fixpoint unlines (ls : list (list ascii)) : list ascii :=
  match ls with
  | [] => []
  | [l] => l
  | l :: r => l ++ newline :: unlines r
  end.

(** [ts]: the lines of [ls] that are not blank, trimmed, in order. *)
Inductive lines_kept : list (list ascii) -> list (list ascii) -> Prop :=
| LK_nil : lines_kept [] []
| LK_blank l ls ts : blank l -> lines_kept ls ts -> lines_kept (l :: ls) ts
| LK_keep l ls t ts : ~ blank l -> trimmed l t -> lines_kept ls ts -> lines_kept (l :: ls) (t :: ts).

(** RFC 4648: quartets of characters of the alphabet, the last one completed by one or two "=". *)
Definition base64_alphabet : list ascii :=
  list_ascii_of_string "ABCDEFGHIJKLMNOPQRSTUVWXYZabcdefghijklmnopqrstuvwxyz0123456789+/".
Definition base64_text (t : list ascii) (padding : nat) : Prop :=
  exists body, t = body ++ repeat "="%char padding /\ Forall (fun c => In c base64_alphabet) body /\
    (padding <= 2)%nat /\ exists q, length t = (4 * q)%nat.
Definition line_break (c : ascii) : Prop := In (N_of_ascii c) [10; 13]%N.
(** [t] is [s] without its line breaks. *)
Inductive unbroken : list ascii -> list ascii -> Prop :=
| UB_nil : unbroken [] []
| UB_skip c s t : line_break c -> unbroken s t -> unbroken (c :: s) t
| UB_keep c s t : ~ line_break c -> unbroken s t -> unbroken (c :: s) (c :: t).
