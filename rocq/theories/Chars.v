(** Characters.  A Rust [char] is modelled by its Unicode scalar value, an [N].
    All theorems quantify over all of [N], a superset of the scalar values. *)
From Coq Require Export List NArith Arith Bool Lia.
From Coq Require Import String Ascii.
Export ListNotations.

Definition char := N.

(** String literals, for constants and examples only. *)
Fixpoint str (s : string) : list char :=
  match s with
  | EmptyString => []
  | String a s' => N_of_ascii a :: str s'
  end.

(** core::char::is_ascii_whitespace (Rust std): U+0020, U+0009, U+000A, U+000C, U+000D. *)
Definition is_ascii_whitespace (c : char) : bool :=
  (N.eqb c 32 || N.eqb c 9 || N.eqb c 10 || N.eqb c 12 || N.eqb c 13)%bool.

(** The patterns 'A'..='Z' and 'a'..='z'. *)
Definition is_ascii_uppercase (c : char) : bool := (N.leb 65 c && N.leb c 90)%bool.
Definition is_ascii_lowercase (c : char) : bool := (N.leb 97 c && N.leb c 122)%bool.
Definition is_ascii_alphabetic (c : char) : bool :=
  (is_ascii_lowercase c || is_ascii_uppercase c)%bool.

(** core::char::to_ascii_lowercase / to_ascii_uppercase (Rust std). *)
Definition to_ascii_lowercase (c : char) : char :=
  if is_ascii_uppercase c then (c + 32)%N else c.
Definition to_ascii_uppercase (c : char) : char :=
  if is_ascii_lowercase c then (c - 32)%N else c.

(** core::char::is_ascii_digit, is_ascii_alphanumeric, is_ascii_control,
    is_ascii_punctuation (Rust std). *)
Definition is_ascii_digit (c : char) : bool := (N.leb 48 c && N.leb c 57)%bool.
Definition is_ascii_alphanumeric (c : char) : bool :=
  (is_ascii_alphabetic c || is_ascii_digit c)%bool.
Definition is_ascii_control (c : char) : bool := (N.leb c 31 || N.eqb c 127)%bool.
Definition is_ascii_punctuation (c : char) : bool :=
  ((N.leb 33 c && N.leb c 47) || (N.leb 58 c && N.leb c 64)
   || (N.leb 91 c && N.leb c 96) || (N.leb 123 c && N.leb c 126))%bool.

(** src/parser.rs 23-33: character constants. *)
Definition TAG_BEGIN_CHAR : char := 60%N.      (* '<' *)
Definition TAG_END_CHAR : char := 62%N.        (* '>' *)
Definition WS_CHAR : char := 32%N.             (* ' ' *)
Definition END_SLASH_CHAR : char := 47%N.      (* '/' *)
Definition EQUAL_CHAR : char := 61%N.          (* '=' *)
Definition DOUBLE_QUOTE_CHAR : char := 34%N.   (* double quote *)
Definition SINGLE_QUOTE_CHAR : char := 39%N.   (* single quote *)
Definition EOF_CHAR : char := 0%N.             (* '\0' *)
Definition DASH_CHAR : char := 45%N.           (* '-' *)
Definition LEFT_BRACKET_CHAR : char := 91%N.   (* '[' *)
Definition RIGHT_BRACKET_CHAR : char := 93%N.  (* ']' *)
(** Literals used inline in the code. *)
Definition EXCLAM_CHAR : char := 33%N.         (* '!' *)
Definition AMP_CHAR : char := 38%N.            (* '&' *)
Definition SEMI_CHAR : char := 59%N.           (* ';' *)
Definition BACKTICK_CHAR : char := 96%N.       (* '`' *)
Definition CR_CHAR : char := 13%N.             (* '\r' *)
Definition LF_CHAR : char := 10%N.             (* '\n' *)

(** Equality of character strings ([Vec<char>] / [String] [==]). *)
Fixpoint chars_eqb (a b : list char) : bool :=
  match a, b with
  | [], [] => true
  | x :: a', y :: b' => (N.eqb x y && chars_eqb a' b')%bool
  | _, _ => false
  end.
