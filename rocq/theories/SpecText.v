(** Independent specifications on plain character strings: line/column, whitespace runs. *)
From Verif Require Import Chars.

(** Number of line breaks of a text: CR LF counts once, a lone CR or LF once each. *)
Fixpoint line_breaks (s : list char) : nat :=
  match s with
  | [] => 0
  | c :: r =>
      if N.eqb c 13 then
        S (match r with
           | d :: r' => if N.eqb d 10 then line_breaks r' else line_breaks r
           | [] => 0
           end)
      else if N.eqb c 10 then S (line_breaks r)
      else line_breaks r
  end.

Definition is_newline_char (c : char) : bool := (N.eqb c 13 || N.eqb c 10)%bool.

(** [last_line s l]: [l] is what follows the last line break character of [s]. *)
Definition last_line (s l : list char) : Prop :=
  Forall (fun c => is_newline_char c = false) l /\
  (s = l \/ exists p c, is_newline_char c = true /\ s = p ++ c :: l).

Definition is_ws (c : char) : Prop := is_ascii_whitespace c = true.
Definition not_ws (c : char) : Prop := is_ascii_whitespace c = false.

(** [collapsed s t]: [t] is [s] with every maximal run of ASCII whitespace replaced by
    the run's first character. *)
Inductive collapsed : list char -> list char -> Prop :=
  | coll_nil : collapsed [] []
  | coll_char : forall c s t, not_ws c -> collapsed s t -> collapsed (c :: s) (c :: t)
  | coll_run : forall c w s t,
      is_ws c -> Forall is_ws w ->
      (forall d s', s = d :: s' -> not_ws d) ->
      collapsed s t -> collapsed (c :: w ++ s) (c :: t).

(** The characters of a text that are not ASCII whitespace, in order. *)
Definition visible (s : list char) : list char :=
  filter (fun c => negb (is_ascii_whitespace c)) s.

(** The same by a filter: a whitespace character directly after another one is dropped. *)
Definition collapse (s : list char) : list char :=
  match s with
  | [] => []
  | c :: r =>
      c :: map snd (filter (fun p => negb (is_ascii_whitespace (fst p) && is_ascii_whitespace (snd p)))
                           (combine s r))
  end.

(** ASCII lower case, by code point. *)
Definition ascii_lower_char (c : char) : char :=
  if (N.leb 65 c && N.leb c 90)%bool then (c + 32)%N else c.
Definition ascii_lower (s : list char) : list char := map ascii_lower_char s.

(** Equality of names up to ASCII case. *)
Fixpoint same_name (a b : list char) : bool :=
  match a, b with
  | [], [] => true
  | x :: a', y :: b' => (N.eqb (ascii_lower_char x) (ascii_lower_char y) && same_name a' b')%bool
  | _, _ => false
  end.

(** Trailing whitespace removed. *)
Fixpoint trim_right (s : list char) : list char :=
  match s with
  | [] => []
  | c :: r =>
      match trim_right r with
      | [] => if is_ascii_whitespace c then [] else [c]
      | r' => c :: r'
      end
  end.
