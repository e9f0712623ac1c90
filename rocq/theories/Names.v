(** Name tests and small helpers: src/parser.rs 97-266 and src/util.rs. *)
From Coq Require Import String.
From Verif Require Export Types.
Local Open Scope string_scope.
Local Open Scope list_scope.

(** src/parser.rs 37-42. *)
Definition HTML_TAG_NAME := str "html".
Definition PRE_TAG_NAME := str "pre".
Definition SCRIPT_TAG_NAME := str "script".
Definition STYLE_TAG_NAME := str "style".
Definition TITLE_TAG_NAME := str "title".
Definition TEXTAREA_TAG_NAME := str "textarea".

(** src/parser.rs 149-154 and 45-63: DETECT_CHAR_MAP, as a function on DetectChar. *)
Inductive detect_char := DComment | DDOCTYPE | DXMLCDATA.
Definition detect_char_map (d : detect_char) : list char :=
  match d with
  | DComment => [DASH_CHAR; DASH_CHAR]
  | DDOCTYPE => str "DOCTYPE"
  | DXMLCDATA => str "[CDATA["
  end.

(** src/parser.rs 64-79. *)
Definition VOID_ELEMENTS : list (list char) :=
  map str ["img"; "input"; "meta"; "link"; "br"; "hr"; "col"; "base"; "param";
           "source"; "area"; "embed"; "track"; "wbr"].

(** src/parser.rs 80-86: SPECIAL_TAG_MAP.get. *)
Definition special_tag_map (name : list char) : option special_tag :=
  if chars_eqb name (str "svg") then Some Svg
  else if chars_eqb name (str "math") then Some MathML
  else None.

(** src/parser.rs 87-94. *)
Definition MUST_QUOTE_ATTR_CHARS : list char :=
  [DOUBLE_QUOTE_CHAR; SINGLE_QUOTE_CHAR; TAG_BEGIN_CHAR; TAG_END_CHAR; EQUAL_CHAR; BACKTICK_CHAR].

(** src/parser.rs 215-234: is_equal_chars. The length test followed by an index loop is
    a simultaneous recursion on both lists. *)
Definition eq_char_case (case : option name_case) (a b : char) : bool :=
  match case with
  | Some Lower => (N.eqb a b || N.eqb (to_ascii_lowercase a) b)%bool
  | Some Upper => (N.eqb a b || N.eqb (to_ascii_uppercase a) b)%bool
  | None => N.eqb a b
  end.
Fixpoint is_equal_chars (target cmp : list char) (case : option name_case) : bool :=
  match target, cmp with
  | [], [] => true
  | a :: t, b :: c => (eq_char_case case a b && is_equal_chars t c case)%bool
  | _, _ => false
  end.

(** src/parser.rs 236-266: is_equal_chars_ignore_case, returning (is_equal, is_total_same). *)
Fixpoint eq_ignore_case_loop (target cmp : list char) (same : bool) : bool * bool :=
  match target, cmp with
  | ch :: t, cmp_ch :: c =>
      if N.eqb cmp_ch ch then eq_ignore_case_loop t c same
      else if is_ascii_lowercase cmp_ch then
        if N.eqb (to_ascii_uppercase cmp_ch) ch then eq_ignore_case_loop t c false
        else (false, false)
      else if is_ascii_uppercase cmp_ch then
        if N.eqb (to_ascii_lowercase cmp_ch) ch then eq_ignore_case_loop t c false
        else (false, false)
      else (false, false)
  | _, _ => (true, same)
  end.
Definition is_equal_chars_ignore_case (target cmp : list char) : bool * bool :=
  if Nat.eqb (length target) (length cmp) then eq_ignore_case_loop target cmp true
  else (false, false).

(** src/parser.rs 108-115. *)
Definition is_void_tag (name : list char) : bool :=
  existsb (fun cur => is_equal_chars cur name None) VOID_ELEMENTS.

(** src/parser.rs 117-119. *)
Definition is_plain_text_tag (name : list char) (case : option name_case) : bool :=
  (is_equal_chars name TEXTAREA_TAG_NAME case || is_equal_chars name TITLE_TAG_NAME case)%bool.

(** src/parser.rs 121-123. *)
Definition is_script_or_style (name : list char) (case : option name_case) : bool :=
  (is_equal_chars name STYLE_TAG_NAME case || is_equal_chars name SCRIPT_TAG_NAME case)%bool.

(** src/parser.rs 125-127. *)
Definition is_content_tag (name : list char) (case : option name_case) : bool :=
  (is_script_or_style name case || is_plain_text_tag name case)%bool.

(** [name.iter().map(|ch| ch.to_ascii_lowercase()).collect()] *)
Definition lower (s : list char) : list char := map to_ascii_lowercase s.

(** src/parser.rs 129-147. *)
Definition allow_insert (name : list char) (t : node_type) : bool :=
  let lc_name := lower name in
  if is_void_tag lc_name then false
  else if is_plain_text_tag name None then
    (node_type_eqb t NText || node_type_eqb t NSpacesBetweenTag)%bool
  else if node_type_eqb t NXMLCDATA then
    match special_tag_map lc_name with Some _ => true | None => false end
  else true.

(** src/parser.rs 203-212: chars_trim_end (drop trailing ASCII whitespace). *)
Fixpoint drop_ws (l : list char) : list char :=
  match l with
  | c :: l' => if is_ascii_whitespace c then drop_ws l' else l
  | [] => []
  end.
Definition chars_trim_end (target : list char) : list char := rev (drop_ws (rev target)).

(** src/parser.rs 313-315: Attr::need_quoted_char. *)
Definition need_quoted_char (ch : char) : bool :=
  (is_ascii_whitespace ch || existsb (N.eqb ch) MUST_QUOTE_ATTR_CHARS)%bool.

(** src/util.rs 5-45. The alternatives are U+FDD0..=U+FDEF and U+xFFFE, U+xFFFF for
    every plane x from 0 to 0x10, listed one by one. *)
Definition NON_CHARACTER_ENDS : list N :=
  [ 65534; 65535; 131070; 131071; 196606; 196607; 262142; 262143; 327678; 327679;
    393214; 393215; 458750; 458751; 524286; 524287; 589822; 589823; 655358; 655359;
    720894; 720895; 786430; 786431; 851966; 851967; 917502; 917503; 983038; 983039;
    1048574; 1048575; 1114110; 1114111 ]%N.
Definition is_non_character (ch : char) : bool :=
  ((N.leb 64976 ch && N.leb ch 65007) || existsb (N.eqb ch) NON_CHARACTER_ENDS)%bool.

(** src/util.rs 52-65. *)
Definition is_char_available_in_key (ch : char) : bool :=
  if (is_ascii_alphanumeric ch || existsb (N.eqb ch) (str "_-.:"))%bool then true
  else if (is_ascii_whitespace ch || is_ascii_control ch || is_non_character ch
           || is_ascii_punctuation ch || N.eqb ch 0)%bool then false
  else true.

(** src/util.rs 67-72. *)
Definition is_char_available_in_value (ch : char) : bool :=
  if is_ascii_whitespace ch then false
  else negb (existsb (N.eqb ch)
    [0%N; DOUBLE_QUOTE_CHAR; SINGLE_QUOTE_CHAR; TAG_BEGIN_CHAR; TAG_END_CHAR;
     END_SLASH_CHAR; EQUAL_CHAR; BACKTICK_CHAR]).
