(** How much the parser does: the characters that each function of src/parser.rs pushes, moves,
    copies, compares or hashes, one unit each, and the references moved when a vector of nodes is
    cut.  One function [w_f] per function [f] of Parser.v, with the same case distinctions.

    Not counted: the steps of straight-line code (a constant per call), the growth of vectors
    (amortised over the pushes), the collisions of the hash maps, and the allocator. *)
From Coq Require Import String.
From Verif Require Export Api ErrorText.
Local Open Scope string_scope.
Local Open Scope list_scope.

(** 215-234: is_equal_chars compares only strings of equal length, up to the first difference. *)
Fixpoint w_equal_loop (target cmp : list char) (case : option name_case) : nat :=
  match target, cmp with
  | a :: t, b :: c => S (if eq_char_case case a b then w_equal_loop t c case else 0)
  | _, _ => 0
  end.
Definition w_equal (target cmp : list char) (case : option name_case) : nat :=
  if Nat.eqb (length target) (length cmp) then w_equal_loop target cmp case else 0.

(** 236-266: is_equal_chars_ignore_case. *)
Fixpoint w_ignore_case_loop (target cmp : list char) : nat :=
  match target, cmp with
  | ch :: t, cmp_ch :: c =>
      S (if N.eqb cmp_ch ch then w_ignore_case_loop t c
         else if is_ascii_lowercase cmp_ch then
           if N.eqb (to_ascii_uppercase cmp_ch) ch then w_ignore_case_loop t c else 0
         else if is_ascii_uppercase cmp_ch then
           if N.eqb (to_ascii_lowercase cmp_ch) ch then w_ignore_case_loop t c else 0
         else 0)
  | _, _ => 0
  end.
Definition w_ignore_case (target cmp : list char) : nat :=
  if Nat.eqb (length target) (length cmp) then w_ignore_case_loop target cmp else 0.

(** 108-115: is_void_tag tries the names in turn. *)
Fixpoint w_first (names : list (list char)) (name : list char) : nat :=
  match names with
  | [] => 0
  | n :: rest => w_equal n name None + (if is_equal_chars n name None then 0 else w_first rest name)
  end.
Definition w_void (name : list char) : nat := w_first VOID_ELEMENTS name.
(** 117-127: is_content_tag. *)
Definition w_content (name : list char) : nat :=
  w_first [STYLE_TAG_NAME; SCRIPT_TAG_NAME; TEXTAREA_TAG_NAME; TITLE_TAG_NAME] name.

(** 203-212 and 1421-1430: trailing blanks, and the character that ends the loop. *)
Definition w_trim (target : list char) : nat :=
  (length target - length (chars_trim_end target))
  + match chars_trim_end target with [] => 0 | _ => 1 end.

(** 1815-1819: clean_chars_to_vec. *)
Definition w_clean (st : doc) : nat := length (d_prev_chars st).

(** 2078-2094: set_tag_meta: clean, lowercase, is_void_tag. *)
Definition w_set_tag_meta (st : doc) : nat :=
  w_clean st + length (d_prev_chars st) + w_void (lower (d_prev_chars st)).

(** 2127-2142: set_tag_attr_key: clean; lowercase; hash and compare for the map entry. *)
Definition w_set_tag_attr_key (st : doc) : nat :=
  w_clean st
  + match n_meta (cur st) with
    | Some _ => 3 * length (d_prev_chars st)
    | None => 0
    end.

(** 2155-2170: set_tag_attr_value: clean; is it an id?; if so, copy, hash and compare. *)
Definition w_set_tag_attr_value (quote : option char) (st : doc) : nat :=
  w_clean st
  + match n_meta (cur st) with
    | None => 0
    | Some m =>
        match last_opt (m_attrs m) with
        | None => 0
        | Some a =>
            let a' := mkAttr (a_key a) (Some (d_prev_chars st)) quote (a_need_quote a) in
            match a_key a' with Some key => w_equal key (str "id") (Some Lower) | None => 0 end
            + match check_if_id a' with Some id => 3 * length id | None => 0 end
        end
    end.

(** 2173-2232: check_tag_type_do: lowercase; the four names; then either which of them and the
    text to wait for, or hash, compare and copy. *)
Definition w_check_tag_type_do (st : doc) : nat :=
  match n_meta (cur st) with
  | None => 0
  | Some m =>
      let lc_tag_name := lower (m_name m) in
      length (m_name m) + w_content lc_tag_name
      + if is_content_tag lc_tag_name None then
          w_first [SCRIPT_TAG_NAME; STYLE_TAG_NAME] lc_tag_name + (2 + length (m_name m))
        else
          match d_in_special st with
          | None =>
              2 * length lc_tag_name
              + match special_tag_map lc_tag_name with Some _ => length (m_name m) | None => 0 end
          | Some _ => 0
          end
  end.

(** 966-1003: parse_wait: the text before a dropped end tag is moved back. *)
Definition w_parse_wait (st : doc) (c : char) : nat :=
  if N.eqb c TAG_BEGIN_CHAR then 0
  else
    let t := n_type (cur st) in
    1 + if (auto_fix_unexpected_endtag (d_parse_options st)
            && (node_type_eqb t NText || node_type_eqb t NSpacesBetweenTag))%bool
        then match n_content (cur st) with Some content => length content | None => 0 end
        else 0.

(** 1008-1033: parse_text. *)
Definition w_parse_text (st : doc) (c : char) : nat :=
  if N.eqb c TAG_BEGIN_CHAR then w_clean st else 1.

(** 1038-1046: parse_doctype_name. *)
Definition w_parse_doctype_name (st : doc) (c : char) : nat :=
  if is_ascii_whitespace c then w_set_tag_meta st else 0.

(** 1052-1088: parse_tag_name. *)
Definition w_parse_tag_name (st : doc) (c : char) : nat :=
  if N.eqb c TAG_END_CHAR then
    w_set_tag_meta st
    + let '(is_void, st) := set_tag_meta st in
      if is_void then 0 else w_check_tag_type_do st
  else if N.eqb c END_SLASH_CHAR then w_set_tag_meta st
  else if is_ascii_whitespace c then w_set_tag_meta st
  else 1.

(** 1133-1234: parse_tag_wait. *)
Definition w_parse_tag_wait (st : doc) (c : char) : nat :=
  if N.eqb c TAG_END_CHAR then
    match n_meta (cur st) with
    | None => 0
    | Some m => if m_is_void m then 0 else w_check_tag_type_do st
    end
  else 1.

(** 1094-1130: parse_tag_self_closing. *)
Definition w_parse_tag_self_closing (st : doc) (c : char) : nat :=
  if N.eqb c TAG_END_CHAR then 0
  else if N.eqb c END_SLASH_CHAR then 0
  else w_parse_tag_wait st c.

(** 1237-1276: parse_tag_attr_key. *)
Definition w_parse_tag_attr_key (st : doc) (c : char) : nat :=
  if N.eqb c EQUAL_CHAR then w_set_tag_attr_key st
  else if N.eqb c TAG_END_CHAR then
    w_set_tag_attr_key st
    + match set_tag_attr_key st with
      | ROk st => w_parse_tag_wait (set_tag_code_in TKeyEnd st) c
      | _ => 0
      end
  else if N.eqb c END_SLASH_CHAR then w_set_tag_attr_key st
  else if is_ascii_whitespace c then w_set_tag_attr_key st
  else 1.

(** 1279-1306: parse_tag_attr_value. *)
Definition w_parse_tag_attr_value (st : doc) (c : char) : nat :=
  let quote := d_mark_char st in
  if (N.eqb quote WS_CHAR && N.eqb c TAG_END_CHAR)%bool then
    w_set_tag_attr_value None st
    + match set_tag_attr_value None st with
      | ROk st => w_parse_tag_wait (set_tag_code_in TValueEnd st) c
      | _ => 0
      end
  else
    let '(is_end, attr_quote) :=
      if N.eqb quote WS_CHAR then (is_ascii_whitespace c, None)
      else (N.eqb c quote, Some quote) in
    if is_end then w_set_tag_attr_value attr_quote st else 1.

(** 1311-1402: parse_tagend: copy the name, cut its trailing blanks, compare it with the open
    element; if it fits, compare it with the svg or math element and move it. *)
Definition w_parse_tagend (st : doc) (c : char) : nat :=
  if N.eqb c TAG_END_CHAR then
    let name := chars_trim_end (d_prev_chars st) in
    length (d_prev_chars st) + w_trim (d_prev_chars st)
    + (if Nat.ltb 1 (length (d_chain_nodes st)) then
         match d_chain_nodes st with
         | [] => 0
         | tag :: _ =>
             match n_meta (get_node st tag) with
             | None => 0
             | Some m =>
                 w_ignore_case (m_name m) name
                 + if fst (is_equal_chars_ignore_case (m_name m) name) then
                     match d_in_special st with Some (_, n) => w_equal n name None | None => 0 end
                     + w_clean st
                   else 0
             end
         end
       else 0)
  else 1.

(** 1421-1464: the backward loops of parse_content_tag. *)
Fixpoint w_match_backward (case_sensitive : bool) (rdetect rprev : list char) : nat :=
  match rdetect, rprev with
  | d :: rd, p :: rp =>
      S (if content_char_match case_sensitive d p then w_match_backward case_sensitive rd rp else 0)
  | _, _ => 0
  end.

(** 1407-1490: parse_content_tag; on success the three [split_off] move the end tag, its name and
    the content. *)
Definition w_parse_content_tag (st : doc) (c : char) : nat :=
  if negb (N.eqb c TAG_END_CHAR) then 1
  else
    match d_detect st with
    | None => 0
    | Some end_tag =>
        let prev_chars := d_prev_chars st in
        let trimmed := chars_trim_end prev_chars in
        let cs := case_sensitive_tagname (d_parse_options st) in
        if Nat.leb (length end_tag) (length prev_chars) then
          w_trim prev_chars
          + if Nat.leb (length end_tag) (length trimmed) then
              w_match_backward cs (rev end_tag) (rev trimmed)
              + if match_backward cs (rev end_tag) (rev trimmed) then
                  let prev_len := length trimmed - length end_tag in
                  length (skipn prev_len prev_chars) + length (skipn 2 (skipn prev_len prev_chars))
                  + length (firstn prev_len prev_chars)
                else 1
            else 1
        else 1
    end.

(** 1495-1520: parse_comment_or_cdata. *)
Definition w_parse_comment_or_cdata (st : doc) (c : char) : nat :=
  let chars := d_prev_chars st in
  let total := length chars in
  if (N.eqb c TAG_END_CHAR && Nat.ltb 2 total
      && (N.eqb (nth (total - 1) chars EOF_CHAR) (d_mark_char st)
          && N.eqb (nth (total - 2) chars EOF_CHAR) (d_mark_char st)))%bool
  then total - 2
  else 1.

(** 1939-2014: fix_unescaped_lt: the text written so far is moved back and [&lt;] appended; after
    a second [<] it is moved away again by parse_text. *)
Definition w_fix_unescaped_lt (st : doc) (c : char) : nat :=
  let is_end_text := N.eqb c TAG_BEGIN_CHAR in
  let chars := 4 + (if is_end_text then 0 else 1) in
  match n_type (cur st) with
  | NText | NSpacesBetweenTag =>
      match n_content (cur st) with
      | Some content =>
          chars + length content + chars + (if is_end_text then length content + chars else 0)
      | None => chars + (if is_end_text then w_clean st else 0)
      end
  | _ => chars + (if is_end_text then chars else 0)
  end.

(** 1525-1574: parse_unkown_tag. *)
Definition w_parse_unkown_tag (st : doc) (c : char) : nat :=
  if is_ascii_alphabetic c then 1
  else if N.eqb c END_SLASH_CHAR then 0
  else if N.eqb c EXCLAM_CHAR then 0
  else if negb (auto_fix_unescaped_lt (d_parse_options st)) then 0
  else w_fix_unescaped_lt st c.

(** 1579-1692: parse_exclamation_begin. *)
Definition w_parse_exclamation_begin (st : doc) (c : char) : nat :=
  match d_detect st with
  | Some _ => 1
  | None =>
      if N.eqb c DASH_CHAR then 1 + length (detect_char_map DComment)
      else if (N.eqb c 68 || N.eqb c 100)%bool then 1 + length (detect_char_map DDOCTYPE)
      else if N.eqb c LEFT_BRACKET_CHAR then
        match d_in_special st with
        | Some (_, tag_name) =>
            match d_chain_nodes st with
            | [] => 0
            | top :: _ =>
                match n_meta (get_node st top) with
                | None => 0
                | Some m => w_equal tag_name (m_name m) None + (1 + length (detect_char_map DXMLCDATA))
                end
            end
        | None => 0
        end
      else 0
  end.

(** 1863-1869: next, through the function pointer. *)
Definition w_next (st : doc) (c : char) : nat :=
  match d_handle st with
  | HNoop => 0
  | HWait => w_parse_wait st c
  | HText => w_parse_text st c
  | HDoctypeName => w_parse_doctype_name st c
  | HTagName => w_parse_tag_name st c
  | HSelfClosing => w_parse_tag_self_closing st c
  | HTagWait => w_parse_tag_wait st c
  | HAttrKey => w_parse_tag_attr_key st c
  | HAttrValue => w_parse_tag_attr_value st c
  | HTagEnd => w_parse_tagend st c
  | HContent => w_parse_content_tag st c
  | HCommentOrCdata => w_parse_comment_or_cdata st c
  | HUnkownTag => w_parse_unkown_tag st c
  | HExclamation => w_parse_exclamation_begin st c
  end.

(** 97-106 and src/position.rs: the text of the error and one pass over the source. *)
Definition w_error (source : list char) (k : error_kind) : nat :=
  length (kind_text k) + length source.

(** 1774-1776: the loop over the characters, until an error; each character is read. *)
Fixpoint w_run (source : list char) (st : doc) (s : list char) : nat :=
  match s with
  | [] => 0
  | c :: s' =>
      1 + w_next st c
      + match next st c with
        | ROk st' => w_run source st' s'
        | RErr k _ => w_error source k
        | RPanic _ => 0
        end
  end.

(** 1920-1937: fix_unclosed_tag copies the name of each element. *)
Definition name_length (n : node) : nat :=
  match n_meta n with Some m => length (m_name m) | None => 0 end.
Definition w_fix_unclosed_tag (unclosed : list nid) (st : doc) : nat :=
  list_sum (map (fun i => name_length (get_node st i)) unclosed).

(** 2017-2072: eof: cutting the chain, closing, copying the last text. *)
Definition w_eof (source : list char) (st : doc) : nat :=
  (if Nat.ltb 1 (length (d_chain_nodes st)) then
     if negb (auto_fix_unclosed_tag (d_parse_options st)) then 0
     else
       let unclosed := skipn 1 (rev (d_chain_nodes st)) in
       length unclosed + w_fix_unclosed_tag unclosed st
   else 0)
  + match eof st with
    | ROk _ => match d_code_in st with CTextNode => length (d_prev_chars st) | _ => 0 end
    | RErr k _ => w_error source k
    | RPanic _ => 0
    end.

(** 1771-1779: Doc::parse. *)
Definition parse_work (opts : parse_options) (s : list char) : nat :=
  w_run s (doc_new opts) s
  + match run (doc_new opts) s with ROk st => w_eof s st | _ => 0 end.
