(** Specification vocabulary for the parser: shapes of input texts. *)
From Coq Require Import String.
From Verif Require Import Types SpecText.
Local Open Scope string_scope.
Local Open Scope list_scope.

(** [sub] occurs in [s]. *)
Definition occurs (sub s : list char) : Prop := exists a b, s = a ++ sub ++ b.

(** A tag name directly after '<': a letter, then anything but whitespace, '/' and '>'. *)
Definition name_char (c : char) : Prop := ~ is_ws c /\ c <> 47%N /\ c <> 62%N.
Definition open_name (n : list char) : Prop :=
  exists c n', n = c :: n' /\ is_ascii_alphabetic c = true /\ Forall name_char n'.

(** The text ends inside the name of an opening tag. *)
Definition ends_in_open_name (s : list char) : Prop :=
  exists a n, s = a ++ str "<" ++ n /\ open_name n.

(** The text contains `<!doctype .. / >`: a doctype closed with '/' (then only blanks and
    further slashes) before '>'. *)
Definition slash_filler (c : char) : Prop := is_ws c \/ c = 47%N.
Definition self_closed_doctype (s : list char) : Prop :=
  exists a d b w r, s = a ++ str "<!" ++ d ++ b ++ str "/" ++ w ++ str ">" ++ r /\
    same_name d (str "doctype") = true /\ Forall slash_filler w.

(** Names of the elements with foreign content. *)
Definition special_name (n : list char) : Prop :=
  same_name n (str "svg") = true \/ same_name n (str "math") = true.

(** The text contains an svg (math) start tag, later an end tag for it with another spelling of
    the name, and later `<![`. *)
Definition misspelt_special_end (s : list char) (r : list char) : Prop :=
  exists a n b n' w, s = a ++ str "<" ++ n ++ b ++ str "</" ++ n' ++ w ++ str ">" ++ r /\
    special_name n /\ same_name n n' = true /\ n <> n' /\ Forall is_ws w.
Definition cdata_after_misspelt_special (s : list char) : Prop :=
  exists r1 r2, misspelt_special_end s (r1 ++ str "<![" ++ r2).

(** The errors that can occur under given options. *)
Definition err_kind_ok (opts : parse_options) (k : error_kind) : Prop :=
  match k with
  | EWrongTag s =>
      s = [] \/ ((exists c, s = [c]) /\ auto_fix_unescaped_lt opts = false) \/
      (s = str "'=' is not a valid attribute name" /\ allow_attr_key_starts_with_equal_sign opts = false)
  | EWrongEndTag _ => auto_fix_unexpected_endtag opts = false
  | EUnclosedTag _ => auto_fix_unclosed_tag opts = false
  | EUnclosedCode c => c = CTag -> auto_fix_unclosed_tag opts = false
  | EWrongCaseSensitive _ => case_sensitive_tagname opts = true
  | EWrongSelfClosing _ => allow_self_closing opts = false
  | EWrongHtmlDoctype _ | EUnrecognizedTag _ _ | ECommonCdataSub | ECommonCdataOutside => True
  end.

