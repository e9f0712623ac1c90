(** Specification of how parse options compare. *)
From Coq Require Import String.
From Verif Require Import Api SpecText SpecParse SpecMisc SpecDoc.
Local Open Scope string_scope.
Local Open Scope list_scope.

Definition implied (a b : bool) : Prop := a = true -> b = true.
(** [o'] accepts more than [o]: permissive options may be switched on and case sensitivity off.
    If unmatched end tags are dropped already, [auto_fix_unclosed_tag] stays as it is, because it
    also decides whether text after a dropped end tag is joined to the text before. *)
Definition more_permissive (o o' : parse_options) : Prop :=
  implied (allow_attr_key_starts_with_equal_sign o) (allow_attr_key_starts_with_equal_sign o') /\
  implied (allow_self_closing o) (allow_self_closing o') /\
  implied (auto_fix_unclosed_tag o) (auto_fix_unclosed_tag o') /\
  implied (auto_fix_unexpected_endtag o) (auto_fix_unexpected_endtag o') /\
  implied (auto_fix_unescaped_lt o) (auto_fix_unescaped_lt o') /\
  implied (case_sensitive_tagname o') (case_sensitive_tagname o) /\
  (auto_fix_unexpected_endtag o = true -> auto_fix_unclosed_tag o' = auto_fix_unclosed_tag o).
(** Names of raw text elements are in lower case wherever they follow '<' or '</'. *)
Definition lower_raw_names (s : list char) : Prop := forall a x b,
  s = a ++ str "<" ++ x ++ b \/ s = a ++ str "</" ++ x ++ b -> raw_name x = true -> In x raw_text_names.

(** Same nodes with the same links, contents, attributes and positions, except for the [prev]
    link, which the parser sets on end tags as an aid for dropping them. *)
Definition same_doc (d d' : doc) : Prop :=
  map (nset_prev None) (d_heap d') = map (nset_prev None) (d_heap d) /\ d_root d' = d_root d /\
  d_id_tags d' = d_id_tags d /\ doc_tree d' = doc_tree d.

(** ** Where nodes come from *)
(** The node made for a token. *)
Definition token_node (k : token) (x : node) : Prop :=
  match k with
  | KComment c => n_type x = NComment /\ n_content x = Some c /\ n_meta x = None
  | KCData c => n_type x = NXMLCDATA /\ n_content x = Some c /\ n_meta x = None
  | KDoctype n l => n_type x = NHTMLDOCTYPE /\ n_content x = None /\
      exists m, n_meta x = Some m /\ m_name m = n /\ m_attrs m = l /\ m_self_closed m = false
  | KLeaf n l sc => n_type x = NTag /\ n_content x = None /\
      exists m, n_meta x = Some m /\ meta_is n l sc (void_name n) m
  | KOpen n l => n_type x = NTag /\ n_content x = None /\
      exists m, n_meta x = Some m /\ meta_is n l false false m
  | KRaw n l c _ => n_type x = NTag /\ n_content x = Some c /\
      exists m, n_meta x = Some m /\ meta_is n l false false m
  | KText _ | KClose _ => False
  end.
(** The node [x] was written as a whole token at its place in [s]. *)
Definition token_at (opts : parse_options) (s : list char) (x : node) : Prop :=
  exists s1 k t s2, s = s1 ++ t ++ s2 /\ n_begin_at x = length s1 /\ written opts k t /\ token_node k x.
(** The node [x] is a start tag cut off by the end of [s]. *)
Definition cut_off (s : list char) (x : node) : Prop :=
  n_type x = NTag /\ n_content x = None /\
  exists s1 n a, s = s1 ++ str "<" ++ n ++ a /\ n_begin_at x = length s1 /\ open_name n /\
    starts_with slash_filler a /\ forall m, n_meta x = Some m -> m_name m = n.
(** The node [x] is a doctype with a self-closing '/'. *)
Definition slashed_at (opts : parse_options) (s : list char) (x : node) : Prop :=
  n_type x = NHTMLDOCTYPE /\
  exists s1 n b a l s2, s = s1 ++ str "<!" ++ n ++ [b] ++ a ++ str ">" ++ s2 /\ n_begin_at x = length s1 /\
    same_name n (str "doctype") = true /\ is_ws b /\
    area (allow_attr_key_starts_with_equal_sign opts) true a l true /\
    exists m, n_meta x = Some m /\ m_name m = n /\ m_attrs m = l /\ m_self_closed m = true.
