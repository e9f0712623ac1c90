(** Specification of rendered documents: the tokens shown under given render options. *)
From Coq Require Import String.
From Verif Require Import Api SpecText SpecRender SpecParse SpecMisc SpecDoc.
Local Open Scope string_scope.
Local Open Scope list_scope.

Definition pre_name (n : list char) : bool := same_name n (str "pre").
Definition plain_text_name (n : list char) : bool := (same_name n (str "title") || same_name n (str "textarea"))%bool.

(** ** Texts with entities *)
(** A character, an entity "&e;", or an '&' that no ';' follows. *)
Inductive part := Plain (c : char) | Ref (e : list char) | Cut (e : list char).
Inductive in_parts : list char -> list part -> Prop :=
  | in_nil : in_parts [] []
  | in_plain : forall c s l, c <> 38%N -> in_parts s l -> in_parts (c :: s) (Plain c :: l)
  | in_ref : forall e s l, ~ In 59%N e -> in_parts s l -> in_parts (str "&" ++ e ++ str ";" ++ s) (Ref e :: l)
  | in_cut : forall e, ~ In 59%N e -> in_parts (str "&" ++ e) [Cut e].
Fixpoint parts (s : list char) (opened : option (list char)) : list part :=
  match s, opened with
  | [], None => []
  | [], Some e => [Cut e]
  | c :: s', None => if N.eqb c 38 then parts s' (Some []) else Plain c :: parts s' None
  | c :: s', Some e => if N.eqb c 59 then Ref e :: parts s' None else parts s' (Some (e ++ [c]))
  end.
(** Entities decoded; a space is dropped if the last character outside of entities was one. *)
Fixpoint squeeze (env : entity_env) (space : bool) (l : list part) : list char :=
  match l with
  | [] => []
  | Plain c :: r =>
      if is_ascii_whitespace c then (if space then [] else [c]) ++ squeeze env true r else c :: squeeze env false r
  | Ref e :: r => (match ent_decode env e with Some d => [d] | None => str "&" ++ e ++ str ";" end) ++ squeeze env space r
  | Cut e :: r => str "&" ++ e ++ squeeze env space r
  end.

(** ** What the options do to the parts of a document *)
Definition shown_name (o : render_options) (n : list char) : list char :=
  if lowercase_tagname o then ascii_lower n else n.
Definition shown_end (o : render_options) (e : list char) : list char :=
  shown_name o (if remove_endtag_space o then trim_right e else e).
Definition drop_quotes (a : attr) : attr := mkAttr (a_key a) (a_value a) None false.
Definition shown_attrs (o : render_options) (l : list attr) : list attr :=
  if remove_attr_quote o then map drop_quotes l else l.
Definition shown_raw (env : entity_env) (o : render_options) (n c : list char) : list char :=
  if (encode_content o && plain_text_name n)%bool then encoded env c else c.
(** If spaces are minified, except in pre: blank text between tags is dropped, other text squeezed.
    Entities of text that is not blank are decoded if wanted. *)
Definition shown_text (env : entity_env) (o : render_options) (in_pre : bool) (c : list char) (blank : bool) : list token :=
  if (minify_spaces o && negb in_pre)%bool then
    if blank then [] else [KText (if decode_entity o then squeeze env false (parts c None) else collapse c)]
  else [KText (if (decode_entity o && negb blank)%bool then ent_decode_to env c else c)].
Fixpoint shown (env : entity_env) (o : render_options) (in_pre : bool) (x : item) : list token :=
  match x with
  | XText c b => shown_text env o in_pre c b
  | XComment c => if remove_comment o then [] else [KComment c]
  | XCData c => [KCData c]
  | XDoctype n l => [KDoctype n (shown_attrs o l)]
  | XLeaf n l sc => [KLeaf (shown_name o n) (shown_attrs o l) sc]
  | XRaw n l c e => [KRaw (shown_name o n) (shown_attrs o l) (shown_raw env o n c) (shown_end o e)]
  | XElem n l ks e =>
      KOpen (shown_name o n) (shown_attrs o l)
      :: flat_map (shown env o (in_pre || pre_name n)) ks ++ [KClose (shown_end o e)]
  end.
(** Texts that have come to stand side by side are one text. *)
Fixpoint merge (ks : list token) : list token :=
  match ks with
  | [] => []
  | KText c :: r => match merge r with KText c' :: r' => KText (c ++ c') :: r' | r' => KText c :: r' end
  | k :: r => k :: merge r
  end.

(** ** When the rendering can be read again *)
(** Without quotes a value must be an unquoted value; values without a key cannot be read. *)
Definition quotes_spare (a : attr) : Prop :=
  match a_quote a, a_key a, a_value a with
  | Some _, Some _, Some v => attr_val v
  | Some _, None, _ => False
  | _, _, _ => True
  end.
(** The quotes of the item can be left out; a doctype has an attribute. *)
Definition item_spare (x : item) : Prop :=
  match x with
  | XText _ _ | XComment _ | XCData _ => True
  | XDoctype _ l => l <> [] /\ Forall quotes_spare l
  | XLeaf _ l _ | XRaw _ l _ _ | XElem _ l _ _ => Forall quotes_spare l
  end.
(** The item by itself (not its children). *)
Definition item_readable (cs : bool) (env : entity_env) (o : render_options) (x : item) : Prop :=
  match x with
  | XText _ _ | XComment _ | XCData _ => True
  | XDoctype _ l => l <> [] /\ (remove_attr_quote o = true -> Forall quotes_spare l)
  | XLeaf _ l _ => remove_attr_quote o = true -> Forall quotes_spare l
  | XRaw n l c e =>
      (remove_attr_quote o = true -> Forall quotes_spare l) /\
      (encode_content o = true -> plain_text_name n = true -> ~ In 60%N (encoded env c)) /\
      (lowercase_tagname o = true -> cs = true -> ascii_lower n = n)
  | XElem n l _ e =>
      (remove_attr_quote o = true -> Forall quotes_spare l) /\
      (lowercase_tagname o = true -> special_elem n = true -> ascii_lower n = n /\ ascii_lower e = e)
  end.
(** The item and everything in it. *)
Fixpoint within (x : item) : list item :=
  x :: match x with XElem _ _ ks _ => flat_map within ks | _ => [] end.
(** No pre element in a pre element, and none without an end tag. *)
Fixpoint plain_pre (in_pre : bool) (x : item) : Prop :=
  match x with
  | XLeaf n _ _ | XRaw n _ _ _ => pre_name n = false
  | XElem n _ ks _ =>
      (pre_name n = true -> in_pre = false) /\
      (fix all (l : list item) : Prop := match l with [] => True | k :: r => plain_pre (in_pre || pre_name n) k /\ all r end) ks
  | _ => True
  end.
Definition readable (opts : parse_options) (env : entity_env) (o : render_options) (f : list item) : Prop :=
  inner_html o = false /\
  (minify_spaces o = true -> Forall (plain_pre false) f) /\
  (decode_entity o = true -> forall c, In (KText c) (flat_map (shown env o false) f) -> c <> [] /\ ~ In 60%N c) /\
  Forall (item_readable (case_sensitive_tagname opts) env o) (flat_map within f).

(** ** Dropping quotes only *)
Definition unquoting : render_options := with_remove_attr_quote true default_ro.
Definition unquote_token (k : token) : token :=
  match k with
  | KDoctype n l => KDoctype n (map drop_quotes l)
  | KLeaf n l sc => KLeaf n (map drop_quotes l) sc
  | KRaw n l c e => KRaw n (map drop_quotes l) c e
  | KOpen n l => KOpen n (map drop_quotes l)
  | k => k
  end.
