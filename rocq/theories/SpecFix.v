(** Specification of the repairs of broken input. *)
From Coq Require Import String.
From Verif Require Import Api SpecText SpecRender SpecParse SpecMisc SpecDoc.
Local Open Scope string_scope.
Local Open Scope list_scope.

(** ** Elements without an end tag *)
(** The end tags with these names. *)
Definition closers (names : list (list char)) : list char :=
  flat_map (fun n => str "</" ++ n ++ str ">") names.

(** The names of the elements closed by the parser, in the order of their start tags. *)
Definition fixed_name (x : node) : list (list char) :=
  match n_meta x with
  | Some m => if m_auto_fix m then [m_name m] else []
  | None => []
  end.
Definition fixed_names (d : doc) : list (list char) := flat_map fixed_name (d_heap d).

(** The input ends inside a start tag: an element starts at the last '<' that is not part of a
    complete tag, and no '>' after its name closes it. *)
Definition cut_short (opts : parse_options) (s : list char) (d : doc) : Prop :=
  exists i s1 n a, n_type (hget (d_heap d) i) = NTag /\ n_begin_at (hget (d_heap d) i) = length s1 /\
    s = s1 ++ str "<" ++ n ++ a /\ open_name n /\ starts_with slash_filler a /\
    forall a1 a2 l sc, a = a1 ++ str ">" ++ a2 ->
      ~ area (allow_attr_key_starts_with_equal_sign opts) false a1 l sc.

(** Trees with the same nodes, where text may be marked as blank in one and not in the other, and
    elements may be marked as closed by the parser. *)
Definition text_type (t : node_type) : Prop := t = NText \/ t = NSpacesBetweenTag.
Definition type_alike (t t' : node_type) : Prop := t = t' \/ (text_type t /\ text_type t').
Definition meta_alike (m m' : option tag_meta) : Prop :=
  option_map (mset_auto_fix false) m = option_map (mset_auto_fix false) m'.
Definition end_alike (e e' : option tree) : Prop :=
  match e, e' with
  | None, None => True
  | Some t, Some t' => t_type t = NTagEnd /\ t_type t' = NTagEnd /\ t_content t = t_content t'
  | _, _ => False
  end.
Inductive alike : tree -> tree -> Prop :=
  | alike_leaf : forall i ty ty' b e e' et et' c m m', type_alike ty ty' -> ty = NAbstractRoot \/ e = e' ->
      end_alike et et' -> meta_alike m m' ->
      alike (TNode i ty b e et c None m) (TNode i ty' b e' et' c None m')
  | alike_node : forall i ty ty' b e e' et et' c ks ks' m m', type_alike ty ty' -> ty = NAbstractRoot \/ e = e' ->
      end_alike et et' -> meta_alike m m' -> Forall2 alike ks ks' ->
      alike (TNode i ty b e et c (Some ks) m) (TNode i ty' b e' et' c (Some ks') m').

(** Entity decoding leaves blanks alone. *)
Definition keeps_blanks (env : entity_env) : Prop := forall c, Forall is_ws c -> ent_decode_to env c = c.
(** The options that show whether the parser closed an element, or how it marked blank text. *)
Definition plain_render (env : entity_env) (o : render_options) : Prop :=
  minify_spaces o = false /\ always_close_void o = false /\ (decode_entity o = true -> keeps_blanks env).

(** The same options with elements that lack an end tag as errors. *)
Definition strict_ends (o : parse_options) : parse_options :=
  mkPO (case_sensitive_tagname o) (allow_attr_key_starts_with_equal_sign o) (allow_self_closing o) false
    (auto_fix_unexpected_endtag o) (auto_fix_unescaped_lt o).
