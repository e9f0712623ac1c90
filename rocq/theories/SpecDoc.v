(** Specification of HTML documents as the library reads them: tokens written out as texts, their
    nesting, and the tree they stand for.  Nothing here refers to the parser model. *)
From Coq Require Import String.
From Verif Require Import Api SpecText SpecRender SpecParse SpecMisc.
Local Open Scope string_scope.
Local Open Scope list_scope.

(** ** Document content *)
Inductive item :=
  | XText (c : list char) (blank : bool)      (* [blank]: kept as "spaces between tags" *)
  | XComment (c : list char)
  | XCData (c : list char)
  | XDoctype (n : list char) (at_ : list attr)
  | XLeaf (n : list char) (at_ : list attr) (selfclosed : bool)
  | XRaw (n : list char) (at_ : list attr) (c : list char) (e : list char)
  | XElem (n : list char) (at_ : list attr) (ks : list item) (e : list char).

Inductive token :=
  | KText (c : list char)
  | KComment (c : list char)
  | KCData (c : list char)
  | KDoctype (n : list char) (at_ : list attr)
  | KLeaf (n : list char) (at_ : list attr) (selfclosed : bool)
  | KRaw (n : list char) (at_ : list attr) (c : list char) (e : list char)
  | KOpen (n : list char) (at_ : list attr)
  | KClose (e : list char).

Definition is_text (x : item) : bool := match x with XText _ _ => true | _ => false end.
Definition is_ktext (k : token) : bool := match k with KText _ => true | _ => false end.

(** The tokens of some content, in document order. *)
Fixpoint tokens (x : item) : list token :=
  match x with
  | XText c _ => [KText c]
  | XComment c => [KComment c]
  | XCData c => [KCData c]
  | XDoctype n a => [KDoctype n a]
  | XLeaf n a sc => [KLeaf n a sc]
  | XRaw n a c e => [KRaw n a c e]
  | XElem n a ks e => KOpen n a :: flat_map tokens ks ++ [KClose e]
  end.

(** ** Attributes as written in a start tag or doctype *)
Definition filler (w : list char) : Prop := Forall slash_filler w.
Definition has_slash (w : list char) : bool := existsb (N.eqb 47) w.
Definition quote_char (c : char) : Prop := c = 34%N \/ c = 39%N.
(** A key ends before '=', '/', '>' and blanks.  Its first character may be '=' only if allowed,
    and in a doctype it is not a quote. *)
Definition key_char (c : char) : Prop := not_ws c /\ c <> 61%N /\ c <> 47%N /\ c <> 62%N.
Definition attr_key (eq dt : bool) (k : list char) : Prop :=
  exists c k', k = c :: k' /\ Forall key_char k' /\
    (key_char c \/ (c = 61%N /\ eq = true)) /\ (dt = true -> ~ quote_char c).
(** An unquoted value ends before '>' and blanks and does not start with a quote or '/'. *)
Definition val_char (c : char) : Prop := not_ws c /\ c <> 62%N.
Definition attr_val (v : list char) : Prop :=
  exists c v', v = c :: v' /\ Forall val_char v /\ ~ quote_char c /\ c <> 47%N.
(** '=' after a key: directly, or after a blank and then blanks and slashes. *)
Definition equals_sign (e : list char) : Prop :=
  e = str "=" \/ exists c w, is_ws c /\ filler w /\ e = c :: w ++ str "=".
Definition bare (k : list char) : attr := mkAttr (Some k) None None false.
Definition unquoted (k v : list char) : attr := mkAttr (Some k) (Some v) None false.
Definition quoted (k v : list char) (q : char) : attr := mkAttr (Some k) (Some v) (Some q) false.
Definition keyless (v : list char) (q : char) : attr := mkAttr None (Some v) (Some q) false.

Definition starts_with (P : char -> Prop) (r : list char) : Prop :=
  match r with [] => True | c :: _ => P c end.
(** What follows a bare key: nothing, a '/', or a blank but then no '='. *)
Definition after_bare (r : list char) : Prop :=
  starts_with slash_filler r /\ forall e r', r = e ++ r' -> ~ equals_sign e.

(** [area eq dt s l sc]: the text [s] between the name and the final '>' of a tag (doctype if
    [dt]) consists of the attributes [l]; [sc]: it ends in a self-closing '/'. *)
Inductive area (eq dt : bool) : list char -> list attr -> bool -> Prop :=
  | ar_end : forall w, filler w -> area eq dt w [] (has_slash w)
  | ar_bare : forall w k r l sc, filler w -> attr_key eq dt k -> after_bare r ->
      area eq dt r l sc -> area eq dt (w ++ k ++ r) (bare k :: l) sc
  | ar_empty : forall w k e w2, filler w -> attr_key eq dt k -> equals_sign e -> filler w2 ->
      area eq dt (w ++ k ++ e ++ w2) [bare k] (has_slash w2)
  | ar_unquoted : forall w k e w2 v r l sc, filler w -> attr_key eq dt k -> equals_sign e -> filler w2 ->
      attr_val v -> starts_with is_ws r -> area eq dt r l sc ->
      area eq dt (w ++ k ++ e ++ w2 ++ v ++ r) (unquoted k v :: l) sc
  | ar_quoted : forall w k e w2 q v r l sc, filler w -> attr_key eq dt k -> equals_sign e -> filler w2 ->
      quote_char q -> ~ In q v -> area eq dt r l sc ->
      area eq dt (w ++ k ++ e ++ w2 ++ [q] ++ v ++ [q] ++ r) (quoted k v q :: l) sc
  | ar_keyless : forall w q v r l sc, filler w -> dt = true ->
      quote_char q -> ~ In q v -> area eq dt r l sc ->
      area eq dt (w ++ [q] ++ v ++ [q] ++ r) (keyless v q :: l) sc.

(** Attributes that can be written when keys do not start with '='. *)
Definition good_attr (dt : bool) (a : attr) : Prop :=
  (exists k, a = bare k /\ attr_key false dt k) \/
  (exists k v, a = unquoted k v /\ attr_key false dt k /\ attr_val v) \/
  (exists k v q, a = quoted k v q /\ attr_key false dt k /\ quote_char q /\ ~ In q v) \/
  (exists v q, a = keyless v q /\ dt = true /\ quote_char q /\ ~ In q v).

(** ** Tokens as written *)
Definition name_fits (cs : bool) (n n' : list char) : bool :=
  if cs then chars_eqb n n' else same_name n n'.
Definition void_name (n : list char) : bool := one_of void_names n.
Definition raw_name (n : list char) : bool := one_of raw_text_names n.
(** [p] ends in an end tag for [n] (without '>'). *)
Definition ends_in_end_tag (cs : bool) (n p : list char) : Prop :=
  exists body nm w, p = body ++ str "</" ++ nm ++ w /\ Forall is_ws w /\ name_fits cs n nm = true.
(** [p] ends in two [m] after at least one character. *)
Definition ends_in_two (m : char) (p : list char) : Prop := exists body, body <> [] /\ p = body ++ [m; m].
(** [b] has no proper prefix with [P] followed by '>'. *)
Definition first_end (P : list char -> Prop) (b : list char) : Prop :=
  P b /\ forall p q, b = p ++ 62%N :: q -> ~ P p.

Inductive written (opts : parse_options) : token -> list char -> Prop :=
  | w_text : forall c, c <> [] -> ~ In 60%N c -> written opts (KText c) c
  | w_comment : forall c, first_end (ends_in_two 45%N) (c ++ str "--") ->
      written opts (KComment c) (str "<!--" ++ c ++ str "-->")
  | w_cdata : forall kw c, same_name kw (str "[cdata[") = true ->
      first_end (ends_in_two 93%N) (c ++ str "]]") ->
      written opts (KCData c) (str "<!" ++ kw ++ c ++ str "]]>")
  | w_doctype : forall n b a l, same_name n (str "doctype") = true -> is_ws b ->
      area (allow_attr_key_starts_with_equal_sign opts) true a l false ->
      written opts (KDoctype n l) (str "<!" ++ n ++ [b] ++ a ++ str ">")
  | w_leaf : forall n a l sc, open_name n -> starts_with slash_filler a ->
      area (allow_attr_key_starts_with_equal_sign opts) false a l sc -> (sc = true \/ void_name n = true) ->
      written opts (KLeaf n l sc) (str "<" ++ n ++ a ++ str ">")
  | w_raw : forall n a l c e, open_name n -> starts_with slash_filler a ->
      area (allow_attr_key_starts_with_equal_sign opts) false a l false -> raw_name n = true ->
      name_fits (case_sensitive_tagname opts) n (trim_right e) = true ->
      first_end (ends_in_end_tag (case_sensitive_tagname opts) n) (c ++ str "</" ++ e) ->
      written opts (KRaw n l c e) (str "<" ++ n ++ a ++ str ">" ++ c ++ str "</" ++ e ++ str ">")
  | w_open : forall n a l, open_name n -> starts_with slash_filler a ->
      area (allow_attr_key_starts_with_equal_sign opts) false a l false ->
      void_name n = false -> raw_name n = false ->
      written opts (KOpen n l) (str "<" ++ n ++ a ++ str ">")
  | w_close : forall e, ~ In 62%N e -> written opts (KClose e) (str "</" ++ e ++ str ">").

(** A text written as a sequence of tokens; texts extend as far as possible. *)
Inductive source (opts : parse_options) : list token -> list char -> Prop :=
  | src_nil : source opts [] []
  | src_cons : forall k s ks r, written opts k s -> source opts ks r ->
      (is_ktext k = true -> match ks with k' :: _ => is_ktext k' = false | [] => True end) ->
      source opts (k :: ks) (s ++ r).

(** ** Nesting and foreign content *)
(** Names of the open elements (innermost first), and the svg or math element whose content is
    being read. *)
Record nesting := mkNest { open_names : list (list char); foreign : option (list char) }.
Definition special_elem (n : list char) : bool :=
  (same_name n (str "svg") || same_name n (str "math"))%bool.
Definition nest (opts : parse_options) (k : token) (s : nesting) : option nesting :=
  match k with
  | KText _ | KComment _ | KDoctype _ _ | KRaw _ _ _ _ => Some s
  | KCData _ =>
      (* inside an svg or math element, but not as a direct child of one of its own name *)
      match open_names s, foreign s with
      | n :: _, Some f => if chars_eqb n f then None else Some s
      | _, _ => None
      end
  | KLeaf n _ sc =>
      if (negb sc || allow_self_closing opts || void_name n
          || match foreign s with Some _ => true | None => false end)%bool then Some s else None
  | KOpen n _ =>
      Some (mkNest (n :: open_names s)
              (match foreign s with
               | Some f => Some f
               | None => if special_elem n then Some n else None
               end))
  | KClose e =>
      match open_names s with
      | n :: rest =>
          if name_fits (case_sensitive_tagname opts) n (trim_right e) then
            Some (mkNest rest (match foreign s with
                               | Some f => if chars_eqb f (trim_right e) then None else Some f
                               | None => None
                               end))
          else None
      | [] => None
      end
  end.
Fixpoint nest_all (opts : parse_options) (ks : list token) (s : nesting) : option nesting :=
  match ks with
  | [] => Some s
  | k :: ks' => match nest opts k s with Some s' => nest_all opts ks' s' | None => None end
  end.
Definition nests (opts : parse_options) (ks : list token) : Prop :=
  exists f, nest_all opts ks (mkNest [] None) = Some (mkNest [] f).

(** ** Which blank texts count as spaces between tags *)
(** All of them, except the only child of an element followed by text or by the end of the
    document. *)
Definition blank_text (c : list char) : bool := forallb is_ascii_whitespace c.
Fixpoint mark (only followed : bool) (x : item) : item :=
  match x with
  | XText c _ => XText c (blank_text c && negb only)
  | XElem n a ks e =>
      let marks := fix marks (l : list item) : list item :=
        match l with
        | [] => []
        | k :: r => mark false (match r with x :: _ => negb (is_text x) | [] => true end) k :: marks r
        end in
      XElem n a (match ks with [k] => [mark (negb followed) true k] | _ => marks ks end) e
  | x => x
  end.
Fixpoint mark_all (l : list item) : list item :=
  match l with
  | [] => []
  | k :: r => mark false (match r with x :: _ => negb (is_text x) | [] => false end) k :: mark_all r
  end.
Definition marked (l : list item) : Prop := mark_all l = l.

(** ** The tree *)
(** [depicts x t]: the tree [t] holds exactly the content [x] (source positions, child indices
    and the derived attribute index are left out). *)
Definition plain_node (t : tree) : Prop := t_end_tag t = None /\ t_meta t = None /\ t_childs t = None.
Definition meta_is (n : list char) (l : list attr) (sc void : bool) (m : tag_meta) : Prop :=
  m_name m = n /\ m_attrs m = l /\ m_self_closed m = sc /\ m_is_void m = void.
Definition child_list (t : tree) : list tree := match t_childs t with Some l => l | None => [] end.
Definition end_is (e : list char) (t : tree) : Prop :=
  exists te, t_end_tag t = Some te /\ t_type te = NTagEnd /\ t_content te = Some e /\ plain_node te.
Inductive depicts : item -> tree -> Prop :=
  | dp_text : forall c (b : bool) t, t_type t = (if b then NSpacesBetweenTag else NText) ->
      t_content t = Some c -> plain_node t -> depicts (XText c b) t
  | dp_comment : forall c t, t_type t = NComment -> t_content t = Some c -> plain_node t ->
      depicts (XComment c) t
  | dp_cdata : forall c t, t_type t = NXMLCDATA -> t_content t = Some c -> plain_node t ->
      depicts (XCData c) t
  | dp_doctype : forall n l m t, t_type t = NHTMLDOCTYPE -> t_content t = None -> t_end_tag t = None ->
      t_childs t = None -> t_meta t = Some m -> m_name m = n -> m_attrs m = l -> m_self_closed m = false ->
      depicts (XDoctype n l) t
  | dp_leaf : forall n l sc m t, t_type t = NTag -> t_content t = None -> t_end_tag t = None ->
      t_childs t = None -> t_meta t = Some m -> meta_is n l sc (void_name n) m ->
      depicts (XLeaf n l sc) t
  | dp_raw : forall n l c e m t, t_type t = NTag -> t_content t = Some c -> end_is e t ->
      t_childs t = None -> t_meta t = Some m -> meta_is n l false false m ->
      depicts (XRaw n l c e) t
  | dp_elem : forall n l ks e m t, t_type t = NTag -> t_content t = None -> end_is e t ->
      t_meta t = Some m -> meta_is n l false false m ->
      Forall2 depicts ks (child_list t) -> depicts (XElem n l ks e) t.

(** The document holds exactly the content [f]. *)
Definition doc_content (d : doc) (f : list item) : Prop :=
  exists t, doc_tree d = Some t /\ t_type t = NAbstractRoot /\ t_content t = None /\
    t_end_tag t = None /\ t_meta t = None /\ Forall2 depicts f (child_list t).

(** All repairs switched off. *)
Definition no_repair (opts : parse_options) : Prop :=
  auto_fix_unclosed_tag opts = false /\ auto_fix_unexpected_endtag opts = false /\ auto_fix_unescaped_lt opts = false.

(** ** Canonical spelling *)
(** One space before each attribute and before a self-closing '/', nothing else. *)
Definition print_attr (a : attr) : list char :=
  match a_key a, a_value a with
  | Some k, None => k
  | Some k, Some v => k ++ str "=" ++ match a_quote a with Some q => [q] ++ v ++ [q] | None => v end
  | None, Some v => match a_quote a with Some q => [q] ++ v ++ [q] | None => v end
  | None, None => []
  end.
Definition print_attrs (l : list attr) : list char := flat_map (fun a => str " " ++ print_attr a) l.
Definition print_token (k : token) : list char :=
  match k with
  | KText c => c
  | KComment c => str "<!--" ++ c ++ str "-->"
  | KCData c => str "<![CDATA[" ++ c ++ str "]]>"
  | KDoctype n l => str "<!" ++ n ++ print_attrs l ++ str ">"
  | KLeaf n l sc => str "<" ++ n ++ print_attrs l ++ (if sc then str " /" else []) ++ str ">"
  | KRaw n l c e => str "<" ++ n ++ print_attrs l ++ str ">" ++ c ++ str "</" ++ e ++ str ">"
  | KOpen n l => str "<" ++ n ++ print_attrs l ++ str ">"
  | KClose e => str "</" ++ e ++ str ">"
  end.
Definition print (ks : list token) : list char := flat_map print_token ks.
(** Every doctype of the document has an attribute. *)
Definition full_doctypes (d : doc) : Prop := forall r t m, doc_tree d = Some r -> sub t r ->
  t_type t = NHTMLDOCTYPE -> t_meta t = Some m -> m_attrs m <> [].
