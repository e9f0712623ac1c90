(** The Debug output ("{:?}" and "{:#?}"): src/parser.rs 470-487 for Node, derived for the other types. *)
From Coq Require Import String.
From Verif Require Export Api ErrorText.
Local Open Scope string_scope.
Local Open Scope list_scope.

(** What is handed to the formatter of the standard library: numbers, unit variants and booleans, characters,
    strings, debug_tuple, debug_struct, debug_list and debug_map. *)
Inductive dval :=
  | DNum (n : nat)
  | DName (name : list char)
  | DChar (c : char)
  | DStr (s : list char)
  | DTuple (name : list char) (l : list dval)
  | DStruct (name : list char) (l : list (list char * dval))
  | DList (l : list dval)
  | DMap (l : list (dval * dval)).

(** Lower case hexadecimal digits without leading zeros. *)
Definition hex_digit (n : N) : char := if N.ltb n 10 then (48 + n)%N else (87 + n)%N.
Fixpoint hex_fuel (fuel : nat) (n : N) : list char :=
  match fuel with
  | O => []
  | S f => if N.ltb n 16 then [hex_digit n] else hex_fuel f (N.div n 16) ++ [hex_digit (N.modulo n 16)]
  end.
Definition hex (n : N) : list char := hex_fuel (S (N.to_nat (N.size n))) n.
(** char::escape_debug_ext of the standard library.  [q] is the quote that is escaped; [plain] tells the characters
    that are shown as they are (printable and no grapheme extender), a table of the standard library. *)
Definition escaped (plain : char -> bool) (q c : char) : list char :=
  if N.eqb c 0 then str "\0"
  else if N.eqb c 9 then str "\t"
  else if N.eqb c 13 then str "\r"
  else if N.eqb c 10 then str "\n"
  else if (N.eqb c 92 || N.eqb c q)%bool then [92%N; c]
  else if plain c then [c]
  else str "\u{" ++ hex c ++ str "}".

Definition newline : list char := [10%N].
Definition quoted (q : char) (s : list char) : list char := q :: s ++ [q].
(** std::fmt::builders: the compact form separates the entries by ", "; the pretty form writes each on its own line,
    followed by ",", through a PadAdapter. *)
Fixpoint joined (l : list (list char)) : list char :=
  match l with
  | [] => []
  | [x] => x
  | x :: r => x ++ str ", " ++ joined r
  end.
(** PadAdapter: four spaces are put before the first character of every line. *)
Fixpoint pad (fresh : bool) (s : list char) : list char :=
  match s with
  | [] => []
  | c :: r => (if fresh then str "    " else []) ++ c :: pad (N.eqb c 10) r
  end.
Definition lines (l : list (list char)) : list char := newline ++ flat_map (fun x => pad true (x ++ str "," ++ newline)) l.
Definition entries (pretty : bool) (l : list (list char)) : list char :=
  match l with [] => [] | _ => if pretty then lines l else joined l end.

Fixpoint debug (plain : char -> bool) (pretty : bool) (v : dval) : list char :=
  match v with
  | DNum n => digits n
  | DName s => s
  | DChar c => quoted 39%N (escaped plain 39%N c)
  | DStr s => quoted 34%N (flat_map (escaped plain 34%N) s)
  | DTuple n [] => n
  | DTuple n l => n ++ str "(" ++ entries pretty (map (debug plain pretty) l) ++ str ")"
  | DStruct n [] => n
  | DStruct n l => n ++ str " {" ++ (if pretty then [] else str " ")
      ++ entries pretty (map (fun x => fst x ++ str ": " ++ debug plain pretty (snd x)) l)
      ++ (if pretty then [] else str " ") ++ str "}"
  | DList l => str "[" ++ entries pretty (map (debug plain pretty) l) ++ str "]"
  | DMap l => str "{" ++ entries pretty (map (fun x => debug plain pretty (fst x) ++ str ": " ++ debug plain pretty (snd x)) l) ++ str "}"
  end.

(** ** The types of the crate *)
Definition dbool (b : bool) : dval := DName (if b then str "true" else str "false").
Definition dopt {A} (f : A -> dval) (o : option A) : dval :=
  match o with None => DName (str "None") | Some x => DTuple (str "Some") [f x] end.
Definition dchars (l : list char) : dval := DList (map DChar l).
(** Debug of a RefCell that is not mutably borrowed; Rc and Box show what they point to. *)
Definition dcell (v : dval) : dval := DStruct (str "RefCell") [(str "value", v)].

(** src/parser.rs 156-167. *)
Definition dtype (t : node_type) : dval :=
  DName (match t with
         | NAbstractRoot => str "AbstractRoot" | NHTMLDOCTYPE => str "HTMLDOCTYPE" | NComment => str "Comment"
         | NText => str "Text" | NSpacesBetweenTag => str "SpacesBetweenTag" | NTag => str "Tag"
         | NTagEnd => str "TagEnd" | NXMLCDATA => str "XMLCDATA"
         end).
(** src/parser.rs 341-350. *)
Definition dtag_code (c : tag_code_in) : dval :=
  DName (match c with
         | TWait => str "Wait" | TKey => str "Key" | TKeyEnd => str "KeyEnd" | TWaitValue => str "WaitValue"
         | TValue => str "Value" | TValueEnd => str "ValueEnd"
         end).
(** src/parser.rs 274-285. *)
Definition dattr_data (c : list char) : dval := DStruct (str "AttrData") [(str "content", dchars c)].
Definition dattr (a : attr) : dval :=
  DStruct (str "Attr") [(str "key", dopt dattr_data (a_key a)); (str "value", dopt dattr_data (a_value a));
    (str "quote", dopt DChar (a_quote a)); (str "need_quote", dbool (a_need_quote a))].
(** src/parser.rs 352-361.  [order] is the order in which the HashMap is gone through. *)
Definition dmeta (order : list (list char * nat) -> list (list char * nat)) (m : tag_meta) : dval :=
  DStruct (str "TagMeta") [(str "code_in", dtag_code (m_code_in m)); (str "is_void", dbool (m_is_void m));
    (str "self_closed", dbool (m_self_closed m)); (str "auto_fix", dbool (m_auto_fix m));
    (str "name", dchars (m_name m)); (str "attrs", DList (map dattr (m_attrs m)));
    (str "lc_name_map", DMap (map (fun x => (DStr (fst x), DNum (snd x))) (order (m_lc_name_map m))))].
(** src/parser.rs 470-487.  [documented] tells the nodes with a link [document]. *)
Definition is_some {A} (o : option A) : bool := match o with Some _ => true | None => false end.
Fixpoint dnode (order : list (list char * nat) -> list (list char * nat)) (documented : nid -> bool)
    (fuel : nat) (h : list node) (i : nid) : option dval :=
  match fuel with
  | O => None
  | S fuel' =>
      let n := hget h i in
      let et := match n_end_tag n with
                | None => Some None
                | Some e => match dnode order documented fuel' h e with Some v => Some (Some v) | None => None end
                end in
      let ks := match n_childs n with
                | None => Some None
                | Some l => match map_opt (dnode order documented fuel' h) l with Some l' => Some (Some l') | None => None end
                end in
      match et, ks with
      | Some et, Some ks =>
          Some (DStruct (str "Node") [
            (str "index", DNum (n_index n)); (str "node_type", dtype (n_type n));
            (str "begin_at", DNum (n_begin_at n)); (str "end_at", DNum (n_end_at n));
            (str "content", dopt dchars (n_content n));
            (str "childs", dopt (fun l => DList (map dcell l)) ks);
            (str "meta", dopt (fun m => dcell (dmeta order m)) (n_meta n));
            (str "end_tag", dopt dcell et);
            (str "parent", dbool (is_some (n_parent n))); (str "root", dbool (is_some (n_root n)));
            (str "document", dbool (documented i))])
      | _, _ => None
      end
  end.
(** The Debug text of a node. *)
Definition node_text (plain : char -> bool) (pretty : bool) order documented (h : list node) (i : nid) : option (list char) :=
  option_map (debug plain pretty) (dnode order documented (length h) h i).
(** Of the root of a parsed document; src/parser.rs 1765-1769 sets the link [document] of the root. *)
Definition root_text (plain : char -> bool) (pretty : bool) order (d : doc) : option (list char) :=
  node_text plain pretty order (fun i => Nat.eqb i (d_root d)) (d_heap d) (d_root d).

(** src/position.rs 5-10, src/error.rs 5-9 and 28-58. *)
Definition dregion (r : code_region) : dval :=
  DStruct (str "CodeRegion") [(str "index", DNum (r_index r)); (str "line", DNum (r_line r)); (str "col", DNum (r_col r))].
Definition dkind (k : error_kind) : dval :=
  match k with
  | EWrongTag s => DTuple (str "WrongTag") [DStr s]
  | EWrongEndTag s => DTuple (str "WrongEndTag") [DStr s]
  | EUnclosedTag s => DTuple (str "UnclosedTag") [DStr s]
  | EUnclosedCode c => DTuple (str "UnclosedTag") [DStr (code_text c)]
  | EWrongHtmlDoctype c => DTuple (str "WrongHtmlDoctype") [DChar c]
  | EUnrecognizedTag a b => DTuple (str "UnrecognizedTag") [DStr a; DStr b]
  | EWrongCaseSensitive s => DTuple (str "WrongCaseSensitive") [DStr s]
  | EWrongSelfClosing s => DTuple (str "WrongSelfClosing") [DStr s]
  | ECommonCdataSub | ECommonCdataOutside => DTuple (str "CommonError") [DStr (kind_text k)]
  end.
Definition error_debug (plain : char -> bool) (pretty : bool) (k : error_kind) (r : code_region) : list char :=
  debug plain pretty (DStruct (str "ParseError") [(str "region", dregion r); (str "kind", dkind k)]).

(** src/config.rs 1-22. *)
Definition dparse_options (o : parse_options) : dval :=
  DStruct (str "ParseOptions") [(str "case_sensitive_tagname", dbool (case_sensitive_tagname o));
    (str "allow_attr_key_starts_with_equal_sign", dbool (allow_attr_key_starts_with_equal_sign o));
    (str "allow_self_closing", dbool (allow_self_closing o)); (str "auto_fix_unclosed_tag", dbool (auto_fix_unclosed_tag o));
    (str "auto_fix_unexpected_endtag", dbool (auto_fix_unexpected_endtag o)); (str "auto_fix_unescaped_lt", dbool (auto_fix_unescaped_lt o))].
Definition drender_options (o : render_options) : dval :=
  DStruct (str "RenderOptions") [(str "minify_spaces", dbool (minify_spaces o)); (str "lowercase_tagname", dbool (lowercase_tagname o));
    (str "remove_endtag_space", dbool (remove_endtag_space o)); (str "remove_attr_quote", dbool (remove_attr_quote o));
    (str "remove_comment", dbool (remove_comment o)); (str "always_close_void", dbool (always_close_void o));
    (str "inner_html", dbool (inner_html o)); (str "decode_entity", dbool (decode_entity o)); (str "encode_content", dbool (encode_content o))].
