(** The character-driven parser: src/parser.rs 948-2233. *)
From Coq Require Import String.
From Verif Require Export Names.
Local Open Scope string_scope.
Local Open Scope list_scope.

(** src/parser.rs 954: [handle : fn(&mut Doc, char, &str) -> HResult] is a function
    pointer that only ever holds one of these functions. *)
Inductive next_handle :=
  | HNoop              (* noop *)
  | HWait              (* parse_wait *)
  | HText              (* parse_text *)
  | HDoctypeName       (* parse_doctype_name *)
  | HTagName           (* parse_tag_name *)
  | HSelfClosing       (* parse_tag_self_closing *)
  | HTagWait           (* parse_tag_wait *)
  | HAttrKey           (* parse_tag_attr_key *)
  | HAttrValue         (* parse_tag_attr_value *)
  | HTagEnd            (* parse_tagend *)
  | HContent           (* parse_content_tag *)
  | HCommentOrCdata    (* parse_comment_or_cdata *)
  | HUnkownTag         (* parse_unkown_tag *)
  | HExclamation.      (* parse_exclamation_begin *)

(** src/parser.rs 1699-1717: struct Doc, plus the heap of all nodes allocated so far.
    [chain_nodes] is stored innermost first (the Rust vector reversed, so that
    [last()]/[push]/[pop] act on the head).  [chars] and [onerror] are never used. *)
Record doc := mkDoc {
  d_code_in : code_type_in;
  d_position : nat;
  d_mem_position : nat;
  d_detect : option (list char);
  d_prev_chars : list char;
  d_mark_char : char;
  d_chain_nodes : list nid;
  d_current_node : nid;
  d_in_special : option (special_tag * list char);
  d_repeat_whitespace : bool;
  d_check_textnode : option nid;
  d_handle : next_handle;
  d_parse_options : parse_options;
  d_root : nid;
  d_id_tags : list (list char * nid);
  d_heap : list node
}.

(** Field updates ([doc.field = v]). *)
Definition set_code_in v st := mkDoc v (d_position st) (d_mem_position st) (d_detect st) (d_prev_chars st) (d_mark_char st) (d_chain_nodes st) (d_current_node st) (d_in_special st) (d_repeat_whitespace st) (d_check_textnode st) (d_handle st) (d_parse_options st) (d_root st) (d_id_tags st) (d_heap st).
Definition set_position v st := mkDoc (d_code_in st) v (d_mem_position st) (d_detect st) (d_prev_chars st) (d_mark_char st) (d_chain_nodes st) (d_current_node st) (d_in_special st) (d_repeat_whitespace st) (d_check_textnode st) (d_handle st) (d_parse_options st) (d_root st) (d_id_tags st) (d_heap st).
Definition set_mem_position v st := mkDoc (d_code_in st) (d_position st) v (d_detect st) (d_prev_chars st) (d_mark_char st) (d_chain_nodes st) (d_current_node st) (d_in_special st) (d_repeat_whitespace st) (d_check_textnode st) (d_handle st) (d_parse_options st) (d_root st) (d_id_tags st) (d_heap st).
Definition set_detect v st := mkDoc (d_code_in st) (d_position st) (d_mem_position st) v (d_prev_chars st) (d_mark_char st) (d_chain_nodes st) (d_current_node st) (d_in_special st) (d_repeat_whitespace st) (d_check_textnode st) (d_handle st) (d_parse_options st) (d_root st) (d_id_tags st) (d_heap st).
Definition set_prev_chars v st := mkDoc (d_code_in st) (d_position st) (d_mem_position st) (d_detect st) v (d_mark_char st) (d_chain_nodes st) (d_current_node st) (d_in_special st) (d_repeat_whitespace st) (d_check_textnode st) (d_handle st) (d_parse_options st) (d_root st) (d_id_tags st) (d_heap st).
Definition set_mark_char v st := mkDoc (d_code_in st) (d_position st) (d_mem_position st) (d_detect st) (d_prev_chars st) v (d_chain_nodes st) (d_current_node st) (d_in_special st) (d_repeat_whitespace st) (d_check_textnode st) (d_handle st) (d_parse_options st) (d_root st) (d_id_tags st) (d_heap st).
Definition set_chain_nodes v st := mkDoc (d_code_in st) (d_position st) (d_mem_position st) (d_detect st) (d_prev_chars st) (d_mark_char st) v (d_current_node st) (d_in_special st) (d_repeat_whitespace st) (d_check_textnode st) (d_handle st) (d_parse_options st) (d_root st) (d_id_tags st) (d_heap st).
Definition set_current_node v st := mkDoc (d_code_in st) (d_position st) (d_mem_position st) (d_detect st) (d_prev_chars st) (d_mark_char st) (d_chain_nodes st) v (d_in_special st) (d_repeat_whitespace st) (d_check_textnode st) (d_handle st) (d_parse_options st) (d_root st) (d_id_tags st) (d_heap st).
Definition set_in_special v st := mkDoc (d_code_in st) (d_position st) (d_mem_position st) (d_detect st) (d_prev_chars st) (d_mark_char st) (d_chain_nodes st) (d_current_node st) v (d_repeat_whitespace st) (d_check_textnode st) (d_handle st) (d_parse_options st) (d_root st) (d_id_tags st) (d_heap st).
Definition set_repeat_whitespace v st := mkDoc (d_code_in st) (d_position st) (d_mem_position st) (d_detect st) (d_prev_chars st) (d_mark_char st) (d_chain_nodes st) (d_current_node st) (d_in_special st) v (d_check_textnode st) (d_handle st) (d_parse_options st) (d_root st) (d_id_tags st) (d_heap st).
Definition set_check_textnode v st := mkDoc (d_code_in st) (d_position st) (d_mem_position st) (d_detect st) (d_prev_chars st) (d_mark_char st) (d_chain_nodes st) (d_current_node st) (d_in_special st) (d_repeat_whitespace st) v (d_handle st) (d_parse_options st) (d_root st) (d_id_tags st) (d_heap st).
Definition set_handle v st := mkDoc (d_code_in st) (d_position st) (d_mem_position st) (d_detect st) (d_prev_chars st) (d_mark_char st) (d_chain_nodes st) (d_current_node st) (d_in_special st) (d_repeat_whitespace st) (d_check_textnode st) v (d_parse_options st) (d_root st) (d_id_tags st) (d_heap st).
Definition set_parse_options v st := mkDoc (d_code_in st) (d_position st) (d_mem_position st) (d_detect st) (d_prev_chars st) (d_mark_char st) (d_chain_nodes st) (d_current_node st) (d_in_special st) (d_repeat_whitespace st) (d_check_textnode st) (d_handle st) v (d_root st) (d_id_tags st) (d_heap st).
Definition set_root v st := mkDoc (d_code_in st) (d_position st) (d_mem_position st) (d_detect st) (d_prev_chars st) (d_mark_char st) (d_chain_nodes st) (d_current_node st) (d_in_special st) (d_repeat_whitespace st) (d_check_textnode st) (d_handle st) (d_parse_options st) v (d_id_tags st) (d_heap st).
Definition set_id_tags v st := mkDoc (d_code_in st) (d_position st) (d_mem_position st) (d_detect st) (d_prev_chars st) (d_mark_char st) (d_chain_nodes st) (d_current_node st) (d_in_special st) (d_repeat_whitespace st) (d_check_textnode st) (d_handle st) (d_parse_options st) (d_root st) v (d_heap st).
Definition set_heap v st := mkDoc (d_code_in st) (d_position st) (d_mem_position st) (d_detect st) (d_prev_chars st) (d_mark_char st) (d_chain_nodes st) (d_current_node st) (d_in_special st) (d_repeat_whitespace st) (d_check_textnode st) (d_handle st) (d_parse_options st) (d_root st) (d_id_tags st) v.

(** Reading and updating a node through its reference. References stored in the state are
    always valid (proved); the default is never used. *)
Definition dummy_node : node := node_new NAbstractRoot 0.
Definition hget (h : list node) (i : nid) : node := nth i h dummy_node.
Fixpoint hupd (h : list node) (i : nid) (f : node -> node) : list node :=
  match h, i with
  | [], _ => []
  | n :: h', O => f n :: h'
  | n :: h', S i' => n :: hupd h' i' f
  end.
Definition get_node (st : doc) (i : nid) : node := hget (d_heap st) i.
Definition upd_node (i : nid) (f : node -> node) (st : doc) : doc :=
  set_heap (hupd (d_heap st) i f) st.
(** [doc.current_node.borrow()] and [doc.current_node.borrow_mut()] *)
Definition cur (st : doc) : node := get_node st (d_current_node st).
Definition upd_cur (f : node -> node) (st : doc) : doc := upd_node (d_current_node st) f st.
(** [if let Some(meta) = &node.meta { *meta.borrow_mut() = f meta }] *)
Definition nupd_meta (f : tag_meta -> tag_meta) (n : node) : node :=
  match n_meta n with
  | Some m => nset_meta (Some (f m)) n
  | None => n
  end.
Definition push_char (c : char) (st : doc) : doc := set_prev_chars (d_prev_chars st ++ [c]) st.

(** src/parser.rs 1815-1819: clean_chars_to_vec; the content is [d_prev_chars st]. *)
Definition clean_chars (st : doc) : doc := set_prev_chars [] st.

(** src/parser.rs 1822-1860: set_code_in. *)
Definition handle_of_code_in (c : code_type_in) : next_handle :=
  match c with
  | CUnkown => HWait
  | CTag => HTagName
  | CTagEnd => HTagEnd
  | CTextNode => HText
  | CHTMLScript | CHTMLStyle | CEscapeableRawText => HContent
  | CHTMLDOCTYPE => HDoctypeName
  | CAbstractRoot => HWait
  | CComment => HCommentOrCdata
  | CXMLCDATA => HCommentOrCdata
  | CUnkownTag => HUnkownTag
  | CExclamationBegin => HExclamation
  end.
Definition set_code (c : code_type_in) (st : doc) : doc :=
  set_handle (handle_of_code_in c) (set_code_in c st).

(** src/parser.rs 2074-2076: Doc::error (position of the document). *)
Definition doc_error (k : error_kind) (st : doc) : res doc := RErr k (d_position st).

(** Allocation: [Rc::new(RefCell::new(node))]. *)
Definition alloc (n : node) (st : doc) : doc := set_heap (d_heap st ++ [n]) st.

(** src/parser.rs 1872-1899: add_new_node. *)
Definition add_new_node (n : node) (st : doc) : res doc :=
  let id := length (d_heap st) in
  if node_type_eqb (n_type n) NTagEnd then
    ROk (set_current_node id (alloc n st))
  else
    match d_chain_nodes st with
    | [] => RPanic PChainEmpty
    | parent :: _ =>
        let pn := get_node st parent in
        let '(idx, childs') :=
          match n_childs pn with
          | Some childs => (length childs, childs ++ [id])
          | None => (0, [id])
          end in
        let n' := nset_root (Some (d_root st)) (nset_index idx (nset_parent (Some parent) n)) in
        let st1 := upd_node parent (nset_childs (Some childs')) (alloc n' st) in
        let st2 := set_current_node id st1 in
        ROk (if node_type_eqb (n_type n) NTag
             then set_chain_nodes (id :: d_chain_nodes st2) st2 else st2)
    end.

(** src/parser.rs 1901-1910: set_tag_end_info. *)
Definition set_tag_end_info (st : doc) : doc :=
  upd_cur (fun n => nset_end_at
    (if node_type_eqb (n_type n) NText then d_position st else d_position st + 1) n) st.

(** src/parser.rs 1912-1917: set_text_spaces_between. *)
Definition set_text_spaces_between (st : doc) : doc :=
  match d_check_textnode st with
  | Some i => set_check_textnode None (upd_node i (nset_type NSpacesBetweenTag) st)
  | None => st
  end.

(** src/parser.rs 2078-2094: set_tag_meta; the returned flag is [is_void_tag (lower name)]. *)
Definition set_tag_meta (st : doc) : bool * doc :=
  let name := d_prev_chars st in
  let is_void := is_void_tag (lower name) in
  let meta := mkMeta TWait is_void false false name [] [] in
  (is_void, upd_cur (nset_meta (Some meta)) (clean_chars st)).

(** src/parser.rs 2096-2107: set_tag_code_in. *)
Definition set_tag_code_in (c : tag_code_in) (st : doc) : doc :=
  let st1 :=
    match c with
    | TWait | TWaitValue | TValueEnd => set_handle HTagWait st
    | TKey => set_handle HAttrKey st
    | TValue => set_handle HAttrValue st
    | TKeyEnd => st
    end in
  upd_cur (nupd_meta (mset_code_in c)) st1.

(** src/parser.rs 2109-2118: is_tag_code_in (panics without meta). *)
Definition tag_code_of (st : doc) : res tag_code_in :=
  match n_meta (cur st) with
  | Some m => ROk (m_code_in m)
  | None => RPanic PMetaMissing
  end.

(** src/parser.rs 376-381 with 2120-2125: add_attr_key / add_tag_attr_key. *)
Definition add_tag_attr_key (st : doc) : doc :=
  upd_cur (nupd_meta (fun m =>
    mset_code_in TKey (mset_attrs (m_attrs m ++ [mkAttr (Some []) None None false]) m))) st.

(** src/parser.rs 383-389 with 2144-2152: add_attr_value / add_tag_attr_value. *)
Definition add_tag_attr_value (quote : option char) (st : doc) : res doc :=
  match n_meta (cur st) with
  | None => RPanic PMetaMissing
  | Some _ =>
      ROk (upd_cur (nupd_meta (fun m =>
        mset_code_in TValue (mset_attrs (m_attrs m ++ [mkAttr None (Some []) quote false]) m))) st)
  end.

(** [attrs.last_mut()] updates. *)
Fixpoint upd_last {A} (f : A -> A) (l : list A) : list A :=
  match l with
  | [] => []
  | [x] => [f x]
  | x :: l' => x :: upd_last f l'
  end.
Fixpoint last_opt {A} (l : list A) : option A :=
  match l with
  | [] => None
  | [x] => Some x
  | _ :: l' => last_opt l'
  end.

(** [HashMap::get] and [entry(k).or_insert(v)] on association lists. *)
Fixpoint map_get {A} (m : list (list char * A)) (k : list char) : option A :=
  match m with
  | [] => None
  | (k', v) :: m' => if chars_eqb k' k then Some v else map_get m' k
  end.
Definition map_or_insert {A} (m : list (list char * A)) (k : list char) (v : A) :=
  match map_get m k with
  | Some _ => m
  | None => (k, v) :: m
  end.
(** [HashMap::insert]: a new binding hides the old one. *)
Definition map_insert {A} (m : list (list char * A)) (k : list char) (v : A) := (k, v) :: m.

(** src/parser.rs 391-397 with 2127-2142: set_attr_key / set_tag_attr_key. *)
Definition set_tag_attr_key (st : doc) : res doc :=
  let key := d_prev_chars st in
  let st := clean_chars st in
  match n_meta (cur st) with
  | None => ROk st
  | Some m =>
      match m_attrs m with
      | [] => RPanic PAttrsEmpty        (* attrs.len() - 1 *)
      | _ =>
          let index := length (m_attrs m) - 1 in
          ROk (upd_cur (nupd_meta (fun m =>
            mset_attrs (upd_last (fun a => mkAttr (Some key) (a_value a) (a_quote a) (a_need_quote a))
                                 (m_attrs m))
              (mset_lc_name_map (map_or_insert (m_lc_name_map m) (lower key) index) m))) st)
      end
  end.

(** src/parser.rs 317-326: Attr::check_if_id. *)
Definition check_if_id (a : attr) : option (list char) :=
  match a_key a with
  | Some key =>
      if is_equal_chars key (str "id") (Some Lower) then a_value a else None
  | None => None
  end.

(** src/parser.rs 399-407 with 2155-2170: set_attr_value / set_tag_attr_value. *)
Definition set_tag_attr_value (quote : option char) (st : doc) : res doc :=
  let value := d_prev_chars st in
  let st := clean_chars st in
  match n_meta (cur st) with
  | None => ROk st
  | Some m =>
      let set a := mkAttr (a_key a) (Some value) quote (a_need_quote a) in
      match last_opt (m_attrs m) with
      | None => RPanic PAttrsEmpty
      | Some a =>
          let st := upd_cur (nupd_meta (fun m => mset_attrs (upd_last set (m_attrs m)) m)) st in
          ROk (match check_if_id (set a) with
               | Some id => set_id_tags (map_insert (d_id_tags st) id (d_current_node st)) st
               | None => st
               end)
      end
  end.

(** src/parser.rs 2173-2232: check_tag_type_do. *)
Definition check_tag_type_do (st : doc) : res doc :=
  match n_meta (cur st) with
  | None => RPanic PMetaMissing
  | Some m =>
      let lc_tag_name := lower (m_name m) in
      if is_content_tag lc_tag_name None then
        let st := set_mem_position (d_position st) st in
        let code_in :=
          if is_equal_chars lc_tag_name SCRIPT_TAG_NAME None then CHTMLScript
          else if is_equal_chars lc_tag_name STYLE_TAG_NAME None then CHTMLStyle
          else CEscapeableRawText in
        ROk (set_detect (Some ([TAG_BEGIN_CHAR; END_SLASH_CHAR] ++ m_name m)) (set_code code_in st))
      else
        let st :=
          match d_in_special st with
          | None =>
              set_in_special (match special_tag_map lc_tag_name with
                              | Some special => Some (special, m_name m)
                              | None => None
                              end) st
          | Some _ => st
          end in
        ROk (set_code CUnkown st)
  end.

(** [chain_nodes.pop()] whose result is dropped. *)
Definition chain_pop (st : doc) : doc := set_chain_nodes (tl (d_chain_nodes st)) st.

(** src/parser.rs 966-1003: parse_wait. *)
Definition parse_wait (st : doc) (c : char) : res doc :=
  if N.eqb c TAG_BEGIN_CHAR then
    ROk (set_code CUnkownTag (set_mem_position (d_position st) st))
  else
    let t := n_type (cur st) in
    if (auto_fix_unexpected_endtag (d_parse_options st)
        && (node_type_eqb t NText || node_type_eqb t NSpacesBetweenTag))%bool then
      let st1 :=
        match n_content (cur st) with
        | Some content =>      (* prev_chars.append(content) leaves Some(vec![]) behind *)
            upd_cur (nset_content (Some []))
              (set_prev_chars (d_prev_chars st ++ content) st)
        | None => st
        end in
      let st2 :=
        set_repeat_whitespace
          (if node_type_eqb t NText then false else is_ascii_whitespace c) st1 in
      ROk (set_code CTextNode (push_char c st2))
    else
      do st1 <- add_new_node (node_new NText (d_position st)) st;
      ROk (set_code CTextNode (push_char c (set_repeat_whitespace (is_ascii_whitespace c) st1))).

(** src/parser.rs 1008-1033: parse_text. *)
Definition parse_text (st : doc) (c : char) : res doc :=
  if N.eqb c TAG_BEGIN_CHAR then
    let content := d_prev_chars st in
    let st := upd_cur (nset_content (Some content)) (clean_chars st) in
    let st := set_check_textnode
      (if d_repeat_whitespace st then Some (d_current_node st) else None) st in
    let st := set_mem_position (d_position st) st in
    ROk (set_code CUnkownTag (set_tag_end_info st))
  else
    let st :=
      if d_repeat_whitespace st then set_repeat_whitespace (is_ascii_whitespace c) st else st in
    ROk (push_char c st).

(** src/parser.rs 1038-1046: parse_doctype_name. *)
Definition parse_doctype_name (st : doc) (c : char) : res doc :=
  if is_ascii_whitespace c then
    ROk (set_tag_code_in TWait (snd (set_tag_meta st)))
  else doc_error (EWrongHtmlDoctype c) st.

(** src/parser.rs 1052-1088: parse_tag_name. *)
Definition parse_tag_name (st : doc) (c : char) : res doc :=
  if N.eqb c TAG_END_CHAR then
    let '(is_void, st) := set_tag_meta st in
    if is_void then ROk (set_code CUnkown (chain_pop st))
    else check_tag_type_do st
  else if N.eqb c END_SLASH_CHAR then
    ROk (set_handle HSelfClosing (snd (set_tag_meta st)))
  else if is_ascii_whitespace c then
    ROk (set_tag_code_in TWait (snd (set_tag_meta st)))
  else ROk (push_char c st).

(** src/parser.rs 1133-1234: parse_tag_wait. *)
Definition parse_tag_wait (st : doc) (c : char) : res doc :=
  if (N.eqb c DOUBLE_QUOTE_CHAR || N.eqb c SINGLE_QUOTE_CHAR)%bool then
    do code <- tag_code_of st;
    if tag_code_in_eqb code TWaitValue then
      ROk (set_tag_code_in TValue (set_mark_char c st))
    else
      match d_code_in st with
      | CHTMLDOCTYPE =>
          do st1 <- add_tag_attr_value (Some c) st;
          ROk (set_tag_code_in TValue (set_mark_char c st1))
      | _ => ROk (set_tag_code_in TKey (push_char c (add_tag_attr_key st)))
      end
  else if N.eqb c TAG_END_CHAR then
    match n_meta (cur st) with
    | None => RPanic PMetaMissing
    | Some m =>
        if m_is_void m then ROk (set_code CUnkown (chain_pop st))
        else check_tag_type_do st
    end
  else if N.eqb c END_SLASH_CHAR then
    ROk (set_handle HSelfClosing st)
  else if N.eqb c EQUAL_CHAR then
    do code <- tag_code_of st;
    if tag_code_in_eqb code TKeyEnd then ROk (set_tag_code_in TWaitValue st)
    else if tag_code_in_eqb code TWait then
      if negb (allow_attr_key_starts_with_equal_sign (d_parse_options st)) then
        RErr (EWrongTag (str "'=' is not a valid attribute name")) (d_position st)
      else
        ROk (set_tag_code_in TKey (add_tag_attr_key (push_char c st)))
    else ROk (set_tag_code_in TValue (set_mark_char WS_CHAR (push_char c st)))
  else if is_ascii_whitespace c then ROk st
  else
    let st := push_char c st in
    do code <- tag_code_of st;
    if tag_code_in_eqb code TWaitValue then
      ROk (set_tag_code_in TValue (set_mark_char WS_CHAR st))
    else ROk (set_tag_code_in TKey (add_tag_attr_key st)).

(** src/parser.rs 1094-1130: parse_tag_self_closing. *)
Definition parse_tag_self_closing (st : doc) (c : char) : res doc :=
  if N.eqb c TAG_END_CHAR then
    match n_meta (cur st) with
    | None => RPanic PMetaMissing       (* panic!("self-closing tag's meta is emtpy") *)
    | Some m =>
        let is_doctype := match d_code_in st with CHTMLDOCTYPE => true | _ => false end in
        if (negb (allow_self_closing (d_parse_options st)) && negb is_doctype
            && negb (m_is_void m || match d_in_special st with Some _ => true | None => false end))%bool
        then doc_error (EWrongSelfClosing (m_name m)) st
        else
          let st := upd_cur (nupd_meta (mset_self_closed true)) st in
          ROk (set_code CUnkown (chain_pop st))
    end
  else if N.eqb c END_SLASH_CHAR then ROk st
  else parse_tag_wait st c.

(** src/parser.rs 1237-1276: parse_tag_attr_key. *)
Definition parse_tag_attr_key (st : doc) (c : char) : res doc :=
  if N.eqb c EQUAL_CHAR then
    do st <- set_tag_attr_key st;
    ROk (set_tag_code_in TWaitValue st)
  else if N.eqb c TAG_END_CHAR then
    do st <- set_tag_attr_key st;
    parse_tag_wait (set_tag_code_in TKeyEnd st) c
  else if N.eqb c END_SLASH_CHAR then
    do st <- set_tag_attr_key st;
    ROk (set_handle HSelfClosing (set_tag_code_in TWait st))
  else if is_ascii_whitespace c then
    do st <- set_tag_attr_key st;
    ROk (set_handle HTagWait (set_tag_code_in TKeyEnd st))
  else ROk (push_char c st).

(** src/parser.rs 1279-1306: parse_tag_attr_value. *)
Definition parse_tag_attr_value (st : doc) (c : char) : res doc :=
  let quote := d_mark_char st in
  if (N.eqb quote WS_CHAR && N.eqb c TAG_END_CHAR)%bool then
    do st <- set_tag_attr_value None st;
    parse_tag_wait (set_tag_code_in TValueEnd st) c
  else
    let '(is_end, attr_quote) :=
      if N.eqb quote WS_CHAR then (is_ascii_whitespace c, None)
      else (N.eqb c quote, Some quote) in
    if is_end then
      do st <- set_tag_attr_value attr_quote (set_mark_char EOF_CHAR st);
      ROk (set_tag_code_in TWait st)
    else ROk (push_char c st).

(** Strong reachability: what [Weak::upgrade] observes.  A node is alive iff it is reachable
    through [childs] and [end_tag] (the strong links of a Node) from a reference owned by the
    Doc ([root], [current_node], [chain_nodes], [check_textnode], [id_tags]). *)
Fixpoint reach (fuel : nat) (h : list node) (from target : nid) : bool :=
  (Nat.eqb from target ||
   match fuel with
   | O => false
   | S fuel' =>
       existsb (fun k => reach fuel' h k target)
         (match n_childs (hget h from) with Some l => l | None => [] end)
       || match n_end_tag (hget h from) with
          | Some e => reach fuel' h e target
          | None => false
          end
   end)%bool.
Definition alive (st : doc) (target : nid) : bool :=
  existsb (fun r => reach (length (d_heap st)) (d_heap st) r target)
    (d_root st :: d_current_node st :: d_chain_nodes st
     ++ match d_check_textnode st with Some i => [i] | None => [] end
     ++ map snd (d_id_tags st)).

(** src/parser.rs 1311-1402: parse_tagend. *)
Definition parse_tagend (st : doc) (c : char) : res doc :=
  if N.eqb c TAG_END_CHAR then
    let end_tag_name := d_prev_chars st in
    let fix_end_tag_name := chars_trim_end end_tag_name in
    (* 1318-1341: does the end tag match the innermost open tag? *)
    do is_endtag_ok <-
      (if Nat.ltb 1 (length (d_chain_nodes st)) then
         match d_chain_nodes st with
         | [] => ROk false
         | tag :: _ =>
             match n_meta (get_node st tag) with
             | None => RPanic PMetaMissing
             | Some m =>
                 let '(is_equal, is_total_same) :=
                   is_equal_chars_ignore_case (m_name m) fix_end_tag_name in
                 if is_equal then
                   if (case_sensitive_tagname (d_parse_options st) && negb is_total_same)%bool
                   then RErr (EWrongCaseSensitive (d_prev_chars st)) (d_position st)
                   else ROk true
                 else ROk false
             end
         end
       else ROk false);
    if (is_endtag_ok : bool) then
      match d_chain_nodes st with
      | [] => RPanic PChainEmpty
      | last_tag :: chain' =>
          let st := set_chain_nodes chain' st in
          let st := upd_node last_tag (nset_end_tag (Some (d_current_node st))) st in
          (* 1352-1358 *)
          let is_only_text_child :=
            match n_childs (get_node st last_tag) with
            | Some [k] => node_type_eqb (n_type (get_node st k)) NText
            | _ => false
            end in
          let st := if is_only_text_child then st else set_text_spaces_between st in
          let st := set_code CUnkown (set_tag_end_info st) in
          (* 1364-1368 *)
          let st :=
            match d_in_special st with
            | Some (_, name) =>
                if is_equal_chars name fix_end_tag_name None then set_in_special None st else st
            | None => st
            end in
          (* 1370-1373 *)
          let content := d_prev_chars st in
          let st := clean_chars st in
          ROk (upd_cur (fun n => nset_content (Some content) (nset_parent (Some last_tag) n)) st)
      end
    else if negb (auto_fix_unexpected_endtag (d_parse_options st)) then
      doc_error (EWrongEndTag (d_prev_chars st)) st
    else
      (* 1380-1391 *)
      do st <-
        (match n_prev (cur st) with
         | Some prev_node =>
             if alive st prev_node then ROk (set_current_node prev_node st) else RPanic PUpgrade
         | None => ROk st
         end);
      ROk (set_code CUnkown (clean_chars st))
  else ROk (push_char c st).

(** src/parser.rs 1421-1464: the backward loops of parse_content_tag.  Both vectors are
    scanned from their ends, i.e. as reversed lists; the result tells whether all of
    [end_tag] was matched.  The case where [prev_chars] runs out first does not occur
    because of the length test. *)
Definition content_char_match (case_sensitive : bool) (detect_char prev_char : char) : bool :=
  if N.eqb detect_char prev_char then true
  else if case_sensitive then false
  else if is_ascii_uppercase detect_char then N.eqb (to_ascii_lowercase detect_char) prev_char
  else if is_ascii_lowercase detect_char then N.eqb (to_ascii_uppercase detect_char) prev_char
  else false.
Fixpoint match_backward (case_sensitive : bool) (rdetect rprev : list char) : bool :=
  match rdetect, rprev with
  | [], _ => true
  | d :: rd, p :: rp =>
      if content_char_match case_sensitive d p then match_backward case_sensitive rd rp else false
  | _ :: _, [] => false
  end.

(** src/parser.rs 1407-1490: parse_content_tag. *)
Definition parse_content_tag (st : doc) (c : char) : res doc :=
  if negb (N.eqb c TAG_END_CHAR) then ROk (push_char c st)
  else
    match d_detect st with
    | None => RPanic PDetectMissing
    | Some end_tag =>
        let prev_chars := d_prev_chars st in
        let trimmed := chars_trim_end prev_chars in   (* prev_chars[..prev_len] *)
        if (Nat.leb (length end_tag) (length prev_chars)
            && Nat.leb (length end_tag) (length trimmed)
            && match_backward (case_sensitive_tagname (d_parse_options st))
                 (rev end_tag) (rev trimmed))%bool
        then
          let prev_len := length trimmed - length end_tag in
          let st := set_code CUnkown st in
          (* split_off(prev_len).split_off(2) *)
          let end_tag_name := skipn 2 (skipn prev_len prev_chars) in
          let id := length (d_heap st) in
          let e := nset_parent (Some (d_current_node st))
                     (nset_content (Some end_tag_name) (node_new NTagEnd (d_position st + 1))) in
          let st := alloc e st in
          let content := firstn prev_len prev_chars in
          let st := clean_chars st in
          let st := upd_cur (fun n => nset_content (Some content) (nset_end_tag (Some id) n)) st in
          ROk (set_detect None (chain_pop st))
        else ROk (push_char c st)
    end.

(** src/parser.rs 1495-1520: parse_comment_or_cdata. *)
Definition parse_comment_or_cdata (st : doc) (c : char) : res doc :=
  let chars := d_prev_chars st in
  let total := length chars in
  if (N.eqb c TAG_END_CHAR && Nat.ltb 2 total
      && (N.eqb (nth (total - 1) chars EOF_CHAR) (d_mark_char st)
          && N.eqb (nth (total - 2) chars EOF_CHAR) (d_mark_char st)))%bool then
    let content := firstn (total - 2) chars in
    let st := upd_cur (nset_content (Some content)) (clean_chars st) in
    let st := set_tag_end_info (set_mark_char EOF_CHAR st) in
    ROk (set_code CUnkown st)
  else ROk (push_char c st).

(** src/parser.rs 1939-2014: fix_unescaped_lt. *)
Definition fix_unescaped_lt (st : doc) (c : char) : res doc :=
  let is_end_text := N.eqb c TAG_BEGIN_CHAR in
  let chars := str "&lt;" ++ (if is_end_text then [] else [c]) in
  let node_type := n_type (cur st) in
  (* 1948-1990: (new state, parent of the new text node if any) *)
  let chain_parent :=
    match d_chain_nodes st with i :: _ => i | [] => d_root st end in
  let '(st, parent) :=
    match node_type with
    | NText | NSpacesBetweenTag =>
        let st :=
          match n_content (cur st) with
          | Some content =>
              set_prev_chars (content ++ chars) (upd_cur (nset_content (Some [])) st)
          | None => st
          end in
        let st :=
          if node_type_eqb node_type NSpacesBetweenTag then upd_cur (nset_type NText) st else st in
        (st, None)
    | NTag =>
        let is_closed :=
          match n_meta (cur st) with
          | Some m => (m_self_closed m || m_auto_fix m)%bool
          | None => false
          end in
        if negb is_closed then (st, Some (d_current_node st)) else (st, Some chain_parent)
    | _ => (st, Some chain_parent)
    end in
  let st :=
    match parent with
    | Some p =>
        let id := length (d_heap st) in
        let childs := match n_childs (get_node st p) with Some l => l | None => [] end in
        let n := nset_index (length childs) (node_new NText (d_mem_position st)) in
        let st := upd_node p (nset_childs (Some (childs ++ [id]))) (alloc n st) in
        set_prev_chars chars (set_current_node id st)
    | None => st
    end in
  let st := set_code CTextNode (set_repeat_whitespace false st) in
  (* 2007-2012: the handle just installed is parse_text *)
  if is_end_text then parse_text st c else ROk st.

(** src/parser.rs 1525-1574: parse_unkown_tag. *)
Definition parse_unkown_tag (st : doc) (c : char) : res doc :=
  if is_ascii_alphabetic c then
    do st <- add_new_node (node_new NTag (d_mem_position st)) st;
    ROk (push_char c (set_text_spaces_between (set_code CTag st)))
  else if N.eqb c END_SLASH_CHAR then
    if negb (auto_fix_unclosed_tag (d_parse_options st)) then
      do st <- add_new_node (node_new NTagEnd (d_mem_position st)) st;
      ROk (set_code CTagEnd st)
    else
      let prev_node := d_current_node st in
      do st <- add_new_node (node_new NTagEnd (d_mem_position st)) st;
      ROk (set_code CTagEnd (upd_cur (nset_prev (Some prev_node)) st))
  else if N.eqb c EXCLAM_CHAR then ROk (set_code CExclamationBegin st)
  else if negb (auto_fix_unescaped_lt (d_parse_options st)) then
    RErr (EWrongTag [c]) (d_mem_position st)
  else fix_unescaped_lt st c.

(** src/parser.rs 1579-1692: parse_exclamation_begin. *)
Definition parse_exclamation_begin (st : doc) (c : char) : res doc :=
  match d_detect st with
  | Some next_chars =>
      let total_len := length (d_prev_chars st) in
      let actual_len := length next_chars in
      if Nat.ltb total_len actual_len then
        if N.eqb (nth total_len next_chars EOF_CHAR) (to_ascii_uppercase c) then
          if Nat.eqb total_len (actual_len - 1) then
            let begin_at := d_mem_position st in
            if (N.eqb c DASH_CHAR || N.eqb c LEFT_BRACKET_CHAR)%bool then
              let '(code_in, mark, node_type) :=
                if N.eqb c DASH_CHAR then (CComment, DASH_CHAR, NComment)
                else (CXMLCDATA, RIGHT_BRACKET_CHAR, NXMLCDATA) in
              do st <- add_new_node (node_new node_type begin_at)
                         (set_code code_in (set_mark_char mark st));
              (* ignore_char: the character is not pushed *)
              ROk (set_detect None (set_text_spaces_between (set_prev_chars [] st)))
            else if (N.eqb c 69 || N.eqb c 101)%bool then     (* 'E' | 'e' *)
              do st <- add_new_node (node_new NHTMLDOCTYPE begin_at) (set_code CHTMLDOCTYPE st);
              ROk (push_char c (set_detect None (set_text_spaces_between st)))
            else RPanic PUnreachable
          else ROk (push_char c st)
        else RErr (EUnrecognizedTag (d_prev_chars st) next_chars) (d_mem_position st)
      else ROk (push_char c st)
  | None =>
      do detect_type <-
        (if N.eqb c DASH_CHAR then ROk DComment
         else if (N.eqb c 68 || N.eqb c 100)%bool then ROk DDOCTYPE    (* 'D' | 'd' *)
         else if N.eqb c LEFT_BRACKET_CHAR then
           match d_in_special st with
           | Some (_, tag_name) =>
               match d_chain_nodes st with
               | [] => RPanic PChainEmpty
               | top :: _ =>
                   match n_meta (get_node st top) with
                   | None => RPanic PMetaMissing
                   | Some m =>
                       if is_equal_chars tag_name (m_name m) None
                       then RErr ECommonCdataSub (d_position st)
                       else ROk DXMLCDATA
                   end
               end
           | None => RErr ECommonCdataOutside (d_position st)
           end
         else RErr (EWrongTag (d_prev_chars st)) (d_mem_position st));
      ROk (push_char c (set_detect (Some (detect_char_map detect_type)) st))
  end.

(** The call through the function pointer, src/parser.rs 1864-1865. *)
Definition run_handle (st : doc) (c : char) : res doc :=
  match d_handle st with
  | HNoop => ROk st
  | HWait => parse_wait st c
  | HText => parse_text st c
  | HDoctypeName => parse_doctype_name st c
  | HTagName => parse_tag_name st c
  | HSelfClosing => parse_tag_self_closing st c
  | HTagWait => parse_tag_wait st c
  | HAttrKey => parse_tag_attr_key st c
  | HAttrValue => parse_tag_attr_value st c
  | HTagEnd => parse_tagend st c
  | HContent => parse_content_tag st c
  | HCommentOrCdata => parse_comment_or_cdata st c
  | HUnkownTag => parse_unkown_tag st c
  | HExclamation => parse_exclamation_begin st c
  end.

(** src/parser.rs 1863-1869: next. *)
Definition next (st : doc) (c : char) : res doc :=
  do st <- run_handle st c;
  ROk (set_position (d_position st + 1) st).

(** The loop [for c in content.chars() { doc.next(c, content)?; }], src/parser.rs 1774-1776. *)
Fixpoint run (st : doc) (s : list char) : res doc :=
  match s with
  | [] => ROk st
  | c :: s' => do st <- next st c; run st s'
  end.

(** src/parser.rs 1724-1761: Doc::new and init, with 1773 (parse_options = options). *)
Definition doc_new (opts : parse_options) : doc :=
  mkDoc CAbstractRoot 0 0 None [] EOF_CHAR [0] 0 None false None HWait opts 0 []
    [nset_root (Some 0) (node_new NAbstractRoot 0)].

(** src/parser.rs 1920-1937: fix_unclosed_tag (the loop body and the loop). *)
Definition fix_one_unclosed (st : doc) (tag_node : nid) : doc :=
  match n_meta (get_node st tag_node) with
  | Some m =>
      let st := upd_node tag_node (nupd_meta (mset_auto_fix true)) st in
      let id := length (d_heap st) in
      let e := nset_parent (Some tag_node)
                 (nset_content (Some (m_name m)) (node_new NTagEnd (d_position st))) in
      upd_node tag_node (nset_end_tag (Some id)) (alloc e st)
  | None => st
  end.
(** [unclosed] is in Rust vector order (outermost first). *)
Definition fix_unclosed_tag (unclosed : list nid) (st : doc) : doc :=
  fold_left fix_one_unclosed unclosed st.

(** src/parser.rs 2017-2072: eof. *)
Definition eof (st : doc) : res doc :=
  let cur_depth := length (d_chain_nodes st) in
  do st <-
    (if Nat.ltb 1 cur_depth then
       if negb (auto_fix_unclosed_tag (d_parse_options st)) then
         match d_chain_nodes st with
         | [] => ROk st
         | last :: _ =>
             let last_node := get_node st last in
             match n_meta last_node with
             | None => RPanic PMetaMissing
             | Some m => RErr (EUnclosedTag (m_name m)) (n_begin_at last_node)
             end
         end
       else
         (* split_off(1): keep the outermost entry, fix the others from the outside in *)
         let rust_chain := rev (d_chain_nodes st) in
         let unclosed := skipn 1 rust_chain in
         let st := set_chain_nodes (firstn 1 rust_chain) st in
         ROk (fix_unclosed_tag unclosed st)
     else ROk st);
  do st <-
    (match d_code_in st with
     | CTextNode =>
         let st := upd_cur (nset_content (Some (d_prev_chars st))) st in
         let st := if d_repeat_whitespace st then upd_cur (nset_type NSpacesBetweenTag) st else st in
         ROk (upd_cur (nset_end_at (d_position st)) st)
     | CUnkown | CAbstractRoot => ROk st
     | CTag =>
         if negb (auto_fix_unclosed_tag (d_parse_options st)) then
           RErr (EUnclosedCode (d_code_in st)) (n_begin_at (cur st))
         else ROk st
     | _ => RErr (EUnclosedCode (d_code_in st)) (n_begin_at (cur st))
     end);
  ROk (upd_node (d_root st) (nset_end_at (d_position st)) st).
