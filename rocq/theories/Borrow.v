(** The borrow discipline of the [RefCell]s: the parser, renderer and copier of Parser.v, Render.v and
    Clone.v once more, statement by statement, with every [borrow()] and [borrow_mut()] made explicit.

    A borrow that conflicts with a guard still held stops the program with [BConflict]; in Rust it
    panics (BorrowError / BorrowMutError).  A guard is held for as long as Rust (edition 2018) keeps
    the [Ref]/[RefMut] alive: to the end of the block for one bound by [let], to the end of the
    statement for a temporary, to the end of the whole [if let]/[match] for a temporary in its
    scrutinee, and only for the condition itself in a plain [if].  The right hand side of an
    assignment is evaluated before its place. *)
From Coq Require Import String.
From Verif Require Export Api.
Local Open Scope string_scope.
Local Open Scope list_scope.

(** The cells: a node ([RefNode]), the meta of a node, [Doc.id_tags] and the [Doc] of a DocHolder. *)
Inductive cell := KNode (i : nid) | KMeta (i : nid) | KIds | KDoc.
Definition cell_eqb (a b : cell) : bool :=
  match a, b with
  | KNode i, KNode j | KMeta i, KMeta j => Nat.eqb i j
  | KIds, KIds | KDoc, KDoc => true
  | _, _ => false
  end.

(** The guards held: [true] for a [RefMut], [false] for a [Ref]. *)
Definition guards := list (cell * bool).
Definition borrowed (g : guards) (c : cell) : bool := existsb (fun x => cell_eqb (fst x) c) g.
Definition borrowed_mut (g : guards) (c : cell) : bool :=
  existsb (fun x => (snd x && cell_eqb (fst x) c)%bool) g.

Inductive bres (A : Type) := BRes (r : res A) | BConflict (c : cell).
Arguments BRes {A} r.
Arguments BConflict {A} c.
Definition M (A : Type) := guards -> bres A.
Definition lift {A} (r : res A) : M A := fun _ => BRes r.
Definition ret {A} (a : A) : M A := lift (ROk a).
Definition mbind {A B} (m : M A) (f : A -> M B) : M B := fun g =>
  match m g with
  | BRes (ROk a) => f a g
  | BRes (RErr k i) => BRes (RErr k i)
  | BRes (RPanic p) => BRes (RPanic p)
  | BConflict c => BConflict c
  end.
Notation "'bdo' x <- m ; k" := (mbind m (fun x => k))
  (at level 200, x name, m at level 100, k at level 200, right associativity).
Notation "'bdo' ' x <- m ; k" := (mbind m (fun x => k))
  (at level 200, x strict pattern, m at level 100, k at level 200, right associativity).
(** [m] runs while [c.borrow()] / [c.borrow_mut()] is held. *)
Definition reading {A} (c : cell) (m : M A) : M A := fun g =>
  if borrowed_mut g c then BConflict c else m ((c, false) :: g).
Definition writing {A} (c : cell) (m : M A) : M A := fun g =>
  if borrowed g c then BConflict c else m ((c, true) :: g).

(** [node.borrow_mut().field = v] *)
Definition wnode (i : nid) (f : node -> node) (st : doc) : M doc :=
  writing (KNode i) (ret (upd_node i f st)).
Definition wcur (f : node -> node) (st : doc) : M doc := wnode (d_current_node st) f st.
(** [node.borrow().field] *)
Definition rnode {A} (i : nid) (f : node -> A) (st : doc) : M A :=
  reading (KNode i) (ret (f (get_node st i))).
(** [meta.borrow_mut()...] on the meta of node [i] *)
Definition wmeta (i : nid) (f : tag_meta -> tag_meta) (st : doc) : M doc :=
  writing (KMeta i) (ret (upd_node i (nupd_meta f) st)).
(** [node.borrow().meta.as_ref().expect(..).borrow().field] *)
Definition rmeta {A} (i : nid) (f : tag_meta -> A) (st : doc) : M A :=
  reading (KNode i)
    (match n_meta (get_node st i) with
     | None => lift (RPanic PMetaMissing)
     | Some m => reading (KMeta i) (ret (f m))
     end).

(** src/parser.rs 1872-1899: add_new_node. *)
Definition add_new_node_b (n : node) (st : doc) : M doc :=
  let id := length (d_heap st) in
  let st := alloc n st in
  bdo node_type <- rnode id n_type st;                                    (* 1874 *)
  bdo st <-
    (if negb (node_type_eqb node_type NTagEnd) then
       match d_chain_nodes st with
       | [] => lift (RPanic PChainEmpty)
       | parent :: _ =>
           bdo st <- wnode id (nset_parent (Some parent)) st;             (* 1878 *)
           writing (KNode parent)                                         (* 1880 *)
             (bdo st <-
                (match n_childs (get_node st parent) with
                 | Some childs =>
                     bdo st <- wnode id (nset_index (length childs)) st;  (* 1884 *)
                     ret (upd_node parent (nset_childs (Some (childs ++ [id]))) st)
                 | None =>
                     bdo st <- wnode id (nset_index 0) st;                (* 1887 *)
                     ret (upd_node parent (nset_childs (Some [id])) st)
                 end);
              wnode id (nset_root (Some (d_root st))) st)                 (* 1891 *)
       end
     else ret st);
  let st := set_current_node id st in
  ret (if node_type_eqb node_type NTag then set_chain_nodes (id :: d_chain_nodes st) st else st).

(** src/parser.rs 1901-1910: set_tag_end_info. *)
Definition set_tag_end_info_b (st : doc) : M doc :=
  wcur (fun n => nset_end_at
    (if node_type_eqb (n_type n) NText then d_position st else d_position st + 1) n) st.

(** src/parser.rs 1912-1917: set_text_spaces_between. *)
Definition set_text_spaces_between_b (st : doc) : M doc :=
  match d_check_textnode st with
  | Some i => bdo st <- wnode i (nset_type NSpacesBetweenTag) st; ret (set_check_textnode None st)
  | None => ret st
  end.

(** src/parser.rs 2078-2094: set_tag_meta.  The meta cell is created here. *)
Definition set_tag_meta_b (st : doc) : M (bool * doc) :=
  let name := d_prev_chars st in
  let is_void := is_void_tag (lower name) in
  let meta := mkMeta TWait is_void false false name [] [] in
  bdo st <- wcur (nset_meta (Some meta)) (clean_chars st);                (* 2092 *)
  ret (is_void, st).

(** src/parser.rs 2096-2107: set_tag_code_in. *)
Definition set_tag_code_in_b (c : tag_code_in) (st : doc) : M doc :=
  let st :=
    match c with
    | TWait | TWaitValue | TValueEnd => set_handle HTagWait st
    | TKey => set_handle HAttrKey st
    | TValue => set_handle HAttrValue st
    | TKeyEnd => st
    end in
  writing (KNode (d_current_node st))                                     (* 2104 *)
    (match n_meta (cur st) with
     | Some _ => wmeta (d_current_node st) (mset_code_in c) st            (* 2105 *)
     | None => ret st
     end).

(** src/parser.rs 2109-2118: is_tag_code_in. *)
Definition tag_code_of_b (st : doc) : M tag_code_in := rmeta (d_current_node st) m_code_in st.

(** src/parser.rs 2120-2125: add_tag_attr_key. *)
Definition add_tag_attr_key_b (st : doc) : M doc :=
  let i := d_current_node st in
  writing (KNode i)                                                       (* 2121 *)
    (match n_meta (cur st) with
     | Some _ =>
         bdo st <- wmeta i (fun m => mset_attrs (m_attrs m ++ [mkAttr (Some []) None None false]) m) st;
         wmeta i (mset_code_in TKey) st                                   (* 2122, 2123 *)
     | None => ret st
     end).

(** src/parser.rs 2144-2152: add_tag_attr_value. *)
Definition add_tag_attr_value_b (quote : option char) (st : doc) : M doc :=
  let i := d_current_node st in
  writing (KNode i)                                                       (* 2145 *)
    (match n_meta (cur st) with
     | None => lift (RPanic PMetaMissing)
     | Some _ =>
         bdo st <- wmeta i (fun m => mset_attrs (m_attrs m ++ [mkAttr None (Some []) quote false]) m) st;
         wmeta i (mset_code_in TValue) st                                 (* 2150, 2151 *)
     end).

(** src/parser.rs 2127-2142: set_tag_attr_key. *)
Definition set_tag_attr_key_b (st : doc) : M doc :=
  let key := d_prev_chars st in
  let st := clean_chars st in
  let i := d_current_node st in
  writing (KNode i)                                                       (* 2129 *)
    (match n_meta (cur st) with
     | None => ret st
     | Some m =>
         writing (KMeta i)                                                (* 2130 *)
           (match m_attrs m with
            | [] => lift (RPanic PAttrsEmpty)
            | _ =>
                let index := length (m_attrs m) - 1 in
                ret (upd_cur (nupd_meta (fun m =>
                  mset_attrs (upd_last (fun a => mkAttr (Some key) (a_value a) (a_quote a) (a_need_quote a))
                                       (m_attrs m))
                    (mset_lc_name_map (map_or_insert (m_lc_name_map m) (lower key) index) m))) st)
            end)
     end).

(** src/parser.rs 2155-2170: set_tag_attr_value. *)
Definition set_tag_attr_value_b (quote : option char) (st : doc) : M doc :=
  let value := d_prev_chars st in
  let st := clean_chars st in
  let i := d_current_node st in
  writing (KNode i)                                                       (* 2157 *)
    (match n_meta (cur st) with
     | None => ret st
     | Some m =>
         let set a := mkAttr (a_key a) (Some value) quote (a_need_quote a) in
         writing (KMeta i)                                                (* 2158 *)
           (match last_opt (m_attrs m) with
            | None => lift (RPanic PAttrsEmpty)
            | Some a =>
                let st := upd_cur (nupd_meta (fun m => mset_attrs (upd_last set (m_attrs m)) m)) st in
                match check_if_id (set a) with
                | Some id =>
                    writing KIds                                          (* 2164-2167 *)
                      (ret (set_id_tags (map_insert (d_id_tags st) id (d_current_node st)) st))
                | None => ret st
                end
            end)
     end).

(** src/parser.rs 2173-2232: check_tag_type_do. *)
Definition check_tag_type_do_b (st : doc) : M doc :=
  bdo name <- rmeta (d_current_node st) m_name st;                        (* 2175-2184 *)
  let lc_tag_name := lower name in
  if is_content_tag lc_tag_name None then
    let st := set_mem_position (d_position st) st in
    let code_in :=
      if is_equal_chars lc_tag_name SCRIPT_TAG_NAME None then CHTMLScript
      else if is_equal_chars lc_tag_name STYLE_TAG_NAME None then CHTMLStyle
      else CEscapeableRawText in
    let st := set_code code_in st in
    bdo name <- rmeta (d_current_node st) m_name st;                      (* 2199-2207 *)
    ret (set_detect (Some ([TAG_BEGIN_CHAR; END_SLASH_CHAR] ++ name)) st)
  else
    bdo st <-
      (match d_in_special st with
       | None =>
           match special_tag_map lc_tag_name with
           | Some special =>
               bdo name <- rmeta (d_current_node st) m_name st;           (* 2216-2224 *)
               ret (set_in_special (Some (special, name)) st)
           | None => ret (set_in_special None st)
           end
       | Some _ => ret st
       end);
    ret (set_code CUnkown st).

(** src/parser.rs 966-1003: parse_wait. *)
Definition parse_wait_b (st : doc) (c : char) : M doc :=
  if N.eqb c TAG_BEGIN_CHAR then
    ret (set_code CUnkownTag (set_mem_position (d_position st) st))
  else
    bdo textual <-
      (if auto_fix_unexpected_endtag (d_parse_options st)
       then rnode (d_current_node st)                                     (* 976 *)
              (fun n => node_type_eqb (n_type n) NText || node_type_eqb (n_type n) NSpacesBetweenTag)%bool st
       else ret false);
    bdo st <-
      (if (textual : bool) then
         writing (KNode (d_current_node st))                              (* 980 *)
           (let st :=
              match n_content (cur st) with
              | Some content =>
                  upd_cur (nset_content (Some [])) (set_prev_chars (d_prev_chars st ++ content) st)
              | None => st
              end in
            ret (set_repeat_whitespace
                   (if node_type_eqb (n_type (cur st)) NText then false else is_ascii_whitespace c) st))
       else
         bdo st <- add_new_node_b (node_new NText (d_position st)) st;
         ret (set_repeat_whitespace (is_ascii_whitespace c) st));
    ret (set_code CTextNode (push_char c st)).

(** src/parser.rs 1008-1033: parse_text. *)
Definition parse_text_b (st : doc) (c : char) : M doc :=
  if N.eqb c TAG_BEGIN_CHAR then
    let content := d_prev_chars st in
    bdo st <- wcur (nset_content (Some content)) (clean_chars st);        (* 1014 *)
    let st := set_check_textnode
      (if d_repeat_whitespace st then Some (d_current_node st) else None) st in
    let st := set_mem_position (d_position st) st in
    bdo st <- set_tag_end_info_b st;
    ret (set_code CUnkownTag st)
  else
    let st :=
      if d_repeat_whitespace st then set_repeat_whitespace (is_ascii_whitespace c) st else st in
    ret (push_char c st).

(** src/parser.rs 1038-1046: parse_doctype_name. *)
Definition parse_doctype_name_b (st : doc) (c : char) : M doc :=
  if is_ascii_whitespace c then
    bdo r <- set_tag_meta_b st; set_tag_code_in_b TWait (snd r)
  else lift (doc_error (EWrongHtmlDoctype c) st).

(** src/parser.rs 1052-1088: parse_tag_name. *)
Definition parse_tag_name_b (st : doc) (c : char) : M doc :=
  if N.eqb c TAG_END_CHAR then
    bdo '(is_void, st) <- set_tag_meta_b st;
    if (is_void : bool) then ret (set_code CUnkown (chain_pop st))
    else check_tag_type_do_b st
  else if N.eqb c END_SLASH_CHAR then
    bdo r <- set_tag_meta_b st; ret (set_handle HSelfClosing (snd r))
  else if is_ascii_whitespace c then
    bdo r <- set_tag_meta_b st; set_tag_code_in_b TWait (snd r)
  else ret (push_char c st).

(** src/parser.rs 1133-1234: parse_tag_wait. *)
Definition parse_tag_wait_b (st : doc) (c : char) : M doc :=
  if (N.eqb c DOUBLE_QUOTE_CHAR || N.eqb c SINGLE_QUOTE_CHAR)%bool then
    bdo code <- tag_code_of_b st;
    if tag_code_in_eqb code TWaitValue then
      set_tag_code_in_b TValue (set_mark_char c st)
    else
      match d_code_in st with
      | CHTMLDOCTYPE =>
          bdo st <- add_tag_attr_value_b (Some c) st;
          set_tag_code_in_b TValue (set_mark_char c st)
      | _ => bdo st <- add_tag_attr_key_b st; set_tag_code_in_b TKey (push_char c st)
      end
  else if N.eqb c TAG_END_CHAR then
    bdo is_void <- rmeta (d_current_node st) m_is_void st;                (* 1164-1171 *)
    if (is_void : bool) then ret (set_code CUnkown (chain_pop st))
    else check_tag_type_do_b st
  else if N.eqb c END_SLASH_CHAR then
    ret (set_handle HSelfClosing st)
  else if N.eqb c EQUAL_CHAR then
    bdo code <- tag_code_of_b st;
    if tag_code_in_eqb code TKeyEnd then set_tag_code_in_b TWaitValue st
    else
      bdo code <- tag_code_of_b st;
      if tag_code_in_eqb code TWait then
        if negb (allow_attr_key_starts_with_equal_sign (d_parse_options st)) then
          lift (RErr (EWrongTag (str "'=' is not a valid attribute name")) (d_position st))
        else
          bdo st <- add_tag_attr_key_b (push_char c st); set_tag_code_in_b TKey st
      else set_tag_code_in_b TValue (set_mark_char WS_CHAR (push_char c st))
  else if is_ascii_whitespace c then ret st
  else
    let st := push_char c st in
    bdo code <- tag_code_of_b st;
    if tag_code_in_eqb code TWaitValue then
      set_tag_code_in_b TValue (set_mark_char WS_CHAR st)
    else bdo st <- add_tag_attr_key_b st; set_tag_code_in_b TKey st.

(** src/parser.rs 1094-1130: parse_tag_self_closing. *)
Definition parse_tag_self_closing_b (st : doc) (c : char) : M doc :=
  if N.eqb c TAG_END_CHAR then
    let i := d_current_node st in
    bdo st <-
      writing (KNode i)                                                   (* 1100 *)
        (match n_meta (cur st) with
         | None => lift (RPanic PMetaMissing)
         | Some m =>
             let is_doctype := match d_code_in st with CHTMLDOCTYPE => true | _ => false end in
             bdo _ <-
               (if (negb (allow_self_closing (d_parse_options st)) && negb is_doctype)%bool then
                  bdo is_void <- reading (KMeta i) (ret (m_is_void m));   (* 1105 *)
                  if negb (is_void || match d_in_special st with Some _ => true | None => false end)
                  then
                    reading (KMeta i) (lift (doc_error (EWrongSelfClosing (m_name m)) st)) (* 1106-1109 *)
                  else ret st
                else ret st);
             wmeta i (mset_self_closed true) st                           (* 1112 *)
         end);
    ret (set_code CUnkown (chain_pop st))
  else if N.eqb c END_SLASH_CHAR then ret st
  else parse_tag_wait_b st c.

(** src/parser.rs 1237-1276: parse_tag_attr_key. *)
Definition parse_tag_attr_key_b (st : doc) (c : char) : M doc :=
  if N.eqb c EQUAL_CHAR then
    bdo st <- set_tag_attr_key_b st;
    set_tag_code_in_b TWaitValue st
  else if N.eqb c TAG_END_CHAR then
    bdo st <- set_tag_attr_key_b st;
    bdo st <- set_tag_code_in_b TKeyEnd st;
    parse_tag_wait_b st c
  else if N.eqb c END_SLASH_CHAR then
    bdo st <- set_tag_attr_key_b st;
    bdo st <- set_tag_code_in_b TWait st;
    ret (set_handle HSelfClosing st)
  else if is_ascii_whitespace c then
    bdo st <- set_tag_attr_key_b st;
    bdo st <- set_tag_code_in_b TKeyEnd st;
    ret (set_handle HTagWait st)
  else ret (push_char c st).

(** src/parser.rs 1279-1306: parse_tag_attr_value. *)
Definition parse_tag_attr_value_b (st : doc) (c : char) : M doc :=
  let quote := d_mark_char st in
  if (N.eqb quote WS_CHAR && N.eqb c TAG_END_CHAR)%bool then
    bdo st <- set_tag_attr_value_b None st;
    bdo st <- set_tag_code_in_b TValueEnd st;
    parse_tag_wait_b st c
  else
    let '(is_end, attr_quote) :=
      if N.eqb quote WS_CHAR then (is_ascii_whitespace c, None)
      else (N.eqb c quote, Some quote) in
    if (is_end : bool) then
      bdo st <- set_tag_attr_value_b attr_quote (set_mark_char EOF_CHAR st);
      set_tag_code_in_b TWait st
    else ret (push_char c st).

(** src/parser.rs 1311-1402: parse_tagend. *)
Definition parse_tagend_b (st : doc) (c : char) : M doc :=
  if N.eqb c TAG_END_CHAR then
    let end_tag_name := d_prev_chars st in
    let fix_end_tag_name := chars_trim_end end_tag_name in
    bdo is_endtag_ok <-
      (if Nat.ltb 1 (length (d_chain_nodes st)) then
         match d_chain_nodes st with
         | [] => ret false
         | tag :: _ =>
             reading (KNode tag)                                          (* 1322 *)
               (match n_meta (get_node st tag) with
                | None => lift (RPanic PMetaMissing)
                | Some m =>
                    reading (KMeta tag)                                   (* 1327 *)
                      (let '(is_equal, is_total_same) :=
                         is_equal_chars_ignore_case (m_name m) fix_end_tag_name in
                       if is_equal then
                         if (case_sensitive_tagname (d_parse_options st) && negb is_total_same)%bool
                         then lift (RErr (EWrongCaseSensitive (d_prev_chars st)) (d_position st))
                         else ret true
                       else ret false)
                end)
         end
       else ret false);
    if (is_endtag_ok : bool) then
      match d_chain_nodes st with
      | [] => lift (RPanic PChainEmpty)
      | last_tag :: chain' =>
          let st := set_chain_nodes chain' st in
          bdo st <- wnode last_tag (nset_end_tag (Some (d_current_node st))) st;   (* 1350 *)
          bdo is_only_text_child <-
            reading (KNode last_tag)                                      (* 1352-1355 *)
              (match n_childs (get_node st last_tag) with
               | Some childs =>
                   match childs with
                   | [k] => rnode k (fun n => node_type_eqb (n_type n) NText) st
                   | _ => ret false
                   end
               | None => ret false
               end);
          bdo st <- (if (is_only_text_child : bool) then ret st else set_text_spaces_between_b st);
          bdo st <- set_tag_end_info_b st;
          let st := set_code CUnkown st in
          let st :=
            match d_in_special st with
            | Some (_, name) =>
                if is_equal_chars name fix_end_tag_name None then set_in_special None st else st
            | None => st
            end in
          let content := d_prev_chars st in
          wcur (fun n => nset_content (Some content) (nset_parent (Some last_tag) n)) (clean_chars st) (* 1371 *)
      end
    else if negb (auto_fix_unexpected_endtag (d_parse_options st)) then
      lift (doc_error (EWrongEndTag (d_prev_chars st)) st)
    else
      bdo orig <-
        reading (KNode (d_current_node st))                               (* 1382 *)
          (match n_prev (cur st) with
           | Some prev_node =>
               if alive st prev_node then ret (Some prev_node) else lift (RPanic PUpgrade)
           | None => ret None
           end);
      let st := match orig with Some o => set_current_node o st | None => st end in
      ret (set_code CUnkown (clean_chars st))
  else ret (push_char c st).

(** src/parser.rs 1407-1490: parse_content_tag. *)
Definition parse_content_tag_b (st : doc) (c : char) : M doc :=
  if negb (N.eqb c TAG_END_CHAR) then ret (push_char c st)
  else
    match d_detect st with
    | None => lift (RPanic PDetectMissing)
    | Some end_tag =>
        let prev_chars := d_prev_chars st in
        let trimmed := chars_trim_end prev_chars in
        if (Nat.leb (length end_tag) (length prev_chars)
            && Nat.leb (length end_tag) (length trimmed)
            && match_backward (case_sensitive_tagname (d_parse_options st))
                 (rev end_tag) (rev trimmed))%bool
        then
          let prev_len := length trimmed - length end_tag in
          let st := set_code CUnkown st in
          let end_tag_name := skipn 2 (skipn prev_len prev_chars) in
          let id := length (d_heap st) in
          let e := nset_parent (Some (d_current_node st))
                     (nset_content (Some end_tag_name) (node_new NTagEnd (d_position st + 1))) in
          let st := alloc e st in
          let content := firstn prev_len prev_chars in
          let st := clean_chars st in
          writing (KNode (d_current_node st))                             (* 1479 *)
            (let st := upd_cur (nset_end_tag (Some id)) st in
             let st := upd_cur (nset_content (Some content)) st in
             ret (set_detect None (chain_pop st)))
        else ret (push_char c st)
    end.

(** src/parser.rs 1495-1520: parse_comment_or_cdata. *)
Definition parse_comment_or_cdata_b (st : doc) (c : char) : M doc :=
  let chars := d_prev_chars st in
  let total := length chars in
  if (N.eqb c TAG_END_CHAR && Nat.ltb 2 total
      && (N.eqb (nth (total - 1) chars EOF_CHAR) (d_mark_char st)
          && N.eqb (nth (total - 2) chars EOF_CHAR) (d_mark_char st)))%bool then
    let content := firstn (total - 2) chars in
    bdo st <- wcur (nset_content (Some content)) (clean_chars st);        (* 1509 *)
    bdo st <- set_tag_end_info_b (set_mark_char EOF_CHAR st);
    ret (set_code CUnkown st)
  else ret (push_char c st).

(** src/parser.rs 1939-2014: fix_unescaped_lt. *)
Definition fix_unescaped_lt_b (st : doc) (c : char) : M doc :=
  let is_end_text := N.eqb c TAG_BEGIN_CHAR in
  let chars := str "&lt;" ++ (if is_end_text then [] else [c]) in
  bdo node_type <- rnode (d_current_node st) n_type st;                   (* 1943 *)
  let chain_parent := match d_chain_nodes st with i :: _ => i | [] => d_root st end in
  bdo '(st, parent) <-
    (match node_type with
     | NText | NSpacesBetweenTag =>
         bdo st <-
           writing (KNode (d_current_node st))                            (* 1951 *)
             (match n_content (cur st) with
              | Some content =>
                  ret (set_prev_chars (content ++ chars) (upd_cur (nset_content (Some [])) st))
              | None => ret st
              end);
         bdo st <-
           (if node_type_eqb node_type NSpacesBetweenTag
            then wcur (nset_type NText) st else ret st);                  (* 1959 *)
         ret (st, None)
     | NTag =>
         bdo is_closed <-
           reading (KNode (d_current_node st))                            (* 1964-1972 *)
             (match n_meta (cur st) with
              | Some m => reading (KMeta (d_current_node st)) (ret (m_self_closed m || m_auto_fix m)%bool)
              | None => ret false
              end);
         ret (if negb is_closed then (st, Some (d_current_node st)) else (st, Some chain_parent))
     | _ => ret (st, Some chain_parent)
     end);
  bdo st <-
    (match parent with
     | Some p =>
         let id := length (d_heap st) in
         let st := alloc (node_new NText (d_mem_position st)) st in
         writing (KNode p)                                                (* 1994 *)
           (let childs := match n_childs (get_node st p) with Some l => l | None => [] end in
            bdo st <- wnode id (nset_index (length childs)) st;           (* 1996 *)
            let st := upd_node p (nset_childs (Some (childs ++ [id]))) st in
            ret (set_prev_chars chars (set_current_node id st)))
     | None => ret st
     end);
  let st := set_code CTextNode (set_repeat_whitespace false st) in
  if is_end_text then parse_text_b st c else ret st.

(** src/parser.rs 1525-1574: parse_unkown_tag. *)
Definition parse_unkown_tag_b (st : doc) (c : char) : M doc :=
  if is_ascii_alphabetic c then
    bdo st <- add_new_node_b (node_new NTag (d_mem_position st)) st;
    bdo st <- set_text_spaces_between_b (set_code CTag st);
    ret (push_char c st)
  else if N.eqb c END_SLASH_CHAR then
    if negb (auto_fix_unclosed_tag (d_parse_options st)) then
      bdo st <- add_new_node_b (node_new NTagEnd (d_mem_position st)) st;
      ret (set_code CTagEnd st)
    else
      let prev_node := d_current_node st in
      bdo st <- add_new_node_b (node_new NTagEnd (d_mem_position st)) st;
      bdo st <- wcur (nset_prev (Some prev_node)) st;                     (* 1552 *)
      ret (set_code CTagEnd st)
  else if N.eqb c EXCLAM_CHAR then ret (set_code CExclamationBegin st)
  else if negb (auto_fix_unescaped_lt (d_parse_options st)) then
    lift (RErr (EWrongTag [c]) (d_mem_position st))
  else fix_unescaped_lt_b st c.

(** src/parser.rs 1579-1692: parse_exclamation_begin. *)
Definition parse_exclamation_begin_b (st : doc) (c : char) : M doc :=
  match d_detect st with
  | Some next_chars =>
      let total_len := length (d_prev_chars st) in
      let actual_len := length next_chars in
      if Nat.ltb total_len actual_len then
        if N.eqb (nth total_len next_chars EOF_CHAR) (to_ascii_uppercase c) then
          if Nat.eqb total_len (actual_len - 1) then
            let begin_at := d_mem_position st in
            if (N.eqb c DASH_CHAR || N.eqb c LEFT_BRACKET_CHAR)%bool then
              let '(code_in, mark, node_type) :=
                if N.eqb c DASH_CHAR then (CComment, DASH_CHAR, NComment)
                else (CXMLCDATA, RIGHT_BRACKET_CHAR, NXMLCDATA) in
              bdo st <- add_new_node_b (node_new node_type begin_at)
                         (set_code code_in (set_mark_char mark st));
              bdo st <- set_text_spaces_between_b (set_prev_chars [] st);
              ret (set_detect None st)
            else if (N.eqb c 69 || N.eqb c 101)%bool then
              bdo st <- add_new_node_b (node_new NHTMLDOCTYPE begin_at) (set_code CHTMLDOCTYPE st);
              bdo st <- set_text_spaces_between_b st;
              ret (push_char c (set_detect None st))
            else lift (RPanic PUnreachable)
          else ret (push_char c st)
        else lift (RErr (EUnrecognizedTag (d_prev_chars st) next_chars) (d_mem_position st))
      else ret (push_char c st)
  | None =>
      bdo detect_type <-
        (if N.eqb c DASH_CHAR then ret DComment
         else if (N.eqb c 68 || N.eqb c 100)%bool then ret DDOCTYPE
         else if N.eqb c LEFT_BRACKET_CHAR then
           match d_in_special st with
           | Some (_, tag_name) =>
               match d_chain_nodes st with
               | [] => lift (RPanic PChainEmpty)
               | top :: _ =>
                   bdo same <- rmeta top (fun m => is_equal_chars tag_name (m_name m) None) st; (* 1649-1663 *)
                   if (same : bool) then lift (RErr ECommonCdataSub (d_position st))
                   else ret DXMLCDATA
               end
           | None => lift (RErr ECommonCdataOutside (d_position st))
           end
         else lift (RErr (EWrongTag (d_prev_chars st)) (d_mem_position st)));
      ret (push_char c (set_detect (Some (detect_char_map detect_type)) st))
  end.

(** src/parser.rs 1863-1869: next. *)
Definition run_handle_b (st : doc) (c : char) : M doc :=
  match d_handle st with
  | HNoop => ret st
  | HWait => parse_wait_b st c
  | HText => parse_text_b st c
  | HDoctypeName => parse_doctype_name_b st c
  | HTagName => parse_tag_name_b st c
  | HSelfClosing => parse_tag_self_closing_b st c
  | HTagWait => parse_tag_wait_b st c
  | HAttrKey => parse_tag_attr_key_b st c
  | HAttrValue => parse_tag_attr_value_b st c
  | HTagEnd => parse_tagend_b st c
  | HContent => parse_content_tag_b st c
  | HCommentOrCdata => parse_comment_or_cdata_b st c
  | HUnkownTag => parse_unkown_tag_b st c
  | HExclamation => parse_exclamation_begin_b st c
  end.
Definition next_b (st : doc) (c : char) : M doc :=
  bdo st <- run_handle_b st c;
  ret (set_position (d_position st + 1) st).
Fixpoint run_b (st : doc) (s : list char) : M doc :=
  match s with
  | [] => ret st
  | c :: s' => bdo st <- next_b st c; run_b st s'
  end.

(** src/parser.rs 1724-1756: Doc::new. *)
Definition doc_new_b (opts : parse_options) : M doc :=
  let st := mkDoc CAbstractRoot 0 0 None [] EOF_CHAR [0] 0 None false None HWait opts 0 []
    [node_new NAbstractRoot 0] in
  wnode 0 (nset_root (Some 0)) st.                                        (* 1732 *)

(** src/parser.rs 1920-1937: fix_unclosed_tag. *)
Definition fix_one_unclosed_b (st : doc) (tag_node : nid) : M doc :=
  bdo '(st, end_tag) <-
    writing (KNode tag_node)                                              (* 1923 *)
      (match n_meta (get_node st tag_node) with
       | Some m =>
           bdo st <- wmeta tag_node (mset_auto_fix true) st;              (* 1925 *)
           reading (KMeta tag_node)                                       (* 1927 *)
             (match n_meta (get_node st tag_node) with
              | Some m =>
                  ret (st, Some (nset_parent (Some tag_node)
                    (nset_content (Some (m_name m)) (node_new NTagEnd (d_position st)))))
              | None => ret (st, None)
              end)
       | None => ret (st, None)
       end);
  match end_tag with
  | Some e =>
      let id := length (d_heap st) in
      wnode tag_node (nset_end_tag (Some id)) (alloc e st)                (* 1934 *)
  | None => ret st
  end.
Fixpoint fix_unclosed_tag_b (unclosed : list nid) (st : doc) : M doc :=
  match unclosed with
  | [] => ret st
  | i :: l => bdo st <- fix_one_unclosed_b st i; fix_unclosed_tag_b l st
  end.

(** src/parser.rs 2017-2072: eof. *)
Definition eof_b (st : doc) : M doc :=
  let cur_depth := length (d_chain_nodes st) in
  bdo st <-
    (if Nat.ltb 1 cur_depth then
       if negb (auto_fix_unclosed_tag (d_parse_options st)) then
         match d_chain_nodes st with
         | [] => ret st
         | last :: _ =>
             reading (KNode last)                                         (* 2022 *)
               (let last_node := get_node st last in
                match n_meta last_node with
                | None => lift (RPanic PMetaMissing)
                | Some m =>
                    bdo name <- reading (KMeta last) (ret (m_name m));    (* 2025-2030 *)
                    lift (RErr (EUnclosedTag name) (n_begin_at last_node))
                end)
         end
       else
         let rust_chain := rev (d_chain_nodes st) in
         let unclosed := skipn 1 rust_chain in
         let st := set_chain_nodes (firstn 1 rust_chain) st in
         fix_unclosed_tag_b unclosed st
     else ret st);
  bdo st <-
    (match d_code_in st with
     | CTextNode =>
         writing (KNode (d_current_node st))                              (* 2042 *)
           (let st := upd_cur (nset_content (Some (d_prev_chars st))) st in
            let st := if d_repeat_whitespace st then upd_cur (nset_type NSpacesBetweenTag) st else st in
            ret (upd_cur (nset_end_at (d_position st)) st))
     | CUnkown | CAbstractRoot => ret st
     | CTag =>
         if negb (auto_fix_unclosed_tag (d_parse_options st)) then
           bdo b <- rnode (d_current_node st) n_begin_at st;              (* 2056 *)
           lift (RErr (EUnclosedCode (d_code_in st)) b)
         else ret st
     | _ =>
         bdo b <- rnode (d_current_node st) n_begin_at st;                (* 2064 *)
         lift (RErr (EUnclosedCode (d_code_in st)) b)
     end);
  wnode (d_root st) (nset_end_at (d_position st)) st.                     (* 2070 *)

(** src/parser.rs 1765-1769: into_root sets the weak link [document] of the root, which is not part
    of the node model. *)
Definition into_root_b (st : doc) : M doc :=
  writing KDoc (writing (KNode (d_root st)) (ret st)).                    (* 1766 *)

(** src/parser.rs 1772-1780: Doc::parse. *)
Definition parse_b (opts : parse_options) (content : list char) : M doc :=
  bdo st <- doc_new_b opts;
  bdo st <- run_b st content;
  bdo st <- eof_b st;
  into_root_b st.

(** src/parser.rs 1783-1808: Doc::parse_file, the loop over the lines.  The result is the error or
    document together with the context passed to the handlers. *)
Definition with_context {A} (context : list char) (m : M A) : M (list char * res A) := fun g =>
  match m g with
  | BRes r => BRes (ROk (context, r))
  | BConflict c => BConflict c
  end.
Fixpoint run_file_b (st : doc) (content : list char) (lines : list (list char))
    : M (list char * res doc) :=
  match lines with
  | [] => with_context content (bdo st <- eof_b st; into_root_b st)
  | line :: rest =>
      let content := content ++ line in
      bdo '(_, r) <- with_context content (bdo st <- run_b st line; next_b st LF_CHAR);
      match r with
      | ROk st => run_file_b st content rest
      | _ => ret (content, r)
      end
  end.
Definition parse_file_b (opts : parse_options) (text : list char) : M (list char * res doc) :=
  bdo st <- doc_new_b opts; run_file_b st [] (file_lines text).

(** ** The renderer, on the nodes of the heap *)

(** src/parser.rs 577-792: build_node, called with [&self] borrowed from node [i]; only the arms for
    tags and doctypes borrow the meta (663-667, 750-754). *)
Definition build_node_b (env : entity_env) (o : render_options) (h : list node) (i : nid)
    (s : render_status) : M (render_status * list char) :=
  let n := hget h i in
  let t := TNode (n_index n) (n_type n) (n_begin_at n) (n_end_at n) None (n_content n) None (n_meta n) in
  match n_type n, n_meta n with
  | NTag, Some _ | NHTMLDOCTYPE, Some _ => reading (KMeta i) (lift (build_node env o t s))
  | _, _ => lift (build_node env o t s)
  end.

(** src/parser.rs 794-815: build_tree with [&self] borrowed from node [i]. *)
Fixpoint build_tree_b (env : entity_env) (o : render_options) (fuel : nat) (h : list node) (i : nid)
    (s : render_status) {struct fuel} : M (render_status * list char) :=
  match fuel with
  | O => lift (RPanic PFuel)
  | S fuel' =>
      let n := hget h i in
      let build_list :=
        (fix build_list (l : list nid) (s : render_status) {struct l} : M (render_status * list char) :=
           match l with
           | [] => ret (s, [])
           | k :: l' =>
               bdo '(s1, o1) <- reading (KNode k) (build_tree_b env o fuel' h k s);   (* 803, 808 *)
               bdo '(s2, o2) <- build_list l' s1;
               ret (s2, o1 ++ o2)
           end) in
      bdo '(s1, o1) <- build_node_b env o h i s;
      bdo '(s2, o2) <-
        (match n_childs n with
         | None => ret (s1, [])
         | Some l =>
             if rs_root s1 then
               bdo '(_, out) <- build_list l (rs_set_root false s1);
               ret (s1, out)
             else build_list l s1
         end);
      bdo '(s3, o3) <-
        (match n_end_tag n with
         | None => ret (s2, [])
         | Some e => reading (KNode e) (build_node_b env o h e s2)                    (* 813 *)
         end);
      ret (s3, o1 ++ o2 ++ o3)
  end.

(** src/parser.rs 847-860: the search for the only tag among the children. *)
Fixpoint find_tag_b (h : list node) (l : list nid) (found : option nid) : M (option nid) :=
  match l with
  | [] => ret found
  | k :: l' =>
      bdo is_tag <- reading (KNode k) (ret (node_type_eqb (n_type (hget h k)) NTag)); (* 852 *)
      if (is_tag : bool) then
        match found with
        | Some _ => lift (RPanic PInnerHtml)
        | None => find_tag_b h l' (Some k)
        end
      else find_tag_b h l' found
  end.

(** src/parser.rs 817-891: build with [&self] borrowed from node [i]. *)
Definition build_b (env : entity_env) (o : render_options) (h : list node) (i : nid) (inner_text : bool)
    : M (list char) :=
  if (inner_text && inner_html o)%bool then lift (RPanic PInnerHtml)
  else
    let inner := if inner_text then IText else if inner_html o then IHtml else INone in
    let s := mkRS inner false true in
    let go i := bdo '(_, out) <- build_tree_b env o (length h) h i s; ret out in
    match inner with
    | INone => go i
    | _ =>
        match n_type (hget h i) with
        | NAbstractRoot =>
            match n_childs (hget h i) with
            | None => ret []
            | Some childs =>
                bdo found <- find_tag_b h childs None;
                match found with
                | Some k => reading (KNode k) (go k)                                  (* 861 *)
                | None =>
                    match last_opt childs with
                    | Some k => reading (KNode k) (lift (RPanic PInnerHtml))          (* 865 *)
                    | None => lift (RPanic PInnerHtml)   (* index out of bounds *)
                    end
                end
            end
        | NTag => go i
        | NComment | NXMLCDATA =>
            match inner with IText => go i | _ => lift (RPanic PInnerHtml) end
        | _ => lift (RPanic PInnerHtml)
        end
    end.

(** src/parser.rs 2246-2253: render and render_text of a DocHolder. *)
Definition render_gen_b (env : entity_env) (o : render_options) (text : bool) (d : doc) : M (list char) :=
  reading KDoc (reading (KNode (d_root d)) (build_b env o (d_heap d) (d_root d) text)).

(** src/parser.rs 895-941: is_document with [&self] borrowed from node [i]. *)
Fixpoint is_document_loop_b (h : list node) (childs : list nid) (find_html syntax_ok : bool)
    : M (bool * bool) :=
  match childs with
  | [] => ret (find_html, syntax_ok)
  | k :: rest =>
      bdo r <-
        reading (KNode k)                                                 (* 903 *)
          (match n_type (hget h k) with
           | NComment | NSpacesBetweenTag | NHTMLDOCTYPE => ret (Some (find_html, syntax_ok))
           | NTag =>
               if find_html then ret None      (* break *)
               else
                 match n_meta (hget h k) with
                 | Some m =>
                     bdo html <- reading (KMeta k)                        (* 916 *)
                       (ret (is_equal_chars (m_name m) HTML_TAG_NAME (Some Lower)));
                     ret (if (html : bool) then Some (true, syntax_ok) else Some (find_html, false))
                 | None => ret (Some (find_html, false))
                 end
           | _ => ret (Some (find_html, false))
           end);
      match r with
      | None => ret (find_html, false)
      | Some (f, ok) => is_document_loop_b h rest f ok
      end
  end.
Definition is_document_b (h : list node) (i : nid) : M (bool * bool) :=
  match n_type (hget h i) with
  | NAbstractRoot =>
      bdo '(is_doc, ok) <-
        (match n_childs (hget h i) with
         | Some childs => is_document_loop_b h childs false true
         | None => ret (false, true)
         end);
      ret (is_doc, if (is_doc : bool) then ok else true)
  | _ => ret (false, true)
  end.

(** src/parser.rs 2236-2238, 2266-2268: get_element_by_id. *)
Definition get_element_by_id_b (d : doc) (id : list char) : M (option nid) :=
  reading KDoc (reading KIds (ret (map_get (d_id_tags d) id))).

(** src/parser.rs 508-546: clone_node_without_childs and clone_node_with, with [&self] borrowed from
    node [i].  The new nodes get the next free references. *)
Fixpoint clone_node_with_b (fuel : nat) (h : list node) (i : nid) (reduce : nat)
    : M (list node * nid) :=
  match fuel with
  | O => lift (RPanic PFuel)
  | S fuel' =>
      let n := hget h i in
      bdo b <- lift (checked_sub (n_begin_at n) reduce);
      bdo e <- lift (checked_sub (n_end_at n) reduce);
      bdo meta <-
        (match n_meta n with
         | Some m => reading (KMeta i) (ret (Some m))                     (* 521 *)
         | None => ret None
         end);
      bdo '(h, et) <-
        (match n_end_tag n with
         | None => ret (h, None)
         | Some et =>
             bdo '(h, et') <- reading (KNode et) (clone_node_with_b fuel' h et reduce);   (* 527 *)
             ret (h, Some et')
         end);
      let pid := length h in
      let h := h ++ [mkNode 0 (n_type n) b e et None None (n_root n) (n_content n) None meta] in
      match n_childs n with
      | None => ret (h, pid)
      | Some childs =>
          bdo '(h, ids) <-
            (fix loop (l : list nid) (h : list node) (ids : list nid) : M (list node * list nid) :=
               match l with
               | [] => ret (h, ids)
               | k :: l' =>
                   bdo '(h, k') <- reading (KNode k) (clone_node_with_b fuel' h k reduce);   (* 537 *)
                   bdo h <- writing (KNode k') (ret (hupd h k' (nset_parent (Some pid))));   (* 538 *)
                   bdo h <- writing (KNode k') (ret (hupd h k' (nset_prev (last_opt ids)))); (* 539 *)
                   bdo h <- reading (KNode k) (writing (KNode k')                            (* 540 *)
                              (ret (hupd h k' (nset_index (n_index (hget h k))))));
                   loop l' h (ids ++ [k'])
               end) childs h [];
          bdo h <- writing (KNode pid) (ret (hupd h pid (nset_childs (Some ids))));          (* 543 *)
          ret (h, pid)
      end
  end.
Definition clone_node_b (h : list node) (i : nid) : M (list node * nid) :=
  clone_node_with_b (S (length h)) h i (n_begin_at (hget h i)).
