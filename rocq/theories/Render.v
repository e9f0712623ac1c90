(** The renderer: src/parser.rs 186-200, 287-311, 363-374, 414-426, 553-575, 577-941.

    The renderer only follows the strong links ([childs], [end_tag]) of a node, so it is
    modelled on finite trees; [tree_of] reads such a tree out of the heap.  The weak links
    [prev], [parent], [root] are not looked at by the renderer and dropped. *)
From Coq Require Import String.
From Verif Require Export Parser.
Local Open Scope string_scope.
Local Open Scope list_scope.

Inductive tree :=
  TNode (index : nat) (type : node_type) (begin_at end_at : nat) (end_tag : option tree)
        (content : option (list char)) (childs : option (list tree)) (meta : option tag_meta).

Definition t_index '(TNode i _ _ _ _ _ _ _) := i.
Definition t_type '(TNode _ t _ _ _ _ _ _) := t.
Definition t_begin_at '(TNode _ _ b _ _ _ _ _) := b.
Definition t_end_at '(TNode _ _ _ e _ _ _ _) := e.
Definition t_end_tag '(TNode _ _ _ _ e _ _ _) := e.
Definition t_content '(TNode _ _ _ _ _ c _ _) := c.
Definition t_childs '(TNode _ _ _ _ _ _ k _) := k.
Definition t_meta '(TNode _ _ _ _ _ _ _ m) := m.

(** Reading a node and everything below it out of the heap; [None] when the recursion
    budget is exhausted (never for parsed documents: proved). *)
Fixpoint map_opt {A B} (f : A -> option B) (l : list A) : option (list B) :=
  match l with
  | [] => Some []
  | x :: l' =>
      match f x, map_opt f l' with
      | Some y, Some ys => Some (y :: ys)
      | _, _ => None
      end
  end.
Fixpoint tree_of (fuel : nat) (h : list node) (i : nid) : option tree :=
  match fuel with
  | O => None
  | S fuel' =>
      let n := hget h i in
      let et := match n_end_tag n with
                | None => Some None
                | Some e => match tree_of fuel' h e with Some t => Some (Some t) | None => None end
                end in
      let ks := match n_childs n with
                | None => Some None
                | Some l => match map_opt (tree_of fuel' h) l with Some l' => Some (Some l') | None => None end
                end in
      match et, ks with
      | Some et, Some ks =>
          Some (TNode (n_index n) (n_type n) (n_begin_at n) (n_end_at n) et (n_content n) ks (n_meta n))
      | _, _ => None
      end
  end.

(** The external crate htmlentity, used at src/parser.rs 6, 190-191, 624, 656:
    - [ent_decode e]: [Entity::decode_chars(e)], [Some] for [Ok];
    - [ent_decode_to s]: what [decode_chars_to(s, result)] appends to [result];
    - [ent_in_html c]: [CharacterSet::Html.contains(c)];
    - [ent_encode c]: [encode_char(c, &EncodeType::Named)] written with [write_chars]. *)
Record entity_env := mkEnv {
  ent_decode : list char -> option char;
  ent_decode_to : list char -> list char;
  ent_in_html : char -> bool;
  ent_encode : char -> option (list char)
}.

(** src/parser.rs 186-200: write_content_encode. *)
Definition content_encode (env : entity_env) (content : list char) : list char :=
  flat_map (fun ch =>
    if ent_in_html env ch then
      match ent_encode env ch with Some e => e | None => [ch] end
    else [ch]) content.

(** src/parser.rs 289-311: Attr::build. *)
Definition attr_build (a : attr) (remove_quote : bool) : list char :=
  let key := match a_key a with Some k => k | None => [] end in
  match a_value a with
  | None => key
  | Some v =>
      key ++ (match a_key a with Some _ => [EQUAL_CHAR] | None => [] end) ++
      match a_quote a with
      | Some q => if (a_need_quote a || negb remove_quote)%bool then [q] ++ v ++ [q] else v
      | None => v
      end
  end.

(** src/parser.rs 364-374: TagMeta::attrs_to_string. *)
Definition attrs_to_string (m : tag_meta) (remove_quote : bool) : list char :=
  flat_map (fun a => WS_CHAR :: attr_build a remove_quote) (m_attrs m).

(** src/parser.rs 414-426. *)
Inductive inner_type := INone | IHtml | IText.
Record render_status := mkRS { rs_inner_type : inner_type; rs_is_in_pre : bool; rs_root : bool }.
Definition rs_set_pre v s := mkRS (rs_inner_type s) v (rs_root s).
Definition rs_set_root v s := mkRS (rs_inner_type s) (rs_is_in_pre s) v.

(** src/parser.rs 600, 640-650: minification of a text without decoding. *)
Fixpoint minify_text (l : list char) (prev_is_space : bool) : list char :=
  match l with
  | [] => []
  | c :: l' =>
      if is_ascii_whitespace c then
        if prev_is_space then minify_text l' true else c :: minify_text l' true
      else c :: minify_text l' false
  end.

(** src/parser.rs 600-637: minification with entity decoding.  [ent] is [None] when
    [is_in_entity] is false, otherwise the characters of [content[start_index + 1..index]]. *)
Fixpoint minify_decode (env : entity_env) (l : list char) (prev_is_space : bool)
    (ent : option (list char)) : list char :=
  match l with
  | [] => match ent with Some e => AMP_CHAR :: e | None => [] end
  | ch :: l' =>
      match ent with
      | None =>
          if N.eqb ch AMP_CHAR then minify_decode env l' prev_is_space (Some [])
          else if is_ascii_whitespace ch then
            if prev_is_space then minify_decode env l' prev_is_space None
            else ch :: minify_decode env l' true None
          else ch :: minify_decode env l' false None
      | Some e =>
          if N.eqb ch SEMI_CHAR then
            (match ent_decode env e with
             | Some d => [d]
             | None => [AMP_CHAR] ++ e ++ [SEMI_CHAR]
             end) ++ minify_decode env l' prev_is_space None
          else minify_decode env l' prev_is_space (Some (e ++ [ch]))
      end
  end.

(** src/parser.rs 577-792: build_node; returns the new status and the characters appended
    to [result]. *)
Definition build_node (env : entity_env) (o : render_options) (t : tree) (s : render_status)
    : res (render_status * list char) :=
  let is_in_pre := rs_is_in_pre s in
  let is_root := rs_root s in
  let need_tag :=
    if is_root then match rs_inner_type s with INone => true | _ => false end
    else match rs_inner_type s with IText => false | _ => true end in
  match t_type t with
  | NText =>
      match t_content t with
      | None => RPanic PContentMissing
      | Some content =>
          ROk (s, if (negb is_in_pre && minify_spaces o)%bool then
                    if decode_entity o then minify_decode env content false None
                    else minify_text content false
                  else if decode_entity o then ent_decode_to env content
                  else content)
      end
  | NTag =>
      match t_meta t with
      | None => RPanic PMetaMissing
      | Some m =>
          let tag_name := m_name m in
          let s' := rs_set_pre (is_in_pre || is_equal_chars tag_name PRE_TAG_NAME (Some Lower))%bool s in
          let start :=
            if need_tag then
              [TAG_BEGIN_CHAR]
              ++ (if lowercase_tagname o then lower tag_name else tag_name)
              ++ attrs_to_string m (remove_attr_quote o)
              ++ (if (m_self_closed m || (m_auto_fix m && always_close_void o))%bool
                  then [WS_CHAR; END_SLASH_CHAR] else [])
              ++ [TAG_END_CHAR]
            else [] in
          let body :=
            match t_content t with
            | Some content =>
                if (encode_content o && is_plain_text_tag tag_name (Some Lower))%bool
                then content_encode env content else content
            | None => []
            end in
          ROk (s', start ++ body)
      end
  | NTagEnd =>
      match t_content t with
      | None => RPanic PContentMissing
      | Some content =>
          let s' :=
            if (is_in_pre && is_equal_chars (chars_trim_end content) PRE_TAG_NAME (Some Lower))%bool
            then rs_set_pre false s else s in
          ROk (s',
            if need_tag then
              let content := if remove_endtag_space o then chars_trim_end content else content in
              [TAG_BEGIN_CHAR; END_SLASH_CHAR]
              ++ (if lowercase_tagname o then lower content else content)
              ++ [TAG_END_CHAR]
            else [])
      end
  | NSpacesBetweenTag =>
      if (negb is_in_pre && minify_spaces o)%bool then ROk (s, [])
      else match t_content t with
           | None => RPanic PContentMissing
           | Some content => ROk (s, content)
           end
  | NHTMLDOCTYPE =>
      match t_meta t with
      | None => RPanic PMetaMissing
      | Some m =>
          ROk (s, [TAG_BEGIN_CHAR; EXCLAM_CHAR] ++ m_name m
                  ++ attrs_to_string m (remove_attr_quote o) ++ [TAG_END_CHAR])
      end
  | NComment =>
      ROk (s,
        if remove_comment o then []
        else
          let is_inner_text := match rs_inner_type s with IText => true | _ => false end in
          if (is_root || negb is_inner_text)%bool then
            let need_wrap := negb (is_root && is_inner_text) in
            (if need_wrap then str "<!--" else [])
            ++ (match t_content t with Some c => c | None => [] end)
            ++ (if need_wrap then str "-->" else [])
          else [])
  | NXMLCDATA =>
      ROk (s, str "<![CDATA[" ++ (match t_content t with Some c => c | None => [] end) ++ str "]]>")
  | NAbstractRoot => ROk (s, [])
  end.

(** src/parser.rs 794-815: build_tree. *)
Fixpoint build_tree (env : entity_env) (o : render_options) (t : tree) (s : render_status) {struct t}
    : res (render_status * list char) :=
  let build_list :=
    (fix build_list (l : list tree) (s : render_status) {struct l} :=
       match l with
       | [] => ROk (s, [])
       | k :: l' =>
           do '(s1, o1) <- build_tree env o k s;
           do '(s2, o2) <- build_list l' s1;
           ROk (s2, o1 ++ o2)
       end) in
  match t with
  | TNode _ _ _ _ end_tag _ childs _ =>
      do '(s1, o1) <- build_node env o t s;
      do '(s2, o2) <-
        (match childs with
         | None => ROk (s1, [])
         | Some l =>
             if rs_root s1 then
               (* a cloned status is threaded through the children and then dropped *)
               do '(_, out) <- build_list l (rs_set_root false s1);
               ROk (s1, out)
             else build_list l s1
         end);
      do '(s3, o3) <-
        (match end_tag with
         | None => ROk (s2, [])
         | Some e => build_node env o e s2
         end);
      ROk (s3, o1 ++ o2 ++ o3)
  end.
(** The loop over children as a function of its own (convertible to the inner loop above). *)
Fixpoint build_list (env : entity_env) (o : render_options) (l : list tree) (s : render_status)
    : res (render_status * list char) :=
  match l with
  | [] => ROk (s, [])
  | k :: l' =>
      do '(s1, o1) <- build_tree env o k s;
      do '(s2, o2) <- build_list env o l' s1;
      ROk (s2, o1 ++ o2)
  end.

Definition is_tag (t : tree) : bool := node_type_eqb (t_type t) NTag.

(** src/parser.rs 817-891: build. *)
Definition build (env : entity_env) (o : render_options) (t : tree) (inner_text : bool)
    : res (list char) :=
  if (inner_text && inner_html o)%bool then RPanic PInnerHtml
  else
    let inner := if inner_text then IText else if inner_html o then IHtml else INone in
    let s := mkRS inner false true in
    let go t := do '(_, out) <- build_tree env o t s; ROk out in
    match inner with
    | INone => go t
    | _ =>
        match t_type t with
        | NAbstractRoot =>
            match t_childs t with
            | None => ROk []
            | Some childs =>
                match filter is_tag childs with
                | [] => RPanic PInnerHtml         (* no tag child *)
                | [k] => go k
                | _ => RPanic PInnerHtml          (* multiple tag childs *)
                end
            end
        | NTag => go t
        | NComment | NXMLCDATA =>
            match inner with IText => go t | _ => RPanic PInnerHtml end
        | _ => RPanic PInnerHtml
        end
    end.

(** src/parser.rs 895-941: is_document.  The loop carries (find_html = is_document, syntax_ok). *)
Fixpoint is_document_loop (childs : list tree) (find_html syntax_ok : bool) : bool * bool :=
  match childs with
  | [] => (find_html, syntax_ok)
  | k :: rest =>
      match t_type k with
      | NComment | NSpacesBetweenTag | NHTMLDOCTYPE => is_document_loop rest find_html syntax_ok
      | NTag =>
          if find_html then (find_html, false)      (* break *)
          else
            match t_meta k with
            | Some m =>
                if is_equal_chars (m_name m) HTML_TAG_NAME (Some Lower)
                then is_document_loop rest true syntax_ok
                else is_document_loop rest find_html false
            | None => is_document_loop rest find_html false
            end
      | _ => is_document_loop rest find_html false
      end
  end.
Definition is_document (t : tree) : bool * bool :=
  match t_type t with
  | NAbstractRoot =>
      let '(is_doc, ok) :=
        match t_childs t with
        | Some childs => is_document_loop childs false true
        | None => (false, true)
        end in
      (is_doc, if is_doc then ok else true)
  | _ => (false, true)
  end.

(** src/parser.rs 554-575: create_text_node. *)
Definition create_text_node (content : list char) (code_at : option nat) : tree :=
  let t := if forallb is_ascii_whitespace content then NSpacesBetweenTag else NText in
  let code_at := match code_at with Some n => n | None => 0 end in
  TNode 0 t code_at code_at None (Some content) None None.
