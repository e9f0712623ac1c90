(** How much rendering does: the characters that each function of src/parser.rs 289-311, 364-374
    and 577-891 reads, pushes, moves, copies or compares, one unit each, and one unit per visited
    node.  One function [w_f] per function [f] of Render.v, with the same case distinctions.

    Not counted: the steps of straight-line code (a constant per node), the growth of vectors
    (amortised over the pushes), the allocator, and what the crate htmlentity does with the
    characters handed to it (one unit for each of them and for each character it gives back). *)
From Coq Require Import String.
From Verif Require Export Api Cost.
Local Open Scope string_scope.
Local Open Scope list_scope.

(** 366-372: the attribute is built; [splice(0..0, ..)] moves it by one place and adds a blank;
    [collect] copies it. *)
Definition w_attr (a : attr) (remove_quote : bool) : nat :=
  let n := length (attr_build a remove_quote) in n + (n + 1) + (n + 1).
(** 364-374, and the copy into the result (686-689, 752-754). *)
Definition w_attrs (m : tag_meta) (remove_quote : bool) : nat :=
  list_sum (map (fun a => w_attr a remove_quote) (m_attrs m)) + length (attrs_to_string m remove_quote).

Definition w_content_of (t : tree) : nat := match t_content t with Some c => length c | None => 0 end.

(** 577-792: build_node. *)
Definition w_build_node (env : entity_env) (o : render_options) (t : tree) (s : render_status) : nat :=
  let is_in_pre := rs_is_in_pre s in
  let need_tag :=
    if rs_root s then match rs_inner_type s with INone => true | _ => false end
    else match rs_inner_type s with IText => false | _ => true end in
  match t_type t with
  | NText =>
      match t_content t with
      | None => 0
      | Some content =>
          if (negb is_in_pre && minify_spaces o)%bool then
            (* every character is looked at; those of entities are read again *)
            length content
            + (if decode_entity o then length content + length (minify_decode env content false None)
               else length (minify_text content false))
          else if decode_entity o then length content + length (ent_decode_to env content)
          else length content
      end
  | NTag =>
      match t_meta t with
      | None => 0
      | Some m =>
          (if is_in_pre then 0 else w_equal (m_name m) PRE_TAG_NAME (Some Lower))
          + (if need_tag then
               1 + length (m_name m)
               + (match m_attrs m with [] => 0 | _ => w_attrs m (remove_attr_quote o) end)
               + (if (m_self_closed m || (m_auto_fix m && always_close_void o))%bool then 2 else 0)
               + 1
             else 0)
          + match t_content t with
            | Some content =>
                (if encode_content o then
                   w_equal (m_name m) TEXTAREA_TAG_NAME (Some Lower)
                   + (if is_equal_chars (m_name m) TEXTAREA_TAG_NAME (Some Lower) then 0
                      else w_equal (m_name m) TITLE_TAG_NAME (Some Lower))
                 else 0)
                + if (encode_content o && is_plain_text_tag (m_name m) (Some Lower))%bool
                  then length content + length (content_encode env content)
                  else length content
            | None => 0
            end
      end
  | NTagEnd =>
      match t_content t with
      | None => 0
      | Some content =>
          (if is_in_pre then w_trim content + w_equal (chars_trim_end content) PRE_TAG_NAME (Some Lower) else 0)
          + if need_tag then
              2 + (if remove_endtag_space o then w_trim content else 0)
              + (let content := if remove_endtag_space o then chars_trim_end content else content in
                 (* 719-724: collected into a vector of its own, then copied *)
                 if lowercase_tagname o then 2 * length content else length content)
              + 1
            else 0
      end
  | NSpacesBetweenTag =>
      if (negb is_in_pre && minify_spaces o)%bool then 0 else w_content_of t
  | NHTMLDOCTYPE =>
      match t_meta t with
      | None => 0
      | Some m =>
          2 + length (m_name m)
          + (match m_attrs m with [] => 0 | _ => w_attrs m (remove_attr_quote o) end) + 1
      end
  | NComment =>
      if remove_comment o then 0 else 4 + w_content_of t + 3
  | NXMLCDATA => 9 + w_content_of t + 3
  | NAbstractRoot => 0
  end.

(** 794-815: build_tree; the status is passed on as in Render.v. *)
Fixpoint w_build_tree (env : entity_env) (o : render_options) (t : tree) (s : render_status) {struct t} : nat :=
  let w_build_list :=
    (fix w_build_list (l : list tree) (s : render_status) {struct l} : nat :=
       match l with
       | [] => 0
       | k :: l' =>
           w_build_tree env o k s
           + match build_tree env o k s with ROk (s1, _) => w_build_list l' s1 | _ => 0 end
       end) in
  match t with
  | TNode _ _ _ _ end_tag _ childs _ =>
      1 + w_build_node env o t s
      + match build_node env o t s with
        | ROk (s1, _) =>
            let s' := if rs_root s1 then rs_set_root false s1 else s1 in
            (match childs with None => 0 | Some l => w_build_list l s' end)
            + match end_tag with
              | None => 0
              | Some e =>
                  match childs with
                  | None => 1 + w_build_node env o e s1
                  | Some l =>
                      match build_list env o l s' with
                      | ROk (s2, _) => 1 + w_build_node env o e (if rs_root s1 then s1 else s2)
                      | _ => 0
                      end
                  end
              end
        | _ => 0
        end
  end.
Fixpoint w_build_list (env : entity_env) (o : render_options) (l : list tree) (s : render_status) : nat :=
  match l with
  | [] => 0
  | k :: l' =>
      w_build_tree env o k s
      + match build_tree env o k s with ROk (s1, _) => w_build_list env o l' s1 | _ => 0 end
  end.

(** 817-891: build: the children of the abstract root are looked through for a tag. *)
Definition w_build (env : entity_env) (o : render_options) (t : tree) (inner_text : bool) : nat :=
  if (inner_text && inner_html o)%bool then 0
  else
    let inner := if inner_text then IText else if inner_html o then IHtml else INone in
    let s := mkRS inner false true in
    match inner with
    | INone => w_build_tree env o t s
    | _ =>
        match t_type t with
        | NAbstractRoot =>
            match t_childs t with
            | None => 0
            | Some childs =>
                length childs
                + match filter is_tag childs with
                  | [k] => w_build_tree env o k s
                  | _ => 0
                  end
            end
        | NTag => w_build_tree env o t s
        | NComment | NXMLCDATA => match inner with IText => w_build_tree env o t s | _ => 0 end
        | _ => 0
        end
    end.
