(** Independent specifications for the renderer: each render option is described as a
    transformation of the tree (or of its text), not by the rendering code. *)
From Coq Require Import String.
From Verif Require Import Api SpecText.
Local Open Scope string_scope.
Local Open Scope list_scope.

(** One option switched, the others kept. *)
Definition with_minify_spaces v o := mkRO v (lowercase_tagname o) (remove_endtag_space o)
  (remove_attr_quote o) (remove_comment o) (always_close_void o) (inner_html o) (decode_entity o) (encode_content o).
Definition with_lowercase_tagname v o := mkRO (minify_spaces o) v (remove_endtag_space o)
  (remove_attr_quote o) (remove_comment o) (always_close_void o) (inner_html o) (decode_entity o) (encode_content o).
Definition with_remove_endtag_space v o := mkRO (minify_spaces o) (lowercase_tagname o) v
  (remove_attr_quote o) (remove_comment o) (always_close_void o) (inner_html o) (decode_entity o) (encode_content o).
Definition with_remove_attr_quote v o := mkRO (minify_spaces o) (lowercase_tagname o) (remove_endtag_space o)
  v (remove_comment o) (always_close_void o) (inner_html o) (decode_entity o) (encode_content o).
Definition with_remove_comment v o := mkRO (minify_spaces o) (lowercase_tagname o) (remove_endtag_space o)
  (remove_attr_quote o) v (always_close_void o) (inner_html o) (decode_entity o) (encode_content o).
Definition with_always_close_void v o := mkRO (minify_spaces o) (lowercase_tagname o) (remove_endtag_space o)
  (remove_attr_quote o) (remove_comment o) v (inner_html o) (decode_entity o) (encode_content o).
Definition with_inner_html v o := mkRO (minify_spaces o) (lowercase_tagname o) (remove_endtag_space o)
  (remove_attr_quote o) (remove_comment o) (always_close_void o) v (decode_entity o) (encode_content o).
Definition with_decode_entity v o := mkRO (minify_spaces o) (lowercase_tagname o) (remove_endtag_space o)
  (remove_attr_quote o) (remove_comment o) (always_close_void o) (inner_html o) v (encode_content o).
Definition with_encode_content v o := mkRO (minify_spaces o) (lowercase_tagname o) (remove_endtag_space o)
  (remove_attr_quote o) (remove_comment o) (always_close_void o) (inner_html o) (decode_entity o) v.

(** [sub s t]: the node [s] occurs in the tree [t] (as a child or as an end tag, at any depth). *)
Inductive sub : tree -> tree -> Prop :=
  | sub_refl : forall t, sub t t
  | sub_child : forall s t ks k, t_childs t = Some ks -> In k ks -> sub s k -> sub s t
  | sub_end : forall s t e, t_end_tag t = Some e -> sub s e -> sub s t.

(** A tree on which no [expect] of the renderer can fail. *)
Definition node_complete (t : tree) : Prop :=
  match t_type t with
  | NTag | NHTMLDOCTYPE => t_meta t <> None
  | NText | NSpacesBetweenTag | NTagEnd => t_content t <> None
  | _ => True
  end.
Definition complete (t : tree) : Prop := forall s, sub s t -> node_complete s.

(** Apply a function to the content and the meta of every node. *)
Fixpoint tmap (f : node_type -> option (list char) -> option tag_meta ->
                   option (list char) * option tag_meta) (t : tree) : tree :=
  match t with
  | TNode i ty b e et c ks m =>
      TNode i ty b e (match et with Some x => Some (tmap f x) | None => None end)
        (fst (f ty c m))
        (match ks with Some l => Some (map (tmap f) l) | None => None end)
        (snd (f ty c m))
  end.

Definition omap {A B} (f : A -> B) (x : option A) : option B :=
  match x with Some a => Some (f a) | None => None end.

(** lowercase_tagname: the names of tags and end tags in lower case. *)
Definition lower_names : tree -> tree :=
  tmap (fun ty c m =>
    match ty with
    | NTag => (c, omap (fun m => mkMeta (m_code_in m) (m_is_void m) (m_self_closed m) (m_auto_fix m)
                                   (ascii_lower (m_name m)) (m_attrs m) (m_lc_name_map m)) m)
    | NTagEnd => (omap ascii_lower c, m)
    | _ => (c, m)
    end).

(** remove_attr_quote: the quotes of all attributes dropped (unless marked as needed). *)
Definition unquoted (a : attr) : attr :=
  if a_need_quote a then a else mkAttr (a_key a) (a_value a) None false.
Definition unquote_attrs : tree -> tree :=
  tmap (fun ty c m =>
    (c, omap (fun m => mkMeta (m_code_in m) (m_is_void m) (m_self_closed m) (m_auto_fix m)
                         (m_name m) (map unquoted (m_attrs m)) (m_lc_name_map m)) m)).

(** always_close_void: tags that were closed automatically count as self closed. *)
Definition close_auto_fixed : tree -> tree :=
  tmap (fun ty c m =>
    match ty with
    | NTag => (c, omap (fun m => mkMeta (m_code_in m) (m_is_void m) (m_self_closed m || m_auto_fix m)
                                   (m_auto_fix m) (m_name m) (m_attrs m) (m_lc_name_map m)) m)
    | _ => (c, m)
    end).

(** remove_endtag_space: no whitespace after the name in end tags. *)
Definition trim_end_tags : tree -> tree :=
  tmap (fun ty c m =>
    match ty with
    | NTagEnd => (omap trim_right c, m)
    | _ => (c, m)
    end).

(** encode_content: the raw content of title and textarea elements entity-encoded. *)
Definition encoded (env : entity_env) (s : list char) : list char :=
  flat_map (fun ch => if ent_in_html env ch then match ent_encode env ch with Some e => e | None => [ch] end
                      else [ch]) s.
Definition encode_titles (env : entity_env) : tree -> tree :=
  tmap (fun ty c m =>
    match ty, m with
    | NTag, Some m' =>
        if (same_name (m_name m') (str "title") || same_name (m_name m') (str "textarea"))%bool
        then (omap (encoded env) c, m) else (c, m)
    | _, _ => (c, m)
    end).

(** remove_comment: all comment nodes deleted from the lists of children. *)
Definition is_comment (t : tree) : bool := match t_type t with NComment => true | _ => false end.
Fixpoint no_comments (t : tree) : tree :=
  match t with
  | TNode i ty b e et c ks m =>
      let fix go l := match l with
                      | [] => []
                      | k :: r => if is_comment k then go r else no_comments k :: go r
                      end in
      TNode i ty b e et c (match ks with Some l => Some (go l) | None => None end) m
  end.
(** Comments of parsed documents never have children or an end tag. *)
Definition comments_are_leaves (t : tree) : Prop :=
  forall s, sub s t -> t_type s = NComment -> t_childs s = None /\ t_end_tag s = None.

(** minify_spaces: text outside pre collapsed, whitespace nodes outside pre emptied. *)
Definition is_pre (t : tree) : bool :=
  match t_type t, t_meta t with
  | NTag, Some m => same_name (m_name m) (str "pre")
  | _, _ => false
  end.
Fixpoint minified (inside_pre : bool) (t : tree) : tree :=
  match t with
  | TNode i ty b e et c ks m =>
      TNode i ty b e et
        (if inside_pre then c else
         match ty with
         | NText => omap collapse c
         | NSpacesBetweenTag => Some []
         | _ => c
         end)
        (match ks with
         | Some l => Some (map (minified (inside_pre || is_pre t)) l)
         | None => None
         end)
        m
  end.
(** Only tags carry end tags, and these have the tag's name up to case and trailing space. *)
Definition end_tags_match (t : tree) : Prop :=
  forall s, sub s t ->
    (forall e, t_end_tag s = Some e ->
       t_type s = NTag /\ t_type e = NTagEnd /\
       exists m c, t_meta s = Some m /\ t_content e = Some c /\
                   same_name (m_name m) (trim_right c) = true) /\
    (forall ks k, t_childs s = Some ks -> In k ks -> t_type k <> NTagEnd).
Definition pre_has_end (t : tree) : Prop :=
  forall s, sub s t -> is_pre s = true -> t_end_tag s <> None.
Definition pre_not_nested (t : tree) : Prop :=
  forall s ks k u, sub s t -> is_pre s = true -> t_childs s = Some ks -> In k ks ->
    sub u k -> is_pre u = false.

(** Whitespace nodes hold only whitespace. *)
Definition spaces_are_ws (t : tree) : Prop :=
  forall s c, sub s t -> t_type s = NSpacesBetweenTag -> t_content s = Some c -> Forall is_ws c.

(** Printed form of attributes and tags (default options). *)
Definition print_attr (a : attr) : list char :=
  match a_key a, a_value a, a_quote a with
  | Some k, None, _ => k
  | Some k, Some v, None => k ++ str "=" ++ v
  | Some k, Some v, Some q => k ++ str "=" ++ [q] ++ v ++ [q]
  | None, None, _ => []
  | None, Some v, None => v
  | None, Some v, Some q => [q] ++ v ++ [q]
  end.
Definition print_attrs (l : list attr) : list char := flat_map (fun a => str " " ++ print_attr a) l.

(** Text of a node: text and whitespace nodes and the raw content of tags, in order. *)
Fixpoint text_of (t : tree) : list char :=
  match t with
  | TNode _ ty _ _ _ c ks _ =>
      (match ty with
       | NText | NSpacesBetweenTag | NTag => match c with Some s => s | None => [] end
       | _ => []
       end)
      ++ match ks with Some l => flat_map text_of l | None => [] end
  end.

(** No doctype and no CDATA section in the tree. *)
Definition no_markup (t : tree) : Prop :=
  forall s, sub s t -> t_type s <> NHTMLDOCTYPE /\ t_type s <> NXMLCDATA.
Definition plain_options (o : render_options) : Prop :=
  minify_spaces o = false /\ decode_entity o = false /\ encode_content o = false /\ inner_html o = false.
(** Children are never end tags, and end tags are end tags. *)
Definition end_tags_placed (t : tree) : Prop :=
  forall s, sub s t ->
    (forall e, t_end_tag s = Some e -> t_type e = NTagEnd) /\
    (forall ks k, t_childs s = Some ks -> In k ks -> t_type k <> NTagEnd).
Definition end_tags_not_comments (t : tree) : Prop :=
  forall s e, sub s t -> t_end_tag s = Some e -> t_type e <> NComment.
(** No pre element is self-closed. *)
Definition no_selfclosed_pre (t : tree) : Prop :=
  forall x m, sub x t -> is_pre x = true -> t_meta x = Some m -> m_self_closed m = false.

(** Start and end tag of an element as the options print them. *)
Definition print_start (o : render_options) (m : tag_meta) : list char :=
  str "<" ++ (if lowercase_tagname o then ascii_lower (m_name m) else m_name m)
  ++ print_attrs (if remove_attr_quote o then map unquoted (m_attrs m) else m_attrs m)
  ++ (if (m_self_closed m || (m_auto_fix m && always_close_void o))%bool then str " />" else str ">").
Definition print_end (o : render_options) (c : list char) : list char :=
  let c := if remove_endtag_space o then trim_right c else c in
  str "</" ++ (if lowercase_tagname o then ascii_lower c else c) ++ str ">".
