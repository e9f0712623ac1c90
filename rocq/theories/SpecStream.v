(** Specification: a document as the sequence of its text characters and marks. *)
From Coq Require Import String.
From Verif Require Import Api SpecText SpecFix.
Local Open Scope string_scope.
Local Open Scope list_scope.

(** A character of a text, or a start tag (with the content of a raw text element), end tag, comment,
    doctype or CDATA section.  Whether the parser closed the element is not part of it. *)
Inductive atom :=
  | AChar (c : char)
  | AMark (t : node_type) (content : option (list char)) (m : option tag_meta).
Definition own (t : node_type) (c : option (list char)) (m : option tag_meta) : list atom :=
  match t with
  | NText | NSpacesBetweenTag => map AChar (match c with Some x => x | None => [] end)
  | NAbstractRoot => []
  | _ => [AMark t c (option_map (mset_auto_fix false) m)]
  end.
(** In document order, end tags last.  Text split over several nodes is not told apart. *)
Fixpoint stream (t : tree) : list atom :=
  match t with
  | TNode _ ty _ _ et c ks m =>
      own ty c m ++ match ks with Some l => flat_map stream l | None => [] end
      ++ match et with Some e => own (t_type e) (t_content e) (t_meta e) | None => [] end
  end.
Definition same_stream (d d' : doc) : Prop :=
  exists t t', doc_tree d = Some t /\ doc_tree d' = Some t' /\ stream t' = stream t.

(** Both inputs are rejected, or both are accepted with the same stream, the same elements closed by the
    parser and the same ids. *)
Definition same_result (r r' : outcome) : Prop :=
  match r, r' with
  | Parsed d, Parsed d' => same_stream d d' /\ fixed_names d' = fixed_names d /\ map fst (d_id_tags d') = map fst (d_id_tags d)
  | Parsed _, _ | _, Parsed _ => False
  | _, _ => True
  end.

(** ** Places where the repairs apply *)
(** The parser is outside all tags. *)
Definition between (st : doc) : Prop :=
  (d_handle st = HWait \/ d_handle st = HText) /\ d_chain_nodes st <> [].
(** The name of an end tag (with whitespace after it) is not the name of the innermost open element. *)
Definition unmatched (st : doc) (nm : list char) : Prop :=
  match d_chain_nodes st with
  | i :: _ :: _ => forall m, n_meta (hget (d_heap st) i) = Some m -> same_name (m_name m) (trim_right nm) = false
  | _ => True
  end.
(** The last node is an element that already has its end tag (a raw text element), or a text put into
    one by an earlier repair. *)
Inductive inside (h : list node) : nid -> nid -> Prop :=
  | inside_self : forall i, inside h i i
  | inside_child : forall i l k j, n_childs (hget h i) = Some l -> In k l -> inside h k j -> inside h i j.
Definition after_raw (st : doc) : Prop :=
  exists i, n_end_tag (hget (d_heap st) i) <> None /\ inside (d_heap st) i (d_current_node st).
(** A '<' followed by [c] starts no markup. *)
Definition stray (c : char) : Prop := is_ascii_alphabetic c = false /\ c <> 47%N /\ c <> 33%N.

(** ** Rendering a stream, without minification and decoding *)
Definition stream_options (o : render_options) : Prop :=
  minify_spaces o = false /\ decode_entity o = false /\ always_close_void o = false /\ inner_html o = false.
