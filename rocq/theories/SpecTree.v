(** Specification vocabulary for the node graph of a parsed document. *)
From Coq Require Import String.
From Verif Require Import Api SpecText SpecRender.
Local Open Scope string_scope.
Local Open Scope list_scope.

(** The strong links: the i-th child, the end tag. *)
Inductive link := LChild (i : nat) | LEnd.
Inductive linked (h : list node) : nid -> link -> nid -> Prop :=
  | linked_child : forall p l i k, n_childs (hget h p) = Some l -> nth_error l i = Some k ->
      linked h p (LChild i) k
  | linked_end : forall p e, n_end_tag (hget h p) = Some e -> linked h p LEnd e.

(** [path h a w b]: following the links [w] from [a] leads to [b]. *)
Inductive path (h : list node) (a : nid) : list link -> nid -> Prop :=
  | path_here : path h a [] a
  | path_step : forall w p x k, path h a w p -> linked h p x k -> path h a (w ++ [x]) k.

(** The nodes of the document. *)
Definition in_doc (h : list node) (root k : nid) : Prop := exists w, path h root w k.

(** The attribute has this key, up to ASCII case ([k] is in lower case). *)
Definition has_key (k : list char) (a : attr) : Prop :=
  exists key, a_key a = Some key /\ ascii_lower key = k.
(** [i] is the position of the first attribute with key [k]. *)
Definition first_attr (attrs : list attr) (k : list char) (i : nat) : Prop :=
  exists a, nth_error attrs i = Some a /\ has_key k a /\
    forall j b, j < i -> nth_error attrs j = Some b -> ~ has_key k b.
(** The index map finds exactly the first attributes. *)
Definition map_right (attrs : list attr) (m : list (list char * nat)) : Prop :=
  forall k, match map_get m k with
            | Some i => first_attr attrs k i
            | None => forall a, In a attrs -> ~ has_key k a
            end.
(** The attribute gives the element the id [x]. *)
Definition id_value (a : attr) (x : list char) : Prop :=
  exists key, a_key a = Some key /\ same_name key (str "id") = true /\ a_value a = Some x.
(** Some attribute of the node gives it the id [x]. *)
Definition node_id (n : node) (x : list char) : Prop :=
  exists m a, n_meta n = Some m /\ In a (m_attrs m) /\ id_value a x.

(** [t] is the tree below some node of the document. *)
Definition tree_in (d : doc) (t : tree) : Prop :=
  exists f i, in_doc (d_heap d) (d_root d) i /\ tree_of f (d_heap d) i = Some t.

(** No doctype of the document was read as self-closing; such a doctype ends an element. *)
Definition open_doctypes (d : doc) : Prop :=
  forall i m, n_type (hget (d_heap d) i) = NHTMLDOCTYPE -> n_meta (hget (d_heap d) i) = Some m -> m_self_closed m = false.
