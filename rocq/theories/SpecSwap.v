(** Specification for C64: children of a node replaced by other content. *)
From Verif Require Import Api SpecMisc SpecTree SpecDoc SpecJoin.

(** The node that is reached by going down to the children with these indices. *)
Inductive at_place : tree -> list nat -> tree -> Prop :=
  | at_here : forall t, at_place t [] t
  | at_child : forall t ks i k p u, t_childs t = Some ks -> nth_error ks i = Some k -> at_place k p u -> at_place t (i :: p) u.
(** The nodes that have room for children: the document, and the elements that have an end tag and are not raw text. *)
Definition roomy (p : list nat) (t : tree) : Prop := p = [] \/ exists n l ks e, depicts (XElem n l ks e) t.

(** The content with [g] in place of [n] children, from the [i]-th on, of the item at the place; texts that
    meet become one. *)
Fixpoint splice (p : list nat) (i n : nat) (g f : list item) : list item :=
  match p with
  | [] => glue (firstn i f) (glue g (skipn (i + n) f))
  | j :: q =>
      firstn j f ++
      match nth_error f j with
      | Some (XElem nm l ks e) => [XElem nm l (splice q i n g ks) e]
      | Some x => [x]
      | None => []
      end ++ skipn (S j) f
  end.
(** Where the [i]-th child of a node begins; after the last child, where its end tag begins, or the document ends. *)
Definition begins (s : list char) (t : tree) (i : nat) : nat :=
  match nth_error (child_list t) i with
  | Some k => t_begin_at k
  | None => match t_end_tag t with Some e => t_begin_at e | None => length s end
  end.
