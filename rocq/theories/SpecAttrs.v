(** Specification for C67: the attributes of one tag replaced by others. *)
From Coq Require Import String.
From Verif Require Import Api SpecText SpecParse SpecMisc SpecTree SpecDoc.
Local Open Scope string_scope.
Local Open Scope list_scope.

(** The tag an item starts with: whether it is a doctype, what comes before the attributes, the
    attributes, and whether it ends in a self-closing '/'. *)
Inductive starts_as : item -> bool -> list char -> list attr -> bool -> Prop :=
  | st_doctype : forall n l, starts_as (XDoctype n l) true (str "<!" ++ n) l false
  | st_leaf : forall n l sc, starts_as (XLeaf n l sc) false (str "<" ++ n) l sc
  | st_raw : forall n l c e, starts_as (XRaw n l c e) false (str "<" ++ n) l false
  | st_elem : forall n l ks e, starts_as (XElem n l ks e) false (str "<" ++ n) l false.
(** What may follow the name: a blank, or, in a tag, also '/' or nothing. *)
Definition follows_name (dt : bool) (a : list char) : Prop :=
  if dt then exists b r, a = b :: r /\ is_ws b else starts_with slash_filler a.

Definition with_attrs (l : list attr) (x : item) : item :=
  match x with
  | XDoctype n _ => XDoctype n l
  | XLeaf n _ sc => XLeaf n l sc
  | XRaw n _ c e => XRaw n l c e
  | XElem n _ ks e => XElem n l ks e
  | x => x
  end.
(** The content with other attributes for the item at the place. *)
Fixpoint reattributed (p : list nat) (l : list attr) (f : list item) : list item :=
  match p with
  | [] => f
  | j :: q =>
      firstn j f ++
      match nth_error f j with
      | Some x =>
          [match q with
           | [] => with_attrs l x
           | _ => match x with XElem n m ks e => XElem n m (reattributed q l ks) e | x => x end
           end]
      | None => []
      end ++ skipn (S j) f
  end.
