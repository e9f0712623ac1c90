(** Specification for C68: the element with an id, in the content of a document. *)
From Coq Require Import String.
From Verif Require Import Api SpecText SpecMisc SpecTree SpecDoc.
Local Open Scope string_scope.
Local Open Scope list_scope.

(** The item and all items inside it, in the order in which they start. *)
Fixpoint parts (x : item) : list item :=
  x :: match x with XElem _ _ ks _ => flat_map parts ks | _ => [] end.
Definition item_attrs (x : item) : list attr :=
  match x with
  | XDoctype _ l | XLeaf _ l _ | XRaw _ l _ _ | XElem _ l _ _ => l
  | _ => []
  end.
(** Some attribute gives the item the id [v]. *)
Definition item_id (v : list char) (x : item) : Prop := exists a, In a (item_attrs x) /\ id_value a v.
(** [x] is the last part of the content that has the id. *)
Definition last_with_id (v : list char) (f : list item) (x : item) : Prop :=
  exists a b, flat_map parts f = a ++ x :: b /\ item_id v x /\ Forall (fun y => ~ item_id v y) b.
