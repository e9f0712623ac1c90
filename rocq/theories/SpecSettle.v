(** Specification of repeated minification. *)
From Coq Require Import String.
From Verif Require Import Api SpecText SpecRender SpecParse SpecMisc SpecDoc SpecShown.
Local Open Scope list_scope.

(** No element, except in pre, has a blank text as its only child. *)
Fixpoint no_lone_blank (in_pre : bool) (x : item) : Prop :=
  match x with
  | XElem n _ ks _ =>
      ((in_pre || pre_name n)%bool = true \/ match ks with [XText c _] => blank_text c = false | _ => True end) /\
      (fix all (l : list item) : Prop := match l with [] => True | k :: r => no_lone_blank (in_pre || pre_name n) k /\ all r end) ks
  | _ => True
  end.
