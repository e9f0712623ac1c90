(** Specification: putting documents together and taking them apart. *)
From Coq Require Import String.
From Verif Require Import Api SpecText SpecRender SpecParse SpecMisc SpecDoc.
Local Open Scope string_scope.
Local Open Scope list_scope.

(** Two contents one after the other; texts that meet become one. *)
Fixpoint glue (f g : list item) : list item :=
  match f with
  | [] => g
  | x :: f' =>
      match f', x, g with
      | [], XText a _, XText b _ :: g' => XText (a ++ b) false :: g'
      | _, _, _ => x :: glue f' g
      end
  end.
Fixpoint join (a b : list token) : list token :=
  match a with
  | [] => b
  | k :: a' =>
      match a', k, b with
      | [], KText x, KText y :: b' => KText (x ++ y) :: b'
      | _, _, _ => k :: join a' b
      end
  end.

(** Every svg and math element of the document is closed under the very name it was opened with. *)
Definition closed_alike (d : doc) : Prop := forall r t m te c, doc_tree d = Some r -> sub t r ->
  t_type t = NTag -> t_meta t = Some m -> special_elem (m_name m) = true ->
  t_end_tag t = Some te -> t_content te = Some c -> trim_right c = m_name m.
Fixpoint closes_alike (x : item) : Prop :=
  match x with
  | XElem n _ ks e => (special_elem n = true -> trim_right e = n) /\
      (fix all (l : list item) : Prop := match l with [] => True | k :: r => closes_alike k /\ all r end) ks
  | _ => True
  end.
(** No CDATA section in the document. *)
Definition without_cdata (d : doc) : Prop := forall r t, doc_tree d = Some r -> sub t r -> t_type t <> NXMLCDATA.
