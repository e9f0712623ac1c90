(** Specification for C66: the case of tag names. *)
From Verif Require Import Api SpecText SpecMisc SpecTree SpecDoc.

(** Content that differs only in the case of letters in the names of tags and, if [dt], of doctypes. *)
Inductive recased (dt : bool) : item -> item -> Prop :=
  | rc_text : forall c b, recased dt (XText c b) (XText c b)
  | rc_comment : forall c, recased dt (XComment c) (XComment c)
  | rc_cdata : forall c, recased dt (XCData c) (XCData c)
  | rc_doctype : forall n n' l, same_name n n' = true -> (dt = false -> n' = n) -> recased dt (XDoctype n l) (XDoctype n' l)
  | rc_leaf : forall n n' l sc, same_name n n' = true -> recased dt (XLeaf n l sc) (XLeaf n' l sc)
  | rc_raw : forall n n' l c e e', same_name n n' = true -> same_name e e' = true -> recased dt (XRaw n l c e) (XRaw n' l c e')
  | rc_elem : forall n n' l ks ks' e e', same_name n n' = true -> same_name e e' = true -> Forall2 (recased dt) ks ks' ->
      recased dt (XElem n l ks e) (XElem n' l ks' e').

(** The names of tags with each character replaced by [g]. *)
Fixpoint respelled (g : char -> char) (x : item) : item :=
  match x with
  | XLeaf n l sc => XLeaf (map g n) l sc
  | XRaw n l c e => XRaw (map g n) l c (map g e)
  | XElem n l ks e => XElem (map g n) l (map (respelled g) ks) (map g e)
  | x => x
  end.
(** A change of case that keeps different letters different. *)
Definition recasing (g : char -> char) : Prop :=
  (forall c, ascii_lower_char (g c) = ascii_lower_char c) /\ (forall a b, g a = g b -> a = b).
Definition swap_case (c : char) : char :=
  if (N.leb 65 c && N.leb c 90)%bool then (c + 32)%N else if (N.leb 97 c && N.leb c 122)%bool then (c - 32)%N else c.
