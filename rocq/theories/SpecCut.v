(** What becomes of input that ends inside a start tag. *)
From Coq Require Import String.
From Verif Require Import Api SpecText SpecRender SpecParse SpecMisc SpecDoc SpecFix.
Local Open Scope string_scope.
Local Open Scope list_scope.

(** [cut_area eq s l]: the text [s] follows the name of a tag and the input ends there; [l] are the
    attributes the element gets.  Of a key that is cut off only an attribute with an empty key is
    left, of a value that is cut off nothing. *)
Inductive cut_area (eq : bool) : list char -> list attr -> Prop :=
  | ca_between : forall w, filler w -> cut_area eq w []
  | ca_key : forall w k, filler w -> attr_key eq false k -> cut_area eq (w ++ k) [bare []]
  | ca_after_key : forall w k c w2, filler w -> attr_key eq false k -> is_ws c -> filler w2 ->
      cut_area eq (w ++ k ++ c :: w2) [bare k]
  | ca_equals : forall w k e w2, filler w -> attr_key eq false k -> equals_sign e -> filler w2 ->
      cut_area eq (w ++ k ++ e ++ w2) [bare k]
  | ca_unquoted : forall w k e w2 v, filler w -> attr_key eq false k -> equals_sign e -> filler w2 ->
      attr_val v -> cut_area eq (w ++ k ++ e ++ w2 ++ v) [bare k]
  | ca_quoted : forall w k e w2 q v, filler w -> attr_key eq false k -> equals_sign e -> filler w2 ->
      quote_char q -> ~ In q v -> cut_area eq (w ++ k ++ e ++ w2 ++ [q] ++ v) [bare k]
  (* complete attributes *)
  | ca_more_bare : forall w k r l, filler w -> attr_key eq false k -> after_bare r -> r <> [] ->
      cut_area eq r l -> cut_area eq (w ++ k ++ r) (bare k :: l)
  | ca_more_unquoted : forall w k e w2 v r l, filler w -> attr_key eq false k -> equals_sign e -> filler w2 ->
      attr_val v -> starts_with is_ws r -> r <> [] -> cut_area eq r l ->
      cut_area eq (w ++ k ++ e ++ w2 ++ v ++ r) (unquoted k v :: l)
  | ca_more_quoted : forall w k e w2 q v r l, filler w -> attr_key eq false k -> equals_sign e -> filler w2 ->
      quote_char q -> ~ In q v -> cut_area eq r l ->
      cut_area eq (w ++ k ++ e ++ w2 ++ [q] ++ v ++ [q] ++ r) (quoted k v q :: l).

(** End tag and tag data of the element that is left of a tag with the name [n], cut off after
    [a].  If the name itself is cut off there are none. *)
Definition cut_element (opts : parse_options) (n a : list char) (et : option tree) (m : option tag_meta) : Prop :=
  match a with
  | [] => et = None /\ m = None
  | _ => exists l te mt, cut_area (allow_attr_key_starts_with_equal_sign opts) a l /\
      et = Some te /\ t_type te = NTagEnd /\ t_content te = Some n /\ t_childs te = None /\ m = Some mt /\
      m_name mt = n /\ m_attrs mt = l /\ m_is_void mt = void_name n /\ m_self_closed mt = false /\ m_auto_fix mt = true
  end.
(** [t] has the same nodes as [t'], except that the element that starts at [b] has end tag and tag
    data as in [P]. *)
Inductive same_but (b : nat) (P : option tree -> option tag_meta -> Prop) : tree -> tree -> Prop :=
  | sb_cut : forall i e e' et et' m m', P et m ->
      same_but b P (TNode i NTag b e et None None m) (TNode i NTag b e' et' None None m')
  | sb_leaf : forall i ty b' e e' et et' c m, ty <> NTag \/ b' <> b -> ty = NAbstractRoot \/ e = e' -> end_alike et et' ->
      same_but b P (TNode i ty b' e et c None m) (TNode i ty b' e' et' c None m)
  | sb_node : forall i ty b' e e' et et' c ks ks' m, ty <> NTag \/ b' <> b -> ty = NAbstractRoot \/ e = e' ->
      end_alike et et' -> Forall2 (same_but b P) ks ks' ->
      same_but b P (TNode i ty b' e et c (Some ks) m) (TNode i ty b' e' et' c (Some ks') m).
(** [d] is the document of [s] cut off inside a tag with the name [n]: everything else is as if
    the tag had been [<a>]. *)
Definition cut_document (opts : parse_options) (s n a : list char) (d : doc) : Prop :=
  exists d' t t', parse opts (s ++ str "<a>") = Parsed d' /\ doc_tree d = Some t /\ doc_tree d' = Some t' /\
    (exists x, sub x t /\ t_type x = NTag /\ t_begin_at x = length s) /\
    same_but (length s) (cut_element opts n a) t t'.
