(** Specification: where the nodes of a document lie in its source. *)
From Coq Require Import String.
From Verif Require Import Api SpecText SpecRender SpecParse SpecMisc SpecDoc.
Local Open Scope string_scope.
Local Open Scope list_scope.

(** A node with the nodes below it and its end tag, in document order. *)
Fixpoint nodes (t : tree) : list tree :=
  match t with
  | TNode _ _ _ _ et _ ks _ =>
      t :: match ks with Some l => flat_map nodes l | None => [] end
        ++ match et with Some e => nodes e | None => [] end
  end.
(** What is said about a node: its kind (blank text is text), content and the two positions. *)
Record row := mkRow { r_kind : node_type; r_content : option (list char); r_begin : nat; r_end : nat }.
Definition kind (t : node_type) : node_type := match t with NSpacesBetweenTag => NText | t => t end.
Definition row_of (t : tree) : row := mkRow (kind (t_type t)) (t_content t) (t_begin_at t) (t_end_at t).

(** The nodes of the token [k], written as [w] from position [off] on.  Start tags and doctypes do not
    record where they end, the end tag of a raw text element not where it begins. *)
Definition place (k : token) (off : nat) (w : list char) : list row :=
  match k with
  | KText c => [mkRow NText (Some c) off (off + length w)]
  | KComment c => [mkRow NComment (Some c) off (off + length w)]
  | KCData c => [mkRow NXMLCDATA (Some c) off (off + length w)]
  | KDoctype _ _ => [mkRow NHTMLDOCTYPE None off off]
  | KLeaf _ _ _ | KOpen _ _ => [mkRow NTag None off off]
  | KRaw _ _ c e => [mkRow NTag (Some c) off off; mkRow NTagEnd (Some e) (off + length w) (off + length w)]
  | KClose e => [mkRow NTagEnd (Some e) off (off + length w)]
  end.
Fixpoint places (off : nat) (l : list (token * list char)) : list row :=
  match l with
  | [] => []
  | (k, w) :: l' => place k off w ++ places (off + length w) l'
  end.
(** The text of a list of tokens with their spelling. *)
Definition words (l : list (token * list char)) : list char := flat_map snd l.

(** The characters of [s] from [b] up to [e]. *)
Definition slice (s : list char) (b e : nat) : list char := firstn (e - b) (skipn b s).

(** What lies between the two positions of a node. *)
Definition lies (s : list char) (t : tree) : Prop :=
  let w := slice s (t_begin_at t) (t_end_at t) in
  match t_type t with
  | NAbstractRoot => w = s
  | NText | NSpacesBetweenTag => t_content t = Some w
  | NComment => exists c, t_content t = Some c /\ w = str "<!--" ++ c ++ str "-->"
  | NXMLCDATA => exists kw c, t_content t = Some c /\ same_name kw (str "[cdata[") = true /\ w = str "<!" ++ kw ++ c ++ str "]]>"
  | NTagEnd => exists e, t_content t = Some e /\
      (w = str "</" ++ e ++ str ">" \/ t_end_at t = t_begin_at t /\ exists s1 s2, s = s1 ++ str "</" ++ e ++ str ">" ++ s2 /\ length (s1 ++ str "</" ++ e ++ str ">") = t_begin_at t)
  | NTag => t_end_at t = t_begin_at t /\ exists s1 s2, s = s1 ++ str "<" ++ s2 /\ length s1 = t_begin_at t
  | NHTMLDOCTYPE => t_end_at t = t_begin_at t /\ exists s1 s2, s = s1 ++ str "<!" ++ s2 /\ length s1 = t_begin_at t
  end.
