(** Memory and depth of documents, stated on the node graph. *)
From Coq Require Import String.
From Verif Require Import Api.
Local Open Scope string_scope.
Local Open Scope list_scope.

(** Characters kept in a node: its content, and the name, attributes and attribute index of its tag.
    Every attribute counts four more (its quotes, '=' and the blank before it). *)
Definition opt_length (x : option (list char)) : nat := match x with Some l => length l | None => 0 end.
Definition attr_chars (a : attr) : nat := 4 + opt_length (a_key a) + opt_length (a_value a).
Definition key_chars {A} (m : list (list char * A)) : nat := list_sum (map (fun e => length (fst e)) m).
Definition meta_chars (m : tag_meta) : nat :=
  length (m_name m) + list_sum (map attr_chars (m_attrs m)) + key_chars (m_lc_name_map m).
Definition node_chars (n : node) : nat :=
  opt_length (n_content n) + match n_meta n with Some m => meta_chars m | None => 0 end.
(** Characters kept by the parser: in all nodes allocated so far, the index of ids, and the buffer. *)
Definition stored (d : doc) : nat :=
  list_sum (map node_chars (d_heap d)) + key_chars (d_id_tags d) + length (d_prev_chars d).

(** [owns h p k]: node [p] holds a strong reference to node [k]. *)
Definition owns (h : list node) (p k : nid) : Prop :=
  (exists l, n_childs (hget h p) = Some l /\ In k l) \/ n_end_tag (hget h p) = Some k.
(** Reference counting, once nothing outside holds a node any more: a node is freed when all nodes
    that own it have been freed. *)
Inductive freed (h : list node) : nid -> Prop :=
  | freed_intro : forall k, (forall p, owns h p k -> freed h p) -> freed h k.

(** Nesting depth: how deep the recursion of [build_tree], of [clone] and of dropping goes. *)
Fixpoint depth (t : tree) : nat :=
  let of := fix of (ts : list tree) : nat :=
    match ts with [] => 0 | x :: r => Nat.max (depth x) (of r) end in
  match t with
  | TNode _ _ _ _ e _ ks _ =>
      S (Nat.max (match e with Some x => depth x | None => 0 end)
                 (match ks with Some l => of l | None => 0 end))
  end.

(** [times n s]: [s] written [n] times. *)
Definition times (n : nat) (s : list char) : list char := concat (repeat s n).
