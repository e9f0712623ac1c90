(** Specification of reference counts. *)
From Verif Require Import Api SpecText SpecRender SpecTree Handles.
Local Open Scope list_scope.

(** [cs] are the numbers of strong references to all nodes, when [held] are those outside of nodes: every
    reference is outside or belongs to a node that has not been dropped, one with a count above 0. *)
Definition exact (h : list node) (held : list nid) (cs : list nat) : Prop :=
  length cs = length h /\
  forall k, k < length h -> nth k cs 0 = occ k held +
    list_sum (map (fun p => match nth p cs 0 with O => 0 | S _ => occ k (strong (hget h p)) end) (seq 0 (length h))).

(** Some reference of [held] leads to [k]. *)
Definition kept (h : list node) (held : list nid) (k : nid) : Prop := exists r, In r held /\ in_doc h r k.

(** The nodes to which the weak references of a node lead. *)
Definition weak (n : node) : list nid :=
  let of (x : option nid) := match x with Some k => [k] | None => [] end in
  of (n_prev n) ++ of (n_parent n) ++ of (n_root n).
