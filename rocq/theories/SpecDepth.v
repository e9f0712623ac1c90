(** Specification of depth. *)
From Verif Require Import Api SpecText SpecRender SpecTree.
Local Open Scope list_scope.

(** The number of levels of a tree; end tags do not count. *)
Fixpoint levels (t : tree) : nat :=
  match t with
  | TNode _ _ _ _ _ _ ks _ =>
      S (match ks with Some l => list_max (map levels l) | None => 0 end)
  end.

(** The longest way from [i] along strong links has [n] steps. *)
Definition deepest (h : list node) (i : nid) (n : nat) : Prop :=
  (exists w k, path h i w k /\ length w = n) /\ forall w k, path h i w k -> length w <= n.
