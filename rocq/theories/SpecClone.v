(** Specification of deep copies. *)
From Verif Require Import Api SpecText SpecRender SpecTree.
Local Open Scope list_scope.

(** The tree with all positions moved [r] to the front.  The copy and its end tags are not the
    child of any node and get index 0, children keep their index. *)
Definition with_index (i : nat) (t : tree) : tree :=
  match t with TNode _ ty b e et c ks m => TNode i ty b e et c ks m end.
Fixpoint moved (r : nat) (t : tree) : tree :=
  match t with
  | TNode i ty b e et c ks m =>
      TNode 0 ty (b - r) (e - r) (option_map (moved r) et) c
        (option_map (map (fun k => with_index (t_index k) (moved r k))) ks) m
  end.

(** The node [j] of [h'] is an independent deep copy of the node [i] of [h]. *)
Record deep_copy (h : list node) (i : nid) (h' : list node) (j : nid) : Prop := mkCopy {
  dc_old : length h <= length h' /\ forall k, k < length h -> hget h' k = hget h k;
  dc_tree : forall t, tree_of (length h) h i = Some t -> tree_of (length h') h' j = Some (moved (t_begin_at t) t);
  dc_new : forall w k, path h' j w k -> length h <= k < length h';
  dc_unshared : forall w w' k, path h' j w k -> path h' j w' k -> w = w';
  dc_root : forall w k, path h i w k -> exists k', path h' j w k' /\ n_root (hget h' k') = n_root (hget h k);
  dc_top : n_parent (hget h' j) = None /\ n_prev (hget h' j) = None;
  dc_links : forall p l x k, in_doc h' j p -> n_childs (hget h' p) = Some l -> nth_error l x = Some k ->
    n_parent (hget h' k) = Some p /\ n_index (hget h' k) = x /\
    n_prev (hget h' k) = match x with O => None | S y => nth_error l y end
}.
