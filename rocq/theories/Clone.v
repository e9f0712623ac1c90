(** Deep copy of nodes: src/parser.rs 507-551. *)
From Verif Require Export Render.

(** [self.begin_at - reduce_code_at] on usize: panics on underflow (debug build). *)
Definition checked_sub (a b : nat) : res nat :=
  if Nat.leb b a then ROk (a - b) else RPanic PUnderflow.

(** src/parser.rs 508-546: clone_node_without_childs and clone_node_with.  [i] is the node
    (self); the result is the heap extended with the copies and the reference to the copy. *)
Fixpoint clone_node_with (fuel : nat) (h : list node) (i : nid) (reduce : nat)
    : res (list node * nid) :=
  match fuel with
  | O => RPanic PFuel
  | S fuel' =>
      let n := hget h i in
      (* clone_node_without_childs, 508-529 *)
      do b <- checked_sub (n_begin_at n) reduce;
      do e <- checked_sub (n_end_at n) reduce;
      do '(h, et) <-
        (match n_end_tag n with
         | None => ROk (h, None)
         | Some et => do '(h, et') <- clone_node_with fuel' h et reduce; ROk (h, Some et')
         end);
      let pid := length h in
      let h := h ++ [mkNode 0 (n_type n) b e et None None (n_root n) (n_content n) None (n_meta n)] in
      (* clone_node_with, 534-545 *)
      match n_childs n with
      | None => ROk (h, pid)
      | Some childs =>
          do '(h, ids) <-
            (fix loop (l : list nid) (h : list node) (ids : list nid) : res (list node * list nid) :=
               match l with
               | [] => ROk (h, ids)
               | k :: l' =>
                   do '(h, k') <- clone_node_with fuel' h k reduce;
                   let h := hupd h k' (fun c =>
                     nset_index (n_index (hget h k))
                       (nset_prev (last_opt ids) (nset_parent (Some pid) c))) in
                   loop l' h (ids ++ [k'])
               end) childs h [];
          ROk (hupd h pid (nset_childs (Some ids)), pid)
      end
  end.

(** src/parser.rs 549-551: clone_node. *)
Definition clone_node (h : list node) (i : nid) : res (list node * nid) :=
  clone_node_with (S (length h)) h i (n_begin_at (hget h i)).
