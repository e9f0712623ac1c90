(** Reference counting: what [std::rc::Rc] does with the nodes of a document, and [Clone for Node]
    (src/parser.rs 410, 488-495).  A RefNode is a strong reference ([Rc]), the fields [parent], [root]
    and [prev] of a node are weak references ([Weak]). *)
From Verif Require Export Clone.

(** The strong references a node holds (src/parser.rs 442 and 460), in the order in which they are
    dropped with the node: that of the fields. *)
Definition strong (n : node) : list nid :=
  match n_end_tag n with Some e => [e] | None => [] end ++ match n_childs n with Some l => l | None => [] end.

(** The references in the map of ids: one for each key, the last one inserted (the first of the list). *)
Fixpoint map_refs (seen : list (list char)) (m : list (list char * nid)) : list nid :=
  match m with
  | [] => []
  | (x, i) :: r => if existsb (chars_eqb x) seen then map_refs seen r else i :: map_refs (x :: seen) r
  end.

(** The strong references a Doc holds (src/parser.rs 1698-1716), in the order of the fields. *)
Definition doc_refs (d : doc) : list nid :=
  rev (d_chain_nodes d) ++ [d_current_node d] ++
  match d_check_textnode d with Some i => [i] | None => [] end ++ [d_root d] ++ map_refs [] (d_id_tags d).

(** How often [k] occurs in a list. *)
Definition occ (k : nid) (l : list nid) : nat := count_occ Nat.eq_dec l k.

(** [Rc::strong_count] of all nodes, if the references [held] exist outside of nodes: a node that can be
    reached from there lives, and its references count as well. *)
Definition lives (h : list node) (held : list nid) (k : nid) : bool :=
  existsb (fun r => reach (length h) h r k) held.
Definition strong_count (h : list node) (held : list nid) (k : nid) : nat :=
  occ k held +
  list_sum (map (fun p => if lives h held p then occ k (strong (hget h p)) else 0) (seq 0 (length h))).
Definition counts (h : list node) (held : list nid) : list nat := map (strong_count h held) (seq 0 (length h)).

(** [Drop for Rc]: one reference less; with the last one the node is dropped, and so are the references
    it holds.  [todo] are the references still to be dropped. *)
Fixpoint set_nth (k v : nat) (l : list nat) : list nat :=
  match l, k with
  | [], _ => []
  | _ :: r, O => v :: r
  | x :: r, S k' => x :: set_nth k' v r
  end.
Fixpoint release (fuel : nat) (h : list node) (cs : list nat) (todo : list nid) : option (list nat) :=
  match todo with
  | [] => Some cs
  | k :: r =>
      match fuel, nth k cs 0 with
      | S fuel', 1 => release fuel' h (set_nth k 0 cs) (strong (hget h k) ++ r)
      | S fuel', S c => release fuel' h (set_nth k c cs) r
      | _, _ => None
      end
  end.

(** [Weak::upgrade] of a weak reference to [k]. *)
Definition upgrade (cs : list nat) (k : nid) : option nid := if Nat.ltb 0 (nth k cs 0) then Some k else None.

(** src/parser.rs 488-495: [Clone for Node].  The copy is moved out of its [Rc] by [Rc::try_unwrap]; that is
    refused, and [unwrap] panics, if there is another strong reference to it ([None]).  Otherwise the result
    is the heap with the copies, the cell that the copy was moved out of, and the copy. *)
Definition try_unwrap (h : list node) (held : list nid) (j : nid) : option node :=
  if Nat.eqb (strong_count h (j :: held) j) 1 then Some (hget h j) else None.
Definition node_clone (h : list node) (held : list nid) (i : nid) : res (list node * nid * option node) :=
  do '(h', j) <- clone_node h i; ROk (h', j, try_unwrap h' held j).
