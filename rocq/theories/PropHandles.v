(** C59: what a reference to a node keeps alive. *)
From Coq Require Import String.
From Verif Require Import Api Tests SpecText SpecRender SpecParse SpecTree SpecClone SpecHandles Handles Clone HandleThms.
Local Open Scope string_scope.
Local Open Scope list_scope.

(** C59: whichever strong references to nodes of a parsed document exist, there is exactly one way to count
    the references to its nodes. *)
Theorem C59_counts : forall opts s d held, parse opts s = Parsed d -> Forall (fun r => r < length (d_heap d)) held ->
  exact (d_heap d) held (counts (d_heap d) held) /\ forall cs, exact (d_heap d) held cs -> cs = counts (d_heap d) held.
Proof. exact doc_counts. Qed.
Print Assumptions C59_counts.

(** C59: a weak reference can be upgraded as long as a strong reference leads to the node. *)
Theorem C59_upgrade : forall opts s d held k, parse opts s = Parsed d -> Forall (fun r => r < length (d_heap d)) held ->
  upgrade (counts (d_heap d) held) k = Some k <-> kept (d_heap d) held k.
Proof. exact doc_upgrade. Qed.
Print Assumptions C59_upgrade.

(** C59: dropping some of the references, one by one and in any order, comes to an end, never drops a node
    twice, and leaves the counts of those that remain; with none left every node is gone. *)
Theorem C59_drop : forall opts s d todo held, parse opts s = Parsed d ->
  Forall (fun r => r < length (d_heap d)) todo -> Forall (fun r => r < length (d_heap d)) held ->
  release (list_sum (counts (d_heap d) (todo ++ held))) (d_heap d) (counts (d_heap d) (todo ++ held)) todo =
  Some (counts (d_heap d) held).
Proof. exact doc_drop. Qed.
Print Assumptions C59_drop.
Theorem C59_drop_all : forall opts s d, parse opts s = Parsed d ->
  release (list_sum (counts (d_heap d) (doc_refs d))) (d_heap d) (counts (d_heap d) (doc_refs d)) (doc_refs d) =
  Some (repeat 0 (length (d_heap d))).
Proof. exact drop_all. Qed.
Print Assumptions C59_drop_all.

(** C59: a parsed Doc keeps exactly its nodes alive, and besides them at most one dropped end tag. *)
Theorem C59_doc_alive : forall opts s d k, parse opts s = Parsed d ->
  upgrade (counts (d_heap d) (doc_refs d)) k = Some k <->
  in_doc (d_heap d) (d_root d) k \/
  (k = d_current_node d /\ auto_fix_unexpected_endtag opts = true /\ auto_fix_unclosed_tag opts = false /\
   n_type (hget (d_heap d) k) = NTagEnd).
Proof. exact doc_alive. Qed.
Print Assumptions C59_doc_alive.

(** C59: so all weak links between its nodes (prev, parent, root) can be upgraded, to nodes of the document;
    end tags have no root link. *)
Theorem C59_doc_links : forall opts s d k p, parse opts s = Parsed d ->
  in_doc (d_heap d) (d_root d) k -> In p (weak (hget (d_heap d) k)) ->
  in_doc (d_heap d) (d_root d) p /\ upgrade (counts (d_heap d) (doc_refs d)) p = Some p.
Proof. exact doc_weak. Qed.
Print Assumptions C59_doc_links.
Theorem C59_end_root : forall opts s d k, parse opts s = Parsed d ->
  n_type (hget (d_heap d) k) = NTagEnd -> n_root (hget (d_heap d) k) = None.
Proof. exact end_root. Qed.
Print Assumptions C59_end_root.

(** C59: who drops the Doc and holds only the node [i], keeps the nodes below [i]: the parent and root links
    of [i] itself dangle, the parent links below it do not. *)
Theorem C59_part : forall opts s d i, parse opts s = Parsed d -> in_doc (d_heap d) (d_root d) i ->
  let h := d_heap d in
  exists cs, release (list_sum (counts h (doc_refs d ++ [i]))) h (counts h (doc_refs d ++ [i])) (doc_refs d) = Some cs /\
  (forall k, upgrade cs k = Some k <-> in_doc h i k) /\
  (forall p, n_parent (hget h i) = Some p -> upgrade cs p = None) /\
  (forall r, n_root (hget h i) = Some r -> i <> r -> upgrade cs r = None) /\
  (forall k p, in_doc h i k -> k <> i -> n_parent (hget h k) = Some p -> upgrade cs p = Some p).
Proof. exact part_drop. Qed.
Print Assumptions C59_part.

(** C59: [Node::clone] never panics in [try_unwrap], whatever references exist.  Afterwards the copy owns its
    end tag and children, and all nodes below it are alive, but the place that their parent links lead to,
    where the copy was made, is not; for the nodes of the document nothing changes. *)
Theorem C59_node_clone : forall opts s d i held, parse opts s = Parsed d -> i < length (d_heap d) ->
  Forall (fun r => r < length (d_heap d)) held ->
  let h := d_heap d in
  exists h' j, node_clone h held i = ROk (h', j, Some (hget h' j)) /\ deep_copy h i h' j /\
  let cs := counts h' (strong (hget h' j) ++ held) in
  exact h' (strong (hget h' j) ++ held) cs /\
  (forall k, in_doc h' j k -> upgrade cs k = if Nat.eqb k j then None else Some k) /\
  (forall k, k < length h -> upgrade cs k = upgrade (counts h held) k).
Proof. exact copy_node. Qed.
Print Assumptions C59_node_clone.

(** The counts while the Doc is held; with node [i] held as well; after the Doc was dropped; and the upgrades of
    the weak links of all nodes then. *)
Definition handles_of (p : parse_options) (s : string) (i : nid) :=
  match parse p (str s) with
  | Parsed d =>
      let h := d_heap d in
      let cs := counts h (doc_refs d ++ [i]) in
      let gone := release (list_sum cs) h cs (doc_refs d) in
      Some (counts h (doc_refs d), cs, gone,
            match gone with Some g => map (fun n => map (upgrade g) (weak n)) h | None => [] end)
  | _ => None
  end.
Definition copy_of (s : string) (i : nid) :=
  match parse default_po (str s) with
  | Parsed d =>
      match node_clone (d_heap d) (doc_refs d) i with
      | ROk (h', j, Some n) => 
          let g := counts h' (strong n ++ doc_refs d) in Some (j, g, map (fun n => map (upgrade g) (weak n)) h')
      | _ => None
      end
  | _ => None
  end.
Example C59_example :
  handles_of default_po "<p id=a><b>x</b><br></p>" 2 =
    Some ([2; 2; 1; 1; 1; 1; 2], [2; 2; 2; 1; 1; 1; 2], Some [0; 0; 1; 1; 1; 0; 0],
          [[None]; [None; None]; [None; None]; [Some 2; None]; [Some 2]; [None; None]; [None]]) /\
  handles_of (mkPO false false false false true false) "<p></p></b>" 1 =
    Some ([2; 1; 1; 1], [2; 2; 1; 1], Some [0; 1; 1; 0], [[None]; [None; None]; [Some 1]; []]) /\
  copy_of "<p id=a><b>x</b><br></p>" 1 =
    Some (8, [2; 2; 1; 1; 1; 1; 2; 1; 0; 1; 1; 1; 1],
          [[Some 0]; [Some 0; Some 0]; [Some 1; Some 0]; [Some 2; Some 0]; [Some 2]; [Some 1; Some 0]; [Some 1];
           []; [Some 0]; []; [None; Some 0]; [Some 10; Some 0]; [Some 10; None; Some 0]]).
Proof. vm_compute. repeat split; reflexivity. Qed.
