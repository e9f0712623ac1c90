(** Property theorems about the node graph of parsed documents (C20, C21). *)
From Coq Require Import String.
From Verif Require Import Api SpecText SpecTree StructEnd.
Local Open Scope string_scope.
Local Open Scope list_scope.

(** ** C20 *)
(** One path from the root to each node, no cycles, all nodes in the tree (end tags that closed nothing
    are dropped), child indices, and the tree is finite. *)
Theorem C20_tree : forall opts s d, parse opts s = Parsed d ->
  let h := d_heap d in let r := d_root d in
  (forall k w w', path h r w k -> path h r w' k -> w = w') /\
  (forall k w, path h k w k -> w = []) /\
  (forall k, k < length h -> n_type (hget h k) <> NTagEnd -> in_doc h r k) /\
  (forall k w, path h r w k -> k < length h) /\
  (forall p i k, linked h p (LChild i) k -> n_index (hget h k) = i) /\
  doc_tree d <> None.
Proof. exact graph_tree. Qed.
Print Assumptions C20_tree.
Example C20_example : exists d, parse default_po (str "<p>a<b>c</b></p><!--x-->") = Parsed d /\
  length (d_heap d) = 8 /\ path (d_heap d) (d_root d) [LChild 0; LChild 1; LChild 0] 4 /\
  path (d_heap d) (d_root d) [LChild 0; LEnd] 6 /\ n_index (hget (d_heap d) 7) = 1.
Proof.
  eexists. split; [vm_compute; reflexivity|]. split; [reflexivity|]. split; [|split].
  - apply (path_step _ _ [LChild 0; LChild 1] 3); [apply (path_step _ _ [LChild 0] 1); [apply (path_step _ _ [] 0); [constructor|]|]|];
      (eapply linked_child; [reflexivity|reflexivity]).
  - apply (path_step _ _ [LChild 0] 1); [apply (path_step _ _ [] 0); [constructor|]|].
    + eapply linked_child; reflexivity.
    + apply linked_end. reflexivity.
  - reflexivity.
Qed.

(** ** C21 *)
Theorem C21_links : forall opts s d, parse opts s = Parsed d ->
  let h := d_heap d in let r := d_root d in
  (forall p i k, linked h p (LChild i) k ->
     (n_parent (hget h k) = Some p /\ n_root (hget h k) = Some r) \/
     (auto_fix_unescaped_lt opts = true /\ (n_type (hget h k) = NText \/ n_type (hget h k) = NSpacesBetweenTag) /\
      n_parent (hget h k) = None /\ n_root (hget h k) = None)) /\
  (forall p e, linked h p LEnd e -> n_parent (hget h e) = Some p) /\
  n_parent (hget h r) = None /\ n_root (hget h r) = Some r.
Proof. exact graph_links. Qed.
Print Assumptions C21_links.
(** The exception is real: the text made from a stray '<' has no parent. *)
Theorem C21_stray_lt_refuted : exists d,
  parse (mkPO false false false false false true) (str "<p></p><1") = Parsed d /\
  linked (d_heap d) (d_root d) (LChild 1) 3 /\ n_parent (hget (d_heap d) 3) = None.
Proof.
  eexists. split; [vm_compute; reflexivity|]. split; [|reflexivity]. eapply linked_child; reflexivity.
Qed.
Print Assumptions C21_stray_lt_refuted.
Example C21_example : exists d, parse default_po (str "<p>a<b>c</b></p>") = Parsed d /\
  linked (d_heap d) 1 (LChild 1) 3 /\ n_parent (hget (d_heap d) 3) = Some 1 /\ linked (d_heap d) 3 LEnd 5.
Proof.
  eexists. split; [vm_compute; reflexivity|]. split; [eapply linked_child; reflexivity|].
  split; [reflexivity|]. apply linked_end. reflexivity.
Qed.
