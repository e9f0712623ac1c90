(** Property theorems about copies of nodes (C36). *)
From Coq Require Import String.
From Verif Require Import Api SpecText SpecRender Tests CloneProofs SpecTree SpecClone.
Local Open Scope string_scope.
Local Open Scope list_scope.

(** ** C36 *)
Theorem C36_deep_copy : forall opts s d i, parse opts s = Parsed d -> i < length (d_heap d) ->
  exists h' j, clone_node (d_heap d) i = ROk (h', j) /\ deep_copy (d_heap d) i h' j.
Proof. exact clone_copies. Qed.
Print Assumptions C36_deep_copy.
Theorem C36_same_rendering : forall opts s d i h' j t env o inner, parse opts s = Parsed d -> i < length (d_heap d) ->
  clone_node (d_heap d) i = ROk (h', j) -> tree_of (length (d_heap d)) (d_heap d) i = Some t ->
  exists t', tree_of (length h') h' j = Some t' /\ build env o t' inner = build env o t inner.
Proof. exact clone_renders. Qed.
Print Assumptions C36_same_rendering.
(** The parser links end tags to their element, clone_node does not link the copied end tags. *)
Theorem C36_end_tag_parent_refuted : exists d h' j e e',
  parse default_po (str "<i>x</i>") = Parsed d /\ clone_node (d_heap d) 1 = ROk (h', j) /\
  n_end_tag (hget (d_heap d) 1) = Some e /\ n_parent (hget (d_heap d) e) = Some 1 /\
  n_end_tag (hget h' j) = Some e' /\ n_parent (hget h' e') = None.
Proof.
  eexists. eexists. eexists. eexists. eexists. repeat (split; [vm_compute; reflexivity|]). vm_compute. reflexivity.
Qed.
Print Assumptions C36_end_tag_parent_refuted.
(** Nested elements not at the start of the document. *)
Example C36_example : exists d h' j t',
  parse default_po (str "<p></p><ul><li id=1>a<br><!--b--></li><li>c</li></ul>") = Parsed d /\
  clone_node (d_heap d) 3 = ROk (h', j) /\ n_begin_at (hget (d_heap d) 3) = 7 /\ tree_of (length h') h' j = Some t' /\
  build test_env default_ro t' false = ROk (str "<ul><li id=1>a<br><!--b--></li><li>c</li></ul>") /\
  t_begin_at t' = 0 /\ option_map (map t_begin_at) (t_childs t') = Some [4; 31] /\
  option_map (map t_index) (t_childs t') = Some [0; 1].
Proof.
  eexists. eexists. eexists. eexists. repeat (split; [vm_compute; reflexivity|]). vm_compute. reflexivity.
Qed.
