(** Property theorems about the borrows of the cells (C51). *)
From Coq Require Import String.
From Verif Require Import Api SpecText Tests BorrowEnd Borrow SpecBorrow.
Local Open Scope string_scope.
Local Open Scope list_scope.

(** ** C51 *)
Theorem C51_parse : forall opts s, borrows_well no_guards (parse_b opts s) (parse_res opts s).
Proof. exact parse_borrows. Qed.
Print Assumptions C51_parse.
Theorem C51_parse_file : forall opts text, exists context r,
  borrows_well no_guards (parse_file_b opts text) (ROk (context, r)) /\ parse_file opts text = outcome_of context r.
Proof. exact parse_file_borrows. Qed.
Print Assumptions C51_parse_file.
Theorem C51_render : forall env opts s d o text, parse opts s = Parsed d ->
  borrows_well only_refs (render_gen_b env o text d) (render_gen env o text d).
Proof. exact render_borrows. Qed.
Print Assumptions C51_render.
Theorem C51_build : forall env opts s d o text i,
  parse opts s = Parsed d -> i < length (d_heap d) ->
  exists t, tree_of (length (d_heap d)) (d_heap d) i = Some t /\
    borrows_well only_refs (build_b env o (d_heap d) i text) (build env o t text) /\
    borrows_well only_refs (is_document_b (d_heap d) i) (ROk (is_document t)).
Proof. exact node_borrows. Qed.
Print Assumptions C51_build.
Theorem C51_element : forall d id,
  borrows_well only_refs (get_element_by_id_b d id) (ROk (get_element_by_id d id)).
Proof. exact element_borrows. Qed.
Print Assumptions C51_element.
Theorem C51_clone : forall opts s d i, parse opts s = Parsed d -> i < length (d_heap d) ->
  borrows_well (only_old_refs (length (d_heap d))) (clone_node_b (d_heap d) i) (clone_node (d_heap d) i).
Proof. exact clone_borrows. Qed.
Print Assumptions C51_clone.

(** The model does notice conflicts: a second exclusive borrow, a shared borrow under an exclusive
    one, and an exclusive one under a shared one stop it; shared borrows of one cell, and borrows of
    different cells, do not.  The caller who renders, searches or copies while holding a [RefMut] of a
    node, of its meta, of the index of ids or of the document meets a conflict. *)
Example C51_example :
  writing (KNode 3) (writing (KNode 3) (ret tt)) [] = BConflict (KNode 3) /\
  reading (KNode 3) (writing (KNode 3) (ret tt)) [] = BConflict (KNode 3) /\
  writing (KNode 3) (reading (KNode 3) (ret tt)) [] = BConflict (KNode 3) /\
  reading (KNode 3) (reading (KNode 3) (ret tt)) [] = BRes (ROk tt) /\
  writing (KNode 3) (writing (KMeta 3) (writing (KNode 4) (ret tt))) [] = BRes (ROk tt) /\
  (mbind (writing (KNode 3) (ret tt)) (fun _ => writing (KNode 3) (ret tt))) [] = BRes (ROk tt) /\
  exists d, parse_b (mkPO false false false true true true) (str "<p id=x>a < b<br><!--c-->") [] = BRes (ROk d) /\
    length (d_heap d) = 6 /\
    (exists out, render_gen_b test_env (mkRO false false false false false false false false false) false d
      [(KNode 1, false); (KMeta 1, false); (KNode 1, false)] = BRes (ROk out) /\
      out = str "<p id=x>a &lt; b<br><!--c--></p>") /\
    render_gen_b test_env (mkRO false false false false false false false false false) false d [(KNode 1, true)]
      = BConflict (KNode 1) /\
    render_gen_b test_env (mkRO false false false false false false false false false) false d [(KMeta 1, true)]
      = BConflict (KMeta 1) /\
    render_gen_b test_env (mkRO false false false false false false false false false) false d [(KDoc, true)]
      = BConflict KDoc /\
    get_element_by_id_b d (str "x") [(KIds, true)] = BConflict KIds /\
    get_element_by_id_b d (str "x") [(KIds, false); (KNode 1, true)] = BRes (ROk (Some 1)) /\
    clone_node_b (d_heap d) 1 [(KNode 2, true)] = BConflict (KNode 2).
Proof.
  do 6 (split; [vm_compute; reflexivity|]).
  eexists. split; [vm_compute; reflexivity|]. split; [vm_compute; reflexivity|].
  split; [eexists; split; vm_compute; reflexivity|].
  do 5 (split; [vm_compute; reflexivity|]). vm_compute. reflexivity.
Qed.
