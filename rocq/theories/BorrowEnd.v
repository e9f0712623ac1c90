(** C51 from the equalities of BorrowProofs.v. *)
From Coq Require Import String Lia.
From Verif Require Import Api StructEnd FixProofs CloneProofs BorrowProofs Borrow SpecBorrow.
Local Open Scope list_scope.

Lemma well : forall A (g : guards -> Prop) (m : M A) r, (forall gs, g gs -> m gs = BRes r) -> borrows_well g m r.
Proof. intros A g m r H gs G. rewrite (H gs G). split; [reflexivity|discriminate]. Qed.
Lemma refs_shared : forall g, only_refs g -> shared g.
Proof.
  intros g H. apply Forall_forall. intros [c [|]] I; [|reflexivity]. exfalso. exact (H c I).
Qed.
Lemma refs_below : forall n g, only_old_refs n g -> below n g.
Proof.
  intros n g [H L]. apply Forall_forall. intros [c b] I. split.
  - destruct b; [exfalso; exact (H c I)|reflexivity].
  - destruct c; cbn; auto; eapply L; [left|right]; exact I.
Qed.
Theorem parse_borrows : forall opts s, borrows_well no_guards (parse_b opts s) (parse_res opts s).
Proof. intros. apply well. intros g ->. apply parse_bres. Qed.
Theorem parse_file_borrows : forall opts text, exists context r,
  borrows_well no_guards (parse_file_b opts text) (ROk (context, r)) /\ parse_file opts text = outcome_of context r.
Proof.
  intros. destruct (parse_file_bres opts text) as (context & r & E & F). exists context, r. split; [|exact F].
  apply well. intros g ->. exact E.
Qed.
Theorem render_borrows : forall env opts s d o text, parse opts s = Parsed d ->
  borrows_well only_refs (render_gen_b env o text d) (render_gen env o text d).
Proof.
  intros env opts s d o text P. apply well. intros g G. apply render_bres; [apply refs_shared; exact G|].
  destruct (has_tree opts s d P) as [t E]. rewrite E. discriminate.
Qed.
Theorem node_borrows : forall env opts s d o text i,
  parse opts s = Parsed d -> i < length (d_heap d) ->
  exists t, tree_of (length (d_heap d)) (d_heap d) i = Some t /\
    borrows_well only_refs (build_b env o (d_heap d) i text) (build env o t text) /\
    borrows_well only_refs (is_document_b (d_heap d) i) (ROk (is_document t)).
Proof.
  intros env opts s d o text i P I. destruct (parsed_hs _ _ _ P) as [H _].
  destruct (tree_of (length (d_heap d)) (d_heap d) i) as [t|] eqn:T;
    [|exfalso; eapply (tree_exists _ _ _ i H I); [|exact T]; lia].
  exists t. split; [reflexivity|]. split; apply well; intros g G.
  - apply build_bres; [apply refs_shared; exact G|exact T].
  - eapply document_bres; [apply refs_shared; exact G|exact T].
Qed.
Theorem element_borrows : forall d id,
  borrows_well only_refs (get_element_by_id_b d id) (ROk (get_element_by_id d id)).
Proof. intros. apply well. intros g G. apply element_bres. apply refs_shared. exact G. Qed.
Theorem clone_borrows : forall opts s d i, parse opts s = Parsed d -> i < length (d_heap d) ->
  borrows_well (only_old_refs (length (d_heap d))) (clone_node_b (d_heap d) i) (clone_node (d_heap d) i).
Proof. intros opts s d i P I. apply well. intros g G. eapply clone_node_bres; [exact P|exact I|apply refs_below; exact G]. Qed.
