(** Property theorems: all repairs together amount to editing the text (C52). *)
From Coq Require Import String.
From Verif Require Import Api SpecText SpecRender SpecParse SpecTree SpecDoc TreeCheck Tests SpecFix SpecStream SpecEdit EditProofs.
Local Open Scope string_scope.
Local Open Scope list_scope.

(** ** C52 *)
Theorem C52_repaired_by_hand : forall o s d, parse o s = Parsed d -> ~ cut_short o s d -> open_doctypes d ->
  (auto_fix_unescaped_lt o = true -> lt_outside_raw o s) ->
  exists s1 s2 d', escaped s s1 /\ (auto_fix_unescaped_lt o = false -> s1 = s) /\
    pruned s1 s2 /\ (auto_fix_unexpected_endtag o = false -> s2 = s1) /\
    parse (no_repairs o) (s2 ++ closers (rev (fixed_names d))) = Parsed d' /\ same_stream d d' /\
    map fst (d_id_tags d') = map fst (d_id_tags d).
Proof. exact repaired_source. Qed.
Print Assumptions C52_repaired_by_hand.
Theorem C52_same_rendering : forall o s d env ro, parse o s = Parsed d -> ~ cut_short o s d -> open_doctypes d ->
  (auto_fix_unescaped_lt o = true -> lt_outside_raw o s) -> stream_options ro ->
  exists s1 s2 d', escaped s s1 /\ pruned s1 s2 /\
    parse (no_repairs o) (s2 ++ closers (rev (fixed_names d))) = Parsed d' /\ render env ro d' = render env ro d.
Proof. exact repaired_renders. Qed.
Print Assumptions C52_same_rendering.
Theorem C52_rendering_needs_no_repair : forall o s d env, parse o s = Parsed d -> ~ cut_short o s d -> open_doctypes d ->
  (auto_fix_unescaped_lt o = true -> lt_outside_raw o s) -> allow_attr_key_starts_with_equal_sign o = false -> full_doctypes d ->
  exists out d', render env default_ro d = ROk out /\ parse (no_repairs o) out = Parsed d' /\ render env default_ro d' = ROk out.
Proof. exact repaired_stable. Qed.
Print Assumptions C52_rendering_needs_no_repair.

Definition all_po : parse_options := mkPO false false true true true true.
(** A stray '<', an end tag without start tag, a missing end tag. *)
Example C52_example : let s := str "<b>1<2</i>x" in
  exists d d', parse all_po s = Parsed d /\ ~ cut_short all_po s d /\ open_doctypes d /\ lt_outside_raw all_po s /\ full_doctypes d /\
    escaped s (str "<b>1&lt;2</i>x") /\ pruned (str "<b>1&lt;2</i>x") (str "<b>1&lt;2x") /\ fixed_names d = [str "b"] /\
    parse (no_repairs all_po) (str "<b>1&lt;2x</b>") = Parsed d' /\ same_stream d d' /\
    render test_env default_ro d = ROk (str "<b>1&lt;2x</b>") /\ render test_env default_ro d' = ROk (str "<b>1&lt;2x</b>") /\
    (exists k r, parse (no_repairs all_po) s = Failed k r).
Proof.
  eexists. eexists. split; [vm_compute; reflexivity|]. split.
  { intros [i [s1 [n [a [T [Bg [E [[c [n' [-> [Al Fn]]]] [Sw _]]]]]]]]].
    assert (I : i = 1).
    { do 6 (destruct i as [|i]; [revert T; vm_compute; (discriminate || reflexivity)|]). revert T. destruct i; vm_compute; discriminate. }
    subst i. destruct s1 as [|? s1]; [|revert Bg; vm_compute; discriminate].
    cbn in E. injection E as <- E. destruct n' as [|x n'].
    - cbn in E. subst a. destruct Sw as [X|X]; vm_compute in X; discriminate.
    - cbn in E. injection E as <- _. inversion Fn as [|? ? X _]. subst. revert X. vm_compute. intuition congruence. }
  split; [intros i m T _; do 6 (destruct i as [|i]; [vm_compute in T; discriminate T|]); destruct i; vm_compute in T; discriminate T|].
  split.
  { intros s1 c s2 st E R _ [St1 [St2 St3]].
    do 5 (destruct s1 as [|? s1];
      [cbn in E; first [discriminate E|injection E as <- _; first [discriminate St1|exfalso; apply St2; reflexivity|
         revert R; vm_compute; intros [= <-] [i [Ne _]]; do 5 (destruct i as [|i]; [apply Ne; reflexivity|]); destruct i; apply Ne; reflexivity]]
      |cbn in E; injection E as <- E]).
    do 7 (destruct s1 as [|? s1]; [cbn in E; first [discriminate E|injection E as <- _; exfalso; apply St2; reflexivity]|cbn in E; first [discriminate E|injection E as <- E]]). }
  split; [intros r t m T Sx Ty _; exfalso; revert T; vm_compute; intros [= <-]|].
  { assert (X : negb (node_type_eqb (t_type t) NHTMLDOCTYPE) = true).
    { eapply (all_sub_spec (fun y => negb (node_type_eqb (t_type y) NHTMLDOCTYPE))); [|exact Sx]. vm_compute. reflexivity. }
    rewrite Ty in X. discriminate X. }
  split; [do 4 apply esc_keep; apply (esc_lt 50%N); [repeat split; discriminate|]; repeat constructor|].
  split; [cbn; do 9 apply prune_keep; apply (prune_end (str "i")); [vm_compute; intuition discriminate|]; repeat constructor|].
  do 2 (split; [vm_compute; reflexivity|]). split; [eexists; eexists; split; [vm_compute; reflexivity|]; split; vm_compute; reflexivity|].
  do 2 (split; [vm_compute; reflexivity|]). eexists. eexists. vm_compute. reflexivity.
Qed.
