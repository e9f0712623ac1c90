(** Property theorems about dropped end tags and escaped '<' (C14, C15). *)
From Coq Require Import String.
From Verif Require Import Api SpecText SpecRender Tests StreamProofs StreamRender SpecTree SpecFix SpecStream.
Local Open Scope string_scope.
Local Open Scope list_scope.

(** Documents with the same stream are rendered alike. *)
Theorem C14_same_stream_same_rendering : forall o s d o' s' d' env ro, parse o s = Parsed d -> parse o' s' = Parsed d' ->
  same_stream d d' -> stream_options ro -> render env ro d' = render env ro d.
Proof. exact stream_renders. Qed.
Print Assumptions C14_same_stream_same_rendering.

(** ** C14 *)
Theorem C14_unmatched_end_tag : forall o s1 st nm s2, run (doc_new o) s1 = ROk st -> between st -> unmatched st nm -> ~ In 62%N nm ->
  auto_fix_unexpected_endtag o = true -> (auto_fix_unescaped_lt o = false \/ ~ after_raw st) ->
  same_result (parse o (s1 ++ s2)) (parse o (s1 ++ str "</" ++ nm ++ str ">" ++ s2)).
Proof. exact dropped_end. Qed.
Print Assumptions C14_unmatched_end_tag.
Theorem C14_open_elements : forall o s1 st nm, run (doc_new o) s1 = ROk st -> between st -> unmatched st nm -> ~ In 62%N nm ->
  auto_fix_unexpected_endtag o = true ->
  exists st', run (doc_new o) (s1 ++ str "</" ++ nm ++ str ">") = ROk st' /\ between st' /\ d_chain_nodes st' = d_chain_nodes st /\
    (forall i, i < length (d_heap st) -> i <> d_current_node st -> hget (d_heap st') i = hget (d_heap st) i) /\
    (forall i x, n_childs (hget (d_heap st') i) = Some x -> n_childs (hget (d_heap st) i) = Some x).
Proof. exact dropped_state. Qed.
Print Assumptions C14_open_elements.

Definition drop_po : parse_options := mkPO false false true false true false.
Example C14_example : exists st d d',
  run (doc_new drop_po) (str "<ul><li id=a>x") = ROk st /\ between st /\ unmatched st (str "ul ") /\
  parse drop_po (str "<ul><li id=a>x</ul >y</li></ul>") = Parsed d /\ parse drop_po (str "<ul><li id=a>xy</li></ul>") = Parsed d' /\
  render test_env default_ro d = ROk (str "<ul><li id=a>xy</li></ul>") /\ same_result (Parsed d') (Parsed d) /\
  length (d_heap d) = 8 /\ length (d_heap d') = 6.
Proof.
  do 3 eexists. split; [vm_compute; reflexivity|]. split; [split; [right; reflexivity|discriminate]|]. split.
  { cbn. intros m H. injection H as <-. vm_compute. reflexivity. }
  do 3 (split; [vm_compute; reflexivity|]). split; [|split; vm_compute; reflexivity].
  split; [|split; vm_compute; reflexivity]. eexists. eexists. split; [vm_compute; reflexivity|]. split; [vm_compute; reflexivity|]. vm_compute. reflexivity.
Qed.
(** After a raw text element the dropped end tag decides where an escaped '<' goes. *)
Theorem C14_after_raw_refuted : exists d d', let o := mkPO false false true false true true in
  parse o (str "<script>x</script><1") = Parsed d /\ parse o (str "<script>x</script></b><1") = Parsed d' /\
  render test_env default_ro d = ROk (str "<script>x&lt;1</script>") /\
  render test_env default_ro d' = ROk (str "<script>x</script>&lt;1").
Proof. eexists. eexists. repeat (split; [vm_compute; reflexivity|]). vm_compute. reflexivity. Qed.
Print Assumptions C14_after_raw_refuted.
(** Minified, the text before and after a dropped end tag can be one text or two. *)
Theorem C14_minified_refuted : exists d d', let ro := mkRO true false false false false false false false false in
  parse drop_po (str "<p>x </b> y</p>") = Parsed d /\ parse drop_po (str "<p>x  y</p>") = Parsed d' /\
  render test_env ro d = ROk (str "<p>x  y</p>") /\ render test_env ro d' = ROk (str "<p>x y</p>").
Proof. eexists. eexists. repeat (split; [vm_compute; reflexivity|]). vm_compute. reflexivity. Qed.
Print Assumptions C14_minified_refuted.
(** Without open element every end tag is dropped; the end tag of the innermost open element is not. *)
Example C14_outside : exists d, parse drop_po (str "</x>a</p ><p>b</p>") = Parsed d /\ render test_env default_ro d = ROk (str "a<p>b</p>").
Proof. eexists. split; vm_compute; reflexivity. Qed.

(** ** C15 *)
Theorem C15_stray_lt : forall o s1 st c s2, run (doc_new o) s1 = ROk st -> between st -> ~ after_raw st ->
  auto_fix_unescaped_lt o = true -> stray c ->
  same_result (parse o (s1 ++ str "&lt;" ++ c :: s2)) (parse o (s1 ++ str "<" ++ c :: s2)).
Proof. exact stray_lt. Qed.
Print Assumptions C15_stray_lt.

Definition lt_po : parse_options := mkPO false false true false false true.
Example C15_example : exists st d d',
  run (doc_new lt_po) (str "<p>1 <br>") = ROk st /\ between st /\ ~ after_raw st /\ stray 60%N /\
  parse lt_po (str "<p>1 <br><< 2</p>") = Parsed d /\ parse lt_po (str "<p>1 <br>&lt;&lt; 2</p>") = Parsed d' /\
  render test_env default_ro d = ROk (str "<p>1 <br>&lt;&lt; 2</p>") /\ same_result (Parsed d') (Parsed d).
Proof.
  do 3 eexists. split; [vm_compute; reflexivity|]. split; [split; [left; reflexivity|discriminate]|]. split.
  { intros [i [E I]]. do 4 (destruct i as [|i]; [apply E; reflexivity|]). destruct i; apply E; reflexivity. }
  split; [repeat split; discriminate|]. do 3 (split; [vm_compute; reflexivity|]).
  split; [|split; vm_compute; reflexivity]. eexists. eexists. split; [vm_compute; reflexivity|]. split; [vm_compute; reflexivity|]. vm_compute. reflexivity.
Qed.
Theorem C15_after_raw_refuted : exists d,
  parse lt_po (str "<script>x</script><1") = Parsed d /\ render test_env default_ro d = ROk (str "<script>x&lt;1</script>").
Proof. eexists. split; vm_compute; reflexivity. Qed.
Print Assumptions C15_after_raw_refuted.
(** A '<' at the very end of the input is an error. *)
Theorem C15_last_refuted : exists k r, parse lt_po (str "<p>x</p><") = Failed k r.
Proof. eexists. eexists. vm_compute. reflexivity. Qed.
Print Assumptions C15_last_refuted.
