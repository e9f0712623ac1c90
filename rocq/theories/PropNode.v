(** Property theorems about building single nodes: outer html, inner html and text (C62). *)
From Coq Require Import String.
From Verif Require Import Api SpecText SpecRender SpecParse SpecMisc SpecTree SpecDoc SpecJoin SpecMap SpecShown SpecNode Tests NodeDoc RepairDoc.
Local Open Scope string_scope.
Local Open Scope list_scope.

(** ** C62 *)
(** Every node of a parsed document but the root and the end tags has a content, and so has the document.
    Documents accepted with repairs are included, see [orderly]. *)
Theorem C62_node_content : forall opts s d r t, parse opts s = Parsed d -> orderly opts s d ->
  doc_tree d = Some r -> sub t r -> t <> r -> t_type t <> NTagEnd -> exists x, depicts x t.
Proof. exact node_content. Qed.
Print Assumptions C62_node_content.
Theorem C62_doc_content : forall opts s d, parse opts s = Parsed d -> orderly opts s d -> exists f, doc_content d f.
Proof. exact orderly_has_content. Qed.
Print Assumptions C62_doc_content.
(** Without repairs nothing is asked but that no doctype is self-closed. *)
Theorem C62_strict_orderly : forall opts s d, no_repair opts -> open_doctypes d -> orderly opts s d.
Proof. exact strict_orderly. Qed.
Print Assumptions C62_strict_orderly.
(** With any options, building it gives its outer html, its inner html or its text, or panics. *)
Theorem C62_node : forall opts s d r t x env o text, parse opts s = Parsed d -> orderly opts s d ->
  always_close_void o = false \/ auto_fix_unclosed_tag opts = false ->
  doc_tree d = Some r -> sub t r -> t <> r -> depicts x t ->
  build env o t text = built_as (built env o x text).
Proof. exact node_built. Qed.
Print Assumptions C62_node.
(** The same for the document: its inner html and text are those of its only element. *)
Theorem C62_document : forall opts s d f env o text, parse opts s = Parsed d -> orderly opts s d ->
  always_close_void o = false \/ auto_fix_unclosed_tag opts = false -> doc_content d f ->
  render_gen env o text d = built_as (built_doc env o f text).
Proof. exact doc_built. Qed.
Print Assumptions C62_document.
(** Without minification, or if no pre is in a pre, the tokens are those of C50. *)
Theorem C62_as_shown : forall env o x, (minify_spaces o = true -> plain_pre false x) -> shown_in env o false x = shown env o false x.
Proof. exact shown_in_cases. Qed.
Print Assumptions C62_as_shown.
(** The inner html of an element is the rendering of the document that is written between its tags. *)
Theorem C62_inner_source : forall opts s d r t n l ks e env, parse opts s = Parsed d -> no_repair opts -> open_doctypes d ->
  allow_self_closing opts = true -> without_cdata d ->
  doc_tree d = Some r -> sub t r -> depicts (XElem n l ks e) t ->
  exists s1 w s2 v s3 d2 o, s = s1 ++ w ++ s2 ++ v ++ s3 /\ length s1 = t_begin_at t /\ written opts (KOpen n l) w /\ written opts (KClose e) v /\
    parse opts s2 = Parsed d2 /\ doc_content d2 (mark_all ks) /\
    build env (with_inner_html true default_ro) t false = ROk o /\ render env default_ro d2 = ROk o.
Proof. exact inner_doc. Qed.
Print Assumptions C62_inner_source.
(** The text of an element is the text of the tokens between its tags. *)
Theorem C62_text_tokens : forall opts s d r t n l ks e env, parse opts s = Parsed d -> orderly opts s d ->
  doc_tree d = Some r -> sub t r -> depicts (XElem n l ks e) t ->
  build env default_ro t true = ROk (flat_map token_text (flat_map tokens ks)).
Proof. exact text_tokens. Qed.
Print Assumptions C62_text_tokens.

Definition po : parse_options := mkPO false false true false false false.
Definition page : list char := str "<div a='1'> <p>x  <b>y</b></p><!--c--><script>1<2</script></div>".
Definition mini (inner : bool) : render_options := mkRO true false false false false false inner false false.
(** Three forms of one element; of a comment; a text has no text. *)
Example C62_example : exists d r t k c, parse po page = Parsed d /\ doc_tree d = Some r /\
  nth_error (nodes r) 1 = Some t /\ nth_error (nodes r) 9 = Some c /\ nth_error (nodes r) 4 = Some k /\ t_type c = NComment /\ t_type k = NText /\
  build test_env (mini false) t false = ROk (str "<div a='1'><p>x <b>y</b></p><!--c--><script>1<2</script></div>") /\
  build test_env (mini true) t false = ROk (str "<p>x <b>y</b></p><!--c--><script>1<2</script>") /\
  build test_env (mini false) t true = ROk (str "x y1<2") /\ build test_env default_ro t true = ROk (str " x  y1<2") /\
  build test_env default_ro c true = ROk (str "c") /\ build test_env (with_inner_html true default_ro) c false = RPanic PInnerHtml /\
  build test_env default_ro k true = RPanic PInnerHtml /\ build test_env (mini false) k false = ROk (str "x ").
Proof. eexists _, _, _, _, _. repeat (split; [vm_compute; reflexivity|]). vm_compute; reflexivity. Qed.
(** The specification on the contents of these nodes. *)
Example C62_spec_example :
  let x := XElem (str "div") [] [XText (str " ") true; XElem (str "pre") [] [XText (str "x  y") false] (str "pre"); XCData (str "z"); XComment (str "c"); XDoctype (str "a") []] (str "div ") in
  built test_env (mini false) x false = Some (str "<div><pre>x  y</pre><![CDATA[z]]><!--c--><!a></div >") /\
  built test_env (mini true) x false = Some (str "<pre>x  y</pre><![CDATA[z]]><!--c--><!a>") /\
  built test_env (mini false) x true = Some (str "x  y<![CDATA[z]]><!a>") /\ built test_env (mini true) x true = None /\
  built_doc test_env (mini true) [x; x] false = None /\ built_doc test_env (mini true) [XComment []; x] false = built test_env (mini true) x false /\
  built_doc test_env (mini true) [XComment []] false = None /\ built_doc test_env (mini true) [] false = Some [].
Proof. cbv zeta. repeat split; vm_compute; reflexivity. Qed.
(** The text between the tags, parsed by itself. *)
Example C62_inner_example : exists d2, parse po (str " <p>x  <b>y</b></p><!--c--><script>1<2</script>") = Parsed d2 /\
  render test_env default_ro d2 = ROk (str " <p>x  <b>y</b></p><!--c--><script>1<2</script>").
Proof. eexists. split; vm_compute; reflexivity. Qed.
(** Minified: the inner pre ends the outer one; a pre that is a leaf is not ended. *)
Example C62_pre_example : exists d d', parse po (str "<pre> a  <pre> b  </pre> c  </pre>") = Parsed d /\ parse po (str "<p><pre/> a  </p> b  ") = Parsed d' /\
  render test_env (mini false) d = ROk (str "<pre> a  <pre> b  </pre> c </pre>") /\ render test_env (mini false) d' = ROk (str "<p><pre /> a  </p> b  ") /\
  render test_env (mini true) d' = ROk (str "<pre /> a  ") /\
  each (shown_in test_env (mini false)) false [XElem (str "p") [] [XLeaf (str "pre") [] true; XText (str " a  ") false] (str "p"); XText (str " b  ") false] =
    [KOpen (str "p") []; KLeaf (str "pre") [] true; KText (str " a  "); KClose (str "p"); KText (str " b  ")].
Proof. eexists _, _. repeat (split; [vm_compute; reflexivity|]). vm_compute; reflexivity. Qed.
(** A repaired document: the unclosed elements get their end tags, the stray end tag is dropped.  Only with
    always_close_void a repaired element differs: its start tag is printed with a '/'. *)
Definition repairing : parse_options := mkPO false false true true true false.
Example C62_repaired_example : exists d r t, parse repairing (str "<div> <p>x</b>y<br><i>z") = Parsed d /\ doc_tree d = Some r /\ nth_error (nodes r) 1 = Some t /\
  d_code_in d = CTextNode /\ t_type t = NTag /\
  build test_env (mini false) t false = ROk (str "<div><p>xy<br><i>z</i></p></div>") /\ build test_env (mini true) t false = ROk (str "<p>xy<br><i>z</i></p>") /\
  build test_env default_ro t true = ROk (str " xyz") /\ render_gen test_env default_ro true d = ROk (str " xyz") /\
  build test_env (with_always_close_void true default_ro) t false = ROk (str "<div /> <p />xy<br><i />z</i></p></div>").
Proof. eexists _, _, _. repeat (split; [vm_compute; reflexivity|]). vm_compute; reflexivity. Qed.
Example C62_orderly_example : let s := str "<b>1</i>x" in exists d, parse repairing s = Parsed d /\ orderly repairing s d /\ d_code_in d = CTextNode /\
  render_gen test_env (with_inner_html true default_ro) false d = ROk (str "1x") /\
  built_doc test_env (with_inner_html true default_ro) [XElem (str "b") [] [XText (str "1x") false] (str "b")] false = Some (str "1x").
Proof.
  eexists. split; [vm_compute; reflexivity|]. split; [|repeat (split; [vm_compute; reflexivity|]); vm_compute; reflexivity].
  split; [reflexivity|]. split; [intros _|].
  { intros [i [s1 [n [a [T [Bg [E [[c [n' [-> [Al Fn]]]] [Sw _]]]]]]]]].
    assert (I : i = 1).
    { do 6 (destruct i as [|i]; [revert T; vm_compute; (discriminate || reflexivity)|]). revert T. destruct i; vm_compute; discriminate. }
    subst i. destruct s1 as [|? s1]; [|revert Bg; vm_compute; discriminate].
    cbn in E. injection E as <- E. destruct n' as [|x n'].
    - cbn in E. subst a. destruct Sw as [X|X]; vm_compute in X; discriminate.
    - cbn in E. injection E as <- _. inversion Fn as [|? ? X _]. subst. revert X. vm_compute. intuition congruence. }
  intros i m T _; do 6 (destruct i as [|i]; [vm_compute in T; discriminate T|]); destruct i; vm_compute in T; discriminate T.
Qed.
