(** Property theorems about the renderer (C25-C35), with examples showing that their
    hypotheses hold in non-trivial cases. *)
From Coq Require Import String.
From Verif Require Import Api SpecText SpecRender TextProofs NameProofs RenderProofs MinifyProofs TreeCheck Tests.
Local Open Scope string_scope.
Local Open Scope list_scope.

(** A tree used in the examples below. *)
Definition sample : tree := tree_of_source default_po
  "<!DOCTYPE html><DIV id=""a""  Class=x> one  two <!-- c --><br><pre> p  q </pre> <Title>a <b></Title ></DIV >".
Definition sample_div : tree := nth_child 1 sample.

(** ** C25 *)
Theorem C25_remove_comment : forall env o t text,
  comments_are_leaves t -> end_tags_not_comments t -> is_comment t = false ->
  build env (with_remove_comment true o) t text =
  build env (with_remove_comment false o) (no_comments t) text.
Proof. exact remove_comment_render. Qed.
Print Assumptions C25_remove_comment.

Example C25_example :
  comments_are_leaves sample /\ end_tags_not_comments sample /\ is_comment sample = false /\
  build test_env (with_remove_comment true default_ro) sample false =
    ROk (str "<!DOCTYPE html><DIV id=""a"" Class=x> one  two <br><pre> p  q </pre> <Title>a <b></Title ></DIV >").
Proof.
  split; [apply check_comments; vm_compute; reflexivity|].
  split; [apply check_end_not_comment; vm_compute; reflexivity|].
  split; vm_compute; reflexivity.
Qed.

(** ** C26 *)
Theorem C26_collapse_runs : forall s, collapsed s (minify_text s false).
Proof. exact minify_collapsed. Qed.
Print Assumptions C26_collapse_runs.

Theorem C26_collapse_unique : forall s t, collapsed s t -> t = minify_text s false.
Proof. exact collapsed_unique. Qed.
Print Assumptions C26_collapse_unique.

Theorem C26_minify_idempotent : forall s, minify_text (minify_text s false) false = minify_text s false.
Proof. exact (fun s => minify_idem_gen s false). Qed.
Print Assumptions C26_minify_idempotent.

(** ** C26 and C28: the whole tree, inside and outside pre *)
Theorem C28_minify_outside_pre : forall env o t text,
  decode_entity o = false ->
  end_tags_match t -> pre_has_end t -> pre_not_nested t -> t_type t <> NTagEnd ->
  build env (with_minify_spaces true o) t text =
  build env (with_minify_spaces false o) (minified false t) text.
Proof. exact minify_render. Qed.
Print Assumptions C28_minify_outside_pre.

Example C28_example :
  end_tags_match sample /\ pre_has_end sample /\ pre_not_nested sample /\ t_type sample <> NTagEnd /\
  build test_env (with_minify_spaces true default_ro) sample false =
    ROk (str "<!DOCTYPE html><DIV id=""a"" Class=x> one two <!-- c --><br><pre> p  q </pre><Title>a <b></Title ></DIV >").
Proof.
  split; [apply check_end_tags_match; vm_compute; reflexivity|].
  split; [apply check_pre_has_end; vm_compute; reflexivity|].
  split; [apply check_pre_not_nested; vm_compute; reflexivity|].
  split; [vm_compute; discriminate|vm_compute; reflexivity].
Qed.

(** Nested pre elements: the text after the inner one is minified although still inside pre. *)
Theorem C28_nested_pre_refuted : exists t,
  end_tags_match t /\ pre_has_end t /\ t_type t <> NTagEnd /\
  build test_env (with_minify_spaces true default_ro) t false <>
  build test_env (with_minify_spaces false default_ro) (minified false t) false.
Proof.
  exists (tree_of_source default_po "<pre><pre></pre>a  b</pre>").
  split; [apply check_end_tags_match; vm_compute; reflexivity|].
  split; [apply check_pre_has_end; vm_compute; reflexivity|].
  split; [vm_compute; discriminate|]. vm_compute. discriminate.
Qed.
Print Assumptions C28_nested_pre_refuted.

(** A self-closed pre: the rest of the document is not minified any more. *)
Theorem C28_selfclosed_pre_refuted : exists t,
  end_tags_match t /\ pre_not_nested t /\ t_type t <> NTagEnd /\
  build test_env (with_minify_spaces true default_ro) t false <>
  build test_env (with_minify_spaces false default_ro) (minified false t) false.
Proof.
  exists (tree_of_source po_self "<pre/>a  b").
  split; [apply check_end_tags_match; vm_compute; reflexivity|].
  split; [apply check_pre_not_nested; vm_compute; reflexivity|].
  split; [vm_compute; discriminate|]. vm_compute. discriminate.
Qed.
Print Assumptions C28_selfclosed_pre_refuted.

(** ** C27, on trees *)
Theorem C27_minify_keeps_visible_tree : forall env o t,
  decode_entity o = false -> inner_html o = false -> complete t -> spaces_are_ws t ->
  exists out1 out2,
    build env (with_minify_spaces true o) t false = ROk out1 /\
    build env (with_minify_spaces false o) t false = ROk out2 /\
    visible out1 = visible out2.
Proof. exact minify_visible. Qed.
Print Assumptions C27_minify_keeps_visible_tree.

Example C27_example : complete sample /\ spaces_are_ws sample.
Proof. split; [apply check_complete|apply check_spaces]; vm_compute; reflexivity. Qed.

(** ** C29 *)
Theorem C29_without_entities : forall env s,
  ~ In AMP_CHAR s -> minify_decode env s false None = minify_text s false.
Proof. exact (fun env s => minify_decode_no_amp env s false). Qed.
Print Assumptions C29_without_entities.
Example C29_example : ~ In AMP_CHAR (str "a  b ; c") /\
  minify_decode test_env (str "a  b ; c") false None = str "a b ; c".
Proof. split; [|vm_compute; reflexivity]. vm_compute. intuition discriminate. Qed.

Theorem C29_minify_decode_refuted : exists t out1 out2,
  build test_env (with_minify_spaces true (with_decode_entity true default_ro)) t false = ROk out1 /\
  build test_env (with_minify_spaces false (with_decode_entity true default_ro)) t false = ROk out2 /\
  collapse out2 = out2 /\ out1 <> out2.
Proof.
  exists (tree_of_source default_po "a &gt; b"), (str "a >b"), (str "a > b").
  split; [vm_compute; reflexivity|]. split; [vm_compute; reflexivity|].
  split; [vm_compute; reflexivity|]. vm_compute. discriminate.
Qed.
Print Assumptions C29_minify_decode_refuted.

(** ** C30 *)
Theorem C30_lowercase_tagname : forall env o t text,
  build env (with_lowercase_tagname true o) t text =
  build env (with_lowercase_tagname false o) (lower_names t) text.
Proof. exact lower_names_render. Qed.
Print Assumptions C30_lowercase_tagname.
Example C30_example : build test_env (with_lowercase_tagname true default_ro) sample false =
  ROk (str "<!DOCTYPE html><div id=""a"" Class=x> one  two <!-- c --><br><pre> p  q </pre> <title>a <b></title ></div >").
Proof. vm_compute. reflexivity. Qed.

(** ** C31 *)
Theorem C31_inner_html : forall env o t m out,
  t_type t = NTag -> t_meta t = Some m ->
  (forall e, t_end_tag t = Some e -> t_type e = NTagEnd) ->
  build env (with_inner_html false o) t false = ROk out ->
  exists inner,
    build env (with_inner_html true o) t false = ROk inner /\
    out = print_start o m ++ inner ++
          match t_end_tag t with
          | Some e => match t_content e with Some c => print_end o c | None => [] end
          | None => []
          end.
Proof. exact inner_outer. Qed.
Print Assumptions C31_inner_html.
Example C31_example :
  t_type sample_div = NTag /\ t_meta sample_div <> None /\
  build test_env (with_inner_html true default_ro) sample_div false =
    ROk (str " one  two <!-- c --><br><pre> p  q </pre> <Title>a <b></Title >") /\
  build test_env (with_inner_html false default_ro) sample_div false =
    ROk (str "<DIV id=""a"" Class=x> one  two <!-- c --><br><pre> p  q </pre> <Title>a <b></Title ></DIV >").
Proof. split; [vm_compute; reflexivity|]. split; [vm_compute; discriminate|]. split; vm_compute; reflexivity. Qed.

(** ** C32, option part: what remove_attr_quote does to a tree *)
Theorem C32_remove_attr_quote_tree : forall env o t text,
  build env (with_remove_attr_quote true o) t text =
  build env (with_remove_attr_quote false o) (unquote_attrs t) text.
Proof. exact unquote_render. Qed.
Print Assumptions C32_remove_attr_quote_tree.
Example C32_example : build test_env (with_remove_attr_quote true default_ro) sample_div false =
  ROk (str "<DIV id=a Class=x> one  two <!-- c --><br><pre> p  q </pre> <Title>a <b></Title ></DIV >").
Proof. vm_compute. reflexivity. Qed.

(** ** C33 *)
Theorem C33_encode_content : forall env o t text,
  build env (with_encode_content true o) t text =
  build env (with_encode_content false o) (encode_titles env t) text.
Proof. exact encode_render. Qed.
Print Assumptions C33_encode_content.
Example C33_example : build test_env (with_encode_content true default_ro) sample false =
  ROk (str "<!DOCTYPE html><DIV id=""a"" Class=x> one  two <!-- c --><br><pre> p  q </pre> <Title>a &lt;b&gt;</Title ></DIV >").
Proof. vm_compute. reflexivity. Qed.

(** ** C34 *)
Theorem C34_render_text : forall env o t,
  plain_options o -> t_type t = NTag -> complete t -> no_markup t -> end_tags_placed t ->
  build env o t true = ROk (text_of t).
Proof. exact render_text_tag. Qed.
Print Assumptions C34_render_text.
Example C34_example :
  plain_options default_ro /\ t_type sample_div = NTag /\ complete sample_div /\ no_markup sample_div /\
  end_tags_placed sample_div /\ text_of sample_div = str " one  two  p  q  a <b>".
Proof.
  split; [repeat split|]. split; [vm_compute; reflexivity|].
  split; [apply check_complete; vm_compute; reflexivity|].
  split; [apply check_no_markup; vm_compute; reflexivity|].
  split; [apply check_end_placed; vm_compute; reflexivity|].
  vm_compute. reflexivity.
Qed.

(** ** C35 *)
Theorem C35_always_close_void : forall env o t text,
  build env (with_always_close_void true o) t text =
  build env (with_always_close_void false o) (close_auto_fixed t) text.
Proof. exact close_auto_fixed_render. Qed.
Print Assumptions C35_always_close_void.

Theorem C35_no_auto_fix_no_effect : forall t,
  (forall s m, sub s t -> t_type s = NTag -> t_meta s = Some m -> m_auto_fix m = false) ->
  close_auto_fixed t = t.
Proof. exact close_auto_fixed_id. Qed.
Print Assumptions C35_no_auto_fix_no_effect.

(** The option's name promises void elements; `<br>` is not touched. *)
Theorem C35_void_elements_refuted :
  build test_env (with_always_close_void true default_ro) (tree_of_source default_po "<br>") false = ROk (str "<br>").
Proof. vm_compute. reflexivity. Qed.
Print Assumptions C35_void_elements_refuted.
Example C35_example :
  build test_env (with_always_close_void true default_ro) (tree_of_source po_unclosed "<p>x") false = ROk (str "<p />x</p>").
Proof. vm_compute. reflexivity. Qed.

(** ** C44: remove_endtag_space *)
Theorem C44_remove_endtag_space : forall env o t text,
  build env (with_remove_endtag_space true o) t text =
  build env (with_remove_endtag_space false o) (trim_end_tags t) text.
Proof. exact trim_end_tags_render. Qed.
Print Assumptions C44_remove_endtag_space.
Example C44_example : build test_env (with_remove_endtag_space true default_ro) sample_div false =
  ROk (str "<DIV id=""a"" Class=x> one  two <!-- c --><br><pre> p  q </pre> <Title>a <b></Title></DIV>").
Proof. vm_compute. reflexivity. Qed.

(** ** C45: rendering a complete tree never panics *)
Theorem C45_complete_trees_render : forall env o t,
  complete t -> inner_html o = false -> exists out, build env o t false = ROk out.
Proof. exact build_ok. Qed.
Print Assumptions C45_complete_trees_render.
Example C45_example : complete sample.
Proof. apply check_complete. vm_compute. reflexivity. Qed.
