(** Property theorems on repeated minification (C57). *)
From Coq Require Import String.
From Verif Require Import Api SpecText SpecRender SpecParse SpecMisc SpecTree SpecDoc SpecOpts Tests SpecShown SpecSettle Settle PropShown.
Local Open Scope string_scope.
Local Open Scope list_scope.

(** ** C57 *)
(** Parse and render twice: from then on nothing changes. *)
Theorem C57_settles_after_two : forall opts env o, no_repair opts -> allow_attr_key_starts_with_equal_sign opts = false ->
  decode_entity o = false -> encode_content o = false ->
  forall s d f, parse opts s = Parsed d -> open_doctypes d -> doc_content d f -> readable opts env o f ->
  exists out d' out' d'', render env o d = ROk out /\ parse opts out = Parsed d' /\
    render env o d' = ROk out' /\ parse opts out' = Parsed d'' /\ render env o d'' = ROk out'.
Proof. exact settle_docs. Qed.
Print Assumptions C57_settles_after_two.
(** Once is enough if comments are kept and no element, except in pre, holds just a blank text. *)
Theorem C57_settles_after_one : forall opts env o, no_repair opts -> allow_attr_key_starts_with_equal_sign opts = false ->
  decode_entity o = false -> encode_content o = false ->
  forall s d f, parse opts s = Parsed d -> open_doctypes d -> doc_content d f -> readable opts env o f ->
  remove_comment o = false -> Forall (no_lone_blank false) f ->
  exists out d', render env o d = ROk out /\ parse opts out = Parsed d' /\ render env o d' = ROk out.
Proof. exact settle_once. Qed.
Print Assumptions C57_settles_after_one.
(** If comments are removed, once is not enough: the spaces around a comment come to stand side by side. *)
Theorem C57_one_with_comments_refuted : let o := with_remove_comment true minifying in exists d f d' d'',
  parse default_po (str "a <!--c--> b") = Parsed d /\ doc_content d f /\ Forall (no_lone_blank false) f /\
  render test_env o d = ROk (str "a  b") /\ parse default_po (str "a  b") = Parsed d' /\
  render test_env o d' = ROk (str "a b") /\ parse default_po (str "a b") = Parsed d''.
Proof.
  eexists _, [XText (str "a ") false; XComment (str "c"); XText (str " b") false], _, _.
  split; [vm_compute; reflexivity|]. split; [content|]. split; [repeat constructor|]. do 3 (split; [vm_compute; reflexivity|]). vm_compute. reflexivity.
Qed.
Print Assumptions C57_one_with_comments_refuted.
(** The document of [C50_minify_twice_refuted] settles after two. *)
Example C57_two_example : exists d f d' d'',
  parse default_po (str "<p> </p> <b></b>") = Parsed d /\ doc_content d f /\ readable default_po test_env minifying f /\
  render test_env minifying d = ROk (str "<p> </p><b></b>") /\ parse default_po (str "<p> </p><b></b>") = Parsed d' /\
  render test_env minifying d' = ROk (str "<p></p><b></b>") /\ parse default_po (str "<p></p><b></b>") = Parsed d'' /\
  render test_env minifying d'' = ROk (str "<p></p><b></b>").
Proof.
  eexists _, [XElem (str "p") [] [XText (str " ") false] (str "p"); XText (str " ") true; XElem (str "b") [] [] (str "b")], _, _.
  split; [vm_compute; reflexivity|]. split; [content|]. split.
  - split; [reflexivity|]. split; [intros _; repeat (apply Forall_cons || apply Forall_nil); cbn; repeat split; intro X; discriminate X|].
    split; [discriminate|]. cbn [flat_map within app]. repeat (apply Forall_cons || apply Forall_nil); cbn [item_readable]; try exact I; split; intro X; discriminate X.
  - do 4 (split; [vm_compute; reflexivity|]). vm_compute. reflexivity.
Qed.
Example C57_one_example : exists d f d',
  parse default_po (str "<p> a   b <b>  c</b>  <i></i> </p><pre> x  <b> </b> </pre>") = Parsed d /\ doc_content d f /\ readable default_po test_env minifying f /\ Forall (no_lone_blank false) f /\
  render test_env minifying d = ROk (str "<p> a b <b> c</b><i></i></p><pre> x  <b> </b> </pre>") /\
  parse default_po (str "<p> a b <b> c</b><i></i></p><pre> x  <b> </b> </pre>") = Parsed d' /\
  render test_env minifying d' = ROk (str "<p> a b <b> c</b><i></i></p><pre> x  <b> </b> </pre>").
Proof.
  eexists _, [XElem (str "p") [] [XText (str " a   b ") false; XElem (str "b") [] [XText (str "  c") false] (str "b"); XText (str "  ") true; XElem (str "i") [] [] (str "i"); XText (str " ") true] (str "p");
    XElem (str "pre") [] [XText (str " x  ") false; XElem (str "b") [] [XText (str " ") false] (str "b"); XText (str " ") true] (str "pre")], _.
  split; [vm_compute; reflexivity|]. split; [content|]. split.
  - split; [reflexivity|]. split; [intros _; repeat (apply Forall_cons || apply Forall_nil); cbn; repeat split; intro X; first [discriminate X|reflexivity]|].
    split; [discriminate|]. cbn [flat_map within app]. repeat (apply Forall_cons || apply Forall_nil); cbn [item_readable]; try exact I; split; intro X; discriminate X.
  - split; [repeat (apply Forall_cons || apply Forall_nil || split || exact I || (left; reflexivity) || (right; first [exact I|reflexivity]))|].
    do 2 (split; [vm_compute; reflexivity|]). vm_compute. reflexivity.
Qed.
