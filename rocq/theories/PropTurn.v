(** Property theorems on rendering in several passes (C70). *)
From Coq Require Import String.
From Verif Require Import Api SpecText SpecRender SpecParse SpecMisc SpecTree SpecDoc SpecOpts Tests SpecShown SpecTurn TurnProofs PropShown.
Local Open Scope string_scope.
Local Open Scope list_scope.

(** ** C70 *)
(** After a first pass with any options, a second one that leaves the text alone does what its options would have
    done in the first. *)
Theorem C70_then : forall opts s d f env, parse opts s = Parsed d -> no_repair opts -> open_doctypes d ->
  allow_attr_key_starts_with_equal_sign opts = false -> doc_content d f ->
  forall o1 o2, readable opts env o1 f -> inner_html o2 = false -> keeps_text o2 ->
  encode_content o1 = false \/ encode_content o2 = false ->
  exists out d' out2, render env o1 d = ROk out /\ parse opts out = Parsed d' /\
    render env o2 d' = ROk out2 /\ render env (both o1 o2) d = ROk out2.
Proof. exact pass_then. Qed.
Print Assumptions C70_then.
(** So does any second pass after a first one that leaves text and comments alone. *)
Theorem C70_before : forall opts s d f env, parse opts s = Parsed d -> no_repair opts -> open_doctypes d ->
  allow_attr_key_starts_with_equal_sign opts = false -> doc_content d f ->
  forall o1 o2, readable opts env o1 f -> keeps_text o1 -> remove_comment o1 = false -> inner_html o2 = false ->
  (minify_spaces o2 = true -> Forall (plain_pre false) f) ->
  encode_content o1 = false \/ encode_content o2 = false ->
  exists out d' out2, render env o1 d = ROk out /\ parse opts out = Parsed d' /\
    render env o2 d' = ROk out2 /\ render env (both o1 o2) d = ROk out2.
Proof. exact pass_before. Qed.
Print Assumptions C70_before.
(** The order of two such passes does not matter. *)
Theorem C70_order : forall opts s d f env, parse opts s = Parsed d -> no_repair opts -> open_doctypes d ->
  allow_attr_key_starts_with_equal_sign opts = false -> doc_content d f ->
  forall o1 o2, readable opts env o1 f -> readable opts env o2 f -> keeps_text o1 ->
  keeps_text o2 \/ remove_comment o1 = false -> encode_content o1 = false \/ encode_content o2 = false ->
  exists out1 d1 out2 d2 out, render env o1 d = ROk out1 /\ parse opts out1 = Parsed d1 /\
    render env o2 d = ROk out2 /\ parse opts out2 = Parsed d2 /\
    render env o2 d1 = ROk out /\ render env o1 d2 = ROk out.
Proof. exact pass_order. Qed.
Print Assumptions C70_order.

(** Comments are removed first: the spaces, or the parts of an entity, on both sides come together and the second
    pass finds them. *)
Theorem C70_minify_refuted : let o1 := with_remove_comment true default_ro in exists d d' d'',
  parse default_po (str "a <!--c--> b") = Parsed d /\ render test_env (both o1 minifying) d = ROk (str "a  b") /\
  render test_env o1 d = ROk (str "a  b") /\ parse default_po (str "a  b") = Parsed d' /\ render test_env minifying d' = ROk (str "a b") /\
  render test_env minifying d = ROk (str "a <!--c--> b") /\ parse default_po (str "a <!--c--> b") = Parsed d'' /\ render test_env o1 d'' = ROk (str "a  b").
Proof. eexists _, _, _. do 7 (split; [vm_compute; reflexivity|]). vm_compute. reflexivity. Qed.
Print Assumptions C70_minify_refuted.
Theorem C70_decode_refuted : let o1 := with_remove_comment true default_ro in let o2 := with_decode_entity true default_ro in exists d d',
  parse default_po (str "&l<!--c-->t;") = Parsed d /\ render test_env (both o1 o2) d = ROk (str "&lt;") /\
  render test_env o1 d = ROk (str "&lt;") /\ parse default_po (str "&lt;") = Parsed d' /\ render test_env o2 d' = ROk (str "<").
Proof. eexists _, _. do 4 (split; [vm_compute; reflexivity|]). vm_compute. reflexivity. Qed.
Print Assumptions C70_decode_refuted.
(** A pass that minifies and removes comments can be followed by one for tag names and quotes, in one document with
    all of these. *)
Example C70_example : let o1 := with_remove_comment true minifying in let o2 := with_lowercase_tagname true (with_remove_attr_quote true default_ro) in exists d f d',
  parse default_po (str "<P class='a'>x   y<!--c--> <B></B ></P>") = Parsed d /\ doc_content d f /\ readable default_po test_env o1 f /\ keeps_text o2 /\
  render test_env o1 d = ROk (str "<P class='a'>x y<B></B ></P>") /\ parse default_po (str "<P class='a'>x y<B></B ></P>") = Parsed d' /\
  render test_env o2 d' = ROk (str "<p class=a>x y<b></b ></p>") /\ render test_env (both o1 o2) d = ROk (str "<p class=a>x y<b></b ></p>").
Proof.
  eexists _, [XElem (str "P") [quoted (str "class") (str "a") 39%N] [XText (str "x   y") false; XComment (str "c"); XText (str " ") true; XElem (str "B") [] [] (str "B ")] (str "P")], _.
  split; [vm_compute; reflexivity|]. split; [content|]. split.
  - split; [reflexivity|]. split; [intros _; repeat (apply Forall_cons || apply Forall_nil); cbn; repeat split; intro X; first [discriminate X|reflexivity]|].
    split; [discriminate|]. cbn [flat_map within app]. repeat (apply Forall_cons || apply Forall_nil); cbn [item_readable]; try exact I; split; intro X; discriminate X.
  - split; [split; reflexivity|]. do 3 (split; [vm_compute; reflexivity|]). vm_compute. reflexivity.
Qed.
