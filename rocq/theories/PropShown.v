(** Property theorems on the text that rendering gives and on parsing it again (C29, C32, C50). *)
From Coq Require Import String.
From Verif Require Import Api SpecText SpecRender SpecParse SpecMisc SpecTree SpecDoc SpecOpts Tests Shown ShownDoc SpecShown.
Local Open Scope string_scope.
Local Open Scope list_scope.

(** ** C29 *)
Theorem C29_minify_decode : forall env s, exists l, in_parts s l /\ (forall l', in_parts s l' -> l' = l) /\
  minify_decode env s false None = squeeze env false l.
Proof. exact minify_decode_parts. Qed.
Print Assumptions C29_minify_decode.
Example C29_parts_example :
  in_parts (str "a  &gt; b&x") [Plain 97%N; Plain 32%N; Plain 32%N; Ref (str "gt"); Plain 32%N; Plain 98%N; Cut (str "x")] /\
  squeeze test_env false [Plain 97%N; Plain 32%N; Plain 32%N; Ref (str "gt"); Plain 32%N; Plain 98%N; Cut (str "x")] = str "a >b&x".
Proof.
  split; [|vm_compute; reflexivity]. do 3 (apply in_plain; [discriminate|]).
  apply (in_ref (str "gt") (str " b&x")); [vm_compute; intuition discriminate|]. do 2 (apply in_plain; [discriminate|]).
  apply (in_cut (str "x")). vm_compute; intuition discriminate.
Qed.

(** ** C32 *)
Theorem C32_reparse : forall opts s d f env, parse opts s = Parsed d -> no_repair opts -> open_doctypes d ->
  allow_attr_key_starts_with_equal_sign opts = false -> doc_content d f -> Forall item_spare (flat_map within f) ->
  exists out d' f', render env unquoting d = ROk out /\ parse opts out = Parsed d' /\ doc_content d' f' /\
    flat_map tokens f' = map unquote_token (flat_map tokens f).
Proof. exact unquoting_parses. Qed.
Print Assumptions C32_reparse.
Theorem C32_quotes_needed : forall opts env s d d' n l l' out, parse opts s = Parsed d -> no_repair opts -> open_doctypes d ->
  doc_content d [XElem n l [] n] -> render env unquoting d = ROk out -> parse opts out = Parsed d' -> open_doctypes d' ->
  doc_content d' [XElem n l' [] n] -> map drop_quotes l' = map drop_quotes l -> Forall quotes_spare l.
Proof. exact quotes_needed_doc. Qed.
Print Assumptions C32_quotes_needed.
Ltac content := eexists; split; [vm_compute; reflexivity|];
  repeat (first [ reflexivity | apply Forall2_cons | apply Forall2_nil
                | econstructor; [reflexivity|..] | eexists; split; [reflexivity|] | split ]).
Theorem C32_space_refuted : exists d d' l l',
  parse default_po (str "<a b=""x y""></a>") = Parsed d /\ doc_content d [XElem (str "a") l [] (str "a")] /\
  render test_env unquoting d = ROk (str "<a b=x y></a>") /\
  parse default_po (str "<a b=x y></a>") = Parsed d' /\ doc_content d' [XElem (str "a") l' [] (str "a")] /\
  map a_value l = [Some (str "x y")] /\ map a_value l' = [Some (str "x"); None].
Proof.
  eexists _, _, [quoted (str "b") (str "x y") 34%N], [unquoted (str "b") (str "x"); bare (str "y")].
  split; [vm_compute; reflexivity|]. split; [content|]. split; [vm_compute; reflexivity|]. split; [vm_compute; reflexivity|].
  split; [content|]. split; reflexivity.
Qed.
Print Assumptions C32_space_refuted.
Theorem C32_empty_refuted : exists d d' l l',
  parse default_po (str "<a b=''></a>") = Parsed d /\ doc_content d [XElem (str "a") l [] (str "a")] /\
  render test_env unquoting d = ROk (str "<a b=></a>") /\
  parse default_po (str "<a b=></a>") = Parsed d' /\ doc_content d' [XElem (str "a") l' [] (str "a")] /\
  map a_value l = [Some []] /\ map a_value l' = [None].
Proof.
  eexists _, _, [quoted (str "b") [] 39%N], [bare (str "b")].
  split; [vm_compute; reflexivity|]. split; [content|]. split; [vm_compute; reflexivity|]. split; [vm_compute; reflexivity|].
  split; [content|]. split; reflexivity.
Qed.
Print Assumptions C32_empty_refuted.
Theorem C32_rejected_refuted : exists d k r,
  parse default_po (str "<a b=""'x""></a>") = Parsed d /\
  render test_env unquoting d = ROk (str "<a b='x></a>") /\
  parse default_po (str "<a b='x></a>") = Failed k r.
Proof. eexists _, _, _. split; [vm_compute; reflexivity|]. split; vm_compute; reflexivity. Qed.
Print Assumptions C32_rejected_refuted.
Ltac spare := repeat (apply Forall_cons || apply Forall_nil || split || exact I || discriminate ||
  (eexists _, _; split; [reflexivity|]) || (intros [X|X]; discriminate)).
Example C32_reparse_example : exists d f,
  parse default_po (str "<!DOCTYPE html><a b=""x/=y"" c='1' d>t</a>") = Parsed d /\ doc_content d f /\
  Forall item_spare (flat_map within f) /\
  render test_env unquoting d = ROk (str "<!DOCTYPE html><a b=x/=y c=1 d>t</a>").
Proof.
  eexists _, [XDoctype (str "DOCTYPE") [bare (str "html")];
    XElem (str "a") [quoted (str "b") (str "x/=y") 34%N; quoted (str "c") (str "1") 39%N; bare (str "d")] [XText (str "t") false] (str "a")].
  split; [vm_compute; reflexivity|]. split; [content|]. split; [|vm_compute; reflexivity].
  spare.
Qed.

(** ** C50 *)
Theorem C50_rendered_output : forall opts s d env o, parse opts s = Parsed d -> no_repair opts -> open_doctypes d -> inner_html o = false ->
  exists f, source opts (flat_map tokens f) s /\ doc_content d f /\
    ((minify_spaces o = true -> Forall (plain_pre false) f) -> render env o d = ROk (print (flat_map (shown env o false) f))).
Proof. exact shown_parsed. Qed.
Print Assumptions C50_rendered_output.
Theorem C50_output_parses : forall opts s d f env o, parse opts s = Parsed d -> no_repair opts -> open_doctypes d ->
  allow_attr_key_starts_with_equal_sign opts = false -> doc_content d f -> readable opts env o f ->
  exists out d' f', render env o d = ROk out /\ parse opts out = Parsed d' /\ source opts (flat_map tokens f') out /\
    doc_content d' f' /\ marked f' /\ flat_map tokens f' = merge (flat_map (shown env o false) f).
Proof. exact shown_parses. Qed.
Print Assumptions C50_output_parses.
Theorem C50_stable : forall opts s d f env o, parse opts s = Parsed d -> no_repair opts -> open_doctypes d ->
  allow_attr_key_starts_with_equal_sign opts = false -> doc_content d f -> readable opts env o f ->
  minify_spaces o = false -> decode_entity o = false -> encode_content o = false ->
  exists out d', render env o d = ROk out /\ parse opts out = Parsed d' /\ render env o d' = ROk out.
Proof. exact shown_stable. Qed.
Print Assumptions C50_stable.
(** All options at once. *)
Example C50_example : let o := mkRO true true true true true true false true true in
  exists d f, parse default_po (str "<DIV b=""x""> a &gt;  <!-- c -->b<Title>1&2</TITLE ></Div ><pre>  </pre> <br/>") = Parsed d /\
  doc_content d f /\ readable default_po test_env o f /\
  flat_map (shown test_env o false) f =
    [KOpen (str "div") [unquoted (str "b") (str "x")]; KText (str " a >"); KText (str "b");
     KRaw (str "title") [] (str "1&amp;2") (str "title"); KClose (str "div");
     KOpen (str "pre") []; KText (str "  "); KClose (str "pre"); KLeaf (str "br") [] true] /\
  render test_env o d = ROk (str "<div b=x> a >b<title>1&amp;2</title></div><pre>  </pre><br />").
Proof.
  eexists _, [XElem (str "DIV") [quoted (str "b") (str "x") 34%N]
     [XText (str " a &gt;  ") false; XComment (str " c "); XText (str "b") false;
      XRaw (str "Title") [] (str "1&2") (str "TITLE ")] (str "Div ");
     XElem (str "pre") [] [XText (str "  ") false] (str "pre"); XText (str " ") true; XLeaf (str "br") [] true].
  split; [vm_compute; reflexivity|]. split; [content|].
  match goal with |- _ /\ ?e = ?ks /\ _ => assert (E : e = ks) by (vm_compute; reflexivity) end.
  split; [|split; [exact E|vm_compute; reflexivity]].
  split; [reflexivity|]. split; [|split].
  - intros _. repeat (apply Forall_cons || apply Forall_nil); cbn; repeat split; try discriminate; auto.
  - intros _ c H. rewrite E in H. cbn [In] in H.
    repeat (destruct H as [H|H]; [first [discriminate H|injection H as <-; split; [discriminate|intro X; repeat (destruct X as [X|X]; [discriminate X|]); destruct X]]|]). destruct H.
  - assert (V : attr_val (str "x")).
    { exists 120%N, []. split; [reflexivity|]. split; [constructor; [split; [reflexivity|discriminate]|constructor]|].
      split; [intros [X|X]; discriminate|discriminate]. }
    cbn [flat_map within app]. repeat (apply Forall_cons || apply Forall_nil); cbn [item_readable]; try exact I.
    + split; [|intros _ X; discriminate X]. intros _. constructor; [exact V|constructor].
    + split; [constructor|]. split; [|intros _ X; discriminate X]. intros _ _ X. vm_compute in X. intuition discriminate.
    + split; [constructor|]. intros _ X. discriminate X.
    + constructor.
Qed.
(** What the conditions are for. *)
Definition minifying : render_options := with_minify_spaces true default_ro.
(** Minification twice is not minification once: a blank text counts as text only while text follows. *)
Theorem C50_minify_twice_refuted : exists d d' d'',
  parse default_po (str "<p> </p> <b></b>") = Parsed d /\ render test_env minifying d = ROk (str "<p> </p><b></b>") /\
  parse default_po (str "<p> </p><b></b>") = Parsed d' /\ render test_env minifying d' = ROk (str "<p></p><b></b>") /\
  parse default_po (str "<p></p><b></b>") = Parsed d''.
Proof. eexists _, _, _. do 4 (split; [vm_compute; reflexivity|]). vm_compute. reflexivity. Qed.
Print Assumptions C50_minify_twice_refuted.
(** Decoded text with '<' is not read as text. *)
Theorem C50_decoded_refuted : exists d k r,
  parse default_po (str "a &lt; b") = Parsed d /\ render test_env (with_decode_entity true default_ro) d = ROk (str "a < b") /\
  parse default_po (str "a < b") = Failed k r.
Proof. eexists _, _, _. do 2 (split; [vm_compute; reflexivity|]). vm_compute. reflexivity. Qed.
Print Assumptions C50_decoded_refuted.
(** Encoding twice encodes the encoding. *)
Theorem C50_encode_twice_refuted : exists d d',
  parse default_po (str "<title>&</title>") = Parsed d /\ render test_env (with_encode_content true default_ro) d = ROk (str "<title>&amp;</title>") /\
  parse default_po (str "<title>&amp;</title>") = Parsed d' /\ render test_env (with_encode_content true default_ro) d' = ROk (str "<title>&amp;amp;</title>").
Proof. eexists _, _. do 3 (split; [vm_compute; reflexivity|]). vm_compute. reflexivity. Qed.
Print Assumptions C50_encode_twice_refuted.
(** Lower case names end svg elements that were not ended before, and raw texts earlier. *)
Theorem C50_lowercase_svg_refuted : exists d k r,
  parse default_po (str "<svg></SVG><a/>") = Parsed d /\ render test_env (with_lowercase_tagname true default_ro) d = ROk (str "<svg></svg><a />") /\
  parse default_po (str "<svg></svg><a />") = Failed k r.
Proof. eexists _, _, _. do 2 (split; [vm_compute; reflexivity|]). vm_compute. reflexivity. Qed.
Print Assumptions C50_lowercase_svg_refuted.
Theorem C50_lowercase_raw_refuted : let opts := mkPO true false false false false false in exists d k r,
  parse opts (str "<Title></title></Title>") = Parsed d /\ render test_env (with_lowercase_tagname true default_ro) d = ROk (str "<title></title></title>") /\
  parse opts (str "<title></title></title>") = Failed k r.
Proof. eexists _, _, _. do 2 (split; [vm_compute; reflexivity|]). vm_compute. reflexivity. Qed.
Print Assumptions C50_lowercase_raw_refuted.
(** A doctype without attributes is printed without the blank that must follow its name. *)
Theorem C50_doctype_refuted : exists d k r,
  parse default_po (str "<!DOCTYPE >") = Parsed d /\ render test_env default_ro d = ROk (str "<!DOCTYPE>") /\
  parse default_po (str "<!DOCTYPE>") = Failed k r.
Proof. eexists _, _, _. do 2 (split; [vm_compute; reflexivity|]). vm_compute. reflexivity. Qed.
Print Assumptions C50_doctype_refuted.
