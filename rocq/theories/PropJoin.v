(** Property theorems about putting documents together and taking them apart (C56). *)
From Coq Require Import String.
From Verif Require Import Api SpecText SpecRender SpecParse SpecMisc SpecTree SpecDoc SpecMap SpecJoin Tests JoinProofs.
Local Open Scope string_scope.
Local Open Scope list_scope.

(** ** C56 *)
(** Two documents one after the other are a document with both contents, rendered as both renderings. *)
Theorem C56_concat : forall opts s1 s2 d1 d2 env, parse opts s1 = Parsed d1 -> parse opts s2 = Parsed d2 -> no_repair opts ->
  open_doctypes d1 -> open_doctypes d2 -> case_sensitive_tagname opts = true \/ closed_alike d1 ->
  exists d f1 f2 o1 o2, parse opts (s1 ++ s2) = Parsed d /\ doc_content d1 f1 /\ doc_content d2 f2 /\ doc_content d (mark_all (glue f1 f2)) /\
    render env default_ro d1 = ROk o1 /\ render env default_ro d2 = ROk o2 /\ render env default_ro d = ROk (o1 ++ o2).
Proof. exact concat_docs. Qed.
Print Assumptions C56_concat.
(** A document can be put between any two tokens outside svg and math. *)
Theorem C56_insert : forall opts ks1 s1 ks3 s3 a s d env, source opts ks1 s1 -> source opts ks3 s3 -> nests opts (ks1 ++ ks3) ->
  nest_all opts ks1 (mkNest [] None) = Some (mkNest a None) ->
  parse opts s = Parsed d -> no_repair opts -> open_doctypes d -> case_sensitive_tagname opts = true \/ closed_alike d ->
  exists d' f f' o, parse opts (s1 ++ s ++ s3) = Parsed d' /\ doc_content d f /\ doc_content d' f' /\
    flat_map tokens f' = join ks1 (join (flat_map tokens f) ks3) /\
    render env default_ro d = ROk o /\ render env default_ro d' = ROk (print ks1 ++ o ++ print ks3).
Proof. exact insert_doc. Qed.
Print Assumptions C56_insert.
(** A document can be put into an element. *)
Theorem C56_wrap : forall opts n l w e s d env, written opts (KOpen n l) w -> special_elem n = false ->
  name_fits (case_sensitive_tagname opts) n (trim_right e) = true -> ~ In 62%N e ->
  parse opts s = Parsed d -> no_repair opts -> open_doctypes d ->
  exists d' f o, parse opts (w ++ s ++ str "</" ++ e ++ str ">") = Parsed d' /\ doc_content d f /\ doc_content d' (mark_all [XElem n l f e]) /\
    render env default_ro d = ROk o /\ render env default_ro d' = ROk (str "<" ++ n ++ print_attrs l ++ str ">" ++ o ++ str "</" ++ e ++ str ">").
Proof. exact wrap_doc. Qed.
Print Assumptions C56_wrap.
(** Content that stands outside svg and math is a document of its own. *)
Theorem C56_part : forall opts ks1 g s2 ks3 a, source opts (flat_map tokens g) s2 ->
  nests opts (ks1 ++ flat_map tokens g ++ ks3) -> nest_all opts ks1 (mkNest [] None) = Some (mkNest a None) ->
  case_sensitive_tagname opts = true \/ Forall closes_alike g ->
  exists d, parse opts s2 = Parsed d /\ doc_content d (mark_all g).
Proof. exact part_doc. Qed.
Print Assumptions C56_part.
(** Every node of a document without CDATA is cut out of the source, at its begin position, by a text that
    is a document with this one node; rendering this document and the node in place give the same. *)
Theorem C56_extract : forall opts s d r t env, parse opts s = Parsed d -> no_repair opts -> open_doctypes d -> allow_self_closing opts = true -> without_cdata d ->
  doc_tree d = Some r -> sub t r -> t <> r -> t_type t <> NTagEnd ->
  exists s1 s2 s3 x d2 o, s = s1 ++ s2 ++ s3 /\ length s1 = t_begin_at t /\ parse opts s2 = Parsed d2 /\ depicts x t /\ doc_content d2 (mark_all [x]) /\
    build env default_ro t false = ROk o /\ render env default_ro d2 = ROk o.
Proof. exact extract_doc. Qed.
Print Assumptions C56_extract.

Definition po : parse_options := mkPO false false false false false false.
Ltac content := eexists; split; [vm_compute; reflexivity|]; repeat (first [ reflexivity | apply Forall2_cons | apply Forall2_nil
  | econstructor; [reflexivity|..] | eexists; split; [reflexivity|] | split ]).
(** The texts at the seam become one; the blank in front of an element counts as space between tags. *)
Example C56_example :
  let f1 := [XText (str "x") false; XElem (str "p") [] [XText (str " ") false] (str "p"); XText (str "a") false] in
  let f2 := [XText (str " b") false; XElem (str "i") [] [] (str "I")] in
  (exists d1, parse po (str "x<p> </p>a") = Parsed d1 /\ doc_content d1 f1) /\
  (exists d2, parse po (str " b<i></I>") = Parsed d2 /\ doc_content d2 f2) /\
  (exists d, parse po (str "x<p> </p>a b<i></I>") = Parsed d /\ doc_content d (mark_all (glue f1 f2))) /\
  mark_all (glue f1 f2) = [XText (str "x") false; XElem (str "p") [] [XText (str " ") false] (str "p"); XText (str "a b") false; XElem (str "i") [] [] (str "I")] /\
  mark_all (glue [XElem (str "p") [] [XText (str " ") false] (str "p")] [XElem (str "i") [] [] (str "i")]) =
    [XElem (str "p") [] [XText (str " ") true] (str "p"); XElem (str "i") [] [] (str "i")].
Proof.
  cbv zeta. split; [|split; [|split; [|split; vm_compute; reflexivity]]].
  - eexists. split; [vm_compute; reflexivity|]. content.
  - eexists. split; [vm_compute; reflexivity|]. content.
  - eexists. split; [vm_compute; reflexivity|]. content.
Qed.

Example C56_extract_example : exists d r t, parse default_po (str "<div> <p a>x</p></div>") = Parsed d /\ doc_tree d = Some r /\
  nth_error (nodes r) 3 = Some t /\ t_begin_at t = 6 /\ build test_env default_ro t false = ROk (str "<p a>x</p>") /\
  exists d2, parse default_po (str "<p a>x</p>") = Parsed d2 /\ render test_env default_ro d2 = ROk (str "<p a>x</p>").
Proof. eexists _, _, _. repeat (split; [vm_compute; reflexivity|]). eexists. split; vm_compute; reflexivity. Qed.

(** Refuted: without the condition on svg and math. *)
Theorem C56_concat_refuted : ~ (forall s1 s2 d1 d2, parse po s1 = Parsed d1 -> parse po s2 = Parsed d2 -> exists d, parse po (s1 ++ s2) = Parsed d).
Proof.
  intro H. destruct (H (str "<math></MATH>") (str "<svg><math><![CDATA[x]]></math></svg>") (match parse po (str "<math></MATH>") with Parsed d => d | _ => doc_new po end)
    (match parse po (str "<svg><math><![CDATA[x]]></math></svg>") with Parsed d => d | _ => doc_new po end)) as [d X]; [vm_compute; reflexivity|vm_compute; reflexivity|].
  assert (Q : match parse po (str "<math></MATH>" ++ str "<svg><math><![CDATA[x]]></math></svg>") with Parsed _ => false | _ => true end = true) by (vm_compute; reflexivity).
  rewrite X in Q. discriminate Q.
Qed.
Print Assumptions C56_concat_refuted.
(** Refuted: a document with CDATA cannot always be put into a math element. *)
Theorem C56_wrap_refuted : ~ (forall s d, parse po s = Parsed d -> exists d', parse po (str "<math>" ++ s ++ str "</math>") = Parsed d').
Proof.
  intro H. destruct (H (str "<svg><math><![CDATA[x]]></math></svg>") (match parse po (str "<svg><math><![CDATA[x]]></math></svg>") with Parsed d => d | _ => doc_new po end)) as [d X]; [vm_compute; reflexivity|].
  assert (Q : match parse po (str "<math>" ++ str "<svg><math><![CDATA[x]]></math></svg>" ++ str "</math>") with Parsed _ => false | _ => true end = true) by (vm_compute; reflexivity).
  rewrite X in Q. discriminate Q.
Qed.
Print Assumptions C56_wrap_refuted.
(** Refuted: an element out of an svg element need not be a document: its self-closing or CDATA depends on the svg. *)
Theorem C56_extract_refuted :
  (exists d, parse po (str "<svg><g/></svg>") = Parsed d) /\ (forall d, parse po (str "<g/>") <> Parsed d) /\
  (exists d, parse po (str "<svg><math><![CDATA[x]]></math></svg>") = Parsed d) /\ (forall d, parse po (str "<math><![CDATA[x]]></math>") <> Parsed d).
Proof.
  split; [eexists; vm_compute; reflexivity|]. split; [|split; [eexists; vm_compute; reflexivity|]].
  - intros d X. assert (Q : match parse po (str "<g/>") with Parsed _ => false | _ => true end = true) by (vm_compute; reflexivity). rewrite X in Q. discriminate Q.
  - intros d X. assert (Q : match parse po (str "<math><![CDATA[x]]></math>") with Parsed _ => false | _ => true end = true) by (vm_compute; reflexivity). rewrite X in Q. discriminate Q.
Qed.
Print Assumptions C56_extract_refuted.
