(** Property C66: the case of tag names. *)
From Coq Require Import String.
From Verif Require Import Api SpecText SpecRender SpecParse SpecMisc SpecTree SpecDoc SpecShown SpecJoin SpecCase CaseProofs Tests.
Local Open Scope string_scope.
Local Open Scope list_scope.

(** ** C66 *)
(** Without case sensitivity every name can be written in another case, each on its own. *)
Theorem C66_recase : forall dt opts s d f f', parse opts s = Parsed d -> no_repair opts -> open_doctypes d -> case_sensitive_tagname opts = false ->
  allow_self_closing opts = true -> without_cdata d -> doc_content d f -> Forall2 (recased dt) f f' ->
  exists s' d', same_name s s' = true /\ source opts (flat_map tokens f') s' /\ parse opts s' = Parsed d' /\ doc_content d' f'.
Proof. exact recase_doc. Qed.
Print Assumptions C66_recase.
(** All names in another case at once, with CDATA sections and without self-closing as well, if different letters stay different. *)
Theorem C66_respell : forall g opts s d f, parse opts s = Parsed d -> no_repair opts -> open_doctypes d -> case_sensitive_tagname opts = false -> recasing g ->
  doc_content d f -> exists s' d', same_name s s' = true /\ source opts (flat_map tokens (map (respelled g) f)) s' /\ parse opts s' = Parsed d' /\ doc_content d' (map (respelled g) f).
Proof. exact respell_doc. Qed.
Print Assumptions C66_respell.
Theorem C66_swap_case : recasing swap_case.
Proof. exact swap_recasing. Qed.
Print Assumptions C66_swap_case.
(** The renderings differ in case only, and not at all if names are shown in lower case. *)
Theorem C66_render : forall dt opts s d f s' d' f' env o, parse opts s = Parsed d -> parse opts s' = Parsed d' -> no_repair opts -> open_doctypes d -> open_doctypes d' ->
  doc_content d f -> doc_content d' f' -> Forall2 (recased dt) f f' -> inner_html o = false -> (minify_spaces o = true -> Forall (plain_pre false) f) ->
  exists out out', render env o d = ROk out /\ render env o d' = ROk out' /\ same_name out out' = true /\ (dt = false -> lowercase_tagname o = true -> out' = out).
Proof. exact recased_render. Qed.
Print Assumptions C66_render.
(** With CDATA, without self-closing or with case sensitivity names cannot be recased freely. *)
Theorem C66_cdata_refuted : let o := mkPO false false true false false false in exists d k r,
  parse o (str "<svg><SVG><![CDATA[x]]></SVG></svg>") = Parsed d /\ parse o (str "<svg><svg><![CDATA[x]]></svg></svg>") = Failed k r.
Proof. eexists _, _, _. split; vm_compute; reflexivity. Qed.
Print Assumptions C66_cdata_refuted.
Theorem C66_self_closing_refuted : exists d k r,
  parse default_po (str "<svg></SVG><a/>") = Parsed d /\ parse default_po (str "<svg></svg><a/>") = Failed k r.
Proof. eexists _, _, _. split; vm_compute; reflexivity. Qed.
Print Assumptions C66_self_closing_refuted.
Theorem C66_case_sensitive_refuted : let o := mkPO true false true false false false in exists d k r,
  parse o (str "<script></SCRIPT></script>") = Parsed d /\ parse o (str "<SCRIPT></SCRIPT></SCRIPT>") = Failed k r.
Proof. eexists _, _, _. split; vm_compute; reflexivity. Qed.
Print Assumptions C66_case_sensitive_refuted.

Definition old_names : list item := [XElem (str "A") [quoted (str "B") (str "C") 39%N] [XLeaf (str "br") [] false; XRaw (str "title") [] (str "</A>") (str "Title ")] (str "a")].
Definition new_names : list item := [XElem (str "a") [quoted (str "B") (str "C") 39%N] [XLeaf (str "BR") [] false; XRaw (str "tiTLE") [] (str "</A>") (str "TITLE ")] (str "A")].
Ltac content := eexists; split; [vm_compute; reflexivity|]; repeat (split; [reflexivity|]); vm_compute;
  repeat first [apply Forall2_nil | apply Forall2_cons | (eapply dp_elem; [reflexivity|reflexivity|eexists; repeat split|reflexivity|repeat split|])
    | (eapply dp_leaf; [reflexivity|reflexivity|reflexivity|reflexivity|reflexivity|repeat split])
    | (eapply dp_raw; [reflexivity|reflexivity|eexists; repeat split|reflexivity|reflexivity|repeat split])].
Example C66_example : let o := mkPO false false true false false false in exists d d',
  parse o (str "<A B='C'><br><title></A></Title ></a>") = Parsed d /\ doc_content d old_names /\ Forall2 (recased false) old_names new_names /\
  parse o (str "<a B='C'><BR><tiTLE></A></TITLE ></A>") = Parsed d' /\ doc_content d' new_names /\
  render test_env (with_lowercase_tagname true default_ro) d = ROk (str "<a B='C'><br><title></A></title ></a>") /\
  render test_env (with_lowercase_tagname true default_ro) d' = ROk (str "<a B='C'><br><title></A></title ></a>").
Proof.
  eexists _, _. split; [vm_compute; reflexivity|]. split; [content|]. split; [repeat constructor|]. split; [vm_compute; reflexivity|]. split; [content|].
  split; vm_compute; reflexivity.
Qed.
