(** Property theorems about replacing, inserting and removing nodes in the source (C64). *)
From Coq Require Import String.
From Verif Require Import Api SpecText SpecRender SpecParse SpecMisc SpecTree SpecDoc SpecJoin SpecMap SpecSwap Tests SwapProofs.
Local Open Scope string_scope.
Local Open Scope list_scope.

(** ** C64 *)
(** Any number of children of a node, from the [i]-th on, replaced in the source by any other document.
    With [n = 0] this is insertion. *)
Theorem C64_splice : forall opts s d r p t i n s' d' f g env, parse opts s = Parsed d -> parse opts s' = Parsed d' -> no_repair opts ->
  open_doctypes d -> open_doctypes d' -> allow_self_closing opts = true -> without_cdata d -> without_cdata d' ->
  doc_tree d = Some r -> at_place r p t -> roomy p t -> doc_content d f -> doc_content d' g ->
  exists s1 s2 s3 m d2 os o1 o3 o', s = s1 ++ s2 ++ s3 /\ length s1 = begins s t i /\
    Forall2 depicts m (firstn n (skipn i (child_list t))) /\ source opts (flat_map tokens m) s2 /\
    parse opts (s1 ++ s' ++ s3) = Parsed d2 /\ doc_content d2 (mark_all (splice p i n g f)) /\
    Forall2 (fun k o => build env default_ro k false = ROk o) (firstn n (skipn i (child_list t))) os /\ render env default_ro d = ROk (o1 ++ concat os ++ o3) /\
    render env default_ro d' = ROk o' /\ render env default_ro d2 = ROk (o1 ++ o' ++ o3).
Proof. exact splice_doc. Qed.
Print Assumptions C64_splice.
(** Removal. *)
Theorem C64_remove : forall opts s d r p t i n f env, parse opts s = Parsed d -> no_repair opts -> open_doctypes d -> allow_self_closing opts = true -> without_cdata d ->
  doc_tree d = Some r -> at_place r p t -> roomy p t -> doc_content d f ->
  exists s1 s2 s3 m d2 os o1 o3, s = s1 ++ s2 ++ s3 /\ length s1 = begins s t i /\
    Forall2 depicts m (firstn n (skipn i (child_list t))) /\ source opts (flat_map tokens m) s2 /\
    parse opts (s1 ++ s3) = Parsed d2 /\ doc_content d2 (mark_all (splice p i n [] f)) /\
    Forall2 (fun k o => build env default_ro k false = ROk o) (firstn n (skipn i (child_list t))) os /\ render env default_ro d = ROk (o1 ++ concat os ++ o3) /\
    render env default_ro d2 = ROk (o1 ++ o3).
Proof. exact remove_children. Qed.
Print Assumptions C64_remove.
(** A new inner html for an element. *)
Theorem C64_set_inner : forall opts s d r p t nm l ks e s' d' f g env, parse opts s = Parsed d -> parse opts s' = Parsed d' -> no_repair opts ->
  open_doctypes d -> open_doctypes d' -> allow_self_closing opts = true -> without_cdata d -> without_cdata d' ->
  doc_tree d = Some r -> at_place r p t -> depicts (XElem nm l ks e) t -> doc_content d f -> doc_content d' g ->
  exists s1 s2 s3 d2 o o1 o3 o', s = s1 ++ s2 ++ s3 /\ length s1 = begins s t 0 /\ source opts (flat_map tokens ks) s2 /\
    parse opts (s1 ++ s' ++ s3) = Parsed d2 /\ doc_content d2 (mark_all (splice p 0 (length ks) g f)) /\
    build env (with_inner_html true default_ro) t false = ROk o /\ render env default_ro d = ROk (o1 ++ o ++ o3) /\
    render env default_ro d' = ROk o' /\ render env default_ro d2 = ROk (o1 ++ o' ++ o3).
Proof. exact set_inner. Qed.
Print Assumptions C64_set_inner.

Definition po : parse_options := mkPO false false true false false false.
(** One child replaced: the texts that meet become one text. *)
Example C64_example : exists d r t k d2, parse po (str "<p>a<b>x</b>c</p>") = Parsed d /\ doc_tree d = Some r /\
  child_list r = [t] /\ nth_error (child_list t) 1 = Some k /\ t_begin_at k = 4 /\ begins (str "<p>a<b>x</b>c</p>") t 1 = 4 /\ begins (str "<p>a<b>x</b>c</p>") t 3 = 13 /\
  splice [0] 1 1 [XText (str "B") false] [XElem (str "p") [] [XText (str "a") false; XElem (str "b") [] [XText (str "x") false] (str "b"); XText (str "c") false] (str "p")] =
    [XElem (str "p") [] [XText (str "aBc") false] (str "p")] /\
  splice [0] 0 0 [XComment []] [XElem (str "p") [] [XText (str "a") false] (str "p")] = [XElem (str "p") [] [XComment []; XText (str "a") false] (str "p")] /\
  parse po (str "<p>a" ++ str "B" ++ str "c</p>") = Parsed d2 /\ render test_env default_ro d2 = ROk (str "<p>aBc</p>").
Proof. eexists _, _, _, _, _. repeat (split; [vm_compute; reflexivity|]). vm_compute; reflexivity. Qed.
(** An svg element closed in another case leaves the parser in svg content: what follows cannot stand alone. *)
Theorem C64_cdata_refuted : exists d r d', parse po (str "<svg></SVG><b><![CDATA[x]]></b>") = Parsed d /\ doc_tree d = Some r /\ length (child_list r) = 2 /\
  begins (str "<svg></SVG><b><![CDATA[x]]></b>") r 1 = 11 /\ parse po [] = Parsed d' /\ exists k e, parse po (str "<b><![CDATA[x]]></b>") = Failed k e.
Proof. eexists _, _, _. repeat (split; [vm_compute; reflexivity|]). eexists _, _. vm_compute; reflexivity. Qed.
Print Assumptions C64_cdata_refuted.
Theorem C64_self_closing_refuted : let o := mkPO false false false false false false in
  exists d r d', parse o (str "<svg></SVG><b/>") = Parsed d /\ doc_tree d = Some r /\ length (child_list r) = 2 /\
  begins (str "<svg></SVG><b/>") r 1 = 11 /\ parse o [] = Parsed d' /\ exists k e, parse o (str "<b/>") = Failed k e.
Proof. eexists _, _, _. repeat (split; [vm_compute; reflexivity|]). eexists _, _. vm_compute; reflexivity. Qed.
Print Assumptions C64_self_closing_refuted.
