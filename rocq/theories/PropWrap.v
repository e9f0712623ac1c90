(** Property theorems about putting tags around nodes, taking them away and changing them (C69). *)
From Coq Require Import String.
From Verif Require Import Api SpecText SpecRender SpecParse SpecMisc SpecTree SpecDoc SpecJoin SpecSwap Tests WrapProofs.
Local Open Scope string_scope.
Local Open Scope list_scope.

(** ** C69 *)
(** A start tag and an end tag written around some children: the children become those of a new element. *)
Theorem C69_wrap : forall opts s d r p t i n nm l w e f env, parse opts s = Parsed d -> no_repair opts -> allow_self_closing opts = true -> without_cdata d ->
  doc_tree d = Some r -> at_place r p t -> roomy p t -> doc_content d f ->
  written opts (KOpen nm l) w -> name_fits (case_sensitive_tagname opts) nm (trim_right e) = true -> ~ In 62%N e ->
  exists s1 s2 s3 m d2 os o1 o3, s = s1 ++ s2 ++ s3 /\ length s1 = begins s t i /\
    Forall2 depicts m (firstn n (skipn i (child_list t))) /\ source opts (flat_map tokens m) s2 /\
    parse opts (s1 ++ (w ++ s2 ++ str "</" ++ e ++ str ">") ++ s3) = Parsed d2 /\ doc_content d2 (mark_all (splice p i n [XElem nm l m e] f)) /\
    Forall2 (fun k o => build env default_ro k false = ROk o) (firstn n (skipn i (child_list t))) os /\ render env default_ro d = ROk (o1 ++ concat os ++ o3) /\
    render env default_ro d2 = ROk (o1 ++ ((str "<" ++ nm ++ print_attrs l ++ str ">") ++ concat os ++ str "</" ++ e ++ str ">") ++ o3).
Proof. exact wrap_children. Qed.
Print Assumptions C69_wrap.
(** The start tag and the end tag of an element deleted: its children take its place. *)
Theorem C69_unwrap : forall opts s d r p t i u n l ks e f env, parse opts s = Parsed d -> no_repair opts -> allow_self_closing opts = true -> without_cdata d ->
  doc_tree d = Some r -> at_place r p t -> nth_error (child_list t) i = Some u -> depicts (XElem n l ks e) u -> doc_content d f ->
  exists s1 w s2 v s3 d2 o1 o o3, s = s1 ++ w ++ s2 ++ v ++ s3 /\ length s1 = t_begin_at u /\ written opts (KOpen n l) w /\ written opts (KClose e) v /\
    parse opts (s1 ++ s2 ++ s3) = Parsed d2 /\ doc_content d2 (mark_all (splice p i 1 ks f)) /\
    build env (with_inner_html true default_ro) u false = ROk o /\
    render env default_ro d = ROk (o1 ++ (str "<" ++ n ++ print_attrs l ++ str ">") ++ o ++ (str "</" ++ e ++ str ">") ++ o3) /\
    render env default_ro d2 = ROk (o1 ++ o ++ o3).
Proof. exact unwrap_child. Qed.
Print Assumptions C69_unwrap.
(** Both tags of an element replaced: it gets another name and other attributes, and keeps its children. *)
Theorem C69_retag : forall opts s d r p t i u n l ks e f n' l' w' e' env, parse opts s = Parsed d -> no_repair opts -> allow_self_closing opts = true -> without_cdata d ->
  doc_tree d = Some r -> at_place r p t -> nth_error (child_list t) i = Some u -> depicts (XElem n l ks e) u -> doc_content d f ->
  written opts (KOpen n' l') w' -> name_fits (case_sensitive_tagname opts) n' (trim_right e') = true -> ~ In 62%N e' ->
  exists s1 w s2 v s3 d2 o1 o o3, s = s1 ++ w ++ s2 ++ v ++ s3 /\ length s1 = t_begin_at u /\ written opts (KOpen n l) w /\ written opts (KClose e) v /\
    parse opts (s1 ++ w' ++ s2 ++ (str "</" ++ e' ++ str ">") ++ s3) = Parsed d2 /\ doc_content d2 (mark_all (splice p i 1 [XElem n' l' ks e'] f)) /\
    build env (with_inner_html true default_ro) u false = ROk o /\
    render env default_ro d = ROk (o1 ++ (str "<" ++ n ++ print_attrs l ++ str ">") ++ o ++ (str "</" ++ e ++ str ">") ++ o3) /\
    render env default_ro d2 = ROk (o1 ++ (str "<" ++ n' ++ print_attrs l' ++ str ">") ++ o ++ (str "</" ++ e' ++ str ">") ++ o3).
Proof. exact retag_child. Qed.
Print Assumptions C69_retag.

Definition wrap_po : parse_options := mkPO false false true false false false.
Example C69_example : exists d r k u d2 d3 d4, parse wrap_po (str "<p>a<b x>c</b>d</p>") = Parsed d /\ doc_tree d = Some r /\
  child_list r = [k] /\ nth_error (child_list k) 1 = Some u /\ t_begin_at u = 4 /\
  (let f := [XElem (str "p") [] [XText (str "a") false; XElem (str "b") [bare (str "x")] [XText (str "c") false] (str "b"); XText (str "d") false] (str "p")] in
   splice [0] 1 1 [XText (str "c") false] f = [XElem (str "p") [] [XText (str "acd") false] (str "p")]) /\
  parse wrap_po (str "<p>a" ++ str "c" ++ str "d</p>") = Parsed d2 /\ render test_env default_ro d2 = ROk (str "<p>acd</p>") /\
  parse wrap_po (str "<p>a" ++ (str "<i y=1>" ++ str "<b x>c</b>d" ++ str "</" ++ str "I " ++ str ">") ++ str "</p>") = Parsed d3 /\
  render test_env default_ro d3 = ROk (str "<p>a<i y=1><b x>c</b>d</I ></p>") /\
  parse wrap_po (str "<p>a" ++ str "<em>" ++ str "c" ++ (str "</" ++ str "em" ++ str ">") ++ str "d</p>") = Parsed d4 /\
  render test_env default_ro d4 = ROk (str "<p>a<em>c</em>d</p>").
Proof. do 7 eexists. do 5 (split; [vm_compute; reflexivity|]). split; [reflexivity|]. do 5 (split; [vm_compute; reflexivity|]). vm_compute. reflexivity. Qed.
(** Not so if self-closing tags are allowed only inside svg. *)
Theorem C69_unwrap_refuted : let o := mkPO false false false false false false in exists d k r,
  parse o (str "<svg><b/></svg>") = Parsed d /\ parse o (str "<b/>") = Failed k r.
Proof. cbn zeta. eexists _, _, _. split; vm_compute; reflexivity. Qed.
Print Assumptions C69_unwrap_refuted.
(** Not so for the tags of a raw text element: other tags make its text content. *)
Theorem C69_raw_refuted : exists d d2 k r, parse wrap_po (str "<title><b></title>") = Parsed d /\ render test_env default_ro d = ROk (str "<title><b></title>") /\
  parse wrap_po (str "<title>x</title>") = Parsed d2 /\ parse wrap_po (str "<p>" ++ str "<b>" ++ str "</p>") = Failed k r.
Proof. do 4 eexists. do 3 (split; [vm_compute; reflexivity|]). vm_compute. reflexivity. Qed.
Print Assumptions C69_raw_refuted.
