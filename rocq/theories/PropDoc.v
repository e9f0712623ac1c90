(** Property theorems about parsed documents (C02, C11, C22-C25, C27, C28, C34, C35, C41-C43). *)
From Coq Require Import String.
From Verif Require Import Api SpecText SpecRender SpecParse SpecTree SpecMisc TreeCheck Tests DocEnd DocTree.
Local Open Scope string_scope.
Local Open Scope list_scope.

(** ** C02 *)
Theorem C02_parsed_documents_render : forall opts s d env o, parse opts s = Parsed d ->
  ~ (auto_fix_unclosed_tag opts = true /\ ends_in_open_name s) -> inner_html o = false ->
  (exists out, render env o d = ROk out) /\
  forall t, tree_in d t -> exists out, build env o t false = ROk out.
Proof. exact parsed_renders. Qed.
Print Assumptions C02_parsed_documents_render.
Theorem C02_open_name_refuted : exists d,
  parse (mkPO false false false true false false) (str "<p>x</p><a") = Parsed d /\
  render test_env default_ro d = RPanic PMetaMissing.
Proof. eexists. split; vm_compute; reflexivity. Qed.
Print Assumptions C02_open_name_refuted.
Example C02_example : exists d,
  parse (mkPO false false false true true true) (str "<p>x</b> 1<2 <i a") = Parsed d /\
  render test_env default_ro d = ROk (str "<p>x 1&lt;2 <i ></i></p>").
Proof. eexists. split; vm_compute; reflexivity. Qed.

(** ** C11 *)
Theorem C11_all_elements_closed : forall opts s d i m, parse opts s = Parsed d -> open_doctypes d ->
  n_type (hget (d_heap d) i) = NTag -> n_meta (hget (d_heap d) i) = Some m ->
  m_is_void m = true \/ m_self_closed m = true \/ exists e, n_end_tag (hget (d_heap d) i) = Some e.
Proof. exact all_closed. Qed.
Print Assumptions C11_all_elements_closed.
Theorem C11_no_slash_doctype : forall opts s d, parse opts s = Parsed d -> ~ self_closed_doctype s -> open_doctypes d.
Proof. exact no_slash_open. Qed.
Print Assumptions C11_no_slash_doctype.
Theorem C11_end_tag_names : forall opts s d p e, parse opts s = Parsed d -> n_end_tag (hget (d_heap d) p) = Some e ->
  n_type (hget (d_heap d) p) = NTag /\ n_type (hget (d_heap d) e) = NTagEnd /\
  exists m nm, n_meta (hget (d_heap d) p) = Some m /\ n_content (hget (d_heap d) e) = Some nm /\
    same_name (m_name m) (trim_right nm) = true /\ (case_sensitive_tagname opts = true -> trim_right nm = m_name m).
Proof. exact end_tag_names. Qed.
Print Assumptions C11_end_tag_names.
(** Void and self-closed tags (unless cut off by the end of the input) have no end tag; they and raw text
    elements have no children, unless a stray '<' was repaired. *)
Theorem C11_leaf_elements : forall opts s d i m, parse opts s = Parsed d ->
  n_type (hget (d_heap d) i) = NTag -> n_meta (hget (d_heap d) i) = Some m ->
  ((m_is_void m = true \/ m_self_closed m = true) -> m_auto_fix m = false -> n_end_tag (hget (d_heap d) i) = None) /\
  ((m_is_void m = true \/ m_self_closed m = true \/ one_of raw_text_names (m_name m) = true) ->
    auto_fix_unescaped_lt opts = false -> n_childs (hget (d_heap d) i) = None).
Proof. exact leaf_tags. Qed.
Print Assumptions C11_leaf_elements.
(** After a self-closed doctype an element may stay open. *)
Theorem C11_doctype_refuted : exists d m, parse default_po (str "<div><!DOCTYPE x/>") = Parsed d /\
  n_type (hget (d_heap d) 1) = NTag /\ n_meta (hget (d_heap d) 1) = Some m /\
  m_is_void m = false /\ m_self_closed m = false /\ n_end_tag (hget (d_heap d) 1) = None.
Proof. eexists. eexists. split; [vm_compute; reflexivity|]. repeat split. Qed.
Print Assumptions C11_doctype_refuted.
(** A void element gets a child when a stray '<' follows it. *)
Theorem C11_void_child_refuted : exists d m, parse (mkPO false false false false false true) (str "<br><1") = Parsed d /\
  n_meta (hget (d_heap d) 1) = Some m /\ m_is_void m = true /\ n_childs (hget (d_heap d) 1) = Some [2].
Proof. eexists. eexists. split; [vm_compute; reflexivity|]. repeat split. Qed.
Print Assumptions C11_void_child_refuted.
Example C11_example : exists d m, parse default_po (str "<div><br><P>x</p ></div>") = Parsed d /\
  n_meta (hget (d_heap d) 3) = Some m /\ m_name m = str "P" /\ n_end_tag (hget (d_heap d) 3) = Some 5 /\
  n_content (hget (d_heap d) 5) = Some (str "p ").
Proof. eexists. eexists. split; [vm_compute; reflexivity|]. repeat split. Qed.

(** ** C22 *)
Theorem C22_attribute_map : forall opts s d i m, parse opts s = Parsed d -> n_meta (hget (d_heap d) i) = Some m ->
  (m_code_in m <> TKey -> map_right (m_attrs m) (m_lc_name_map m)) /\
  (m_code_in m = TKey -> auto_fix_unclosed_tag opts = true) /\
  (m_auto_fix m = true -> auto_fix_unclosed_tag opts = true).
Proof. exact attr_maps. Qed.
Print Assumptions C22_attribute_map.
Example C22_example : exists d m, parse default_po (str "<a B=1 c b=2>x</a>") = Parsed d /\
  n_meta (hget (d_heap d) 1) = Some m /\ length (m_attrs m) = 3 /\
  map_get (m_lc_name_map m) (str "b") = Some 0 /\ map_get (m_lc_name_map m) (str "c") = Some 1 /\
  map_get (m_lc_name_map m) (str "B") = None.
Proof. eexists. eexists. split; [vm_compute; reflexivity|]. repeat split. Qed.

(** ** C23 *)
Theorem C23_get_element_by_id : forall opts s d x, parse opts s = Parsed d ->
  match get_element_by_id d x with
  | Some i => in_doc (d_heap d) (d_root d) i /\ node_id (hget (d_heap d) i) x /\
      forall j, node_id (hget (d_heap d) j) x -> j <> i ->
        n_begin_at (hget (d_heap d) j) < n_begin_at (hget (d_heap d) i)
  | None => forall j, ~ node_id (hget (d_heap d) j) x
  end.
Proof. exact find_id. Qed.
Print Assumptions C23_get_element_by_id.
Example C23_example : exists d, parse default_po (str "<a id=x><b ID='x'></b><c id=y></c></a>") = Parsed d /\
  get_element_by_id d (str "x") = Some 2 /\ node_id (hget (d_heap d) 1) (str "x") /\ node_id (hget (d_heap d) 2) (str "x") /\
  get_element_by_id d (str "z") = None.
Proof.
  eexists. split; [vm_compute; reflexivity|]. split; [reflexivity|]. split; [|split; [|reflexivity]];
  (eexists; eexists; split; [reflexivity|]; split; [left; reflexivity|]; eexists; repeat split).
Qed.

(** ** C24 *)
Theorem C24_positions : forall opts s d, parse opts s = Parsed d ->
  let h := d_heap d in
  (forall i, i < length h -> n_begin_at (hget h i) <= n_end_at (hget h i) <= length s) /\
  (forall p x k, linked h p x k -> n_begin_at (hget h p) <= n_begin_at (hget h k)) /\
  (forall p i j k l, linked h p (LChild i) k -> linked h p (LChild j) l -> i < j ->
     n_begin_at (hget h k) <= n_begin_at (hget h l)) /\
  (forall i, i < length h -> In (n_type (hget h i)) [NTag; NComment; NHTMLDOCTYPE; NXMLCDATA] ->
     nth_error s (n_begin_at (hget h i)) = Some 60%N) /\
  (forall i, i < length h -> n_type (hget h i) = NTagEnd ->
     nth_error s (n_begin_at (hget h i)) = Some 60%N \/
     (exists k, n_begin_at (hget h i) = S k /\ nth_error s k = Some 62%N) \/
     (auto_fix_unclosed_tag opts = true /\ n_begin_at (hget h i) = length s)) /\
  n_begin_at (hget h (d_root d)) = 0 /\ n_end_at (hget h (d_root d)) = length s.
Proof. exact positions. Qed.
Print Assumptions C24_positions.
Example C24_example : exists d, parse default_po (str "ab<p>c<!--d--></p>") = Parsed d /\
  map n_begin_at (d_heap d) = [0; 0; 2; 5; 6; 14] /\ map n_end_at (d_heap d) = [18; 2; 2; 6; 14; 18].
Proof. eexists. split; [vm_compute; reflexivity|]. split; vm_compute; reflexivity. Qed.

(** ** C25, C27, C28, C34, C35 for parsed documents *)
Theorem C25_parsed_remove_comment : forall opts s d t env o text, parse opts s = Parsed d -> tree_in d t -> t_type t <> NComment ->
  build env (with_remove_comment true o) t text = build env (with_remove_comment false o) (no_comments t) text.
Proof. exact parsed_remove_comment. Qed.
Print Assumptions C25_parsed_remove_comment.
Theorem C27_parsed_minify_visible : forall opts s d t env o, parse opts s = Parsed d -> tree_in d t ->
  ~ (auto_fix_unclosed_tag opts = true /\ ends_in_open_name s) -> decode_entity o = false -> inner_html o = false ->
  exists out1 out2,
    build env (with_minify_spaces true o) t false = ROk out1 /\
    build env (with_minify_spaces false o) t false = ROk out2 /\ visible out1 = visible out2.
Proof. exact parsed_minify_visible. Qed.
Print Assumptions C27_parsed_minify_visible.
Theorem C28_parsed_minify : forall opts s d t env o text, parse opts s = Parsed d -> tree_in d t ->
  open_doctypes d -> no_selfclosed_pre t -> pre_not_nested t -> decode_entity o = false -> t_type t <> NTagEnd ->
  build env (with_minify_spaces true o) t text = build env (with_minify_spaces false o) (minified false t) text.
Proof. exact parsed_minify_pre. Qed.
Print Assumptions C28_parsed_minify.
Theorem C34_parsed_render_text : forall opts s d t env o, parse opts s = Parsed d -> tree_in d t ->
  ~ (auto_fix_unclosed_tag opts = true /\ ends_in_open_name s) -> plain_options o -> t_type t = NTag -> no_markup t ->
  build env o t true = ROk (text_of t).
Proof. exact parsed_render_text. Qed.
Print Assumptions C34_parsed_render_text.
Theorem C35_parsed_close_void : forall opts s d t env o text, parse opts s = Parsed d -> tree_in d t ->
  auto_fix_unclosed_tag opts = false ->
  build env (with_always_close_void true o) t text = build env (with_always_close_void false o) t text.
Proof. exact parsed_close_void. Qed.
Print Assumptions C35_parsed_close_void.
Example C25_C35_example : exists d t, parse default_po (str "<div> a  <pre> b  </pre> </div>") = Parsed d /\
  doc_tree d = Some t /\ tree_in d t /\ open_doctypes d /\ no_selfclosed_pre t /\ pre_not_nested t /\
  build test_env (with_minify_spaces true default_ro) t false = ROk (str "<div> a <pre> b  </pre></div>").
Proof.
  eexists. eexists. split; [vm_compute; reflexivity|]. split; [vm_compute; reflexivity|].
  split; [eexists; exists 0; split; [exists []; constructor|]; instantiate (1 := 20); vm_compute; reflexivity|].
  split; [|split; [|split; [apply check_pre_not_nested; vm_compute; reflexivity|vm_compute; reflexivity]]].
  - intros i m T _. do 12 (destruct i as [|i]; [vm_compute in T; discriminate T|]). destruct i; vm_compute in T; discriminate T.
  - intros x m Sx Px Mx.
    refine (_ (all_sub_spec (fun y => match t_meta y with Some m => negb (m_self_closed m) | None => true end) _ _ x Sx));
      [|vm_compute; reflexivity]. intro Y. cbv beta in Y. rewrite Mx in Y. destruct (m_self_closed m); [discriminate|reflexivity].
Qed.

(** ** C41 *)
Theorem C41_text_content : forall opts s d i, parse opts s = Parsed d ->
  (n_type (hget (d_heap d) i) = NSpacesBetweenTag -> exists c, n_content (hget (d_heap d) i) = Some c /\ c <> [] /\ Forall is_ws c) /\
  (n_type (hget (d_heap d) i) = NText -> exists c, n_content (hget (d_heap d) i) = Some c /\ c <> []).
Proof. exact text_content. Qed.
Print Assumptions C41_text_content.
Example C41_example : exists d, parse default_po (str "<p> <b>x </b> </p>") = Parsed d /\
  n_type (hget (d_heap d) 2) = NSpacesBetweenTag /\ n_type (hget (d_heap d) 4) = NText /\ n_type (hget (d_heap d) 6) = NSpacesBetweenTag.
Proof. eexists. split; [vm_compute; reflexivity|]. repeat split. Qed.

(** ** C42 *)
Theorem C42_self_closing_allowed : forall opts s d i m, parse opts s = Parsed d ->
  n_type (hget (d_heap d) i) = NTag -> n_meta (hget (d_heap d) i) = Some m -> m_self_closed m = true ->
  allow_self_closing opts = true \/ one_of void_names (m_name m) = true \/
  exists j mj, n_type (hget (d_heap d) j) = NTag /\ n_meta (hget (d_heap d) j) = Some mj /\ special_name (m_name mj) /\
    n_begin_at (hget (d_heap d) j) < n_begin_at (hget (d_heap d) i).
Proof. exact self_closed_tags. Qed.
Print Assumptions C42_self_closing_allowed.
(** The svg need not contain the self-closed element, and inside svg it may be rejected. *)
Theorem C42_inside_svg_refuted :
  (exists d m, parse default_po (str "<svg></SVG><div/>") = Parsed d /\ n_meta (hget (d_heap d) 3) = Some m /\
     m_self_closed m = true /\ n_parent (hget (d_heap d) 3) = Some (d_root d)) /\
  exists r, parse default_po (str "<svg><svg></svg><rect/></svg>") = Failed (EWrongSelfClosing (str "rect")) r.
Proof.
  split; [|eexists; vm_compute; reflexivity]. eexists. eexists. split; [vm_compute; reflexivity|]. repeat split.
Qed.
Print Assumptions C42_inside_svg_refuted.
Example C42_example : exists d m, parse default_po (str "<svg><rect/></svg><br/>") = Parsed d /\
  n_meta (hget (d_heap d) 2) = Some m /\ m_self_closed m = true.
Proof. eexists. eexists. split; [vm_compute; reflexivity|]. repeat split. Qed.

(** ** C43 *)
Theorem C43_end_tag_spelling : forall opts s d p e m nm, parse opts s = Parsed d ->
  n_end_tag (hget (d_heap d) p) = Some e -> n_meta (hget (d_heap d) p) = Some m -> n_content (hget (d_heap d) e) = Some nm ->
  if case_sensitive_tagname opts then trim_right nm = m_name m else same_name (m_name m) (trim_right nm) = true.
Proof. exact end_spelling. Qed.
Print Assumptions C43_end_tag_spelling.
Example C43_example :
  (exists r, parse (mkPO true false false false false false) (str "<Div></div>") = Failed (EWrongCaseSensitive (str "div")) r) /\
  (exists d, parse (mkPO true false false false false false) (str "<Div></Div  >") = Parsed d) /\
  (exists d, parse default_po (str "<Div></dIv  >") = Parsed d).
Proof. split; [|split]; eexists; vm_compute; reflexivity. Qed.
