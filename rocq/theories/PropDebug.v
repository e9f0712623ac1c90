(** Property C65: the Debug output. *)
From Coq Require Import String.
From Verif Require Import SpecDebug DebugRead DebugDoc DebugText DebugEscape Tests.
Local Open Scope string_scope.
Local Open Scope list_scope.

(** ** C65 *)
(** Values with the same text are the same, in the compact form "{:?}" and in the pretty form "{:#?}", whatever characters are shown plainly. *)
Theorem C65_unambiguous : forall plain pretty v v', named v -> named v' -> debug plain pretty v = debug plain pretty v' -> v = v'.
Proof. exact debug_inj. Qed.
Print Assumptions C65_unambiguous.
(** Characters are shown plainly or as an escape. *)
Theorem C65_escapes : forall plain q c, shown_as plain q c (escaped plain q c).
Proof. exact escapes. Qed.
Print Assumptions C65_escapes.
(** Every node of a parsed document has a text. *)
Theorem C65_shown : forall opts s d i, parse opts s = Parsed d -> i < length (d_heap d) ->
  forall plain pretty order documented, exists out, node_text plain pretty order documented (d_heap d) i = Some out.
Proof. exact node_shown. Qed.
Print Assumptions C65_shown.
(** The text: the fields, with the texts of the children and of the end tag inside. *)
Theorem C65_spelled : forall plain pretty order documented h i out, node_text plain pretty order documented h i = Some out ->
  exists ks et, out = fields_text plain pretty order (hget h i) ks et (documented i) /\
    match n_childs (hget h i), ks with
    | None, None => True | Some l, Some xs => Forall2 (fun k x => node_text plain pretty order documented h k = Some x) l xs | _, _ => False
    end /\
    match n_end_tag (hget h i), et with
    | None, None => True | Some e, Some x => node_text plain pretty order documented h e = Some x | _, _ => False
    end.
Proof. exact spelled. Qed.
Print Assumptions C65_spelled.
(** Nodes with the same text have the same tree, up to the order of the attribute maps, and the same links are set. *)
Theorem C65_nodes : forall plain pretty o o' dd dd' h h' i i' out, shuffles o -> shuffles o' ->
  node_text plain pretty o dd h i = Some out -> node_text plain pretty o' dd' h' i' = Some out ->
  exists t t', tree_of (length h) h i = Some t /\ tree_of (length h') h' i' = Some t' /\ alike t t' /\
    is_some (n_parent (hget h' i')) = is_some (n_parent (hget h i)) /\ is_some (n_root (hget h' i')) = is_some (n_root (hget h i)) /\ dd' i' = dd i.
Proof. exact text_alike. Qed.
Print Assumptions C65_nodes.
(** Documents with the same text have the same tree and are rendered alike with every option. *)
Theorem C65_documents : forall opts opts' s s' d d' plain pretty o o', parse opts s = Parsed d -> parse opts' s' = Parsed d' -> shuffles o -> shuffles o' ->
  root_text plain pretty o d = root_text plain pretty o' d' ->
  exists t t', doc_tree d = Some t /\ doc_tree d' = Some t' /\ alike t t' /\ forall env ro text, render_gen env ro text d' = render_gen env ro text d.
Proof. exact roots_alike. Qed.
Print Assumptions C65_documents.
(** Errors with the same text are the same; an unclosed tag may be named like a state of the parser. *)
Theorem C65_errors : forall plain pretty k k' r r', error_debug plain pretty k r = error_debug plain pretty k' r' -> r = r' /\ (k = k' \/
  (exists c, k = EUnclosedTag (code_text c) /\ k' = EUnclosedCode c) \/ (exists c, k = EUnclosedCode c /\ k' = EUnclosedTag (code_text c))).
Proof. exact error_inj. Qed.
Print Assumptions C65_errors.
Theorem C65_parse_options : forall plain pretty o o', debug plain pretty (dparse_options o) = debug plain pretty (dparse_options o') -> o = o'.
Proof. exact po_inj. Qed.
Print Assumptions C65_parse_options.
Theorem C65_render_options : forall plain pretty o o', debug plain pretty (drender_options o) = debug plain pretty (drender_options o') -> o = o'.
Proof. exact ro_inj. Qed.
Print Assumptions C65_render_options.

Definition ascii (c : char) : bool := (N.leb 32 c && N.ltb c 127)%bool.
Definition same_order (l : list (list char * nat)) : list (list char * nat) := l.
(** The name in an error does not always tell where the input ended. *)
Theorem C65_unclosed_refuted : exists k k' r r',
  parse default_po (str "<Comment>") = Failed k r /\ parse default_po (str "<!-- abcd") = Failed k' r' /\
  k <> k' /\ error_debug ascii false k r = error_debug ascii false k' r' /\ error_debug ascii true k r = error_debug ascii true k' r'.
Proof. do 4 eexists. split; [vm_compute; reflexivity|]. split; [vm_compute; reflexivity|]. split; [discriminate|]. split; vm_compute; reflexivity. Qed.
Print Assumptions C65_unclosed_refuted.

Example C65_example : exists d, parse default_po (str "<b A='x'>'</b>") = Parsed d /\
  root_text ascii false same_order d = Some (str ("Node { index: 0, node_type: AbstractRoot, begin_at: 0, end_at: 14, content: None, " ++
    "childs: Some([RefCell { value: Node { index: 0, node_type: Tag, begin_at: 0, end_at: 0, content: None, " ++
    "childs: Some([RefCell { value: Node { index: 0, node_type: Text, begin_at: 9, end_at: 10, content: Some(['\'']), childs: None, meta: None, end_tag: None, parent: true, root: true, document: false } }]), " ++
    "meta: Some(RefCell { value: TagMeta { code_in: Wait, is_void: false, self_closed: false, auto_fix: false, name: ['b'], " ++
    "attrs: [Attr { key: Some(AttrData { content: ['A'] }), value: Some(AttrData { content: ['x'] }), quote: Some('\''), need_quote: false }], lc_name_map: {""a"": 0} } }), " ++
    "end_tag: Some(RefCell { value: Node { index: 0, node_type: TagEnd, begin_at: 10, end_at: 14, content: Some(['b']), childs: None, meta: None, end_tag: None, parent: true, root: false, document: false } }), " ++
    "parent: true, root: true, document: false } }]), meta: None, end_tag: None, parent: false, root: true, document: true }")).
Proof. eexists. split; [vm_compute; reflexivity|]. vm_compute. reflexivity. Qed.
Definition shown_lines (l : list string) : list char := between newline (map str l).
Example C65_pretty_example : exists d, parse default_po [10%N; 233%N] = Parsed d /\
  root_text ascii true same_order d = Some (shown_lines ["Node {"; "    index: 0,"; "    node_type: AbstractRoot,"; "    begin_at: 0,"; "    end_at: 2,"; "    content: None,";
    "    childs: Some("; "        ["; "            RefCell {"; "                value: Node {"; "                    index: 0,"; "                    node_type: Text,";
    "                    begin_at: 0,"; "                    end_at: 2,"; "                    content: Some("; "                        ["; "                            '\n',";
    "                            '\u{e9}',"; "                        ],"; "                    ),"; "                    childs: None,"; "                    meta: None,";
    "                    end_tag: None,"; "                    parent: true,"; "                    root: true,"; "                    document: false,"; "                },";
    "            },"; "        ],"; "    ),"; "    meta: None,"; "    end_tag: None,"; "    parent: false,"; "    root: true,"; "    document: true,"; "}"]).
Proof. eexists. split; [vm_compute; reflexivity|]. vm_compute. reflexivity. Qed.
Example C65_error_example : exists k r, parse default_po (str "<p>""</q>") = Failed k r /\
  error_debug ascii false k r = str "ParseError { region: CodeRegion { index: 7, line: 1, col: 8 }, kind: WrongEndTag(""q"") }".
Proof. do 2 eexists. split; [vm_compute; reflexivity|]. vm_compute. reflexivity. Qed.
