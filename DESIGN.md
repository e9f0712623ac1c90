# Formal model of fefit/rphtml in Coq 8.16 — design

The source is `/repo/src/*.rs` (pinned commit, unchanged, never built or run here).
The model and the proofs live in `rocq/theories`, logical name `Verif`.
Build: `cd rocq && coq_makefile -f _CoqProject -o Makefile && make -j4`.

## 1. Files

**Model** (executable Gallina; one definition per Rust function, each citing its lines)

| file | Rust code |
|---|---|
| `Chars.v` | characters: `char` is `N`, the scalar value; the ASCII helpers of `core::char` |
| `Types.v` | constants, options, attributes, tag meta, nodes, error kinds |
| `Names.v` | `parser.rs` 37-147, 203-266, 313-315; `util.rs` |
| `Position.v` | `position.rs` |
| `ErrorText.v` | `error.rs` 17-58, Display of `position.rs`, Debug of `CodeTypeIn` |
| `Parser.v` | `parser.rs` 948-2233: `Doc`, the 14 handlers, `eof`, the repairs |
| `Render.v` | `parser.rs` 186-200, 287-311, 363-374, 414-426, 553-941 |
| `Clone.v` | `parser.rs` 507-551 |
| `Api.v` | `Doc::parse`, `Doc::parse_file` on the decoded text, `DocHolder` |
| `File.v` | `Doc::parse_file` (1782-1807) from path and bytes, with the UTF-8 check and `BufRead::lines` of Rust's library |
| `Borrow.v` | all of the parser, renderer, copier and lookups again, with their borrows |
| `Cost.v` | the work done by each parser function: `parser.rs` 97-127, 203-266, 948-2233 |
| `Debug.v` | `Debug` of nodes, tag metas, attributes, errors, positions and options: `parser.rs` 156-167, 274-285, 341-361, 470-487, 1765-1769, `error.rs` 5-9, 28-58, `position.rs` 5-10, `config.rs` 1-22, and the formatting of `core::fmt` they use |
| `Tests.v` | the project's own test suite replayed on the model (fidelity check, no property) |

**Specifications**, written without the parser's helpers: `SpecText.v` (lines, columns, blank runs),
`SpecRender.v` (render options as tree transformations), `SpecMisc.v` (name tables, is_document, files),
`SpecParse.v` (shapes of inputs), `SpecTree.v` (node graph), `SpecDoc.v` (token grammar, nesting,
content, canonical spelling), `SpecOpts.v` (order on options, where nodes come from), and the other `Spec*.v`.

**Proofs**, in layers:

1. `TextProofs NameProofs RenderProofs MinifyProofs MiscProofs`: the parts without the parser,
   mostly induction on strings and trees.
2. `InvCtl CtlSteps CtlHandlers CtlEnd CtlRun`: a control invariant of all reachable parser states
   (handler, pending characters, consumed input). Gives freedom from panics and the error facts.
3. `Big BigSteps Replay`: every run of the parser is a sequence of *big steps*, one per token,
   possibly followed by one unfinished token, and every big step is a run (both directions).
   `Big.v` is a proof device, no property mentions it.
4. `Struct Frame Birth TextInv CloseInv PosInv Attrs RawText Static`: invariants over big steps:
   shape of the heap, what a token leaves alone, what each node was written as.
5. `StructEnd Final DocFacts DocEnd DocTree`: the same facts carried over the end of the input.
6. `Area Shape Real Sim Tok DocSound Print`: simulation between parser states and document
   content, in both directions: accepted texts are exactly the nesting token sequences.
7. `CloneProofs ErrorProofs FailProofs`: copies, messages, early errors.
8. `Mono`: two runs with different options in lock step.  `Origin`: nodes against source text.
9. `FixProofs`: elements closed at the end of the input against written end tags.
10. `Stream StreamSteps StreamRel StreamEnd StreamParse StreamRender StreamProofs`: two runs over
   the same text from states with the same listing in document order (dropped end tags, stray `<`).
11. `Shown ShownRead ShownDoc`: the output of the renderer as tokens, and reading it again.
12. `Borrow BorrowProofs BorrowEnd`: the same functions with every `borrow()`/`borrow_mut()` explicit.
13. `EditProofs`: all repairs as edits of the source.
14. `CostProofs CostWork CostLow`: memory, work (by a potential), and texts that reach the bounds.
15. `MapProofs`: the nodes of a document in order and their places in the source.
16. `JoinProofs`: documents put together and taken apart.
17. `Settle`: the content of minified output, and of its minification.
18. `RenderCost`: the work of rendering, function by function like Render. `SpecSize`, `SizeProofs`, `SizeDoc`, `PropSize`: sizes of trees, of strict documents and of all parsed documents.
19. `Handles`, `SpecHandles`: reference counts, dropping, `Weak::upgrade`, `Clone for Node`. `HandleProofs`, `HandleDoc`, `HandleThms`, `PropHandles`: ownership without cycles in general, for parsed documents, and for copies.
20. `Depth`, `SpecDepth`: rendering, copying and dropping with the number of active calls. `DepthProofs`, `DepthInv`, `DepthDoc`, `PropDepth`: that number for any tree, for parsed documents, and against the length of the text. `DebugDepth`, `DebugDepthProofs`: the same for Debug output.
21. `File`, `SpecFile`: parse_file from the path, with UTF-8 decoding and lines of bytes. `FileProofs`, `PropFile`: when it panics, fails, or parses the text.
22. `SpecNode`: outer html, inner html and text of a content. `RepairDoc`: repaired documents hold a content, too. `NodeProofs`, `NodeDoc`, `PropNode`: what building a node gives.
23. `SpecCut`: what is left of a start tag the input ends in. `CutProofs`, `PropCut`: the document of such an input.
24. `SpecSwap`: places in a tree and content with children replaced. `SwapProofs`, `PropSwap`: replacing part of the source.
25. `SpecDebug DebugProofs DebugRead DebugDoc DebugText DebugEscape PropDebug`: reading Debug output back.
26. `SpecCase CaseProofs PropCase`: names in another case.
27. `SpecAttrs AttrsProofs PropAttrs`: other attributes for one tag.
28. `SpecFind FindProofs PropFind`: the element with an id in the content.
29. `WrapProofs PropWrap`: tags put around nodes, taken away and changed.
30. `SpecTurn TurnProofs PropTurn`: rendering in several passes.

**Property theorems**: `Prop*.v`.  Each is closed by `exact` and followed by `Print Assumptions`,
with a computed example beside it.

## 2. Modelling decisions

* `Rc<RefCell<Node>>` becomes an index into `heap : list node`; allocation appends, nothing is freed
  (what would be freed is a matter of counting, see `Handles` and C59).
  `Weak::upgrade` (the only one in the parser, line 1383) is modelled as a check that the target is
  strongly reachable from what `Doc` owns (root, current node, chain, check_textnode, id map),
  panicking otherwise.
* Every `expect`/`unwrap`/`panic!`/slice or subtraction that can fail is an explicit `RPanic`.
* `usize` is `nat`: positions are bounded by the input length, so additions cannot wrap.
  Subtractions are checked explicitly (`RPanic` on underflow).
* `HashMap` becomes an association list with the same `insert`/`entry().or_insert`/`get` behaviour;
  the code never observes iteration order.
* The function pointer `handle` becomes an enumeration of the 14 handlers.
* `htmlentity` (external crate, source not available) is an oracle: a record of functions passed as
  an argument; theorems quantify over all oracles.
* Borrows of the `RefCell`s are left out of `Parser.v`, `Render.v`, `Clone.v`; `Borrow.v` repeats these
  functions with the guards held at each point, and C51 proves that they are equal and never conflict.
* `Cost.v` counts characters pushed, moved, copied, compared or hashed and references moved. It does not count straight-line
  code (a constant per call), growth of vectors (amortised), collisions in hash maps, or the allocator.
* `Debug.v` takes as arguments which characters Rust shows without an escape (a Unicode table) and the iteration order of a
  `HashMap`; it assumes that no node is mutably borrowed while it is shown.
* The renderer only follows strong links, so it is modelled on trees (`doc_tree` reads the tree off the heap).

**Not modelled**: `main.rs` (a generated sample program), the size of the stack (the depth of the recursion is C60), memory exhaustion, the file
system (an argument of `parse_file_at`: which paths resolve, open, and with which bytes), `Node::is_same` (pointer equality is equality of heap
indices), `Doc.chars`, `Doc.onerror` and `Node.document`, which never influence anything else modelled; `Debug.v` shows whether `Node.document` is set and takes that as an argument.

## 3. Properties

### C01 — Parsing panics only on three input shapes (proved)

* Modelled by: Parser, Api
* Proof: control invariant (InvCtl) by cases on the 14 handlers, induction over the input; the weak upgrade needs the heap structure (StructEnd); panics witnessed
* Theorems: `C01_panic_shapes`, `C01_open_name_refuted`, `C01_doctype_refuted`, `C01_cdata_refuted`

### C02 — Rendering a parsed document never panics (proved)

* Modelled by: Parser, Render
* Proof: every node of a finished document carries what the renderer unwraps (DocTree), then induction on trees
* Theorems: `C02_parsed_documents_render`, `C02_open_name_refuted`

### C03 — Accepted documents are sequences of HTML tokens and the tree is the one their nesting dictates (proved)

* Modelled by: Parser against SpecDoc
* Proof: decomposition into big steps; simulation of states by content frames (Sim, Tok); end of input (DocSound)
* Theorems: `C03_accepted_is_source`, `C03_slash_doctype_refuted`

### C04 — Every well-nested token sequence is accepted with the expected tree (proved)

* Modelled by: Parser against SpecDoc
* Proof: replay of each token (Replay, Area, Tok) with the repairs off, then C12 for the other options
* Theorems: `C04_source_is_accepted`, `C04_content_determined`

### C05 — Render-then-parse is a fixed point (proved)

* Modelled by: Parser, Render
* Proof: C03, rendering is printing (content_render), printed tokens are written tokens (Print), C04
* Theorems: `C05_render_parse`, `C05_empty_doctype_refuted`, `C05_equal_sign_refuted`

### C06 — Canonically written documents are rendered back byte for byte (proved)

* Modelled by: Parser, Render
* Proof: C04 and content_render
* Theorems: `C06_canonical`, `C06_canonical_source`

### C07 — Text without '<' is preserved verbatim (proved)

* Modelled by: Parser, Render
* Proof: C04 for one text token
* Theorems: `C07_text_kept`

### C08 — Raw text elements keep their content verbatim (proved)

* Modelled by: Parser
* Proof: C04 with a raw token in any surroundings; backwards from the birth of each node (Static, Origin)
* Theorems: `C08_raw_in_context`, `C08_raw_kept`, `C08_raw_origin`, `C08_raw_has_content`, `C08_stray_lt_refuted`

### C09 — Comments end at the first '-->' and keep their content verbatim (proved)

* Modelled by: Parser
* Proof: as C08
* Theorems: `C09_comment_in_context`, `C09_comment_kept`, `C09_comment_origin`, `C09_empty_comment_refuted`

### C10 — Attributes are preserved in order with exact keys, values and quotes (proved)

* Modelled by: Parser, Render
* Proof: C04 for one tag; equivalence of attribute machine and attribute grammar (Area)
* Theorems: `C10_attributes_kept`, `C10_attributes_written`

### C11 — Every element is properly closed in an accepted document (proved)

* Modelled by: Parser
* Proof: invariant over big steps (CloseInv), carried over the end of input (DocEnd)
* Theorems: `C11_all_elements_closed`, `C11_no_slash_doctype`, `C11_end_tag_names`, `C11_leaf_elements`, `C11_doctype_refuted`, `C11_void_child_refuted`

### C12 — Permissive options never change documents that already parse (proved)

* Modelled by: Parser
* Proof: lock-step simulation of two runs, equal up to n_prev (Mono)
* Theorems: `C12_permissive`, `C12_raw_case_refuted`, `C12_dropped_end_refuted`

### C13 — auto_fix_unclosed_tag closes exactly the open elements (proved)

* Modelled by: Parser
* Proof: the open elements are closed one by one in the big-step relation and the two final heaps compared node by node (FixProofs); rendering by induction on the pair of trees
* Theorems: `C13_as_if_closed`, `C13_strictly_accepted`, `C13_same_rendering`, `C13_minified_refuted`, `C13_always_close_void_refuted`, `C13_cut_refuted`

### C14 — auto_fix_unexpected_endtag drops unmatched end tags and nothing else (proved)

* Modelled by: Parser, Render
* Proof: a relation between two runs with the same stream (Stream: the heap listed in document order along its right spine; StreamSteps/StreamRel: each big step keeps the relation; StreamEnd/StreamParse: the end of input), entered with the state before and after the end tag; rendering of a stream by induction on the tree (StreamRender)
* Theorems: `C14_same_stream_same_rendering`, `C14_unmatched_end_tag`, `C14_open_elements`, `C14_after_raw_refuted`, `C14_minified_refuted`

### C15 — auto_fix_unescaped_lt turns a stray '<' into &lt; in place (proved)

* Modelled by: Parser, Render
* Proof: the same relation, entered with the states after the text &lt; and after the repair
* Theorems: `C15_stray_lt`, `C15_after_raw_refuted`, `C15_last_refuted`

### C16 — Each option switches off exactly its own errors (proved)

* Modelled by: Parser
* Proof: control invariant
* Theorems: `C16_error_kinds`

### C17 — Reported error positions lie inside the input (proved)

* Modelled by: Parser, Position
* Proof: control invariant bounds the error index
* Theorems: `C17_error_position`

### C18 — Line and column of an error are correct (proved)

* Modelled by: Position
* Proof: induction against an independent line/column specification
* Theorems: `C18_line_column`, `C18_column_unique`

### C19 — parse_file parses the file's lines each terminated by \n (proved)

* Modelled by: Api
* Proof: the run over lines equals the run over the joined text; line numbers refuted
* Theorems: `C19_parse_file`, `C19_file_line_refuted`

### C20 — The node graph is a tree and index fields are right (proved)

* Modelled by: Parser
* Proof: heap structure invariant (Struct, StructEnd)
* Theorems: `C20_tree`

### C21 — Parent and root links are right (proved)

* Modelled by: Parser
* Proof: heap structure invariant (Struct, StructEnd)
* Theorems: `C21_links`, `C21_stray_lt_refuted`

### C22 — The attribute index map is right (proved)

* Modelled by: Parser
* Proof: attribute machine invariant (Attrs)
* Theorems: `C22_attribute_map`

### C23 — get_element_by_id returns the last element with the id (proved)

* Modelled by: Parser
* Proof: id table invariant (CloseInv, DocEnd)
* Theorems: `C23_get_element_by_id`

### C24 — Node positions are consistent with the source (proved)

* Modelled by: Parser
* Proof: position invariant (PosInv, DocEnd)
* Theorems: `C24_positions`

### C25 — remove_comment removes exactly the comments (proved)

* Modelled by: Render
* Proof: induction on trees; hypotheses shown for parsed documents (DocTree)
* Theorems: `C25_parsed_remove_comment`, `C25_remove_comment`

### C26 — minify_spaces collapses whitespace runs in text (proved)

* Modelled by: Render
* Proof: induction against a relational specification of collapsing
* Theorems: `C26_collapse_runs`, `C26_collapse_unique`, `C26_minify_idempotent`

### C27 — minify_spaces never loses visible characters (proved)

* Modelled by: Parser, Render
* Proof: C41 and induction on trees
* Theorems: `C27_parsed_minify_visible`, `C27_minify_keeps_visible_tree`

### C28 — minify_spaces leaves the inside of pre untouched (proved)

* Modelled by: Parser, Render
* Proof: induction on trees with the pre status
* Theorems: `C28_parsed_minify`, `C28_minify_outside_pre`, `C28_nested_pre_refuted`, `C28_selfclosed_pre_refuted`

### C29 — minify_spaces with decode_entity collapses only whitespace runs (proved)

* Modelled by: Render
* Proof: induction over the text with the open entity, against a grammar of texts with entities (Shown); refutation
* Theorems: `C29_without_entities`, `C29_minify_decode_refuted`, `C29_minify_decode`

### C30 — lowercase_tagname only lowercases tag names (proved)

* Modelled by: Render
* Proof: induction on trees
* Theorems: `C30_lowercase_tagname`

### C31 — inner_html is outer html without the element's own tags (proved)

* Modelled by: Render
* Proof: induction on trees
* Theorems: `C31_inner_html`

### C32 — remove_attr_quote keeps attribute meaning when values need no quotes (proved)

* Modelled by: Parser, Render
* Proof: effect on the tree by induction; reparsing as an instance of C50; necessity by counting characters of attribute texts (ShownDoc); refutations
* Theorems: `C32_remove_attr_quote_tree`, `C32_reparse`, `C32_quotes_needed`, `C32_space_refuted`, `C32_empty_refuted`, `C32_rejected_refuted`

### C33 — encode_content only affects title and textarea content (proved)

* Modelled by: Render
* Proof: induction on trees
* Theorems: `C33_encode_content`

### C34 — render_text yields only the text of the element (proved)

* Modelled by: Render
* Proof: induction on trees
* Theorems: `C34_parsed_render_text`, `C34_render_text`

### C35 — always_close_void only touches auto-fixed tags (proved)

* Modelled by: Render
* Proof: induction on trees
* Theorems: `C35_parsed_close_void`, `C35_always_close_void`, `C35_no_auto_fix_no_effect`, `C35_void_elements_refuted`

### C36 — clone_node makes an independent deep copy (proved)

* Modelled by: Parser, Clone, Render
* Proof: induction on the tree below the node, with an invariant that places each copy in its own range of new nodes (CloneProofs); positions cannot underflow by C24
* Theorems: `C36_deep_copy`, `C36_same_rendering`, `C36_end_tag_parent_refuted`

### C37 — is_document recognises html documents (proved)

* Modelled by: Render
* Proof: induction over the root children
* Theorems: `C37_is_document`

### C38 — Name classification is ASCII case-insensitive (proved)

* Modelled by: Names
* Proof: equivalence with case-insensitive tables; direct computation for allow_insert
* Theorems: `C38_void_names`, `C38_raw_text_names`, `C38_special_names`, `C38_allow_insert`, `C38_allow_insert_case`, `C38_allow_insert_refuted`

### C39 — create_text_node classifies whitespace (proved)

* Modelled by: Names
* Proof: arithmetic on scalar values
* Theorems: `C39_create_text_node`

### C40 — Character predicates are mutually consistent (proved)

* Modelled by: Names, Render
* Proof: direct
* Theorems: `C40_value_chars_need_no_quote`, `C40_key_chars`, `C40_non_characters`

### C41 — Whitespace nodes contain only whitespace (proved)

* Modelled by: Parser
* Proof: text invariant (TextInv)
* Theorems: `C41_text_content`

### C42 — Self-closing syntax is accepted only where allowed (proved)

* Modelled by: Parser
* Proof: invariant on in_special; refutations
* Theorems: `C42_self_closing_allowed`, `C42_inside_svg_refuted`

### C43 — case_sensitive_tagname requires identical names (proved)

* Modelled by: Parser
* Proof: as C11
* Theorems: `C43_end_tag_spelling`

### C44 — remove_endtag_space only trims end tags (proved)

* Modelled by: Names
* Proof: direct
* Theorems: `C44_remove_endtag_space`

### C45 — Rendering a complete tree never panics (proved)

* Modelled by: Render
* Proof: direct
* Theorems: `C45_complete_trees_render`

### C46 — The token grammar of accepted documents is unambiguous (proved)

* Modelled by: SpecDoc
* Proof: consequence of C04: both readings describe the same parsed document
* Theorems: `C46_unambiguous`, `C46_content_unique`

### C47 — Every node stands for a token at its place in the source (proved)

* Modelled by: Parser
* Proof: birth of nodes (Birth, Static) and end of input (Final)
* Theorems: `C47_nodes_are_tokens`

### C48 — Error messages state the position and the kind of the error (proved)

* Modelled by: ErrorText, Parser
* Proof: C17, and uniqueness of decimal spellings (ErrorProofs)
* Theorems: `C48_message`, `C48_numeral_unique`, `C48_unambiguous`, `C48_kinds`, `C48_kind_refuted`

### C49 — Errors are final and found at the first wrong character (proved)

* Modelled by: Parser
* Proof: the error kinds of each handler and of the end of input, then the run up to the error (FailProofs)
* Theorems: `C49_fail_fast`, `C49_panic_fast`

### C50 — The output of rendering can be predicted and parsed again under all render options (proved)

* Modelled by: Parser, Render
* Proof: induction on items for the output (Shown); each printed token is a written token and the tokens nest (ShownRead); then C04 (ShownDoc)
* Theorems: `C50_rendered_output`, `C50_output_parses`, `C50_stable`, `C50_minify_twice_refuted`, `C50_decoded_refuted`, `C50_encode_twice_refuted`, `C50_lowercase_svg_refuted`, `C50_lowercase_raw_refuted`, `C50_doctype_refuted`

### C51 — No RefCell is ever borrowed in conflict (proved)

* Modelled by: Borrow (Parser, Render, Api, Clone with borrows)
* Proof: each instrumented function equals the plain one under the invariant that the cells it borrows differ; for the parser the invariant is that of C01 (chain nodes, current node and new node are different nodes)
* Theorems: `C51_parse`, `C51_parse_file`, `C51_render`, `C51_build`, `C51_element`, `C51_clone`

### C52 — All repairs together amount to editing the source (proved)

* Modelled by: Parser (no changes)
* Proof: one induction over the big steps of the parser per repair: the edited text reaches, under the options without the repair, a state with the same listing of characters and marks; then the elements still open are closed as in C13; the fixed point follows from C05
* Theorems: `C52_repaired_by_hand`, `C52_same_rendering`, `C52_rendering_needs_no_repair`

### C53 — Memory is linear in the input and is freed (proved)

* Modelled by: Parser, Cost
* Proof: an invariant that adds up the characters stored per character read; the strong references form the tree of C20, so dropping is by induction on it
* Theorems: `C53_memory`, `C53_freed`, `C53_depth`, `C53_depth_unbounded`

### C54 — Parsing takes linear time without text repairs, quadratic time with them (proved)

* Modelled by: Cost (work of each parser function)
* Proof: a potential that pays for the moves of the pending text; the lower bounds compute the run on the two families of texts by induction
* Theorems: `C54_linear`, `C54_quadratic`, `C54_unescaped_lt_quadratic`, `C54_endtag_quadratic`

### C55 — The nodes of a document tile its source (proved)

* Modelled by: Parser
* Proof: induction over the big steps with the list of tokens read: the rows of the heap are the places of the tokens; nothing is put into a closed element, so the listing of the final heap (as for C14) has increasing ids, and by counting it is all of them (MapProofs)
* Theorems: `C55_places`, `C55_slices`, `C55_tag_end_refuted`, `C55_raw_end_refuted`

### C56 — Documents can be put together and taken apart (proved)

* Modelled by: Parser, Render
* Proof: on token sequences, by soundness and completeness of the parser for them (C03, C04): nesting is stable under names added below, svg/math mode is left if elements are closed alike; positions from C55 (JoinProofs)
* Theorems: `C56_concat`, `C56_insert`, `C56_wrap`, `C56_part`, `C56_extract`, `C56_concat_refuted`, `C56_wrap_refuted`, `C56_extract_refuted`

### C57 — Repeated minification settles after two rounds (proved)

* Modelled by: Parser, Render
* Proof: the content of the output as items (view); after one round blank texts outside pre are the only child of their element, and the marks of such texts no longer depend on anything the next round drops (Settle)
* Theorems: `C57_settles_after_two`, `C57_settles_after_one`, `C57_one_with_comments_refuted`

### C58 — Rendering is linear in the input (proved)

* Modelled by: Render, RenderCost
* Proof: size of a tree added up per node, equal to the length of the full rendering; induction on the tree for outputs and work; for strict documents induction on the attributes as written (C28), for all others the memory bound of C53 summed over the different nodes of the tree (C20)
* Theorems: `C58_options_shorten`, `C58_no_entities`, `C58_strict`, `C58_doctype_reached`, `C58_element_reached`, `C58_linear_size`, `C58_linear_work`, `C58_work`

### C59 — What a reference keeps alive (proved)

* Modelled by: Handles, Clone, Parser
* Proof: counts are defined by reachability and shown to be the only self-consistent ones because ownership has no cycles (C53); dropping by induction on the sum of counts; the prev and root fields by invariants of the parser (HandleDoc, HandleThms); for copies every new node belongs to the copy, by induction on the copying
* Theorems: `C59_counts`, `C59_upgrade`, `C59_drop`, `C59_drop_all`, `C59_doc_alive`, `C59_doc_links`, `C59_end_root`, `C59_part`, `C59_node_clone`

### C60 — How deep rendering, copying, dropping and Debug output recurse (proved)

* Modelled by: Depth, DebugDepth, Handles, Parser
* Proof: copies of build_tree, clone_node_with, of dropping and of Debug output that return the number of active calls, shown to return the same results as the originals; depth against the text by an invariant on positions (DepthInv), and without repairs through the tokens of the source (C04)
* Theorems: `C60_render`, `C60_clone`, `C60_drop`, `C60_bound`, `C60_strict`, `C60_reached`, `C60_debug`, `C60_debug_reached`

### C61 — parse_file from path and bytes (proved)

* Modelled by: File
* Proof: UTF-8 against its encoding by arithmetic on base-64 digits; lines of bytes against lines of the text; then C19
* Theorems: `C61_utf8`, `C61_readable`, `C61_unreadable`, `C61_good_part_unique`, `C61_path`, `C61_path_cases`

### C62 — Building a single node: outer html, inner html and text (proved)

* Modelled by: Render
* Proof: induction over the content for text (as for C50), the flag `root` only matters for the node asked for; repaired documents by reading the content off the final heap (every node is written in the source or was added by a repair); inner html by cutting the source as in C56
* Theorems: `C62_node_content`, `C62_doc_content`, `C62_strict_orderly`, `C62_node`, `C62_document`, `C62_as_shown`, `C62_inner_source`, `C62_text_tokens`

### C63 — Input that ends inside a start tag (proved)

* Modelled by: Parser
* Proof: the states inside a tag against the grammar of cut-off tags (as for whole tags), the end of input in each of them; the rest of the tree is untouched, as for `<a>`
* Theorems: `C63_cut_short`, `C63_any_cut`, `C63_attributes_unique`, `C63_no_end`, `C63_completed_refuted`, `C63_void_refuted`, `C63_doctype_refuted`

### C64 — Replacing part of the source replaces that part of the tree (proved)

* Modelled by: Parser, Render
* Proof: the tokens of the source are split at the place, joined with the tokens of the new text and parsed again with C04; nesting does not depend on the surroundings under the conditions; positions by C55
* Theorems: `C64_splice`, `C64_remove`, `C64_set_inner`, `C64_cdata_refuted`, `C64_self_closing_refuted`

### C65 — The Debug output shows exactly the tree (proved)

* Modelled by: Debug
* Proof: the text is read back: a value is determined by a prefix of the text and the rest starts with a separator; for the pretty form after removing the indentation that pad adds; nodes by induction on their values
* Theorems: `C65_unambiguous`, `C65_escapes`, `C65_shown`, `C65_spelled`, `C65_nodes`, `C65_documents`, `C65_errors`, `C65_parse_options`, `C65_render_options`, `C65_unclosed_refuted`

### C66 — The case of tag names carries no meaning (proved)

* Modelled by: Parser, Render
* Proof: tokens in another case are written by a source in another case, with raw text ending at the same place; nesting compares names up to case; then C03, C04 and C50
* Theorems: `C66_recase`, `C66_respell`, `C66_swap_case`, `C66_render`, `C66_cdata_refuted`, `C66_self_closing_refuted`, `C66_case_sensitive_refuted`

### C67 — Changing the attributes of a tag changes nothing else (proved)

* Modelled by: Parser, Render
* Proof: the token of the tag is written with the other attributes, its place is the one of C55, nesting and the marks of blank texts do not look at attributes; then C03, C04 and C06
* Theorems: `C67_attributes`, `C67_canonical`, `C67_quote_refuted`, `C67_doctype_refuted`

### C68 — The element found by id is determined by the content (proved)

* Modelled by: Parser, Api
* Proof: the nodes of the tree in order are the parts of the content plus end tags, their positions increase (C55), so the node of C23 is the last part with the id; C67 for a new id
* Theorems: `C68_content`, `C68_same`, `C68_new_id`, `C68_open_doctypes`

### C69 — Tags can be put around nodes, taken away and changed in the source (proved)

* Modelled by: Parser, Render
* Proof: the text of a run of children, and of the tags of an element, is cut out with the token positions (C55); the new tokens nest and are accepted (C46), which determines content and rendering
* Theorems: `C69_wrap`, `C69_unwrap`, `C69_retag`, `C69_unwrap_refuted`, `C69_raw_refuted`

### C70 — Render options can be applied one after the other (proved)

* Modelled by: Render, Parser
* Proof: the tokens shown under the options and their reading back (C50); the effects on each token compose, and merging of texts commutes with passes that keep text
* Theorems: `C70_then`, `C70_before`, `C70_order`, `C70_minify_refuted`, `C70_decode_refuted`

## 4. Findings about the code

Each is witnessed by computation in `Tests.v` (`findings`) or in a `..._refuted` theorem.

1. `<a` panics at the end of input with default options; with `auto_fix_unclosed_tag` it is accepted but rendering panics.
2. `<!DOCTYPE html/>x` panics; `<div><!DOCTYPE x/>` is accepted with the div never closed.
3. `<svg></SVG><![CDATA[x]]>` panics: an svg closed in other case is never left.
4. The empty comment `<!---->` and the empty CDATA section are not recognised as closed.
5. `auto_fix_unescaped_lt` after a raw text or void element puts the text inside that element, and the text node has no parent link.
6. Nested svg is rejected; `<svg></SVG><div/>` is accepted.
7. `minify_spaces` with `decode_entity` drops spaces next to entities.
8. `<a> </a><b></b>`: the blank text in `a` counts as space between tags because of a stale `check_textnode`.
9. After a nested or self-closed `pre` minification is in the wrong state.
10. `need_quote` is never set, so `remove_attr_quote` produces wrong attributes.
11. `always_close_void` only affects tags closed automatically.
12. `allow_insert("TITLE", ..)` is case-sensitive, unlike the other names.
13. Error positions of `parse_file` ignore line feeds.
14. `get_element_by_id` returns the last of several elements with one id.
15. With `allow_attr_key_starts_with_equal_sign`, `<a c/=d>` is rendered as `<a c =d>`, which means something else.
16. `<!DOCTYPE >` is rendered as `<!DOCTYPE>`, which is rejected.
17. Text around a dropped end tag is joined only if `auto_fix_unclosed_tag` is on as well.
18. Copies made by `clone_node` have end tags without parent link (parsed end tags have one), and keep the root link of the
    original; `Node::clone` moves the copy out of its `Rc`, so the parent links of its children dangle (`C59_node_clone`).
19. An unclosed element named like a parser state, e.g. `<Comment>`, gives the message of an unfinished comment.
20. A `<` at the very end is an error even with all repairs on; `<br ` at the end with `auto_fix_unclosed_tag` renders as `<br></br>`.
21. `<script></SCRIPT></script>` is accepted with `case_sensitive_tagname` and rejected without.
22. With `auto_fix_unexpected_endtag`, a dropped end tag splits text for minification: `<p>x </b> y</p>` keeps two blanks.
23. With both repairs, `<script>x</script></b><1` and `<script>x</script><1` put the `&lt;1` at different places.
24. With `remove_attr_quote` an empty value is lost and `<a b="'x">` renders to a text that is rejected.
25. Minifying twice differs from minifying once: `<p> </p> <b></b>`.
26. `<svg></SVG><a/>` is accepted, but not its rendering with `lowercase_tagname`.
27. The repairs make parsing quadratic: `1<1<1...` with `auto_fix_unescaped_lt`, `x</b>x</b>...` with the other two.
28. The nesting depth is bounded by nothing but the length of the text, and so is the depth of the recursions that build, copy and drop it.
29. The test at `tests/html.rs` 69-86 fails on this commit.
30. `end_at` of start tags, void tags and doctypes is never set and stays equal to `begin_at`; the end tag of a raw text element
    has `begin_at` and `end_at` just after itself (`C55_tag_end_refuted`, `C55_raw_end_refuted`).
31. `<math></MATH>` followed by `<svg><math><![CDATA[x]]></math></svg>` is rejected, though each of the two is accepted.
32. With `remove_comment`, minifying `a <!--c--> b` gives two blanks, and only minifying again gives one.
33. End tags have no root link. With `auto_fix_unexpected_endtag` alone, a Doc still holds the last end tag that was dropped (`C59_doc_alive`).
34. A text of `7n+1` characters that is accepted under any options needs `n+2` nested calls to render, to copy and to drop (`C60_reached`); parsing itself does not recurse. So a document that parses can overflow the stack later, even when it is only dropped.
35. `parse_file` panics on a relative path that does not exist (an absolute one gives an `io::Error`), and on files that are not UTF-8 or cannot be read to the end, unless an earlier line is rejected (`C61_example`).
36. `render_text` keeps CDATA sections and doctypes with their markup; `build(_, true)` of a text node panics although its content is text (`C62_example`, `C62_spec_example`).
37. A key that is cut off by the end of input leaves an attribute with an empty key (`<b x=1 yz` renders as `<b x=1 ></b>`), and a void element whose tag is cut off gets an end tag (`<br /` renders as `<br></br>`): `C63_completed_refuted`, `C63_void_refuted`.
38. The Debug text of an error does not always determine its kind (`C65_unclosed_refuted`).
39. Inside svg and math the case of a name matters even without case sensitivity: `<svg><SVG><![CDATA[x]]></SVG></svg>` is accepted, `<svg><svg><![CDATA[x]]></svg></svg>` is not (`C66_cdata_refuted`).

## 5. Mutation tests

`seeded/LOG.jsonl` lists, one per line, deliberate errors put into a scratch copy of the model, the claim each one breaks, and
the theorems that then fail. There are two kinds of entries:

* With a `method`: the negation of the statement was proved in the mutant from a concrete witness, so the theorem is false there.
* Without: the mutant was rebuilt, and `theorems_failed` are the theorems whose proof breaks or uses a lemma whose proof breaks.
  This is weaker: a theorem in such a list may still be true in the mutant, its proof just does not go through as it is.

`not_refuted` names theorems for which a refutation was tried without success.

## 6. Trusted base

* The Coq 8.16.1 kernel, including its `vm_compute` conversion, and `coqc`'s parsing of the theorem statements.
* The reading of `/repo` embodied in the model files of section 1, with the simplifications of section 2.
* Axioms: none. `Print Assumptions` answers "Closed under the global context" for every theorem of every `Prop*.v`.
  (The standard library's setoid support, loaded with lists and numbers, makes the module `Coq.ssr.ssrunder`
  with the opaque `Under_rel` interface part of the environment; no theorem uses it.)
