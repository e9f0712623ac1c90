{"id": "C01", "title": "Parsing panics only on three input shapes", "statement": "Doc::parse returns Ok or Err for every input and option set, except that it may panic in three situations: (a) auto_fix_unclosed_tag is off and the input ends inside the name of an opening tag (`...<name`), (b) the input contains a self-closed doctype (`<!doctype .../>`), or (c) an svg or math element was closed by an end tag spelled in a different case and `<![` follows. All three exceptions are real (witnesses `<a`, `<!DOCTYPE html/>x` and `<svg></SVG><![CDATA[x]]>`).", "quantifier": "all ParseOptions, all input strings", "why_tests_cant": "Absence of panics ranges over all strings and option combinations; the unit tests happen to miss both panicking shapes.", "anchors": ["src/parser.rs: Doc::parse", "src/parser.rs: Doc::eof", "src/parser.rs: parse_tag_self_closing", "src/parser.rs: Doc::add_new_node", "src/parser.rs: every expect()/unwrap()"]}
{"id": "C02", "title": "Rendering a parsed document never panics", "statement": "If Doc::parse returned Ok, then DocHolder::render (with inner_html off) returns for every RenderOptions, unless auto_fix_unclosed_tag was on and the input ended inside the name of an opening tag (in that case the tree holds a tag without meta and render panics: witness `<a`).", "quantifier": "all ParseOptions, all inputs accepted, all RenderOptions with inner_html=false", "why_tests_cant": "Requires every node the parser can ever build to carry the fields the renderer unwraps.", "anchors": ["src/parser.rs: Node::build", "src/parser.rs: Node::build_node", "src/parser.rs: Doc::eof"]}
{"id": "C03", "title": "Accepted documents are sequences of HTML tokens and the tree is the one their nesting dictates", "statement": "With the auto-fix options off, if Doc::parse(s) is Ok then s is a concatenation of well-formed tokens (text, comment, doctype, CDATA, start tag with attributes, raw-text element, end tag) and the resulting tree is exactly the one obtained by matching start and end tags of that token sequence.", "quantifier": "all inputs; all values of case_sensitive_tagname, allow_self_closing, allow_attr_key_starts_with_equal_sign", "why_tests_cant": "Soundness of a parser against a grammar is a statement about all strings.", "anchors": ["src/parser.rs: Doc::parse", "src/parser.rs: parse_wait .. parse_exclamation_begin"]}
{"id": "C04", "title": "Every well-nested token sequence is accepted with the expected tree", "statement": "With the auto-fix options off, any source text that is a concatenation of well-formed tokens which nest properly is accepted by Doc::parse, and the tree is the one dictated by nesting.", "quantifier": "all token sequences and all of their source spellings; the same option family as C03", "why_tests_cant": "Completeness quantifies over unboundedly deep and long documents.", "anchors": ["src/parser.rs: Doc::parse"]}
{"id": "C05", "title": "Render-then-parse is a fixed point", "statement": "With the auto-fix options off, if Doc::parse(s) is Ok and no doctype in it was self-closed, then parsing the default rendering of the result is Ok again, yields the same tree up to source positions, and renders to the same string (normalisation is idempotent).", "quantifier": "all inputs accepted with default options", "why_tests_cant": "Idempotence is about all documents; tests check a few literals that happen to be already normalised.", "anchors": ["src/parser.rs: Doc::parse", "src/parser.rs: DocHolder::render", "src/parser.rs: TagMeta::attrs_to_string", "src/parser.rs: Attr::build"]}
{"id": "C06", "title": "Canonically written documents are rendered back byte for byte", "statement": "With the auto-fix options off, if the source is written in canonical form (one space before each attribute, no other spaces inside start tags, ` /` for self closing) then Doc::parse(s) followed by the default render returns exactly s.", "quantifier": "all documents in canonical spelling", "why_tests_cant": "Lossless round-trip must hold for every document.", "anchors": ["src/parser.rs: Doc::parse", "src/parser.rs: Node::build"]}
{"id": "C07", "title": "Text without '<' is preserved verbatim", "statement": "For every ParseOptions, an input containing no '<' parses to a document with at most one node, a text (or whitespace) node holding the whole input, and the default render returns the input unchanged.", "quantifier": "all ParseOptions, all inputs without '<'", "why_tests_cant": "All strings, including every Unicode scalar value and any length.", "anchors": ["src/parser.rs: parse_wait", "src/parser.rs: parse_text", "src/parser.rs: Doc::eof"]}
{"id": "C08", "title": "Raw text elements keep their content verbatim", "statement": "For script, style, title and textarea, everything between the start tag and the first matching end tag (`</name`, optional ASCII whitespace, `>`; ASCII case-insensitive unless case_sensitive_tagname) becomes the element's content unchanged, whatever characters it contains, with no child nodes created.", "quantifier": "all contents, all four element names in any case, all ParseOptions", "why_tests_cant": "Content is arbitrary text including '<', '>' and quotes.", "anchors": ["src/parser.rs: parse_content_tag", "src/parser.rs: Doc::check_tag_type_do"]}
{"id": "C09", "title": "Comments end at the first '-->' and keep their content verbatim", "statement": "After `<!--`, the comment's content is everything up to the first `-->` that is preceded by at least one content character; the content is stored and rendered unchanged. (Known deviation from HTML: the empty comment `<!---->` is not recognised as closed.)", "quantifier": "all comment contents, all ParseOptions", "why_tests_cant": "All contents, including partial terminators such as '--', '->' and '--->'.", "anchors": ["src/parser.rs: parse_comment_or_cdata", "src/parser.rs: parse_exclamation_begin"]}
{"id": "C10", "title": "Attributes are preserved in order with exact keys, values and quotes", "statement": "A start tag written with any list of well-formed attributes (bare keys, unquoted, single- or double-quoted values) yields a tag whose attrs list has exactly those keys, values and quotes in the same order, and the renderer writes them back identically.", "quantifier": "all tag names, all attribute lists, all values not containing their quote", "why_tests_cant": "Unbounded attribute lists over arbitrary characters.", "anchors": ["src/parser.rs: parse_tag_wait", "src/parser.rs: parse_tag_attr_key", "src/parser.rs: parse_tag_attr_value", "src/parser.rs: Attr::build"]}
{"id": "C11", "title": "Every element is properly closed in an accepted document", "statement": "With no self-closed doctype, every tag node of an accepted document is void, self-closed, or carries an end tag whose name (trailing whitespace removed) equals the start name up to ASCII case (exactly, under case_sensitive_tagname); void and self-closed tags have no end tag (unless closed by auto-fix at the end of the input), and they and raw-text elements have no children unless auto_fix_unescaped_lt is on.", "quantifier": "all accepted inputs", "why_tests_cant": "Structural invariant over all documents.", "anchors": ["src/parser.rs: parse_tagend", "src/parser.rs: parse_tag_self_closing", "src/parser.rs: is_equal_chars_ignore_case"]}
{"id": "C12", "title": "Permissive options never change documents that already parse", "statement": "If Doc::parse succeeds under some options, it also succeeds, with an identical tree (same nodes, contents, attributes, positions), after additionally switching on any of allow_self_closing, allow_attr_key_starts_with_equal_sign, auto_fix_unclosed_tag, auto_fix_unescaped_lt, auto_fix_unexpected_endtag, or switching off case_sensitive_tagname, provided auto_fix_unexpected_endtag was off or unchanged options handle unexpected end tags alike.", "quantifier": "all inputs, all pairs of options ordered by permissiveness (with auto_fix_unclosed_tag and auto_fix_unexpected_endtag initially off)", "why_tests_cant": "Relates two whole executions on every input.", "anchors": ["src/parser.rs: ParseOptions uses", "src/config.rs: ParseOptions"]}
{"id": "C13", "title": "auto_fix_unclosed_tag closes exactly the open elements", "statement": "If the parser closes open elements at the end of input (auto_fix_unclosed_tag), and the input does not end inside a start tag, then the input followed by end tags for exactly these elements, innermost first, is accepted with nothing left to close, has the same tree up to the marks for blank text and repaired elements, and renders the same unless minify_spaces or always_close_void is set. With auto_fix_unexpected_endtag off it is also accepted with auto_fix_unclosed_tag off. With minify_spaces or always_close_void the rendering can differ (`<p> `, `<p>x` renders as `<p />x</p>`): refuted.", "quantifier": "all options, all accepted inputs that do not end inside a start tag, all render options except the named ones", "why_tests_cant": "Depends on an arbitrary stack of open elements at end of input.", "anchors": ["src/parser.rs: Doc::eof", "src/parser.rs: Doc::fix_unclosed_tag"]}
{"id": "C14", "title": "auto_fix_unexpected_endtag drops unmatched end tags and nothing else", "statement": "With auto_fix_unexpected_endtag on, put an end tag that does not match the innermost open element anywhere outside a tag, comment or raw text: the input with it is accepted iff the input without it is, and then both documents have the same sequence of text characters, start tags (with names and attributes), end tags, comments, doctypes and CDATA sections, the same elements closed by the parser and the same ids, hence render alike unless minified or decoded. The end tag itself changes neither the open elements nor any node but the text before it. NOT so when auto_fix_unescaped_lt is on, too, and the end tag follows a raw text element: `<script>x</script></b><1` (refuted). Minified renderings can differ in white space (refuted).", "quantifier": "all ParseOptions with the option on, all texts before and after, all end tag names", "why_tests_cant": "Quantifies over every reachable parser state and over every continuation of the input.", "anchors": ["src/parser.rs: parse_tagend", "src/parser.rs: parse_wait"]}
{"id": "C15", "title": "auto_fix_unescaped_lt turns a stray '<' into &lt; in place", "statement": "With auto_fix_unescaped_lt on, write a '<' that cannot start markup anywhere outside a tag, comment or raw text: the input is accepted iff the input with `&lt;` in its place is, and then both documents have the same sequence of text characters and marks, the same elements closed by the parser and the same ids, hence render alike unless minified or decoded. NOT so directly after a raw text element: `<script>x</script><1` renders as `<script>x&lt;1</script>` (refuted); a '<' as last character is an error (refuted).", "quantifier": "all ParseOptions with the option on, all texts before and after, all following characters", "why_tests_cant": "Depends on which node precedes the stray '<'.", "anchors": ["src/parser.rs: Doc::fix_unescaped_lt", "src/parser.rs: parse_unkown_tag"]}
{"id": "C16", "title": "Each option switches off exactly its own errors", "statement": "The kinds of error Doc::parse can return are limited by the options: WrongSelfClosing never with allow_self_closing, WrongEndTag never with auto_fix_unexpected_endtag, WrongCaseSensitive only with case_sensitive_tagname, and the remaining kinds are only WrongTag, UnclosedTag, WrongHtmlDoctype, UnrecognizedTag and CommonError.", "quantifier": "all inputs, all ParseOptions", "why_tests_cant": "Universally quantified over inputs.", "anchors": ["src/parser.rs: create_parse_error call sites", "src/error.rs: ErrorKind"]}
{"id": "C17", "title": "Reported error positions lie inside the input", "statement": "Every ParseError of Doc::parse carries an index between 0 and the number of characters of the input (never beyond the point the parser has read), and the line/column are computed for that index.", "quantifier": "all inputs, all ParseOptions", "why_tests_cant": "All failing inputs.", "anchors": ["src/parser.rs: Doc::error", "src/parser.rs: create_parse_error", "src/position.rs: CodeRegion::from_context_index"]}
{"id": "C18", "title": "Line and column of an error are correct", "statement": "For a given text and index, the reported line is one plus the number of line breaks (\\n, \\r, or \\r\\n counted once) among the characters up to and including the index, and the column is the number of characters after the last of these line breaks.", "quantifier": "all texts, all indices", "why_tests_cant": "All mixtures of the three newline conventions.", "anchors": ["src/position.rs: CodeRegion::from_context_index"]}
{"id": "C19", "title": "parse_file parses the file's lines each terminated by \\n", "statement": "Doc::parse_file on a file behaves as Doc::parse on the file's text with \\r\\n normalised to \\n and a final \\n added when missing: same acceptance, same tree, same error kind and index. The reported line number, however, ignores line feeds (refuted).", "quantifier": "all file contents, all ParseOptions", "why_tests_cant": "All file contents.", "anchors": ["src/parser.rs: Doc::parse_file"]}
{"id": "C20", "title": "The node graph is a tree and index fields are right", "statement": "In every document returned by Doc::parse, every node is reachable exactly once from the root, there are no cycles, and the i-th child of a node has index i.", "quantifier": "all inputs, all ParseOptions, all nodes", "why_tests_cant": "Global heap-shape invariant over every history of node insertions.", "anchors": ["src/parser.rs: Doc::add_new_node", "src/parser.rs: Doc::fix_unescaped_lt"]}
{"id": "C21", "title": "Parent and root links are right", "statement": "In every document returned by Doc::parse without auto_fix_unescaped_lt, each child's parent link points to the node that lists it, its root link to the document root, and each end tag's parent link to the tag it closes. With auto_fix_unescaped_lt, the text nodes it creates have no parent link (refuted).", "quantifier": "all inputs, all nodes", "why_tests_cant": "Heap invariant over all parser histories.", "anchors": ["src/parser.rs: Doc::add_new_node", "src/parser.rs: parse_tagend", "src/parser.rs: Doc::fix_unescaped_lt"]}
{"id": "C22", "title": "The attribute index map is right", "statement": "In every tag returned by Doc::parse (with the tag completed), lc_name_map maps a lowercase name to the position of the first attribute whose key equals it up to ASCII case, and to nothing if there is none.", "quantifier": "all inputs, all tags, all names", "why_tests_cant": "Unbounded attribute lists with duplicates.", "anchors": ["src/parser.rs: Doc::set_tag_attr_key", "src/parser.rs: TagMeta"]}
{"id": "C23", "title": "get_element_by_id returns the last element with the id", "statement": "get_element_by_id(x) returns a node iff some tag or doctype of the document has an attribute named id (any ASCII case) with value x, and then it returns the last such node in document order.", "quantifier": "all inputs accepted, all ids", "why_tests_cant": "Ranges over all documents and all ids, with duplicates.", "anchors": ["src/parser.rs: Doc::set_tag_attr_value", "src/parser.rs: DocHolder::get_element_by_id", "src/parser.rs: Attr::check_if_id"]}
{"id": "C24", "title": "Node positions are consistent with the source", "statement": "In every parsed document begin_at <= end_at <= length of the input for all nodes, children and end tags begin at or after their parent, siblings in increasing order, tags, comments, doctypes and CDATA sections begin at a '<' of the source, end tags begin at a '<', just after the '>' that ends a raw-text element, or (added by auto_fix_unclosed_tag) at the end of the input; the root spans the whole input.", "quantifier": "all inputs, all ParseOptions, all nodes", "why_tests_cant": "Invariant over all documents.", "anchors": ["src/parser.rs: Doc::set_tag_end_info", "src/parser.rs: Doc::next", "src/parser.rs: Node"]}
{"id": "C25", "title": "remove_comment removes exactly the comments", "statement": "Rendering with remove_comment gives the same string as rendering, without that option, the tree from which all comment nodes have been deleted.", "quantifier": "all node trees (parsed or hand-built), all RenderOptions", "why_tests_cant": "All trees and all combinations with the other eight options.", "anchors": ["src/parser.rs: Node::build_node"]}
{"id": "C26", "title": "minify_spaces collapses whitespace runs in text", "statement": "With minify_spaces (and decode_entity off), a text node outside pre is rendered with every maximal run of ASCII whitespace replaced by its first character, whitespace-only nodes between tags are dropped, and nothing else changes; minifying already minified text changes nothing.", "quantifier": "all node trees, all text contents", "why_tests_cant": "All strings.", "anchors": ["src/parser.rs: Node::build_node"]}
{"id": "C27", "title": "minify_spaces never loses visible characters", "statement": "For every parsed document, the rendering with minify_spaces and the rendering without it have the same sequence of non-whitespace characters (decode_entity off).", "quantifier": "all inputs, all ParseOptions, all other RenderOptions", "why_tests_cant": "Depends on the parser classifying only whitespace nodes as droppable, in every history.", "anchors": ["src/parser.rs: Doc::set_text_spaces_between", "src/parser.rs: parse_text", "src/parser.rs: Node::build_node"]}
{"id": "C28", "title": "minify_spaces leaves the inside of pre untouched", "statement": "Inside a pre element text is rendered unchanged even with minify_spaces, provided pre elements are not nested. After a nested pre closes, the rest of the outer pre is minified (refuted), and a self-closed pre disables minification for the rest of the document (refuted).", "quantifier": "all trees of non-nested pre elements", "why_tests_cant": "All trees.", "anchors": ["src/parser.rs: Node::build_node", "src/parser.rs: RenderStatus"]}
{"id": "C29", "title": "minify_spaces with decode_entity collapses only whitespace runs", "statement": "Combining minify_spaces and decode_entity decodes every entity in place and drops a whitespace character exactly if the last character outside of entities was whitespace, for all texts and all entity tables. So without '&' it is plain collapsing, but with entities it does not only merge adjacent whitespace: refuted, `a &gt; b` renders as `a >b`.", "quantifier": "all texts", "why_tests_cant": "All texts and entity positions.", "anchors": ["src/parser.rs: Node::build_node"]}
{"id": "C30", "title": "lowercase_tagname only lowercases tag names", "statement": "Rendering with lowercase_tagname equals rendering, without it, the tree in which all start and end tag names have been lowercased (ASCII); attribute names, values and content are untouched.", "quantifier": "all node trees, all other RenderOptions", "why_tests_cant": "All trees.", "anchors": ["src/parser.rs: Node::build_node"]}
{"id": "C31", "title": "inner_html is outer html without the element's own tags", "statement": "For a tag node, the full rendering is its start tag, followed by the inner_html rendering, followed by its end tag if any; for the document root the rendering is the concatenation of its children's.", "quantifier": "all tag nodes, all RenderOptions", "why_tests_cant": "All trees.", "anchors": ["src/parser.rs: Node::build", "src/parser.rs: Node::build_tree"]}
{"id": "C32", "title": "remove_attr_quote keeps attribute meaning when values need no quotes", "statement": "Rendering with remove_attr_quote gives a text that is accepted and has the same tokens, attribute keys and values, if every quoted value is one that can be written without quotes; for an element, only if. need_quote is never set, so other values are wrong: refuted with `<a b=\"x y\">`, which becomes `<a b=x y>`, with an empty value, which is lost, and with `<a b=\"'x\">`, whose rendering is rejected.", "quantifier": "all strictly parsed documents, all attributes", "why_tests_cant": "All values.", "anchors": ["src/parser.rs: Attr::build", "src/parser.rs: Attr::need_quoted_char", "src/parser.rs: TagMeta::set_attr_value"]}
{"id": "C33", "title": "encode_content only affects title and textarea content", "statement": "encode_content changes the rendering only of the raw content of title and textarea elements, where each character is replaced by its entity if it is in the HTML character set, and nothing else.", "quantifier": "all node trees, all encoders", "why_tests_cant": "All trees.", "anchors": ["src/parser.rs: write_content_encode", "src/parser.rs: Node::build_node"]}
{"id": "C34", "title": "render_text yields only the text of the element", "statement": "For a tag node whose subtree contains no CDATA or doctype, build with inner_text returns the concatenation, in document order, of the text (and whitespace) nodes' and raw-text elements' contents below it: no tags, no attributes, no comments.", "quantifier": "all trees", "why_tests_cant": "All trees.", "anchors": ["src/parser.rs: Node::build", "src/parser.rs: Node::build_node"]}
{"id": "C35", "title": "always_close_void only touches auto-fixed tags", "statement": "always_close_void changes the rendering of exactly those tags that the parser auto-closed at end of input; in particular it has no effect on ordinary void elements such as <br> (refuting its name), nor on any document parsed without auto_fix_unclosed_tag.", "quantifier": "all trees; all documents parsed with auto_fix_unclosed_tag off", "why_tests_cant": "All trees.", "anchors": ["src/parser.rs: Node::build_node", "src/parser.rs: Doc::fix_unclosed_tag"]}
{"id": "C36", "title": "clone_node makes an independent deep copy", "statement": "clone_node of any node of a parsed document never fails, allocates only new nodes, leaves all existing nodes unchanged, gives the same rendering, shifts all positions by the node's begin_at, and sets parent, prev and index of the copied children correctly.", "quantifier": "all parsed documents, all nodes of them", "why_tests_cant": "Subtraction of positions may underflow and sharing may leak for some tree shape.", "anchors": ["src/parser.rs: Node::clone_node", "src/parser.rs: Node::clone_node_with", "src/parser.rs: Node::clone_node_without_childs"]}
{"id": "C37", "title": "is_document recognises html documents", "statement": "is_document reports true iff the root has a child tag named html (any ASCII case); the second component is then true iff that tag is the only child besides comments, whitespace and doctypes; if no html child exists it is (false, true).", "quantifier": "all root nodes", "why_tests_cant": "All child lists.", "anchors": ["src/parser.rs: Node::is_document"]}
{"id": "C38", "title": "Name classification is ASCII case-insensitive", "statement": "Void, raw-text, svg and math tag names are recognised in any ASCII case by the parser; the table computed by allow_insert is given exactly; it does not depend on ASCII case except for title and textarea (refuted there: allow_insert(\"TITLE\", Tag) is true while allow_insert(\"title\", Tag) is false).", "quantifier": "all names, all node types", "why_tests_cant": "All spellings.", "anchors": ["src/parser.rs: allow_insert", "src/parser.rs: is_void_tag", "src/parser.rs: is_content_tag"]}
{"id": "C39", "title": "create_text_node classifies whitespace", "statement": "Node::create_text_node gives a SpacesBetweenTag node iff every character is ASCII whitespace, keeps the content unchanged, and places it at the given position (default 0).", "quantifier": "all contents", "why_tests_cant": "All strings.", "anchors": ["src/parser.rs: Node::create_text_node"]}
{"id": "C40", "title": "Character predicates are mutually consistent", "statement": "A character that is_char_available_in_value accepts never needs quoting according to Attr::need_quoted_char; is_char_available_in_key rejects whitespace, controls, noncharacters and all ASCII punctuation except _ - . : ; is_non_character is true for exactly the 66 Unicode noncharacters.", "quantifier": "all Unicode scalar values", "why_tests_cant": "1.1 million characters (finite but untested).", "anchors": ["src/util.rs: is_non_character", "src/util.rs: is_char_available_in_key", "src/util.rs: is_char_available_in_value", "src/parser.rs: Attr::need_quoted_char"]}
{"id": "C41", "title": "Whitespace nodes contain only whitespace", "statement": "In every parsed document, under every option combination, a node of type SpacesBetweenTag has content consisting only of ASCII whitespace, and every text node has non-empty content.", "quantifier": "all inputs, all ParseOptions", "why_tests_cant": "The classification is done lazily through a remembered pointer that survives across tokens.", "anchors": ["src/parser.rs: Doc::set_text_spaces_between", "src/parser.rs: parse_text", "src/parser.rs: parse_wait"]}
{"id": "C42", "title": "Self-closing syntax is accepted only where allowed", "statement": "With allow_self_closing off, a self-closed non-void element in an accepted document occurs only after an svg or math start tag. That it must be inside svg/math is refuted: `<svg></SVG><div/>` is accepted, and `<svg><svg></svg><rect/></svg>` is rejected.", "quantifier": "all inputs", "why_tests_cant": "All histories of special tags.", "anchors": ["src/parser.rs: parse_tag_self_closing", "src/parser.rs: parse_tagend", "src/parser.rs: Doc::check_tag_type_do"]}
{"id": "C43", "title": "case_sensitive_tagname requires identical names", "statement": "With case_sensitive_tagname on, every end tag attached by the parser to a start tag has exactly the same name (after trimming trailing whitespace); with it off, equality up to ASCII case.", "quantifier": "all inputs, all other options", "why_tests_cant": "All names.", "anchors": ["src/parser.rs: parse_tagend", "src/parser.rs: parse_content_tag"]}
{"id": "C44", "title": "remove_endtag_space only trims end tags", "statement": "Rendering with remove_endtag_space equals rendering, without it, the tree in which trailing ASCII whitespace has been removed from every end tag's name; nothing else changes.", "quantifier": "all node trees, all other RenderOptions", "why_tests_cant": "Tests can only sample trees and spaces; the claim is an equality of renderings for all of them.", "anchors": ["src/parser.rs Node::build_node"]}
{"id": "C45", "title": "Rendering a complete tree never panics", "statement": "Node::build returns a string for every tree, however it was built, in which tags and doctypes carry meta data and text nodes and end tags carry content (inner_html off).", "quantifier": "all trees, all RenderOptions", "why_tests_cant": "Absence of panics has to hold for all trees and option combinations.", "anchors": ["src/parser.rs Node::build_node"]}
{"id": "C46", "title": "The token grammar of accepted documents is unambiguous", "statement": "A source text has at most one reading as a properly nesting sequence of tokens (however attributes, end tags and keywords are spelled), and a document tree holds at most one content.", "quantifier": "all texts, all token sequences, all option values of C03", "why_tests_cant": "Uniqueness of the reading quantifies over all pairs of token sequences of all texts.", "anchors": ["src/parser.rs Doc::parse", "src/parser.rs parse_tag"]}
{"id": "C47", "title": "Every node stands for a token at its place in the source", "statement": "In every parsed document, under all options, each tag, comment, CDATA section and doctype node is the node of a complete well-formed token that is written in the source exactly at the node's begin_at, with that token's name, attributes and content; the only other nodes are doctypes with a self-closing '/' and, with auto_fix_unclosed_tag, the tag cut off by the end of the input.", "quantifier": "all ParseOptions, all inputs, all nodes", "why_tests_cant": "Ties every node of every accepted input under every option combination to its source text.", "anchors": ["src/parser.rs Doc::parse", "src/parser.rs parse_tag", "src/parser.rs parse_comment", "src/parser.rs parse_doctype"]}
{"id": "C48", "title": "Error messages state the position and the kind of the error", "statement": "The text of every error of every parse is [line:L,col:C,index:I] followed by the text of its kind, where L, C and I are the decimal spellings of the line, column and index of the error in the input; two messages are equal only if the positions and the texts of the kinds are; the text of a kind determines the kind but for unfinished constructs and the two names of an unrecognized tag.", "quantifier": "all ParseOptions, all rejected inputs", "why_tests_cant": "Positions and names are unbounded; unambiguity quantifies over pairs of errors.", "anchors": ["src/error.rs 17-58", "src/position.rs Display"]}
{"id": "C49", "title": "Errors are final and found at the first wrong character", "statement": "Whenever a parse fails with an error other than the two reported at the end of the input, there is a character of the input at which it is found: with any other text after that character the error is the same, with the same position, and no beginning of the input that stops before that character gives such an error. A panic, too, stays the same for every continuation, unless it is the one at the end of the input inside a tag name.", "quantifier": "all ParseOptions, all rejected inputs, all continuations", "why_tests_cant": "Quantifies over all continuations of all rejected inputs.", "anchors": ["src/parser.rs Doc::parse", "src/parser.rs Doc::next", "src/parser.rs eof"]}
{"id": "C50", "title": "The output of rendering can be predicted and parsed again under all render options", "statement": "For every strictly parsed document and all render options but inner_html, the output is the canonical spelling of the tokens of the document after the changes the options stand for, item by item. If no doctype is empty, dropped quotes are not needed, decoded or encoded text has no '<', and lower case does not end a raw text, svg or math element elsewhere, the output is accepted by the parser with the same options and the result has exactly these tokens, texts that have come together being joined. Without minification, decoding and encoding, rendering the result again gives the same output. Each condition is shown necessary by a witness; minifying twice differs from minifying once.", "quantifier": "all ParseOptions without repairs, all inputs, all RenderOptions, all entity tables", "why_tests_cant": "All combinations of nine render options over all documents; the round trip needs the grammar of all texts.", "anchors": ["src/parser.rs: Node::build_node", "src/parser.rs: Node::build_tree", "src/parser.rs: Doc::parse"]}
{"id": "C51", "title": "No RefCell is ever borrowed in conflict", "statement": "No execution of parse or parse_file, and no execution of render, render_text, build, is_document, get_element_by_id and clone_node on a parsed document, panics because a RefCell is borrowed in conflict with a guard still held, even if the caller holds any number of Refs; with every borrow made explicit these functions give the same results. A caller holding a RefMut does meet a conflict.", "quantifier": "all ParseOptions, all inputs, all RenderOptions, all nodes, all sets of Refs held by the caller", "why_tests_cant": "A conflict would depend on two references meeting in one cell (current node, top of the chain, a text to be relabelled), which must be excluded for all states.", "anchors": ["src/parser.rs Doc::add_new_node", "src/parser.rs fix_unclosed_tag", "src/parser.rs fix_unescaped_lt", "src/parser.rs parse_tagend", "src/parser.rs Node::build_tree", "src/parser.rs Node::clone_node_with"]}
{"id": "C52", "title": "All repairs together amount to editing the source", "statement": "If a text is accepted with any of the three repairs switched on, then writing \"&lt;\" for some of the '<' that start no markup, deleting some end tags and appending the end tags of the elements closed by the parser gives a text that is accepted with all repairs switched off and has the same document (same characters of text, tags, comments, attributes, order and ids) and the same rendering; nothing is edited for a repair that is off. Hence the default rendering of every repaired document is accepted without any repair and is a fixed point of parsing and rendering. Conditions: the input does not end inside a tag, no doctype is self-closed, no repaired '<' directly follows a raw text element; for the fixed point also no empty doctype and no keys starting with '='.", "quantifier": "all ParseOptions (all combinations of repairs), all inputs, all entity tables, all RenderOptions without minification, decoding, always_close_void and inner_html", "why_tests_cant": "Any number of repairs of three kinds can interact in one input (a dropped end tag joins two texts, an escaped '<' can follow it); the equivalence must hold for all such sequences.", "anchors": ["src/parser.rs: fix_unescaped_lt", "src/parser.rs: parse_tagend", "src/parser.rs: fix_unclosed_tag", "src/parser.rs: Doc::eof"]}
{"id": "C53", "title": "Memory is linear in the input and is freed", "statement": "At every point of every execution of parse, and in the parsed document, there are at most one node per character read plus the root, and the characters kept in all nodes, the index of ids and the buffer, with four more for each attribute, are at most ten times the characters read. The strong references have no cycle, so dropping the document frees every node. The nesting depth is at most the length of the text plus one; it is not bounded by anything else.", "quantifier": "all ParseOptions, all inputs, all intermediate states", "why_tests_cant": "A leak or an amplification of memory would show only on particular inputs; absence must hold for all of them.", "anchors": ["src/parser.rs: Doc::add_new_node", "src/parser.rs: Doc::set_tag_attr_key", "src/parser.rs: Doc::set_tag_attr_value", "src/parser.rs: struct Node", "src/parser.rs: fix_unescaped_lt"]}
{"id": "C54", "title": "Parsing takes linear time without text repairs, quadratic time with them", "statement": "The number of characters pushed, moved, copied, compared or hashed, plus the references moved, during parse is at most 134 n + 120 for a text of n characters if auto_fix_unescaped_lt is off and not both other repairs are on, whether the text is accepted or rejected. With any options it is at most 40 n^2 + 134 n + 120. With auto_fix_unescaped_lt, and with both other repairs, there are accepted texts of every size on which it grows with the square of the length.", "quantifier": "all ParseOptions, all inputs", "why_tests_cant": "Tests measure a few inputs; the bound is about the worst input of every length.", "anchors": ["src/parser.rs: Doc::next", "src/parser.rs: parse_text", "src/parser.rs: parse_content", "src/parser.rs: fix_unescaped_lt", "src/parser.rs: parse_tagend", "src/parser.rs: is_equal_chars", "src/parser.rs: Doc::clean_chars_return"]}
{"id": "C55", "title": "The nodes of a document tile its source", "statement": "With the auto-fix options off and no self-closed doctype, the source of a parsed document is the concatenation of its tokens, and the nodes in document order (each followed by its children and its end tag) are the nodes of these tokens, each with begin_at at the start of its token; end_at of texts, comments, CDATA sections and ordinary end tags is the end of the token, so the text between the two positions is the content with its delimiters; the root reaches from 0 to the length. Refuted for the rest: end_at of start tags and doctypes equals begin_at, and the end tag of a raw text element has both positions after itself.", "quantifier": "all ParseOptions without repairs, all inputs, all nodes", "why_tests_cant": "Tests check positions of a few nodes of a few documents; that no character is left out or counted twice is a statement about the whole sequence of nodes of every document.", "anchors": ["src/parser.rs: Doc::set_tag_end_info", "src/parser.rs: Doc::add_new_node", "src/parser.rs: parse_text", "src/parser.rs: parse_content", "src/parser.rs: parse_comment_or_cdata", "src/parser.rs: parse_tagend", "src/parser.rs: Doc::eof"]}
{"id": "C56", "title": "Documents can be put together and taken apart", "statement": "With the auto-fix options off and no self-closed doctypes: if s1 and s2 are accepted, so is s1++s2, its content is that of s1 followed by that of s2 (texts that meet become one), and its default rendering is the concatenation of the renderings, provided tag names are case-sensitive or every svg and math element of s1 is closed under the name it was opened with. Likewise an accepted text can be inserted between any two tokens outside svg and math, or put into any element other than svg and math. Conversely, content standing outside svg and math is accepted on its own, and in a document without CDATA (self-closing allowed) every node other than end tags is cut out of the source at begin_at by a text that is accepted on its own, holds exactly this node, and renders to what building the node in place gives. Refuted without the conditions.", "quantifier": "all ParseOptions without repairs, all inputs, all nodes", "why_tests_cant": "The state of the parser carried across the seam (open elements, svg/math mode, blank text to be relabelled) depends on all that was read before; only a proof excludes every interaction.", "anchors": ["src/parser.rs: Doc::next", "src/parser.rs: parse_tagend", "src/parser.rs: parse_exclamation_begin", "src/parser.rs: parse_wait", "src/parser.rs: Node::build"]}
{"id": "C57", "title": "Repeated minification settles after two rounds", "statement": "Parse a document and render it with any options other than decode_entity, encode_content and inner_html, parse the output, and so on: from the second output on nothing changes (the third output equals the second). If comments are kept and no element outside pre has a blank text as its only child, already the first output is a fixed point. One round is not enough in general, with kept comments as well as without.", "quantifier": "all ParseOptions without repairs and without allow_attr_key_starts_with_equal_sign, all RenderOptions with decode_entity, encode_content and inner_html off, all accepted inputs with readable output (see C50)", "why_tests_cant": "A counterexample depends on how blank texts, comments and the elements around them are arranged; fixed points of a few files say nothing about others.", "anchors": ["src/parser.rs: Node::build_node", "src/parser.rs: Node::build_tree", "src/parser.rs: Doc::parse"]}
{"id": "C58", "title": "Rendering is linear in the input", "statement": "On every tree, no render option makes the output longer than the rendering that leaves nothing out, apart from the growth of entities. A document parsed without repairs is at most half as long again when rendered (a quarter, if it has no doctype); both factors are reached. With any parse options the rendering of the document and of each of its nodes has a length linear in the source, and the work of rendering (characters read, pushed, moved, copied and compared, and nodes visited) is linear in the source and in the full rendering.", "quantifier": "all trees, all RenderOptions, all ParseOptions, all inputs, every bound K on the growth of entities", "why_tests_cant": "An example that blows up would have to be guessed: the factor depends on how attributes, quotes and slashes are packed and on the repairs, and quadratic work does not show on small files.", "anchors": ["src/parser.rs: Node::build_node", "src/parser.rs: Node::build_tree", "src/parser.rs: Node::build", "src/parser.rs: TagMeta::attrs_to_string"]}
{"id": "C59", "title": "What a reference keeps alive", "statement": "Whatever strong references to nodes of a parsed document exist, their counts are determined, a weak link can be upgraded exactly while a strong reference leads to its target, and dropping references ends with the counts of those that remain (with none, every node is freed). A Doc keeps its nodes alive and besides them at most one dropped end tag, so all its prev, parent and root links can be upgraded. Who drops the Doc and keeps one node keeps exactly the nodes below it; the parent and root links of that node dangle. Node::clone never panics in try_unwrap; afterwards the copy's own cell is gone, the nodes below it are alive, and nothing changes for the document.", "quantifier": "all inputs, all ParseOptions, all sets of held references, all nodes, every order of dropping", "why_tests_cant": "Reference counts are invisible in the tree and in its rendering; a leaked or dangling node only shows for particular combinations of held references.", "anchors": ["src/parser.rs: struct Node", "src/parser.rs: struct Doc", "src/parser.rs: impl Clone for Node", "src/parser.rs: parse_tagend", "src/parser.rs: Doc::add_new_node"]}
{"id": "C60", "title": "How deep rendering, copying, dropping and Debug output recurse", "statement": "The number of simultaneously active calls of build_tree is at most the number of levels of the tree, and equal to it when the whole tree is rendered. Copying a node needs one call more than the longest way down from it has steps, and so does dropping the last reference to it when nothing below is held; with held nodes below it needs at most as many. Showing a node with Debug needs as many calls of Node::fmt as copying it. Each level of a parsed document costs at least three characters of the text, seven without repairs; nothing else bounds the depth: for every n and all options, a text of 7n+1 characters is accepted whose rendering, copying, dropping and Debug output each need n+2 active calls.", "quantifier": "all inputs, all ParseOptions and RenderOptions, all nodes, all sets of held references, every depth", "why_tests_cant": "Recursion depth is invisible until the stack overflows, which depends on the platform and on inputs far deeper than a test suite contains.", "anchors": ["src/parser.rs: build_tree", "src/parser.rs: clone_node_with", "src/parser.rs: struct Node", "src/parser.rs: impl fmt::Debug for Node"]}
{"id": "C61", "title": "parse_file from path and bytes", "statement": "parse_file panics for a relative path that cannot be resolved and returns an I/O error exactly when the current directory is unknown or the file cannot be opened. A file that is read completely and is UTF-8 (the encoding of a sequence of Unicode scalar values; what is accepted is exactly this) behaves as Doc::parse on its text with line ends normalised, as in C19. If the reader fails or the bytes are not UTF-8, no document is returned: the lines before the first unreadable one are parsed, an error among them is returned with its kind and index, and otherwise parse_file panics.", "quantifier": "all file systems (answers of the five calls), all paths, all byte sequences, all ParseOptions", "why_tests_cant": "The cases depend on bytes at arbitrary places, on multi-byte sequences across line ends, on failing reads and on the state of the file system.", "anchors": ["src/parser.rs: Doc::parse_file"]}
{"id": "C62", "title": "Building a single node: outer html, inner html and text", "statement": "For a parsed document (no self-closed doctype; repaired documents included, unless a stray '<' was repaired or the input ends inside a start tag; always_close_void off if auto_fix_unclosed_tag is on) and any RenderOptions, Node::build of every node but the root and end tags gives: its outer html (the tokens of its content, changed as the options say in C50, printed); with inner_html the same without the element's own tags; asked for text, the texts and raw texts in it, with CDATA sections and doctypes kept as markup and comments left out. A comment asked for its own text gives its content. It panics exactly when text and inner_html are both asked for, when inner html is asked of anything but an element, and when text is asked of a text or doctype. Minified, white space is kept from a start tag `pre` to the next end tag `pre` within the node (so an inner pre ends the outer one, and `<pre/>` is ended by no tag of its own). render and render_text of the document do this for its only element, panic if there is none or more than one, and give nothing for the empty document. With default options the inner html of an element equals the rendering of the document parsed from the source text between its tags (repairs off, self-closing allowed, no CDATA), and its text is the text of the tokens between its tags.", "quantifier": "all ParseOptions without auto_fix_unescaped_lt, all inputs, all nodes, all RenderOptions, all entity tables", "why_tests_cant": "Options, node kinds, nesting and the place of the node in the document combine without bound.", "anchors": ["src/parser.rs: Node::build", "src/parser.rs: build_tree", "src/parser.rs: build_node", "src/parser.rs: render", "src/parser.rs: render_text"]}
{"id": "C63", "title": "Input that ends inside a start tag", "statement": "If the parser accepts an input that ends inside a start tag (auto_fix_unclosed_tag), the tree is the one it builds when `<a>` stands in the place of that tag, except for the element itself. If the input ends in the name, the element has no name, attributes or end tag. Otherwise it has the name and the attributes written completely before the end; a key that is cut off leaves an attribute with an empty key, a value that is cut off is dropped and its key kept, a '/' is dropped; the element is void by its name, never self-closed, marked as repaired, and gets an end tag even if it is void. Conversely, every accepted input that does not itself end inside a tag and has no self-closed doctype, followed by `<`, a name and any text in which the tag does not end (spelled out as a grammar), is accepted with that result. The attributes are determined by the text, and no such text has a complete tag at its start. After a self-closed doctype the parser panics instead.", "quantifier": "all options, all accepted inputs, all places inside a start tag at which the input can end", "why_tests_cant": "Any tag with any number of attributes, cut off at any character, in any context of open elements.", "anchors": ["src/parser.rs: parse_tag_name", "src/parser.rs: parse_tag_wait", "src/parser.rs: parse_tag_attr_key", "src/parser.rs: parse_tag_attr_value", "src/parser.rs: Doc::eof", "src/parser.rs: fix_unclosed_tag"]}
{"id": "C64", "title": "Replacing part of the source replaces that part of the tree", "statement": "With the auto-fix options off, self-closing allowed, no CDATA sections and no self-closed doctypes: let s be accepted, t its document node or any element with content in it, and s' any accepted text. Cut the source of n consecutive children of t out of s, beginning where the i-th child (or, after the last child, the end tag) begins, and put s' in that place: the result is accepted, its content is the content of s with exactly these children replaced by the content of s' (texts that meet become one), and its default rendering is that of s with the renderings of these children replaced by the rendering of s'. n = 0 inserts, an empty s' removes, and all children together give an element a new inner html. Refuted with CDATA or without self-closing: an svg element closed in another case leaves the parser in svg content, so what follows it cannot stand without it.", "quantifier": "all ParseOptions without repairs and with self-closing, all pairs of inputs, all nodes, all positions and numbers of children", "why_tests_cant": "Both texts, the place and the nesting around it are arbitrary.", "anchors": ["src/parser.rs: Doc::parse", "src/parser.rs: Doc::next", "src/parser.rs: Node::build", "src/parser.rs: render"]}
{"id": "C65", "title": "The Debug output shows exactly the tree", "statement": "The Debug output, compact ({:?}) and pretty ({:#?}), is unambiguous: values with the same text are the same, whatever characters are escaped. Every node of a parsed document has a text; the text lists the fields in order with the texts of its children and its end tag inside, indented in the pretty form, and for parent, root and document only whether they are set. Characters are shown as they are or by an escape: a backslash before a quote or backslash, \\0, \\t, \\n, \\r, or the number in hexadecimal digits. So two documents with the same text have the same tree, up to the iteration order of the attribute maps, and every rendering of one is the rendering of the other; nodes with the same text have the same tree and the same links set. Errors with the same text are at the same index, line and column and of the same kind, and parse options and render options with the same text are the same. Refuted: the text of an error does not tell whether an unclosed tag was named like a parser state (<Comment>) or the input ended in that state (<!-- abcd).", "quantifier": "all heaps and parsed documents, all iteration orders, all tables of printable characters, both forms", "why_tests_cant": "Whether quotes, separators, escapes and indentation can be confused depends on arbitrary content.", "anchors": ["src/parser.rs: impl fmt::Debug for Node", "src/error.rs: ParseError", "src/position.rs: CodeRegion", "src/config.rs: ParseOptions"]}
{"id": "C66", "title": "The case of tag names carries no meaning", "statement": "Without case_sensitive_tagname and with the auto-fix options off: take an accepted document and write any of the names of its start and end tags (and doctypes) in another case, each name on its own. With self-closing allowed and no CDATA sections there is a source that differs from the old one only in the case of letters, it is accepted, and its content is the old content with these names. With CDATA sections, or without self-closing, the same holds if all names are changed alike by a rule that keeps different letters different, such as swapping the case of every letter. For every render option (inner_html off) the renderings of two such documents differ only in case, and with lowercase_tagname they are equal if the doctype names are. Refuted: with CDATA sections, without self-closing, or with case_sensitive_tagname, names changed on their own can make a document invalid.", "quantifier": "all ParseOptions without case sensitivity and repairs, all inputs, all ways to write the names, all RenderOptions without inner_html", "why_tests_cant": "The document and the choice of case for each name are arbitrary.", "anchors": ["src/parser.rs: Doc::parse", "src/parser.rs: Doc::next", "src/parser.rs: is_equal_chars_ignore_case", "src/parser.rs: Node::build"]}
{"id": "C67", "title": "Changing the attributes of a tag changes nothing else", "statement": "With the auto-fix options off: take any node of an accepted document that is a start tag or doctype, and write another list of attributes between its name and its '>' (with the same self-closing slash). The edited source is accepted, its content is the old content with the new attributes at that place, and the default rendering changes only in the text of these attributes. The place in the source is where the node says it begins. Every list of attributes that can be written at all can be put there in canonical spelling, except that a doctype cannot lose its last attribute. Refuted: attributes whose value contains its own quote.", "quantifier": "all ParseOptions without repairs, all inputs, all nodes, all attribute lists and all their spellings", "why_tests_cant": "Document, place, attributes and spelling are arbitrary.", "anchors": ["src/parser.rs: Doc::parse", "src/parser.rs: parse_tag_wait", "src/parser.rs: parse_tag_attr_key", "src/parser.rs: parse_tag_attr_value", "src/parser.rs: Attr::build"]}
{"id": "C68", "title": "The element found by id is determined by the content", "statement": "With the auto-fix options off, get_element_by_id on an accepted document with content f returns a node that holds the last item of f (in document order) with that id, and returns nothing exactly if no item of f has it. Two documents with the same content, whatever their spelling and options, find nodes with the same content. A node that is given a new id in the source is then found by it.", "quantifier": "all ParseOptions without repairs, all inputs, all ids", "why_tests_cant": "Document and id are arbitrary, and the result is compared with the content as a whole.", "anchors": ["src/parser.rs: get_element", "src/parser.rs: DocHolder::get_element_by_id", "src/parser.rs: Attr::check_if_id", "src/parser.rs: Doc::check_tag_type_do"]}
{"id": "C69", "title": "Tags can be put around nodes, taken away and changed in the source", "statement": "With the auto-fix options off and self-closing tags allowed, in a document without CDATA: writing a start tag and a fitting end tag around any run of children of the document or of an element makes them the children of a new element at that place. Deleting the two tags of an element puts its children in its place (texts that meet become one). Replacing both tags gives the element the new name and attributes and keeps its children. In each case nothing else in the document or its rendering changes. The condition on self-closing tags is needed, and the tags of raw text elements cannot be changed in this way.", "quantifier": "all ParseOptions without repairs and with allow_self_closing, all inputs, all places, all start and end tags that can be written", "why_tests_cant": "The document, the place, the number of children and the tags are arbitrary.", "anchors": ["src/parser.rs: parse_html_tag", "src/parser.rs: parse_html_exclamation_or_tag", "src/parser.rs: Doc::parse", "src/parser.rs: Node::build_node"]}
{"id": "C70", "title": "Render options can be applied one after the other", "statement": "With the auto-fix options off and attribute keys not starting with =, for a document readable under the options of the first pass: rendering, parsing the output and rendering that with further options gives the same as rendering once with the options of both, if the second pass neither minifies spaces nor decodes entities, or if the first pass does neither and keeps comments, and encode_content is not used twice. The order of two such passes does not matter. The conditions are needed: removing comments first lets spaces or parts of an entity meet, which a later pass then changes.", "quantifier": "all ParseOptions without repairs and with allow_attr_key_starts_with_equal_sign off, all inputs, all pairs of RenderOptions within the conditions", "why_tests_cant": "All pairs of option sets on all documents; tests try few options and render once.", "anchors": ["src/parser.rs: Node::build_node", "src/parser.rs: Node::build", "src/parser.rs: Doc::render", "src/parser.rs: Doc::parse"]}
