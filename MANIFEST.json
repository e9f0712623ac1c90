{
 "claims": [
  {
   "property": "C01",
   "status": "proved",
   "theorems": [
    "C01_panic_shapes",
    "C01_open_name_refuted",
    "C01_doctype_refuted",
    "C01_cdata_refuted"
   ],
   "note": "The three panicking shapes are shown real by witnesses."
  },
  {
   "property": "C02",
   "status": "proved",
   "theorems": [
    "C02_parsed_documents_render",
    "C02_open_name_refuted"
   ],
   "note": "For every node of every parsed document; the exception is real (witness)."
  },
  {
   "property": "C03",
   "status": "proved",
   "theorems": [
    "C03_accepted_is_source",
    "C03_slash_doctype_refuted"
   ],
   "note": "All inputs; the exception (a self-closed doctype, which the parser takes for an end of element) is witnessed."
  },
  {
   "property": "C04",
   "status": "proved",
   "theorems": [
    "C04_source_is_accepted",
    "C04_content_determined"
   ],
   "note": "All spellings of all nesting token sequences, for all parse options."
  },
  {
   "property": "C05",
   "status": "proved",
   "theorems": [
    "C05_render_parse",
    "C05_empty_doctype_refuted",
    "C05_equal_sign_refuted"
   ],
   "note": "Needs two more conditions than first stated, both witnessed: every doctype has an attribute, and attribute keys may not start with =."
  },
  {
   "property": "C06",
   "status": "proved",
   "theorems": [
    "C06_canonical",
    "C06_canonical_source"
   ],
   "note": ""
  },
  {
   "property": "C07",
   "status": "proved",
   "theorems": [
    "C07_text_kept"
   ],
   "note": ""
  },
  {
   "property": "C08",
   "status": "proved",
   "theorems": [
    "C08_raw_in_context",
    "C08_raw_kept",
    "C08_raw_origin",
    "C08_raw_has_content",
    "C08_stray_lt_refuted"
   ],
   "note": "All options. With auto_fix_unescaped_lt a stray < after the element becomes its child: witness."
  },
  {
   "property": "C09",
   "status": "proved",
   "theorems": [
    "C09_comment_in_context",
    "C09_comment_kept",
    "C09_comment_origin",
    "C09_empty_comment_refuted"
   ],
   "note": "The empty comment is shown unclosed by a witness."
  },
  {
   "property": "C10",
   "status": "proved",
   "theorems": [
    "C10_attributes_kept",
    "C10_attributes_written"
   ],
   "note": "For a document made of one tag; C03 and C04 give the same inside any document."
  },
  {
   "property": "C11",
   "status": "proved",
   "theorems": [
    "C11_all_elements_closed",
    "C11_no_slash_doctype",
    "C11_end_tag_names",
    "C11_leaf_elements",
    "C11_doctype_refuted",
    "C11_void_child_refuted"
   ],
   "note": "All options; the two exceptions (self-closed doctype, repaired stray <) are witnessed."
  },
  {
   "property": "C12",
   "status": "proved",
   "theorems": [
    "C12_permissive",
    "C12_raw_case_refuted",
    "C12_dropped_end_refuted"
   ],
   "note": "With two provisos, both shown necessary by witnesses: raw text names in lower case when case sensitivity is switched off, and auto_fix_unclosed_tag unchanged when unmatched end tags are dropped already."
  },
  {
   "property": "C13",
   "status": "proved",
   "theorems": [
    "C13_as_if_closed",
    "C13_strictly_accepted",
    "C13_same_rendering",
    "C13_minified_refuted",
    "C13_always_close_void_refuted",
    "C13_cut_refuted"
   ],
   "note": "The rendering part excludes minify_spaces and always_close_void, and input that ends inside a start tag; witnesses show each exclusion is needed."
  },
  {
   "property": "C14",
   "status": "proved",
   "theorems": [
    "C14_same_stream_same_rendering",
    "C14_unmatched_end_tag",
    "C14_open_elements",
    "C14_after_raw_refuted",
    "C14_minified_refuted"
   ],
   "note": "Without auto_fix_unescaped_lt for all states between tags; with it, states after a raw text element are excluded (refuted there)."
  },
  {
   "property": "C15",
   "status": "proved",
   "theorems": [
    "C15_stray_lt",
    "C15_after_raw_refuted",
    "C15_last_refuted"
   ],
   "note": "For all states between tags except directly after a raw text element (refuted there)."
  },
  {
   "property": "C16",
   "status": "proved",
   "theorems": [
    "C16_error_kinds"
   ],
   "note": ""
  },
  {
   "property": "C17",
   "status": "proved",
   "theorems": [
    "C17_error_position"
   ],
   "note": ""
  },
  {
   "property": "C18",
   "status": "proved",
   "theorems": [
    "C18_line_column",
    "C18_column_unique"
   ],
   "note": ""
  },
  {
   "property": "C19",
   "status": "proved",
   "theorems": [
    "C19_parse_file",
    "C19_file_line_refuted"
   ],
   "note": "Acceptance, tree, error kind and index proved equal; the line number part is refuted with a witness."
  },
  {
   "property": "C20",
   "status": "proved",
   "theorems": [
    "C20_tree"
   ],
   "note": "End tags that close nothing (auto fix) are outside the tree."
  },
  {
   "property": "C21",
   "status": "proved",
   "theorems": [
    "C21_links",
    "C21_stray_lt_refuted"
   ],
   "note": "The text nodes made from a stray < have no parent link: witness."
  },
  {
   "property": "C22",
   "status": "proved",
   "theorems": [
    "C22_attribute_map"
   ],
   "note": "Also for tags cut off by the end of the input, unless inside an attribute name."
  },
  {
   "property": "C23",
   "status": "proved",
   "theorems": [
    "C23_get_element_by_id"
   ],
   "note": ""
  },
  {
   "property": "C24",
   "status": "proved",
   "theorems": [
    "C24_positions"
   ],
   "note": ""
  },
  {
   "property": "C25",
   "status": "proved",
   "theorems": [
    "C25_parsed_remove_comment",
    "C25_remove_comment"
   ],
   "note": "For all trees whose comments are leaves, and for every node of every parsed document."
  },
  {
   "property": "C26",
   "status": "proved",
   "theorems": [
    "C26_collapse_runs",
    "C26_collapse_unique",
    "C26_minify_idempotent"
   ],
   "note": "minify_text collapses runs (relational spec); the tree-level statement is C28_minify_outside_pre."
  },
  {
   "property": "C27",
   "status": "proved",
   "theorems": [
    "C27_parsed_minify_visible",
    "C27_minify_keeps_visible_tree"
   ],
   "note": "For trees and for every node of every parsed document that renders."
  },
  {
   "property": "C28",
   "status": "proved",
   "theorems": [
    "C28_parsed_minify",
    "C28_minify_outside_pre",
    "C28_nested_pre_refuted",
    "C28_selfclosed_pre_refuted"
   ],
   "note": "Nested and self-closed pre are refuted with witnesses."
  },
  {
   "property": "C29",
   "status": "proved",
   "theorems": [
    "C29_without_entities",
    "C29_minify_decode_refuted",
    "C29_minify_decode"
   ],
   "note": "The exact effect is proved for all texts; that only adjacent whitespace is merged is refuted with a witness."
  },
  {
   "property": "C30",
   "status": "proved",
   "theorems": [
    "C30_lowercase_tagname"
   ],
   "note": ""
  },
  {
   "property": "C31",
   "status": "proved",
   "theorems": [
    "C31_inner_html"
   ],
   "note": ""
  },
  {
   "property": "C32",
   "status": "proved",
   "theorems": [
    "C32_remove_attr_quote_tree",
    "C32_reparse",
    "C32_quotes_needed",
    "C32_space_refuted",
    "C32_empty_refuted",
    "C32_rejected_refuted"
   ],
   "note": "The effect on trees, reparsing of whole documents, and that the condition is needed (for a single element). Values that need quotes are refuted with three witnesses."
  },
  {
   "property": "C33",
   "status": "proved",
   "theorems": [
    "C33_encode_content"
   ],
   "note": ""
  },
  {
   "property": "C34",
   "status": "proved",
   "theorems": [
    "C34_parsed_render_text",
    "C34_render_text"
   ],
   "note": ""
  },
  {
   "property": "C35",
   "status": "proved",
   "theorems": [
    "C35_parsed_close_void",
    "C35_always_close_void",
    "C35_no_auto_fix_no_effect",
    "C35_void_elements_refuted"
   ],
   "note": "The name of the option is refuted: void elements are not closed."
  },
  {
   "property": "C36",
   "status": "proved",
   "theorems": [
    "C36_deep_copy",
    "C36_same_rendering",
    "C36_end_tag_parent_refuted"
   ],
   "note": "Every node of every parsed document. The copied end tags get no parent link, unlike parsed ones: witness."
  },
  {
   "property": "C37",
   "status": "proved",
   "theorems": [
    "C37_is_document"
   ],
   "note": ""
  },
  {
   "property": "C38",
   "status": "proved",
   "theorems": [
    "C38_void_names",
    "C38_raw_text_names",
    "C38_special_names",
    "C38_allow_insert",
    "C38_allow_insert_case",
    "C38_allow_insert_refuted"
   ],
   "note": "The exact table of allow_insert; case-sensitivity for title and textarea is shown by a witness."
  },
  {
   "property": "C39",
   "status": "proved",
   "theorems": [
    "C39_create_text_node"
   ],
   "note": ""
  },
  {
   "property": "C40",
   "status": "proved",
   "theorems": [
    "C40_value_chars_need_no_quote",
    "C40_key_chars",
    "C40_non_characters"
   ],
   "note": ""
  },
  {
   "property": "C41",
   "status": "proved",
   "theorems": [
    "C41_text_content"
   ],
   "note": ""
  },
  {
   "property": "C42",
   "status": "proved",
   "theorems": [
    "C42_self_closing_allowed",
    "C42_inside_svg_refuted"
   ],
   "note": "Inside svg/math is refuted with two witnesses."
  },
  {
   "property": "C43",
   "status": "proved",
   "theorems": [
    "C43_end_tag_spelling"
   ],
   "note": ""
  },
  {
   "property": "C44",
   "status": "proved",
   "theorems": [
    "C44_remove_endtag_space"
   ],
   "note": ""
  },
  {
   "property": "C45",
   "status": "proved",
   "theorems": [
    "C45_complete_trees_render"
   ],
   "note": ""
  },
  {
   "property": "C46",
   "status": "proved",
   "theorems": [
    "C46_unambiguous",
    "C46_content_unique"
   ],
   "note": ""
  },
  {
   "property": "C47",
   "status": "proved",
   "theorems": [
    "C47_nodes_are_tokens"
   ],
   "note": ""
  },
  {
   "property": "C48",
   "status": "proved",
   "theorems": [
    "C48_message",
    "C48_numeral_unique",
    "C48_unambiguous",
    "C48_kinds",
    "C48_kind_refuted"
   ],
   "note": "The exceptions on kinds are real: <Comment> unclosed and an unfinished comment give the same message (witness)."
  },
  {
   "property": "C49",
   "status": "proved",
   "theorems": [
    "C49_fail_fast",
    "C49_panic_fast"
   ],
   "note": ""
  },
  {
   "property": "C50",
   "status": "proved",
   "theorems": [
    "C50_rendered_output",
    "C50_output_parses",
    "C50_stable",
    "C50_minify_twice_refuted",
    "C50_decoded_refuted",
    "C50_encode_twice_refuted",
    "C50_lowercase_svg_refuted",
    "C50_lowercase_raw_refuted",
    "C50_doctype_refuted"
   ],
   "note": "Each condition is shown necessary by a witness. With minify_spaces, pre elements may not be nested or without end tag (see C28)."
  },
  {
   "property": "C51",
   "status": "proved",
   "theorems": [
    "C51_parse",
    "C51_parse_file",
    "C51_render",
    "C51_build",
    "C51_element",
    "C51_clone"
   ],
   "note": "The lifetimes of temporaries are those of edition 2018, as written down in Borrow.v."
  },
  {
   "property": "C52",
   "status": "proved",
   "theorems": [
    "C52_repaired_by_hand",
    "C52_same_rendering",
    "C52_rendering_needs_no_repair"
   ],
   "note": "Input cut off inside a tag (see C63), self-closed doctypes and < after raw text are excluded; witnesses are C13_cut_refuted, C03_slash_doctype_refuted, C15_after_raw_refuted."
  },
  {
   "property": "C53",
   "status": "proved",
   "theorems": [
    "C53_memory",
    "C53_freed",
    "C53_depth",
    "C53_depth_unbounded"
   ],
   "note": "All nodes ever made are counted, also those already dropped. Characters are counted, not bytes or the sizes of the structs."
  },
  {
   "property": "C54",
   "status": "proved",
   "theorems": [
    "C54_linear",
    "C54_quadratic",
    "C54_unescaped_lt_quadratic",
    "C54_endtag_quadratic"
   ],
   "note": "Work is counted as described in Cost.v. The linear bound holds for the options without text repair; for the others the quadratic bound is tight."
  },
  {
   "property": "C55",
   "status": "proved",
   "theorems": [
    "C55_places",
    "C55_slices",
    "C55_tag_end_refuted",
    "C55_raw_end_refuted"
   ],
   "note": "Restricted to the repairs being off, as the texts repaired in place have no single place in the source. That end_at of every node is its end is false, see the refuted theorems."
  },
  {
   "property": "C56",
   "status": "proved",
   "theorems": [
    "C56_concat",
    "C56_insert",
    "C56_wrap",
    "C56_part",
    "C56_extract",
    "C56_concat_refuted",
    "C56_wrap_refuted",
    "C56_extract_refuted"
   ],
   "note": "Restricted to the repairs being off. The conditions on svg, math, CDATA and self-closing are needed, see the refuted theorems."
  },
  {
   "property": "C57",
   "status": "proved",
   "theorems": [
    "C57_settles_after_two",
    "C57_settles_after_one",
    "C57_one_with_comments_refuted"
   ],
   "note": "Under the conditions of C50 for the output to be readable at all; that these are needed is shown there. decode_entity and encode_content change the text again each time (C50_encode_twice_refuted)."
  },
  {
   "property": "C58",
   "status": "proved",
   "theorems": [
    "C58_options_shorten",
    "C58_no_entities",
    "C58_strict",
    "C58_doctype_reached",
    "C58_element_reached",
    "C58_linear_size",
    "C58_linear_work",
    "C58_work"
   ],
   "note": "The growth K of entities is a parameter: decoding and encoding belong to the crate htmlentity; K = 1 if both options are off. The time of that crate is not counted."
  },
  {
   "property": "C59",
   "status": "proved",
   "theorems": [
    "C59_counts",
    "C59_upgrade",
    "C59_drop",
    "C59_drop_all",
    "C59_doc_alive",
    "C59_doc_links",
    "C59_end_root",
    "C59_part",
    "C59_node_clone"
   ],
   "note": "Drop for Rc, Weak::upgrade and Rc::try_unwrap of the standard library are modelled by counts. References held by Rust locals in the middle of a function are not counted."
  },
  {
   "property": "C60",
   "status": "proved",
   "theorems": [
    "C60_render",
    "C60_clone",
    "C60_drop",
    "C60_bound",
    "C60_strict",
    "C60_reached",
    "C60_debug",
    "C60_debug_reached"
   ],
   "note": "Counts calls, not bytes of stack."
  },
  {
   "property": "C61",
   "status": "proved",
   "theorems": [
    "C61_utf8",
    "C61_readable",
    "C61_unreadable",
    "C61_good_part_unique",
    "C61_path",
    "C61_path_cases"
   ],
   "note": "The file system is an argument: which paths resolve and open, the bytes read, and whether reading then fails."
  },
  {
   "property": "C62",
   "status": "proved",
   "theorems": [
    "C62_node_content",
    "C62_doc_content",
    "C62_strict_orderly",
    "C62_node",
    "C62_document",
    "C62_as_shown",
    "C62_inner_source",
    "C62_text_tokens"
   ],
   "note": "Side condition `orderly`: no self-closed doctype, no repaired stray `<`, input not ending inside a tag; the other repairs may happen. Inner html as source text: repairs off."
  },
  {
   "property": "C63",
   "status": "proved",
   "theorems": [
    "C63_cut_short",
    "C63_any_cut",
    "C63_attributes_unique",
    "C63_no_end",
    "C63_completed_refuted",
    "C63_void_refuted",
    "C63_doctype_refuted"
   ],
   "note": "The converse needs that no doctype is self-closed; without it, C63_doctype_refuted (a panic)."
  },
  {
   "property": "C64",
   "status": "proved",
   "theorems": [
    "C64_splice",
    "C64_remove",
    "C64_set_inner",
    "C64_cdata_refuted",
    "C64_self_closing_refuted"
   ],
   "note": "The conditions on CDATA and self-closing are needed, see the refuted theorems."
  },
  {
   "property": "C65",
   "status": "proved",
   "theorems": [
    "C65_unambiguous",
    "C65_escapes",
    "C65_shown",
    "C65_spelled",
    "C65_nodes",
    "C65_documents",
    "C65_errors",
    "C65_parse_options",
    "C65_render_options",
    "C65_unclosed_refuted"
   ],
   "note": "core::fmt is modelled as far as used; the escape table and map order are arguments."
  },
  {
   "property": "C66",
   "status": "proved",
   "theorems": [
    "C66_recase",
    "C66_respell",
    "C66_swap_case",
    "C66_render",
    "C66_cdata_refuted",
    "C66_self_closing_refuted",
    "C66_case_sensitive_refuted"
   ],
   "note": "Conditions needed, see the refuted theorems."
  },
  {
   "property": "C67",
   "status": "proved",
   "theorems": [
    "C67_attributes",
    "C67_canonical",
    "C67_quote_refuted",
    "C67_doctype_refuted"
   ],
   "note": "Conditions needed, see the refuted theorems."
  },
  {
   "property": "C68",
   "status": "proved",
   "theorems": [
    "C68_content",
    "C68_same",
    "C68_new_id",
    "C68_open_doctypes"
   ],
   "note": ""
  },
  {
   "property": "C69",
   "status": "proved",
   "theorems": [
    "C69_wrap",
    "C69_unwrap",
    "C69_retag",
    "C69_unwrap_refuted",
    "C69_raw_refuted"
   ],
   "note": ""
  },
  {
   "property": "C70",
   "status": "proved",
   "theorems": [
    "C70_then",
    "C70_before",
    "C70_order",
    "C70_minify_refuted",
    "C70_decode_refuted"
   ],
   "note": "Conditions needed, see the refuted theorems and, for encode_content, C50_encode_twice_refuted."
  }
 ]
}