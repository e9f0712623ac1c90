(** Data types of the parser: options, attributes, tag meta, nodes. *)
From Verif Require Export Chars.

(** src/config.rs 1-9. *)
Record parse_options := mkPO {
  case_sensitive_tagname : bool;
  allow_attr_key_starts_with_equal_sign : bool;
  allow_self_closing : bool;
  auto_fix_unclosed_tag : bool;
  auto_fix_unexpected_endtag : bool;
  auto_fix_unescaped_lt : bool
}.
(** [#[derive(Default)]] of src/config.rs 1. *)
Definition default_po : parse_options := mkPO false false false false false false.

(** src/config.rs 11-22. *)
Record render_options := mkRO {
  minify_spaces : bool;
  lowercase_tagname : bool;
  remove_endtag_space : bool;
  remove_attr_quote : bool;
  remove_comment : bool;
  always_close_void : bool;
  inner_html : bool;
  decode_entity : bool;
  encode_content : bool
}.
Definition default_ro : render_options :=
  mkRO false false false false false false false false false.

(** src/parser.rs 156-167. *)
Inductive node_type :=
  | NAbstractRoot | NHTMLDOCTYPE | NComment | NText | NSpacesBetweenTag
  | NTag | NTagEnd | NXMLCDATA.

(** derived [PartialEq] of [NodeType]. *)
Definition node_type_eqb (a b : node_type) : bool :=
  match a, b with
  | NAbstractRoot, NAbstractRoot | NHTMLDOCTYPE, NHTMLDOCTYPE | NComment, NComment
  | NText, NText | NSpacesBetweenTag, NSpacesBetweenTag | NTag, NTag
  | NTagEnd, NTagEnd | NXMLCDATA, NXMLCDATA => true
  | _, _ => false
  end.

(** src/parser.rs 169-184. *)
Inductive code_type_in :=
  | CAbstractRoot | CUnkown | CUnkownTag | CTag | CTagEnd | CExclamationBegin | CComment
  | CHTMLDOCTYPE | CEscapeableRawText | CHTMLScript | CHTMLStyle | CXMLCDATA | CTextNode.

(** src/parser.rs 274-285.  [AttrData { content }] is flattened to its content. *)
Record attr := mkAttr {
  a_key : option (list char);
  a_value : option (list char);
  a_quote : option char;
  a_need_quote : bool
}.

(** src/parser.rs 329-332. *)
Inductive name_case := Upper | Lower.

(** src/parser.rs 341-350. *)
Inductive tag_code_in := TWait | TKey | TKeyEnd | TWaitValue | TValue | TValueEnd.
Definition tag_code_in_eqb (a b : tag_code_in) : bool :=
  match a, b with
  | TWait, TWait | TKey, TKey | TKeyEnd, TKeyEnd | TWaitValue, TWaitValue
  | TValue, TValue | TValueEnd, TValueEnd => true
  | _, _ => false
  end.

(** src/parser.rs 352-361.  The [HashMap<String, usize>] is an association list. *)
Record tag_meta := mkMeta {
  m_code_in : tag_code_in;
  m_is_void : bool;
  m_self_closed : bool;
  m_auto_fix : bool;
  m_name : list char;
  m_attrs : list attr;
  m_lc_name_map : list (list char * nat)
}.

(** A reference to a node ([Rc<RefCell<Node>>] or [Weak<..>]) is an index into the heap. *)
Definition nid := nat.

(** src/parser.rs 431-468.  [document] (weak link to the Doc, set on the root by
    [into_root]) is omitted: nothing modelled reads it. *)
Record node := mkNode {
  n_index : nat;
  n_type : node_type;
  n_begin_at : nat;
  n_end_at : nat;
  n_end_tag : option nid;
  n_prev : option nid;
  n_parent : option nid;
  n_root : option nid;
  n_content : option (list char);
  n_childs : option (list nid);
  n_meta : option tag_meta
}.

(** src/parser.rs 948-952. *)
Inductive special_tag := MathML | Svg.

(** src/error.rs 28-58.  Only the kinds that are ever constructed
    (src/parser.rs) are listed; [CommonError] carries which of its two literal messages. *)
Inductive error_kind :=
  | EWrongTag (s : list char)
  | EWrongEndTag (s : list char)
  | EUnclosedTag (s : list char)
  | EUnclosedCode (c : code_type_in)      (* UnclosedTag(format!("{:?}", code_in)) *)
  | EWrongHtmlDoctype (c : char)
  | EUnrecognizedTag (a b : list char)
  | EWrongCaseSensitive (s : list char)
  | EWrongSelfClosing (s : list char)
  | ECommonCdataSub                        (* "<![CDATA tag can in sub node" *)
  | ECommonCdataOutside.                   (* "wrong <![CDATA tag can only used in Svg or MathML" *)

(** Why a panic occurs (the failing [unwrap]/[expect]/[panic!]). *)
Inductive panic_kind :=
  | PChainEmpty          (* chain_nodes.last().unwrap() *)
  | PMetaMissing         (* an expect() on a node's meta *)
  | PAttrsEmpty          (* attrs.last_mut().expect / attrs.len() - 1 *)
  | PDetectMissing       (* detect.expect in parse_content_tag *)
  | PUnreachable         (* unreachable!() *)
  | PUpgrade             (* prev_node.upgrade().expect("") *)
  | PContentMissing      (* an expect() on a node's content, in the renderer *)
  | PInnerHtml           (* the renderer's explicit panics about inner_html *)
  | PUnderflow           (* usize subtraction below zero (debug build) *)
  | PFuel.               (* model only: recursion budget exhausted *)

(** Result of a fallible operation: Ok, Err (kind, character index), or panic. *)
Inductive res (A : Type) :=
  | ROk (a : A)
  | RErr (k : error_kind) (idx : nat)
  | RPanic (p : panic_kind).
Arguments ROk {A} a.
Arguments RErr {A} k idx.
Arguments RPanic {A} p.

Definition rbind {A B} (r : res A) (f : A -> res B) : res B :=
  match r with
  | ROk a => f a
  | RErr k i => RErr k i
  | RPanic p => RPanic p
  end.
Notation "'do' x <- r ; k" := (rbind r (fun x => k))
  (at level 200, x name, r at level 100, k at level 200, right associativity).
Notation "'do' ' x <- r ; k" := (rbind r (fun x => k))
  (at level 200, x strict pattern, r at level 100, k at level 200, right associativity).

(** src/parser.rs 498-505: Node::new ([..Default::default()] for the other fields). *)
Definition node_new (t : node_type) (code_at : nat) : node :=
  mkNode 0 t code_at code_at None None None None None None None.

(** Field updates ([node.field = v]). *)
Definition nset_index v n := mkNode v (n_type n) (n_begin_at n) (n_end_at n) (n_end_tag n)
  (n_prev n) (n_parent n) (n_root n) (n_content n) (n_childs n) (n_meta n).
Definition nset_type v n := mkNode (n_index n) v (n_begin_at n) (n_end_at n) (n_end_tag n)
  (n_prev n) (n_parent n) (n_root n) (n_content n) (n_childs n) (n_meta n).
Definition nset_begin_at v n := mkNode (n_index n) (n_type n) v (n_end_at n) (n_end_tag n)
  (n_prev n) (n_parent n) (n_root n) (n_content n) (n_childs n) (n_meta n).
Definition nset_end_at v n := mkNode (n_index n) (n_type n) (n_begin_at n) v (n_end_tag n)
  (n_prev n) (n_parent n) (n_root n) (n_content n) (n_childs n) (n_meta n).
Definition nset_end_tag v n := mkNode (n_index n) (n_type n) (n_begin_at n) (n_end_at n) v
  (n_prev n) (n_parent n) (n_root n) (n_content n) (n_childs n) (n_meta n).
Definition nset_prev v n := mkNode (n_index n) (n_type n) (n_begin_at n) (n_end_at n) (n_end_tag n)
  v (n_parent n) (n_root n) (n_content n) (n_childs n) (n_meta n).
Definition nset_parent v n := mkNode (n_index n) (n_type n) (n_begin_at n) (n_end_at n) (n_end_tag n)
  (n_prev n) v (n_root n) (n_content n) (n_childs n) (n_meta n).
Definition nset_root v n := mkNode (n_index n) (n_type n) (n_begin_at n) (n_end_at n) (n_end_tag n)
  (n_prev n) (n_parent n) v (n_content n) (n_childs n) (n_meta n).
Definition nset_content v n := mkNode (n_index n) (n_type n) (n_begin_at n) (n_end_at n) (n_end_tag n)
  (n_prev n) (n_parent n) (n_root n) v (n_childs n) (n_meta n).
Definition nset_childs v n := mkNode (n_index n) (n_type n) (n_begin_at n) (n_end_at n) (n_end_tag n)
  (n_prev n) (n_parent n) (n_root n) (n_content n) v (n_meta n).
Definition nset_meta v n := mkNode (n_index n) (n_type n) (n_begin_at n) (n_end_at n) (n_end_tag n)
  (n_prev n) (n_parent n) (n_root n) (n_content n) (n_childs n) v.

Definition mset_code_in v m := mkMeta v (m_is_void m) (m_self_closed m) (m_auto_fix m)
  (m_name m) (m_attrs m) (m_lc_name_map m).
Definition mset_self_closed v m := mkMeta (m_code_in m) (m_is_void m) v (m_auto_fix m)
  (m_name m) (m_attrs m) (m_lc_name_map m).
Definition mset_auto_fix v m := mkMeta (m_code_in m) (m_is_void m) (m_self_closed m) v
  (m_name m) (m_attrs m) (m_lc_name_map m).
Definition mset_attrs v m := mkMeta (m_code_in m) (m_is_void m) (m_self_closed m) (m_auto_fix m)
  (m_name m) v (m_lc_name_map m).
Definition mset_lc_name_map v m := mkMeta (m_code_in m) (m_is_void m) (m_self_closed m) (m_auto_fix m)
  (m_name m) (m_attrs m) v.
