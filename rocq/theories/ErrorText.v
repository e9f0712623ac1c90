(** The text of errors: src/error.rs and the Display of src/position.rs. *)
From Coq Require Import String.
From Verif Require Export Position.
Local Open Scope string_scope.
Local Open Scope list_scope.

(** Display of usize: decimal digits. *)
Fixpoint digits_fuel (fuel n : nat) : list char :=
  match fuel with
  | O => []
  | S f => if Nat.ltb n 10 then [(48 + N.of_nat n)%N]
           else digits_fuel f (Nat.div n 10) ++ [(48 + N.of_nat (Nat.modulo n 10))%N]
  end.
Definition digits (n : nat) : list char := digits_fuel (S n) n.

(** src/position.rs 58-63. *)
Definition region_text (r : code_region) : list char :=
  str "[line:" ++ digits (r_line r) ++ str ",col:" ++ digits (r_col r) ++ str ",index:" ++ digits (r_index r) ++ str "]".

(** The derived Debug of CodeTypeIn, src/parser.rs 169-184. *)
Definition code_text (c : code_type_in) : list char :=
  match c with
  | CAbstractRoot => str "AbstractRoot" | CUnkown => str "Unkown" | CUnkownTag => str "UnkownTag"
  | CTag => str "Tag" | CTagEnd => str "TagEnd" | CExclamationBegin => str "ExclamationBegin"
  | CComment => str "Comment" | CHTMLDOCTYPE => str "HTMLDOCTYPE" | CEscapeableRawText => str "EscapeableRawText"
  | CHTMLScript => str "HTMLScript" | CHTMLStyle => str "HTMLStyle" | CXMLCDATA => str "XMLCDATA"
  | CTextNode => str "TextNode"
  end.
(** src/error.rs 28-58, the kinds the parser uses. *)
Definition kind_text (k : error_kind) : list char :=
  match k with
  | EWrongTag s => str "wrong tag <" ++ s
  | EWrongEndTag s => str "wrong end tag </" ++ s
  | EUnclosedTag s => str "the tag '" ++ s ++ str "' is not closed"
  | EUnclosedCode c => str "the tag '" ++ code_text c ++ str "' is not closed"
  | EWrongHtmlDoctype c => str "unexpected character '" ++ [c] ++ str "' in html doctype decalaration"
  | EUnrecognizedTag a b => str "unrecognized tag '" ++ a ++ str "', do you mean '" ++ b ++ str "'"
  | EWrongCaseSensitive s =>
      str "because the config of 'case-sensitive', the tag '" ++ s ++ str "' is not matched correctly."
  | EWrongSelfClosing s =>
      str "wrong self-closing tag '" ++ s ++ str "',make sure you set the config allow self-closing."
  | ECommonCdataSub => str "<![CDATA tag can in sub node"
  | ECommonCdataOutside => str "wrong <![CDATA tag can only used in Svg or MathML"
  end.
(** src/error.rs 17-23: Display of ParseError. *)
Definition error_text (k : error_kind) (r : code_region) : list char := region_text r ++ kind_text k.
