(** Property theorems about positions, files, is_document and names (C18, C19, C37-C40). *)
From Coq Require Import String.
From Verif Require Import Api SpecText SpecRender SpecMisc TextProofs NameProofs MiscProofs TreeCheck Tests.
Local Open Scope string_scope.
Local Open Scope list_scope.

(** ** C18 *)
Theorem C18_line_column : forall ctx i,
  let r := from_context_index ctx i in
  let upto := firstn (S i) ctx in
  r_index r = i /\
  r_line r = 1 + line_breaks upto /\
  exists l, last_line upto l /\ r_col r = length l.
Proof. exact region_correct. Qed.
Print Assumptions C18_line_column.

Theorem C18_column_unique : forall s l1 l2, last_line s l1 -> last_line s l2 -> l1 = l2.
Proof. exact last_line_unique. Qed.
Print Assumptions C18_column_unique.

Example C18_example :
  from_context_index ([97; 13; 10; 98; 10; 13; 99; 100; 101]%N) 7 = mkRegion 7 4 2 /\
  line_breaks (firstn 8 [97; 13; 10; 98; 10; 13; 99; 100; 101]%N) = 3.
Proof. split; vm_compute; reflexivity. Qed.

(** ** C19 *)
Theorem C19_parse_file : forall opts text,
  same_outcome (parse_file opts text) (parse opts (file_text text)).
Proof. exact parse_file_spec. Qed.
Print Assumptions C19_parse_file.
Example C19_example :
  file_text (str "<p>" ++ [13; 10]%N ++ str "x</p>") = str "<p>" ++ [10%N] ++ str "x</p>" ++ [10%N] /\
  (exists d, parse default_po (file_text (str "<p>" ++ [13; 10]%N ++ str "x</p>")) = Parsed d).
Proof. split; [vm_compute; reflexivity|eexists; vm_compute; reflexivity]. Qed.

(** The line reported by parse_file is not the line of the file. *)
Theorem C19_file_line_refuted : exists text k r r',
  parse_file default_po text = Failed k r /\ parse default_po (file_text text) = Failed k r' /\
  r_index r = r_index r' /\ r_line r = 1 /\ r_line r' = 3.
Proof.
  exists (str "a" ++ [10%N] ++ str "b" ++ [10%N] ++ str "</p>" ++ [10%N]).
  eexists. eexists. eexists. vm_compute. repeat split.
Qed.
Print Assumptions C19_file_line_refuted.

(** ** C37 *)
Theorem C37_is_document : forall t,
  (t_type t = NAbstractRoot ->
     forall ks, t_childs t = Some ks ->
     (fst (is_document t) = true <-> exists k, In k ks /\ is_html_tag k) /\
     (fst (is_document t) = true ->
        (snd (is_document t) = true <->
         exists a h b, ks = a ++ h :: b /\ is_html_tag h /\ Forall ignorable a /\ Forall ignorable b)) /\
     (fst (is_document t) = false -> snd (is_document t) = true)) /\
  (t_type t <> NAbstractRoot \/ t_childs t = None -> is_document t = (false, true)).
Proof. exact is_document_spec. Qed.
Print Assumptions C37_is_document.
Example C37_example :
  is_document (tree_of_source default_po "<!doctype html> <!-- x --><HTML></HTML> ") = (true, true) /\
  is_document (tree_of_source default_po "<html></html>x") = (true, false) /\
  is_document (tree_of_source default_po "<p></p>") = (false, true).
Proof. repeat split; vm_compute; reflexivity. Qed.

(** ** C38 *)
Theorem C38_void_names : forall n, is_void_tag (lower n) = one_of void_names n.
Proof. exact is_void_spec. Qed.
Print Assumptions C38_void_names.
Theorem C38_raw_text_names : forall n, is_content_tag (lower n) None = one_of raw_text_names n.
Proof. exact is_content_spec. Qed.
Print Assumptions C38_raw_text_names.
Theorem C38_special_names : forall n, special_tag_map (lower n) =
  if same_name n (str "svg") then Some Svg else if same_name n (str "math") then Some MathML else None.
Proof. exact special_spec. Qed.
Print Assumptions C38_special_names.
Theorem C38_allow_insert : forall n t, allow_insert n t =
  if one_of void_names n then false
  else if (chars_eqb n (str "textarea") || chars_eqb n (str "title"))%bool then
    (node_type_eqb t NText || node_type_eqb t NSpacesBetweenTag)%bool
  else if node_type_eqb t NXMLCDATA then (same_name n (str "svg") || same_name n (str "math"))%bool
  else true.
Proof. exact allow_insert_spec. Qed.
Print Assumptions C38_allow_insert.
Theorem C38_allow_insert_case : forall n n' t, same_name n n' = true ->
  same_name n (str "title") = false -> same_name n (str "textarea") = false ->
  allow_insert n t = allow_insert n' t.
Proof. exact allow_insert_case. Qed.
Print Assumptions C38_allow_insert_case.
Theorem C38_allow_insert_refuted : exists n n' t,
  same_name n n' = true /\ allow_insert n t <> allow_insert n' t.
Proof.
  exists (str "TITLE"), (str "title"), NTag. split; [vm_compute; reflexivity|vm_compute; discriminate].
Qed.
Print Assumptions C38_allow_insert_refuted.
Example C38_example : one_of void_names (str "Br") = true /\ one_of void_names (str "p") = false /\
  one_of raw_text_names (str "sCRIPT") = true /\ same_name (str "SVG") (str "svg") = true /\
  allow_insert (str "sVg") NXMLCDATA = true /\ allow_insert (str "p") NXMLCDATA = false.
Proof. repeat split; vm_compute; reflexivity. Qed.

(** ** C39 *)
Theorem C39_create_text_node : forall c at_,
  let t := create_text_node c at_ in
  (t_type t = NSpacesBetweenTag <-> Forall is_ws c) /\
  (t_type t = NText <-> ~ Forall is_ws c) /\
  t_content t = Some c /\
  t_begin_at t = match at_ with Some n => n | None => 0 end /\
  t_childs t = None /\ t_end_tag t = None /\ t_meta t = None.
Proof. exact create_text_node_spec. Qed.
Print Assumptions C39_create_text_node.
Example C39_example : t_type (create_text_node (str " x ") (Some 3)) = NText /\
  t_type (create_text_node (str "  ") None) = NSpacesBetweenTag.
Proof. split; vm_compute; reflexivity. Qed.

(** ** C40 *)
Theorem C40_value_chars_need_no_quote : forall c,
  is_char_available_in_value c = true -> need_quoted_char c = false.
Proof. exact value_char_no_quote. Qed.
Print Assumptions C40_value_chars_need_no_quote.
Theorem C40_key_chars : forall c, is_char_available_in_key c = true <->
  is_ascii_whitespace c = false /\ is_ascii_control c = false /\ unicode_noncharacter c = false /\
  (is_ascii_punctuation c = true -> In c (str "_-.:")).
Proof. exact key_char_spec. Qed.
Print Assumptions C40_key_chars.
Theorem C40_non_characters : forall c, is_non_character c = unicode_noncharacter c.
Proof. exact non_character_spec. Qed.
Print Assumptions C40_non_characters.
Example C40_example : is_char_available_in_value 97%N = true /\ is_char_available_in_key 233%N = true /\
  is_char_available_in_key 61%N = false /\ unicode_noncharacter 131071%N = true /\ unicode_noncharacter 131069%N = false.
Proof. repeat split; vm_compute; reflexivity. Qed.
