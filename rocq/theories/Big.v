(** Big steps: what one whole token (text character, tag, end tag, comment, ...) does to the
    parser state.  These definitions are proof devices; [BigSteps] proves that every run of the
    model decomposes into them. *)
From Coq Require Import String.
From Verif Require Import Api SpecText SpecParse.
Local Open Scope string_scope.
Local Open Scope list_scope.

(** ** Heap operations *)
Definition kids (h : list node) (p : nid) : list nid :=
  match n_childs (hget h p) with Some l => l | None => [] end.
Definition add_child (h : list node) (p : nid) (n : node) : list node :=
  hupd (h ++ [nset_root (Some 0) (nset_index (length (kids h p)) (nset_parent (Some p) n))])
    p (nset_childs (Some (kids h p ++ [length h]))).
Definition add_orphan (h : list node) (p : nid) (n : node) : list node :=
  hupd (h ++ [nset_index (length (kids h p)) n]) p (nset_childs (Some (kids h p ++ [length h]))).
Definition flip (ck : option nid) (h : list node) : list node :=
  match ck with Some i => hupd h i (nset_type NSpacesBetweenTag) | None => h end.
Definition end_info (pos : nat) (n : node) : node :=
  nset_end_at (if node_type_eqb (n_type n) NText then pos else pos + 1) n.
Definition set_meta (h : list node) (i : nid) (m : tag_meta) : list node :=
  hupd h i (nset_meta (Some m)).

(** ** Inside a start tag or doctype, after the name *)
Inductive amode := AWait (slash : bool) | AKey | AVal.
Record ta := mkTa {
  ta_mode : amode;
  ta_code : tag_code_in;
  ta_attrs : list attr;
  ta_map : list (list char * nat);
  ta_prev : list char;
  ta_mark : char;
  ta_ids : list (list char)
}.
Definition ta_start (mark : char) : ta := mkTa (AWait false) TWait [] [] [] mark [].

Definition new_key : attr := mkAttr (Some []) None None false.
Definition ta_key (prev : list char) (t : ta) : ta :=
  mkTa AKey TKey (ta_attrs t ++ [new_key]) (ta_map t) prev (ta_mark t) (ta_ids t).
Definition ta_val (prev : list char) (mark : char) (t : ta) : ta :=
  mkTa AVal TValue (ta_attrs t) (ta_map t) prev mark (ta_ids t).
Definition ta_push (c : char) (t : ta) : ta :=
  mkTa (ta_mode t) (ta_code t) (ta_attrs t) (ta_map t) (ta_prev t ++ [c]) (ta_mark t) (ta_ids t).
(** The key just read is complete. *)
Definition ta_set_key (mode : amode) (code : tag_code_in) (t : ta) : ta :=
  mkTa mode code
    (upd_last (fun a => mkAttr (Some (ta_prev t)) (a_value a) (a_quote a) (a_need_quote a)) (ta_attrs t))
    (map_or_insert (ta_map t) (lower (ta_prev t)) (length (ta_attrs t) - 1))
    [] (ta_mark t) (ta_ids t).
Definition val_attr (value : list char) (q : option char) (a : attr) : attr :=
  mkAttr (a_key a) (Some value) q (a_need_quote a).
(** The value just read is complete. *)
Definition ta_set_val (q : option char) (code : tag_code_in) (mark : char) (t : ta) : ta :=
  mkTa (AWait false) code (upd_last (val_attr (ta_prev t) q) (ta_attrs t)) (ta_map t) [] mark
    (match last_opt (ta_attrs t) with
     | Some a => match check_if_id (val_attr (ta_prev t) q a) with
                 | Some id => id :: ta_ids t
                 | None => ta_ids t
                 end
     | None => ta_ids t
     end).

Definition is_quote (c : char) : bool := (N.eqb c DOUBLE_QUOTE_CHAR || N.eqb c SINGLE_QUOTE_CHAR)%bool.
Definition ta_wait_step (po : parse_options) (dt : bool) (c : char) (t : ta) : option ta :=
  if is_quote c then
    if tag_code_in_eqb (ta_code t) TWaitValue then Some (ta_val (ta_prev t) c t)
    else if dt then
      Some (mkTa AVal TValue (ta_attrs t ++ [mkAttr None (Some []) (Some c) false]) (ta_map t)
              (ta_prev t) c (ta_ids t))
    else Some (ta_key (ta_prev t ++ [c]) t)
  else if N.eqb c END_SLASH_CHAR then
    Some (mkTa (AWait true) (ta_code t) (ta_attrs t) (ta_map t) (ta_prev t) (ta_mark t) (ta_ids t))
  else if N.eqb c EQUAL_CHAR then
    if tag_code_in_eqb (ta_code t) TKeyEnd then
      Some (mkTa (AWait false) TWaitValue (ta_attrs t) (ta_map t) (ta_prev t) (ta_mark t) (ta_ids t))
    else if tag_code_in_eqb (ta_code t) TWait then
      if allow_attr_key_starts_with_equal_sign po then Some (ta_key (ta_prev t ++ [c]) t) else None
    else Some (ta_val (ta_prev t ++ [c]) WS_CHAR t)
  else if is_ascii_whitespace c then Some t
  else if tag_code_in_eqb (ta_code t) TWaitValue then Some (ta_val (ta_prev t ++ [c]) WS_CHAR t)
  else Some (ta_key (ta_prev t ++ [c]) t).
(** One character that does not close the tag; [None]: rejected. *)
Definition ta_step (po : parse_options) (dt : bool) (c : char) (t : ta) : option ta :=
  match ta_mode t with
  | AWait _ => ta_wait_step po dt c t
  | AKey =>
      if N.eqb c EQUAL_CHAR then Some (ta_set_key (AWait false) TWaitValue t)
      else if N.eqb c END_SLASH_CHAR then Some (ta_set_key (AWait true) TWait t)
      else if is_ascii_whitespace c then Some (ta_set_key (AWait false) TKeyEnd t)
      else Some (ta_push c t)
  | AVal =>
      if N.eqb (ta_mark t) WS_CHAR then
        if is_ascii_whitespace c then Some (ta_set_val None TWait EOF_CHAR t) else Some (ta_push c t)
      else if N.eqb c (ta_mark t) then Some (ta_set_val (Some (ta_mark t)) TWait EOF_CHAR t)
      else Some (ta_push c t)
  end.
(** '>' closes the tag here. *)
Definition ta_closable (t : ta) : bool :=
  match ta_mode t with AVal => N.eqb (ta_mark t) WS_CHAR | _ => true end.
Definition ta_closes (c : char) (t : ta) : bool := (N.eqb c TAG_END_CHAR && ta_closable t)%bool.
Definition ta_close (t : ta) : ta :=
  match ta_mode t with
  | AWait _ => t
  | AKey => ta_set_key AKey TKeyEnd t
  | AVal => ta_set_val None TValueEnd (ta_mark t) t
  end.
Definition ta_slash (t : ta) : bool := match ta_mode t with AWait b => b | _ => false end.
Fixpoint ta_run (po : parse_options) (dt : bool) (s : list char) (t : ta) : option ta :=
  match s with
  | [] => Some t
  | c :: s' =>
      if ta_closes c t then None
      else match ta_step po dt c t with Some t' => ta_run po dt s' t' | None => None end
  end.

Definition ta_meta (n : list char) (sc : bool) (t : ta) : tag_meta :=
  mkMeta (ta_code t) (is_void_tag (lower n)) sc false n (ta_attrs t) (ta_map t).
Definition ids_of (cu : nid) (t : ta) (ids : list (list char * nid)) : list (list char * nid) :=
  map (fun i => (i, cu)) (ta_ids t) ++ ids.
Definition mode_handle (m : amode) : next_handle :=
  match m with AWait false => HTagWait | AWait true => HSelfClosing | AKey => HAttrKey | AVal => HAttrValue end.
Definition area_start (a : list char) : Prop :=
  match a with [] => True | c :: _ => c = END_SLASH_CHAR \/ is_ws c end.

(** ** States between tokens *)
Definition is_W (st : doc) : Prop :=
  d_handle st = HWait /\ (d_code_in st = CUnkown \/ d_code_in st = CAbstractRoot) /\
  d_detect st = None /\ d_prev_chars st = [].
Definition is_T (st : doc) : Prop :=
  d_handle st = HText /\ d_code_in st = CTextNode /\ d_detect st = None.
Definition is_U (st : doc) : Prop :=
  d_handle st = HUnkownTag /\ d_code_in st = CUnkownTag /\ d_detect st = None /\ d_prev_chars st = [].

Definition W_of (u : doc) (src : list char) (mem : nat) (mark : char) (ch : list nid) (cu : nid)
    (sp : option (special_tag * list char)) (ck : option nid) (ids : list (list char * nid))
    (h : list node) : doc :=
  mkDoc CUnkown (d_position u + length src) mem None [] mark ch cu sp (d_repeat_whitespace u) ck HWait
    (d_parse_options u) (d_root u) ids h.

(** Heap and identifier of a node opened after '<'. *)
Definition opened (u : doc) (p : nid) (t : node_type) : list node :=
  flip (d_check_textnode u) (add_child (d_heap u) p (node_new t (d_mem_position u))).

Definition special_after (sp : option (special_tag * list char)) (n : list char)
    : option (special_tag * list char) :=
  match sp with
  | Some x => Some x
  | None => match special_tag_map (lower n) with Some s => Some (s, n) | None => None end
  end.
Definition special_closed (sp : option (special_tag * list char)) (n : list char) :=
  match sp with
  | Some (s, m) => if chars_eqb m n then None else Some (s, m)
  | None => None
  end.

(** The boolean tests of the raw-text and comment handlers. *)
Definition raw_end (po : parse_options) (end_tag prev : list char) : bool :=
  let trimmed := chars_trim_end prev in
  (Nat.leb (length end_tag) (length prev) && Nat.leb (length end_tag) (length trimmed)
   && match_backward (case_sensitive_tagname po) (rev end_tag) (rev trimmed))%bool.
Definition cm_end (mark : char) (prev : list char) : bool :=
  let total := length prev in
  (Nat.ltb 2 total && (N.eqb (nth (total - 1) prev EOF_CHAR) mark
    && N.eqb (nth (total - 2) prev EOF_CHAR) mark))%bool.
(** No '>' of [b] ends it according to [f]. *)
Definition open_until (f : list char -> bool) (b : list char) : Prop :=
  forall p q, b = p ++ TAG_END_CHAR :: q -> f p = false.

Definition self_close_ok (u : doc) (n : list char) : bool :=
  (allow_self_closing (d_parse_options u) || is_void_tag (lower n)
   || match d_in_special u with Some _ => true | None => false end)%bool.

(** What the end tag [nm] (with trailing whitespace) closes. *)
Definition closes (u : doc) (nm : list char) : option (nid * list nid) :=
  match d_chain_nodes u with
  | tag :: par :: rest =>
      match n_meta (get_node u tag) with
      | Some m => if same_name (m_name m) (trim_right nm) then Some (tag, par :: rest) else None
      | None => None
      end
  | _ => None
  end.

Definition closed_heap (u : doc) (tag : nid) (nm : list char) (pos : nat) : list node :=
  let e := length (d_heap u) in
  let n := node_new NTagEnd (d_mem_position u) in
  let n := if auto_fix_unclosed_tag (d_parse_options u) then nset_prev (Some (d_current_node u)) n else n in
  let h1 := hupd (d_heap u ++ [n]) tag (nset_end_tag (Some e)) in
  let only := match n_childs (hget (d_heap u) tag) with
              | Some [k] => node_type_eqb (n_type (hget (d_heap u) k)) NText
              | _ => false
              end in
  let h2 := if only then h1 else flip (d_check_textnode u) h1 in
  hupd (hupd h2 e (end_info pos)) e (fun n => nset_content (Some nm) (nset_parent (Some tag) n)).
Definition closed_check (u : doc) (tag : nid) : option nid :=
  match n_childs (hget (d_heap u) tag) with
  | Some [k] => if node_type_eqb (n_type (hget (d_heap u) k)) NText then d_check_textnode u else None
  | _ => None
  end.
Definition dropped_heap (u : doc) : list node :=
  let n := node_new NTagEnd (d_mem_position u) in
  let n := if auto_fix_unclosed_tag (d_parse_options u) then nset_prev (Some (d_current_node u)) n else n in
  d_heap u ++ [n].

Definition raw_code (n : list char) : code_type_in :=
  if same_name n (str "script") then CHTMLScript
  else if same_name n (str "style") then CHTMLStyle else CEscapeableRawText.

(** The pending text after a '<' that starts nothing. *)
Definition lt_parent (u : doc) : nid :=
  let chain_parent := match d_chain_nodes u with i :: _ => i | [] => d_root u end in
  match n_type (cur u) with
  | NTag => match n_meta (cur u) with
            | Some m => if (m_self_closed m || m_auto_fix m)%bool then chain_parent else d_current_node u
            | None => d_current_node u
            end
  | _ => chain_parent
  end.
Definition lt_text (u : doc) (chars : list char) : doc :=
  let T pv cu h :=
    mkDoc CTextNode (d_position u) (d_mem_position u) None pv (d_mark_char u) (d_chain_nodes u) cu
      (d_in_special u) false (d_check_textnode u) HText (d_parse_options u) (d_root u) (d_id_tags u) h in
  match n_type (cur u) with
  | NText => match n_content (cur u) with
             | Some x => T (x ++ chars) (d_current_node u)
                           (hupd (d_heap u) (d_current_node u) (nset_content (Some [])))
             | None => T [] (d_current_node u) (d_heap u)
             end
  | _ => T chars (length (d_heap u))
           (add_orphan (d_heap u) (lt_parent u) (node_new NText (d_mem_position u)))
  end.

Definition cdata_here (u : doc) : Prop :=
  exists p rest sp m, d_chain_nodes u = p :: rest /\ d_in_special u = Some sp /\
    n_meta (get_node u p) = Some m /\ m_name m <> snd sp.

(** ** Big steps *)
Inductive bstep : doc -> list char -> doc -> Prop :=
  (* text *)
  | bs_wait_lt : forall st, is_W st ->
      bstep st [TAG_BEGIN_CHAR]
        (mkDoc CUnkownTag (d_position st + 1) (d_position st) None [] (d_mark_char st) (d_chain_nodes st)
           (d_current_node st) (d_in_special st) (d_repeat_whitespace st) (d_check_textnode st) HUnkownTag
           (d_parse_options st) (d_root st) (d_id_tags st) (d_heap st))
  | bs_wait_merge : forall st c ct, is_W st -> c <> TAG_BEGIN_CHAR ->
      auto_fix_unexpected_endtag (d_parse_options st) = true ->
      n_type (cur st) = NText -> n_content (cur st) = ct ->
      bstep st [c]
        (mkDoc CTextNode (d_position st + 1) (d_mem_position st) None
           (match ct with Some x => x | None => [] end ++ [c]) (d_mark_char st) (d_chain_nodes st)
           (d_current_node st) (d_in_special st) false (d_check_textnode st) HText
           (d_parse_options st) (d_root st) (d_id_tags st)
           (match ct with Some _ => hupd (d_heap st) (d_current_node st) (nset_content (Some []))
                        | None => d_heap st end))
  | bs_wait_text : forall st c p rest, is_W st -> c <> TAG_BEGIN_CHAR ->
      (auto_fix_unexpected_endtag (d_parse_options st) = false \/ n_type (cur st) <> NText) ->
      d_chain_nodes st = p :: rest ->
      bstep st [c]
        (mkDoc CTextNode (d_position st + 1) (d_mem_position st) None [c] (d_mark_char st) (d_chain_nodes st)
           (length (d_heap st)) (d_in_special st) (is_ascii_whitespace c) (d_check_textnode st) HText
           (d_parse_options st) (d_root st) (d_id_tags st)
           (add_child (d_heap st) p (node_new NText (d_position st))))
  | bs_text_char : forall st c, is_T st -> c <> TAG_BEGIN_CHAR ->
      bstep st [c]
        (mkDoc CTextNode (d_position st + 1) (d_mem_position st) None (d_prev_chars st ++ [c]) (d_mark_char st)
           (d_chain_nodes st) (d_current_node st) (d_in_special st)
           (d_repeat_whitespace st && is_ascii_whitespace c)%bool (d_check_textnode st) HText
           (d_parse_options st) (d_root st) (d_id_tags st) (d_heap st))
  | bs_text_lt : forall st, is_T st ->
      bstep st [TAG_BEGIN_CHAR]
        (mkDoc CUnkownTag (d_position st + 1) (d_position st) None [] (d_mark_char st) (d_chain_nodes st)
           (d_current_node st) (d_in_special st) (d_repeat_whitespace st)
           (if d_repeat_whitespace st then Some (d_current_node st) else None) HUnkownTag
           (d_parse_options st) (d_root st) (d_id_tags st)
           (hupd (hupd (d_heap st) (d_current_node st) (nset_content (Some (d_prev_chars st))))
              (d_current_node st) (end_info (d_position st))))
  (* start tags *)
  | bs_tag : forall u n a t p rest, is_U u -> open_name n -> area_start a ->
      d_chain_nodes u = p :: rest ->
      ta_run (d_parse_options u) false a (ta_start (d_mark_char u)) = Some t -> ta_closable t = true ->
      ta_slash t = false -> is_void_tag (lower n) = false -> is_content_tag (lower n) None = false ->
      bstep u (n ++ a ++ str ">")
        (W_of u (n ++ a ++ str ">") (d_mem_position u) (ta_mark (ta_close t))
           (length (d_heap u) :: d_chain_nodes u) (length (d_heap u)) (special_after (d_in_special u) n) None
           (ids_of (length (d_heap u)) (ta_close t) (d_id_tags u))
           (set_meta (opened u p NTag) (length (d_heap u)) (ta_meta n false (ta_close t))))
  | bs_void : forall u n a t p rest, is_U u -> open_name n -> area_start a ->
      d_chain_nodes u = p :: rest ->
      ta_run (d_parse_options u) false a (ta_start (d_mark_char u)) = Some t -> ta_closable t = true ->
      ta_slash t = false -> is_void_tag (lower n) = true ->
      bstep u (n ++ a ++ str ">")
        (W_of u (n ++ a ++ str ">") (d_mem_position u) (ta_mark (ta_close t))
           (d_chain_nodes u) (length (d_heap u)) (d_in_special u) None
           (ids_of (length (d_heap u)) (ta_close t) (d_id_tags u))
           (set_meta (opened u p NTag) (length (d_heap u)) (ta_meta n false (ta_close t))))
  | bs_self : forall u n a t p rest, is_U u -> open_name n -> area_start a ->
      d_chain_nodes u = p :: rest ->
      ta_run (d_parse_options u) false a (ta_start (d_mark_char u)) = Some t ->
      ta_slash t = true -> self_close_ok u n = true ->
      bstep u (n ++ a ++ str ">")
        (W_of u (n ++ a ++ str ">") (d_mem_position u) (ta_mark t)
           (d_chain_nodes u) (length (d_heap u)) (d_in_special u) None
           (ids_of (length (d_heap u)) t (d_id_tags u))
           (set_meta (opened u p NTag) (length (d_heap u)) (ta_meta n true t)))
  | bs_raw : forall u n a t p rest b, is_U u -> open_name n -> area_start a ->
      d_chain_nodes u = p :: rest ->
      ta_run (d_parse_options u) false a (ta_start (d_mark_char u)) = Some t -> ta_closable t = true ->
      ta_slash t = false -> is_content_tag (lower n) None = true ->
      open_until (raw_end (d_parse_options u) (str "</" ++ n)) b ->
      raw_end (d_parse_options u) (str "</" ++ n) b = true ->
      let k := length (chars_trim_end b) - length (str "</" ++ n) in
      let src := n ++ a ++ str ">" ++ b ++ str ">" in
      bstep u src
        (W_of u src (d_position u + length (n ++ a)) (ta_mark (ta_close t))
           (d_chain_nodes u) (length (d_heap u)) (d_in_special u) None
           (ids_of (length (d_heap u)) (ta_close t) (d_id_tags u))
           (hupd (set_meta (opened u p NTag) (length (d_heap u)) (ta_meta n false (ta_close t))
                  ++ [nset_parent (Some (length (d_heap u)))
                        (nset_content (Some (skipn 2 (skipn k b)))
                           (node_new NTagEnd (d_position u + length src)))])
              (length (d_heap u))
              (fun x => nset_content (Some (firstn k b)) (nset_end_tag (Some (S (length (d_heap u)))) x))))
  (* end tags *)
  | bs_close : forall u nm tag rest, is_U u -> ~ In TAG_END_CHAR nm ->
      closes u nm = Some (tag, rest) ->
      (case_sensitive_tagname (d_parse_options u) = true ->
         exists m, n_meta (get_node u tag) = Some m /\ m_name m = trim_right nm) ->
      bstep u (str "/" ++ nm ++ str ">")
        (W_of u (str "/" ++ nm ++ str ">") (d_mem_position u) (d_mark_char u)
           rest (length (d_heap u)) (special_closed (d_in_special u) (trim_right nm))
           (closed_check u tag) (d_id_tags u)
           (closed_heap u tag nm (d_position u + length (str "/" ++ nm))))
  | bs_drop : forall u nm, is_U u -> ~ In TAG_END_CHAR nm ->
      closes u nm = None -> auto_fix_unexpected_endtag (d_parse_options u) = true ->
      bstep u (str "/" ++ nm ++ str ">")
        (W_of u (str "/" ++ nm ++ str ">") (d_mem_position u) (d_mark_char u)
           (d_chain_nodes u)
           (if auto_fix_unclosed_tag (d_parse_options u) then d_current_node u else length (d_heap u))
           (d_in_special u) (d_check_textnode u) (d_id_tags u) (dropped_heap u))
  (* comments, CDATA, doctypes *)
  | bs_comment : forall u b p rest, is_U u -> d_chain_nodes u = p :: rest ->
      open_until (cm_end DASH_CHAR) b -> cm_end DASH_CHAR b = true ->
      let src := str "!--" ++ b ++ str ">" in
      bstep u src
        (W_of u src (d_mem_position u) EOF_CHAR (d_chain_nodes u) (length (d_heap u)) (d_in_special u) None
           (d_id_tags u)
           (hupd (hupd (opened u p NComment) (length (d_heap u)) (nset_content (Some (firstn (length b - 2) b))))
              (length (d_heap u)) (end_info (d_position u + length (str "!--" ++ b)))))
  | bs_cdata : forall u kw b p rest, is_U u -> d_chain_nodes u = p :: rest ->
      same_name kw (str "[cdata[") = true -> cdata_here u ->
      open_until (cm_end RIGHT_BRACKET_CHAR) b -> cm_end RIGHT_BRACKET_CHAR b = true ->
      let src := str "!" ++ kw ++ b ++ str ">" in
      bstep u src
        (W_of u src (d_mem_position u) EOF_CHAR (d_chain_nodes u) (length (d_heap u)) (d_in_special u) None
           (d_id_tags u)
           (hupd (hupd (opened u p NXMLCDATA) (length (d_heap u)) (nset_content (Some (firstn (length b - 2) b))))
              (length (d_heap u)) (end_info (d_position u + length (str "!" ++ kw ++ b)))))
  | bs_doctype : forall u n c a t p rest, is_U u -> d_chain_nodes u = p :: rest ->
      same_name n (str "doctype") = true -> is_ws c ->
      ta_run (d_parse_options u) true a (ta_start (d_mark_char u)) = Some t -> ta_closable t = true ->
      let src := str "!" ++ n ++ [c] ++ a ++ str ">" in
      let t' := ta_close t in
      bstep u src
        (W_of u src (d_mem_position u) (ta_mark t')
           (if ta_slash t then tl (d_chain_nodes u) else d_chain_nodes u)
           (length (d_heap u)) (d_in_special u) None
           (ids_of (length (d_heap u)) t' (d_id_tags u))
           (set_meta (opened u p NHTMLDOCTYPE) (length (d_heap u)) (ta_meta n (ta_slash t) t')))
  (* a '<' that starts nothing *)
  | bs_lt_char : forall u c, is_U u -> auto_fix_unescaped_lt (d_parse_options u) = true ->
      is_ascii_alphabetic c = false -> c <> END_SLASH_CHAR -> c <> EXCLAM_CHAR -> c <> TAG_BEGIN_CHAR ->
      bstep u [c] (set_position (d_position u + 1) (lt_text u (str "&lt;" ++ [c])))
  | bs_lt_lt : forall u st', is_U u -> auto_fix_unescaped_lt (d_parse_options u) = true ->
      bstep (lt_text u (str "&lt;")) [TAG_BEGIN_CHAR] st' -> bstep u [TAG_BEGIN_CHAR] st'.

(** Reflexive-transitive closure. *)
Inductive bsteps : doc -> list char -> doc -> Prop :=
  | bss_nil : forall st, bsteps st [] st
  | bss_snoc : forall st s st' t st'', bsteps st s st' -> bstep st' t st'' -> bsteps st (s ++ t) st''.

(** ** States inside a markup token *)
Definition st_name (u : doc) (p : nid) (n : list char) : doc :=
  mkDoc CTag (d_position u + length n) (d_mem_position u) None n (d_mark_char u)
    (length (d_heap u) :: d_chain_nodes u) (length (d_heap u)) (d_in_special u) (d_repeat_whitespace u)
    None HTagName (d_parse_options u) (d_root u) (d_id_tags u) (opened u p NTag).
Definition st_area (u : doc) (p : nid) (dt : bool) (n : list char) (pos : nat) (t : ta) : doc :=
  mkDoc (if dt then CHTMLDOCTYPE else CTag) pos (d_mem_position u) None (ta_prev t) (ta_mark t)
    (if dt then d_chain_nodes u else length (d_heap u) :: d_chain_nodes u) (length (d_heap u))
    (d_in_special u) (d_repeat_whitespace u) None (mode_handle (ta_mode t)) (d_parse_options u) (d_root u)
    (ids_of (length (d_heap u)) t (d_id_tags u))
    (set_meta (opened u p (if dt then NHTMLDOCTYPE else NTag)) (length (d_heap u)) (ta_meta n false t)).
Definition st_raw (u : doc) (p : nid) (n a : list char) (t : ta) (b : list char) : doc :=
  mkDoc (raw_code n) (d_position u + length (n ++ a ++ str ">" ++ b)) (d_position u + length (n ++ a))
    (Some (str "</" ++ n)) b (ta_mark t)
    (length (d_heap u) :: d_chain_nodes u) (length (d_heap u))
    (d_in_special u) (d_repeat_whitespace u) None HContent (d_parse_options u) (d_root u)
    (ids_of (length (d_heap u)) t (d_id_tags u))
    (set_meta (opened u p NTag) (length (d_heap u)) (ta_meta n false t)).
Definition st_end (u : doc) (nm : list char) : doc :=
  mkDoc CTagEnd (d_position u + length (str "/" ++ nm)) (d_mem_position u) None nm (d_mark_char u)
    (d_chain_nodes u) (length (d_heap u)) (d_in_special u) (d_repeat_whitespace u)
    (d_check_textnode u) HTagEnd (d_parse_options u) (d_root u) (d_id_tags u) (dropped_heap u).
Definition st_excl (u : doc) (det : option (list char)) (kw : list char) : doc :=
  mkDoc CExclamationBegin (d_position u + length (str "!" ++ kw)) (d_mem_position u) det kw (d_mark_char u)
    (d_chain_nodes u) (d_current_node u) (d_in_special u) (d_repeat_whitespace u)
    (d_check_textnode u) HExclamation (d_parse_options u) (d_root u) (d_id_tags u) (d_heap u).
Definition st_dt_name (u : doc) (p : nid) (n : list char) : doc :=
  mkDoc CHTMLDOCTYPE (d_position u + length (str "!" ++ n)) (d_mem_position u) None n (d_mark_char u)
    (d_chain_nodes u) (length (d_heap u)) (d_in_special u) (d_repeat_whitespace u)
    None HDoctypeName (d_parse_options u) (d_root u) (d_id_tags u) (opened u p NHTMLDOCTYPE).
Definition st_body (u : doc) (p : nid) (cdata : bool) (src b : list char) : doc :=
  mkDoc (if cdata then CXMLCDATA else CComment) (d_position u + length src) (d_mem_position u) None b
    (if cdata then RIGHT_BRACKET_CHAR else DASH_CHAR)
    (d_chain_nodes u) (length (d_heap u)) (d_in_special u) (d_repeat_whitespace u)
    None HCommentOrCdata (d_parse_options u) (d_root u) (d_id_tags u)
    (opened u p (if cdata then NXMLCDATA else NComment)).

(** [inm u s st]: after '<' in state [u], reading [s] leaves an unfinished token and state [st]. *)
Inductive inm : doc -> list char -> doc -> Prop :=
  | in_name : forall u p rest n, is_U u -> d_chain_nodes u = p :: rest -> open_name n ->
      inm u n (st_name u p n)
  | in_area : forall u p rest n a t, is_U u -> d_chain_nodes u = p :: rest -> open_name n ->
      a <> [] -> area_start a -> ta_run (d_parse_options u) false a (ta_start (d_mark_char u)) = Some t ->
      inm u (n ++ a) (st_area u p false n (d_position u + length (n ++ a)) t)
  | in_raw : forall u p rest n a t b, is_U u -> d_chain_nodes u = p :: rest -> open_name n ->
      area_start a -> ta_run (d_parse_options u) false a (ta_start (d_mark_char u)) = Some t ->
      ta_closable t = true -> ta_slash t = false -> is_content_tag (lower n) None = true ->
      open_until (raw_end (d_parse_options u) (str "</" ++ n)) b ->
      inm u (n ++ a ++ str ">" ++ b) (st_raw u p n a (ta_close t) b)
  | in_end : forall u nm, is_U u -> ~ In TAG_END_CHAR nm ->
      inm u (str "/" ++ nm) (st_end u nm)
  | in_excl : forall u, is_U u -> inm u (str "!") (st_excl u None [])
  | in_kw : forall u kw x, is_U u -> kw <> [] -> length kw < length (detect_char_map x) ->
      map to_ascii_uppercase kw = firstn (length kw) (detect_char_map x) ->
      (x = DXMLCDATA -> cdata_here u) ->
      inm u (str "!" ++ kw) (st_excl u (Some (detect_char_map x)) kw)
  | in_dt_name : forall u p rest n, is_U u -> d_chain_nodes u = p :: rest ->
      same_name n (str "doctype") = true ->
      inm u (str "!" ++ n) (st_dt_name u p n)
  | in_dt_area : forall u p rest n c a t, is_U u -> d_chain_nodes u = p :: rest ->
      same_name n (str "doctype") = true -> is_ws c ->
      ta_run (d_parse_options u) true a (ta_start (d_mark_char u)) = Some t ->
      inm u (str "!" ++ n ++ [c] ++ a) (st_area u p true n (d_position u + length (str "!" ++ n ++ [c] ++ a)) t)
  | in_comment : forall u p rest b, is_U u -> d_chain_nodes u = p :: rest ->
      open_until (cm_end DASH_CHAR) b ->
      inm u (str "!--" ++ b) (st_body u p false (str "!--" ++ b) b)
  | in_cdata : forall u p rest kw b, is_U u -> d_chain_nodes u = p :: rest ->
      same_name kw (str "[cdata[") = true -> cdata_here u ->
      open_until (cm_end RIGHT_BRACKET_CHAR) b ->
      inm u (str "!" ++ kw ++ b) (st_body u p true (str "!" ++ kw ++ b) b).
