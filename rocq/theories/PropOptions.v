(** Property theorems for all parse options (C07-C09, C12, C47). *)
From Coq Require Import String.
From Verif Require Import Api SpecText SpecRender SpecParse SpecMisc SpecTree Tests DocSound Mono Print Origin SpecDoc SpecOpts.
Local Open Scope string_scope.
Local Open Scope list_scope.

(** ** C07 *)
Theorem C07_text_kept : forall opts s env, ~ In 60%N s -> exists d, parse opts s = Parsed d /\
  doc_content d (match s with [] => [] | _ => [XText s (blank_text s)] end) /\ render env default_ro d = ROk s.
Proof. exact text_kept. Qed.
Print Assumptions C07_text_kept.
Example C07_example : exists d, parse default_po (str " a > b &lt; ""c"" ") = Parsed d /\
  map n_type (d_heap d) = [NAbstractRoot; NText] /\ render test_env default_ro d = ROk (str " a > b &lt; ""c"" ").
Proof. eexists. repeat (split; [vm_compute; reflexivity|]). vm_compute. reflexivity. Qed.

(** ** C08 *)
(** In any surroundings that nest. *)
Theorem C08_raw_in_context : forall opts ks1 s1 n a l c e ks2 s2, open_name n -> starts_with slash_filler a ->
  area (allow_attr_key_starts_with_equal_sign opts) false a l false -> raw_name n = true ->
  name_fits (case_sensitive_tagname opts) n (trim_right e) = true ->
  first_end (ends_in_end_tag (case_sensitive_tagname opts) n) (c ++ str "</" ++ e) ->
  source opts ks1 s1 -> source opts ks2 s2 -> nests opts (ks1 ++ KRaw n l c e :: ks2) ->
  exists d f, parse opts (s1 ++ (str "<" ++ n ++ a ++ str ">" ++ c ++ str "</" ++ e ++ str ">") ++ s2) = Parsed d /\
    flat_map tokens f = ks1 ++ KRaw n l c e :: ks2 /\ doc_content d f.
Proof. exact raw_in_context. Qed.
Print Assumptions C08_raw_in_context.
(** Any content without the start of a matching end tag. *)
Theorem C08_raw_kept : forall opts n c env, open_name n -> raw_name n = true ->
  (forall p q, c = p ++ str "</" ++ q -> same_name n (firstn (length n) q) = false) ->
  let s := str "<" ++ n ++ str ">" ++ c ++ str "</" ++ n ++ str ">" in
  exists d, parse opts s = Parsed d /\ doc_content d [XRaw n [] c n] /\ render env default_ro d = ROk s.
Proof. exact raw_any. Qed.
Print Assumptions C08_raw_kept.
(** In every parsed document the content of a tag is the text up to the first matching end tag. *)
Theorem C08_raw_origin : forall opts s d i c, parse opts s = Parsed d -> let x := hget (d_heap d) i in
  n_type x = NTag -> n_content x = Some c ->
  (exists s1 n a l e s2 m, s = s1 ++ str "<" ++ n ++ a ++ str ">" ++ c ++ str "</" ++ e ++ str ">" ++ s2 /\ n_begin_at x = length s1 /\
    open_name n /\ raw_name n = true /\ area (allow_attr_key_starts_with_equal_sign opts) false a l false /\
    first_end (ends_in_end_tag (case_sensitive_tagname opts) n) (c ++ str "</" ++ e) /\
    n_meta x = Some m /\ m_name m = n /\ m_attrs m = l) /\
  (auto_fix_unescaped_lt opts = false -> n_childs x = None).
Proof. exact raw_origin. Qed.
Print Assumptions C08_raw_origin.
(** Every finished raw text element has such content. *)
Theorem C08_raw_has_content : forall opts s d i m, parse opts s = Parsed d -> let x := hget (d_heap d) i in
  n_type x = NTag -> n_meta x = Some m -> raw_name (m_name m) = true -> m_self_closed m = false ->
  (exists c, n_content x = Some c) \/ (cut_off s x /\ auto_fix_unclosed_tag opts = true).
Proof. exact raw_has_content. Qed.
Print Assumptions C08_raw_has_content.
(** A stray '<' after a raw text element becomes its child. *)
Theorem C08_stray_lt_refuted : exists d, parse (mkPO false false false false false true) (str "<script>x</script><1") = Parsed d /\
  n_content (hget (d_heap d) 1) = Some (str "x") /\ n_childs (hget (d_heap d) 1) <> None.
Proof. eexists. split; [vm_compute; reflexivity|]. split; [reflexivity|]. vm_compute. discriminate. Qed.
Print Assumptions C08_stray_lt_refuted.
Example C08_example : exists d, let s := str "<ScRipt>if (a</b>c) '</scrip' </SCRIPT ><i></i>" in
  parse default_po s = Parsed d /\ n_content (hget (d_heap d) 1) = Some (str "if (a</b>c) '</scrip' ") /\
  render test_env default_ro d = ROk s.
Proof. eexists. cbv zeta. repeat (split; [vm_compute; reflexivity|]). vm_compute. reflexivity. Qed.

(** ** C09 *)
Theorem C09_comment_in_context : forall opts ks1 s1 c ks2 s2, first_end (ends_in_two 45%N) (c ++ str "--") ->
  source opts ks1 s1 -> source opts ks2 s2 -> nests opts (ks1 ++ KComment c :: ks2) ->
  exists d f, parse opts (s1 ++ (str "<!--" ++ c ++ str "-->") ++ s2) = Parsed d /\
    flat_map tokens f = ks1 ++ KComment c :: ks2 /\ doc_content d f.
Proof. exact comment_in_context. Qed.
Print Assumptions C09_comment_in_context.
Theorem C09_comment_kept : forall opts c env, c <> [] -> (forall p q, c = p ++ str "-->" ++ q -> p = []) ->
  let s := str "<!--" ++ c ++ str "-->" in
  exists d, parse opts s = Parsed d /\ doc_content d [XComment c] /\ render env default_ro d = ROk s.
Proof. exact comment_any. Qed.
Print Assumptions C09_comment_kept.
Theorem C09_comment_origin : forall opts s d i, parse opts s = Parsed d -> let x := hget (d_heap d) i in n_type x = NComment ->
  exists s1 c s2, s = s1 ++ str "<!--" ++ c ++ str "-->" ++ s2 /\ n_begin_at x = length s1 /\ c <> [] /\
    (forall p q, c = p ++ str "-->" ++ q -> p = []) /\ n_content x = Some c.
Proof. exact comment_origin. Qed.
Print Assumptions C09_comment_origin.
(** The empty comment is not closed: it goes on to the next end. *)
Theorem C09_empty_comment_refuted : (forall d, parse default_po (str "<!---->") <> Parsed d) /\
  exists d, parse default_po (str "<!----><p></p>-->") = Parsed d /\
    n_type (hget (d_heap d) 1) = NComment /\ n_content (hget (d_heap d) 1) = Some (str "--><p></p>").
Proof.
  split; [intros d H; vm_compute in H; discriminate H|]. eexists. split; [vm_compute; reflexivity|]. split; reflexivity.
Qed.
Print Assumptions C09_empty_comment_refuted.
Example C09_example : exists d, let s := str "<p><!-- a -- > b ->--><!--x---></p>" in parse default_po s = Parsed d /\
  n_content (hget (d_heap d) 2) = Some (str " a -- > b ->") /\ n_content (hget (d_heap d) 3) = Some (str "x-") /\
  render test_env default_ro d = ROk s.
Proof. eexists. cbv zeta. repeat (split; [vm_compute; reflexivity|]). vm_compute. reflexivity. Qed.

(** ** C12 *)
Theorem C12_permissive : forall o o' s d, more_permissive o o' ->
  (case_sensitive_tagname o' = case_sensitive_tagname o \/ lower_raw_names s) ->
  parse o s = Parsed d -> exists d', parse o' s = Parsed d' /\ same_doc d d'.
Proof. exact permissive. Qed.
Print Assumptions C12_permissive.
(** An end tag in other case ends a raw text element only if case does not matter. *)
Theorem C12_raw_case_refuted : exists d k r, let s := str "<script></SCRIPT></script>" in
  parse (mkPO true false false false false false) s = Parsed d /\ parse default_po s = Failed k r.
Proof. eexists. eexists. eexists. split; vm_compute; reflexivity. Qed.
Print Assumptions C12_raw_case_refuted.
(** Text around a dropped end tag is joined only with [auto_fix_unclosed_tag]. *)
Theorem C12_dropped_end_refuted : exists d d', let s := str "a</b>c" in
  parse (mkPO false false false false true false) s = Parsed d /\ parse (mkPO false false false true true false) s = Parsed d' /\
  n_childs (hget (d_heap d) 0) = Some [1; 3] /\ n_childs (hget (d_heap d') 0) = Some [1].
Proof. eexists. eexists. cbv zeta. repeat (split; [vm_compute; reflexivity|]). vm_compute. reflexivity. Qed.
Print Assumptions C12_dropped_end_refuted.
Example C12_example : exists d d', let s := str "<Div a=1><br/>x</Div>" in
  parse (mkPO true false false false false false) s = Parsed d /\ parse (mkPO false true true true true true) s = Parsed d' /\
  same_doc d d'.
Proof.
  eexists. eexists. cbv zeta. split; [vm_compute; reflexivity|]. split; [vm_compute; reflexivity|].
  repeat (split; [vm_compute; reflexivity|]). vm_compute. reflexivity.
Qed.

(** ** C47 *)
Theorem C47_nodes_are_tokens : forall opts s d i, parse opts s = Parsed d ->
  In (n_type (hget (d_heap d) i)) [NTag; NComment; NXMLCDATA; NHTMLDOCTYPE] ->
  let x := hget (d_heap d) i in
  token_at opts s x \/ slashed_at opts s x \/ (cut_off s x /\ auto_fix_unclosed_tag opts = true).
Proof. exact origin. Qed.
Print Assumptions C47_nodes_are_tokens.
Example C47_example : exists d, let s := str "x<p a=1>y<1</b><!--c--><br" in
  parse (mkPO false false false true true true) s = Parsed d /\
  token_at (mkPO false false false true true true) s (hget (d_heap d) 2) /\
  cut_off s (hget (d_heap d) 6).
Proof.
  eexists. cbv zeta. split; [vm_compute; reflexivity|]. split.
  - exists (str "x"), (KOpen (str "p") [unquoted (str "a") (str "1")]), (str "<p a=1>"), (str "y<1</b><!--c--><br").
    split; [reflexivity|]. split; [vm_compute; reflexivity|]. split.
    + refine (w_open _ (str "p") (str " a=1") _ _ _ _ _ _); try reflexivity.
      * exists 112%N, []. repeat constructor.
      * left. reflexivity.
      * refine (ar_unquoted _ _ (str " ") (str "a") (str "=") [] (str "1") [] _ _ _ _ _ _ _ _ (ar_end _ _ [] _)).
        -- repeat constructor.
        -- exists 97%N, []. repeat split; try discriminate; [constructor|left; repeat split; discriminate].
        -- left. reflexivity.
        -- constructor.
        -- exists 49%N, []. repeat split; try (intros [X|X]; discriminate X); try discriminate. repeat constructor; discriminate.
        -- exact I.
        -- constructor.
    + vm_compute. split; [reflexivity|]. split; [reflexivity|]. eexists. split; [reflexivity|]. repeat split.
  - vm_compute. split; [reflexivity|]. split; [reflexivity|].
    exists (str "x<p a=1>y<1</b><!--c-->"), (str "br"), []. split; [reflexivity|]. split; [reflexivity|].
    split; [exists 98%N, [114%N]; repeat (constructor || discriminate || split)|]. split; [exact I|]. intros m X. discriminate X.
Qed.
