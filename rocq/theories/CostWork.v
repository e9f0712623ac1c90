(** Upper bounds on the work of the parser. *)
From Coq Require Import String Lia.
From Verif Require Import Api ErrorText Cost SpecCost HeapLemmas InvCtl CtlEnd CtlRun Big BigSteps CostProofs.
Local Open Scope string_scope.
Local Open Scope list_scope.

(** ** Comparisons *)
Lemma w_equal_loop_l : forall a b k, w_equal_loop a b k <= length a.
Proof. induction a as [|x a IH]; intros [|y b] k; cbn; try lia. specialize (IH b k). destruct (eq_char_case k x y); lia. Qed.
Lemma w_equal_l : forall a b k, w_equal a b k <= length a.
Proof. intros. unfold w_equal. destruct (Nat.eqb _ _); [apply w_equal_loop_l|lia]. Qed.
Lemma w_equal_r : forall a b k, w_equal a b k <= length b.
Proof. intros. unfold w_equal. destruct (Nat.eqb _ _) eqn:E; [|lia]. apply Nat.eqb_eq in E. rewrite <- E. apply w_equal_loop_l. Qed.
Lemma w_ignore_r : forall a b, w_ignore_case a b <= length b.
Proof.
  intros. unfold w_ignore_case. destruct (Nat.eqb _ _) eqn:E; [|lia]. clear E. revert b. induction a as [|x a IH]; intros [|y b]; cbn; try lia.
  specialize (IH b). repeat match goal with |- context [if ?t then _ else _] => destruct t end; lia.
Qed.
Lemma w_first_sum : forall l n, w_first l n <= list_sum (map (@length _) l).
Proof.
  induction l as [|x l IH]; intro n; [cbn; lia|]. cbn [w_first map]. rewrite list_sum_cons. pose proof (w_equal_l x n None). specialize (IH n).
  destruct (is_equal_chars x n None); lia.
Qed.
Lemma w_void_le : forall n, w_void n <= 55.
Proof. intro n. unfold w_void. etransitivity; [apply w_first_sum|]. vm_compute. lia. Qed.
Lemma w_content_le : forall n, w_content n <= 24.
Proof. intro n. unfold w_content. etransitivity; [apply w_first_sum|]. vm_compute. lia. Qed.
Lemma w_script_le : forall n, w_first [SCRIPT_TAG_NAME; STYLE_TAG_NAME] n <= 11.
Proof. intro n. etransitivity; [apply w_first_sum|]. vm_compute. lia. Qed.
Lemma w_back_le : forall b a c, w_match_backward b a c <= length a.
Proof. intros b. induction a as [|x a IH]; intros [|y c]; cbn; try lia. specialize (IH c). destruct (content_char_match b x y); lia. Qed.

(** ** Trailing blanks *)
Definition tw (l : list char) : nat := length l - length (chars_trim_end l).
Lemma tw_le : forall l, tw l <= length l.
Proof. intro. unfold tw. lia. Qed.
Lemma tw_snoc : forall l c, tw (l ++ [c]) = if is_ascii_whitespace c then S (tw l) else 0.
Proof.
  intros. unfold tw. unfold chars_trim_end at 1. rewrite rev_app_distr. cbn [rev app drop_ws]. destruct (is_ascii_whitespace c).
  - fold (chars_trim_end l). rewrite app_length. cbn. pose proof (trim_length l). lia.
  - rewrite rev_length. cbn [length]. rewrite rev_length, app_length. cbn. lia.
Qed.
Lemma w_trim_le : forall l, w_trim l <= tw l + 1.
Proof. intro. unfold w_trim, tw. destruct (chars_trim_end l); lia. Qed.

(** ** The potential *)
Definition pv (l : list char) : nat := 6 * length l + tw l.
Definition in_tag (st : doc) : nat :=
  match d_handle st with
  | HSelfClosing | HTagWait | HAttrKey | HAttrValue => name_length (cur st)
  | _ => 0
  end.
Definition pot (st : doc) : nat := pv (d_prev_chars st) + 4 * in_tag st.
Arguments pv : simpl never.
Arguments tw : simpl never.
Arguments in_tag : simpl never.
Arguments pot : simpl never.
Arguments name_length : simpl never.
Arguments w_trim : simpl never.
Arguments w_equal : simpl never.
Arguments w_void : simpl never.
Arguments w_content : simpl never.
Arguments w_ignore_case : simpl never.

Lemma pv_nil : pv [] = 0. Proof. reflexivity. Qed.
Lemma pv_snoc : forall l c, pv (l ++ [c]) <= pv l + 7.
Proof. intros. unfold pv. rewrite tw_snoc, app_length. cbn. destruct (is_ascii_whitespace c); lia. Qed.
Lemma pv_ge : forall l, 6 * length l <= pv l. Proof. intro. unfold pv. lia. Qed.
Lemma pv_le : forall l, pv l <= 7 * length l. Proof. intro. unfold pv. pose proof (tw_le l). lia. Qed.
Lemma in_tag_le : forall st, in_tag st <= name_length (cur st).
Proof. intro. unfold in_tag. destruct (d_handle st); lia. Qed.

(** Characters of the text that are moved once more: by the repairs only. *)
Definition moved (st : doc) : nat :=
  match d_handle st with
  | HWait =>
      if (auto_fix_unexpected_endtag (d_parse_options st)
          && (node_type_eqb (n_type (cur st)) NText || node_type_eqb (n_type (cur st)) NSpacesBetweenTag))%bool
      then opt_length (n_content (cur st)) else 0
  | HUnkownTag => if auto_fix_unescaped_lt (d_parse_options st) then opt_length (n_content (cur st)) else 0
  | _ => 0
  end.

(** ** The name of the current tag does not grow *)
Lemma nl_upd : forall h i f, name_length (hget (hupd h i f) i) <= name_length (f (hget h i)).
Proof.
  intros h i f. destruct (Nat.ltb i (length h)) eqn:E.
  - apply Nat.ltb_lt in E. rewrite hget_hupd_same by exact E. lia.
  - apply Nat.ltb_ge in E. rewrite hget_default by (rewrite hupd_length; exact E). unfold name_length. cbn. lia.
Qed.
Lemma nl_meta : forall f n, (forall m, m_name (f m) = m_name m) -> name_length (nupd_meta f n) = name_length n.
Proof. intros f n F. unfold nupd_meta, name_length. destruct (n_meta n) as [m|] eqn:E; cbn; rewrite ?E, ?F; reflexivity. Qed.
Lemma nl_cur : forall f st, (forall m, m_name (f m) = m_name m) -> name_length (cur (upd_cur (nupd_meta f) st)) <= name_length (cur st).
Proof.
  intros f st F. unfold upd_cur. change (name_length (hget (hupd (d_heap st) (d_current_node st) (nupd_meta f)) (d_current_node st)) <= name_length (cur st)).
  etransitivity; [apply nl_upd|]. rewrite (nl_meta f _ F). unfold cur, get_node. lia.
Qed.
Lemma nl_code : forall c st, name_length (cur (set_tag_code_in c st)) <= name_length (cur st).
Proof. intros. unfold set_tag_code_in. etransitivity; [apply nl_cur; reflexivity|]. destruct c; reflexivity. Qed.
Lemma prev_code : forall c st, d_prev_chars (set_tag_code_in c st) = d_prev_chars st.
Proof. intros. destruct c; reflexivity. Qed.
Lemma nl_add_key : forall st, name_length (cur (add_tag_attr_key st)) <= name_length (cur st).
Proof. intro. apply nl_cur. reflexivity. Qed.
Lemma add_value_spec : forall q st st', add_tag_attr_value q st = ROk st' ->
  name_length (cur st') <= name_length (cur st) /\ d_prev_chars st' = d_prev_chars st.
Proof.
  intros q st st' E. unfold add_tag_attr_value in E. destruct (n_meta (cur st)); [|discriminate]. apply ok_inj in E. subst st'.
  split; [apply nl_cur; reflexivity|reflexivity].
Qed.
Lemma set_key_spec : forall st st', set_tag_attr_key st = ROk st' ->
  name_length (cur st') <= name_length (cur st) /\ d_prev_chars st' = [] /\ w_set_tag_attr_key st <= 4 * length (d_prev_chars st).
Proof.
  intros st st' E. unfold set_tag_attr_key in E. change (n_meta (cur (clean_chars st))) with (n_meta (cur st)) in E. unfold w_set_tag_attr_key, w_clean.
  destruct (n_meta (cur st)) as [m|] eqn:M; [|apply ok_inj in E; subst st'; repeat split; [reflexivity|lia]].
  destruct (m_attrs m) as [|a l]; [discriminate|]. apply ok_inj in E. subst st'. split; [|split; [reflexivity|lia]].
  change (name_length (cur st)) with (name_length (cur (clean_chars st))). apply nl_cur. reflexivity.
Qed.
Lemma w_set_key_le : forall st, w_set_tag_attr_key st <= 4 * length (d_prev_chars st).
Proof. intro. unfold w_set_tag_attr_key, w_clean. destruct (n_meta (cur st)); lia. Qed.
Lemma w_set_value_le : forall q st, w_set_tag_attr_value q st <= 4 * length (d_prev_chars st) + 2.
Proof.
  intros. unfold w_set_tag_attr_value, w_clean. destruct (n_meta (cur st)) as [m|]; [|lia]. destruct (last_opt (m_attrs m)) as [a|]; [|lia].
  cbn [a_key]. unfold check_if_id. cbn [a_key a_value]. destruct (a_key a) as [k|]; [|lia].
  pose proof (w_equal_r k (str "id") (Some Lower)) as H. change (length (str "id")) with 2 in H. destruct (is_equal_chars _ _ _); lia.
Qed.
Lemma set_value_spec : forall q st st', set_tag_attr_value q st = ROk st' ->
  name_length (cur st') <= name_length (cur st) /\ d_prev_chars st' = [].
Proof.
  intros q st st' E. unfold set_tag_attr_value in E. change (n_meta (cur (clean_chars st))) with (n_meta (cur st)) in E.
  destruct (n_meta (cur st)) as [m|] eqn:M; [|apply ok_inj in E; subst st'; repeat split; reflexivity].
  destruct (last_opt (m_attrs m)) as [a|]; [|discriminate]. apply ok_inj in E. subst st'.
  destruct (check_if_id _) as [id|].
  all: match goal with |- context [upd_cur (nupd_meta ?f) ?s] => pose proof (nl_cur f s (fun m => eq_refl)) as H end.
  all: split; [exact H|reflexivity].
Qed.
Lemma w_type_le : forall st, w_check_tag_type_do st <= 3 * name_length (cur st) + 50.
Proof.
  intro st. unfold w_check_tag_type_do, name_length. destruct (n_meta (cur st)) as [m|]; [|lia]. rewrite lower_length.
  pose proof (w_content_le (lower (m_name m))). destruct (is_content_tag (lower (m_name m)) None) eqn:E.
  - pose proof (w_script_le (lower (m_name m))). apply content_name_length in E. rewrite lower_length in E. lia.
  - destruct (d_in_special st); [lia|]. destruct (special_tag_map (lower (m_name m))) as [x|] eqn:S; [|lia].
    apply special_length in S. rewrite lower_length in S. lia.
Qed.
Lemma type_do_spec : forall st st', check_tag_type_do st = ROk st' ->
  d_prev_chars st' = d_prev_chars st /\ (d_handle st' = HContent \/ d_handle st' = HWait).
Proof.
  intros st st' E. unfold check_tag_type_do in E. destruct (n_meta (cur st)) as [m|]; [|discriminate].
  destruct (is_content_tag _ None); apply ok_inj in E; subst st'.
  - split; [reflexivity|]. left. destruct (is_equal_chars (lower (m_name m)) SCRIPT_TAG_NAME None), (is_equal_chars (lower (m_name m)) STYLE_TAG_NAME None); reflexivity.
  - split; [|right; reflexivity]. destruct (d_in_special st); reflexivity.
Qed.
Lemma w_meta_le : forall st, w_set_tag_meta st <= 2 * length (d_prev_chars st) + 55.
Proof. intro. unfold w_set_tag_meta, w_clean. pose proof (w_void_le (lower (d_prev_chars st))). lia. Qed.
Lemma meta_spec : forall st, d_prev_chars (snd (set_tag_meta st)) = [] /\ name_length (cur (snd (set_tag_meta st))) <= length (d_prev_chars st).
Proof.
  intro st. split; [reflexivity|]. cbn [snd set_tag_meta].
  match goal with |- context [upd_cur ?f (clean_chars st)] =>
    change (name_length (hget (hupd (d_heap st) (d_current_node st) f) (d_current_node st)) <= length (d_prev_chars st)) end.
  etransitivity; [apply nl_upd|]. unfold name_length. cbn. lia.
Qed.
Lemma pot_wait : forall st, in_tag st = 0 -> pot st = pv (d_prev_chars st).
Proof. intros st E. unfold pot. rewrite E. lia. Qed.
Lemma pot_le : forall st, pot st <= pv (d_prev_chars st) + 4 * name_length (cur st).
Proof. intro. unfold pot. pose proof (in_tag_le st). lia. Qed.

(** ** Work of each handler, whatever its result *)
Lemma w_wait_le : forall st c, d_handle st = HWait -> w_parse_wait st c <= moved st + 1.
Proof.
  intros st c H. unfold w_parse_wait, moved. rewrite H. destruct (N.eqb c TAG_BEGIN_CHAR); [lia|]. destruct (_ && _)%bool; [|lia].
  unfold opt_length. destruct (n_content (cur st)); lia.
Qed.
Lemma w_tag_wait_le : forall st c, w_parse_tag_wait st c <= 3 * name_length (cur st) + 50.
Proof.
  intros. unfold w_parse_tag_wait. destruct (N.eqb c TAG_END_CHAR); [|lia]. pose proof (w_type_le st). destruct (n_meta (cur st)) as [m|]; [|lia].
  destruct (m_is_void m); lia.
Qed.
Lemma w_tag_name_le : forall st c, w_parse_tag_name st c <= 5 * length (d_prev_chars st) + 105.
Proof.
  intros. unfold w_parse_tag_name. pose proof (w_meta_le st). destruct (N.eqb c TAG_END_CHAR).
  - pose proof (meta_spec st) as [_ M]. destruct (set_tag_meta st) as [v s1] eqn:E. cbn [snd] in M. pose proof (w_type_le s1). destruct v; lia.
  - destruct (N.eqb c END_SLASH_CHAR); [lia|]. destruct (is_ascii_whitespace c); lia.
Qed.
Lemma w_attr_key_le : forall st c, w_parse_tag_attr_key st c <= 4 * length (d_prev_chars st) + 3 * name_length (cur st) + 50.
Proof.
  intros. unfold w_parse_tag_attr_key. pose proof (w_set_key_le st). destruct (N.eqb c EQUAL_CHAR); [lia|]. destruct (N.eqb c TAG_END_CHAR).
  - destruct (set_tag_attr_key st) as [s1| |] eqn:E; [|lia|lia]. apply set_key_spec in E. destruct E as (A & _).
    pose proof (w_tag_wait_le (set_tag_code_in TKeyEnd s1) c). pose proof (nl_code TKeyEnd s1). lia.
  - destruct (N.eqb c END_SLASH_CHAR); [lia|]. destruct (is_ascii_whitespace c); lia.
Qed.
Lemma w_attr_value_le : forall st c, w_parse_tag_attr_value st c <= 4 * length (d_prev_chars st) + 3 * name_length (cur st) + 55.
Proof.
  intros. unfold w_parse_tag_attr_value. destruct (_ && _)%bool.
  - pose proof (w_set_value_le None st). destruct (set_tag_attr_value None st) as [s1| |] eqn:E; [|lia|lia]. apply set_value_spec in E. destruct E as (A & _).
    pose proof (w_tag_wait_le (set_tag_code_in TValueEnd s1) c). pose proof (nl_code TValueEnd s1). lia.
  - destruct (if N.eqb (d_mark_char st) WS_CHAR then _ else _) as [e q]. pose proof (w_set_value_le q st). destruct e; lia.
Qed.
Lemma w_tagend_le : forall st c, opt_special (d_in_special st) <= 4 -> w_parse_tagend st c <= 3 * length (d_prev_chars st) + tw (d_prev_chars st) + 5.
Proof.
  intros st c S. unfold w_parse_tagend. destruct (N.eqb c TAG_END_CHAR); [|lia]. pose proof (w_trim_le (d_prev_chars st)).
  pose proof (trim_length (d_prev_chars st)) as T. destruct (Nat.ltb _ _); [|lia]. destruct (d_chain_nodes st) as [|t ch]; [lia|].
  destruct (n_meta (get_node st t)) as [m|]; [|lia]. pose proof (w_ignore_r (m_name m) (chars_trim_end (d_prev_chars st))). unfold w_clean.
  destruct (fst _); [|lia]. unfold opt_special in S. destruct (d_in_special st) as [[sp n]|]; [|lia].
  pose proof (w_equal_l n (chars_trim_end (d_prev_chars st)) None). lia.
Qed.
Lemma w_content_tag_le : forall st c, opt_length (d_detect st) <= 10 ->
  w_parse_content_tag st c <= 3 * length (d_prev_chars st) + tw (d_prev_chars st) + 12.
Proof.
  intros st c D. unfold w_parse_content_tag. destruct (negb _); [lia|]. destruct (d_detect st) as [e|]; [|lia]. cbn in D.
  destruct (Nat.leb _ (length (d_prev_chars st))); [|lia]. pose proof (w_trim_le (d_prev_chars st)). destruct (Nat.leb _ _); [|lia].
  pose proof (w_back_le (case_sensitive_tagname (d_parse_options st)) (rev e) (rev (chars_trim_end (d_prev_chars st)))) as B. rewrite rev_length in B.
  destruct (match_backward _ _ _); [|lia].
  set (k := length (chars_trim_end (d_prev_chars st)) - length e). pose proof (firstn_le_length k (d_prev_chars st)).
  pose proof (skipn_length k (d_prev_chars st)). pose proof (skipn_length 2 (skipn k (d_prev_chars st))). pose proof (trim_length (d_prev_chars st)). lia.
Qed.
Lemma w_fix_lt_le : forall st c, w_fix_unescaped_lt st c <= 2 * opt_length (n_content (cur st)) + length (d_prev_chars st) + 15.
Proof.
  intros. unfold w_fix_unescaped_lt, w_clean, opt_length. destruct (n_type (cur st)), (n_content (cur st)), (N.eqb c TAG_BEGIN_CHAR); lia.
Qed.
Lemma w_unkown_le : forall st c, d_handle st = HUnkownTag -> w_parse_unkown_tag st c <= 2 * moved st + length (d_prev_chars st) + 15.
Proof.
  intros st c H. unfold w_parse_unkown_tag. destruct (is_ascii_alphabetic c); [lia|]. destruct (N.eqb c END_SLASH_CHAR); [lia|].
  destruct (N.eqb c EXCLAM_CHAR); [lia|]. pose proof (w_fix_lt_le st c) as F. unfold moved. rewrite H. destruct (auto_fix_unescaped_lt _); cbn [negb]; lia.
Qed.
Lemma w_exclam_le : forall st c, opt_special (d_in_special st) <= 4 -> w_parse_exclamation_begin st c <= 15.
Proof.
  intros st c S. unfold w_parse_exclamation_begin. destruct (d_detect st); [lia|]. destruct (N.eqb c DASH_CHAR); [cbn; lia|].
  destruct (_ || _)%bool; [cbn; lia|]. destruct (N.eqb c LEFT_BRACKET_CHAR); [|lia]. unfold opt_special in S.
  destruct (d_in_special st) as [[sp n]|]; [|lia]. destruct (d_chain_nodes st) as [|t ch]; [lia|]. destruct (n_meta _) as [m|]; [|lia].
  pose proof (w_equal_l n (m_name m) None). change (length (detect_char_map DXMLCDATA)) with 7. lia.
Qed.
Lemma w_next_le : forall n st c, shape n st -> w_next st c <= pot st + 8 * moved st + 105.
Proof.
  intros n st c SH. pose proof (sh_det _ _ SH) as D. pose proof (sh_sp _ _ SH) as S. unfold w_next.
  pose proof (pv_ge (d_prev_chars st)) as G. unfold pot. unfold pv in *. unfold in_tag. destruct (d_handle st) eqn:H.
  - lia.
  - pose proof (w_wait_le st c H). lia.
  - unfold w_parse_text, w_clean. destruct (N.eqb _ _); lia.
  - unfold w_parse_doctype_name. pose proof (w_meta_le st). destruct (is_ascii_whitespace c); lia.
  - pose proof (w_tag_name_le st c). lia.
  - unfold w_parse_tag_self_closing. pose proof (w_tag_wait_le st c). destruct (N.eqb c TAG_END_CHAR); [lia|]. destruct (N.eqb c END_SLASH_CHAR); lia.
  - pose proof (w_tag_wait_le st c). lia.
  - pose proof (w_attr_key_le st c). lia.
  - pose proof (w_attr_value_le st c). lia.
  - pose proof (w_tagend_le st c S). lia.
  - pose proof (w_content_tag_le st c D). lia.
  - unfold w_parse_comment_or_cdata. destruct (_ && _)%bool; lia.
  - pose proof (w_unkown_le st c H). lia.
  - pose proof (w_exclam_le st c S). lia.
Qed.

(** ** Work against potential *)
Definition tag_handle (h : next_handle) : bool := match h with HSelfClosing | HTagWait | HAttrKey | HAttrValue => true | _ => false end.
Lemma pot_of : forall st h p, d_handle st = h -> d_prev_chars st = p -> tag_handle h = false -> pot st <= pv p.
Proof. intros st h p <- <-. unfold pot, in_tag. destruct (d_handle st); cbn; intro E; try discriminate E; lia. Qed.
Lemma add_pots : forall n st st', add_new_node n st = ROk st' -> d_prev_chars st' = d_prev_chars st /\ d_handle st' = d_handle st.
Proof.
  intros n st st' E. unfold add_new_node in E. destruct (node_type_eqb (n_type n) NTagEnd); [apply ok_inj in E; subst st'; split; reflexivity|].
  destruct (d_chain_nodes st) as [|p ch]; [discriminate|]. destruct (match n_childs (get_node st p) with Some _ => _ | None => _ end) as [i l].
  apply ok_inj in E. subst st'. destruct (node_type_eqb (n_type n) NTag); split; reflexivity.
Qed.
Lemma spaces_pots : forall st, d_prev_chars (set_text_spaces_between st) = d_prev_chars st /\ d_handle (set_text_spaces_between st) = d_handle st.
Proof. intro. unfold set_text_spaces_between. destruct (d_check_textnode st); split; reflexivity. Qed.

Lemma b_wait : forall st c st', d_handle st = HWait -> parse_wait st c = ROk st' -> pot st' <= pv (d_prev_chars st) + 7 * moved st + 7.
Proof.
  intros st c st' H E. unfold parse_wait in E. destruct (N.eqb c TAG_BEGIN_CHAR).
  { apply ok_inj in E. subst st'. etransitivity; [apply (pot_of _ HUnkownTag (d_prev_chars st)); reflexivity|]. lia. }
  unfold moved. rewrite H. destruct (_ && _)%bool.
  - apply ok_inj in E. subst st'. destruct (n_content (cur st)) as [x|]; cbn [opt_length].
    + etransitivity; [apply (pot_of _ HText ((d_prev_chars st ++ x) ++ [c])); reflexivity|].
      unfold pv. rewrite tw_snoc, !app_length. cbn [length].
      assert (T : tw (d_prev_chars st ++ x) <= tw (d_prev_chars st) + length x).
      { clear. induction x as [|y x IH] using rev_ind; [rewrite app_nil_r; lia|]. rewrite app_assoc, tw_snoc, app_length. cbn. destruct (is_ascii_whitespace y); lia. }
      destruct (is_ascii_whitespace c); lia.
    + etransitivity; [apply (pot_of _ HText (d_prev_chars st ++ [c])); reflexivity|]. pose proof (pv_snoc (d_prev_chars st) c). lia.
  - destruct (add_new_node _ st) as [s1| |] eqn:A; cbn [rbind] in E; try discriminate. apply ok_inj in E. subst st'. apply add_pots in A. destruct A as [A _].
    etransitivity; [apply (pot_of _ HText (d_prev_chars s1 ++ [c])); reflexivity|]. rewrite A. pose proof (pv_snoc (d_prev_chars st) c). lia.
Qed.
Lemma b_text : forall st c st', d_handle st = HText -> parse_text st c = ROk st' -> w_parse_text st c + pot st' <= pv (d_prev_chars st) + 8.
Proof.
  intros st c st' H E. unfold parse_text in E. unfold w_parse_text, w_clean. destruct (N.eqb c TAG_BEGIN_CHAR).
  - apply ok_inj in E. subst st'. pose proof (pv_ge (d_prev_chars st)).
    match goal with |- _ + pot ?s <= _ => pose proof (pot_of s HUnkownTag [] eq_refl eq_refl eq_refl) as P end. rewrite pv_nil in P. lia.
  - apply ok_inj in E. subst st'. pose proof (pv_snoc (d_prev_chars st) c).
    destruct (d_repeat_whitespace st).
    + pose proof (pot_of (push_char c (set_repeat_whitespace (is_ascii_whitespace c) st)) HText (d_prev_chars st ++ [c]) H eq_refl eq_refl). lia.
    + pose proof (pot_of (push_char c st) HText (d_prev_chars st ++ [c]) H eq_refl eq_refl). lia.
Qed.
Lemma b_doctype_name : forall st c st', parse_doctype_name st c = ROk st' -> w_parse_doctype_name st c + pot st' <= pv (d_prev_chars st) + 55.
Proof.
  intros st c st' E. unfold parse_doctype_name in E. unfold w_parse_doctype_name. destruct (is_ascii_whitespace c); [|discriminate].
  apply ok_inj in E. subst st'. pose proof (w_meta_le st). pose proof (pv_ge (d_prev_chars st)). destruct (meta_spec st) as [P M].
  pose proof (pot_le (set_tag_code_in TWait (snd (set_tag_meta st)))) as Q. rewrite prev_code, P, pv_nil in Q.
  pose proof (nl_code TWait (snd (set_tag_meta st))). lia.
Qed.
Lemma b_tag_name : forall st c st', d_handle st = HTagName -> parse_tag_name st c = ROk st' -> w_parse_tag_name st c + pot st' <= pv (d_prev_chars st) + 110.
Proof.
  intros st c st' H E. pose proof (w_tag_name_le st c) as W. unfold parse_tag_name in E. pose proof (pv_ge (d_prev_chars st)) as G.
  pose proof (w_meta_le st) as WM. destruct (meta_spec st) as [P M]. destruct (N.eqb c TAG_END_CHAR) eqn:C1.
  - destruct (set_tag_meta st) as [v s1]. cbn [snd] in P, M. destruct v.
    + apply ok_inj in E. subst st'. match goal with |- _ + pot ?s <= _ => pose proof (pot_of s HWait (d_prev_chars s1) eq_refl eq_refl eq_refl) as Q end.
      rewrite P, pv_nil in Q. lia.
    + apply type_do_spec in E. destruct E as [E1 E2]. pose proof (fun h x => pot_of st' h _ x E1) as Q. rewrite P, pv_nil in Q. destruct E2 as [E2|E2]; specialize (Q _ E2 eq_refl); lia.
  - unfold w_parse_tag_name in *. rewrite C1 in *. destruct (N.eqb c END_SLASH_CHAR).
    + apply ok_inj in E. subst st'. pose proof (pot_le (set_handle HSelfClosing (snd (set_tag_meta st)))) as Q. change (d_prev_chars (set_handle HSelfClosing (snd (set_tag_meta st)))) with (@nil char) in Q. rewrite pv_nil in Q.
      change (cur (set_handle HSelfClosing (snd (set_tag_meta st)))) with (cur (snd (set_tag_meta st))) in Q. lia.
    + destruct (is_ascii_whitespace c).
      * apply ok_inj in E. subst st'. pose proof (pot_le (set_tag_code_in TWait (snd (set_tag_meta st)))) as Q. rewrite prev_code, P, pv_nil in Q.
        pose proof (nl_code TWait (snd (set_tag_meta st))). lia.
      * apply ok_inj in E. subst st'. pose proof (pot_of (push_char c st) _ (d_prev_chars st ++ [c]) H eq_refl eq_refl) as Q. pose proof (pv_snoc (d_prev_chars st) c). lia.
Qed.
Lemma b_tag_wait : forall st c st', parse_tag_wait st c = ROk st' ->
  w_parse_tag_wait st c + pot st' <= pv (d_prev_chars st) + 4 * name_length (cur st) + 58.
Proof.
  intros st c st' E. pose proof (w_tag_wait_le st c) as W. unfold parse_tag_wait in E. pose proof (pv_snoc (d_prev_chars st) c) as PS.
  assert (Z : d_prev_chars st' = d_prev_chars st /\ (d_handle st' = HContent \/ d_handle st' = HWait) \/
              w_parse_tag_wait st c <= 1 /\ (d_prev_chars st' = d_prev_chars st \/ d_prev_chars st' = d_prev_chars st ++ [c]) /\ name_length (cur st') <= name_length (cur st)).
  { destruct (_ || _)%bool eqn:C0.
    - right. split.
      { unfold w_parse_tag_wait. destruct (N.eqb c TAG_END_CHAR) eqn:C1; [|lia]. apply N.eqb_eq in C1. subst c. discriminate C0. }
      destruct (tag_code_of st) as [code| |]; cbn [rbind] in E; try discriminate. destruct (tag_code_in_eqb code TWaitValue).
      + apply ok_inj in E. subst st'. split; [left; reflexivity|]. apply (nl_code TValue (set_mark_char c st)).
      + assert (K : d_prev_chars (set_tag_code_in TKey (push_char c (add_tag_attr_key st))) = d_prev_chars st ++ [c] /\
           name_length (cur (set_tag_code_in TKey (push_char c (add_tag_attr_key st)))) <= name_length (cur st)).
        { split; [reflexivity|]. etransitivity; [apply nl_code|]. apply (nl_add_key st). }
        destruct (d_code_in st); try (apply ok_inj in E; subst st'; destruct K; split; [right; assumption|assumption]).
        destruct (add_tag_attr_value (Some c) st) as [s1| |] eqn:A; cbn [rbind] in E; try discriminate. apply ok_inj in E. subst st'.
        apply add_value_spec in A. destruct A as [A1 A2]. split; [left; exact A2|].
        etransitivity; [apply (nl_code TValue (set_mark_char c s1))|]. exact A1.
    - destruct (N.eqb c TAG_END_CHAR) eqn:C1.
      + left. destruct (n_meta (cur st)) as [m|]; [|discriminate]. destruct (m_is_void m).
        * apply ok_inj in E. subst st'. split; [reflexivity|right; reflexivity].
        * apply type_do_spec in E. exact E.
      + right. split; [unfold w_parse_tag_wait; rewrite C1; lia|]. destruct (N.eqb c END_SLASH_CHAR).
        { apply ok_inj in E. subst st'. split; [left|]; reflexivity. }
        destruct (N.eqb c EQUAL_CHAR).
        { destruct (tag_code_of st) as [code| |]; cbn [rbind] in E; try discriminate. destruct (tag_code_in_eqb code TKeyEnd).
          - apply ok_inj in E. subst st'. split; [left; apply prev_code|]. apply nl_code.
          - destruct (tag_code_in_eqb code TWait).
            + destruct (negb _); [discriminate|]. apply ok_inj in E. subst st'. split; [right; reflexivity|].
              etransitivity; [apply nl_code|]. apply (nl_add_key (push_char c st)).
            + apply ok_inj in E. subst st'. split; [right; reflexivity|]. apply (nl_code TValue (set_mark_char WS_CHAR (push_char c st))). }
        destruct (is_ascii_whitespace c). { apply ok_inj in E. subst st'. split; [left|]; reflexivity. }
        cbv zeta in E. destruct (tag_code_of (push_char c st)) as [code| |]; cbn [rbind] in E; try discriminate. destruct (tag_code_in_eqb code TWaitValue).
        * apply ok_inj in E. subst st'. split; [right; reflexivity|]. apply (nl_code TValue (set_mark_char WS_CHAR (push_char c st))).
        * apply ok_inj in E. subst st'. split; [right; reflexivity|]. etransitivity; [apply nl_code|]. apply (nl_add_key (push_char c st)). }
  destruct Z as [[Z1 Z2]|(Z1 & Z2 & Z3)].
  - pose proof (fun h x => pot_of st' h _ x Z1) as Q. destruct Z2 as [Z2|Z2]; specialize (Q _ Z2 eq_refl); lia.
  - pose proof (pot_le st') as Q. destruct Z2 as [Z2|Z2]; rewrite Z2 in Q; lia.
Qed.
Lemma b_self : forall st c st', parse_tag_self_closing st c = ROk st' ->
  w_parse_tag_self_closing st c + pot st' <= pv (d_prev_chars st) + 4 * name_length (cur st) + 58.
Proof.
  intros st c st' E. unfold parse_tag_self_closing in E. unfold w_parse_tag_self_closing. destruct (N.eqb c TAG_END_CHAR).
  - destruct (n_meta (cur st)) as [m|]; [|discriminate]. destruct (_ && _)%bool; [unfold doc_error in E; discriminate|]. apply ok_inj in E. subst st'.
    match goal with |- _ + pot ?s <= _ => pose proof (pot_of s HWait (d_prev_chars st) eq_refl eq_refl eq_refl) as Q end. lia.
  - destruct (N.eqb c END_SLASH_CHAR); [|apply b_tag_wait; exact E]. apply ok_inj in E. subst st'. pose proof (pot_le st). lia.
Qed.
Lemma b_key : forall st c st', d_handle st = HAttrKey -> parse_tag_attr_key st c = ROk st' ->
  w_parse_tag_attr_key st c + pot st' <= pv (d_prev_chars st) + 4 * name_length (cur st) + 58.
Proof.
  intros st c st' H E. unfold parse_tag_attr_key in E. unfold w_parse_tag_attr_key. pose proof (pv_ge (d_prev_chars st)) as G.
  pose proof (w_set_key_le st) as W. destruct (set_tag_attr_key st) as [s1| |] eqn:S; cbn [rbind] in E.
  2,3: destruct (N.eqb c EQUAL_CHAR); [discriminate|]; destruct (N.eqb c TAG_END_CHAR); [discriminate|];
       destruct (N.eqb c END_SLASH_CHAR); [discriminate|]; destruct (is_ascii_whitespace c); [discriminate|];
       apply ok_inj in E; subst st'; pose proof (pot_le (push_char c st)) as Q; pose proof (pv_snoc (d_prev_chars st) c);
       change (d_prev_chars (push_char c st)) with (d_prev_chars st ++ [c]) in Q; change (cur (push_char c st)) with (cur st) in Q; lia.
  apply set_key_spec in S. destruct S as (S1 & S2 & _). destruct (N.eqb c EQUAL_CHAR).
  - apply ok_inj in E. subst st'. pose proof (pot_le (set_tag_code_in TWaitValue s1)) as Q. rewrite prev_code, S2, pv_nil in Q. pose proof (nl_code TWaitValue s1). lia.
  - destruct (N.eqb c TAG_END_CHAR).
    + apply b_tag_wait in E. rewrite prev_code, S2, pv_nil in E. pose proof (nl_code TKeyEnd s1). lia.
    + destruct (N.eqb c END_SLASH_CHAR).
      * apply ok_inj in E. subst st'. pose proof (pot_le (set_handle HSelfClosing (set_tag_code_in TWait s1))) as Q. pose proof (nl_code TWait s1).
        change (d_prev_chars (set_handle HSelfClosing (set_tag_code_in TWait s1))) with (d_prev_chars s1) in Q. rewrite S2, pv_nil in Q.
        change (cur (set_handle HSelfClosing (set_tag_code_in TWait s1))) with (cur (set_tag_code_in TWait s1)) in Q. lia.
      * destruct (is_ascii_whitespace c); apply ok_inj in E; subst st'.
        { pose proof (pot_le (set_handle HTagWait (set_tag_code_in TKeyEnd s1))) as Q. pose proof (nl_code TKeyEnd s1).
          change (d_prev_chars (set_handle HTagWait (set_tag_code_in TKeyEnd s1))) with (d_prev_chars s1) in Q. rewrite S2, pv_nil in Q.
          change (cur (set_handle HTagWait (set_tag_code_in TKeyEnd s1))) with (cur (set_tag_code_in TKeyEnd s1)) in Q. lia. }
        pose proof (pot_le (push_char c st)) as Q; pose proof (pv_snoc (d_prev_chars st) c).
        change (d_prev_chars (push_char c st)) with (d_prev_chars st ++ [c]) in Q; change (cur (push_char c st)) with (cur st) in Q; lia.
Qed.
Lemma b_value : forall st c st', d_handle st = HAttrValue -> parse_tag_attr_value st c = ROk st' ->
  w_parse_tag_attr_value st c + pot st' <= pv (d_prev_chars st) + 4 * name_length (cur st) + 62.
Proof.
  intros st c st' H E. unfold parse_tag_attr_value in E. unfold w_parse_tag_attr_value. pose proof (pv_ge (d_prev_chars st)) as G.
  destruct (N.eqb (d_mark_char st) WS_CHAR && N.eqb c TAG_END_CHAR)%bool.
  - pose proof (w_set_value_le None st) as W. destruct (set_tag_attr_value None st) as [s1| |] eqn:S; cbn [rbind] in E; try discriminate.
    apply set_value_spec in S. destruct S as (S1 & S2). apply b_tag_wait in E. rewrite prev_code, S2, pv_nil in E. pose proof (nl_code TValueEnd s1). lia.
  - destruct (if N.eqb (d_mark_char st) WS_CHAR then _ else _) as [e q]. pose proof (w_set_value_le q st) as W. destruct e.
    + destruct (set_tag_attr_value q (set_mark_char EOF_CHAR st)) as [s1| |] eqn:S; cbn [rbind] in E; try discriminate. apply ok_inj in E. subst st'.
      apply set_value_spec in S. destruct S as (S1 & S2). change (cur (set_mark_char EOF_CHAR st)) with (cur st) in S1.
      pose proof (pot_le (set_tag_code_in TWait s1)) as Q. rewrite prev_code, S2, pv_nil in Q. pose proof (nl_code TWait s1). lia.
    + apply ok_inj in E. subst st'. pose proof (pot_le (push_char c st)) as Q; pose proof (pv_snoc (d_prev_chars st) c).
      change (d_prev_chars (push_char c st)) with (d_prev_chars st ++ [c]) in Q; change (cur (push_char c st)) with (cur st) in Q; lia.
Qed.
Lemma b_tagend : forall st c st', d_handle st = HTagEnd -> opt_special (d_in_special st) <= 4 -> parse_tagend st c = ROk st' ->
  w_parse_tagend st c + pot st' <= pv (d_prev_chars st) + 8.
Proof.
  intros st c st' H S E. pose proof (w_tagend_le st c S) as W. assert (G : 3 * length (d_prev_chars st) + tw (d_prev_chars st) <= pv (d_prev_chars st)) by (unfold pv; lia).
  unfold parse_tagend in E. destruct (N.eqb c TAG_END_CHAR) eqn:C.
  - assert (Z : d_prev_chars st' = [] /\ d_handle st' = HWait).
    { destruct (if Nat.ltb 1 (length (d_chain_nodes st)) then _ else _) as [ok| |]; cbn [rbind] in E; try discriminate. destruct ok.
      - destruct (d_chain_nodes st) as [|t ch]; [discriminate|]. apply ok_inj in E. subst st'. split; [reflexivity|].
        match goal with |- context [clean_chars ?s] => set (s4 := s) end. match goal with |- d_handle ?s = _ => change (d_handle s4 = HWait) end. unfold s4.
        match goal with |- context [d_in_special ?s] => set (s3 := s) end. assert (H3 : d_handle s3 = HWait) by reflexivity. clearbody s3.
        destruct (d_in_special s3) as [[sp nm]|]; [destruct (is_equal_chars nm _ None)|]; exact H3.
      - destruct (negb _); [unfold doc_error in E; discriminate|].
        match type of E with rbind ?r _ = _ => destruct r as [s1| |] end; cbn [rbind] in E; try discriminate. apply ok_inj in E. subst st'. split; reflexivity. }
    destruct Z as [Z1 Z2]. pose proof (pot_of _ _ _ Z2 Z1 eq_refl) as Q. rewrite pv_nil in Q. lia.
  - unfold w_parse_tagend. rewrite C. apply ok_inj in E. subst st'. pose proof (pot_of (push_char c st) _ (d_prev_chars st ++ [c]) H eq_refl eq_refl) as Q.
    pose proof (pv_snoc (d_prev_chars st) c). lia.
Qed.
Lemma b_content : forall st c st', d_handle st = HContent -> opt_length (d_detect st) <= 10 -> parse_content_tag st c = ROk st' ->
  w_parse_content_tag st c + pot st' <= pv (d_prev_chars st) + 18.
Proof.
  intros st c st' H D E. pose proof (w_content_tag_le st c D) as W. unfold parse_content_tag in E. unfold w_parse_content_tag in *.
  destruct (N.eqb c TAG_END_CHAR) eqn:C; cbn [negb] in *.
  2:{ apply ok_inj in E. subst st'. pose proof (pot_of (push_char c st) _ (d_prev_chars st ++ [c]) H eq_refl eq_refl) as Q. pose proof (pv_snoc (d_prev_chars st) c). lia. }
  apply N.eqb_eq in C. subst c. destruct (d_detect st) as [e|]; [|discriminate]. cbn in D. cbv zeta in *.
  assert (K : pot (push_char TAG_END_CHAR st) <= 6 * length (d_prev_chars st) + 6).
  { pose proof (pot_of (push_char TAG_END_CHAR st) _ (d_prev_chars st ++ [TAG_END_CHAR]) H eq_refl eq_refl) as Q. unfold pv in Q. rewrite tw_snoc, app_length in Q.
    change (is_ascii_whitespace TAG_END_CHAR) with false in Q. cbn [length] in Q. lia. }
  pose proof (w_trim_le (d_prev_chars st)) as WT.
  pose proof (w_back_le (case_sensitive_tagname (d_parse_options st)) (rev e) (rev (chars_trim_end (d_prev_chars st)))) as B. rewrite rev_length in B.
  destruct (Nat.leb (length e) (length (d_prev_chars st))); cbn [andb] in *; [|apply ok_inj in E; subst st'; unfold pv; lia].
  destruct (Nat.leb (length e) (length (chars_trim_end (d_prev_chars st)))); cbn [andb] in *; [|apply ok_inj in E; subst st'; unfold pv; lia].
  destruct (match_backward _ _ _); cbn [andb] in *; [|apply ok_inj in E; subst st'; unfold pv; lia].
  apply ok_inj in E. subst st'. match goal with |- _ + pot ?s <= _ => pose proof (pot_of s HWait [] eq_refl eq_refl eq_refl) as Q end. rewrite pv_nil in Q. unfold pv. lia.
Qed.
Lemma b_comment : forall st c st', d_handle st = HCommentOrCdata -> parse_comment_or_cdata st c = ROk st' ->
  w_parse_comment_or_cdata st c + pot st' <= pv (d_prev_chars st) + 8.
Proof.
  intros st c st' H E. unfold parse_comment_or_cdata in E. unfold w_parse_comment_or_cdata. pose proof (pv_ge (d_prev_chars st)). destruct (_ && _)%bool; apply ok_inj in E; subst st'.
  - match goal with |- _ + pot ?s <= _ => pose proof (pot_of s HWait [] eq_refl eq_refl eq_refl) as Q end. rewrite pv_nil in Q. lia.
  - pose proof (pot_of (push_char c st) _ (d_prev_chars st ++ [c]) H eq_refl eq_refl) as Q. pose proof (pv_snoc (d_prev_chars st) c). lia.
Qed.
Lemma b_fix_lt : forall st c st', d_handle st = HUnkownTag -> fix_unescaped_lt st c = ROk st' ->
  w_fix_unescaped_lt st c + pot st' <= pv (d_prev_chars st) + 8 * opt_length (n_content (cur st)) + 50.
Proof.
  intros st c st' H E. pose proof (pv_ge (d_prev_chars st)) as G. pose proof (w_fix_lt_le st c) as W. unfold fix_unescaped_lt in E.
  match type of E with context [let '(x, y) := ?p in _] => remember p as q eqn:Q; destruct q as [s1 parent] end.
  match type of E with context [set_code CTextNode (set_repeat_whitespace false ?s)] => set (s2 := s) in * end.
  destruct (N.eqb c TAG_BEGIN_CHAR) eqn:C.
  - assert (T : d_handle (set_code CTextNode (set_repeat_whitespace false s2)) = HText) by reflexivity. clearbody s2.
    unfold parse_text in E. rewrite C in E. apply ok_inj in E. subst st'.
    match goal with |- _ + pot ?s <= _ => pose proof (pot_of s HUnkownTag [] eq_refl eq_refl eq_refl) as P end. rewrite pv_nil in P. lia.
  - apply ok_inj in E. subst st'. pose proof (pot_of (set_code CTextNode (set_repeat_whitespace false s2)) HText (d_prev_chars s2) eq_refl eq_refl eq_refl) as P.
    assert (Z : w_fix_unescaped_lt st c <= opt_length (n_content (cur st)) + 10).
    { unfold w_fix_unescaped_lt, opt_length. rewrite C. destruct (n_type (cur st)), (n_content (cur st)); lia. }
    assert (Y : pv (d_prev_chars s2) <= 7 * opt_length (n_content (cur st)) + pv (d_prev_chars st) + 35); [|lia].
    assert (A : parent = None /\ (d_prev_chars s1 = d_prev_chars st \/ exists x, n_content (cur st) = Some x /\ d_prev_chars s1 = x ++ str "&lt;" ++ [c]) \/ exists p, parent = Some p).
    { assert (D : parent = None \/ exists p, parent = Some p) by (destruct parent as [p|]; [right; exists p|left]; reflexivity).
      destruct D as [D|D]; [left; split; [exact D|]; subst parent|right; exact D].
      destruct (n_type (cur st)); try discriminate Q; cbn [node_type_eqb] in Q.
      all: try (destruct (n_content (cur st)) as [x|]; injection Q as ->; [right; exists x; split; reflexivity|left; reflexivity]).
      match type of Q with _ = (if ?b then _ else _) => destruct b; discriminate Q end. }
    unfold s2. destruct A as [[-> [A|(x & A1 & A2)]]|[p ->]].
    + rewrite A. lia.
    + rewrite A1, A2. cbn [opt_length]. etransitivity; [apply pv_le|]. rewrite !app_length. change (length (str "&lt;")) with 4. cbn [length]. lia.
    + match goal with |- pv (d_prev_chars (set_prev_chars ?x _)) <= _ => change (pv x <= 7 * opt_length (n_content (cur st)) + pv (d_prev_chars st) + 35) end.
      etransitivity; [apply pv_le|]. cbn. lia.
Qed.
Lemma b_unkown : forall st c st', d_handle st = HUnkownTag -> parse_unkown_tag st c = ROk st' ->
  w_parse_unkown_tag st c + pot st' <= pv (d_prev_chars st) + 8 * moved st + 50.
Proof.
  intros st c st' H E. unfold parse_unkown_tag in E. unfold w_parse_unkown_tag. destruct (is_ascii_alphabetic c).
  - destruct (add_new_node _ st) as [s1| |] eqn:A; cbn [rbind] in E; try discriminate. apply ok_inj in E. subst st'. apply add_pots in A. destruct A as [A _].
    destruct (spaces_pots (set_code CTag s1)) as [S1 S2]. change (d_prev_chars (set_code CTag s1)) with (d_prev_chars s1) in S1. rewrite A in S1.
    pose proof (pot_of (push_char c (set_text_spaces_between (set_code CTag s1))) HTagName (d_prev_chars st ++ [c]) S2) as Q.
    assert (Q' := Q (f_equal (fun l => l ++ [c]) S1) eq_refl). clear Q. pose proof (pv_snoc (d_prev_chars st) c). lia.
  - destruct (N.eqb c END_SLASH_CHAR).
    + destruct (add_new_node _ st) as [s1| |] eqn:A; cbn [rbind] in E; destruct (negb _); try discriminate; apply ok_inj in E; subst st'; apply add_pots in A; destruct A as [A _].
      all: match goal with |- _ + pot ?s <= _ => pose proof (pot_of s HTagEnd (d_prev_chars s1) eq_refl eq_refl eq_refl) as Q end; rewrite A in Q; lia.
    + destruct (N.eqb c EXCLAM_CHAR).
      { apply ok_inj in E. subst st'. pose proof (pot_of (set_code CExclamationBegin st) HExclamation (d_prev_chars st) eq_refl eq_refl eq_refl). lia. }
      unfold moved. rewrite H. destruct (auto_fix_unescaped_lt _); cbn [negb] in *; [|discriminate]. apply b_fix_lt; assumption.
Qed.
Lemma b_exclam : forall st c st', d_handle st = HExclamation -> opt_special (d_in_special st) <= 4 -> parse_exclamation_begin st c = ROk st' ->
  w_parse_exclamation_begin st c + pot st' <= pv (d_prev_chars st) + 25.
Proof.
  intros st c st' H S E. pose proof (w_exclam_le st c S) as W. pose proof (pv_snoc (d_prev_chars st) c) as PS.
  assert (Z : pot st' <= pv (d_prev_chars st) + 7); [|lia]. clear W S.
  assert (PU : forall x, pot (push_char c (set_detect x st)) <= pv (d_prev_chars st) + 7).
  { intro x. pose proof (pot_of (push_char c (set_detect x st)) HExclamation (d_prev_chars st ++ [c]) H eq_refl eq_refl). lia. }
  assert (PU0 : pot (push_char c st) <= pv (d_prev_chars st) + 7).
  { pose proof (pot_of (push_char c st) HExclamation (d_prev_chars st ++ [c]) H eq_refl eq_refl). lia. }
  unfold parse_exclamation_begin in E. destruct (d_detect st) as [nx|].
  - destruct (Nat.ltb _ _); [|apply ok_inj in E; subst st'; exact PU0]. destruct (N.eqb _ _); [|discriminate].
    destruct (Nat.eqb _ _); [|apply ok_inj in E; subst st'; exact PU0].
    destruct (N.eqb c DASH_CHAR || N.eqb c LEFT_BRACKET_CHAR)%bool.
    + assert (HM : forall s, d_prev_chars s = [] -> d_handle s = HCommentOrCdata -> pot s <= pv (d_prev_chars st) + 7).
      { intros s P1 P2. pose proof (pot_of s _ _ P2 P1 eq_refl) as Q. rewrite pv_nil in Q. lia. }
      destruct (N.eqb c DASH_CHAR).
      all: destruct (add_new_node _ _) as [s1| |] eqn:Ea; cbn [rbind] in E; try discriminate; apply ok_inj in E; subst st'; apply add_pots in Ea; destruct Ea as [_ Ea];
           destruct (spaces_pots (set_prev_chars [] s1)) as [S1 S2]; apply HM; [exact S1|]; etransitivity; [exact S2|]; exact Ea.
    + destruct (N.eqb c 69 || N.eqb c 101)%bool; [|discriminate].
      destruct (add_new_node _ _) as [s1| |] eqn:Ea; cbn [rbind] in E; try discriminate. apply ok_inj in E. subst st'. apply add_pots in Ea. destruct Ea as [Ea1 Ea2].
      destruct (spaces_pots s1) as [S1 S2]. change (d_prev_chars (set_code CHTMLDOCTYPE st)) with (d_prev_chars st) in Ea1.
      assert (Q := pot_of (push_char c (set_detect None (set_text_spaces_between s1))) HDoctypeName (d_prev_chars st ++ [c])).
      assert (Q1 := Q (eq_trans S2 Ea2) (f_equal (fun l => l ++ [c]) (eq_trans S1 Ea1)) eq_refl). clear Q. lia.
  - destruct (if N.eqb c DASH_CHAR then _ else _) as [dt| |]; cbn [rbind] in E; try discriminate. apply ok_inj in E. subst st'. apply PU.
Qed.

Theorem work_step : forall n st c st', shape n st -> next st c = ROk st' -> w_next st c + pot st' <= pot st + 8 * moved st + 110.
Proof.
  intros n st c st' SH E. pose proof (sh_det _ _ SH) as D. pose proof (sh_sp _ _ SH) as S. unfold next in E.
  destruct (run_handle st c) as [s1| |] eqn:R; cbn [rbind] in E; try discriminate. apply ok_inj in E. subst st'.
  change (pot (set_position (d_position s1 + 1) s1)) with (pot s1). unfold run_handle in R. unfold w_next.
  assert (P : pot st = pv (d_prev_chars st) + 4 * in_tag st) by reflexivity. unfold in_tag in P. destruct (d_handle st) eqn:H.
  - apply ok_inj in R. subst s1. lia.
  - pose proof (w_wait_le st c H). apply b_wait in R; [|exact H]. lia.
  - apply b_text in R; [|exact H]. lia.
  - apply b_doctype_name in R. lia.
  - apply b_tag_name in R; [|exact H]. lia.
  - apply b_self in R. lia.
  - apply b_tag_wait in R. lia.
  - apply b_key in R; [|exact H]. lia.
  - apply b_value in R; [|exact H]. lia.
  - apply b_tagend in R; [|exact H|exact S]. lia.
  - apply b_content in R; [|exact H|exact D]. lia.
  - apply b_comment in R; [|exact H]. lia.
  - apply b_unkown in R; [|exact H]. lia.
  - apply b_exclam in R; [|exact H|exact S]. lia.
Qed.

(** ** Without both text repairs nothing is moved again *)
Lemma ty_upd : forall h i f j, (forall n, n_type (f n) = n_type n) -> n_type (hget (hupd h i f) j) = n_type (hget h j).
Proof.
  intros h i f j F. destruct (Nat.eq_dec j i) as [->|N]; [|rewrite hget_hupd_other; auto].
  destruct (Nat.ltb i (length h)) eqn:E.
  - apply Nat.ltb_lt in E. rewrite hget_hupd_same by exact E. apply F.
  - apply Nat.ltb_ge in E. rewrite !hget_default; rewrite ?hupd_length; auto.
Qed.
Lemma ty_flip : forall ck h j, n_type (hget (flip ck h) j) = n_type (hget h j) \/ n_type (hget (flip ck h) j) = NSpacesBetweenTag.
Proof.
  intros [i|] h j; cbn [flip]; [|left; reflexivity]. destruct (Nat.eq_dec j i) as [->|N]; [|left; rewrite hget_hupd_other; auto].
  destruct (Nat.ltb i (length h)) eqn:E.
  - apply Nat.ltb_lt in E. rewrite hget_hupd_same by exact E. right. reflexivity.
  - apply Nat.ltb_ge in E. left. rewrite !hget_default; rewrite ?hupd_length; auto.
Qed.
Lemma ty_opened_new : forall u p t, t <> NText -> n_type (hget (opened u p t) (length (d_heap u))) <> NText.
Proof.
  intros u p t T. unfold opened. destruct (ty_flip (d_check_textnode u) (add_child (d_heap u) p (node_new t (d_mem_position u))) (length (d_heap u))) as [E|E];
    rewrite E; [|discriminate]. unfold add_child. rewrite ty_upd by reflexivity. rewrite hget_app_new. exact T.
Qed.
Lemma bw : forall u s st, bstep u s st -> d_handle st = HWait -> auto_fix_unclosed_tag (d_parse_options u) = false -> n_type (cur st) <> NText.
Proof.
  intros u s st B. induction B; intros HW F; try discriminate HW; unfold cur, get_node, W_of; cbn [d_heap d_current_node].
  - unfold set_meta. rewrite ty_upd by reflexivity. apply ty_opened_new. discriminate.
  - unfold set_meta. rewrite ty_upd by reflexivity. apply ty_opened_new. discriminate.
  - unfold set_meta. rewrite ty_upd by reflexivity. apply ty_opened_new. discriminate.
  - rewrite ty_upd by reflexivity. rewrite hget_app_old by (rewrite set_meta_length, opened_length; lia).
    unfold set_meta. rewrite ty_upd by reflexivity. apply ty_opened_new. discriminate.
  - unfold closed_heap. cbv zeta. rewrite !ty_upd by reflexivity. rewrite F.
    assert (Z : n_type (hget (hupd (d_heap u ++ [node_new NTagEnd (d_mem_position u)]) tag (nset_end_tag (Some (length (d_heap u))))) (length (d_heap u))) = NTagEnd).
    { rewrite ty_upd by reflexivity. rewrite hget_app_new. reflexivity. }
    match goal with |- n_type (hget (if ?b then _ else _) _) <> _ => destruct b end; [rewrite Z; discriminate|].
    match goal with |- n_type (hget (flip ?ck ?h) ?j) <> _ => destruct (ty_flip ck h j) as [E|E]; rewrite E end; [rewrite Z|]; discriminate.
  - rewrite F. unfold dropped_heap. cbv zeta. rewrite F, hget_app_new. discriminate.
  - rewrite !ty_upd by reflexivity. apply ty_opened_new. discriminate.
  - rewrite !ty_upd by reflexivity. apply ty_opened_new. discriminate.
  - unfold set_meta. rewrite ty_upd by reflexivity. apply ty_opened_new. discriminate.
  - exfalso. revert HW. unfold lt_text. destruct (n_type (cur u)); try destruct (n_content (cur u)); intro Z; discriminate Z.
  - apply IHB; [exact HW|]. unfold lt_text. destruct (n_type (cur u)); try exact F. destruct (n_content (cur u)); exact F.
Qed.
Lemma bstep_opts : forall u s st, bstep u s st -> d_parse_options st = d_parse_options u.
Proof.
  intros u s st B. induction B; try reflexivity.
  - unfold lt_text. destruct (n_type (cur u)); try reflexivity. destruct (n_content (cur u)); reflexivity.
  - rewrite IHB. unfold lt_text. destruct (n_type (cur u)); try reflexivity. destruct (n_content (cur u)); reflexivity.
Qed.
Lemma bsteps_opts : forall u s st, bsteps u s st -> d_parse_options st = d_parse_options u.
Proof. intros u s st B. induction B; [reflexivity|]. rewrite (bstep_opts _ _ _ H). exact IHB. Qed.
Lemma inm_handle : forall u s st, inm u s st -> d_handle st <> HWait.
Proof.
  intros u s st I. destruct I; try discriminate.
  - unfold st_area. cbn. destruct (ta_mode t) as [[]| |]; discriminate.
  - unfold st_area. cbn. destruct (ta_mode t) as [[]| |]; discriminate.
Qed.
Definition no_text_repair (o : parse_options) : Prop :=
  auto_fix_unescaped_lt o = false /\ (auto_fix_unexpected_endtag o = false \/ auto_fix_unclosed_tag o = false).
Lemma moved_zero : forall o s st, no_text_repair o -> run (doc_new o) s = ROk st -> moved st = 0.
Proof.
  intros o s st [L X] R. pose proof (run_ok s o [] (doc_new o) (init_ok o)) as C. rewrite R in C. destruct C as (B & _ & HI).
  pose proof (k_opts _ _ _ B) as O. unfold moved. rewrite O, L. destruct (d_handle st) eqn:H; try reflexivity.
  destruct X as [X|X]; rewrite ?X; [reflexivity|]. destruct (auto_fix_unexpected_endtag o); [|reflexivity]. cbn [andb].
  unfold handle_inv in HI. rewrite H in HI. destruct HI as (_ & _ & _ & HS).
  assert (NT : n_type (cur st) <> NText).
  { destruct (decompose _ _ _ R) as (s1 & s2 & st1 & E & R1 & Bs & [[E2 ->]|I]); [|exfalso; exact (inm_handle _ _ _ I H)].
    inversion Bs as [a|a b u t d B1 B2]; subst; [discriminate|]. eapply bw; [exact B2|exact H|]. rewrite (bsteps_opts _ _ _ B1). exact X. }
  unfold ty in HS. change (hget (d_heap st) (d_current_node st)) with (cur st) in HS. destruct (n_type (cur st)); try reflexivity; [exfalso; apply NT; reflexivity|exfalso; apply HS; reflexivity].
Qed.

(** ** Error messages *)
Lemma code_text_le : forall c, length (code_text c) <= 20.
Proof. destruct c; vm_compute; lia. Qed.
Lemma name_mem : forall st i m, n_meta (get_node st i) = Some m -> length (m_name m) + length (d_prev_chars st) <= mem st.
Proof.
  intros st i m E. pose proof (mem_cur2 st i) as H. unfold get_node in E. assert (length (m_name m) <= node_mem (hget (d_heap st) i)); [|lia].
  unfold node_mem. rewrite E. unfold meta_mem. lia.
Qed.
Definition short (st : doc) (k : error_kind) : Prop := length (kind_text k) <= mem st + 110.
Lemma prev_mem : forall st, length (d_prev_chars st) <= mem st.
Proof. intro st. unfold mem. lia. Qed.
Lemma tag_wait_err : forall st c k i, parse_tag_wait st c = RErr k i -> length (kind_text k) <= 110.
Proof.
  intros st c k i E. unfold parse_tag_wait in E. assert (T : forall k0 i0, tag_code_of st <> RErr k0 i0) by (unfold tag_code_of; destruct (n_meta (cur st)); discriminate).
  destruct (_ || _)%bool.
  - destruct (tag_code_of st) as [code| |] eqn:Tc; cbn [rbind] in E; try discriminate; [|exfalso; eapply T; reflexivity].
    destruct (tag_code_in_eqb code TWaitValue); [discriminate|]. destruct (d_code_in st); try discriminate.
    unfold add_tag_attr_value in E. destruct (n_meta (cur st)); discriminate.
  - destruct (N.eqb c TAG_END_CHAR). { unfold check_tag_type_do in E. destruct (n_meta (cur st)) as [m|]; [|discriminate]. destruct (m_is_void m); [discriminate|]. destruct (is_content_tag _ None); discriminate. }
    destruct (N.eqb c END_SLASH_CHAR); [discriminate|]. destruct (N.eqb c EQUAL_CHAR).
    + destruct (tag_code_of st) as [code| |] eqn:Tc; cbn [rbind] in E; try discriminate; [|exfalso; eapply T; reflexivity].
      destruct (tag_code_in_eqb code TKeyEnd); [discriminate|]. destruct (tag_code_in_eqb code TWait); [|discriminate]. destruct (negb _); [|discriminate].
      injection E as <- _. vm_compute. lia.
    + destruct (is_ascii_whitespace c); [discriminate|]. cbv zeta in E. unfold tag_code_of in E. destruct (n_meta (cur (push_char c st))); cbn [rbind] in E; [|discriminate].
      destruct (tag_code_in_eqb _ _); discriminate.
Qed.
Lemma add_no_err : forall n st k i, add_new_node n st <> RErr k i.
Proof.
  intros n st k i E. unfold add_new_node in E. destruct (node_type_eqb (n_type n) NTagEnd); [discriminate|].
  destruct (d_chain_nodes st); [discriminate|]. destruct (match n_childs _ with Some _ => _ | None => _ end); discriminate.
Qed.
Lemma set_key_no_err : forall st k i, set_tag_attr_key st <> RErr k i.
Proof. intros st k i E. unfold set_tag_attr_key in E. cbv zeta in E. destruct (n_meta _) as [m|]; [|discriminate]. destruct (m_attrs m); discriminate. Qed.
Lemma set_value_no_err : forall q st k i, set_tag_attr_value q st <> RErr k i.
Proof. intros q st k i E. unfold set_tag_attr_value in E. cbv zeta in E. destruct (n_meta _) as [m|]; [|discriminate]. destruct (last_opt _); discriminate. Qed.
Lemma type_no_err : forall st k i, check_tag_type_do st <> RErr k i.
Proof. intros st k i E. unfold check_tag_type_do in E. destruct (n_meta _) as [m|]; [|discriminate]. destruct (is_content_tag _ _); discriminate. Qed.
Lemma next_err : forall n st c k i, shape n st -> next st c = RErr k i -> short st k.
Proof.
  intros n st c k i SH E. pose proof (sh_det _ _ SH) as D. pose proof (prev_mem st) as PM. unfold short. unfold next in E.
  destruct (run_handle st c) as [s1|k1 i1|] eqn:R; cbn [rbind] in E; try discriminate. injection E as -> _. unfold run_handle in R.
  destruct (d_handle st); try discriminate R.
  - unfold parse_wait in R. destruct (N.eqb _ _); [discriminate|]. destruct (_ && _)%bool; [discriminate|].
    destruct (add_new_node _ st) eqn:A; cbn [rbind] in R; try discriminate. exfalso. eapply add_no_err; eauto.
  - unfold parse_text in R. destruct (N.eqb _ _); discriminate.
  - unfold parse_doctype_name in R. destruct (is_ascii_whitespace c); [discriminate|]. injection R as <- _. cbn [kind_text]. rewrite !app_length. cbn. lia.
  - unfold parse_tag_name in R. destruct (N.eqb _ _).
    + destruct (set_tag_meta st) as [v s1]. destruct v; [discriminate|]. exfalso. eapply type_no_err; eauto.
    + destruct (N.eqb _ _); [discriminate|]. destruct (is_ascii_whitespace c); discriminate.
  - unfold parse_tag_self_closing in R. destruct (N.eqb _ _).
    + destruct (n_meta (cur st)) as [m|] eqn:M; [|discriminate]. destruct (_ && _)%bool; [|discriminate]. injection R as <- _.
      apply name_mem in M. cbn [kind_text]. rewrite !app_length. cbn. lia.
    + destruct (N.eqb _ _); [discriminate|]. apply tag_wait_err in R. lia.
  - apply tag_wait_err in R. lia.
  - unfold parse_tag_attr_key in R. destruct (set_tag_attr_key st) as [s1| |] eqn:S; cbn [rbind] in R; [|exfalso; eapply set_key_no_err; eauto|].
    + destruct (N.eqb _ _); [discriminate|]. destruct (N.eqb _ _); [apply tag_wait_err in R; lia|]. destruct (N.eqb _ _); [discriminate|]. destruct (is_ascii_whitespace c); discriminate.
    + destruct (N.eqb _ _); [discriminate|]. destruct (N.eqb _ _); [discriminate|]. destruct (N.eqb _ _); [discriminate|]. destruct (is_ascii_whitespace c); discriminate.
  - unfold parse_tag_attr_value in R. destruct (_ && _)%bool.
    + destruct (set_tag_attr_value None st) as [s1| |] eqn:S; cbn [rbind] in R; [apply tag_wait_err in R; lia|exfalso; eapply set_value_no_err; eauto|discriminate].
    + destruct (if N.eqb (d_mark_char st) WS_CHAR then _ else _) as [e q]. destruct e; [|discriminate].
      destruct (set_tag_attr_value q _) as [s1| |] eqn:S; cbn [rbind] in R; [discriminate|exfalso; eapply set_value_no_err; eauto|discriminate].
  - unfold parse_tagend in R. destruct (N.eqb c TAG_END_CHAR); [|discriminate].
    match type of R with rbind ?r _ = _ => destruct r as [ok|k2 i2|] eqn:Ro end; cbn [rbind] in R; try discriminate.
    + destruct ok. { destruct (d_chain_nodes st); discriminate. } destruct (negb _).
      { injection R as <- _. cbn [kind_text]. rewrite !app_length. cbn. lia. }
      destruct (n_prev (cur st)) as [p|]; [destruct (alive st p)|]; discriminate.
    + injection R as -> _. destruct (Nat.ltb _ _); [|discriminate]. destruct (d_chain_nodes st); [discriminate|]. destruct (n_meta _) as [m|]; [|discriminate].
      destruct (is_equal_chars_ignore_case _ _) as [a b]. destruct a; [|discriminate]. destruct (_ && _)%bool; [|discriminate]. injection Ro as <- _.
      cbn [kind_text]. rewrite !app_length. cbn. lia.
  - unfold parse_content_tag in R. destruct (negb _); [discriminate|]. destruct (d_detect st); [|discriminate]. destruct (_ && _)%bool; discriminate.
  - unfold parse_comment_or_cdata in R. destruct (_ && _)%bool; discriminate.
  - unfold parse_unkown_tag in R. destruct (is_ascii_alphabetic c).
    { destruct (add_new_node _ st) eqn:A; cbn [rbind] in R; try discriminate. exfalso. eapply add_no_err; eauto. }
    destruct (N.eqb _ _).
    { destruct (negb _); destruct (add_new_node _ st) eqn:A; cbn [rbind] in R; try discriminate; exfalso; eapply add_no_err; eauto. }
    destruct (N.eqb _ _); [discriminate|]. destruct (negb _). { injection R as <- _. cbn [kind_text]. rewrite !app_length. cbn. lia. }
    unfold fix_unescaped_lt in R. destruct (match n_type (cur st) with NText => _ | _ => _ end) as [s1 par]. cbv zeta in R. destruct (N.eqb c TAG_BEGIN_CHAR) eqn:C; [|discriminate].
    unfold parse_text in R. rewrite C in R. discriminate.
  - unfold parse_exclamation_begin in R. destruct (d_detect st) as [nx|].
    + cbn in D. destruct (Nat.ltb _ _); [|discriminate]. destruct (N.eqb _ _).
      * destruct (Nat.eqb _ _); [|discriminate]. destruct (N.eqb c DASH_CHAR || N.eqb c LEFT_BRACKET_CHAR)%bool.
        { destruct (if N.eqb c DASH_CHAR then _ else _) as [[ci mk] nt]. destruct (add_new_node _ _) eqn:A; cbn [rbind] in R; try discriminate. exfalso. eapply add_no_err; eauto. }
        destruct (_ || _)%bool; [|discriminate]. destruct (add_new_node _ _) eqn:A; cbn [rbind] in R; try discriminate. exfalso. eapply add_no_err; eauto.
      * injection R as <- _. cbn [kind_text]. rewrite !app_length. cbn. lia.
    + match type of R with rbind ?r _ = _ => destruct r as [dt|k2 i2|] eqn:Ro end; cbn [rbind] in R; try discriminate. injection R as -> _.
      destruct (N.eqb _ _); [discriminate|]. destruct (_ || _)%bool; [discriminate|]. destruct (N.eqb _ _).
      * destruct (d_in_special st) as [[sp nm]|]; [|injection Ro as <- _; cbn; lia]. destruct (d_chain_nodes st); [discriminate|].
        destruct (n_meta _) as [m|]; [|discriminate]. destruct (is_equal_chars _ _ _); [|discriminate]. injection Ro as <- _; cbn; lia.
      * injection Ro as <- _. cbn [kind_text]. rewrite !app_length. cbn. lia.
Qed.
Lemma eof_err : forall st k i, eof st = RErr k i -> length (kind_text k) <= mem st + 110.
Proof.
  intros st k i E. unfold eof in E. match type of E with rbind ?r _ = _ => destruct r as [s1|k1 i1|] eqn:E1 end; cbn [rbind] in E; try discriminate.
  - match type of E with rbind ?r _ = _ => destruct r as [s2|k2 i2|] eqn:E2 end; cbn [rbind] in E; try discriminate. injection E as -> _.
    assert (Z : exists x, k = EUnclosedCode x).
    { destruct (d_code_in s1); try discriminate E2; try (injection E2 as <- _; eexists; reflexivity).
      destruct (negb (auto_fix_unclosed_tag (d_parse_options s1))); [|discriminate]. injection E2 as <- _. eexists. reflexivity. }
    destruct Z as [x ->]. pose proof (code_text_le x). cbn [kind_text]. rewrite !app_length. cbn. lia.
  - injection E as -> _. destruct (Nat.ltb _ _); [|discriminate]. destruct (negb _); [|discriminate]. destruct (d_chain_nodes st) as [|l ch]; [discriminate|].
    destruct (n_meta _) as [m|] eqn:M; [|discriminate]. injection E1 as <- _. apply name_mem in M. cbn [kind_text]. rewrite !app_length. cbn. lia.
Qed.

(** ** The whole run *)
Lemma run_work : forall src s L n st, shape n st -> mem st <= 10 * n ->
  (forall a c b st1, s = a ++ c :: b -> run st a = ROk st1 -> 8 * moved st1 <= L) ->
  w_run src st s + match run st s with ROk st' => pot st' | _ => 0 end
  <= pot st + (L + 111) * length s + match run st s with ROk _ => 0 | _ => 10 * (n + length s) + 110 + length src end.
Proof.
  induction s as [|c s IH]; intros L n st SH M Q; cbn [w_run run length].
  - lia.
  - assert (Q0 : 8 * moved st <= L) by (apply (Q [] c s st); reflexivity).
    pose proof (w_next_le n st c SH) as W. destruct (next st c) as [s1|k i|p] eqn:N; cbn [rbind].
    + pose proof (work_step _ _ _ _ SH N) as WS. pose proof (shape_next _ _ _ _ SH N) as SH1. pose proof (mem_next _ _ _ N) as M1.
      assert (IH1 := IH L (S n) s1 SH1 ltac:(lia)). assert (IH2 := IH1 ltac:(intros a d b st1 E R; apply (Q (c :: a) d b st1); [cbn; congruence|cbn [run]; rewrite N; exact R])).
      clear IH IH1 Q. destruct (run s1 s); nia.
    + pose proof (next_err _ _ _ _ _ SH N) as E. unfold short in E. unfold w_error. nia.
    + nia.
Qed.
Lemma eof_work : forall src n st, shape n st -> mem st <= 10 * n -> w_eof src st <= 22 * n + 120 + length src.
Proof.
  intros src n st SH M. unfold w_eof. pose proof (stored_mem st) as SM.
  assert (C : length (d_chain_nodes st) <= n + 2) by (pose proof (sh_chain _ _ SH); lia).
  assert (A : (if Nat.ltb 1 (length (d_chain_nodes st)) then
     if negb (auto_fix_unclosed_tag (d_parse_options st)) then 0
     else length (skipn 1 (rev (d_chain_nodes st))) + w_fix_unclosed_tag (skipn 1 (rev (d_chain_nodes st))) st
   else 0) <= n + 2 + hsum name_length (d_heap st)).
  { destruct (Nat.ltb _ _); [|lia]. destruct (negb _); [lia|]. set (l := skipn 1 (rev (d_chain_nodes st))).
    assert (Nl : NoDup l).
    { pose proof (sh_nd _ _ SH) as D. apply NoDup_rev in D. rewrite <- (firstn_skipn 1 (rev (d_chain_nodes st))) in D. clear -D. unfold l.
      induction (firstn 1 (rev (d_chain_nodes st))) as [|x f IH]; [exact D|]. inversion D. auto. }
    pose proof (hsum_list name_length (d_heap st) l eq_refl Nl) as H.
    assert (Ll : length l <= length (d_chain_nodes st)) by (unfold l; rewrite skipn_length, rev_length; lia).
    unfold w_fix_unclosed_tag. unfold get_node. clearbody l. unfold nid in *. lia. }
  cbv zeta. destruct (eof st) as [d|k i|p] eqn:E.
  - destruct (d_code_in st); lia.
  - apply eof_err in E. unfold w_error. lia.
  - lia.
Qed.
Lemma work_bound : forall o s L, (forall a c b st1, s = a ++ c :: b -> run (doc_new o) a = ROk st1 -> 8 * moved st1 <= L) ->
  parse_work o s <= (L + 111) * length s + 23 * length s + 120.
Proof.
  intros o s L Q. unfold parse_work. pose proof (run_work s s L 0 (doc_new o) (shape_new o) ltac:(rewrite mem_new; lia) Q) as W.
  change (pot (doc_new o)) with 0 in W. destruct (run (doc_new o) s) as [st| |] eqn:R; [|lia|lia].
  pose proof (shape_run _ _ _ _ (shape_new o) R) as SH. apply mem_run in R. rewrite mem_new in R. pose proof (eof_work s _ st SH R). cbn [Nat.add] in *. lia.
Qed.
Theorem parse_linear : forall o s, no_text_repair o -> parse_work o s <= 134 * length s + 120.
Proof.
  intros o s N. pose proof (work_bound o s 0) as W. etransitivity; [apply W|lia]. intros a c b st1 _ R. rewrite (moved_zero o a st1 N R). lia.
Qed.
Lemma moved_mem : forall st, 2 * moved st <= mem st.
Proof.
  intro st. pose proof (mem_cur2 st (d_current_node st)) as H. change (hget (d_heap st) (d_current_node st)) with (cur st) in H. unfold node_mem in H.
  unfold moved. destruct (d_handle st); try lia.
  - destruct (_ && _)%bool; lia.
  - destruct (auto_fix_unescaped_lt _); lia.
Qed.
Theorem parse_quadratic : forall o s, parse_work o s <= 40 * length s * length s + 134 * length s + 120.
Proof.
  intros o s. pose proof (work_bound o s (40 * length s)) as W. etransitivity; [apply W|nia]. intros a c b st1 -> R. pose proof (moved_mem st1).
  apply mem_run in R. rewrite mem_new in R. rewrite app_length. lia.
Qed.
