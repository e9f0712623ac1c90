(** Options that accept more do not change what is already accepted. *)
From Coq Require Import String.
From Verif Require Import Api SpecText SpecParse SpecMisc SpecTree TextProofs NameProofs MiscProofs SpecDoc SpecOpts HeapLemmas
  InvCtl CtlEnd CtlRun Big BigSteps Replay RawText Struct StructEnd DocSound.
Local Open Scope string_scope.
Local Open Scope list_scope.

(** ** Heaps without the [prev] links *)
Definition np1 (n : node) : node := nset_prev None n.
Definition np (h : list node) : list node := map np1 h.
Definition easy (f : node -> node) : Prop := forall n, np1 (f n) = f (np1 n).

Lemma np_len : forall h, length (np h) = length h.
Proof. intro h. apply map_length. Qed.
Lemma np_app : forall h n, np (h ++ [n]) = np h ++ [np1 n].
Proof. intros. apply map_app. Qed.
Lemma np_get : forall h i, hget (np h) i = np1 (hget h i).
Proof.
  intros h i. destruct (Nat.lt_ge_cases i (length h)) as [L|L].
  - unfold hget, np. change dummy_node with (np1 dummy_node). rewrite map_nth. reflexivity.
  - rewrite !hget_default by (rewrite ?np_len; exact L). reflexivity.
Qed.
Lemma np_upd : forall f h i, easy f -> np (hupd h i f) = hupd (np h) i f.
Proof.
  intros f h i E. revert i. induction h as [|n h IH]; intros [|i]; try reflexivity.
  - change (np1 (f n) :: np h = f (np1 n) :: np h). f_equal. apply E.
  - change (np1 n :: np (hupd h i f) = np1 n :: hupd (np h) i f). f_equal. apply IH.
Qed.
Lemma easy_meta : forall v, easy (nset_meta v). Proof. intros v n. reflexivity. Qed.
Lemma easy_type : forall v, easy (nset_type v). Proof. intros v n. reflexivity. Qed.
Lemma easy_childs : forall v, easy (nset_childs v). Proof. intros v n. reflexivity. Qed.
Lemma easy_content : forall v, easy (nset_content v). Proof. intros v n. reflexivity. Qed.
Lemma easy_end_tag : forall v, easy (nset_end_tag v). Proof. intros v n. reflexivity. Qed.
Lemma easy_end_at : forall v, easy (nset_end_at v). Proof. intros v n. reflexivity. Qed.
Lemma easy_end_info : forall v, easy (end_info v). Proof. intros v n. reflexivity. Qed.
#[global] Hint Resolve easy_meta easy_type easy_childs easy_content easy_end_tag easy_end_at easy_end_info : easy.
Lemma np_type : forall h i, n_type (hget (np h) i) = n_type (hget h i). Proof. intros. rewrite np_get. reflexivity. Qed.
Lemma np_meta : forall h i, n_meta (hget (np h) i) = n_meta (hget h i). Proof. intros. rewrite np_get. reflexivity. Qed.
Lemma np_childs : forall h i, n_childs (hget (np h) i) = n_childs (hget h i). Proof. intros. rewrite np_get. reflexivity. Qed.
Lemma np_content : forall h i, n_content (hget (np h) i) = n_content (hget h i). Proof. intros. rewrite np_get. reflexivity. Qed.
Lemma np_end_tag : forall h i, n_end_tag (hget (np h) i) = n_end_tag (hget h i). Proof. intros. rewrite np_get. reflexivity. Qed.
Lemma np_kids : forall h i, kids (np h) i = kids h i. Proof. intros. unfold kids. rewrite np_childs. reflexivity. Qed.
Lemma np_child : forall h p n, np (add_child h p n) = add_child (np h) p (np1 n).
Proof.
  intros h p n. unfold add_child. rewrite np_upd by auto with easy. rewrite np_app, np_kids, np_len. reflexivity.
Qed.
Lemma np_orphan : forall h p n, np (add_orphan h p n) = add_orphan (np h) p (np1 n).
Proof.
  intros h p n. unfold add_orphan. rewrite np_upd by auto with easy. rewrite np_app, np_kids, np_len. reflexivity.
Qed.
Lemma np_flip : forall ck h, np (flip ck h) = flip ck (np h).
Proof. intros [i|] h; [|reflexivity]. cbn [flip]. apply np_upd. auto with easy. Qed.
Lemma np_set_meta : forall h i m, np (set_meta h i m) = set_meta (np h) i m.
Proof. intros. unfold set_meta. apply np_upd. auto with easy. Qed.
Lemma np_opened : forall u p t, np (opened u p t) = flip (d_check_textnode u) (add_child (np (d_heap u)) p (node_new t (d_mem_position u))).
Proof. intros. unfold opened. rewrite np_flip, np_child. reflexivity. Qed.
Lemma np_closed : forall u tag nm pos, np (closed_heap u tag nm pos) =
  let h := np (d_heap u) in
  let e := length h in
  let n := node_new NTagEnd (d_mem_position u) in
  let h1 := hupd (h ++ [n]) tag (nset_end_tag (Some e)) in
  let only := match n_childs (hget h tag) with
              | Some [k] => node_type_eqb (n_type (hget h k)) NText
              | _ => false
              end in
  let h2 := if only then h1 else flip (d_check_textnode u) h1 in
  hupd (hupd h2 e (end_info pos)) e (fun n => nset_content (Some nm) (nset_parent (Some tag) n)).
Proof.
  intros u tag nm pos. unfold closed_heap. cbv zeta. rewrite !np_upd; auto with easy; [|intro n; reflexivity].
  rewrite np_len. f_equal. f_equal. rewrite np_childs.
  replace (match n_childs (hget (d_heap u) tag) with
    | Some [k] => node_type_eqb (n_type (hget (np (d_heap u)) k)) NText | _ => false end) with
    (match n_childs (hget (d_heap u) tag) with
    | Some [k] => node_type_eqb (n_type (hget (d_heap u) k)) NText | _ => false end)
    by (destruct (n_childs (hget (d_heap u) tag)) as [[|k [|k2 l]]|]; rewrite ?np_type; reflexivity).
  destruct (match n_childs (hget (d_heap u) tag) with
    | Some [k] => node_type_eqb (n_type (hget (d_heap u) k)) NText | _ => false end);
  rewrite ?np_flip, np_upd, np_app by auto with easy;
  destruct (auto_fix_unclosed_tag (d_parse_options u)); reflexivity.
Qed.

(** ** States that differ in options and [prev] links only *)
Definition bare (st : doc) : doc :=
  mkDoc (d_code_in st) (d_position st) (d_mem_position st) (d_detect st) (d_prev_chars st) (d_mark_char st)
    (d_chain_nodes st) (d_current_node st) (d_in_special st) (d_repeat_whitespace st) (d_check_textnode st)
    (d_handle st) (mkPO false false false false false false) (d_root st) (d_id_tags st) (np (d_heap st)).
Definition rel (st st' : doc) : Prop := bare st = bare st'.

Lemma rel_W : forall st st', rel st st' -> is_W st -> is_W st'.
Proof. intros st st' R [A [B [C D]]]. injection R as E1 E2 E3 E4 E5 E6 E7 E8 E9 E10 E11 E12 E13 E14 E15.
  unfold is_W. rewrite <- E12, <- E1, <- E4, <- E5. auto. Qed.
Lemma rel_T : forall st st', rel st st' -> is_T st -> is_T st'.
Proof. intros st st' R [A [B C]]. injection R as E1 E2 E3 E4 E5 E6 E7 E8 E9 E10 E11 E12 E13 E14 E15.
  unfold is_T. rewrite <- E12, <- E1, <- E4. auto. Qed.
Lemma rel_U : forall st st', rel st st' -> is_U st -> is_U st'.
Proof. intros st st' R [A [B [C D]]]. injection R as E1 E2 E3 E4 E5 E6 E7 E8 E9 E10 E11 E12 E13 E14 E15.
  unfold is_U. rewrite <- E12, <- E1, <- E4, <- E5. auto. Qed.
Lemma rel_type : forall st st' i, rel st st' -> n_type (hget (d_heap st') i) = n_type (hget (d_heap st) i).
Proof. intros st st' i R. injection R as E1 E2 E3 E4 E5 E6 E7 E8 E9 E10 E11 E12 E13 E14 E15.
  rewrite <- np_type, <- E15, np_type. reflexivity. Qed.
Lemma rel_meta : forall st st' i, rel st st' -> n_meta (hget (d_heap st') i) = n_meta (hget (d_heap st) i).
Proof. intros st st' i R. injection R as E1 E2 E3 E4 E5 E6 E7 E8 E9 E10 E11 E12 E13 E14 E15.
  rewrite <- np_meta, <- E15, np_meta. reflexivity. Qed.
Lemma rel_content : forall st st' i, rel st st' -> n_content (hget (d_heap st') i) = n_content (hget (d_heap st) i).
Proof. intros st st' i R. injection R as E1 E2 E3 E4 E5 E6 E7 E8 E9 E10 E11 E12 E13 E14 E15.
  rewrite <- np_content, <- E15, np_content. reflexivity. Qed.
Lemma rel_childs : forall st st' i, rel st st' -> n_childs (hget (d_heap st') i) = n_childs (hget (d_heap st) i).
Proof. intros st st' i R. injection R as E1 E2 E3 E4 E5 E6 E7 E8 E9 E10 E11 E12 E13 E14 E15.
  rewrite <- np_childs, <- E15, np_childs. reflexivity. Qed.
Lemma rel_len : forall st st', rel st st' -> length (d_heap st') = length (d_heap st).
Proof. intros st st' R. injection R as E1 E2 E3 E4 E5 E6 E7 E8 E9 E10 E11 E12 E13 E14 E15.
  rewrite <- (np_len (d_heap st')), <- E15, np_len. reflexivity. Qed.
Lemma rel_closes : forall st st' nm, rel st st' -> closes st' nm = closes st nm.
Proof. intros st st' nm R. unfold closes, get_node. pose proof R as R'. injection R as E1 E2 E3 E4 E5 E6 E7 E8 E9 E10 E11 E12 E13 E14 E15.
  rewrite <- E7. destruct (d_chain_nodes st) as [|i [|j l]]; auto. rewrite (rel_meta _ _ i R'). reflexivity. Qed.
Lemma rel_check : forall st st' tag, rel st st' -> closed_check st' tag = closed_check st tag.
Proof. intros st st' tag R. unfold closed_check. rewrite (rel_childs _ _ tag R).
  destruct (n_childs (hget (d_heap st) tag)) as [[|k [|k2 l]]|]; auto. rewrite (rel_type _ _ k R).
  injection R as E1 E2 E3 E4 E5 E6 E7 E8 E9 E10 E11 E12 E13 E14 E15. rewrite E11. reflexivity. Qed.
Lemma rel_cdata : forall st st', rel st st' -> cdata_here st -> cdata_here st'.
Proof. intros st st' R [p [rest [sp [m [A [B [C D]]]]]]]. exists p, rest, sp, m. unfold get_node in *. rewrite (rel_meta _ _ p R).
  injection R as E1 E2 E3 E4 E5 E6 E7 E8 E9 E10 E11 E12 E13 E14 E15. rewrite <- E7, <- E9. auto. Qed.

(** ** More permissive options *)
Definition po_le (o o' : parse_options) : Prop :=
  (case_sensitive_tagname o' = true -> case_sensitive_tagname o = true) /\
  (allow_attr_key_starts_with_equal_sign o = true -> allow_attr_key_starts_with_equal_sign o' = true) /\
  (allow_self_closing o = true -> allow_self_closing o' = true) /\
  (auto_fix_unescaped_lt o = true -> auto_fix_unescaped_lt o' = true) /\
  (auto_fix_unexpected_endtag o = true -> auto_fix_unexpected_endtag o' = true /\ auto_fix_unclosed_tag o' = auto_fix_unclosed_tag o).

Lemma ta_step_mono : forall o o' dt c t t', po_le o o' -> ta_step o dt c t = Some t' -> ta_step o' dt c t = Some t'.
Proof.
  intros o o' dt c t t' [_ [Le _]] H. unfold ta_step in *. destruct (ta_mode t); auto.
  unfold ta_wait_step in *. destruct (is_quote c); auto. destruct (N.eqb c END_SLASH_CHAR); auto.
  destruct (N.eqb c EQUAL_CHAR); auto. destruct (tag_code_in_eqb (ta_code t) TKeyEnd); auto.
  destruct (tag_code_in_eqb (ta_code t) TWait); auto.
  destruct (allow_attr_key_starts_with_equal_sign o); [|discriminate]. rewrite Le by reflexivity. exact H.
Qed.
Lemma ta_run_mono : forall o o' dt s t t', po_le o o' -> ta_run o dt s t = Some t' -> ta_run o' dt s t = Some t'.
Proof.
  intros o o' dt s. induction s as [|c s IH]; intros t t' L H; [exact H|]. cbn [ta_run] in *.
  destruct (ta_closes c t); [discriminate|]. destruct (ta_step o dt c t) as [t1|] eqn:E; [|discriminate].
  rewrite (ta_step_mono _ _ _ _ _ _ L E). auto.
Qed.

(** The raw text of this step ends at the same place. *)
Definition same_raw (o o' : parse_options) (src : list char) : Prop :=
  forall n a b, src = n ++ a ++ str ">" ++ b ++ str ">" -> open_name n -> is_content_tag (lower n) None = true ->
  (forall p q, b = p ++ TAG_END_CHAR :: q -> raw_end o (str "</" ++ n) p = false -> raw_end o' (str "</" ++ n) p = false) /\
  (raw_end o (str "</" ++ n) b = true -> raw_end o' (str "</" ++ n) b = true).

Lemma lt_text_rel : forall u u' c, rel u u' -> rel (lt_text u c) (lt_text u' c).
Proof.
  intros u u' c R. pose proof R as R'. pose proof (rel_len _ _ R) as Len.
  unfold lt_text, lt_parent, cur, get_node.
  injection R as E1 E2 E3 E4 E5 E6 E7 E8 E9 E10 E11 E12 E13 E14 E15.
  rewrite <- E8. rewrite !(rel_type _ _ _ R'), !(rel_content _ _ _ R'), !(rel_meta _ _ _ R'), Len, <- E2, <- E3, <- E6, <- E7, <- E9, <- E11, <- E13, <- E14.
  assert (G : forall p n, np (add_orphan (d_heap u) p n) = np (add_orphan (d_heap u') p n)).
  { intros. rewrite !np_orphan, E15. reflexivity. }
  assert (G2 : forall i f, easy f -> np (hupd (d_heap u) i f) = np (hupd (d_heap u') i f)).
  { intros. rewrite !np_upd, E15 by assumption. reflexivity. }
  destruct (n_type (hget (d_heap u) (d_current_node u))); unfold rel, bare; cbn [d_code_in d_position d_mem_position d_detect d_prev_chars d_mark_char
    d_chain_nodes d_current_node d_in_special d_repeat_whitespace d_check_textnode d_handle d_parse_options d_root d_id_tags d_heap];
  rewrite ?G; try reflexivity.
  destruct (n_content (hget (d_heap u) (d_current_node u))); cbn [d_code_in d_position d_mem_position d_detect d_prev_chars d_mark_char
    d_chain_nodes d_current_node d_in_special d_repeat_whitespace d_check_textnode d_handle d_parse_options d_root d_id_tags d_heap];
  rewrite ?G2 by auto with easy; rewrite ?E15; reflexivity.
Qed.

Lemma lt_text_opts : forall u c, d_parse_options (lt_text u c) = d_parse_options u.
Proof. intros u c. unfold lt_text. destruct (n_type (cur u)); try reflexivity. destruct (n_content (cur u)); reflexivity. Qed.

(** ** One step *)
Ltac norm_rel :=
  unfold rel, bare, W_of, set_position; cbn [d_code_in d_position d_mem_position d_detect d_prev_chars d_mark_char
    d_chain_nodes d_current_node d_in_special d_repeat_whitespace d_check_textnode d_handle d_parse_options d_root d_id_tags d_heap].
Lemma step_mono : forall u t st, bstep u t st -> forall u' o o', rel u u' ->
  d_parse_options u = o -> d_parse_options u' = o' -> po_le o o' ->
  (auto_fix_unexpected_endtag o = false -> is_W u -> n_type (cur u) <> NText) -> (is_U u -> same_raw o o' t) ->
  exists st', bstep u' t st' /\ rel st st' /\ d_parse_options st = o /\ d_parse_options st' = o'.
Proof.
  intros u t st B. induction B; intros u' o o' R Eo Eo' Le Nt Sr; pose proof R as R';
    injection R' as E1 E2 E3 E4 E5 E6 E7 E8 E9 E10 E11 E12 E13 E14 E15; pose proof (rel_len _ _ R) as Len.
  Local Ltac fin := repeat match goal with
    | E : d_position _ = d_position ?u' |- context [d_position ?u'] => rewrite <- E
    | E : d_mem_position _ = d_mem_position ?u' |- context [d_mem_position ?u'] => rewrite <- E
    | E : d_prev_chars _ = d_prev_chars ?u' |- context [d_prev_chars ?u'] => rewrite <- E
    | E : d_mark_char _ = d_mark_char ?u' |- context [d_mark_char ?u'] => rewrite <- E
    | E : d_chain_nodes _ = d_chain_nodes ?u' |- context [d_chain_nodes ?u'] => rewrite <- E
    | E : d_current_node _ = d_current_node ?u' |- context [d_current_node ?u'] => rewrite <- E
    | E : d_in_special _ = d_in_special ?u' |- context [d_in_special ?u'] => rewrite <- E
    | E : d_repeat_whitespace _ = d_repeat_whitespace ?u' |- context [d_repeat_whitespace ?u'] => rewrite <- E
    | E : d_check_textnode _ = d_check_textnode ?u' |- context [d_check_textnode ?u'] => rewrite <- E
    | E : d_root _ = d_root ?u' |- context [d_root ?u'] => rewrite <- E
    | E : d_id_tags _ = d_id_tags ?u' |- context [d_id_tags ?u'] => rewrite <- E
    | E : np (d_heap _) = np (d_heap ?u') |- context [np (d_heap ?u')] => rewrite <- E
    end; reflexivity.
  - eexists. split; [apply bs_wait_lt; eapply rel_W; eauto|]. split; [|auto]. norm_rel. fin.
  - rewrite Eo in H1. destruct Le as [_ [_ [_ [_ Le]]]]. destruct (Le H1) as [L1 L2]. unfold cur, get_node in H2, H3.
    eexists. split; [apply bs_wait_merge with (ct := ct); [eapply rel_W; eauto|assumption|congruence|..]; unfold cur, get_node; rewrite <- E8|].
    + rewrite (rel_type _ _ _ R). exact H2.
    + rewrite (rel_content _ _ _ R). exact H3.
    + split; [|auto]. norm_rel. destruct ct; rewrite ?np_upd by auto with easy; fin.
  - eexists. split; [apply bs_wait_text with (p := p) (rest := rest); [eapply rel_W; eauto|assumption| |congruence]|].
    + right. unfold cur, get_node. rewrite <- E8, (rel_type _ _ _ R). rewrite Eo in H1. destruct H1 as [H1|H1]; [|exact H1]. apply Nt; assumption.
    + split; [|auto]. norm_rel. rewrite !np_child, Len. rewrite E2, E3, E6, E7, E9, E11, E13, E14, E15. reflexivity.
  - eexists. split; [apply bs_text_char; [eapply rel_T; eauto|assumption]|]. split; [|auto]. norm_rel. fin.
  - eexists. split; [apply bs_text_lt; eapply rel_T; eauto|]. split; [|auto]. norm_rel.
    rewrite !np_upd by auto with easy. fin.
  - eexists. split; [apply bs_tag with (p := p) (rest := rest) (t := t); auto; try congruence;
      [eapply rel_U; eauto|rewrite Eo', <- E6; eapply ta_run_mono; eauto; rewrite <- Eo; eassumption]|].
    split; [|auto]. norm_rel. rewrite !np_set_meta, !np_opened, Len. fin.
  - eexists. split; [apply bs_void with (p := p) (rest := rest) (t := t); auto; try congruence;
      [eapply rel_U; eauto|rewrite Eo', <- E6; eapply ta_run_mono; eauto; rewrite <- Eo; eassumption]|].
    split; [|auto]. norm_rel. rewrite !np_set_meta, !np_opened, Len. fin.
  - eexists. split; [apply bs_self with (p := p) (rest := rest) (t := t); auto; try congruence;
      [eapply rel_U; eauto|rewrite Eo', <- E6; eapply ta_run_mono; eauto; rewrite <- Eo; eassumption|]|].
    + unfold self_close_ok in *. rewrite Eo', <- E9. rewrite Eo in H5. destruct Le as [_ [_ [Le _]]].
      destruct (allow_self_closing o); [rewrite Le by reflexivity; reflexivity|].
      destruct (allow_self_closing o'); [reflexivity|exact H5].
    + split; [|auto]. norm_rel. rewrite !np_set_meta, !np_opened, Len. fin.
  - destruct (Sr H n a b eq_refl H0 H6) as [S1 S2]. rewrite Eo in *.
    eexists. split; [apply bs_raw with (p := p) (rest := rest) (t := t); auto; try congruence;
      [eapply rel_U; eauto|rewrite Eo', <- E6; eapply ta_run_mono; eauto; rewrite <- Eo; eassumption|..]|].
    + rewrite Eo'. intros x y Exy. apply (S1 x y Exy). apply (H7 x y Exy).
    + rewrite Eo'. auto.
    + split; [|split; [exact Eo|exact Eo']]. norm_rel. rewrite Len, E2, E7, E9, E10, E14.
      repeat match goal with |- context [np (hupd ?h ?i ?f)] => rewrite (np_upd f h i) by (intro; reflexivity) end.
      rewrite !np_app, !np_set_meta, !np_opened. fin.
  - eexists. split; [apply bs_close with (tag := tag) (rest := rest); [eapply rel_U; eauto|assumption|rewrite (rel_closes _ _ _ R); assumption|]|].
    + intro C. rewrite Eo' in C. rewrite Eo in H2. destruct Le as [Le _]. destruct (H2 (Le C)) as [m [M1 M2]]. exists m.
      unfold get_node in *. rewrite (rel_meta _ _ _ R). auto.
    + split; [|auto]. norm_rel. rewrite !np_closed, Len, (rel_check _ _ _ R). cbv zeta. fin.
  - rewrite Eo in H2. assert (Le' := Le). destruct Le' as [_ [_ [_ [_ Le']]]]. destruct (Le' H2) as [L1 L2].
    eexists. split; [apply bs_drop; [eapply rel_U; eauto|assumption|rewrite (rel_closes _ _ _ R); assumption|congruence]|].
    split; [|auto]. norm_rel. unfold dropped_heap. rewrite Eo, Eo', L2, !np_app, Len. destruct (auto_fix_unclosed_tag o); fin.
  - eexists. split; [apply bs_comment with (p := p) (rest := rest); auto; try congruence; eapply rel_U; eauto|].
    split; [|auto]. norm_rel. rewrite !np_upd by auto with easy. rewrite !np_opened, Len. fin.
  - eexists. split; [apply bs_cdata with (p := p) (rest := rest); auto; try congruence; [eapply rel_U; eauto|eapply rel_cdata; eauto]|].
    split; [|auto]. norm_rel. rewrite !np_upd by auto with easy. rewrite !np_opened, Len. fin.
  - eexists. split; [apply bs_doctype with (p := p) (rest := rest) (t := t); auto; try congruence;
      [eapply rel_U; eauto|rewrite Eo', <- E6; eapply ta_run_mono; eauto; rewrite <- Eo; eassumption]|].
    split; [|auto]. norm_rel. rewrite !np_set_meta, !np_opened, Len. subst src t'. fin.
  - eexists. split; [apply bs_lt_char; auto; [eapply rel_U; eauto|rewrite Eo'; apply Le; congruence]|].
    pose proof (lt_text_rel u u' (str "&lt;" ++ [c]) R) as L.
    split; [|split; [rewrite <- Eo|rewrite <- Eo']; apply lt_text_opts].
    set (v := lt_text u _) in *. set (v' := lt_text u' _) in *. clearbody v v'.
    unfold rel in L |- *. apply (f_equal (set_position (d_position u + 1))) in L. rewrite <- E2. exact L.
  - pose proof (lt_text_rel u u' (str "&lt;") R) as L.
    assert (Tt : is_T (lt_text u (str "&lt;"))).
    { unfold lt_text. destruct (n_type (cur u)); try (repeat split; fail); destruct (n_content (cur u)); repeat split. }
    destruct (IHB (lt_text u' (str "&lt;")) o o' L) as [st2 [B2 Y]]; auto; try (rewrite lt_text_opts; assumption).
    + intros _ [W _]. destruct Tt as [X _]. congruence.
    + exists st2. split; [|exact Y]. apply bs_lt_lt; [eapply rel_U; eauto|rewrite Eo'; apply Le; congruence|exact B2].
Qed.

(** ** Where steps lead *)
Lemma opened_type : forall opts u p rest t, sok opts u -> d_chain_nodes u = p :: rest -> t <> NTagEnd -> t <> NAbstractRoot ->
  ty (opened u p t) (length (d_heap u)) = t.
Proof. intros opts u p rest t S E T1 T2. apply (opened_ok opts u p rest t S E T1 T2). Qed.
Lemma not_text_W : forall opts u t st, bstep u t st -> sok opts u -> auto_fix_unexpected_endtag opts = false ->
  is_W st -> n_type (cur st) <> NText.
Proof.
  intros opts u t st B. induction B; intros S Au [Wh _]; try discriminate Wh; unfold cur, get_node; cbn [W_of d_heap d_current_node];
    fold (ty (d_heap u) (d_current_node u)).
  1-3, 9 : match goal with |- n_type (hget ?h ?i) <> _ => change (ty h i <> NText) end; rewrite ty_set_meta, (opened_type opts u p rest) by (auto; discriminate); discriminate.
  - rewrite (hupd_keep n_type) by reflexivity. rewrite hget_app_old by (rewrite set_meta_length, opened_length; lia).
    match goal with |- n_type (hget ?h ?i) <> _ => change (ty h i <> NText) end. rewrite ty_set_meta, (opened_type opts u p rest) by (auto; discriminate). discriminate.
  - unfold closed_heap. cbv zeta. rewrite !(hupd_keep n_type) by reflexivity.
    match goal with |- context [if ?b then ?x else flip _ ?x] => assert (E : n_type (hget x (length (d_heap u))) = NTagEnd); [|destruct b; [rewrite E; discriminate|]] end.
    { rewrite (hupd_keep n_type) by reflexivity. rewrite hget_app_new. destruct (auto_fix_unclosed_tag (d_parse_options u)); reflexivity. }
    destruct (d_check_textnode u) as [k|] eqn:Ck; cbn [flip]; [|rewrite E; discriminate].
    assert (Lk : k < length (d_heap u)) by (apply textual_lt; apply (s_check _ _ S k Ck)).
    rewrite hget_hupd_other by lia. rewrite E. discriminate.
  - rewrite (s_opts _ _ S) in *. congruence.
  - match goal with |- n_type (hget ?h ?i) <> _ => change (ty h i <> NText) end.
    rewrite !ty_hupd_quiet by auto with quiet. rewrite (opened_type opts u p rest) by (auto; discriminate). discriminate.
  - match goal with |- n_type (hget ?h ?i) <> _ => change (ty h i <> NText) end.
    rewrite !ty_hupd_quiet by auto with quiet. rewrite (opened_type opts u p rest) by (auto; discriminate). discriminate.
  - exfalso. revert Wh. unfold lt_text. destruct (n_type (cur u)); try discriminate. destruct (n_content (cur u)); discriminate.
  - exfalso. assert (Tt : is_T (lt_text u (str "&lt;"))).
    { unfold lt_text. destruct (n_type (cur u)); try (repeat split; fail); destruct (n_content (cur u)); repeat split. }
    inversion B; subst; try (destruct Tt as [T1 _]; match goal with X : is_W _ |- _ => destruct X as [X1 _] | X : is_U _ |- _ => destruct X as [X1 _] end; congruence);
      discriminate Wh.
Qed.
Lemma to_U : forall u t st, bstep u t st -> is_U st -> exists t0, t = t0 ++ [60%N].
Proof.
  intros u t st B. induction B; intros [X HX]; try discriminate X; try (exists []; reflexivity).
  exfalso. revert X. unfold lt_text. destruct (n_type (cur u)); try discriminate. destruct (n_content (cur u)); discriminate.
Qed.
Lemma U_lt : forall opts s st, bsteps (doc_new opts) s st -> is_U st -> exists s0, s = s0 ++ [60%N].
Proof.
  intros opts s st B U. remember (doc_new opts) as st0. destruct B as [st|st s st' t st'' B Bs]; [subst; destruct U as [X _]; discriminate X|].
  destruct (to_U _ _ _ Bs U) as [t0 ->]. exists (s ++ t0). apply app_assoc.
Qed.
Lemma W_not_text : forall opts s st, bsteps (doc_new opts) s st -> auto_fix_unexpected_endtag opts = false ->
  is_W st -> n_type (cur st) <> NText.
Proof.
  intros opts s st B Au W. remember (doc_new opts) as st0. destruct B as [st|st s st' t st'' B Bs]; subst; [discriminate|].
  eapply not_text_W; eauto. eapply bsteps_sok; eauto.
Qed.

(** ** All steps *)
Lemma steps_mono : forall o o' s st, po_le o o' ->
  (forall a t b, s = a ++ [60%N] ++ t ++ b -> same_raw o o' t) ->
  bsteps (doc_new o) s st -> exists st', bsteps (doc_new o') s st' /\ rel st st'.
Proof.
  intros o o' s st Le Sr B. remember (doc_new o) as st0 eqn:E0. induction B as [st|st s st1 t st2 B IH Bs]; subst.
  - exists (doc_new o'). split; [constructor|reflexivity].
  - destruct IH as [st1' [B' R]]; auto.
    { intros a t0 b E. apply (Sr a t0 (b ++ t)). rewrite E, <- !app_assoc. reflexivity. }
    pose proof (bsteps_sok _ _ _ B) as S. pose proof (bsteps_sok _ _ _ B') as S'.
    destruct (step_mono _ _ _ Bs st1' o o' R) as [st2' [B2 [R2 _]]]; auto; try apply S; try apply S'.
    + intros Au W. eapply W_not_text; eauto.
    + intro U. destruct (U_lt _ _ _ B U) as [s0 E]. apply (Sr s0 t []). rewrite E, <- !app_assoc, app_nil_r. reflexivity.
    + exists st2'. split; [econstructor; eauto|exact R2].
Qed.

(** ** Whole documents *)
Lemma np_tree : forall f h h' i, np h = np h' -> tree_of f h i = tree_of f h' i.
Proof.
  intro f. induction f as [|f IH]; intros h h' i E; [reflexivity|]. cbn [tree_of].
  assert (G : np1 (hget h i) = np1 (hget h' i)) by (rewrite <- !np_get, E; reflexivity).
  injection G as G1 G2 G3 G4 G5 G6 G7 G8 G9 G10. rewrite G1, G2, G3, G4, G5, G8, G9, G10.
  assert (M : forall l, map_opt (tree_of f h) l = map_opt (tree_of f h') l).
  { intro l. induction l as [|x l IHl]; [reflexivity|]. cbn [map_opt]. rewrite (IH h h' x E), IHl. reflexivity. }
  destruct (n_end_tag (hget h' i)) as [e|]; [rewrite (IH h h' e E)|]; destruct (n_childs (hget h' i)) as [l|]; rewrite ?M; reflexivity.
Qed.

Lemma easy_done : forall st, easy (text_done st).
Proof. intros st n. unfold text_done. destruct (d_repeat_whitespace st); reflexivity. Qed.
Lemma np_fix : forall pos l h, np (fix_heap pos l h) = fix_heap pos l (np h).
Proof.
  intros pos l. induction l as [|i l IH]; intro h; [reflexivity|]. unfold fix_heap in *. cbn [fold_left]. rewrite IH. f_equal.
  unfold fix1. rewrite np_meta. destruct (n_meta (hget h i)) as [m|]; [|reflexivity].
  rewrite np_upd by auto with easy. rewrite np_app, np_len. f_equal. f_equal. apply np_upd.
  intro n. unfold nupd_meta. destruct n as [? ? ? ? ? ? ? ? ? ? [?|]]; reflexivity.
Qed.
Lemma eof_succeeds : forall st,
  (length (d_chain_nodes st) <= 1 \/ auto_fix_unclosed_tag (d_parse_options st) = true) ->
  (match d_code_in st with
   | CTextNode | CUnkown | CAbstractRoot => True
   | CTag => auto_fix_unclosed_tag (d_parse_options st) = true
   | _ => False end) -> exists d, eof st = ROk d.
Proof.
  intros st C1 C2. unfold eof.
  match goal with |- exists d, (do st <- ?x; _) = _ => assert (E : exists st2, x = ROk st2 /\ d_code_in st2 = d_code_in st /\ d_parse_options st2 = d_parse_options st) end.
  { destruct (Nat.ltb_spec 1 (length (d_chain_nodes st))); [|eauto].
    destruct C1 as [C1|C1]; [lia|]. rewrite C1. cbn [negb]. eexists. split; [reflexivity|]. rewrite fix_unclosed_eq. split; reflexivity. }
  destruct E as [st2 [-> [E1 E2]]]. cbn [rbind]. rewrite E1, E2. destruct (d_code_in st); try contradiction; cbn [rbind]; eauto.
  rewrite C2. cbn [negb rbind]. eauto.
Qed.
Lemma eof_mono : forall st st' d, rel st st' ->
  (auto_fix_unclosed_tag (d_parse_options st) = true -> auto_fix_unclosed_tag (d_parse_options st') = true) \/
  (length (d_chain_nodes st) <= 1 /\ d_code_in st <> CTag) -> eof st = ROk d ->
  exists d', eof st' = ROk d' /\ np (d_heap d) = np (d_heap d') /\ d_root d' = d_root d /\ d_id_tags d' = d_id_tags d.
Proof.
  intros st st' d R Le H. pose proof R as R'. injection R' as E1 E2 E3 E4 E5 E6 E7 E8 E9 E10 E11 E12 E13 E14 E15.
  destruct (eof_inv _ _ H) as [G1 [G2 [F1 [F2 [F3 _]]]]].
  destruct (eof_succeeds st') as [d' H'].
  { rewrite <- E7. destruct Le as [Le|[Le _]]; [destruct G1; auto|auto]. }
  { rewrite <- E1. destruct Le as [Le|[_ Le]]; destruct (d_code_in st); auto. }
  exists d'. split; [exact H'|]. destruct (eof_inv _ _ H') as [_ [_ [F1' [F2' [F3' _]]]]].
  rewrite F1, F1', F2, F2', F3, F3'. split; [|auto].
  unfold fin_heap. rewrite !np_upd by auto with easy. rewrite <- E13, <- E2, <- E1, <- E7. f_equal.
  destruct (d_code_in st); rewrite ?np_fix, ?E15; try reflexivity.
  rewrite (np_upd (text_done st)), (np_upd (text_done st')) by apply easy_done.
  rewrite !np_fix, <- E8, E15. unfold text_done. rewrite E2, E5, E10. reflexivity.
Qed.

Lemma name_rel : forall u u' p n, rel u u' -> rel (st_name u p n) (st_name u' p n).
Proof.
  intros u u' p n R. pose proof (rel_len _ _ R) as Len. injection R as E1 E2 E3 E4 E5 E6 E7 E8 E9 E10 E11 E12 E13 E14 E15.
  unfold st_name. norm_rel. rewrite !np_opened, Len. rewrite E2, E3, E6, E7, E9, E10, E11, E13, E14, E15. reflexivity.
Qed.
Lemma area_rel : forall u u' p n k t, rel u u' ->
  rel (st_area u p false n (d_position u + k) t) (st_area u' p false n (d_position u' + k) t).
Proof.
  intros u u' p n k t R. pose proof (rel_len _ _ R) as Len. injection R as E1 E2 E3 E4 E5 E6 E7 E8 E9 E10 E11 E12 E13 E14 E15.
  unfold st_area. norm_rel. rewrite !np_set_meta, !np_opened, Len. rewrite E2, E3, E7, E9, E10, E11, E13, E14, E15. reflexivity.
Qed.

Lemma mono_core : forall o o' s d, po_le o o' -> (auto_fix_unclosed_tag o = true -> auto_fix_unclosed_tag o' = true) ->
  (forall a t b, s = a ++ [60%N] ++ t ++ b -> same_raw o o' t) ->
  parse o s = Parsed d -> exists d', parse o' s = Parsed d' /\ same_doc d d'.
Proof.
  intros o o' s d Le Lu Sr H.
  assert (P : parse_res o s = ROk d).
  { unfold parse in H. destruct (parse_res o s); cbn in H; congruence. }
  destruct (accepted _ _ _ P) as [s1 [s2 [st1 [st [Es [B [R [D E]]]]]]]].
  assert (X : exists st', run (doc_new o') s = ROk st' /\ rel st st' /\ d_parse_options st = o /\ d_parse_options st' = o').
  { destruct (steps_mono o o' s1 st1 Le) with (2 := B) as [st1' [B1' Rl]].
    { intros a t b Ea. apply (Sr a t (b ++ s2)). rewrite Es, Ea, <- !app_assoc. reflexivity. }
    pose proof (s_opts _ _ (bsteps_sok _ _ _ B)) as O1. pose proof (s_opts _ _ (bsteps_sok _ _ _ B1')) as O2.
    pose proof (reach _ _ _ B1') as [R1 _]. pose proof (s_root _ _ (bsteps_sok _ _ _ B1')) as Ro.
    destruct D as [[-> [-> Rd]]|[Af [U [_ [p [rest [Ec D]]]]]]].
    - rewrite app_nil_r in Es. subst s1. exists st1'. auto.
    - assert (Ec' : d_chain_nodes st1' = p :: rest) by (rewrite <- Ec; symmetry; exact (f_equal d_chain_nodes Rl)).
      pose proof (rel_U _ _ Rl U) as U'. subst s. rewrite run_app2, R1. cbn [rbind].
      destruct D as [[On ->]|[n [a [t [-> [On [Na [As [Ru ->]]]]]]]]].
      + exists (st_name st1' p s2). split; [eapply run_name; eauto|]. split; [apply name_rel; exact Rl|]. auto.
      + exists (st_area st1' p false n (d_position st1' + length (n ++ a)) t).
        split; [|split; [apply area_rel; exact Rl|auto]].
        assert (Ru' : ta_run (d_parse_options st1') false a (ta_start (d_mark_char st1')) = Some t).
        { rewrite O2. rewrite <- (f_equal d_mark_char Rl : d_mark_char st1 = d_mark_char st1'). eapply ta_run_mono; eauto. }
        rewrite run_app2, (run_name st1' p rest) by assumption. cbn [rbind].
        rewrite (run_area_start st1' p n a t As Ru'). unfold st_tag. destruct a; [congruence|]. reflexivity. }
  destruct X as [st' [R' [Rl [O1 O2]]]].
  assert (Lc : auto_fix_unclosed_tag (d_parse_options st) = true -> auto_fix_unclosed_tag (d_parse_options st') = true)
    by (rewrite O1, O2; apply Lu).
  destruct (eof_mono st st' d Rl (or_introl Lc) E) as [d' [E' [Hp [Ro Id]]]].
  exists d'. split.
  - unfold parse, parse_res. rewrite R'. cbn [rbind]. rewrite E'. reflexivity.
  - split; [symmetry; exact Hp|]. split; [exact Ro|]. split; [exact Id|]. unfold doc_tree.
    assert (Ln : length (d_heap d') = length (d_heap d)) by (rewrite <- (np_len (d_heap d')), <- Hp, np_len; reflexivity).
    rewrite Ln, Ro. symmetry. apply np_tree. exact Hp.
Qed.

(** ** The options as specified *)
Lemma raw_in : forall n, raw_name n = true -> exists x, In x raw_text_names /\ same_name n x = true.
Proof. intros n H. apply existsb_exists in H. exact H. Qed.
Lemma raw_name_same : forall n nm, same_name n nm = true -> raw_name n = true -> raw_name nm = true.
Proof.
  intros n nm E H. destruct (raw_in _ H) as [x [I S]]. apply existsb_exists. exists x. split; [exact I|].
  eapply same_name_trans; [rewrite same_name_sym; exact E|exact S].
Qed.
Lemma raw_lower : forall n nm, In n raw_text_names -> In nm raw_text_names -> same_name n nm = true -> n = nm.
Proof.
  intros n nm A B E. cbn [raw_text_names map In] in A, B.
  destruct A as [<-|[<-|[<-|[<-|[]]]]]; destruct B as [<-|[<-|[<-|[<-|[]]]]]; try reflexivity; vm_compute in E; discriminate E.
Qed.

Theorem permissive : forall o o' s d, more_permissive o o' ->
  case_sensitive_tagname o' = case_sensitive_tagname o \/ lower_raw_names s ->
  parse o s = Parsed d -> exists d', parse o' s = Parsed d' /\ same_doc d d'.
Proof.
  intros o o' s d [P1 [P2 [P3 [P4 [P5 [P6 P7]]]]]] C H. unfold implied in *. apply (mono_core o o' s d); auto.
  - unfold po_le. repeat split; auto.
  - intros x t y Es n a b Et On Rw.
    assert (Mono : forall p, raw_end o (str "</" ++ n) p = true -> raw_end o' (str "</" ++ n) p = true).
    { intros p X. apply raw_end_iff in X; [|exact On]. destruct X as [body [nm [w [Ep [Ww [F1 F2]]]]]].
      apply raw_end_iff; [exact On|]. exists body, nm, w. split; [exact Ep|]. split; [exact Ww|]. split; auto. }
    split; [|apply Mono]. intros p q Eb Hp.
    destruct C as [C|C].
    + unfold raw_end in *. rewrite C. exact Hp.
    + apply Bool.not_true_iff_false. intro X. apply Bool.not_true_iff_false in Hp. apply Hp. clear Hp.
      apply raw_end_iff in X; [|exact On]. destruct X as [body [nm [w [Ep [Ww [F1 F2]]]]]].
      apply raw_end_iff; [exact On|]. exists body, nm, w. split; [exact Ep|]. split; [exact Ww|]. split; [exact F1|]. intros _.
      rewrite is_content_spec in Rw. change (one_of raw_text_names n) with (raw_name n) in Rw.
      apply raw_lower; [| |exact F1].
      * apply (C x n (a ++ str ">" ++ b ++ str ">" ++ y)); [|exact Rw]. left. rewrite Es, Et, <- !app_assoc. reflexivity.
      * apply (C (x ++ [60%N] ++ n ++ a ++ str ">" ++ body) nm (w ++ TAG_END_CHAR :: q ++ str ">" ++ y)); [|eapply raw_name_same; eauto].
        right. rewrite Es, Et, Eb, Ep, <- !app_assoc. cbn [app]. rewrite <- ?app_assoc. reflexivity.
Qed.

(** ** Tokens are written alike under options that differ in repairs *)
Definition same_syntax (o o' : parse_options) : Prop :=
  case_sensitive_tagname o' = case_sensitive_tagname o /\ allow_self_closing o' = allow_self_closing o /\
  allow_attr_key_starts_with_equal_sign o' = allow_attr_key_starts_with_equal_sign o.
Lemma written_same : forall o o' k s, same_syntax o o' -> written o k s -> written o' k s.
Proof.
  intros o o' k s [A [B C]] W. destruct W; econstructor; rewrite ?A, ?C; eauto.
Qed.
Lemma source_same : forall o o' ks s, same_syntax o o' -> source o ks s -> source o' ks s.
Proof.
  intros o o' ks s E S. induction S; constructor; auto. eapply written_same; eauto.
Qed.
Lemma nests_same : forall o o' ks, same_syntax o o' -> nests o ks -> nests o' ks.
Proof.
  intros o o' ks [A [B C]] [fo Y]. exists fo. rewrite <- Y. clear Y. generalize (mkNest [] None).
  induction ks as [|k l IH]; intro n; [reflexivity|]. cbn [nest_all].
  assert (E : nest o' k n = nest o k n) by (destruct k; cbn [nest]; rewrite ?A, ?B; reflexivity).
  rewrite E. destruct (nest o k n); auto.
Qed.

(** Well-nested texts are accepted under all options, with the same content. *)
Theorem source_parses_all : forall opts f s, source opts (flat_map tokens f) s -> nests opts (flat_map tokens f) -> marked f ->
  exists d, parse opts s = Parsed d /\ doc_content d f.
Proof.
  intros opts f s So Ne Mk.
  set (o := mkPO (case_sensitive_tagname opts) (allow_attr_key_starts_with_equal_sign opts) (allow_self_closing opts) false false false).
  assert (E : same_syntax opts o) by (repeat split).
  destruct (source_parses o f s (source_same _ _ _ _ E So) (nests_same _ _ _ E Ne) Mk) as [d [P D]]; [split; reflexivity|].
  destruct (permissive o opts s d) as [d' [P' [_ [_ [_ T]]]]]; auto.
  - repeat split; unfold implied; cbn; auto; discriminate.
  - exists d'. split; [exact P'|]. unfold doc_content in *. rewrite T. exact D.
Qed.
