(** Proofs about is_document, parse_file, name tables and character classes. *)
From Coq Require Import String ZifyBool ZifyN.
From Verif Require Import Api SpecText SpecRender SpecMisc TextProofs NameProofs.
Local Open Scope string_scope.
Local Open Scope list_scope.

(** * is_document *)

Lemma html_dec : forall t, t_type t = NTag ->
  (is_html_tag t <-> exists m, t_meta t = Some m /\ is_equal_chars (m_name m) HTML_TAG_NAME (Some Lower) = true).
Proof.
  intros t Ht. unfold is_html_tag. split.
  - intros (_ & m & Hm & E). exists m. rewrite is_equal_chars_lower by reflexivity. auto.
  - intros (m & Hm & E). rewrite is_equal_chars_lower in E by reflexivity. eauto.
Qed.

Lemma loop_found : forall l ok, exists ok', is_document_loop l true ok = (true, ok') /\
  (ok' = true <-> ok = true /\ Forall ignorable l).
Proof.
  induction l as [|k l IH]; intro ok.
  - exists ok. split; [reflexivity|]. split; [auto|tauto].
  - cbn [is_document_loop].
    assert (NI : t_type k <> NComment -> t_type k <> NSpacesBetweenTag -> t_type k <> NHTMLDOCTYPE ->
                 ~ Forall ignorable (k :: l)).
    { intros A B C F. apply Forall_inv in F. destruct F as [F|[F|F]]; congruence. }
    assert (NI2 : forall ok', (ok' = true <-> false = true /\ Forall ignorable l) ->
                 ~ Forall ignorable (k :: l) -> (ok' = true <-> ok = true /\ Forall ignorable (k :: l))).
    { intros ok' H N. split; [intro X; apply H in X; destruct X; discriminate|tauto]. }
    assert (II : (t_type k = NComment \/ t_type k = NSpacesBetweenTag \/ t_type k = NHTMLDOCTYPE) ->
       exists ok', is_document_loop l true ok = (true, ok') /\
         (ok' = true <-> ok = true /\ Forall ignorable (k :: l))).
    { intro I. destruct (IH ok) as (ok' & E & H). exists ok'. split; [exact E|]. rewrite H.
      split; intros [A B]; (split; [exact A|]); [constructor; assumption|exact (Forall_inv_tail B)]. }
    destruct (t_type k) eqn:Et; try (apply II; auto);
      try (destruct (IH false) as (ok' & E & H); exists ok'; split; [exact E|]; apply NI2; [exact H|apply NI; discriminate]).
    exists false. split; [reflexivity|]. split; [discriminate|]. intros [_ F].
    exfalso. revert F. apply NI; discriminate.
Qed.

Lemma loop_search : forall l ok, exists is_doc ok', is_document_loop l false ok = (is_doc, ok') /\
  (is_doc = true <-> exists k, In k l /\ is_html_tag k) /\
  (is_doc = true -> (ok' = true <-> ok = true /\ exists a h b, l = a ++ h :: b /\ is_html_tag h /\
      Forall ignorable a /\ Forall ignorable b)).
Proof.
  induction l as [|k l IH]; intro ok.
  - exists false, ok. split; [reflexivity|]. split.
    + split; [discriminate|]. intros (k & [] & _).
    + discriminate.
  - cbn [is_document_loop].
    assert (SKIP : ignorable k ->
      exists is_doc ok', is_document_loop l false ok = (is_doc, ok') /\
        (is_doc = true <-> exists k', In k' (k :: l) /\ is_html_tag k') /\
        (is_doc = true -> (ok' = true <-> ok = true /\ exists a h b, k :: l = a ++ h :: b /\ is_html_tag h /\
          Forall ignorable a /\ Forall ignorable b))).
    { intro I. destruct (IH ok) as (d & ok' & E & H1 & H2). exists d, ok'. split; [exact E|].
      assert (NH : ~ is_html_tag k).
      { intros [T _]. destruct I as [I|[I|I]]; congruence. }
      split.
      - rewrite H1. split.
        + intros (k' & A & B). exists k'. split; [right; exact A|exact B].
        + intros (k' & [A|A] & B); [subst; contradiction|]. exists k'. auto.
      - intro D. rewrite (H2 D). split; intros (A & a & h & b & Eq & Hh & Fa & Fb); (split; [exact A|]).
        + exists (k :: a), h, b. subst l. refine (conj eq_refl (conj Hh (conj _ Fb))). constructor; assumption.
        + destruct a as [|x a]; cbn in Eq; injection Eq as -> ->; [contradiction|].
          exists a, h, b. exact (conj eq_refl (conj Hh (conj (Forall_inv_tail Fa) Fb))). }
    assert (BAD : ~ ignorable k -> ~ is_html_tag k ->
      exists is_doc ok', is_document_loop l false false = (is_doc, ok') /\
        (is_doc = true <-> exists k', In k' (k :: l) /\ is_html_tag k') /\
        (is_doc = true -> (ok' = true <-> ok = true /\ exists a h b, k :: l = a ++ h :: b /\ is_html_tag h /\
          Forall ignorable a /\ Forall ignorable b))).
    { intros NI NH. destruct (IH false) as (d & ok' & E & H1 & H2). exists d, ok'. split; [exact E|].
      split.
      - rewrite H1. split.
        + intros (k' & A & B). exists k'. split; [right; exact A|exact B].
        + intros (k' & [A|A] & B); [subst; contradiction|]. exists k'. auto.
      - intro D. rewrite (H2 D). split; [intros [A _]; discriminate|].
        intros (_ & a & h & b & Eq & Hh & Fa & _). exfalso.
        destruct a as [|x a]; cbn in Eq; injection Eq as -> ->; [contradiction|].
        apply NI. exact (Forall_inv Fa). }
    assert (NT : t_type k <> NTag -> ~ is_html_tag k) by (intros N [T _]; contradiction).
    destruct (t_type k) eqn:Et;
      try (apply SKIP; unfold ignorable; rewrite Et; tauto);
      try (apply BAD; [unfold ignorable; rewrite Et; intros [X|[X|X]]; discriminate|apply NT; discriminate]).
    assert (NI : ~ ignorable k) by (unfold ignorable; rewrite Et; intros [X|[X|X]]; discriminate).
    pose proof (html_dec k Et) as HD.
    destruct (t_meta k) as [m|] eqn:Em.
    + destruct (is_equal_chars (m_name m) HTML_TAG_NAME (Some Lower)) eqn:Eh.
      * assert (HK : is_html_tag k) by (apply HD; eauto).
        destruct (loop_found l ok) as (ok' & E & H). exists true, ok'. split; [exact E|]. split.
        -- split; [|reflexivity]. intros _. exists k. split; [left; reflexivity|exact HK].
        -- intros _. rewrite H. split; intros [A B]; (split; [exact A|]).
           ++ exists [], k, l. exact (conj eq_refl (conj HK (conj (Forall_nil _) B))).
           ++ destruct B as (a & h & b & Eq & Hh & Fa & Fb).
              destruct a as [|x a]; cbn in Eq; injection Eq as -> ->; [exact Fb|].
              exfalso. apply NI. exact (Forall_inv Fa).
      * apply BAD; [exact NI|]. rewrite HD. intros (m' & X & Y). congruence.
    + apply BAD; [exact NI|]. rewrite HD. intros (m' & X & Y). congruence.
Qed.

Lemma is_document_spec : forall t,
  (t_type t = NAbstractRoot ->
     forall ks, t_childs t = Some ks ->
     (fst (is_document t) = true <-> exists k, In k ks /\ is_html_tag k) /\
     (fst (is_document t) = true ->
        (snd (is_document t) = true <->
         exists a h b, ks = a ++ h :: b /\ is_html_tag h /\ Forall ignorable a /\ Forall ignorable b)) /\
     (fst (is_document t) = false -> snd (is_document t) = true)) /\
  (t_type t <> NAbstractRoot \/ t_childs t = None -> is_document t = (false, true)).
Proof.
  intro t. split.
  - intros Ht ks Hk. unfold is_document. rewrite Ht, Hk.
    destruct (loop_search ks true) as (d & ok & E & H1 & H2). rewrite E. cbn.
    split; [exact H1|]. split.
    + intro D. subst d. rewrite (H2 eq_refl). tauto.
    + intros ->. reflexivity.
  - intros [Ht|Hk]; unfold is_document; [destruct (t_type t); try reflexivity; congruence|].
    rewrite Hk. destruct (t_type t); reflexivity.
Qed.

(** * parse_file *)

Lemma run_app : forall a b st, run st (a ++ b) = do st' <- run st a; run st' b.
Proof.
  induction a as [|c a IH]; intros b st; [reflexivity|]. cbn.
  destruct (next st c); cbn; [apply IH| |]; reflexivity.
Qed.

Lemma run_file_spec : forall lines st content ctx,
  same_outcome (run_file st content lines)
    (outcome_of ctx (do st' <- run st (flat_map (fun l => l ++ [LF_CHAR]) lines); eof st')).
Proof.
  induction lines as [|l lines IH]; intros st content ctx.
  - cbn. destruct (eof st); cbn; auto. split; [reflexivity|].
    unfold from_context_index. destruct (region_loop content 0 idx 0%N 1 0), (region_loop ctx 0 idx 0%N 1 0). reflexivity.
  - cbn [flat_map run_file]. rewrite <- app_assoc, run_app.
    destruct (run st l) as [st1|k i|p]; cbn [rbind outcome_of].
    + cbn [app run]. destruct (next st1 LF_CHAR) as [st2|k i|p]; cbn [rbind outcome_of].
      * apply IH.
      * split; [reflexivity|]. unfold from_context_index.
        destruct (region_loop (content ++ l) 0 i 0%N 1 0), (region_loop ctx 0 i 0%N 1 0). reflexivity.
      * reflexivity.
    + split; [reflexivity|]. unfold from_context_index.
      destruct (region_loop (content ++ l) 0 i 0%N 1 0), (region_loop ctx 0 i 0%N 1 0). reflexivity.
    + reflexivity.
Qed.

Lemma crlf_snoc_lf : forall a : list char,
  crlf_to_lf (a ++ [10%N]) =
  (match rev a with r :: ra => if N.eqb r 13 then crlf_to_lf (rev ra) else crlf_to_lf a | [] => [] end) ++ [10%N].
Proof.
  induction a as [|c a IH]; [reflexivity|].
  cbn [app crlf_to_lf]. destruct a as [|d a].
  - cbn. destruct (N.eqb c 13); reflexivity.
  - change ((d :: a) ++ [10%N]) with (d :: (a ++ [10%N])) in *. cbn [app] in IH |- *.
    rewrite IH. cbn [rev].
    destruct (rev a ++ [d]) as [|r ra] eqn:Er; [destruct (rev a); discriminate|].
    cbn [app]. destruct (N.eqb_spec r 13) as [->|Hr].
    + rewrite rev_app_distr. cbn [rev app].
      destruct ra as [|x ra'] eqn:Ea.
      * (* a = [] , d = 13 *)
        assert (a = [] /\ d = 13%N) as [-> ->].
        { destruct a as [|y a]; cbn in Er.
          - injection Er as ->. auto.
          - exfalso. apply (f_equal (@length _)) in Er. rewrite app_length in Er. cbn in Er.
            rewrite app_length in Er. cbn in Er. lia. }
        cbn. destruct (N.eqb_spec c 13) as [->|Hc]; reflexivity.
      * assert (El : rev (x :: ra') ++ [13%N] = d :: a).
        { apply (f_equal (@rev char)) in Er. rewrite rev_app_distr, rev_involutive in Er. symmetry. exact Er. }
        destruct (rev (x :: ra')) as [|y ys] eqn:Ex.
        { cbn in Ex. destruct (rev ra'); discriminate. }
        cbn in El. injection El as -> El. cbn [crlf_to_lf].
        destruct (N.eqb c 13 && N.eqb d 10)%bool; reflexivity.
    + destruct (N.eqb c 13 && N.eqb d 10)%bool; reflexivity.
Qed.

Lemma crlf_app_line : forall a s : list char, ~ In 10%N a ->
  crlf_to_lf (a ++ 10%N :: s) = crlf_to_lf (a ++ [10%N]) ++ crlf_to_lf s.
Proof.
  induction a as [|c a IH]; intros s H.
  - cbn. destruct s; reflexivity.
  - assert (Ha : ~ In 10%N a) by (intro X; apply H; right; exact X). specialize (IH s Ha).
    cbn [app crlf_to_lf]. destruct a as [|d a]; cbn [app] in IH |- *.
    + rewrite IH. destruct (N.eqb c 13 && N.eqb 10 10)%bool; [reflexivity|].
      cbn. reflexivity.
    + rewrite IH. destruct (N.eqb c 13 && N.eqb d 10)%bool; reflexivity.
Qed.
Lemma crlf_no_lf : forall a : list char, ~ In 10%N a -> crlf_to_lf a = a.
Proof.
  induction a as [|c a IH]; intro H; [reflexivity|]. cbn [crlf_to_lf].
  rewrite IH by (intro X; apply H; right; exact X).
  destruct a as [|d a]; [reflexivity|].
  destruct (N.eqb_spec d 10) as [->|Hd]; [exfalso; apply H; right; left; reflexivity|].
  rewrite andb_false_r. reflexivity.
Qed.

Lemma ends_with_lf_app : forall (a : list char) c s, ends_with_lf (a ++ c :: s) = ends_with_lf (c :: s).
Proof.
  intros a c s. unfold ends_with_lf. rewrite rev_app_distr.
  cbn [rev]. destruct (rev s ++ [c]) as [|x l] eqn:E; [destruct (rev s); discriminate|reflexivity].
Qed.

Lemma ends_with_lf_no : forall a : list char, ~ In 10%N a -> a <> [] -> ends_with_lf a = false.
Proof.
  intros a H Hn. unfold ends_with_lf. destruct (rev a) as [|y l] eqn:E.
  - exfalso. apply Hn. rewrite <- (rev_involutive a), E. reflexivity.
  - apply N.eqb_neq. intros ->. apply H. apply (proj2 (in_rev a (10%N : char))). rewrite E. left. reflexivity.
Qed.

Lemma split_lines_spec : forall s cur : list char, ~ In 10%N cur ->
  flat_map (fun l => l ++ [LF_CHAR]) (split_lines s cur) = file_text (cur ++ s).
Proof.
  induction s as [|c s IH]; intros cur H.
  - rewrite app_nil_r. cbn. destruct cur as [|x cur]; [reflexivity|].
    cbn [flat_map]. rewrite app_nil_r. unfold file_text. rewrite crlf_no_lf by exact H.
    rewrite (ends_with_lf_no (x :: cur)) by (exact H || discriminate). reflexivity.
  - cbn [split_lines]. change LF_CHAR with 10%N. destruct (N.eqb_spec c 10) as [->|Hc].
    + cbn [flat_map]. change LF_CHAR with 10%N in IH. rewrite IH by auto. cbn [app].
      unfold file_text. rewrite crlf_app_line by exact H. rewrite crlf_snoc_lf.
      rewrite ends_with_lf_app.
      assert (EE : ends_with_lf (10%N :: s) = ends_with_lf s).
      { destruct s as [|x s]; [reflexivity|]. change (10%N :: x :: s) with ([10%N] ++ x :: s).
        apply ends_with_lf_app. }
      unfold char in *. rewrite EE. rewrite <- !app_assoc. cbn [app].
      change CR_CHAR with 13%N.
      destruct (rev cur) as [|r ra] eqn:Er.
      * assert (cur = []) as -> by (rewrite <- (rev_involutive cur), Er; reflexivity). reflexivity.
      * assert (Ec : cur = rev ra ++ [r]) by (rewrite <- (rev_involutive cur), Er; reflexivity).
        destruct (N.eqb_spec r 13) as [->|Hr].
        -- rewrite (crlf_no_lf (rev ra)); [reflexivity|]. intro X. apply H. rewrite Ec. apply in_or_app. left. exact X.
        -- rewrite (crlf_no_lf cur) by exact H. reflexivity.
    + rewrite IH.
      * rewrite <- app_assoc. reflexivity.
      * intro X. apply in_app_or in X as [X|[X|[]]]; [exact (H X)|congruence].
Qed.

Lemma parse_file_spec : forall opts text,
  same_outcome (parse_file opts text) (parse opts (file_text text)).
Proof.
  intros opts text. unfold parse_file, parse, parse_res.
  pose proof (split_lines_spec text [] (fun X => X)) as E. cbn [app] in E. rewrite <- E.
  apply run_file_spec.
Qed.

(** * Names *)

Lemma is_void_spec : forall n, is_void_tag (lower n) = one_of void_names n.
Proof.
  intro n.
  assert (E : forall v, lower v = v -> is_equal_chars v (lower n) None = same_name n v).
  { intros v Hv. apply eq_true_iff_eq. rewrite is_equal_chars_none, same_name_lower, Hv. split; congruence. }
  unfold is_void_tag, VOID_ELEMENTS, one_of, void_names. cbn [map existsb].
  rewrite !E by reflexivity.
  repeat match goal with |- context [same_name n ?v] =>
    let x := fresh "x" in set (x := same_name n v); clearbody x end.
  clear. destruct x, x0, x1, x2, x3, x4, x5, x6, x7, x8, x9, x10, x11, x12; reflexivity.
Qed.

Lemma is_content_spec : forall n, is_content_tag (lower n) None = one_of raw_text_names n.
Proof.
  intro n.
  assert (E : forall v, lower v = v -> is_equal_chars (lower n) v None = same_name n v).
  { intros v Hv. apply eq_true_iff_eq. rewrite is_equal_chars_none, same_name_lower, Hv. tauto. }
  unfold is_content_tag, is_script_or_style, is_plain_text_tag, one_of, raw_text_names. cbn [map existsb].
  rewrite !E by reflexivity.
  change STYLE_TAG_NAME with (str "style"). change SCRIPT_TAG_NAME with (str "script").
  change TITLE_TAG_NAME with (str "title"). change TEXTAREA_TAG_NAME with (str "textarea").
  destruct (same_name n (str "style")), (same_name n (str "script")), (same_name n (str "title")),
    (same_name n (str "textarea")); reflexivity.
Qed.

Lemma special_spec : forall n, special_tag_map (lower n) =
  if same_name n (str "svg") then Some Svg else if same_name n (str "math") then Some MathML else None.
Proof.
  intro n.
  assert (E : forall v, lower v = v -> chars_eqb (lower n) v = same_name n v).
  { intros v Hv. apply eq_true_iff_eq. rewrite chars_eqb_eq, same_name_lower, Hv. tauto. }
  unfold special_tag_map. rewrite !E by reflexivity. reflexivity.
Qed.

Lemma allow_insert_spec : forall n t, allow_insert n t =
  if one_of void_names n then false
  else if (chars_eqb n (str "textarea") || chars_eqb n (str "title"))%bool then
    (node_type_eqb t NText || node_type_eqb t NSpacesBetweenTag)%bool
  else if node_type_eqb t NXMLCDATA then (same_name n (str "svg") || same_name n (str "math"))%bool
  else true.
Proof.
  intros n t. unfold allow_insert. rewrite is_void_spec, special_spec. unfold is_plain_text_tag. rewrite !is_equal_chars_none_eqb.
  change TEXTAREA_TAG_NAME with (str "textarea"). change TITLE_TAG_NAME with (str "title").
  destruct (same_name n (str "svg")), (same_name n (str "math")); reflexivity.
Qed.

Lemma allow_insert_case : forall n n' t, same_name n n' = true ->
  same_name n (str "title") = false -> same_name n (str "textarea") = false ->
  allow_insert n t = allow_insert n' t.
Proof.
  intros n n' t H H1 H2. unfold allow_insert.
  pose proof H as HL. apply same_name_lower in HL. rewrite HL.
  assert (P : forall x, same_name x (str "title") = false -> same_name x (str "textarea") = false ->
              is_plain_text_tag x None = false).
  { intros x A B. unfold is_plain_text_tag. apply orb_false_intro.
    - destruct (is_equal_chars x TEXTAREA_TAG_NAME None) eqn:E; [|reflexivity].
      apply is_equal_chars_none in E. subst x. discriminate.
    - destruct (is_equal_chars x TITLE_TAG_NAME None) eqn:E; [|reflexivity].
      apply is_equal_chars_none in E. subst x. discriminate. }
  rewrite (P n H1 H2). rewrite (P n').
  - reflexivity.
  - destruct (same_name n' (str "title")) eqn:E; [|reflexivity].
    rewrite (same_name_trans n n' _ H E) in H1. discriminate.
  - destruct (same_name n' (str "textarea")) eqn:E; [|reflexivity].
    rewrite (same_name_trans n n' _ H E) in H2. discriminate.
Qed.

(** * create_text_node *)

Lemma create_text_node_spec : forall c at_,
  let t := create_text_node c at_ in
  (t_type t = NSpacesBetweenTag <-> Forall is_ws c) /\
  (t_type t = NText <-> ~ Forall is_ws c) /\
  t_content t = Some c /\
  t_begin_at t = match at_ with Some n => n | None => 0 end /\
  t_childs t = None /\ t_end_tag t = None /\ t_meta t = None.
Proof.
  intros c at_. cbn.
  assert (F : forallb is_ascii_whitespace c = true <-> Forall is_ws c).
  { rewrite forallb_forall, Forall_forall. reflexivity. }
  rewrite <- F. destruct (forallb is_ascii_whitespace c); repeat split; intros; congruence.
Qed.

(** * Character classes *)

Lemma non_character_spec : forall c, is_non_character c = unicode_noncharacter c.
Proof.
  intro c. unfold is_non_character, unicode_noncharacter. f_equal.
  unfold NON_CHARACTER_ENDS. cbn [existsb].
  destruct (N.leb c 1114111) eqn:E; [|cbn; lia].
  assert (Hm : (c mod 65536 < 65536)%N) by (apply N.mod_lt; lia).
  pose proof (N.div_mod c 65536 ltac:(lia)) as D.
  set (q := (c / 65536)%N) in *. set (r := (c mod 65536)%N) in *. cbn [andb].
  assert (Hq : (q <= 16)%N) by lia.
  clearbody q r. subst c.
  assert (Q : (q = 0 \/ q = 1 \/ q = 2 \/ q = 3 \/ q = 4 \/ q = 5 \/ q = 6 \/ q = 7 \/ q = 8 \/ q = 9 \/ q = 10
     \/ q = 11 \/ q = 12 \/ q = 13 \/ q = 14 \/ q = 15 \/ q = 16)%N) by lia.
  repeat (destruct Q as [->|Q]; [lia|]). subst q. lia.
Qed.

Lemma value_char_no_quote : forall c, is_char_available_in_value c = true -> need_quoted_char c = false.
Proof.
  intro c. unfold is_char_available_in_value, need_quoted_char, MUST_QUOTE_ATTR_CHARS. cbn [existsb].
  destruct (is_ascii_whitespace c); [discriminate|]. lia.
Qed.

Lemma key_char_spec : forall c, is_char_available_in_key c = true <->
  is_ascii_whitespace c = false /\ is_ascii_control c = false /\ unicode_noncharacter c = false /\
  (is_ascii_punctuation c = true -> In c (str "_-.:")).
Proof.
  intro c. rewrite <- non_character_spec. unfold is_char_available_in_key.
  change (str "_-.:") with [95; 45; 46; 58]%N. cbn [existsb].
  assert (A : In c [95; 45; 46; 58]%N <-> (c = 95 \/ c = 45 \/ c = 46 \/ c = 58)%N).
  { cbn. intuition. }
  rewrite A. clear A.
  destruct (is_ascii_alphanumeric c) eqn:E1; cbn [orb].
  - split; [intros _|reflexivity].
    unfold is_ascii_alphanumeric, is_ascii_alphabetic, is_ascii_lowercase, is_ascii_uppercase, is_ascii_digit,
      is_ascii_whitespace, is_ascii_control, is_ascii_punctuation, is_non_character, NON_CHARACTER_ENDS in *.
    cbn [existsb]. repeat split; lia.
  - destruct (N.eqb c 95 || (N.eqb c 45 || (N.eqb c 46 || (N.eqb c 58 || false))))%bool eqn:E2.
    + split; [intros _|reflexivity].
      unfold is_ascii_whitespace, is_ascii_control, is_ascii_punctuation, is_non_character, NON_CHARACTER_ENDS in *.
      cbn [existsb]. repeat split; lia.
    + destruct (is_ascii_whitespace c); cbn [orb]; [split; [discriminate|intros [? _]; discriminate]|].
      destruct (is_ascii_control c) eqn:E3; cbn [orb]; [split; [discriminate|intros (_ & ? & _); discriminate]|].
      destruct (is_non_character c); cbn [orb]; [split; [discriminate|intros (_ & _ & ? & _); discriminate]|].
      unfold is_ascii_control in E3.
      destruct (is_ascii_punctuation c); cbn [orb].
      * split; [discriminate|]. intros (_ & _ & _ & H). specialize (H eq_refl). lia.
      * replace (N.eqb c 0) with false by lia. split; [|reflexivity]. intros _. repeat split. discriminate.
Qed.
