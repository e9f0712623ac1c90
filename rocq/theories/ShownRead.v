(** Shown tokens are written tokens that nest. *)
From Coq Require Import String ZifyBool ZifyN Lia.
From Verif Require Import Api SpecText SpecRender SpecParse SpecMisc SpecTree SpecDoc SpecOpts NameProofs TextProofs RenderProofs Shape RawText Tok DocTree DocSound Print SpecShown Shown.
Local Open Scope string_scope.
Local Open Scope list_scope.

(** ** Names in lower case *)
Lemma shown_same : forall o n, same_name (shown_name o n) n = true.
Proof.
  intros o n. unfold shown_name. destruct (lowercase_tagname o); [|apply same_name_refl].
  rewrite ascii_lower_lower, same_name_lower_l. apply same_name_refl.
Qed.
Lemma same_name_cong : forall a a' b, same_name a a' = true -> same_name a b = same_name a' b.
Proof.
  intros a a' b H. destruct (same_name a b) eqn:E; symmetry.
  - rewrite same_name_sym in H. exact (same_name_trans _ _ _ H E).
  - destruct (same_name a' b) eqn:E'; [|reflexivity]. rewrite <- E. symmetry. exact (same_name_trans _ _ _ H E').
Qed.
Lemma one_of_cong : forall l a a', same_name a a' = true -> one_of l a = one_of l a'.
Proof.
  intros l a a' H. unfold one_of. induction l as [|x l IH]; [reflexivity|]. cbn [existsb]. rewrite IH, (same_name_cong a a' x H). reflexivity.
Qed.
Lemma shown_void : forall o n, void_name (shown_name o n) = void_name n.
Proof. intros o n. apply one_of_cong, shown_same. Qed.
Lemma shown_rawn : forall o n, raw_name (shown_name o n) = raw_name n.
Proof. intros o n. apply one_of_cong, shown_same. Qed.
Lemma lower_alpha : forall c, is_ascii_alphabetic c = true -> is_ascii_alphabetic (ascii_lower_char c) = true.
Proof. intros c. unfold is_ascii_alphabetic, is_ascii_uppercase, is_ascii_lowercase, ascii_lower_char. destruct (N.leb 65 c && N.leb c 90)%bool eqn:E; lia. Qed.
Lemma lower_keep : forall c x, (x < 65 \/ 122 < x)%N -> ascii_lower_char c = x -> c = x.
Proof. intros c x L. unfold ascii_lower_char. destruct (_ && _)%bool eqn:E; lia. Qed.
Lemma lower_name_char : forall c, name_char c -> name_char (ascii_lower_char c).
Proof.
  intros c (A & B & C). split; [|split].
  - intro W. apply A. unfold is_ws in *. rewrite lower_char_eq, NameProofs.lower_ws in W. exact W.
  - intro E. apply B. apply lower_keep in E; [exact E|lia].
  - intro E. apply C. apply lower_keep in E; [exact E|lia].
Qed.
Lemma shown_open : forall o n, open_name n -> open_name (shown_name o n).
Proof.
  intros o n O. unfold shown_name. destruct (lowercase_tagname o); [|exact O]. destruct O as (c & n' & -> & A & F).
  exists (ascii_lower_char c), (ascii_lower n'). split; [reflexivity|]. split; [apply lower_alpha; exact A|].
  unfold ascii_lower. apply Forall_map. eapply Forall_impl; [|exact F]. exact lower_name_char.
Qed.
Lemma shown_no_gt : forall o e, ~ In 62%N e -> ~ In 62%N (shown_end o e).
Proof.
  intros o e N. unfold shown_end. set (e' := if remove_endtag_space o then trim_right e else e).
  assert (N' : ~ In 62%N e').
  { subst e'. destruct (remove_endtag_space o); [|exact N]. intro I. apply N.
    destruct (trim_right_split e) as (w & Ew & _). rewrite Ew. apply in_or_app. left. exact I. }
  clearbody e'. unfold shown_name. destruct (lowercase_tagname o); [|exact N'].
  unfold ascii_lower. rewrite in_map_iff. intros (c & Ec & I). apply lower_keep in Ec; [|lia]. subst c. exact (N' I).
Qed.
Lemma shown_trim : forall o e, trim_right (shown_end o e) = shown_name o (trim_right e).
Proof.
  intros o e. unfold shown_end, shown_name. destruct (lowercase_tagname o), (remove_endtag_space o);
    rewrite ?ascii_lower_lower, <- ?lower_trim, ?trim_right_idem; reflexivity.
Qed.
Lemma shown_fits : forall cs o n e, name_fits cs n (trim_right e) = true -> name_fits cs (shown_name o n) (trim_right (shown_end o e)) = true.
Proof.
  intros cs o n e F. rewrite shown_trim. destruct cs; cbn [name_fits] in *.
  - apply chars_eqb_eq in F. rewrite F. apply chars_eqb_refl.
  - rewrite (same_name_cong _ _ _ (shown_same o n)), same_name_sym, (same_name_cong _ _ _ (shown_same o (trim_right e))), same_name_sym. exact F.
Qed.

(** ** Attributes *)
Lemma shown_good : forall o dt l, Forall (good_attr dt) l -> (remove_attr_quote o = true -> Forall quotes_spare l) -> Forall (good_attr dt) (shown_attrs o l).
Proof.
  intros o dt l G Q. unfold shown_attrs. destruct (remove_attr_quote o); [|exact G]. specialize (Q eq_refl).
  induction G as [|a l Ga G IH]; [constructor|]. apply Forall_cons_iff in Q. destruct Q as [Qa Q]. constructor; [|exact (IH Q)].
  destruct Ga as [(k & -> & K)|[(k & v & -> & K & V)|[(k & v & q & -> & K & Qq & N)|(v & q & -> & D & Qq & N)]]]; cbn in Qa.
  - left. exists k. auto.
  - right. left. exists k, v. auto.
  - right. left. exists k, v. auto.
  - destruct Qa.
Qed.
Lemma good_bare : forall dt l, Forall (good_attr dt) l -> Forall (fun a => a_need_quote a = false) l.
Proof.
  intros dt l G. eapply Forall_impl; [|exact G]. intros a [(k & -> & _)|[(k & v & -> & _)|[(k & v & q & -> & _)|(v & q & -> & _)]]]; reflexivity.
Qed.

(** ** Written tokens *)
Definition can_write (opts : parse_options) (k : token) : Prop := exists s, written opts k s.
Definition reads_back (opts : parse_options) (k : token) : Prop := written opts k (print_token k).

Lemma raw_e : forall cs n e, open_name n -> name_fits cs n (trim_right e) = true -> ~ In 62%N e.
Proof.
  intros cs n e O F I. destruct (trim_right_split e) as (w & Ew & Ww). rewrite Ew in I. apply in_app_or in I. destruct I as [I|I].
  - assert (S : same_name n (trim_right e) = true) by (destruct cs; cbn in F; [apply chars_eqb_eq in F; rewrite <- F; apply same_name_refl|exact F]).
    destruct O as (c & n' & -> & Al & Fn).
    assert (L : In 62%N (map ascii_lower_char (trim_right e))) by (change 62%N with (ascii_lower_char 62%N); apply in_map; exact I).
    assert (S2 : ascii_lower (c :: n') = ascii_lower (trim_right e)) by (rewrite !(ascii_lower_lower (c :: n')), (ascii_lower_lower (trim_right e)); apply same_name_lower; exact S). unfold ascii_lower in S2.
    rewrite <- S2 in L. apply in_map_iff in L. destruct L as (x & Ex & Ix). apply lower_keep in Ex; [|lia]. subst x.
    destruct Ix as [->|Ix]; [discriminate Al|]. rewrite Forall_forall in Fn. destruct (Fn _ Ix) as (_ & _ & N). congruence.
  - rewrite Forall_forall in Ww. specialize (Ww _ I). discriminate Ww.
Qed.
(** The place where a raw text ends depends only on its content if no '>' is in the end tag. *)
Lemma first_end_raw : forall cs cs' n n' c c' e e', first_end (ends_in_end_tag cs n) (c ++ str "</" ++ e) ->
  ends_in_end_tag cs' n' (c' ++ str "</" ++ e') -> ~ In 62%N e' ->
  (forall p q, c' = p ++ 62%N :: q -> ends_in_end_tag cs' n' p -> exists q', c = p ++ 62%N :: q' /\ ends_in_end_tag cs n p) ->
  first_end (ends_in_end_tag cs' n') (c' ++ str "</" ++ e').
Proof.
  intros cs cs' n n' c c' e e' [_ F] P N T. split; [exact P|]. intros p q E Hp.
  assert (X : exists q', c' = p ++ 62%N :: q').
  { clear - E N. revert p E. induction c' as [|x c' IH]; intros p E.
    - exfalso. cbn [app] in E. assert (I : In 62%N (str "</" ++ e')) by (rewrite E; apply in_or_app; right; left; reflexivity).
      cbn in I. destruct I as [I|[I|I]]; [discriminate|discriminate|exact (N I)].
    - destruct p as [|y p]; cbn [app] in E.
      + injection E as -> E. exists c'. reflexivity.
      + injection E as -> E. destruct (IH p E) as [q' ->]. exists q'. reflexivity. }
  destruct X as [q' X]. destruct (T p q' X Hp) as (q2 & Y & Z).
  apply (F p (q2 ++ str "</" ++ e)); [|exact Z]. rewrite Y, <- app_assoc. reflexivity.
Qed.
Lemma ends_intro : forall cs n c e, name_fits cs n (trim_right e) = true -> ends_in_end_tag cs n (c ++ str "</" ++ e).
Proof.
  intros cs n c e F. destruct (trim_right_split e) as (w & Ew & Ww). exists c, (trim_right e), w.
  split; [rewrite <- Ew; reflexivity|]. split; assumption.
Qed.

Section Reading.
Variable (opts : parse_options) (env : entity_env) (o : render_options).
Hypothesis (Eq : allow_attr_key_starts_with_equal_sign opts = false).

Lemma written_good : forall k, can_write opts k ->
  match k with
  | KText c => c <> [] /\ ~ In 60%N c
  | KComment c => first_end (ends_in_two 45%N) (c ++ str "--")
  | KCData c => first_end (ends_in_two 93%N) (c ++ str "]]")
  | KDoctype n l => same_name n (str "doctype") = true /\ Forall (good_attr true) l
  | KLeaf n l sc => open_name n /\ Forall (good_attr false) l /\ (sc = true \/ void_name n = true)
  | KRaw n l c e => open_name n /\ Forall (good_attr false) l /\ raw_name n = true /\
      name_fits (case_sensitive_tagname opts) n (trim_right e) = true /\
      first_end (ends_in_end_tag (case_sensitive_tagname opts) n) (c ++ str "</" ++ e)
  | KOpen n l => open_name n /\ Forall (good_attr false) l /\ void_name n = false /\ raw_name n = false
  | KClose e => ~ In 62%N e
  end.
Proof.
  intros k [s W]. destruct W as [c A B|c A|kw c A B|n b a l A B C|n a l sc A B C D|n a l c e A B C D E F|n a l A B C D E|e A];
    rewrite ?Eq in *; try (apply area_good in C); auto 6.
Qed.
Lemma good_reads : forall k,
  match k with
  | KText c => c <> [] /\ ~ In 60%N c
  | KComment c => first_end (ends_in_two 45%N) (c ++ str "--")
  | KCData c => first_end (ends_in_two 93%N) (c ++ str "]]")
  | KDoctype n l => same_name n (str "doctype") = true /\ Forall (good_attr true) l /\ l <> []
  | KLeaf n l sc => open_name n /\ Forall (good_attr false) l /\ (sc = true \/ void_name n = true)
  | KRaw n l c e => open_name n /\ Forall (good_attr false) l /\ raw_name n = true /\
      name_fits (case_sensitive_tagname opts) n (trim_right e) = true /\
      first_end (ends_in_end_tag (case_sensitive_tagname opts) n) (c ++ str "</" ++ e)
  | KOpen n l => open_name n /\ Forall (good_attr false) l /\ void_name n = false /\ raw_name n = false
  | KClose e => ~ In 62%N e
  end -> reads_back opts k.
Proof.
  intros k H. unfold reads_back.
  assert (ST : forall l, starts_with slash_filler (print_attrs l)) by (intro l; rewrite <- (app_nil_r (print_attrs l)); exact (print_start l false)).
  assert (AR : forall dt l, Forall (good_attr dt) l -> SpecDoc.area false dt (print_attrs l) l false)
    by (intros dt l G; pose proof (area_print dt l false G) as X; rewrite app_nil_r in X; exact X).
  destruct k as [c|c|c|n l|n l sc|n l c e|n l|e]; cbn [print_token].
  - destruct H. constructor; assumption.
  - constructor; assumption.
  - exact (w_cdata opts (str "[CDATA[") c eq_refl H).
  - destruct H as (A & G & N). destruct l as [|x l]; [congruence|]. inversion G as [|? ? Gx Gl]; subst.
    pose proof (area_head true x l false [] (Forall_nil _) Gx Gl (area_print _ _ false Gl)) as P. cbn [app] in P. rewrite app_nil_r in P.
    cbn [print_attrs flat_map]. change (str " ") with [32%N]. rewrite <- !app_assoc.
    rewrite (app_assoc (print_attr x)). apply (w_doctype opts n 32%N); [exact A|reflexivity|]. rewrite Eq. exact P.
  - destruct H as (A & G & D). pose proof (area_print _ _ sc G) as P. rewrite (app_assoc (print_attrs l)).
    apply w_leaf; rewrite ?Eq; auto using print_start.
  - destruct H as (A & G & R & F & E). apply w_raw; rewrite ?Eq; auto.
  - destruct H as (A & G & V & R). apply w_open; rewrite ?Eq; auto.
  - constructor. exact H.
Qed.
Lemma shown_attrs_nil : forall l, l <> [] -> shown_attrs o l <> [].
Proof. intros [|a l] N; [congruence|]. unfold shown_attrs. destruct (remove_attr_quote o); discriminate. Qed.
Lemma collapse_nil : forall c, c <> [] -> collapse c <> [].
Proof. intros [|x c] N; [congruence|]. cbn. discriminate. Qed.
Lemma collapse_in : forall x c, In x (collapse c) -> In x c.
Proof.
  intros x c. rewrite collapse_minify. generalize false. induction c as [|y c IH]; intros b I; [destruct I|]. cbn in I.
  destruct (is_ascii_whitespace y); [destruct b|]; cbn in I.
  - right. exact (IH _ I).
  - destruct I as [I|I]; [left; exact I|right; exact (IH _ I)].
  - destruct I as [I|I]; [left; exact I|right; exact (IH _ I)].
Qed.
Lemma shown_ends : forall cs n p, (lowercase_tagname o = true -> cs = true -> ascii_lower n = n) ->
  ends_in_end_tag cs (shown_name o n) p -> ends_in_end_tag cs n p.
Proof.
  intros cs n p L (body & nm & w & E & Ww & F). exists body, nm, w. split; [exact E|]. split; [exact Ww|].
  destruct cs; cbn [name_fits] in *.
  - unfold shown_name in F. destruct (lowercase_tagname o); [rewrite (L eq_refl eq_refl) in F|]; exact F.
  - rewrite (same_name_cong _ _ _ (shown_same o n)) in F. exact F.
Qed.
Definition text_ok (k : token) : Prop := match k with KText c => c <> [] /\ ~ In 60%N c | _ => True end.
Lemma shown_texts : decode_entity o = false -> forall x p, Forall (can_write opts) (tokens x) -> Forall text_ok (shown env o p x).
Proof.
  intros De x. induction x as [c b|c|c|n a|n a sc|n a c e|n a ks e IH] using item_ind2; intros p W;
    cbn [tokens] in W; apply Forall_cons_iff in W; destruct W as [W Wr]; apply written_good in W; cbn [shown];
    try solve [repeat (constructor; try exact I)].
  - destruct W as [W1 W2]. unfold shown_text. rewrite De. cbn [andb].
    destruct (_ && _)%bool; [destruct b; [constructor|]|]; (constructor; [|constructor]); split; auto using collapse_nil, collapse_in.
  - destruct (remove_comment o); repeat (constructor; try exact I).
  - constructor; [exact I|]. apply Forall_app in Wr. destruct Wr as [Wk _]. apply Forall_app. split; [|repeat (constructor; try exact I)].
    clear - IH Wk. induction ks as [|k ks IHk]; [constructor|]. cbn [flat_map] in *. apply Forall_cons_iff in IH. destruct IH as [I1 I2].
    apply Forall_app in Wk. apply Forall_app. split; [apply I1, Wk|apply IHk; [exact I2|apply Wk]].
Qed.
Lemma shown_reads : forall x p, Forall (can_write opts) (tokens x) -> Forall (item_readable (case_sensitive_tagname opts) env o) (within x) ->
  Forall text_ok (shown env o p x) -> Forall (reads_back opts) (shown env o p x).
Proof.
  intro x. induction x as [c b|c|c|n a|n a sc|n a c e|n a ks e IH] using item_ind2; intros p W R T;
    cbn [tokens within] in W, R; apply Forall_cons_iff in W; destruct W as [W Wr]; apply Forall_cons_iff in R; destruct R as [R Rr];
    apply written_good in W; cbn [item_readable] in R; cbn [shown].
  - cbn [shown] in T. unfold shown_text in *. destruct (_ && _)%bool; [destruct b; [constructor|]|]; (constructor; [|constructor]); apply good_reads;
      exact (Forall_inv T).
  - destruct (remove_comment o); [constructor|]. constructor; [|constructor]. apply good_reads. exact W.
  - constructor; [|constructor]. apply good_reads. exact W.
  - destruct W as [W1 W2]. destruct R as [R1 R2]. constructor; [|constructor]. apply good_reads. split; [exact W1|]. split; [apply shown_good; assumption|apply shown_attrs_nil; exact R1].
  - destruct W as (W1 & W2 & W3). constructor; [|constructor]. apply good_reads. split; [apply shown_open; exact W1|].
    split; [apply shown_good; assumption|]. rewrite shown_void. exact W3.
  - destruct W as (W1 & W2 & W3 & W4 & W5). destruct R as (R1 & R2 & R3). constructor; [|constructor]. apply good_reads.
    split; [apply shown_open; exact W1|]. split; [apply shown_good; assumption|]. split; [rewrite shown_rawn; exact W3|].
    split; [apply shown_fits; exact W4|].
    apply (first_end_raw _ _ n _ c _ e _ W5).
    + apply ends_intro, shown_fits. exact W4.
    + apply shown_no_gt. exact (raw_e _ _ _ W1 W4).
    + intros p' q E Hp. unfold shown_raw in E. destruct (encode_content o && plain_text_name n)%bool eqn:Ec.
      * apply Bool.andb_true_iff in Ec. destruct Ec as [E1 E2]. exfalso. apply (R2 E1 E2). rewrite E.
        destruct Hp as (body & nm & w & -> & _). rewrite <- !app_assoc. apply in_or_app. right. left. reflexivity.
      * exists q. split; [exact E|]. exact (shown_ends _ _ _ R3 Hp).
  - destruct W as (W1 & W2 & W3 & W4). destruct R as (R1 & R2). constructor.
    + apply good_reads. split; [apply shown_open; exact W1|]. split; [apply shown_good; assumption|]. rewrite shown_void, shown_rawn. auto.
    + apply Forall_app in Wr. destruct Wr as [Wk We]. apply Forall_inv_tail in T. apply Forall_app in T. destruct T as [T _]. apply Forall_app. split.
      * clear - IH Wk Rr T. induction ks as [|k ks IHk]; [constructor|]. cbn [flat_map] in *. apply Forall_cons_iff in IH. destruct IH as [I1 I2].
        apply Forall_app in Wk. apply Forall_app in Rr. apply Forall_app in T. apply Forall_app.
        split; [apply I1; [apply Wk|apply Rr|apply T]|apply IHk; [exact I2|apply Wk|apply Rr|apply T]].
      * apply Forall_inv in We. apply written_good in We. constructor; [|constructor]. apply good_reads. apply shown_no_gt. exact We.
Qed.
End Reading.

(** ** Joined texts *)
Lemma merge_print : forall ks, print (merge ks) = print ks.
Proof.
  induction ks as [|k ks IH]; [reflexivity|]. change (print (k :: ks)) with (print_token k ++ print ks). rewrite <- IH.
  destruct k; try reflexivity. cbn [merge]. destruct (merge ks) as [|k' r]; [reflexivity|]. destruct k'; try reflexivity.
  unfold print. cbn [flat_map print_token]. rewrite <- app_assoc. reflexivity.
Qed.
Lemma merge_text : forall k ks, is_ktext k = false -> merge (k :: ks) = k :: merge ks.
Proof. intros [] ks H; try reflexivity. discriminate H. Qed.
Lemma text_reads : forall opts c, reads_back opts (KText c) <-> c <> [] /\ ~ In 60%N c.
Proof. intros opts c. split; [intro K; inversion K; auto|intros [A B]; constructor; assumption]. Qed.
Lemma merge_reads : forall opts ks, Forall (reads_back opts) ks -> Forall (reads_back opts) (merge ks).
Proof.
  intros opts ks F. induction F as [|k ks K F IH]; [constructor|].
  destruct (is_ktext k) eqn:E; [|rewrite (merge_text _ _ E); constructor; assumption].
  destruct k; try discriminate E. cbn [merge]. destruct (merge ks) as [|k' r]; [constructor; [exact K|constructor]|].
  destruct k'; try (constructor; [exact K|exact IH]). inversion IH as [|? ? K' F']; subst. constructor; [|exact F'].
  apply text_reads in K. apply text_reads in K'. apply text_reads. destruct K as [K1 K2]. destruct K' as [K3 K4]. split.
  - destruct c; [congruence|discriminate].
  - intro I. apply in_app_or in I. tauto.
Qed.
Fixpoint apart (ks : list token) : Prop :=
  match ks with
  | [] => True
  | k :: r => (is_ktext k = true -> match r with k' :: _ => is_ktext k' = false | [] => True end) /\ apart r
  end.
Lemma merge_apart : forall ks, apart (merge ks).
Proof.
  induction ks as [|k ks IH]; [exact I|].
  destruct (is_ktext k) eqn:E; [|rewrite (merge_text _ _ E); split; [congruence|exact IH]].
  destruct k; try discriminate E. cbn [merge]. destruct (merge ks) as [|k' r]; [split; auto|].
  destruct k'; try (split; [intros _; reflexivity|exact IH]). exact IH.
Qed.
Lemma apart_source : forall opts ks, Forall (reads_back opts) ks -> apart ks -> source opts ks (print ks).
Proof.
  intros opts ks F. induction F as [|k ks K F IH]; intro A; [constructor|]. destruct A as [A1 A2].
  change (print (k :: ks)) with (print_token k ++ print ks). constructor; [exact K|exact (IH A2)|exact A1].
Qed.
Lemma merge_source : forall opts ks, Forall (reads_back opts) ks -> source opts (merge ks) (print ks).
Proof. intros opts ks F. rewrite <- merge_print. apply apart_source; [apply merge_reads; exact F|apply merge_apart]. Qed.

(** ** Nesting *)
Lemma nest_merge : forall opts ks s, nest_all opts (merge ks) s = nest_all opts ks s.
Proof.
  intros opts ks. induction ks as [|k ks IH]; intro s; [reflexivity|].
  destruct (is_ktext k) eqn:E.
  - destruct k; try discriminate E. cbn [nest_all nest]. rewrite <- IH. cbn [merge]. destruct (merge ks) as [|k' r]; [reflexivity|].
    destruct k'; reflexivity.
  - rewrite (merge_text _ _ E). cbn [nest_all]. destruct (nest opts k s); [apply IH|reflexivity].
Qed.

Section Nesting.
Variable (opts : parse_options) (env : entity_env) (o : render_options).
Definition kept_name (n : list char) : Prop := special_elem n = true -> shown_name o n = n.
Definition kept_nest (s : nesting) : Prop :=
  Forall kept_name (open_names s) /\
  match foreign s with Some f => special_elem f = true /\ shown_name o f = f | None => True end.
Definition shown_nest (s : nesting) : nesting := mkNest (map (shown_name o) (open_names s)) (foreign s).
Lemma shown_special : forall n, special_elem (shown_name o n) = special_elem n.
Proof. intro n. unfold special_elem. rewrite !(same_name_cong _ _ _ (shown_same o n)). reflexivity. Qed.
Lemma special_cong : forall a b, same_name a b = true -> special_elem a = special_elem b.
Proof. intros a b H. unfold special_elem. rewrite !(same_name_cong _ _ _ H). reflexivity. Qed.
Lemma shown_eq_kept : forall n f, kept_name n -> special_elem f = true -> shown_name o f = f -> chars_eqb (shown_name o n) f = chars_eqb n f.
Proof.
  intros n f K S F. destruct (chars_eqb n f) eqn:E.
  - apply chars_eqb_eq in E. subst n. rewrite F. apply chars_eqb_refl.
  - destruct (chars_eqb (shown_name o n) f) eqn:E'; [|reflexivity]. apply chars_eqb_eq in E'.
    rewrite K in E'; [apply chars_eqb_neq in E; contradiction|]. rewrite <- shown_special, E'. exact S.
Qed.
Lemma shown_nests : forall x p s s', nest_all opts (tokens x) s = Some s' -> kept_nest s ->
  Forall (item_readable (case_sensitive_tagname opts) env o) (within x) ->
  kept_nest s' /\ open_names s' = open_names s /\ nest_all opts (shown env o p x) (shown_nest s) = Some (shown_nest s').
Proof.
  intro x. induction x as [c b|c|c|n a|n a sc|n a c e|n a ks e IH] using item_ind2; intros p s s' N K R;
    cbn [tokens within shown] in *; apply Forall_cons_iff in R; destruct R as [R Rr]; cbn [item_readable] in R.
  - injection N as <-. split; [exact K|split; [reflexivity|]]. unfold shown_text. destruct (minify_spaces o && _)%bool; [destruct b|]; reflexivity.
  - injection N as <-. split; [exact K|split; [reflexivity|]]. destruct (remove_comment o); reflexivity.
  - destruct s as [[|n ns] [f|]]; try discriminate N. destruct (chars_eqb n f) eqn:E; cbn in N; rewrite E in N; [discriminate|]. injection N as <-.
    split; [exact K|split; [reflexivity|]]. destruct K as [K1 [K2 K3]]. cbn in K1, K2, K3. apply Forall_inv in K1.
    cbn. rewrite (shown_eq_kept _ _ K1 K2 K3), E. reflexivity.
  - injection N as <-. split; [exact K|split; reflexivity].
  - cbn [nest_all nest] in *. rewrite shown_void. cbn [foreign shown_nest]. destruct (_ || _)%bool; [|discriminate]. injection N as <-.
    split; [exact K|split; reflexivity].
  - injection N as <-. split; [exact K|split; reflexivity].
  - destruct R as [_ R]. cbn [nest_all nest] in N. rewrite nest_all_app in N.
    set (s1 := mkNest (n :: open_names s) _) in N. destruct (nest_all opts (flat_map tokens ks) s1) as [s2|] eqn:N2; [|discriminate].
    assert (Kn : kept_name n).
    { intro S. unfold shown_name. destruct (lowercase_tagname o); [|reflexivity]. apply R; auto. }
    assert (K1 : kept_nest s1).
    { destruct K as [Ka Kb]. split; [constructor; assumption|]. subst s1. cbn [foreign]. destruct (foreign s); [exact Kb|].
      destruct (special_elem n) eqn:S; [|exact I]. split; [exact S|exact (Kn S)]. }
    assert (X : forall p', kept_nest s2 /\ open_names s2 = open_names s1 /\
      nest_all opts (flat_map (shown env o p') ks) (shown_nest s1) = Some (shown_nest s2)).
    { intro p'. clearbody s1. clear - IH N2 K1 Rr. revert s1 s2 N2 K1 Rr. induction ks as [|k ks IHk]; intros s1 s2 N2 K1 Rr.
      - injection N2 as <-. auto.
      - cbn [flat_map] in *. rewrite nest_all_app in N2. destruct (nest_all opts (tokens k) s1) as [s3|] eqn:N3; [|discriminate].
        apply Forall_app in Rr. destruct Rr as [R1 R2]. apply Forall_cons_iff in IH. destruct IH as [I1 I2].
        destruct (I1 p' _ _ N3 K1 R1) as (A & B & C). destruct (IHk I2 _ _ N2 A R2) as (D & E & F).
        split; [exact D|split; [congruence|]]. rewrite nest_all_app, C. exact F. }
    destruct (X (p || pre_name n)%bool) as (K2 & O2 & S2).
    assert (Sh : nest opts (KOpen (shown_name o n) (shown_attrs o a)) (shown_nest s) = Some (shown_nest s1)).
    { subst s1. cbn. destruct (foreign s) as [f|]; [reflexivity|]. rewrite shown_special. unfold shown_nest. cbn.
      destruct (special_elem n) eqn:S; [rewrite (Kn S)|]; reflexivity. }
    assert (O3 : open_names s2 = n :: open_names s) by (rewrite O2; reflexivity).
    cbn [nest_all nest] in N. rewrite O3 in N. destruct (name_fits (case_sensitive_tagname opts) n (trim_right e)) eqn:F; [|discriminate].
    injection N as <-.
    assert (Fn : same_name n (trim_right e) = true).
    { destruct (case_sensitive_tagname opts); cbn in F; [apply chars_eqb_eq in F; rewrite <- F; apply same_name_refl|exact F]. }
    assert (Cl : forall f, special_elem f = true -> shown_name o f = f -> chars_eqb f (trim_right (shown_end o e)) = chars_eqb f (trim_right e)).
    { intros f Sf Lf. rewrite shown_trim. destruct (special_elem n) eqn:Sn.
      - f_equal. unfold shown_name. destruct (lowercase_tagname o) eqn:L; [|reflexivity].
        destruct (R eq_refl eq_refl) as [_ Re]. rewrite ascii_lower_lower, lower_trim, <- ascii_lower_lower, Re. reflexivity.
      - assert (Se : special_elem (trim_right e) = false) by (rewrite <- (special_cong _ _ Fn); exact Sn).
        assert (Y : forall z, special_elem z = false -> chars_eqb f z = false).
        { intros z Z. apply chars_eqb_neq. intros ->. congruence. }
        rewrite !Y; auto. rewrite shown_special. exact Se. }
    split; [|split; [reflexivity|]].
    + destruct K as [Ka _]. destruct K2 as [_ Kb]. split; [exact Ka|]. cbn [foreign]. destruct (foreign s2) as [f|]; [|exact I].
      destruct (chars_eqb f (trim_right e)); [exact I|exact Kb].
    + cbn [nest_all]. rewrite Sh, nest_all_app, S2. cbn [nest_all nest]. unfold shown_nest at 1. cbn [open_names]. rewrite O3. cbn [map].
      rewrite (shown_fits _ o _ _ F). unfold shown_nest. cbn [foreign open_names]. destruct K2 as [_ Kb]. destruct (foreign s2) as [f|]; [|reflexivity].
      destruct Kb as [Kb1 Kb2]. rewrite (Cl f Kb1 Kb2). reflexivity.
Qed.
Lemma shown_nests_all : forall f s s', nest_all opts (flat_map tokens f) s = Some s' -> kept_nest s ->
  Forall (item_readable (case_sensitive_tagname opts) env o) (flat_map within f) ->
  nest_all opts (flat_map (shown env o false) f) (shown_nest s) = Some (shown_nest s').
Proof.
  intro f. induction f as [|x f IH]; intros s s' N K R; [injection N as <-; reflexivity|].
  cbn [flat_map] in *. rewrite nest_all_app in N. destruct (nest_all opts (tokens x) s) as [s1|] eqn:E; [|discriminate].
  apply Forall_app in R. destruct R as [R1 R2]. destruct (shown_nests x false _ _ E K R1) as (A & _ & C).
  rewrite nest_all_app, C. exact (IH _ _ N A R2).
Qed.
Lemma shown_nests_top : forall f, nests opts (flat_map tokens f) ->
  Forall (item_readable (case_sensitive_tagname opts) env o) (flat_map within f) -> nests opts (merge (flat_map (shown env o false) f)).
Proof.
  intros f [g N] R. exists g. rewrite nest_merge. apply (shown_nests_all f _ _ N); [|exact R]. split; [constructor|exact I].
Qed.
End Nesting.
