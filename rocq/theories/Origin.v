(** Every node of a parsed document is a token of the source. *)
From Coq Require Import String.
From Verif Require Import Api SpecText SpecRender SpecParse SpecMisc SpecTree NameProofs RenderProofs MiscProofs HeapLemmas InvCtl Big RawText Area Struct TextInv Shape Tok Static StructEnd Final DocFacts DocEnd DocSound DocTree Mono Print SpecDoc SpecOpts.
Local Open Scope string_scope.
Local Open Scope list_scope.

Definition nontext (t : node_type) : Prop := In t [NTag; NComment; NXMLCDATA; NHTMLDOCTYPE].
Lemma void_of : forall n, is_void_tag (lower n) = void_name n.
Proof. exact is_void_spec. Qed.

Lemma wr_origin : forall opts s x, wr opts s x -> nontext (n_type x) -> token_at opts s x \/ slashed_at opts s x.
Proof.
  intros opts s x W T. destruct W as
    [A _ | s1 n a s2 mk t E Bg O As R C K Ty M Ct | s1 n a b s2 mk t E Bg O As R C Sl K Fe1 Fe2 Ty M Ct
    | s1 nm s2 _ _ _ Ty | s1 s2 _ _ Ty | s1 b s2 E Bg Fe1 Fe2 Ty M Ct _ | s1 kw b s2 E Bg Kw Fe1 Fe2 Ty M Ct _
    | s1 n c a s2 mk t E Bg N B R C Ty M Ct].
  - exfalso. destruct A as [A|A]; rewrite A in T; cbn in T; intuition discriminate.
  - left. pose proof (run_area _ _ _ _ _ R C) as Ar.
    destruct (ta_slash t || void_name n)%bool eqn:V.
    + exists s1, (KLeaf n (ta_attrs (ta_close t)) (ta_slash t)), (str "<" ++ n ++ a ++ str ">"), s2.
      split; [rewrite E, <- !app_assoc; reflexivity|]. split; [exact Bg|]. split.
      * apply w_leaf; auto; [apply area_start_with, As|]. apply Bool.orb_true_iff. exact V.
      * cbn. split; [exact Ty|]. split; [exact Ct|]. eexists. split; [exact M|]. repeat split. apply void_of.
    + apply Bool.orb_false_iff in V. destruct V as [V1 V2]. rewrite V1 in *.
      destruct K as [K|K]; [discriminate|]. rewrite is_content_spec in K.
      exists s1, (KOpen n (ta_attrs (ta_close t))), (str "<" ++ n ++ a ++ str ">"), s2.
      split; [rewrite E, <- !app_assoc; reflexivity|]. split; [exact Bg|]. split.
      * apply w_open; auto. apply area_start_with, As.
      * cbn. split; [exact Ty|]. split; [exact Ct|]. eexists. split; [exact M|]. repeat split.
        change (is_void_tag (lower n) = false). rewrite void_of. exact V2.
  - left. pose proof (run_area _ _ _ _ _ R C) as Ar. rewrite Sl in Ar. rewrite is_content_spec in K.
    pose proof (proj1 (raw_end_spec opts n b O) Fe2) as (body & nm & w & Eb & Ww & Nf).
    pose proof (raw_split opts n b body nm w O Eb Ww (proj1 (name_fits_iff _ _ _) Nf)) as [X1 _]. cbv zeta in X1. rewrite X1 in Ct.
    assert (Tr : trim_right (nm ++ w) = nm).
    { exact (trim_fits _ n nm [] w O (proj1 (name_fits_iff _ _ _) Nf) Ww). }
    exists s1, (KRaw n (ta_attrs (ta_close t)) body (nm ++ w)), (str "<" ++ n ++ a ++ str ">" ++ body ++ str "</" ++ (nm ++ w) ++ str ">"), s2.
    split; [rewrite E, Eb, <- !app_assoc; reflexivity|]. split; [exact Bg|]. split.
    + apply w_raw; auto; [apply area_start_with, As|rewrite Tr; exact Nf|].
      rewrite <- Eb. apply (open_first _ _ b (fun q => raw_end_spec opts n q O)). auto.
    + cbn. split; [exact Ty|]. split; [exact Ct|]. eexists. split; [exact M|]. repeat split.
      change (is_void_tag (lower n) = false). rewrite void_of. apply raw_not_void. exact K.
  - rewrite Ty in T. cbn in T. intuition discriminate.
  - rewrite Ty in T. cbn in T. intuition discriminate.
  - left. pose proof (proj1 (cm_end_spec _ _) Fe2) as (c & Nc & Eb). change [DASH_CHAR; DASH_CHAR] with [45%N; 45%N] in Eb.
    exists s1, (KComment c), (str "<!--" ++ c ++ str "-->"), s2.
    split; [rewrite E, Eb, <- !app_assoc; reflexivity|]. split; [exact Bg|]. split.
    + apply w_comment. change (str "--") with [45%N; 45%N]. rewrite <- Eb. apply (open_first _ _ b (cm_end_spec 45%N)). auto.
    + pose proof (cm_split DASH_CHAR c) as X. change [DASH_CHAR; DASH_CHAR] with [45%N; 45%N] in X. rewrite Eb, X in Ct. cbn. auto.
  - left. pose proof (proj1 (cm_end_spec _ _) Fe2) as (c & Nc & Eb). change [RIGHT_BRACKET_CHAR; RIGHT_BRACKET_CHAR] with [93%N; 93%N] in Eb.
    exists s1, (KCData c), (str "<!" ++ kw ++ c ++ str "]]>"), s2.
    split; [rewrite E, Eb, <- !app_assoc; reflexivity|]. split; [exact Bg|]. split.
    + apply w_cdata; [exact Kw|]. change (str "]]") with [93%N; 93%N]. rewrite <- Eb. apply (open_first _ _ b (cm_end_spec 93%N)). auto.
    + pose proof (cm_split RIGHT_BRACKET_CHAR c) as X. change [RIGHT_BRACKET_CHAR; RIGHT_BRACKET_CHAR] with [93%N; 93%N] in X. rewrite Eb, X in Ct. cbn. auto.
  - pose proof (run_area _ _ _ _ _ R C) as Ar. destruct (ta_slash t) eqn:Sl.
    + right. split; [exact Ty|]. exists s1, n, c, a, (ta_attrs (ta_close t)), s2. repeat (split; [assumption|]).
      eexists. split; [exact M|]. repeat split.
    + left. exists s1, (KDoctype n (ta_attrs (ta_close t))), (str "<!" ++ n ++ [c] ++ a ++ str ">"), s2.
      split; [rewrite E, <- !app_assoc; reflexivity|]. split; [exact Bg|]. split; [apply w_doctype; auto|].
      cbn. split; [exact Ty|]. split; [exact Ct|]. eexists. split; [exact M|]. repeat split.
Qed.

Lemma un_origin : forall opts s x, un opts s x -> cut_off s x /\ auto_fix_unclosed_tag opts = true.
Proof.
  intros opts s x (A & T & C & s1 & n & a & E & Bg & O & K). split; [|exact A]. split; [exact T|]. split; [exact C|].
  exists s1, n, a. repeat (split; [assumption|]). destruct K as [[-> M]|(_ & As & mk & t & R & M)].
  - split; [exact I|]. intros m X. congruence.
  - split; [apply area_start_with, As|]. intros m X. rewrite M in X. injection X as <-. reflexivity.
Qed.
(** What the end of the input changes does not matter here. *)
Definition like (x y : node) : Prop :=
  n_type y = n_type x /\ n_content y = n_content x /\ n_begin_at y = n_begin_at x /\
  (n_meta y = n_meta x \/ exists m, n_meta x = Some m /\ n_meta y = Some (mset_auto_fix true m)).
Lemma like_token : forall k x y, like x y -> token_node k x -> token_node k y.
Proof.
  intros k x y (T & C & B & M) K.
  assert (G : forall (P : tag_meta -> Prop), (forall m, P m -> P (mset_auto_fix true m)) ->
    (exists m, n_meta x = Some m /\ P m) -> exists m, n_meta y = Some m /\ P m).
  { intros P H (m & X & Y). destruct M as [M|(m' & M1 & M2)]; [exists m; split; congruence|].
    exists (mset_auto_fix true m'). split; [exact M2|]. apply H. congruence. }
  assert (G0 : n_meta x = None -> n_meta y = None) by (intro X; destruct M as [M|(m' & M1 & M2)]; congruence).
  destruct k; cbn in *; try contradiction; rewrite T, C; destruct K as (K1 & K2 & K3); (split; [exact K1|]; split; [exact K2|]); auto;
    (eapply G; [|exact K3]; intros m0 X; exact X).
Qed.
Lemma like_at : forall opts s x y, like x y -> token_at opts s x -> token_at opts s y.
Proof.
  intros opts s x y L (s1 & k & t & s2 & E & B & W & K). exists s1, k, t, s2. split; [exact E|].
  split; [destruct L as (_ & _ & -> & _); exact B|]. split; [exact W|]. eapply like_token; eauto.
Qed.
Lemma like_cut : forall s x y, like x y -> cut_off s x -> cut_off s y.
Proof.
  intros s x y (T & C & B & M) (A1 & A2 & s1 & n & a & E & Bg & O & St & K). split; [congruence|]. split; [congruence|].
  exists s1, n, a. split; [exact E|]. split; [congruence|]. split; [exact O|]. split; [exact St|]. intros m X.
  destruct M as [M|(m' & M1 & M2)]; [apply K; congruence|]. rewrite M2 in X. injection X as <-. exact (K _ M1).
Qed.
Lemma like_slashed : forall opts s x y, like x y -> slashed_at opts s x -> slashed_at opts s y.
Proof.
  intros opts s x y (T & C & B & M) (A1 & s1 & n & b & a & l & s2 & E & Bg & S1 & S2 & S3 & m & M0 & K). split; [congruence|].
  exists s1, n, b, a, l, s2. split; [exact E|]. split; [congruence|]. repeat (split; [assumption|]).
  destruct M as [M|(m' & M1 & M2)]; [exists m; split; [congruence|exact K]|].
  exists (mset_auto_fix true m'). split; [exact M2|]. assert (m' = m) by congruence. subst m'. exact K.
Qed.
Lemma nontext_not : forall t, nontext t -> ~ textual t /\ t <> NTagEnd /\ t <> NAbstractRoot.
Proof.
  intros t H. unfold nontext in H. cbn in H. repeat (destruct H as [<-|H]; [repeat split; try discriminate; intros [X|X]; discriminate|]).
  contradiction.
Qed.
Theorem origin : forall opts s d i, parse opts s = Parsed d -> nontext (n_type (hget (d_heap d) i)) ->
  let x := hget (d_heap d) i in
  token_at opts s x \/ slashed_at opts s x \/ (cut_off s x /\ auto_fix_unclosed_tag opts = true).
Proof.
  intros opts s d i H T x. destruct (parsed_final _ _ _ H) as [st [E [P [F [_ Sh]]]]].
  destruct (nontext_not _ T) as (T1 & T2 & T3).
  pose proof (final_old _ _ _ i _ F eq_refl T2 T3) as L.
  pose proof (proj1 (final_ty _ _ _ i _ F E T1 T2 T3) eq_refl) as Ty. unfold ty in Ty.
  assert (Li : 0 < i).
  { destruct i; [|lia]. exfalso. apply T3. rewrite <- Ty. apply (hs_root _ _ (e_hs _ _ E)). }
  assert (K : like (hget (d_heap st) i) x).
  { split; [symmetry; exact Ty|]. split; [|split; [apply (f_begin _ _ _ F i L)|]].
    - unfold x. rewrite (f_content _ _ _ F i L). destruct (Nat.eqb_spec i (d_current_node st)) as [->|]; [|reflexivity].
      destruct (d_code_in st) eqn:C; try reflexivity. exfalso. apply T1. left. rewrite <- Ty. exact (e_text _ _ E C).
    - unfold x. destruct (in_dec Nat.eq_dec i (open_at_end st)) as [I|I].
      + destruct (n_meta (hget (d_heap st) i)) as [m|] eqn:Em; [|left; rewrite <- Em; apply (f_closed _ _ _ F i L (or_intror Em))].
        right. exists m. split; [reflexivity|]. apply (f_open _ _ _ F i m L I Em).
      + left. apply (f_closed _ _ _ F i L (or_introl I)). }
  rewrite <- Ty in T.
  destruct (z_src _ _ _ P i (conj Li L)) as [W|U].
  - destruct (wr_origin _ _ _ W T) as [X|X]; [left; eapply like_at; eauto|right; left; eapply like_slashed; eauto].
  - destruct (un_origin _ _ _ U) as [X Y]. right. right. split; [eapply like_cut; eauto|exact Y].
Qed.

(** ** Text, raw text, comments *)
Lemma source_app : forall opts ks1 s1, source opts ks1 s1 -> forall k t ks2 s2, written opts k t -> is_ktext k = false ->
  source opts ks2 s2 -> source opts (ks1 ++ k :: ks2) (s1 ++ t ++ s2).
Proof.
  intros opts ks1 s1 S1 k t ks2 s2 W T S2. induction S1 as [|k0 s0 ks r W0 S0 IH C].
  - cbn. apply src_cons; auto. intro X. congruence.
  - rewrite <- app_assoc. cbn [app]. apply src_cons; auto. intro X. destruct ks as [|k1 ks]; cbn; auto.
Qed.
Theorem text_kept : forall opts s env, ~ In 60%N s -> exists d, parse opts s = Parsed d /\
  doc_content d (match s with [] => [] | _ => [XText s (blank_text s)] end) /\ render env default_ro d = ROk s.
Proof.
  intros opts s env N. set (f := match s with [] => [] | _ => [XText s (blank_text s)] end).
  assert (E : flat_map tokens f = match s with [] => [] | _ => [KText s] end) by (destruct s; reflexivity).
  destruct (source_parses_all opts f s) as (d & P & D).
  - rewrite E. destruct s as [|c s]; [constructor|]. rewrite <- (app_nil_r (c :: s)) at 2. apply src_cons; [|constructor|auto].
    apply w_text; [discriminate|exact N].
  - rewrite E. exists None. destruct s; reflexivity.
  - unfold f, marked. destruct s; [reflexivity|]. cbn [mark_all mark]. rewrite Bool.andb_true_r. reflexivity.
  - exists d. split; [exact P|]. split; [exact D|]. rewrite (content_render env _ _ D), E. destruct s; [reflexivity|].
    unfold print. cbn [flat_map print_token]. rewrite app_nil_r. reflexivity.
Qed.
Theorem token_kept : forall opts ks1 s1 k t ks2 s2, written opts k t -> is_ktext k = false ->
  source opts ks1 s1 -> source opts ks2 s2 -> nests opts (ks1 ++ k :: ks2) ->
  exists d f, parse opts (s1 ++ t ++ s2) = Parsed d /\ flat_map tokens f = ks1 ++ k :: ks2 /\ doc_content d f.
Proof.
  intros opts ks1 s1 k t ks2 s2 W T S1 S2 N.
  destruct (source_accepted opts _ _ (source_app _ _ _ S1 _ _ _ _ W T S2) N) as (d & f & P & E & _ & D). eauto.
Qed.
Lemma name_no_gt : forall n, open_name n -> ~ In 62%N n.
Proof.
  intros n (c & n' & -> & Al & Nc) [I|I].
  - subst c. discriminate Al.
  - rewrite Forall_forall in Nc. apply Nc in I. destruct I as (_ & _ & I). congruence.
Qed.
Lemma split_before : forall (x : char) p q c e, ~ In x e -> p ++ x :: q = c ++ e -> exists q', c = p ++ x :: q'.
Proof.
  intros x p. induction p as [|y p IH]; intros q c e N E; destruct c as [|z c]; cbn in E.
  - exfalso. apply N. rewrite <- E. left. reflexivity.
  - injection E as <- E. exists c. reflexivity.
  - exfalso. apply N. rewrite <- E. right. apply in_or_app. right. left. reflexivity.
  - injection E as <- E. destruct (IH _ _ _ N E) as [q' ->]. exists q'. reflexivity.
Qed.
Lemma fits_same : forall cs n m, name_fits cs n m = true -> same_name n m = true.
Proof. intros [] n m H; [|exact H]. cbn in H. apply chars_eqb_eq in H. subst m. apply same_name_refl. Qed.
Lemma same_name_len : forall n m, same_name n m = true -> length n = length m.
Proof.
  induction n as [|c n IH]; intros [|d m] H; try discriminate; [reflexivity|]. cbn in *. apply andb_true_iff in H. f_equal. apply IH, H.
Qed.
Theorem raw_any : forall opts n c env, open_name n -> raw_name n = true ->
  (forall p q, c = p ++ str "</" ++ q -> same_name n (firstn (length n) q) = false) ->
  let s := str "<" ++ n ++ str ">" ++ c ++ str "</" ++ n ++ str ">" in
  exists d, parse opts s = Parsed d /\ doc_content d [XRaw n [] c n] /\ render env default_ro d = ROk s.
Proof.
  intros opts n c env O R F s. destruct (source_parses_all opts [XRaw n [] c n] s) as (d & P & D).
  - cbn [flat_map tokens app]. rewrite <- (app_nil_r s). apply src_cons; [|constructor|discriminate].
    apply (w_raw opts n [] [] c n); auto; [exact I|apply ar_end; constructor|apply name_self; exact O|]. split.
    + exists c, n, []. rewrite app_nil_r. split; [reflexivity|]. split; [constructor|]. pose proof (name_self (case_sensitive_tagname opts) n O) as X.
      rewrite (open_trim _ O) in X. exact X.
    + intros p q E (body & nm & w & Ep & Ww & Nf). destruct (split_before 62%N p q c (str "</" ++ n)) as [q' Eq]; [|symmetry; exact E|].
      * intros [X|[X|X]]; [discriminate X|discriminate X|]. exact (name_no_gt _ O X).
      * assert (X : c = body ++ str "</" ++ nm ++ w ++ 62%N :: q') by (rewrite Eq, Ep, <- !app_assoc; reflexivity).
        apply fits_same in Nf. pose proof (F _ _ X) as Y. rewrite (same_name_len _ _ Nf), firstn_app, Nat.sub_diag, firstn_all in Y.
        cbn [firstn] in Y. rewrite app_nil_r in Y. congruence.
  - exists None. reflexivity.
  - reflexivity.
  - exists d. split; [exact P|]. split; [exact D|]. rewrite (content_render env _ _ D). unfold print. cbn [flat_map tokens app print_token print_attrs].
    rewrite app_nil_r. reflexivity.
Qed.
Theorem comment_any : forall opts c env, c <> [] -> (forall p q, c = p ++ str "-->" ++ q -> p = []) ->
  let s := str "<!--" ++ c ++ str "-->" in
  exists d, parse opts s = Parsed d /\ doc_content d [XComment c] /\ render env default_ro d = ROk s.
Proof.
  intros opts c env C F s. destruct (source_parses_all opts [XComment c] s) as (d & P & D).
  - cbn [flat_map tokens app]. rewrite <- (app_nil_r s). apply src_cons; [|constructor|discriminate]. apply w_comment. split.
    + exists c. auto.
    + intros p q E (body & Nb & Ep). destruct (split_before 62%N p q c (str "--")) as [q' Eq]; [|symmetry; exact E|].
      * intros [X|[X|[]]]; discriminate X.
      * apply Nb. apply (F _ q'). rewrite Eq, Ep, <- !app_assoc. reflexivity.
  - exists None. reflexivity.
  - reflexivity.
  - exists d. split; [exact P|]. split; [exact D|]. rewrite (content_render env _ _ D). unfold print. cbn [flat_map tokens app print_token].
    rewrite app_nil_r. reflexivity.
Qed.
Theorem raw_origin : forall opts s d i c, parse opts s = Parsed d -> let x := hget (d_heap d) i in
  n_type x = NTag -> n_content x = Some c ->
  (exists s1 n a l e s2 m, s = s1 ++ str "<" ++ n ++ a ++ str ">" ++ c ++ str "</" ++ e ++ str ">" ++ s2 /\ n_begin_at x = length s1 /\
    open_name n /\ raw_name n = true /\ area (allow_attr_key_starts_with_equal_sign opts) false a l false /\
    first_end (ends_in_end_tag (case_sensitive_tagname opts) n) (c ++ str "</" ++ e) /\
    n_meta x = Some m /\ m_name m = n /\ m_attrs m = l) /\
  (auto_fix_unescaped_lt opts = false -> n_childs x = None).
Proof.
  intros opts s d i c P x T C. subst x. assert (NT : nontext (n_type (hget (d_heap d) i))) by (unfold nontext; rewrite T; left; reflexivity).
  destruct (origin _ _ _ _ P NT) as [(s1 & k & t & s2 & E & B & W & K)|[(X & _)|((_ & X & _) & _)]]; try congruence.
  destruct k; cbn in K; try contradiction; destruct K as (K1 & K2 & K3); try congruence. destruct K3 as (m & M & Ma & Mb & Mc & Md).
  inversion W as [| | | | |n' a l c' e' O St Ar R Nf Fe| | ]; subst n' l c' e'. assert (c0 = c) by congruence. subst c0. split.
  - exists s1, n, a, at_, e, s2, m. split; [subst t; rewrite E, <- !app_assoc; reflexivity|]. repeat (split; [assumption|]). exact Mb.
  - intro F. apply (leaf_tags opts s d i m P T M); [|exact F]. right. right. rewrite Ma. exact R.
Qed.
Theorem comment_origin : forall opts s d i, parse opts s = Parsed d -> let x := hget (d_heap d) i in n_type x = NComment ->
  exists s1 c s2, s = s1 ++ str "<!--" ++ c ++ str "-->" ++ s2 /\ n_begin_at x = length s1 /\ c <> [] /\
    (forall p q, c = p ++ str "-->" ++ q -> p = []) /\ n_content x = Some c.
Proof.
  intros opts s d i P x T. subst x. assert (NT : nontext (n_type (hget (d_heap d) i))) by (unfold nontext; rewrite T; cbn; tauto).
  destruct (origin _ _ _ _ P NT) as [(s1 & k & t & s2 & E & B & W & K)|[(X & _)|((X & _) & _)]]; try congruence.
  destruct k; cbn in K; try contradiction; destruct K as (K1 & K2 & K3); try congruence.
  inversion W as [|c' Fe| | | | | | ]; subst c' t. rewrite E. exists s1, c, s2. split; [rewrite <- !app_assoc; reflexivity|]. split; [exact B|].
  destruct Fe as [(body & Nb & Eb) Fe]. change [45%N; 45%N] with (str "--") in Eb. apply app_inv_tail in Eb. subst body.
  split; [exact Nb|]. split; [|exact K2]. intros p q Ec. destruct p as [|y p]; [reflexivity|]. exfalso.
  apply (Fe ((y :: p) ++ str "--") (q ++ str "--")); [rewrite Ec, <- !app_assoc; reflexivity|]. exists (y :: p). split; [discriminate|reflexivity].
Qed.
Theorem raw_in_context : forall opts ks1 s1 n a l c e ks2 s2, open_name n -> starts_with slash_filler a ->
  area (allow_attr_key_starts_with_equal_sign opts) false a l false -> raw_name n = true ->
  name_fits (case_sensitive_tagname opts) n (trim_right e) = true ->
  first_end (ends_in_end_tag (case_sensitive_tagname opts) n) (c ++ str "</" ++ e) ->
  source opts ks1 s1 -> source opts ks2 s2 -> nests opts (ks1 ++ KRaw n l c e :: ks2) ->
  exists d f, parse opts (s1 ++ (str "<" ++ n ++ a ++ str ">" ++ c ++ str "</" ++ e ++ str ">") ++ s2) = Parsed d /\
    flat_map tokens f = ks1 ++ KRaw n l c e :: ks2 /\ doc_content d f.
Proof. intros. apply token_kept; auto. apply w_raw; auto. Qed.
Theorem comment_in_context : forall opts ks1 s1 c ks2 s2, first_end (ends_in_two 45%N) (c ++ str "--") ->
  source opts ks1 s1 -> source opts ks2 s2 -> nests opts (ks1 ++ KComment c :: ks2) ->
  exists d f, parse opts (s1 ++ (str "<!--" ++ c ++ str "-->") ++ s2) = Parsed d /\
    flat_map tokens f = ks1 ++ KComment c :: ks2 /\ doc_content d f.
Proof. intros. apply token_kept; auto. apply w_comment; auto. Qed.
Theorem raw_has_content : forall opts s d i m, parse opts s = Parsed d -> let x := hget (d_heap d) i in
  n_type x = NTag -> n_meta x = Some m -> raw_name (m_name m) = true -> m_self_closed m = false ->
  (exists c, n_content x = Some c) \/ (cut_off s x /\ auto_fix_unclosed_tag opts = true).
Proof.
  intros opts s d i m P x T M R Sc. subst x.
  assert (NT : nontext (n_type (hget (d_heap d) i))) by (unfold nontext; rewrite T; left; reflexivity).
  destruct (origin _ _ _ _ P NT) as [(s1 & k & t & s2 & E & B & W & K)|[(X & _)|X]]; [|congruence|right; exact X].
  left. destruct k; cbn in K; try contradiction; destruct K as (K1 & K2 & K3); try congruence; eauto;
    destruct K3 as (m' & M' & Ma & Mb & Mc & Md); assert (m' = m) by congruence; subst m'; exfalso.
  - inversion W as [| | | |n' a l sc O St Ar V| | |]; subst n' l sc. destruct V as [V|V]; [congruence|].
    rewrite Ma in R. apply raw_not_void in R. congruence.
  - inversion W as [| | | | | |n' a l O St Ar V Rw|]; subst n' l. congruence.
Qed.
