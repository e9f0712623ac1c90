(** Rendering in several passes. *)
From Coq Require Import String Lia.
From Verif Require Import Api SpecText SpecRender SpecParse SpecMisc SpecTree SpecDoc SpecOpts NameProofs Shape Tok DocTree DocSound Print SpecShown Shown ShownRead ShownDoc SpecCase CaseProofs SpecTurn.
Local Open Scope string_scope.
Local Open Scope list_scope.

Section Turn.
Variable (env : entity_env) (o1 o2 : render_options).
Hypothesis (En : encode_content o1 = false \/ encode_content o2 = false).
Local Notation o := (both o1 o2).

Lemma turn_name : forall n, shown_name o2 (shown_name o1 n) = shown_name o n.
Proof.
  intro n. unfold shown_name. cbn [lowercase_tagname both]. destruct (lowercase_tagname o1), (lowercase_tagname o2); try reflexivity.
  cbn. rewrite !ascii_lower_lower. apply lower_idem.
Qed.
Lemma turn_end : forall e, shown_end o2 (shown_end o1 e) = shown_end o e.
Proof.
  intro e. unfold shown_end at 1. destruct (remove_endtag_space o2) eqn:R2.
  - rewrite shown_trim, turn_name. unfold shown_end. cbn [remove_endtag_space both]. rewrite R2, Bool.orb_true_r. reflexivity.
  - unfold shown_end. cbn [remove_endtag_space both]. rewrite R2, Bool.orb_false_r. apply turn_name.
Qed.
Lemma turn_attrs : forall l, shown_attrs o2 (shown_attrs o1 l) = shown_attrs o l.
Proof.
  intro l. unfold shown_attrs. cbn [remove_attr_quote both]. destruct (remove_attr_quote o1), (remove_attr_quote o2); try reflexivity.
  cbn. rewrite map_map. apply map_ext. reflexivity.
Qed.
Lemma turn_same : forall oo n, same_name n (shown_name oo n) = true.
Proof. intros oo n. unfold shown_name. destruct (lowercase_tagname oo); [apply lower_sn|apply same_name_refl]. Qed.
Lemma turn_pre : forall n, pre_name (shown_name o1 n) = pre_name n.
Proof. intro n. unfold pre_name. apply sn_congr, turn_same. Qed.
Lemma turn_raw : forall n c, shown_raw env o2 (shown_name o1 n) (shown_raw env o1 n c) = shown_raw env o n c.
Proof.
  intros n c. rewrite (shown_raw_eq _ _ _ _ _ (turn_same o1 n)). unfold shown_raw. cbn [encode_content both].
  destruct En as [E|E]; rewrite E; cbn [andb orb]; [reflexivity|rewrite Bool.orb_false_r; reflexivity].
Qed.

(** ** A second pass that leaves the text alone *)
Section Then.
Hypothesis K2 : keeps_text o2.
Definition turn_token (k : token) : list token :=
  match k with
  | KComment c => if remove_comment o2 then [] else [KComment c]
  | KDoctype n l => [KDoctype n (shown_attrs o2 l)]
  | KLeaf n l sc => [KLeaf (shown_name o2 n) (shown_attrs o2 l) sc]
  | KRaw n l c e => [KRaw (shown_name o2 n) (shown_attrs o2 l) (shown_raw env o2 n c) (shown_end o2 e)]
  | KOpen n l => [KOpen (shown_name o2 n) (shown_attrs o2 l)]
  | KClose e => [KClose (shown_end o2 e)]
  | KText c => [KText c]
  | KCData c => [KCData c]
  end.
Lemma turn_tokens : forall x p, shown env o2 p x = flat_map turn_token (tokens x).
Proof.
  destruct K2 as [Mi De].
  intro x. induction x as [c b|c|c|n a|n a sc|n a c e|n a ks e IH] using item_ind2; intro p; cbn [shown tokens flat_map turn_token app]; rewrite ?app_nil_r; try reflexivity.
  - unfold shown_text. rewrite Mi, De. reflexivity.
  - f_equal. rewrite flat_map_app. cbn [flat_map turn_token app]. f_equal. generalize (p || pre_name n)%bool. intro q.
    induction IH as [|k ks I1 I2 IHk]; [reflexivity|]. cbn [flat_map]. rewrite flat_map_app, I1, IHk. reflexivity.
Qed.
Lemma turn_tokens_all : forall f, flat_map (shown env o2 false) f = flat_map turn_token (flat_map tokens f).
Proof. induction f as [|x f IH]; [reflexivity|]. cbn [flat_map]. rewrite flat_map_app, IH, turn_tokens. reflexivity. Qed.
Lemma turn_merge : forall ks, print (flat_map turn_token (merge ks)) = print (flat_map turn_token ks).
Proof.
  induction ks as [|k ks IH]; [reflexivity|]. destruct (is_ktext k) eqn:E.
  - destruct k; try discriminate E. cbn [merge]. cbn [flat_map turn_token app]. change (print (KText c :: ?r)) with (c ++ print r).
    rewrite <- IH. destruct (merge ks) as [|k' r]; [reflexivity|]. destruct k'; try reflexivity.
    cbn [flat_map turn_token app]. unfold print. cbn [flat_map print_token]. rewrite <- app_assoc. reflexivity.
  - rewrite (merge_text _ _ E). cbn [flat_map]. unfold print in *. rewrite !flat_map_app, IH. reflexivity.
Qed.
Lemma turn_shown : forall x p, flat_map turn_token (shown env o1 p x) = shown env o p x.
Proof.
  destruct K2 as [Mi De].
  intro x. induction x as [c b|c|c|n a|n a sc|n a c e|n a ks e IH] using item_ind2; intro p; cbn [shown flat_map turn_token app];
    rewrite ?turn_attrs, ?turn_name, ?turn_raw, ?turn_end; try reflexivity.
  - unfold shown_text. cbn [minify_spaces decode_entity both]. rewrite Mi, De, !Bool.orb_false_r.
    destruct (minify_spaces o1 && negb p)%bool; [destruct b|]; reflexivity.
  - cbn [remove_comment both]. destruct (remove_comment o1); [reflexivity|]. cbn [flat_map turn_token orb app]. rewrite app_nil_r. reflexivity.
  - f_equal. rewrite flat_map_app. cbn [flat_map turn_token app]. rewrite turn_end. f_equal. generalize (p || pre_name n)%bool. intro q.
    induction IH as [|k ks I1 I2 IHk]; [reflexivity|]. cbn [flat_map]. rewrite flat_map_app, I1, IHk. reflexivity.
Qed.
Lemma turn_then : forall f f', flat_map tokens f' = merge (flat_map (shown env o1 false) f) ->
  print (flat_map (shown env o2 false) f') = print (flat_map (shown env o false) f).
Proof.
  intros f f' E. rewrite turn_tokens_all, E, turn_merge. f_equal. clear E.
  induction f as [|x f IH]; [reflexivity|]. cbn [flat_map]. rewrite flat_map_app, IH, turn_shown. reflexivity.
Qed.
End Then.

(** ** A first pass that leaves the text and the comments alone *)
Section Before.
Hypothesis K1 : keeps_text o1.
Hypothesis C1 : remove_comment o1 = false.
Fixpoint turned (x : item) : item :=
  match x with
  | XDoctype n l => XDoctype n (shown_attrs o1 l)
  | XLeaf n l sc => XLeaf (shown_name o1 n) (shown_attrs o1 l) sc
  | XRaw n l c e => XRaw (shown_name o1 n) (shown_attrs o1 l) (shown_raw env o1 n c) (shown_end o1 e)
  | XElem n l ks e => XElem (shown_name o1 n) (shown_attrs o1 l) (map turned ks) (shown_end o1 e)
  | x => x
  end.
Lemma turned_tokens : forall x p, shown env o1 p x = tokens (turned x).
Proof.
  destruct K1 as [Mi De].
  intro x. induction x as [c b|c|c|n a|n a sc|n a c e|n a ks e IH] using item_ind2; intro p; cbn [shown turned tokens]; try reflexivity.
  - unfold shown_text. rewrite Mi, De. reflexivity.
  - rewrite C1. reflexivity.
  - f_equal. f_equal. generalize (p || pre_name n)%bool. intro q.
    induction IH as [|k ks I1 I2 IHk]; [reflexivity|]. cbn [flat_map map]. rewrite I1, IHk. reflexivity.
Qed.
Lemma turned_tokens_all : forall f, flat_map (shown env o1 false) f = flat_map tokens (map turned f).
Proof. induction f as [|x f IH]; [reflexivity|]. cbn [flat_map map]. rewrite IH, turned_tokens. reflexivity. Qed.
Lemma turned_shown : forall x p, shown env o2 p (turned x) = shown env o p x.
Proof.
  destruct K1 as [Mi De].
  intro x. induction x as [c b|c|c|n a|n a sc|n a c e|n a ks e IH] using item_ind2; intro p; cbn [shown turned];
    rewrite ?turn_attrs, ?turn_name, ?turn_raw, ?turn_end, ?turn_pre; try reflexivity.
  - unfold shown_text. cbn [minify_spaces decode_entity both]. rewrite Mi, De. reflexivity.
  - cbn [remove_comment both]. rewrite C1. reflexivity.
  - f_equal. f_equal. generalize (p || pre_name n)%bool. intro q.
    induction IH as [|k ks I1 I2 IHk]; [reflexivity|]. cbn [flat_map map]. rewrite I1, IHk. reflexivity.
Qed.
Lemma turned_kinds : forall x, map is_ktext (tokens (turned x)) = map is_ktext (tokens x).
Proof.
  intro x. induction x as [c b|c|c|n a|n a sc|n a c e|n a ks e IH] using item_ind2; try reflexivity.
  cbn [turned tokens map]. f_equal. rewrite !map_app. f_equal.
  induction IH as [|k ks I1 I2 IHk]; [reflexivity|]. cbn [flat_map map]. rewrite !map_app, I1, IHk. reflexivity.
Qed.
Lemma kinds_apart : forall ks ks', map is_ktext ks' = map is_ktext ks -> apart ks -> apart ks'.
Proof.
  induction ks as [|k ks IH]; intros [|k' ks'] E A; try discriminate E; [exact I|]. injection E as E1 E2. destruct A as [A1 A2]. split; [|apply IH; assumption].
  rewrite E1. intro T. specialize (A1 T). destruct ks as [|y ks], ks' as [|y' ks']; try discriminate E2; [exact I|]. injection E2 as E2 _. rewrite E2. exact A1.
Qed.
Lemma turned_text : forall x, is_text (turned x) = is_text x.
Proof. intros []; reflexivity. Qed.
Lemma turned_pre : forall x p, plain_pre p x -> plain_pre p (turned x).
Proof.
  intro x. induction x as [c b|c|c|n a|n a sc|n a c e|n a ks e IH] using item_ind2; intros p H; try exact H.
  - cbn. rewrite turn_pre. exact H.
  - cbn. rewrite turn_pre. exact H.
  - cbn [turned]. apply plain_pre_all in H as [H1 H2]. cbn [plain_pre]. rewrite turn_pre. split; [exact H1|].
    revert H2. generalize (p || pre_name n)%bool. intros q H2. induction IH as [|k ks I1 I2 IHk]; [exact I|]. inversion H2; subst. cbn [map]. split; [apply I1; assumption|apply IHk; assumption].
Qed.
Lemma turned_mark : forall x a b, mark a b x = x -> mark a b (turned x) = turned x.
Proof.
  intros x. induction x as [c b|c|c|n a|n a s|n a c e|n a ks e IH] using item_ind2; intros u v M; try reflexivity; try exact M.
  cbn [turned]. rewrite mark_elem in *. injection M as M. f_equal.
  assert (G : forall b, mark_list b ks = ks -> mark_list b (map turned ks) = map turned ks).
  { clear M. intro b. induction IH as [|k ks I1 I2 IHk]; intros M; [reflexivity|].
    cbn [mark_list map] in *. injection M as M1 M2. f_equal; [|apply IHk; exact M2]. apply I1.
    destruct ks as [|k2 ks]; [exact M1|]. cbn [map]. rewrite turned_text. exact M1. }
  destruct ks as [|k [|k2 ks]]; [reflexivity| |exact (G true M)].
  injection M as M. inversion IH; subst. cbn [map]. f_equal. auto.
Qed.
Lemma turned_marked : forall f, marked f -> marked (map turned f).
Proof.
  intros f M. unfold marked in *. rewrite mark_all_list in *. revert M. generalize false as b. induction f as [|x f IH]; intros b M; [reflexivity|].
  cbn [mark_list map] in *. injection M as M1 M2. f_equal; [|exact (IH b M2)]. apply turned_mark. destruct f as [|y f]; [exact M1|]. cbn [map]. rewrite turned_text. exact M1.
Qed.
Lemma turned_all : forall f, map is_ktext (flat_map tokens (map turned f)) = map is_ktext (flat_map tokens f).
Proof. induction f as [|x f IH]; [reflexivity|]. cbn [flat_map map]. rewrite !map_app, IH, turned_kinds. reflexivity. Qed.
Lemma turned_content : forall f f', marked f -> marked f' -> apart (flat_map tokens f) ->
  flat_map tokens f' = merge (flat_map (shown env o1 false) f) -> f' = map turned f.
Proof.
  intros f f' M M' A E. apply tokens_unique; [exact M'|exact (turned_marked _ M)|]. rewrite E, turned_tokens_all. apply apart_merge.
  exact (kinds_apart _ _ (turned_all f) A).
Qed.
End Before.
End Turn.

Section Docs.
Variable (opts : parse_options) (s : list char) (d : doc) (f : list item) (env : entity_env).
Hypothesis P : parse opts s = Parsed d.
Hypothesis NR : no_repair opts.
Hypothesis SD : open_doctypes d.
Hypothesis Eq : allow_attr_key_starts_with_equal_sign opts = false.
Hypothesis D : doc_content d f.
Lemma pass_then : forall o1 o2, readable opts env o1 f -> inner_html o2 = false -> keeps_text o2 ->
  encode_content o1 = false \/ encode_content o2 = false ->
  exists out d' out2, render env o1 d = ROk out /\ parse opts out = Parsed d' /\ render env o2 d' = ROk out2 /\ render env (both o1 o2) d = ROk out2.
Proof.
  intros o1 o2 R I2 K2 En. destruct (shown_parses _ _ _ _ env o1 P NR SD Eq D R) as (out & d' & f' & A & B & S & D' & M' & T).
  destruct (parsed_source _ _ _ P NR SD) as (f0 & S0 & _ & _ & D0). rewrite (content_unique _ _ _ D0 D) in S0. destruct R as (I1 & Pp & _).
  exists out, d', (print (flat_map (shown env (both o1 o2) false) f)). split; [exact A|]. split; [exact B|]. split.
  - rewrite <- (turn_then env o1 o2 En K2 f f' T). apply (shown_source _ _ _ _ env o2 _ B (proj1 NR) S D' I2). destruct K2 as [K2 _]. congruence.
  - apply (shown_source _ _ _ _ env _ _ P (proj1 NR) S0 D); cbn [inner_html minify_spaces both]; [rewrite I1, I2; reflexivity|].
    destruct K2 as [-> _]. rewrite Bool.orb_false_r. exact Pp.
Qed.
Lemma pass_before : forall o1 o2, readable opts env o1 f -> keeps_text o1 -> remove_comment o1 = false -> inner_html o2 = false ->
  (minify_spaces o2 = true -> Forall (plain_pre false) f) ->
  encode_content o1 = false \/ encode_content o2 = false ->
  exists out d' out2, render env o1 d = ROk out /\ parse opts out = Parsed d' /\ render env o2 d' = ROk out2 /\ render env (both o1 o2) d = ROk out2.
Proof.
  intros o1 o2 R K1 C1 I2 Pp En. destruct (shown_parses _ _ _ _ env o1 P NR SD Eq D R) as (out & d' & f' & A & B & S & D' & M' & T).
  destruct (parsed_source _ _ _ P NR SD) as (f0 & S0 & _ & M0 & D0). rewrite (content_unique _ _ _ D0 D) in S0, M0. destruct R as (I1 & _).
  pose proof (turned_content env o1 K1 C1 f f' M0 M' (source_apart _ _ _ S0) T) as ->.
  exists out, d', (print (flat_map (shown env (both o1 o2) false) f)). split; [exact A|]. split; [exact B|]. split.
  - assert (E : flat_map (shown env (both o1 o2) false) f = flat_map (shown env o2 false) (map (turned env o1) f)).
    { clear - K1 C1 En. induction f as [|x g IH]; [reflexivity|]. cbn [flat_map map]. rewrite IH, (turned_shown env o1 o2 En K1 C1). reflexivity. }
    rewrite E. apply (shown_source _ _ _ _ env o2 _ B (proj1 NR) S D' I2). intro Mi. specialize (Pp Mi). clear - Pp.
    induction Pp; constructor; [apply turned_pre; assumption|assumption].
  - apply (shown_source _ _ _ _ env _ _ P (proj1 NR) S0 D); cbn [inner_html minify_spaces both]; [rewrite I1, I2; reflexivity|].
    destruct K1 as [-> _]. exact Pp.
Qed.
Lemma both_comm : forall a b, both a b = both b a.
Proof. intros a b. unfold both. f_equal; apply Bool.orb_comm. Qed.
Lemma pass_order : forall o1 o2, readable opts env o1 f -> readable opts env o2 f -> keeps_text o1 ->
  keeps_text o2 \/ remove_comment o1 = false ->
  encode_content o1 = false \/ encode_content o2 = false ->
  exists out1 d1 out2 d2 out, render env o1 d = ROk out1 /\ parse opts out1 = Parsed d1 /\ render env o2 d = ROk out2 /\ parse opts out2 = Parsed d2 /\
    render env o2 d1 = ROk out /\ render env o1 d2 = ROk out.
Proof.
  intros o1 o2 R1 R2 K1 H En. destruct (pass_then o2 o1 R2 (proj1 R1) K1 ltac:(tauto)) as (out2 & d2 & out & A2 & B2 & C2 & E2).
  assert (X : exists out d' out2, render env o1 d = ROk out /\ parse opts out = Parsed d' /\ render env o2 d' = ROk out2 /\ render env (both o1 o2) d = ROk out2).
  { destruct H as [K2|C1]; [apply pass_then; auto; exact (proj1 R2)|]. apply pass_before; auto; [exact (proj1 R2)|exact (proj1 (proj2 R2))]. }
  destruct X as (out1 & d1 & out' & A1 & B1 & C1 & E1). rewrite both_comm, E2 in E1. injection E1 as <-.
  exists out1, d1, out2, d2, out. auto 8.
Qed.
End Docs.
