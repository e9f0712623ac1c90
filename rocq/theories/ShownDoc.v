(** The output of rendering, and what parsing it gives. *)
From Coq Require Import String ZifyBool ZifyN Lia.
From Verif Require Import Api SpecText SpecRender SpecParse SpecMisc SpecTree SpecDoc SpecOpts NameProofs TextProofs RenderProofs Shape RawText Tok DocTree DocSound Print SpecShown Shown ShownRead.
Local Open Scope string_scope.
Local Open Scope list_scope.

Lemma area_bare : forall eq dt s l sc, SpecDoc.area eq dt s l sc -> Forall (fun a => a_need_quote a = false) l.
Proof. intros eq dt s l sc A. induction A; repeat (constructor; auto). Qed.
Lemma written_bare : forall opts k s, written opts k s -> bare_quotes k.
Proof. intros opts k s W. unfold bare_quotes. destruct W; cbn [token_attrs]; try constructor; eapply area_bare; eassumption. Qed.
Lemma source_can_write : forall opts ks s, source opts ks s -> Forall (can_write opts) ks.
Proof. intros opts ks s S. induction S as [|k s ks r W S IH A]; constructor; [exists s; exact W|exact IH]. Qed.
Lemma source_bare : forall opts ks s, source opts ks s -> Forall bare_quotes ks.
Proof. intros opts ks s S. apply source_can_write in S. eapply Forall_impl; [|exact S]. intros k [u W]. exact (written_bare _ _ _ W). Qed.
Lemma shown_close_void : forall env v o p x, shown env (with_always_close_void v o) p x = shown env o p x.
Proof.
  intros env v o p x. revert p. induction x as [c b|c|c|n a|n a sc|n a c e|n a ks e IH] using item_ind2; intro p; try reflexivity.
  cbn [shown]. f_equal. f_equal. generalize (p || pre_name n)%bool. intro q. induction IH as [|k ks I1 I2 IHk]; [reflexivity|].
  cbn [flat_map]. rewrite I1, IHk. reflexivity.
Qed.

(** What the renderer prints. *)
Lemma shown_source : forall opts s d f env o u, parse opts s = Parsed d -> auto_fix_unclosed_tag opts = false -> source opts (flat_map tokens f) u -> doc_content d f ->
  inner_html o = false -> (minify_spaces o = true -> Forall (plain_pre false) f) ->
  render env o d = ROk (print (flat_map (shown env o false) f)).
Proof.
  intros opts s d f env o u P NR S D Ih Pp. apply source_bare in S.
  pose proof D as D1. destruct D1 as (t & E & _). destruct (doc_tree_in _ _ _ _ P E) as [T _].
  pose proof (tree_end_tags _ _ _ P t T) as EM.
  unfold render, render_gen. rewrite E.
  assert (X : build env o t false = build env (with_always_close_void false o) t false).
  { destruct (always_close_void o) eqn:A.
    - rewrite <- (parsed_close_void _ _ _ t env o false P T NR). destruct o. cbn in A. subst. reflexivity.
    - destruct o. cbn in A. subst. reflexivity. }
  rewrite X, (shown_render env (with_always_close_void false o) eq_refl d f t D E EM S); auto.
  f_equal. f_equal. apply flat_map_ext. intro x. apply shown_close_void.
Qed.
Lemma shown_parsed : forall opts s d env o, parse opts s = Parsed d -> no_repair opts -> open_doctypes d -> inner_html o = false ->
  exists f, source opts (flat_map tokens f) s /\ doc_content d f /\
    ((minify_spaces o = true -> Forall (plain_pre false) f) -> render env o d = ROk (print (flat_map (shown env o false) f))).
Proof.
  intros opts s d env o P NR SD Ih. destruct (parsed_source _ _ _ P NR SD) as (f & S & _ & _ & D). exists f. split; [exact S|]. split; [exact D|].
  intro Pp. destruct NR as [NR _]. exact (shown_source _ _ _ _ _ _ _ P NR S D Ih Pp).
Qed.

Lemma flat_Forall : forall A B (P : B -> Prop) (g : A -> list B) l, (forall x, In x l -> Forall P (g x)) -> Forall P (flat_map g l).
Proof.
  intros A B P g l. induction l as [|x l IH]; intro H; [constructor|]. cbn [flat_map]. apply Forall_app.
  split; [apply H; left; reflexivity|apply IH; intros y I; apply H; right; exact I].
Qed.
Lemma Forall_flat : forall A B (P : B -> Prop) (g : A -> list B) l, Forall P (flat_map g l) -> forall x, In x l -> Forall P (g x).
Proof. intros A B P g l F x I. rewrite Forall_forall in *. intros y Y. apply F. apply in_flat_map. exists x. split; assumption. Qed.

Lemma shown_parses : forall opts s d f env o, parse opts s = Parsed d -> no_repair opts -> open_doctypes d ->
  allow_attr_key_starts_with_equal_sign opts = false -> doc_content d f -> readable opts env o f ->
  exists out d' f', render env o d = ROk out /\ parse opts out = Parsed d' /\ source opts (flat_map tokens f') out /\
    doc_content d' f' /\ marked f' /\ flat_map tokens f' = merge (flat_map (shown env o false) f).
Proof.
  intros opts s d f env o P NR SD Eq D (Ih & Pp & Dt & R). destruct (parsed_source _ _ _ P NR SD) as (f0 & S & N & _ & D0).
  rewrite (content_unique _ _ _ D0 D) in S, N. clear f0 D0.
  pose proof (source_can_write _ _ _ S) as W.
  assert (RB : Forall (reads_back opts) (flat_map (shown env o false) f)).
  { apply flat_Forall. intros x I. apply shown_reads; auto.
    - exact (Forall_flat _ _ _ _ _ W x I).
    - exact (Forall_flat _ _ _ _ _ R x I).
    - destruct (decode_entity o) eqn:De.
      + apply Forall_forall. intros [] K; try exact Logic.I. apply (Dt eq_refl). apply in_flat_map. exists x. split; assumption.
      + apply (shown_texts opts env o Eq De). exact (Forall_flat _ _ _ _ _ W x I). }
  destruct (source_accepted _ _ _ (merge_source _ _ RB) (shown_nests_top opts env o f N R)) as (d' & f' & P' & T' & M' & D').
  exists (print (flat_map (shown env o false) f)), d', f'.
  split; [exact (shown_source _ _ _ _ _ _ _ P (proj1 NR) S D Ih Pp)|]. split; [exact P'|]. split; [rewrite T'; apply merge_source; exact RB|]. auto.
Qed.

(** ** Rendering again *)
Section Again.
Variable (env : entity_env) (o : render_options).
Hypothesis (Mi : minify_spaces o = false) (De : decode_entity o = false) (En : encode_content o = false).
Definition shown_token (k : token) : list token :=
  match k with
  | KComment c => if remove_comment o then [] else [KComment c]
  | KDoctype n l => [KDoctype n (shown_attrs o l)]
  | KLeaf n l sc => [KLeaf (shown_name o n) (shown_attrs o l) sc]
  | KRaw n l c e => [KRaw (shown_name o n) (shown_attrs o l) c (shown_end o e)]
  | KOpen n l => [KOpen (shown_name o n) (shown_attrs o l)]
  | KClose e => [KClose (shown_end o e)]
  | KText c => [KText c]
  | KCData c => [KCData c]
  end.
Lemma shown_tokens : forall x p, shown env o p x = flat_map shown_token (tokens x).
Proof.
  intro x. induction x as [c b|c|c|n a|n a sc|n a c e|n a ks e IH] using item_ind2; intro p; cbn [shown tokens flat_map shown_token app]; rewrite ?app_nil_r; try reflexivity.
  - unfold shown_text. rewrite Mi, De. reflexivity.
  - unfold shown_raw. rewrite En. reflexivity.
  - f_equal. rewrite flat_map_app. cbn [flat_map shown_token app]. f_equal. generalize (p || pre_name n)%bool. intro q.
    induction IH as [|k ks I1 I2 IHk]; [reflexivity|]. cbn [flat_map]. rewrite flat_map_app, I1, IHk. reflexivity.
Qed.
Lemma shown_tokens_all : forall f, flat_map (shown env o false) f = flat_map shown_token (flat_map tokens f).
Proof.
  induction f as [|x f IH]; [reflexivity|]. cbn [flat_map]. rewrite flat_map_app, IH, shown_tokens. reflexivity.
Qed.
Lemma shown_name_idem : forall n, shown_name o (shown_name o n) = shown_name o n.
Proof. intro n. unfold shown_name. destruct (lowercase_tagname o); [|reflexivity]. rewrite (ascii_lower_lower n), (ascii_lower_lower (lower n)). apply lower_idem. Qed.
Lemma shown_end_idem : forall e, shown_end o (shown_end o e) = shown_end o e.
Proof.
  intro e. assert (X : forall z, (if remove_endtag_space o then trim_right (shown_end o z) else shown_end o z) = shown_end o z).
  { intro z. destruct (remove_endtag_space o) eqn:R; [|reflexivity]. rewrite shown_trim. unfold shown_end. rewrite R. reflexivity. }
  unfold shown_end at 1. rewrite X. unfold shown_end. apply shown_name_idem.
Qed.
Lemma shown_attrs_idem : forall l, shown_attrs o (shown_attrs o l) = shown_attrs o l.
Proof.
  intro l. unfold shown_attrs. destruct (remove_attr_quote o); [|reflexivity]. rewrite map_map. apply map_ext. reflexivity.
Qed.
Lemma shown_token_idem : forall k, flat_map shown_token (shown_token k) = shown_token k.
Proof.
  intros []; cbn [shown_token flat_map app]; rewrite ?shown_attrs_idem, ?shown_name_idem, ?shown_end_idem; try reflexivity.
  destruct (remove_comment o) eqn:R; [reflexivity|]. cbn [flat_map shown_token]. rewrite R. reflexivity.
Qed.
Lemma shown_merge : forall ks, print (flat_map shown_token (merge ks)) = print (flat_map shown_token ks).
Proof.
  induction ks as [|k ks IH]; [reflexivity|]. destruct (is_ktext k) eqn:E.
  - destruct k; try discriminate E. cbn [merge]. cbn [flat_map shown_token app]. change (print (KText c :: ?r)) with (c ++ print r).
    rewrite <- IH. destruct (merge ks) as [|k' r]; [reflexivity|]. destruct k'; try reflexivity.
    cbn [flat_map shown_token app]. unfold print. cbn [flat_map print_token]. rewrite <- app_assoc. reflexivity.
  - rewrite (merge_text _ _ E). cbn [flat_map]. unfold print in *. rewrite !flat_map_app, IH. reflexivity.
Qed.
Lemma shown_again : forall f f', flat_map tokens f' = merge (flat_map (shown env o false) f) ->
  print (flat_map (shown env o false) f') = print (flat_map (shown env o false) f).
Proof.
  intros f f' E. rewrite (shown_tokens_all f'), E, shown_merge, shown_tokens_all. f_equal.
  induction (flat_map tokens f) as [|k ks IH]; [reflexivity|]. cbn [flat_map]. rewrite flat_map_app, IH, shown_token_idem. reflexivity.
Qed.
End Again.

(** Rendering the result of parsing the output gives the output. *)
Lemma shown_stable : forall opts s d f env o, parse opts s = Parsed d -> no_repair opts -> open_doctypes d ->
  allow_attr_key_starts_with_equal_sign opts = false -> doc_content d f -> readable opts env o f ->
  minify_spaces o = false -> decode_entity o = false -> encode_content o = false ->
  exists out d', render env o d = ROk out /\ parse opts out = Parsed d' /\ render env o d' = ROk out.
Proof.
  intros opts s d f env o P NR SD Eq D R Mi De En. pose proof R as R0. destruct R0 as (Ih & _ & _).
  destruct (shown_parses _ _ _ _ env o P NR SD Eq D R) as (out & d' & f' & A & B & S & D' & M' & T).
  exists out, d'. split; [exact A|]. split; [exact B|].
  destruct (parsed_source _ _ _ P NR SD) as (f0 & S0 & _ & _ & D0). rewrite (content_unique _ _ _ D0 D) in S0.
  assert (Mp : minify_spaces o = true -> Forall (plain_pre false) f') by congruence.
  rewrite (shown_source _ _ _ _ env o _ B (proj1 NR) S D' Ih Mp).
  assert (Mq : minify_spaces o = true -> Forall (plain_pre false) f) by congruence.
  rewrite (shown_source _ _ _ _ env o _ P (proj1 NR) S0 D Ih Mq) in A. injection A as <-.
  f_equal. exact (shown_again env o Mi De En f f' T).
Qed.

(** ** Quotes *)
Lemma apart_merge : forall ks, apart ks -> merge ks = ks.
Proof.
  induction ks as [|k ks IH]; intro A; [reflexivity|]. destruct A as [A1 A2]. specialize (IH A2). destruct (is_ktext k) eqn:E.
  - destruct k; try discriminate E. cbn [merge]. rewrite IH. specialize (A1 eq_refl). destruct ks as [|k' r]; [reflexivity|].
    destruct k'; try reflexivity. discriminate A1.
  - rewrite (merge_text _ _ E), IH. reflexivity.
Qed.
Lemma source_apart : forall opts ks s, source opts ks s -> apart ks.
Proof. intros opts ks s S. induction S; [exact I|]. split; assumption. Qed.
Lemma unquote_apart : forall ks, apart ks -> apart (map unquote_token ks).
Proof.
  assert (T : forall k, is_ktext (unquote_token k) = is_ktext k) by (intros []; reflexivity).
  induction ks as [|k ks IH]; intro A; [exact I|]. destruct A as [A1 A2]. split; [|exact (IH A2)].
  rewrite T. intro E. specialize (A1 E). destruct ks as [|k' r]; [exact I|]. cbn [map]. rewrite T. exact A1.
Qed.
Lemma unquoting_shown : forall env f, flat_map (shown env unquoting false) f = map unquote_token (flat_map tokens f).
Proof.
  intros env f. rewrite shown_tokens_all by reflexivity. induction (flat_map tokens f) as [|k ks IH]; [reflexivity|].
  cbn [flat_map map]. rewrite IH. destruct k; try reflexivity; cbn [shown_token unquote_token app]; do 2 f_equal;
  unfold shown_end, shown_name; reflexivity.
Qed.
Lemma unquoting_readable : forall opts env f, Forall (item_spare) (flat_map within f) -> readable opts env unquoting f.
Proof.
  intros opts env f F. split; [reflexivity|]. split; [discriminate|]. split; [discriminate|].
  eapply Forall_impl; [|exact F]. intros [] H; cbn in *; try exact I; auto; try (split; [exact H|split; discriminate]).
  - destruct H. split; auto.
  - split; [intros _; exact H|split; discriminate].
  - split; [intros _; exact H|discriminate].
Qed.
Lemma unquoting_parses : forall opts s d f env, parse opts s = Parsed d -> no_repair opts -> open_doctypes d ->
  allow_attr_key_starts_with_equal_sign opts = false -> doc_content d f -> Forall item_spare (flat_map within f) ->
  exists out d' f', render env unquoting d = ROk out /\ parse opts out = Parsed d' /\ doc_content d' f' /\
    flat_map tokens f' = map unquote_token (flat_map tokens f).
Proof.
  intros opts s d f env P NR SD Eq D F.
  destruct (shown_parses _ _ _ _ env unquoting P NR SD Eq D (unquoting_readable opts env f F)) as (out & d' & f' & A & B & _ & C & _ & T).
  exists out, d', f'. split; [exact A|]. split; [exact B|]. split; [exact C|]. rewrite T, unquoting_shown. apply apart_merge, unquote_apart.
  destruct (parsed_source _ _ _ P NR SD) as (f0 & S0 & _ & _ & D0). rewrite (content_unique _ _ _ D0 D) in S0. exact (source_apart _ _ _ S0).
Qed.

Definition plain_len (l : list attr) : nat := length (print_attrs (map drop_quotes l)).
Definition quotes (l : list attr) : nat := length (filter (fun a => match a_quote a with Some _ => true | None => false end) l).
Lemma area_length : forall eq dt s l sc, SpecDoc.area eq dt s l sc ->
  plain_len l + quotes l <= length s + match s with c :: _ => if (is_ascii_whitespace c || N.eqb c 47)%bool then 0 else 1 | [] => 0 end.
Proof.
  assert (FI : forall c, slash_filler c -> (is_ascii_whitespace c || N.eqb c 47)%bool = true).
  { intros c [H|H]; [rewrite H; reflexivity|]. subst c. reflexivity. }
  assert (HD : forall w s (c : char), filler w -> match w ++ c :: s with c :: _ => if (is_ascii_whitespace c || N.eqb c 47)%bool then 0 else 1 | [] => 0 end + length w >= 0) by lia.
  assert (HW : forall w k (s : list char), filler w -> length k >= 1 ->
    1 <= length w + match w ++ k ++ s with c :: _ => if (is_ascii_whitespace c || N.eqb c 47)%bool then 0 else 1 | [] => 0 end \/
    exists c k', w = [] /\ k = c :: k' /\ slash_filler c).
  { intros [|x w] [|c k] s F L; cbn [length app] in *; try lia; try (left; lia).
    destruct (is_ascii_whitespace c || N.eqb c 47)%bool eqn:E; [right|left; lia]. exists c, k. split; [reflexivity|]. split; [reflexivity|].
    apply Bool.orb_true_iff in E. destruct E as [E|E]; [left; exact E|right; apply N.eqb_eq; exact E]. }
  assert (SF : forall r, starts_with slash_filler r -> match r with c :: _ => if (is_ascii_whitespace c || N.eqb c 47)%bool then 0 else 1 | [] => 0 end = 0).
  { intros [|c r] H; [reflexivity|]. cbn in H. rewrite (FI c H). reflexivity. }
  assert (KY : forall eq dt k, attr_key eq dt k -> length k >= 1 /\ forall c k', k = c :: k' -> ~ slash_filler c).
  { intros eq dt k (c & k' & -> & _ & B & _). split; [cbn; lia|]. intros c2 k2 E. injection E as -> ->. intros H.
    destruct B as [(B1 & B2 & B3 & B4)|[-> _]]; [|destruct H; discriminate]. destruct H as [H|H]; [unfold not_ws in B1; unfold is_ws in H; congruence|congruence]. }
  assert (EQ : forall e, equals_sign e -> length e >= 1).
  { intros e [->|(c & w & _ & _ & ->)]; cbn; lia. }
  assert (PL : forall a l, plain_len (a :: l) = 1 + length (print_attr (drop_quotes a)) + plain_len l).
  { intros a l. unfold plain_len. cbn [map print_attrs flat_map]. rewrite !app_length. reflexivity. }
  intros eq dt s l sc A. induction A as [w W|w k r l sc W K AB A IH|w k e w2 W K E W2|w k e w2 v r l sc W K E W2 V SW A IH|w k e w2 q v r l sc W K E W2 Q N A IH|w q v r l sc W Dt Q N A IH].
  - cbn. lia.
  - destruct AB as [AB _]. rewrite (SF r AB) in IH. rewrite PL. cbn [drop_quotes bare print_attr a_key a_value]. unfold quotes in *. cbn [filter a_quote bare].
    destruct (KY _ _ _ K) as [K1 K2]. rewrite !app_length. destruct (HW w k r W K1) as [H|(c & k' & _ & Ek & Sc)]; [lia|]. destruct (K2 _ _ Ek Sc).
  - rewrite PL. cbn [drop_quotes bare print_attr a_key a_value]. unfold quotes in *. cbn [filter a_quote bare].
    destruct (KY _ _ _ K) as [K1 K2]. rewrite !app_length. destruct (HW w k (e ++ w2) W K1) as [H|(c & k' & _ & Ek & Sc)]; [cbn; lia|]. destruct (K2 _ _ Ek Sc).
  - assert (SW' : starts_with slash_filler r) by (destruct r; [exact I|left; exact SW]). rewrite (SF r SW') in IH.
    rewrite PL. cbn [drop_quotes SpecDoc.unquoted print_attr a_key a_value a_quote]. unfold quotes in *. cbn [filter a_quote SpecDoc.unquoted].
    destruct (KY _ _ _ K) as [K1 K2]. specialize (EQ e E). rewrite !app_length. change (length (str "=")) with 1. destruct (HW w k (e ++ w2 ++ v ++ r) W K1) as [H|(c & k' & _ & Ek & Sc)]; [lia|]. destruct (K2 _ _ Ek Sc).
  - rewrite PL. cbn [drop_quotes quoted print_attr a_key a_value a_quote]. unfold quotes in *. cbn [filter a_quote quoted length].
    assert (IH' : plain_len l + length (filter (fun a => match a_quote a with Some _ => true | None => false end) l) <= length r + 1) by (destruct r as [|c0 r0]; [lia|destruct (_ || _)%bool; lia]).
    destruct (KY _ _ _ K) as [K1 K2]. specialize (EQ e E). rewrite !app_length. change (length (str "=")) with 1. cbn [length].
    destruct (HW w k (e ++ w2 ++ [q] ++ v ++ [q] ++ r) W K1) as [H|(c & k' & _ & Ek & Sc)]; [lia|]. destruct (K2 _ _ Ek Sc).
  - rewrite PL. cbn [drop_quotes keyless print_attr a_key a_value a_quote]. unfold quotes in *. cbn [filter a_quote keyless length].
    assert (IH' : plain_len l + length (filter (fun a => match a_quote a with Some _ => true | None => false end) l) <= length r + 1) by (destruct r as [|c0 r0]; [lia|destruct (_ || _)%bool; lia]).
    rewrite !app_length. cbn [length]. destruct (HW w [q] (v ++ [q] ++ r) W) as [H|(c & k' & _ & Ek & Sc)]; [cbn; lia|rewrite !app_length in H || idtac; lia|].
    injection Ek as <- _. destruct Q as [->|Q]; [destruct Sc; discriminate|subst q; destruct Sc; discriminate].
Qed.
Lemma area_values : forall eq dt s l sc, SpecDoc.area eq dt s l sc ->
  Forall (fun a => match a_key a, a_value a, a_quote a with Some _, Some v, None => attr_val v | None, _, None => False | _, _, _ => True end) l.
Proof. intros eq dt s l sc A. induction A; try (constructor; [|assumption || constructor]); cbn; auto; constructor. Qed.
Lemma quotes_needed : forall eq l l' sc, SpecDoc.area eq false (print_attrs (map drop_quotes l)) l' sc -> map drop_quotes l' = map drop_quotes l ->
  Forall quotes_spare l.
Proof.
  intros eq l l' sc A E. pose proof (area_length _ _ _ _ _ A) as L. unfold plain_len in L. rewrite E in L.
  assert (Q : quotes l' = 0).
  { revert L. unfold print_attrs. destruct (map drop_quotes l) as [|a m]; cbn [flat_map app length]; [lia|]. change (str " " ++ print_attr a) with (32%N :: print_attr a).
    cbn [app length]. change (is_ascii_whitespace 32%N || N.eqb 32 47)%bool with true. cbv iota. lia. }
  pose proof (area_values _ _ _ _ _ A) as V. clear A L. revert l' Q V E. induction l as [|a l IH]; intros l' Q V E; [constructor|].
  destruct l' as [|a' l']; [discriminate|]. cbn [map] in E. injection E as Ea1 Ea2 El. unfold quotes in *. cbn [filter] in Q.
  apply Forall_cons_iff in V. destruct V as [Va V].
  destruct (a_quote a') eqn:Qa; [discriminate Q|]. constructor; [|exact (IH l' Q V El)].
  unfold quotes_spare. rewrite <- Ea1, <- Ea2. destruct (a_quote a); [|exact I]. destruct (a_key a'), (a_value a'); try exact Va; exact I.
Qed.
Lemma elem_source : forall opts n l e out, source opts [KOpen n l; KClose e] out ->
  exists a, out = str "<" ++ n ++ a ++ str ">" ++ str "</" ++ e ++ str ">" /\
    SpecDoc.area (allow_attr_key_starts_with_equal_sign opts) false a l false.
Proof.
  intros opts n l e out S'. inversion S' as [|k u ks r W Sr A Ek Q]. subst k ks. clear A S'.
  inversion Sr as [|k u2 ks r0 W2 Sr2 A Ek2 Q2]. subst k ks r. clear A Sr. inversion Sr2. subst r0. clear Sr2.
  inversion W as [| | | | | |n0 a l0 On St Ar V Rw|]. subst n0 l0 u. clear W. inversion W2. subst u2. clear W2.
  exists a. split; [|exact Ar]. rewrite <- !app_assoc, app_nil_r. reflexivity.
Qed.
Lemma quotes_needed_doc : forall opts env s d d' n l l' out, parse opts s = Parsed d -> no_repair opts -> open_doctypes d ->
  doc_content d [XElem n l [] n] -> render env unquoting d = ROk out -> parse opts out = Parsed d' -> open_doctypes d' ->
  doc_content d' [XElem n l' [] n] -> map drop_quotes l' = map drop_quotes l -> Forall quotes_spare l.
Proof.
  intros opts env s d d' n l l' out P NR SD D R P' SD' D' E.
  destruct (parsed_source _ _ _ P NR SD) as (f & S & _ & _ & Df). rewrite (content_unique _ _ _ Df D) in S. clear f Df.
  rewrite (shown_source _ _ _ _ env unquoting _ P (proj1 NR) S D eq_refl (fun H => False_ind _ (Bool.diff_false_true H))), unquoting_shown in R.
  change (map unquote_token _) with [KOpen n (map drop_quotes l); KClose n] in R.
  unfold print in R. cbn [flat_map print_token] in R. rewrite app_nil_r in R.
  assert (RI : forall a b : list char, ROk a = ROk b -> a = b) by congruence. apply RI in R. clear RI. subst out.
  destruct (parsed_source _ _ _ P' NR SD') as (f & S' & _ & _ & Df). rewrite (content_unique _ _ _ Df D') in S'. clear f Df SD' P'.
  change (flat_map tokens [XElem n l' [] n]) with [KOpen n l'; KClose n] in S'.
  destruct (elem_source _ _ _ _ _ S') as (a & Q & Ar).
  rewrite <- !app_assoc in Q. apply app_inv_head in Q. apply app_inv_head in Q.
  rewrite !app_assoc in Q. do 4 apply app_inv_tail in Q. subst a. exact (quotes_needed _ _ _ _ Ar E).
Qed.
