(** Contents of text and whitespace nodes. *)
From Coq Require Import String.
From Verif Require Import Api SpecText SpecParse HeapLemmas InvCtl Big BigSteps Struct Frame Birth.
Local Open Scope string_scope.
Local Open Scope list_scope.

Definition has_text (n : node) : Prop := exists c, n_content n = Some c /\ c <> [].
Definition has_ws (n : node) : Prop := exists c, n_content n = Some c /\ c <> [] /\ Forall is_ws c.
Lemma ws_text : forall n, has_ws n -> has_text n.
Proof. intros n [c [A [B _]]]. exists c. auto. Qed.

Record tok_ok (st : doc) : Prop := mkTok {
  t_text : forall i, ty (d_heap st) i = NText -> (is_T st /\ i = d_current_node st) \/ has_text (hget (d_heap st) i);
  t_space : forall i, ty (d_heap st) i = NSpacesBetweenTag -> has_ws (hget (d_heap st) i);
  t_check : forall i, d_check_textnode st = Some i -> (is_T st /\ i = d_current_node st) \/ has_ws (hget (d_heap st) i);
  t_prev : is_T st -> d_prev_chars st <> [] /\ (d_repeat_whitespace st = true -> Forall is_ws (d_prev_chars st))
}.

(** Contents stay, the checked text node may turn into a whitespace node. *)
Definition cfr (ck : option nid) (h h' : list node) : Prop :=
  length h <= length h' /\ forall i, i < length h ->
    n_content (hget h' i) = n_content (hget h i) /\
    (ty h' i = ty h i \/ (ck = Some i /\ ty h' i = NSpacesBetweenTag)).
Lemma cfr_refl : forall ck h, cfr ck h h.
Proof. intros. split; [apply le_n|]. auto. Qed.
Lemma cfr_app : forall ck h0 h n, cfr ck h0 h -> cfr ck h0 (h ++ [n]).
Proof.
  intros ck h0 h n [L F]. split; [rewrite app_length; lia|]. intros i Hi. unfold ty. rewrite hget_app_old by lia. apply F, Hi.
Qed.
Lemma cfr_upd_new : forall ck h0 h i f, cfr ck h0 h -> length h0 <= i -> cfr ck h0 (hupd h i f).
Proof.
  intros ck h0 h i f [L F] Hi. split; [rewrite hupd_length; lia|]. intros j Hj. unfold ty. rewrite hget_hupd_other by lia. apply F, Hj.
Qed.
Lemma cfr_upd : forall ck h0 h i f, cfr ck h0 h ->
  (forall n, n_content (f n) = n_content n /\ n_type (f n) = n_type n) -> cfr ck h0 (hupd h i f).
Proof.
  intros ck h0 h i f [L F] K. split; [rewrite hupd_length; lia|]. intros j Hj. unfold ty.
  rewrite (hupd_keep n_content), (hupd_keep n_type) by (intro; apply K). apply F, Hj.
Qed.
Lemma cfr_flip : forall ck h0 h, cfr ck h0 h -> cfr ck h0 (flip ck h).
Proof.
  intros [k|] h0 h [L F]; [|split; auto]. cbn. split; [rewrite hupd_length; lia|]. intros j Hj.
  rewrite (hupd_keep n_content) by reflexivity. destruct (F j Hj) as [A B]. split; [exact A|].
  unfold ty in *. destruct (Nat.eq_dec k j) as [->|N].
  - right. split; [reflexivity|]. rewrite hget_hupd_same by lia. reflexivity.
  - rewrite hget_hupd_other by exact N. exact B.
Qed.
Lemma cfr_child : forall ck h p n, cfr ck h (add_child h p n).
Proof. intros. unfold add_child. apply cfr_upd; [apply cfr_app, cfr_refl|]. intro; split; reflexivity. Qed.
Lemma cfr_orphan : forall ck h p n, cfr ck h (add_orphan h p n).
Proof. intros. unfold add_orphan. apply cfr_upd; [apply cfr_app, cfr_refl|]. intro; split; reflexivity. Qed.
Lemma cfr_opened : forall u p t, cfr (d_check_textnode u) (d_heap u) (opened u p t).
Proof. intros. unfold opened. apply cfr_flip, cfr_child. Qed.
Lemma cfr_closed : forall u tag nm pos, cfr (d_check_textnode u) (d_heap u) (closed_heap u tag nm pos).
Proof.
  intros. unfold closed_heap. cbv zeta. apply cfr_upd_new; [|apply le_n]. apply cfr_upd_new; [|apply le_n].
  match goal with |- cfr _ _ (if ?b then ?x else _) => assert (F : cfr (d_check_textnode u) (d_heap u) x); [|destruct b; [exact F|apply cfr_flip; exact F]] end.
  apply cfr_upd; [apply cfr_app, cfr_refl|]. intro; split; reflexivity.
Qed.

Lemma no_T : forall st, is_W st \/ is_U st -> ~ is_T st.
Proof. intros st [[A _]|[A _]] [B _]; congruence. Qed.
Lemma ty_lt : forall h i t, ty h i = t -> t <> NAbstractRoot -> i < length h.
Proof.
  intros h i t E N. destruct (Nat.lt_ge_cases i (length h)) as [L|L]; [exact L|].
  unfold ty in E. rewrite hget_default in E by exact L. exfalso. apply N. symmetry. exact E.
Qed.

Lemma token_ok : forall u st, tok_ok u -> is_W u \/ is_U u -> ~ is_T st ->
  cfr (d_check_textnode u) (d_heap u) (d_heap st) ->
  (forall i, length (d_heap u) <= i -> ~ textual (ty (d_heap st) i)) ->
  (d_check_textnode st = None \/ d_check_textnode st = d_check_textnode u) ->
  (forall i, d_check_textnode u = Some i -> i < length (d_heap u)) -> tok_ok st.
Proof.
  intros u st T U N [L F] New Ck Cl. pose proof (no_T _ U) as NT.
  assert (A : forall i, i < length (d_heap u) -> n_content (hget (d_heap st) i) = n_content (hget (d_heap u) i)) by (intros i Hi; apply F, Hi).
  assert (W : forall i, i < length (d_heap u) -> has_ws (hget (d_heap u) i) -> has_ws (hget (d_heap st) i)).
  { intros i Hi [c X]. exists c. rewrite A by exact Hi. exact X. }
  assert (Cw : forall i, d_check_textnode u = Some i -> has_ws (hget (d_heap st) i)).
  { intros i Hi. apply W; [auto|]. destruct (t_check _ T i Hi) as [[X _]|X]; [contradiction|exact X]. }
  assert (Old : forall i, textual (ty (d_heap st) i) -> i < length (d_heap u)).
  { intros i Hi. destruct (Nat.lt_ge_cases i (length (d_heap u))) as [X|X]; [exact X|]. exfalso. eapply New; eauto. }
  constructor.
  - intros i Hi. assert (Hl : i < length (d_heap u)) by (apply Old; left; exact Hi). right.
    destruct (F i Hl) as [_ [B|[_ B]]]; [|congruence]. rewrite B in Hi.
    destruct (t_text _ T i Hi) as [[X _]|[c X]]; [contradiction|]. exists c. rewrite A by exact Hl. exact X.
  - intros i Hi. assert (Hl : i < length (d_heap u)) by (apply Old; right; exact Hi).
    destruct (F i Hl) as [_ [B|[B _]]]; [|auto]. rewrite B in Hi. apply W; [exact Hl|]. apply (t_space _ T i Hi).
  - intros i Hi. right. destruct Ck as [Ck|Ck]; [congruence|]. apply Cw. congruence.
  - intro X. contradiction.
Qed.

Lemma nontext_at : forall h i t, ty h i = t -> ~ textual t -> ~ textual (ty h i).
Proof. intros. congruence. Qed.
Lemma nontext_out : forall h i, length h <= i -> ~ textual (ty h i).
Proof. intros h i L [X|X]; unfold ty in X; rewrite hget_default in X by exact L; discriminate. Qed.

(** Pending text: a fresh or reopened text node. *)
Lemma pend_ok : forall u st, tok_ok u -> is_W u \/ is_U u -> is_T st ->
  length (d_heap u) <= length (d_heap st) ->
  (forall i, i < length (d_heap u) -> i <> d_current_node st -> n_content (hget (d_heap st) i) = n_content (hget (d_heap u) i)) ->
  (forall i, i < length (d_heap u) -> ty (d_heap st) i = ty (d_heap u) i) ->
  (forall i, length (d_heap u) <= i -> i <> d_current_node st -> ~ textual (ty (d_heap st) i)) ->
  ty (d_heap st) (d_current_node st) = NText ->
  d_check_textnode st = d_check_textnode u -> (forall i, d_check_textnode u = Some i -> i < length (d_heap u)) ->
  d_prev_chars st <> [] -> (d_repeat_whitespace st = true -> Forall is_ws (d_prev_chars st)) -> tok_ok st.
Proof.
  intros u st T U HT L A Ty New Tc Ck Cl P1 P2. pose proof (no_T _ U) as NT. constructor.
  - intros i Hi. destruct (Nat.eq_dec i (d_current_node st)) as [->|N]; [left; auto|right].
    destruct (Nat.lt_ge_cases i (length (d_heap u))) as [X|X].
    + rewrite Ty in Hi by exact X. destruct (t_text _ T i Hi) as [[Y _]|[c Y]]; [contradiction|]. exists c. rewrite A by assumption. exact Y.
    + exfalso. apply (New i X N). left. exact Hi.
  - intros i Hi. destruct (Nat.eq_dec i (d_current_node st)) as [->|N]; [congruence|].
    destruct (Nat.lt_ge_cases i (length (d_heap u))) as [X|X].
    + rewrite Ty in Hi by exact X. destruct (t_space _ T i Hi) as [c Y]. exists c. rewrite A by assumption. exact Y.
    + exfalso. apply (New i X N). right. exact Hi.
  - intros i Hi. rewrite Ck in Hi. destruct (Nat.eq_dec i (d_current_node st)) as [->|N]; [left; auto|right].
    destruct (t_check _ T i Hi) as [[Y _]|[c Y]]; [contradiction|]. exists c. rewrite A; auto.
  - intros _. auto.
Qed.

Lemma check_lt : forall opts u i, sok opts u -> d_check_textnode u = Some i -> i < length (d_heap u).
Proof. intros opts u i S E. apply textual_lt. apply (s_check _ _ S i E). Qed.

Lemma ty_new : forall opts u s st i, bstep u s st -> sok opts u -> length (d_heap u) <= i ->
  i < length (d_heap st) -> born u s i (hget (d_heap st) i).
Proof. intros. eapply bstep_born; eauto. Qed.

Lemma lt_tok : forall opts u chars, sok opts u -> tok_ok u -> is_U u -> auto_fix_unescaped_lt opts = true ->
  chars <> [] -> tok_ok (lt_text u chars).
Proof.
  intros opts u chars S T U Hlt Hc.
  assert (L : length (d_heap u) <= length (d_heap (lt_text u chars))) by (eapply fr_len, fr_lt; eauto).
  eapply (pend_ok u); auto.
  - apply lt_text_T.
  - intros i Hi N. unfold lt_text in N |- *. cbv zeta in N |- *. 
    destruct (n_type (cur u)); try (apply (cfr_orphan None); exact Hi).
    destruct (n_content (cur u)); cbn in N |- *; [|reflexivity]. rewrite hget_hupd_other by congruence. reflexivity.
  - intros i Hi. unfold lt_text. cbv zeta.
    assert (O : forall p n, ty (add_orphan (d_heap u) p n) i = ty (d_heap u) i).
    { intros p n. destruct (cfr_orphan None (d_heap u) p n) as [_ X]. destruct (X i Hi) as [_ [Y|[Y _]]]; [exact Y|discriminate]. }
    destruct (n_type (cur u)); try apply O.
    destruct (n_content (cur u)); cbn; [|reflexivity]. apply ty_hupd_quiet. auto with quiet.
  - intros i Hi N. destruct (Nat.lt_ge_cases i (length (d_heap (lt_text u chars)))) as [X|X]; [|apply nontext_out; exact X].
    destruct (lt_new opts u chars i) as [_ [Y _]]; try congruence; auto.
  - eapply s_text; [apply (sok_lt opts); eauto|]. apply lt_text_T.
  - unfold lt_text. cbv zeta. destruct (n_type (cur u)); try reflexivity. destruct (n_content (cur u)); reflexivity.
  - intros i Hi. eapply check_lt; eauto.
  - unfold lt_text. cbv zeta. destruct (n_type (cur u)) eqn:Et; try exact Hc.
    destruct (n_content (cur u)) as [x|] eqn:Ex; cbn.
    + intro X. apply app_eq_nil in X. destruct X. contradiction.
    + exfalso. destruct (t_text _ T (d_current_node u) Et) as [[X _]|[c [X _]]]; [eapply no_T; eauto|].
      unfold cur, get_node in Ex. congruence.
  - unfold lt_text. cbv zeta. destruct (n_type (cur u)); try discriminate. destruct (n_content (cur u)); discriminate.
Qed.

Lemma tok_position : forall st p, tok_ok st -> tok_ok (set_position p st).
Proof. intros st p T. destruct T. destruct st. constructor; assumption. Qed.

Lemma bstep_tok : forall opts u s st, bstep u s st -> sok opts u -> tok_ok u -> tok_ok st.
Proof.
  intros opts u s st B. induction B; intros S T;
    try (pose proof (fun i => check_lt opts u i S) as Cl);
    try (pose proof (fun i => check_lt opts st i S) as Cl).
  - apply (token_ok st); auto; cbn [d_heap d_check_textnode].
    + intros [X _]. discriminate.
    + apply cfr_refl.
    + apply nontext_out.
  - assert (Tc : ty (d_heap st) (d_current_node st) = NText) by assumption.
    apply (pend_ok st); auto; cbn [d_heap d_check_textnode d_current_node d_prev_chars d_repeat_whitespace].
    + repeat split.
    + destruct ct; rewrite ?hupd_length; apply le_n.
    + intros i Hi N. destruct ct; [|reflexivity]. rewrite hget_hupd_other by congruence. reflexivity.
    + intros i Hi. destruct ct; [|reflexivity]. apply ty_hupd_quiet. auto with quiet.
    + intros i Hi N. apply nontext_out. destruct ct; rewrite ?hupd_length; exact Hi.
    + destruct ct; [|exact Tc]. rewrite ty_hupd_quiet by auto with quiet. exact Tc.
    + intro X. apply app_eq_nil in X. destruct X. discriminate.
    + discriminate.
  - assert (Hp : p < length (d_heap st)) by (eapply chain_hd; eauto).
    apply (pend_ok st); auto; cbn [d_heap d_check_textnode d_current_node d_prev_chars d_repeat_whitespace].
    + repeat split.
    + rewrite add_child_length. lia.
    + intros i Hi _. apply (cfr_child None). exact Hi.
    + intros i Hi. rewrite ty_add_child by exact Hp. destruct (Nat.eqb_spec i (length (d_heap st))); [lia|reflexivity].
    + intros i Hi N. apply nontext_out. rewrite add_child_length. lia.
    + rewrite ty_add_child by exact Hp. rewrite Nat.eqb_refl. reflexivity.
    + discriminate.
    + intro X. constructor; [exact X|constructor].
  - destruct T as [T1 T2 T3 T4]. destruct (T4 H) as [P1 P2].
    constructor; cbn [d_heap d_check_textnode d_current_node d_prev_chars d_repeat_whitespace].
    + intros i Hi. destruct (T1 i Hi) as [[_ X]|X]; [left; split; [repeat split|exact X]|right; exact X].
    + exact T2.
    + intros i Hi. destruct (T3 i Hi) as [[_ X]|X]; [left; split; [repeat split|exact X]|right; exact X].
    + intros _. split; [intro X; apply app_eq_nil in X; destruct X; discriminate|].
      intro X. apply Bool.andb_true_iff in X. destruct X as [X Y]. apply Forall_app. split; [auto|]. constructor; [exact Y|constructor].
  - destruct T as [T1 T2 T3 T4]. destruct (T4 H) as [P1 P2]. pose proof (s_cur _ _ S) as Cu. pose proof (s_text _ _ S H) as Tc.
    rewrite hupd_hupd. set (h' := hupd _ _ _).
    assert (G : forall i, n_content (hget h' i) = if Nat.eqb i (d_current_node st) then Some (d_prev_chars st) else n_content (hget (d_heap st) i)).
    { intro i. unfold h'. destruct (Nat.eqb_spec i (d_current_node st)) as [->|N].
      - rewrite hget_hupd_same by exact Cu. reflexivity.
      - rewrite hget_hupd_other by congruence. reflexivity. }
    assert (Ty : forall i, ty h' i = ty (d_heap st) i).
    { intro i. unfold h'. apply ty_hupd_quiet. intro n. split; reflexivity. }
    constructor; cbn [d_heap d_check_textnode d_current_node d_prev_chars d_repeat_whitespace].
    + intros i Hi. right. rewrite Ty in Hi. unfold has_text. rewrite G. destruct (Nat.eqb_spec i (d_current_node st)) as [->|N]; [eauto|].
      destruct (T1 i Hi) as [[_ X]|X]; [contradiction|exact X].
    + intros i Hi. rewrite Ty in Hi. unfold has_ws. rewrite G. destruct (Nat.eqb_spec i (d_current_node st)) as [->|N]; [congruence|].
      apply T2, Hi.
    + intros i Hi. right. destruct (d_repeat_whitespace st) eqn:R; [|discriminate]. injection Hi as <-.
      unfold has_ws. rewrite G, Nat.eqb_refl. eauto.
    + intros [X _]. discriminate.
  - eapply (token_ok u); auto; cbn [W_of d_heap d_check_textnode]; auto; [intros [X _]; discriminate| |].
    + apply cfr_upd_new; [apply cfr_opened|apply le_n].
    + intros i Hi. destruct (Nat.eq_dec i (length (d_heap u))) as [->|N].
      * rewrite ty_set_meta. destruct (opened_ok opts u p rest NTag S) as [_ [_ [_ ->]]]; auto; try discriminate. intros [X|X]; discriminate.
      * apply nontext_out. rewrite set_meta_length, opened_length. lia.
  - eapply (token_ok u); auto; cbn [W_of d_heap d_check_textnode]; auto; [intros [X _]; discriminate| |].
    + apply cfr_upd_new; [apply cfr_opened|apply le_n].
    + intros i Hi. destruct (Nat.eq_dec i (length (d_heap u))) as [->|N].
      * rewrite ty_set_meta. destruct (opened_ok opts u p rest NTag S) as [_ [_ [_ ->]]]; auto; try discriminate. intros [X|X]; discriminate.
      * apply nontext_out. rewrite set_meta_length, opened_length. lia.
  - eapply (token_ok u); auto; cbn [W_of d_heap d_check_textnode]; auto; [intros [X _]; discriminate| |].
    + apply cfr_upd_new; [apply cfr_opened|apply le_n].
    + intros i Hi. destruct (Nat.eq_dec i (length (d_heap u))) as [->|N].
      * rewrite ty_set_meta. destruct (opened_ok opts u p rest NTag S) as [_ [_ [_ ->]]]; auto; try discriminate. intros [X|X]; discriminate.
      * apply nontext_out. rewrite set_meta_length, opened_length. lia.
  - eapply (token_ok u); auto; cbn [W_of d_heap d_check_textnode]; auto; [intros [X _]; discriminate| |].
    + apply cfr_upd_new; [|apply le_n]. apply cfr_app. apply cfr_upd_new; [apply cfr_opened|apply le_n].
    + intros i Hi. set (h1 := set_meta _ _ _).
      assert (L1 : length h1 = Datatypes.S (length (d_heap u))) by (unfold h1; rewrite set_meta_length, opened_length; reflexivity).
      destruct (Nat.eq_dec i (length (d_heap u))) as [->|N].
      * unfold ty. rewrite (hupd_keep n_type) by reflexivity. rewrite hget_app_old by lia.
        change (~ textual (ty h1 (length (d_heap u)))). unfold h1. rewrite ty_set_meta.
        destruct (opened_ok opts u p rest NTag S) as [_ [_ [_ ->]]]; auto; try discriminate. intros [X|X]; discriminate.
      * destruct (Nat.eq_dec i (Datatypes.S (length (d_heap u)))) as [->|N2].
        -- unfold ty. rewrite (hupd_keep n_type) by reflexivity. rewrite <- L1, hget_app_new. intros [X|X]; discriminate.
        -- apply nontext_out. rewrite hupd_length, app_length. cbn [length]. lia.
  - eapply (token_ok u); auto; cbn [W_of d_heap d_check_textnode]; auto; [intros [X _]; discriminate| | |].
    + apply cfr_closed.
    + intros i Hi. pose proof (bs_close u nm tag rest H H0 H1 H2) as B.
      match type of B with bstep _ _ ?w => set (w' := w) in * end.
      destruct (Nat.lt_ge_cases i (length (d_heap w'))) as [X|X]; [|apply nontext_out; exact X].
      pose proof (bstep_born _ _ _ _ i B S (conj Hi X)) as Bn. unfold w' in Bn. cbn [W_of d_heap] in Bn. unfold ty.
      destruct (hget (closed_heap u tag nm (d_position u + length (str "/" ++ nm))) i) as [x1 x2 x3 x4 x5 x6 x7 x8 x9 x10 x11].
      intros [Y|Y]; cbn in Y; subst x2; inversion Bn; subst; try congruence.
      all: try (destruct nm; discriminate).
    + unfold closed_check. destruct (n_childs _) as [[|k [|? ?]]|]; auto. destruct (node_type_eqb _ _); auto.
  - eapply (token_ok u); auto; cbn [W_of d_heap d_check_textnode]; auto; [intros [X _]; discriminate| |].
    + unfold dropped_heap. apply cfr_app, cfr_refl.
    + intros i Hi. destruct (dropped_eq u) as [n0 [Tn [E _]]]. rewrite E.
      destruct (Nat.eq_dec i (length (d_heap u))) as [->|N].
      * unfold ty. rewrite hget_app_new, Tn. intros [X|X]; discriminate.
      * apply nontext_out. rewrite app_length. cbn. lia.
  - eapply (token_ok u); auto; cbn [W_of d_heap d_check_textnode]; auto; [intros [X _]; discriminate| |].
    + apply cfr_upd_new; [|apply le_n]. apply cfr_upd_new; [apply cfr_opened|apply le_n].
    + intros i Hi. destruct (Nat.eq_dec i (length (d_heap u))) as [->|N].
      * rewrite !ty_hupd_quiet by auto with quiet. destruct (opened_ok opts u p rest NComment S) as [_ [_ [_ ->]]]; auto; try discriminate. intros [X|X]; discriminate.
      * apply nontext_out. rewrite !hupd_length, opened_length. lia.
  - eapply (token_ok u); auto; cbn [W_of d_heap d_check_textnode]; auto; [intros [X _]; discriminate| |].
    + apply cfr_upd_new; [|apply le_n]. apply cfr_upd_new; [apply cfr_opened|apply le_n].
    + intros i Hi. destruct (Nat.eq_dec i (length (d_heap u))) as [->|N].
      * rewrite !ty_hupd_quiet by auto with quiet. destruct (opened_ok opts u p rest NXMLCDATA S) as [_ [_ [_ ->]]]; auto; try discriminate. intros [X|X]; discriminate.
      * apply nontext_out. rewrite !hupd_length, opened_length. lia.
  - eapply (token_ok u); auto; cbn [W_of d_heap d_check_textnode]; auto; [intros [X _]; discriminate| |].
    + apply cfr_upd_new; [apply cfr_opened|apply le_n].
    + intros i Hi. destruct (Nat.eq_dec i (length (d_heap u))) as [->|N].
      * rewrite ty_set_meta. destruct (opened_ok opts u p rest NHTMLDOCTYPE S) as [_ [_ [_ ->]]]; auto; try discriminate. intros [X|X]; discriminate.
      * apply nontext_out. rewrite set_meta_length, opened_length. lia.
  - apply tok_position. eapply lt_tok; eauto; [rewrite <- (s_opts _ _ S); assumption|discriminate].
  - assert (Hlt : auto_fix_unescaped_lt opts = true) by (rewrite <- (s_opts _ _ S); assumption).
    apply IHB; [apply sok_lt; auto|]. eapply lt_tok; eauto. discriminate.
Qed.

Lemma tok_init : forall opts, tok_ok (doc_new opts).
Proof.
  intro opts. constructor.
  - intros [|[|i]] X; discriminate.
  - intros [|[|i]] X; discriminate.
  - intros i X. discriminate.
  - intros [X _]. discriminate.
Qed.
Lemma bsteps_tok : forall opts s st, bsteps (doc_new opts) s st -> tok_ok st.
Proof.
  intros opts s st B. remember (doc_new opts) as s0 eqn:E0. induction B as [|st0 s st1 t st2 B IH C]; subst.
  - apply tok_init.
  - eapply bstep_tok; [exact C|eapply bsteps_sok; exact B|apply IH; reflexivity].
Qed.
