(** The repairs of the parser amount to editing the text. *)
From Coq Require Import String Lia.
From Verif Require Import Api SpecText SpecRender RenderProofs SpecParse SpecTree SpecMisc NameProofs TextProofs MiscProofs HeapLemmas InvCtl CtlSteps CtlHandlers CtlEnd CtlRun
  Big BigSteps Replay RawText Struct StructEnd Frame Static Shape Real Sim CloseInv Final DocSound Mono FixProofs DocEnd SpecFix SpecStream Stream StreamSteps StreamRel
  StreamEnd StreamParse StreamRender StreamProofs Tok Print DocTree SpecDoc SpecEdit.
Local Open Scope string_scope.
Local Open Scope list_scope.

(** ** Turning repairs off *)
Definition fix_opts (ue lt : bool) (o : parse_options) : parse_options :=
  mkPO (case_sensitive_tagname o) (allow_attr_key_starts_with_equal_sign o) (allow_self_closing o) (auto_fix_unclosed_tag o) ue lt.
Definition set_fix (ue lt : bool) (st : doc) : doc :=
  mkDoc (d_code_in st) (d_position st) (d_mem_position st) (d_detect st) (d_prev_chars st) (d_mark_char st) (d_chain_nodes st) (d_current_node st)
    (d_in_special st) (d_repeat_whitespace st) (d_check_textnode st) (d_handle st) (fix_opts ue lt (d_parse_options st)) (d_root st) (d_id_tags st) (d_heap st).
Lemma set_fix_new : forall ue lt o, set_fix ue lt (doc_new o) = doc_new (fix_opts ue lt o).
Proof. reflexivity. Qed.
Lemma ta_run_fix : forall ue lt o dt s t, ta_run (fix_opts ue lt o) dt s t = ta_run o dt s t.
Proof.
  intros ue lt o dt s. induction s as [|c s IH]; intro t; [reflexivity|]. cbn [ta_run]. destruct (ta_closes c t); [reflexivity|].
  change (ta_step (fix_opts ue lt o) dt c t) with (ta_step o dt c t). destruct (ta_step o dt c t); auto.
Qed.
Lemma raw_end_fix : forall ue lt o n b, raw_end (fix_opts ue lt o) n b = raw_end o n b.
Proof. reflexivity. Qed.

Definition lt_event (u : doc) (t : list char) : Prop := is_U u /\ auto_fix_unescaped_lt (d_parse_options u) = true /\ exists c, t = [c] /\ stray c.
Definition drop_event (u : doc) (t : list char) : Prop :=
  is_U u /\ auto_fix_unexpected_endtag (d_parse_options u) = true /\ exists nm, t = str "/" ++ nm ++ str ">" /\ ~ In TAG_END_CHAR nm /\ closes u nm = None.
Definition merge_event (u : doc) : Prop := is_W u /\ n_type (cur u) = NText.
Lemma retarget : forall ue lt u t v, bstep u t v -> (ue = true -> auto_fix_unexpected_endtag (d_parse_options u) = true) ->
  lt_event u t \/ (ue = false /\ (drop_event u t \/ merge_event u)) \/ bstep (set_fix ue lt u) t (set_fix ue lt v).
Proof.
  intros ue lt u t v B Hu. destruct B.
  - right. right. apply bs_wait_lt. exact H.
  - destruct ue; [|right; left; split; [reflexivity|]; right; split; assumption]. right. right.
    exact (bs_wait_merge (set_fix true lt st) c ct H H0 eq_refl H2 H3).
  - right. right. refine (bs_wait_text (set_fix ue lt st) c p rest H H0 _ H2).
    destruct ue; [right|left; reflexivity]. destruct H1 as [X|X]; [rewrite Hu in X by reflexivity; discriminate|exact X].
  - right. right. exact (bs_text_char (set_fix ue lt st) c H H0).
  - right. right. exact (bs_text_lt (set_fix ue lt st) H).
  - right. right. refine (bs_tag (set_fix ue lt u) n a t p rest H H0 H1 H2 _ H4 H5 H6 H7). cbn [set_fix d_parse_options]. rewrite ta_run_fix. exact H3.
  - right. right. refine (bs_void (set_fix ue lt u) n a t p rest H H0 H1 H2 _ H4 H5 H6). cbn [set_fix d_parse_options]. rewrite ta_run_fix. exact H3.
  - right. right. refine (bs_self (set_fix ue lt u) n a t p rest H H0 H1 H2 _ H4 H5). cbn [set_fix d_parse_options]. rewrite ta_run_fix. exact H3.
  - right. right. refine (bs_raw (set_fix ue lt u) n a t p rest b H H0 H1 H2 _ H4 H5 H6 H7 H8). cbn [set_fix d_parse_options]. rewrite ta_run_fix. exact H3.
  - right. right. exact (bs_close (set_fix ue lt u) nm tag rest H H0 H1 H2).
  - destruct ue; [|right; left; split; [reflexivity|]; left; split; [assumption|split; [assumption|eauto]]]. right. right.
    exact (bs_drop (set_fix true lt u) nm H H0 H1 eq_refl).
  - right. right. exact (bs_comment (set_fix ue lt u) b p rest H H0 H1 H2).
  - right. right. exact (bs_cdata (set_fix ue lt u) kw b p rest H H0 H1 H2 H3 H4).
  - right. right. refine (bs_doctype (set_fix ue lt u) n c a t p rest H H0 H1 H2 _ H4). cbn [set_fix d_parse_options]. rewrite ta_run_fix. exact H3.
  - left. split; [exact H|]. split; [exact H0|]. exists c. split; [reflexivity|]. repeat split; assumption.
  - left. split; [exact H|]. split; [exact H0|]. exists TAG_BEGIN_CHAR. split; [reflexivity|]. repeat split; discriminate.
Qed.

(** ** Open elements *)
Lemma chain_back : forall u t v, bstep u t v -> d_chain_nodes v <> [] -> d_chain_nodes u <> [].
Proof.
  intros u t v B. induction B; cbn [W_of d_chain_nodes]; intro N; try (rewrite ?H2; discriminate); try exact N; try congruence.
  - destruct (closes_inv _ _ _ _ H1) as [-> _]. discriminate.
  - revert N. unfold lt_text, set_position. destruct (n_type (cur u)); cbn [d_chain_nodes]; auto. destruct (n_content (cur u)); auto.
  - specialize (IHB N). revert IHB. unfold lt_text. destruct (n_type (cur u)); cbn [d_chain_nodes]; auto. destruct (n_content (cur u)); auto.
Qed.
Lemma chain_popping : forall o s st, bsteps (doc_new o) s st -> d_chain_nodes st = [] -> popping (d_heap st).
Proof.
  intros o s st B. remember (doc_new o) as st0 eqn:E0. induction B as [st|st s u t v B IH Bs]; intro E; subst st; [discriminate E|].
  specialize (IH eq_refl). pose proof (bsteps_sok _ _ _ B) as S. pose proof (bstep_fr _ _ _ _ Bs S) as [L F].
  destruct (d_chain_nodes u) as [|i l] eqn:Eu.
  - destruct (IH eq_refl) as [j [m [T [M Sc]]]]. exists j, m.
    assert (Lj : j < length (d_heap u)).
    { destruct (Nat.lt_ge_cases j (length (d_heap u))) as [X|X]; [exact X|]. rewrite hget_default in M by exact X. discriminate. }
    split; [|split; [rewrite (nf_meta _ _ _ (F j Lj)); exact M|exact Sc]].
    unfold ty in *. destruct (nf_kind _ _ _ (F j Lj)) as [X|[[X|X] _]]; congruence.
  - clear IH. destruct Bs; cbn [W_of d_chain_nodes] in E; try congruence.
    + destruct (closes_inv _ _ _ _ H1) as [_ [X _]]. congruence.
    + destruct (ta_slash t) eqn:Sl; [|congruence]. exists (length (d_heap u)), (ta_meta n true t').
      cbn [W_of d_heap]. rewrite ty_set_meta. unfold set_meta. rewrite hget_hupd_same by (rewrite opened_length; lia).
      unfold ty. rewrite (hget_opened_new _ _ _ _ _ S H0). repeat split.
    + exfalso. revert E. unfold lt_text, set_position. destruct (n_type (cur u)); cbn [d_chain_nodes]; try congruence. destruct (n_content (cur u)); cbn [d_chain_nodes]; congruence.
    + exfalso. assert (X : d_chain_nodes (lt_text u (str "&lt;")) <> []).
      { unfold lt_text. destruct (n_type (cur u)); cbn [d_chain_nodes]; try congruence. destruct (n_content (cur u)); cbn [d_chain_nodes]; congruence. }
      assert (Y : bstep (lt_text u (str "&lt;")) [TAG_BEGIN_CHAR] st') by assumption. pose proof (lt_text_T u (str "&lt;")) as T.
      inversion Y; subst; try (destruct T as [T _]; destruct H2 as [X2 _]; congruence); try (destruct T as [T _]; match goal with U : is_U (lt_text _ _) |- _ => destruct U as [U _]; congruence end); cbn [d_chain_nodes] in E; congruence.
Qed.

(** ** Texts *)
Lemma escaped_refl : forall s, escaped s s.
Proof. induction s; constructor; assumption. Qed.
Lemma escaped_app : forall a a', escaped a a' -> forall b b', escaped b b' -> escaped (a ++ b) (a' ++ b').
Proof.
  intros a a' E. induction E; intros b b' F; [exact F|cbn; constructor; auto|]. rewrite <- app_assoc. cbn [app]. apply esc_lt; [assumption|]. apply (IHE _ _ F).
Qed.
Lemma pruned_refl : forall s, pruned s s.
Proof. induction s; constructor; assumption. Qed.
Lemma pruned_app : forall a a', pruned a a' -> forall b b', pruned b b' -> pruned (a ++ b) (a' ++ b').
Proof.
  intros a a' E. induction E; intros b b' F; [exact F|cbn; constructor; auto|]. rewrite <- !app_assoc. apply prune_end; [assumption|]. apply (IHE _ _ F).
Qed.
Lemma U_or_WT : forall u, is_U u \/ is_WT u -> ~ is_U u -> is_WT u.
Proof. intros u [A|A] N; [contradiction|exact A]. Qed.

(** ** Escaping the '<' that start no markup *)
Section Escape.
Variable o : parse_options.
Hypothesis Lt : auto_fix_unescaped_lt o = true.
Let o1 := fix_opts (auto_fix_unexpected_endtag o) false o.
Let F := set_fix (auto_fix_unexpected_endtag o) false.

Lemma lt_keep : forall s v t w, bsteps (doc_new o) s v -> bsteps (doc_new o1) s (F v) -> bstep v t w -> ~ lt_event v t -> bsteps (doc_new o1) (s ++ t) (F w).
Proof.
  intros s v t w B B1 Bs N. pose proof (bsteps_sok _ _ _ B) as S.
  destruct (retarget (auto_fix_unexpected_endtag o) false v t w Bs) as [X|[[E X]|X]]; [rewrite (s_opts _ _ S); auto|contradiction| |].
  - exfalso. destruct X as [[_ [Y _]]|[W Tx]]; [rewrite (s_opts _ _ S) in Y; congruence|]. exact (W_not_text _ _ _ B E W Tx).
  - eapply bss_snoc; eauto.
Qed.
Lemma plain_F : forall x s v l, bsteps (doc_new o) s v -> bsteps (doc_new o1) s (F v) -> is_WT v -> d_chain_nodes v <> [] -> ~ In TAG_BEGIN_CHAR x -> x <> [] -> view o v l [] ->
  exists w, bsteps (doc_new o) (s ++ x) w /\ bsteps (doc_new o1) (s ++ x) (F w) /\ is_T w /\ view o w (l ++ map AChar x) [] /\ sk w = sk v /\ d_chain_nodes w = d_chain_nodes v.
Proof.
  intro x. induction x as [|c x IH]; intros s v l B B1 K Ne Ni Nx V; [congruence|]. clear Nx.
  pose proof (bsteps_sok _ _ _ B) as S. pose proof (sr_nt _ _ _ (srel_refl _ _ _ B)) as [Nt _].
  assert (Nc : c <> TAG_BEGIN_CHAR) by (intros ->; apply Ni; left; reflexivity).
  destruct (view_char o v c S K Nc Nt (or_introl Ne) l [] V) as [w [l' [z' [Bv [Tv [Vv [[Y1 Y2] [Sv Cv]]]]]]]].
  assert (Vw : view o w (l ++ [AChar c]) []) by (destruct (text_dec v) as [T|T]; [destruct (Y1 T) as [-> ->]|destruct (Y2 T) as [-> ->]]; exact Vv).
  assert (Bw : bsteps (doc_new o) (s ++ [c]) w) by (eapply bss_snoc; eauto).
  assert (Bw1 : bsteps (doc_new o1) (s ++ [c]) (F w)) by (eapply lt_keep; eauto; intros [U _]; eapply WT_U; eauto).
  destruct x as [|c' x]; [exists w; auto 7|].
  destruct (IH (s ++ [c]) w (l ++ [AChar c]) Bw Bw1 (or_intror Tv)) as [w2 [C1 [C2 [C3 [C4 [C5 C6]]]]]];
    [rewrite Cv; exact Ne|intro X; apply Ni; right; exact X|discriminate|exact Vw|].
  exists w2. rewrite <- app_assoc in *. split; [exact C1|]. split; [exact C2|]. split; [exact C3|]. split; [exact C4|]. split; congruence.
Qed.

Definition pending (whole s : list char) (st : doc) (s' : list char) (v : doc) : Prop :=
  exists s0 s0' v0, s = s0 ++ [TAG_BEGIN_CHAR] /\ s' = s0' ++ [TAG_BEGIN_CHAR] /\
    (forall x x', escaped (TAG_BEGIN_CHAR :: x) x' -> escaped (s0 ++ TAG_BEGIN_CHAR :: x) (s0' ++ x')) /\
    bsteps (doc_new o) s0' v0 /\ bsteps (doc_new o1) s0' (F v0) /\ is_WT v0 /\
    (forall c r, whole = s ++ c :: r -> stray c -> exists l, view o v0 l [] /\ view o st l [] /\ sk v0 = sk st).
Definition mended (whole s : list char) (st : doc) (s' : list char) (v : doc) : Prop :=
  bsteps (doc_new o) s' v /\ bsteps (doc_new o1) s' (F v) /\ srel o st v /\
  ((is_WT st /\ escaped s s') \/ (is_U st /\ pending whole s st s' v)).

Lemma stray_step : forall u c v, bstep u [c] v -> is_U u -> stray c ->
  (c <> TAG_BEGIN_CHAR /\ v = set_position (d_position u + 1) (lt_text u (str "&lt;" ++ [c]))) \/
  (c = TAG_BEGIN_CHAR /\ bstep (lt_text u (str "&lt;")) [TAG_BEGIN_CHAR] v).
Proof.
  intros u c v B U [N1 [N2 N3]]. remember [c] as t eqn:Et.
  destruct B; try (exfalso; solve [apply (U_not_W _ U); assumption|apply (U_not_T _ U); assumption]).
  all: try match goal with O : open_name _ |- _ => exfalso; destruct O as [c0 [n0 [-> [Al _]]]]; injection Et as -> _; congruence end.
  all: try (injection Et as <-; left; auto; fail).
  all: try (injection Et as <-; right; auto; fail).
  all: exfalso.
  all: try subst src; injection Et as Et; congruence.
Qed.
Lemma char_dec : forall t : list char, (exists c, t = [c] /\ stray c) \/ ~ (exists c, t = [c] /\ stray c).
Proof.
  intros [|c [|d t]]; try (right; intros [x [E _]]; discriminate E).
  unfold stray. destruct (is_ascii_alphabetic c) eqn:A; [right; intros [x [E [X _]]]; injection E as <-; congruence|].
  destruct (N.eq_dec c 47%N) as [E1|N1]; [right; intros [x [E [_ [X _]]]]; injection E as <-; congruence|].
  destruct (N.eq_dec c 33%N) as [E1|N2]; [right; intros [x [E [_ [_ X]]]]; injection E as <-; congruence|].
  left. exists c. auto.
Qed.
Lemma lt_T : forall u v, is_WT u -> bstep u [TAG_BEGIN_CHAR] v -> is_U v.
Proof.
  intros u v K B. inversion B; subst; try congruence; try (exfalso; eapply WT_U; eauto; fail); repeat split.
Qed.
Lemma WT_token : forall u t v, is_WT u -> bstep u t v -> (t = [TAG_BEGIN_CHAR] /\ is_U v) \/ is_WT v.
Proof.
  intros u t v K B. inversion B; subst; try (exfalso; eapply WT_U; eauto; fail).
  all: try (left; split; [reflexivity|repeat split]; fail).
  all: right; right; repeat split.
Qed.
Lemma U_token : forall u t v, is_U u -> ~ (exists c, t = [c] /\ stray c) -> bstep u t v -> is_WT v.
Proof.
  intros u t v U N B. destruct B; try (exfalso; solve [apply (U_not_W _ U); assumption|apply (U_not_T _ U); assumption]).
  all: try (left; apply W_of_W).
  - destruct N. exists c. split; [reflexivity|]. repeat split; assumption.
  - destruct N. exists TAG_BEGIN_CHAR. split; [reflexivity|]. repeat split; discriminate.
Qed.
Lemma metas_ne : forall u v, sk u = sk v -> d_chain_nodes u <> [] -> d_chain_nodes v <> [].
Proof. intros u v E. apply metas_nil. apply sk_metas. exact E. Qed.

Lemma mend : forall whole, lt_outside_raw o whole -> forall s st, bsteps (doc_new o) s st -> forall r, whole = s ++ r -> d_chain_nodes st <> [] ->
  exists s' v, mended whole s st s' v.
Proof.
  intros whole Hw s st B. remember (doc_new o) as st0 eqn:E0. induction B as [st|st s u t w B IH Bs]; intros r Ew Ne; subst st.
  - exists [], (doc_new o). split; [constructor|]. split; [constructor|]. split; [apply srel_init|]. left. split; [left; apply init_W|constructor].
  - pose proof (chain_back _ _ _ Bs Ne) as Nu. rewrite <- app_assoc in Ew. destruct (IH eq_refl _ Ew Nu) as [s' [v [Bv [Bv1 [R D]]]]]. clear IH.
    destruct (sr_ok _ _ _ R) as [S S']. pose proof (bstep_sok _ _ _ _ Bs S) as Sw.
    destruct D as [[K Es]|[U P]].
    + assert (K' : is_WT v) by (destruct (sr_kind _ _ _ R) as [[X _]|[_ X]]; [exfalso; eapply WT_U; eauto|exact X]).
      destruct (srel_step _ _ _ _ Bs _ R) as [v2 [Bs' R2]]. exists (s' ++ t), v2.
      split; [eapply bss_snoc; eauto|]. split; [eapply lt_keep; eauto; intros [X _]; eapply WT_U; eauto|]. split; [exact R2|].
      destruct (WT_token _ _ _ K Bs) as [[-> Uw]|Kw]; [right|left; split; [exact Kw|apply escaped_app; [exact Es|apply escaped_refl]]].
      split; [exact Uw|]. exists s, s', v. split; [reflexivity|]. split; [reflexivity|]. split; [intros x x' X; apply escaped_app; assumption|].
      split; [exact Bv|]. split; [exact Bv1|]. split; [exact K'|]. intros c r0 Ec Sc.
      assert (Nr : ~ after_raw u).
      { apply (Hw s c r0 u); auto.
        - rewrite Ec, <- app_assoc. reflexivity.
        - apply (proj1 (reach _ _ _ B)).
        - split; [|exact Nu]. destruct K as [[X _]|[X _]]; rewrite X; auto. }
      destruct (sr_view _ _ _ R) as [l [z [l' [z' [V [V' [E M]]]]]]]. pose proof (open_view o u l z S V Nr) as ->.
      assert (z' = []) as -> by (destruct M as [[_ M]|[_ M]]; [apply (M Lt)|auto]). rewrite !app_nil_r in E. subst l'.
      exists l. split; [exact V'|]. destruct (view_lt o u S K l [] V) as [w' [Bw' [Uw' [Vw' [Sw' _]]]]].
      rewrite (step_det _ _ _ _ K Bs Bw'). split; [exact Vw'|]. rewrite Sw'. symmetry. apply (sr_sk _ _ _ R).
    + destruct (char_dec t) as [[c [-> Sc]]|Nt].
      * destruct P as [s0 [s0' [v0 [-> [-> [Kp [B0 [B01 [K0 Vp]]]]]]]]]. destruct (Vp c r Ew Sc) as [l [V0 [Vu Sk]]].
        assert (N0 : d_chain_nodes v0 <> []) by (eapply metas_ne; [symmetry; exact Sk|exact Nu]).
        pose proof (bsteps_sok _ _ _ B0) as S0.
        destruct (stray_step _ _ _ Bs U Sc) as [[Nc ->]|[-> Bs2]].
        -- destruct (plain_F (str "&lt;" ++ [c]) s0' v0 l B0 B01 K0 N0) as [x [C1 [C2 [C3 [C4 [C5 C6]]]]]]; [|discriminate|exact V0|].
           { intro X. cbn in X. destruct X as [X|[X|[X|[X|[X|[]]]]]]; try discriminate X. congruence. }
           exists (s0' ++ str "&lt;" ++ [c]), x. split; [exact C1|]. split; [exact C2|]. split.
           ++ destruct (view_lt_text o u (str "&lt;" ++ [c]) S U Lt l [] Vu) as [Vx [Sx Cx]].
              assert (Rl : srel o (lt_text u (str "&lt;" ++ [c])) x).
              { eapply (text_rel o u); [apply sok_lt; assumption|apply (bsteps_sok _ _ _ C1)|apply lt_text_T|exact C3|exact Vx|exact C4|exact Sx|congruence|rewrite Cx; exact Nu]. }
              pose proof (set_position_srel o _ _ (d_position u + 1) (d_position x) Rl (lt_text_T _ _) C3) as X.
              replace (set_position (d_position x) x) with x in X by (destruct x; reflexivity). exact X.
           ++ left. split; [right; destruct (lt_text_T u (str "&lt;" ++ [c])) as [X Y]; split; assumption|].
              rewrite <- app_assoc. apply Kp. apply esc_lt; [exact Sc|apply escaped_refl].
        -- destruct (plain_F (str "&lt;") s0' v0 l B0 B01 K0 N0) as [x [C1 [C2 [C3 [C4 [C5 C6]]]]]]; [vm_compute; intuition discriminate|discriminate|exact V0|].
           destruct (view_lt_text o u (str "&lt;") S U Lt l [] Vu) as [Vx [Sx Cx]].
           pose proof (bsteps_sok _ _ _ C1) as Sx1. assert (Sy : sok o (lt_text u (str "&lt;"))) by (apply sok_lt; assumption).
           assert (Rl : srel o (lt_text u (str "&lt;")) x).
           { eapply (text_rel o u); [exact Sy|exact Sx1|apply lt_text_T|exact C3|exact Vx|exact C4|exact Sx|congruence|rewrite Cx; exact Nu]. }
           destruct (srel_step _ _ _ _ Bs2 _ Rl) as [x2 [Bx R2]].
           exists ((s0' ++ str "&lt;") ++ [TAG_BEGIN_CHAR]), x2. split; [eapply bss_snoc; eauto|].
           split; [eapply lt_keep; [exact C1|exact C2|exact Bx|]; intros [X _]; eapply WT_U; [right; exact C3|exact X]|]. split; [exact R2|].
           right. split; [eapply lt_T; [right; apply lt_text_T|exact Bs2]|].
           exists (s0 ++ [TAG_BEGIN_CHAR]), (s0' ++ str "&lt;"), x. split; [reflexivity|]. split; [reflexivity|].
           split; [intros y y' Y; rewrite <- !app_assoc; apply Kp; apply esc_lt; assumption|].
           split; [exact C1|]. split; [exact C2|]. split; [right; exact C3|]. intros c r0 _ _.
           exists (l ++ map AChar (str "&lt;")). split; [exact C4|].
           destruct (view_lt o (lt_text u (str "&lt;")) Sy (or_intror (lt_text_T _ _)) _ _ Vx) as [w' [Bw' [_ [Vw' [Sw' _]]]]].
           rewrite (step_det _ _ _ _ (or_intror (lt_text_T _ _)) Bs2 Bw'). split; [exact Vw'|]. congruence.
      * destruct (srel_step _ _ _ _ Bs _ R) as [v2 [Bs' R2]]. exists (s' ++ t), v2.
        split; [eapply bss_snoc; eauto|]. split; [eapply lt_keep; eauto; intros [_ [_ X]]; contradiction|]. split; [exact R2|].
        left. split; [eapply U_token; eauto|]. destruct P as [s0 [s0' [v0 [-> [-> [Kp _]]]]]]. rewrite <- !app_assoc. apply Kp. cbn [app]. apply escaped_refl.
Qed.
End Escape.

(** ** Deleting the end tags that close nothing *)
Section Prune.
Variable o : parse_options.
Hypothesis Lt : auto_fix_unescaped_lt o = false.
Hypothesis Ue : auto_fix_unexpected_endtag o = true.
Let o1 := fix_opts false false o.
Let F := set_fix false false.

Lemma ue_keep : forall s v t w, bsteps (doc_new o) s v -> bsteps (doc_new o1) s (F v) -> bstep v t w -> ~ drop_event v t -> bsteps (doc_new o1) (s ++ t) (F w).
Proof.
  intros s v t w B B1 Bs N. pose proof (bsteps_sok _ _ _ B) as S.
  destruct (retarget false false v t w Bs) as [X|[[_ X]|X]]; [discriminate|..].
  - exfalso. destruct X as [_ [X _]]. rewrite (s_opts _ _ S) in X. congruence.
  - exfalso. destruct X as [X|[W Tx]]; [contradiction|]. exact (W_not_text _ _ _ B1 eq_refl W Tx).
  - eapply bss_snoc; eauto.
Qed.
Definition pruning (s : list char) (st : doc) (s' : list char) (v : doc) : Prop :=
  bsteps (doc_new o) s' v /\ bsteps (doc_new o1) s' (F v) /\ srel o st v /\
  ((is_WT st /\ pruned s s') \/
   (is_U st /\ exists s0 s0' v0 u0, s = s0 ++ [TAG_BEGIN_CHAR] /\ s' = s0' ++ [TAG_BEGIN_CHAR] /\ pruned s0 s0' /\
      bsteps (doc_new o) s0' v0 /\ bsteps (doc_new o1) s0' (F v0) /\ is_WT v0 /\ is_WT u0 /\ srel o u0 v0 /\ bstep u0 [TAG_BEGIN_CHAR] st)).
Lemma drop_dec : forall u t, (exists nm, t = str "/" ++ nm ++ str ">" /\ ~ In TAG_END_CHAR nm /\ closes u nm = None) \/
  ~ (exists nm, t = str "/" ++ nm ++ str ">" /\ ~ In TAG_END_CHAR nm /\ closes u nm = None).
Proof.
  intros u t. destruct t as [|c t]; [right; intros [nm [E _]]; discriminate E|].
  destruct (N.eq_dec c 47%N) as [->|N]; [|right; intros [nm [E _]]; injection E as E _; congruence].
  destruct (rev t) as [|e y] eqn:Er.
  { right. intros [nm [E _]]. injection E as ->. rewrite rev_app_distr in Er. discriminate. }
  apply (f_equal (@rev _)) in Er. rewrite rev_involutive in Er. cbn [rev] in Er. subst t. set (x := rev y).
  destruct (N.eq_dec e 62%N) as [->|N]; [|right; intros [nm [E _]]; injection E as E; apply app_inj_tail in E; destruct E; congruence].
  destruct (in_dec N.eq_dec TAG_END_CHAR x) as [I|I]; [right; intros [nm [E [X _]]]; injection E as E; apply app_inj_tail in E; destruct E as [-> _]; contradiction|].
  destruct (closes u x) eqn:C; [right; intros [nm [E [_ X]]]; injection E as E; apply app_inj_tail in E; destruct E as [<- _]; congruence|].
  left. exists x. auto.
Qed.
Lemma closes_same : forall u v nm, sk u = sk v -> closes u nm = None -> closes v nm = None.
Proof.
  intros u v nm E C. pose proof (closes_metas u v nm (proj1 (sk_metas _ _ E))) as X. rewrite C in X. destruct (closes v nm); [contradiction|reflexivity].
Qed.
Lemma prune : forall s st, bsteps (doc_new o) s st -> d_chain_nodes st <> [] -> exists s' v, pruning s st s' v.
Proof.
  intros s st B. remember (doc_new o) as st0 eqn:E0. induction B as [st|st s u t w B IH Bs]; intros Ne; subst st.
  - exists [], (doc_new o). split; [constructor|]. split; [constructor|]. split; [apply srel_init|]. left. split; [left; apply init_W|constructor].
  - pose proof (chain_back _ _ _ Bs Ne) as Nu. destruct (IH eq_refl Nu) as [s' [v [Bv [Bv1 [R D]]]]]. clear IH.
    destruct (sr_ok _ _ _ R) as [S S']. pose proof (bstep_sok _ _ _ _ Bs S) as Sw.
    destruct (srel_step _ _ _ _ Bs _ R) as [v2 [Bs' R2]].
    destruct D as [[K Es]|[U P]].
    + assert (K' : is_WT v) by (destruct (sr_kind _ _ _ R) as [[X _]|[_ X]]; [exfalso; eapply WT_U; eauto|exact X]).
      exists (s' ++ t), v2.
      split; [eapply bss_snoc; eauto|]. split; [eapply ue_keep; eauto; intros [X _]; eapply WT_U; eauto|]. split; [exact R2|].
      destruct (WT_token _ _ _ K Bs) as [[-> Uw]|Kw]; [right|left; split; [exact Kw|apply pruned_app; [exact Es|apply pruned_refl]]].
      split; [exact Uw|]. exists s, s', v, u. auto 12.
    + destruct P as [s0 [s0' [v0 [u0 [-> [-> [Pr [B0 [B01 [K0 [Ku [R0 Bu]]]]]]]]]]]].
      destruct (drop_dec u t) as [[nm [-> [Ng Cl]]]|Nd].
      * exists s0', v0. split; [exact B0|]. split; [exact B01|].
        assert (Ue' : auto_fix_unexpected_endtag (d_parse_options u) = true) by (rewrite (s_opts _ _ S); exact Ue).
        pose proof (bs_drop u nm U Ng Cl Ue') as Bd. destruct (reach _ _ _ B) as [_ Rp]. rewrite (bstep_det _ _ _ _ Rp Bs Bd) in *.
        match goal with |- context [srel o ?x v0] => set (x0 := x) in * end.
        destruct (sr_view _ _ _ R0) as [l [z [l' [z' [V [V' [E M]]]]]]]. destruct (sr_ok _ _ _ R0) as [S0 S0'].
        destruct (view_lt o u0 S0 Ku l z V) as [u1 [Bu1 [Uu1 [Vu1 [Su1 [Cu1 Tu1]]]]]]. rewrite (step_det _ _ _ _ Ku Bu1 Bu) in *. clear u1 Bu1 Uu1.
        pose proof (view_drop o u x0 l z S Sw Vu1 (U_hand _ U) ltac:(discriminate) eq_refl eq_refl eq_refl) as Vx.
        cbn [x0 W_of d_current_node] in Vx. fold x0 in Vx. rewrite (s_opts _ _ S) in Vx. specialize (Vx eq_refl).
        assert (Sx : sk x0 = sk u).
        { unfold sk, x0, metas. cbn [W_of d_heap d_chain_nodes d_in_special d_mark_char d_id_tags d_parse_options].
          rewrite (map_ext_in (fun i => n_meta (hget (dropped_heap u) i)) (fun i => n_meta (hget (d_heap u) i))); [reflexivity|].
          intros i Hi. unfold dropped_heap. rewrite hget_app_old; [reflexivity|]. eapply chain_type; [exact S|exact Hi]. }
        split.
        -- constructor.
           ++ auto.
           ++ split; [intro X; congruence|apply (sr_nt _ _ _ R0)].
           ++ rewrite Sx, Su1. apply (sr_sk _ _ _ R0).
           ++ right. split; [left; apply W_of_W|exact K0].
           ++ destruct (auto_fix_unclosed_tag o).
              ** exists l, z, l', z'. split; [exact Vx|]. split; [exact V'|]. split; [exact E|]. left. split; [exact Nu|congruence].
              ** exists (l ++ z), [], l', z'. split; [exact Vx|]. split; [exact V'|]. split; [rewrite app_nil_r; exact E|]. left. split; [exact Nu|congruence].
        -- left. split; [left; apply W_of_W|]. rewrite <- (app_nil_r s0'), <- app_assoc. apply pruned_app; [exact Pr|].
           change ([TAG_BEGIN_CHAR] ++ str "/" ++ nm ++ str ">") with (str "</" ++ nm ++ str ">"). rewrite <- (app_nil_r (str ">")).
           apply prune_end; [exact Ng|constructor].
      * exists ((s0' ++ [TAG_BEGIN_CHAR]) ++ t), v2. split; [eapply bss_snoc; eauto|].
        split; [eapply ue_keep; eauto|split; [exact R2|]].
        -- intros [_ [_ [nm [-> [Ng Cl]]]]]. apply Nd. exists nm. split; [reflexivity|]. split; [exact Ng|].
           eapply closes_same; [|exact Cl]. symmetry. apply (sr_sk _ _ _ R).
        -- left. split; [|rewrite <- !app_assoc; apply pruned_app; [exact Pr|apply pruned_refl]].
           destruct (char_dec t) as [[c [-> Sc]]|Nt]; [|eapply U_token; eauto]. exfalso.
           assert (X : auto_fix_unescaped_lt (d_parse_options u) = true).
           { destruct (retarget true true u [c] w Bs) as [[_ [X _]]|[[X _]|X]]; [rewrite (s_opts _ _ S); auto|exact X|discriminate|].
             clear X. remember [c] as t eqn:Et. destruct Bs; auto; exfalso; destruct Sc as [N1 [N2 N3]];
               try (solve [apply (U_not_W _ U); assumption|apply (U_not_T _ U); assumption]);
               try (match goal with O : open_name _ |- _ => destruct O as [c0 [n0 [-> [Al _]]]]; injection Et as -> _; congruence end);
               try subst src; injection Et as Et; congruence. }
           rewrite (s_opts _ _ S) in X. congruence.
Qed.
End Prune.

(** ** The ends of two runs with the same listing *)
Lemma reached_end : forall o s st l z, bsteps (doc_new o) s st -> is_WT st -> view o st l z -> at_end o st (l ++ z).
Proof. intros. eapply end_WT; eauto. Qed.
Lemma two_ends : forall o o' st st' P d, at_end o st P -> at_end o' st' P -> is_WT st' -> metas st = metas st' -> map fst (d_id_tags st) = map fst (d_id_tags st') ->
  auto_fix_unclosed_tag o' = auto_fix_unclosed_tag o -> eof st = ROk d ->
  exists d', eof st' = ROk d' /\ fixed_names d' = fixed_names d /\ map fst (d_id_tags d') = map fst (d_id_tags d) /\
    (forall t t', doc_tree d = Some t -> doc_tree d' = Some t' -> stream t' = stream t).
Proof.
  intros o o' st st' P d [E T V N] [E' T' V' N'] K M I Uc H. destruct (eof_inv _ _ H) as [L [C [_ [_ [Hi _]]]]].
  assert (X : exists d', eof st' = ROk d').
  { rewrite (e_opts _ _ E) in L. apply eof_succeeds; rewrite ?(e_opts _ _ E').
    - rewrite <- metas_length, <- M, metas_length, Uc. exact L.
    - destruct K as [[_ [[-> | ->] _]]|[_ [-> _]]]; exact Logic.I. }
  destruct X as [d' H']. exists d'. split; [exact H'|]. destruct (eof_inv _ _ H') as [_ [_ [_ [_ [Hi' _]]]]].
  split; [rewrite (end_names _ _ _ E N H), (end_names _ _ _ E' N' H'), M; reflexivity|].
  split; [rewrite Hi, Hi'; auto|].
  intros t t' D D'. rewrite (end_stream _ _ _ _ _ E T V H D), (end_stream _ _ _ _ _ E' T' V' H' D'), M. reflexivity.
Qed.
Lemma at_end_fix : forall ue lt o s st P, at_end o st P -> bsteps (doc_new (fix_opts ue lt o)) s (set_fix ue lt st) -> is_WT st ->
  at_end (fix_opts ue lt o) (set_fix ue lt st) P.
Proof.
  intros ue lt o s st P [E T V N] B K. constructor; [|exact T|exact V|exact N]. apply sok_ending; [apply (bsteps_sok _ _ _ B)|exact K].
Qed.
Lemma srel_ends : forall o s s' u v, bsteps (doc_new o) s u -> bsteps (doc_new o) s' v -> srel o u v -> is_WT u ->
  exists P, at_end o u P /\ at_end o v P /\ is_WT v /\ metas u = metas v /\ map fst (d_id_tags u) = map fst (d_id_tags v).
Proof.
  intros o s s' u v B B' R K. destruct (sr_kind _ _ _ R) as [[X _]|[_ K']]; [exfalso; eapply WT_U; eauto|].
  destruct (sr_view _ _ _ R) as [l [z [l' [z' [V [V' [E M]]]]]]]. destruct (sk_metas _ _ (sr_sk _ _ _ R)) as [Em [_ [_ [Ei _]]]].
  exists (l ++ z). split; [eapply end_WT; eauto|]. split; [rewrite E; eapply end_WT; eauto|]. auto.
Qed.

Record same_ends (o : parse_options) (st : doc) (o' : parse_options) (st' : doc) : Prop := mkSame {
  se_end : exists P, at_end o st P /\ at_end o' st' P;
  se_wt : is_WT st';
  se_metas : metas st = metas st';
  se_ids : map fst (d_id_tags st) = map fst (d_id_tags st')
}.
Lemma stage1 : forall o s st, bsteps (doc_new o) s st -> is_WT st -> d_chain_nodes st <> [] -> (auto_fix_unescaped_lt o = true -> lt_outside_raw o s) ->
  exists s1 st1, bsteps (doc_new (fix_opts (auto_fix_unexpected_endtag o) false o)) s1 st1 /\ escaped s s1 /\ (auto_fix_unescaped_lt o = false -> s1 = s) /\
    same_ends o st (fix_opts (auto_fix_unexpected_endtag o) false o) st1 /\ d_chain_nodes st1 <> [].
Proof.
  intros o s st B K Ne Lr. destruct (auto_fix_unescaped_lt o) eqn:Lt.
  - destruct (mend o Lt s (Lr eq_refl) s st B []) as [s1 [v [Bv [Bv1 [R D]]]]]; [rewrite app_nil_r; reflexivity|exact Ne|].
    destruct D as [[_ Es]|[U _]]; [|exfalso; eapply WT_U; eauto].
    destruct (srel_ends _ _ _ _ _ B Bv R K) as [P [A1 [A2 [K2 [Em Ei]]]]].
    exists s1, (set_fix (auto_fix_unexpected_endtag o) false v). split; [exact Bv1|]. split; [exact Es|]. split; [discriminate|].
    split; [|change (d_chain_nodes v <> []); eapply metas_ne; [apply (sr_sk _ _ _ R)|exact Ne]].
    constructor; [|exact K2|exact Em|exact Ei]. exists P. split; [exact A1|]. eapply at_end_fix; eauto.
  - assert (Eo : fix_opts (auto_fix_unexpected_endtag o) false o = o) by (destruct o; cbn in *; subst; reflexivity). rewrite Eo.
    exists s, st. split; [exact B|]. split; [apply escaped_refl|]. split; [reflexivity|]. split; [|exact Ne].
    destruct (srel_ends _ _ _ _ _ B B (srel_refl _ _ _ B) K) as [P [A1 [A2 [K2 [Em Ei]]]]]. constructor; auto. exists P. auto.
Qed.
Lemma stage2 : forall o s st, bsteps (doc_new o) s st -> is_WT st -> d_chain_nodes st <> [] -> auto_fix_unescaped_lt o = false ->
  exists s1 st1, bsteps (doc_new (fix_opts false false o)) s1 st1 /\ pruned s s1 /\ (auto_fix_unexpected_endtag o = false -> s1 = s) /\
    same_ends o st (fix_opts false false o) st1.
Proof.
  intros o s st B K Ne Lt. destruct (auto_fix_unexpected_endtag o) eqn:Ue.
  - destruct (prune o Lt Ue s st B Ne) as [s1 [v [Bv [Bv1 [R D]]]]].
    destruct D as [[_ Es]|[U _]]; [|exfalso; eapply WT_U; eauto].
    destruct (srel_ends _ _ _ _ _ B Bv R K) as [P [A1 [A2 [K2 [Em Ei]]]]].
    exists s1, (set_fix false false v). split; [exact Bv1|]. split; [exact Es|]. split; [discriminate|].
    constructor; [|exact K2|exact Em|exact Ei]. exists P. split; [exact A1|]. eapply at_end_fix; eauto.
  - assert (Eo : fix_opts false false o = o) by (destruct o; cbn in *; subst; reflexivity). rewrite Eo.
    exists s, st. split; [exact B|]. split; [apply pruned_refl|]. split; [reflexivity|].
    destruct (srel_ends _ _ _ _ _ B B (srel_refl _ _ _ B) K) as [P [A1 [A2 [K2 [Em Ei]]]]]. constructor; auto. exists P. auto.
Qed.

(** ** End tags have no attributes *)
Lemma end_meta : forall o s d i, parse o s = Parsed d -> n_type (hget (d_heap d) i) = NTagEnd -> n_meta (hget (d_heap d) i) = None.
Proof.
  intros o s d i H T. destruct (n_meta (hget (d_heap d) i)) as [m|] eqn:M; [|reflexivity]. exfalso.
  destruct (parsed_final _ _ _ H) as [st [E [P [F _]]]]. destruct (final_meta _ _ _ _ _ _ P F M) as [m0 [L [Em _]]].
  assert (X : forall t, ~ textual t -> t <> NTagEnd -> t <> NAbstractRoot -> ty (d_heap st) i = t -> False).
  { intros t T1 T2 T3 Y. apply (final_ty _ _ _ i t F E T1 T2 T3) in Y. unfold ty in Y. congruence. }
  destruct (meta_type _ _ _ _ _ P Em) as [Y|Y]; eapply X; try exact Y; try discriminate; apply not_textual; reflexivity.
Qed.
Definition ends_bare (t : tree) : Prop := forall x e, sub x t -> t_end_tag x = Some e -> t_type e = NTagEnd /\ t_meta e = None /\ t_childs e = None /\ t_end_tag e = None.
Lemma tree_bare : forall o s d t, parse o s = Parsed d -> tree_in d t -> ends_bare t.
Proof.
  intros o s d t H I x e Sx He. destruct (tree_in_sub _ _ _ I Sx) as [f [i [D T]]]. destruct (tree_inv _ _ _ _ T) as [_ [_ [_ [_ [_ [K _]]]]]].
  destruct (K e He) as [f' [j [Tj Ej]]]. destruct (tree_inv _ _ _ _ Tj) as [A [_ [C [Kc [Ke _]]]]].
  destruct (parsed_hs _ _ _ H) as [HS _]. destruct (hs_end _ _ HS _ _ Ej) as [_ [Te _]]. unfold ty in Te.
  split; [congruence|]. split; [rewrite C; eapply end_meta; eauto|]. split.
  - apply Kc. destruct (n_childs (hget (d_heap d) j)) as [l|] eqn:E; [|reflexivity]. destruct l as [|k l]; [exfalso; apply (hs_some _ _ HS _ _ E); reflexivity|].
    assert (Ik : In k (kids (d_heap d) j)) by (unfold kids; rewrite E; left; reflexivity).
    apply (hs_kids _ _ HS) in Ik. destruct Ik as [_ [_ X]]. unfold container, ty in X. rewrite Te in X. intuition discriminate.
  - apply Ke. destruct (n_end_tag (hget (d_heap d) j)) as [e'|] eqn:E; [|reflexivity]. apply (hs_end _ _ HS) in E. destruct E as [_ [_ [_ X]]]. unfold ty in X. congruence.
Qed.
Lemma own_alike : forall t t' c m m', type_alike t t' -> meta_alike m m' -> own t' c m' = own t c m.
Proof.
  intros t t' c m m' [<-|[[-> | ->] [-> | ->]]] M; try reflexivity. unfold own. unfold meta_alike in M. rewrite M. reflexivity.
Qed.
Lemma alike_stream : forall t t', alike t t' -> ends_bare t -> ends_bare t' -> stream t' = stream t.
Proof.
  intro t. induction t as [i ty b e et c ks m _ Hks] using tree_ind'. intros t' A B B'.
  assert (En : forall et' i' ty' b' e' c' ks' m', t' = TNode i' ty' b' e' et' c' ks' m' -> end_alike et et' ->
    match et' with Some e => own (t_type e) (t_content e) (t_meta e) | None => [] end = match et with Some e => own (t_type e) (t_content e) (t_meta e) | None => [] end).
  { intros et' i' ty' b' e' c' ks' m' -> E. destruct et as [x|], et' as [x'|]; try contradiction; [|reflexivity]. destruct E as [E1 [E2 E3]].
    destruct (B _ x (sub_refl _) eq_refl) as [_ [-> _]]. destruct (B' _ x' (sub_refl _) eq_refl) as [_ [-> _]]. rewrite E1, E2, E3. reflexivity. }
  inversion A as [? ? ? ? ? ? ? ? ? ? ? Ty Ea Ee Me|? ? ? ? ? ? ? ? ? l l' ? ? Ty Ea Ee Me Fk]; subst; cbn [stream];
    rewrite (own_alike _ _ c _ _ Ty Me), (En _ _ _ _ _ _ _ _ eq_refl Ee); [reflexivity|].
  f_equal. f_equal. cbn [optP] in Hks.
  assert (Bl : forall k, In k l -> ends_bare k) by (intros k X x e0 Sx; apply B; eapply sub_child; [reflexivity|exact X|exact Sx]).
  assert (Bl' : forall k, In k l' -> ends_bare k) by (intros k X x e0 Sx; apply B'; eapply sub_child; [reflexivity|exact X|exact Sx]).
  clear - Hks Fk Bl Bl'. induction Fk as [|k k' l l' K Fk IH]; [reflexivity|]. inversion Hks as [|? ? Hk Hl]; subst. cbn [flat_map].
  rewrite (Hk k' K (Bl k (or_introl eq_refl)) (Bl' k' (or_introl eq_refl))). f_equal. apply IH; auto; intros; [apply Bl|apply Bl']; right; assumption.
Qed.

(** ** Doctypes *)
Lemma node_tree : forall o s d t, parse o s = Parsed d -> doc_tree d = Some t -> forall i, in_doc (d_heap d) (d_root d) i ->
  exists f x, tree_of f (d_heap d) i = Some x /\ sub x t.
Proof.
  assert (Tr : forall y x t, sub x t -> sub y x -> sub y t).
  { intros y x t Sx. revert y. induction Sx as [t|x t ks k Hk Ik Sx IH|x t e He Sx IH]; intros y Sy; [exact Sy|eapply sub_child; eauto|eapply sub_end; eauto]. }
  intros o s d t H T i [w P]. induction P as [|w p x k P [f [y [Ty Sy]]] L].
  - exists (length (d_heap d)), t. split; [exact T|constructor].
  - destruct (tree_inv2 _ _ _ _ Ty) as [f' [_ [_ [_ [_ [_ [Ke Kk]]]]]]]. exists f'. inversion L; subst.
    + assert (Q : exists z, tree_of f' (d_heap d) k = Some z /\ In z (child_list y)).
      { unfold kids in Kk. rewrite H0 in Kk. apply nth_error_In in H1. clear - Kk H1. induction Kk as [|j z l l' J Kk IH]; [destruct H1|].
        destruct H1 as [<-|X]; [exists z; split; [exact J|left; reflexivity]|]. destruct (IH X) as [z' [A B]]. exists z'. split; [exact A|right; exact B]. }
      destruct Q as [z [Tz Iz]]. exists z. split; [exact Tz|]. unfold child_list in Iz. destruct (t_childs y) as [ks|] eqn:E; [|destruct Iz].
      eapply Tr; [exact Sy|]. eapply sub_child; [exact E|exact Iz|constructor].
    + destruct (Ke _ H0) as [e [Ee Te]]. exists e. split; [exact Te|]. eapply Tr; [exact Sy|]. eapply sub_end; [exact Ee|constructor].
Qed.
Lemma sub_in_stream : forall t, ends_bare t -> forall x, sub x t -> t_type x = NHTMLDOCTYPE -> In (AMark NHTMLDOCTYPE (t_content x) (option_map (mset_auto_fix false) (t_meta x))) (stream t).
Proof.
  intros t B x S Tx. revert B. induction S as [t|x t ks k Hk Ik Sx IH|x t e He Sx IH]; intro B.
  - destruct t as [i ty b e et c ks m]. cbn in Tx |- *. subst ty. left. reflexivity.
  - specialize (IH Tx). destruct t as [i ty b e et c ks' m]. cbn in Hk |- *. subst ks'. apply in_or_app. right. apply in_or_app. left.
    apply in_flat_map. exists k. split; [exact Ik|]. apply IH. intros y e0 Sy. apply B. eapply sub_child; [reflexivity|exact Ik|exact Sy].
  - exfalso. destruct (B t e (sub_refl _) He) as [Te [_ [Tc Tt]]]. inversion Sx; subst; congruence.
Qed.
Lemma stream_in_sub : forall t c m, In (AMark NHTMLDOCTYPE c m) (stream t) -> ends_bare t ->
  exists x, sub x t /\ t_type x = NHTMLDOCTYPE /\ t_content x = c /\ option_map (mset_auto_fix false) (t_meta x) = m.
Proof.
  assert (Ow : forall t c m c0 m0, In (AMark NHTMLDOCTYPE c m) (own t c0 m0) -> t = NHTMLDOCTYPE /\ c0 = c /\ option_map (mset_auto_fix false) m0 = m).
  { intros t c m c0 m0 I. destruct t; cbn in I; try (destruct I as [I|[]]; try discriminate; injection I as <- <-; auto);
      try (apply in_map_iff in I; destruct I as [? [I _]]; discriminate); destruct I. }
  intros t c m. induction t as [i ty b e et c0 ks m0 _ Hks] using tree_ind'. intros I B. cbn [stream] in I.
  apply in_app_or in I. destruct I as [I|I]; [|apply in_app_or in I; destruct I as [I|I]].
  - destruct (Ow _ _ _ _ _ I) as [-> [-> <-]]. eexists. split; [constructor|]. auto.
  - destruct ks as [l|]; [|destruct I]. apply in_flat_map in I. destruct I as [k [Ik I]]. cbn [optP] in Hks. rewrite Forall_forall in Hks.
    destruct (Hks k Ik I) as [x [Sx X]]; [intros y e0 Sy; apply B; eapply sub_child; [reflexivity|exact Ik|exact Sy]|].
    exists x. split; [eapply sub_child; [reflexivity|exact Ik|exact Sx]|exact X].
  - destruct et as [e0|]; [|destruct I]. destruct (Ow _ _ _ _ _ I) as [T _]. destruct (B _ e0 (sub_refl _) eq_refl). congruence.
Qed.
(** Every doctype of one document is, up to the mark of repairs, a doctype of the other. *)
Lemma same_doctypes : forall o s d o' s' d' t t', parse o s = Parsed d -> parse o' s' = Parsed d' -> doc_tree d = Some t -> doc_tree d' = Some t' ->
  stream t' = stream t -> forall x' m', sub x' t' -> t_type x' = NHTMLDOCTYPE -> t_meta x' = Some m' ->
  exists x m, sub x t /\ t_type x = NHTMLDOCTYPE /\ t_meta x = Some m /\ m_attrs m = m_attrs m' /\ m_self_closed m = m_self_closed m'.
Proof.
  intros o s d o' s' d' t t' H H' D D' E x' m' Sx Tx Mx.
  destruct (doc_tree_in _ _ _ _ H D) as [I _]. destruct (doc_tree_in _ _ _ _ H' D') as [I' _].
  pose proof (sub_in_stream t' (tree_bare _ _ _ _ H' I') x' Sx Tx) as X. rewrite E, Mx in X.
  destruct (stream_in_sub _ _ _ X (tree_bare _ _ _ _ H I)) as [x [A [B [_ M]]]]. destruct (t_meta x) as [m|] eqn:Em; [|discriminate M].
  exists x, m. split; [exact A|]. split; [exact B|]. split; [exact Em|]. destruct m, m'. cbn in M. injection M as -> -> -> -> -> ->. auto.
Qed.
Lemma same_open_doctypes : forall o s d o' s' d', parse o s = Parsed d -> parse o' s' = Parsed d' -> same_stream d d' -> open_doctypes d -> open_doctypes d'.
Proof.
  intros o s d o' s' d' H H' [t [t' [D [D' E]]]] O i m T M.
  assert (L : i < length (d_heap d')).
  { destruct (Nat.lt_ge_cases i (length (d_heap d'))) as [X|X]; [exact X|]. rewrite hget_default in M by exact X. discriminate. }
  destruct (graph_tree _ _ _ H') as [_ [_ [G _]]]. destruct (node_tree _ _ _ _ H' D' i (G i L ltac:(congruence))) as [f [x' [Tx Sx]]].
  destruct (tree_inv _ _ _ _ Tx) as [A [_ [C _]]]. rewrite <- A in T. rewrite <- C in M.
  destruct (same_doctypes _ _ _ _ _ _ _ _ H H' D D' E x' m Sx T M) as [x [m0 [S0 [T0 [M0 [_ <-]]]]]].
  destruct (doc_tree_in _ _ _ _ H D) as [I _]. destruct (tree_in_sub _ _ _ I S0) as [f0 [j [_ Tj]]]. destruct (tree_inv _ _ _ _ Tj) as [A0 [_ [C0 _]]].
  apply (O j m0); congruence.
Qed.
Lemma same_full_doctypes : forall o s d o' s' d', parse o s = Parsed d -> parse o' s' = Parsed d' -> same_stream d d' -> full_doctypes d -> full_doctypes d'.
Proof.
  intros o s d o' s' d' H H' [t [t' [D [D' E]]]] O r x m R Sx T M. rewrite D' in R. injection R as <-.
  destruct (same_doctypes _ _ _ _ _ _ _ _ H H' D D' E x m Sx T M) as [y [m0 [S0 [T0 [M0 [<- _]]]]]]. exact (O t y m0 D S0 T0 M0).
Qed.

(** ** All repairs by hand *)
Theorem repaired_source : forall o s d, parse o s = Parsed d -> ~ cut_short o s d -> open_doctypes d -> (auto_fix_unescaped_lt o = true -> lt_outside_raw o s) ->
  exists s1 s2 d', escaped s s1 /\ (auto_fix_unescaped_lt o = false -> s1 = s) /\
    pruned s1 s2 /\ (auto_fix_unexpected_endtag o = false -> s2 = s1) /\
    parse (no_repairs o) (s2 ++ closers (rev (fixed_names d))) = Parsed d' /\ same_stream d d' /\ map fst (d_id_tags d') = map fst (d_id_tags d).
Proof.
  intros o s d H Nc Od Lr. destruct (cut_case _ _ _ (parsed_res _ _ _ H)) as [[st [B [R He]]]|X]; [|contradiction].
  assert (K : is_WT st) by (destruct R as [R|R]; [left|right]; exact R).
  assert (E : ending o st) by (apply sok_ending; [apply (bsteps_sok _ _ _ B)|exact R]).
  assert (Ne : d_chain_nodes st <> []).
  { intro X. apply (proj1 (open_doctypes_spec _) Od). eapply final_popping; [exact E|apply finish; [exact E|exact He]|]. eapply chain_popping; eauto. }
  destruct (stage1 _ _ _ B K Ne Lr) as [s1 [st1 [B1 [E1 [L1 [[[P1 [A1 A1']] K1 M1 I1] Ne1]]]]]].
  destruct (stage2 _ _ _ B1 K1 Ne1 eq_refl) as [s2 [st2 [B2 [E2 [L2 [[P2 [A2 A2']] K2 M2 I2]]]]]].
  change (fix_opts false false (fix_opts _ false o)) with (fix_opts false false o) in *.
  destruct (two_ends _ _ _ _ _ d A1 A1' K1 M1 I1 eq_refl He) as [d1 [He1 [F1 [Id1 S1]]]].
  destruct (two_ends _ _ _ _ _ d1 A2 A2' K2 M2 I2 eq_refl He1) as [d2 [He2 [F2 [Id2 S2]]]].
  assert (R2 : is_W st2 \/ is_T st2) by exact K2.
  destruct (closed_strict_at _ _ _ _ B2 R2 He2 eq_refl) as [d' [t2 [t' [P' [D2 [D' [Al Id']]]]]]].
  exists s1, s2, d'. split; [exact E1|]. split; [exact L1|]. split; [exact E2|]. split; [exact L2|].
  split; [rewrite <- F1, <- F2; exact P'|]. split; [|congruence].
  pose proof (at_parse _ _ _ _ B1 He1) as H1. pose proof (at_parse _ _ _ _ B2 He2) as H2.
  destruct (has_tree _ _ _ H) as [t D]. destruct (has_tree _ _ _ H1) as [t1 D1]. exists t, t'. split; [exact D|]. split; [exact D'|].
  rewrite <- (S1 t t1 D D1), <- (S2 t1 t2 D1 D2). destruct (doc_tree_in _ _ _ _ H2 D2) as [Ti2 _]. destruct (doc_tree_in _ _ _ _ P' D') as [Ti' _].
  apply alike_stream; [exact Al|exact (tree_bare _ _ _ _ H2 Ti2)|exact (tree_bare _ _ _ _ P' Ti')].
Qed.
Theorem repaired_renders : forall o s d env ro, parse o s = Parsed d -> ~ cut_short o s d -> open_doctypes d ->
  (auto_fix_unescaped_lt o = true -> lt_outside_raw o s) -> stream_options ro ->
  exists s1 s2 d', escaped s s1 /\ pruned s1 s2 /\ parse (no_repairs o) (s2 ++ closers (rev (fixed_names d))) = Parsed d' /\ render env ro d' = render env ro d.
Proof.
  intros o s d env ro H Nc Od Lr So. destruct (repaired_source _ _ _ H Nc Od Lr) as [s1 [s2 [d' [E1 [_ [E2 [_ [P [S _]]]]]]]]].
  exists s1, s2, d'. split; [exact E1|]. split; [exact E2|]. split; [exact P|]. eapply stream_renders; eauto.
Qed.
Theorem repaired_stable : forall o s d env, parse o s = Parsed d -> ~ cut_short o s d -> open_doctypes d ->
  (auto_fix_unescaped_lt o = true -> lt_outside_raw o s) -> allow_attr_key_starts_with_equal_sign o = false -> full_doctypes d ->
  exists out d', render env default_ro d = ROk out /\ parse (no_repairs o) out = Parsed d' /\ render env default_ro d' = ROk out.
Proof.
  intros o s d env H Nc Od Lr Eq Fd. destruct (repaired_source _ _ _ H Nc Od Lr) as [s1 [s2 [d1 [_ [_ [_ [_ [P [S _]]]]]]]]].
  destruct (reparse (no_repairs o) _ _ env P (conj eq_refl (conj eq_refl eq_refl)) (same_open_doctypes _ _ _ _ _ _ H P S Od) Eq
    (same_full_doctypes _ _ _ _ _ _ H P S Fd)) as [out [d' [f [R1 [P' [_ [_ R2]]]]]]].
  exists out, d'. split; [|auto]. rewrite <- R1. symmetry. eapply stream_renders; eauto. repeat split.
Qed.
