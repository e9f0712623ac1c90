(** Parsed documents and the texts they are written as: both directions. *)
From Coq Require Import String.
From Verif Require Import Api SpecText SpecParse SpecMisc SpecTree TextProofs NameProofs MiscProofs SpecDoc HeapLemmas
  InvCtl CtlEnd CtlRun Big BigSteps Replay RawText Area Struct Frame CloseInv Shape Real Sim Tok StructEnd Final DocEnd DocTree.
Local Open Scope string_scope.
Local Open Scope list_scope.

(** ** Big steps are runs *)
Lemma run_app2 : forall a b st, run st (a ++ b) = (do st' <- run st a; run st' b).
Proof.
  induction a as [|c a IH]; intros b st; [reflexivity|]. cbn. destruct (next st c); cbn; auto.
Qed.
Lemma reach : forall opts s st, bsteps (doc_new opts) s st -> run (doc_new opts) s = ROk st /\ replays st.
Proof.
  intros opts s st B.
  assert (Rp : forall s st, bsteps (doc_new opts) s st -> run (doc_new opts) s = ROk st -> replays st).
  { clear s st B. intros s st B R.
    pose proof (run_ok s opts [] (doc_new opts) (init_ok opts)) as C. rewrite R in C. cbn [app] in C.
    pose proof (bsteps_sok _ _ _ B) as S. pose proof (bsteps_ready _ _ _ B (or_introl (init_W opts))) as Rd.
    constructor.
    - apply S.
    - intros i Hi. exact (chain_ok_in _ _ _ i (s_chain _ _ S) Hi).
    - intros tag rest E Nr. pose proof (s_chain _ _ S) as Ch. rewrite E in Ch. destruct rest as [|p rest]; [congruence|].
      assert (N0 : tag <> 0) by (cbn in Ch; lia).
      destruct (k_chain_meta _ _ _ (proj1 C) tag) as [X|[X _]]; [rewrite E; left; reflexivity|exact N0| |].
      + unfold name_of, mt in X. unfold get_node. destruct (n_meta (hget (d_heap st) tag)); [discriminate|]. cbn in X. congruence.
      + destruct Rd as [[Y _]|[[Y _]|[Y _]]]; congruence.
    - eapply ctl_not_spaces; eauto.
    - intro nm. apply (nu_end opts). exact S. }
  remember (doc_new opts) as st0 eqn:E. induction B as [st|st s st' t st'' B IH Bs].
  - subst. split; [reflexivity|]. apply (Rp []); [constructor|reflexivity].
  - specialize (IH E). destruct IH as [R P]; [exact Rp|]. subst st.
    assert (R2 : run (doc_new opts) (s ++ t) = ROk st'').
    { rewrite run_app2, R. cbn [rbind]. apply replay; assumption. }
    split; [exact R2|]. apply (Rp (s ++ t)); [|exact R2]. econstructor; eauto.
Qed.

(** ** Frames and tokens *)
Lemma framed_sh : forall h ch ex F, opens h ch ex F -> framed (sh F).
Proof.
  intros h ch ex F O. induction O as [i x tg it l Et On K Fo|i j ch x tg it l fr Nt On K Fo O2 IH]; cbn; [exact Et|].
  destruct fr as [|f fr]; [inversion O2|]. cbn in *. split; assumption.
Qed.
Lemma framed_ne : forall P, framed P -> P <> [].
Proof. intros [|p P] H; [destruct H|discriminate]. Qed.
Lemma ftoks_grow : forall opts k P s s', framed P -> nest opts k (mkNest (pnames P) s) = Some s' ->
  ftoks (grow k P) = ftoks P ++ [k].
Proof.
  intros opts k P s s' F N. pose proof (framed_ne _ F) as Ne. destruct k; cbn [grow]; try (rewrite ftoks_add by exact Ne; reflexivity).
  - cbn [ftoks head_toks]. destruct P; reflexivity.
  - destruct P as [|[[[n a]|] l] r]; [congruence| |].
    + destruct r as [|p r]; [discriminate F|]. rewrite ftoks_add by discriminate.
      remember (p :: r) as P. cbn [ftoks head_toks tokens]. rewrite <- !app_assoc. cbn [app]. reflexivity.
    + exfalso. destruct r as [|p r]; [|cbn in F; destruct F; congruence]. cbn in N. discriminate.
Qed.

(** ** Reading *)
Definition at_rest (opts : parse_options) (s : list char) (st : doc) : Prop :=
  exists ks f frs, source opts ks s /\ last_text ks = false /\ ks = ftoks (sh (f :: frs)) /\
    nest_all opts ks (mkNest [] None) = Some (nst st (sh (f :: frs))) /\ simW st f frs.
Definition in_text (opts : parse_options) (s : list char) (st : doc) : Prop :=
  exists ks s0 f frs, s = s0 ++ d_prev_chars st /\ d_prev_chars st <> [] /\ ~ In 60%N (d_prev_chars st) /\
    source opts ks s0 /\ last_text ks = false /\ ks = ftoks (sh (f :: frs)) /\
    nest_all opts ks (mkNest [] None) = Some (nst st (sh (f :: frs))) /\ simT st f frs.
Definition after_lt (opts : parse_options) (s : list char) (st : doc) : Prop :=
  exists ks s0 f frs, s = s0 ++ [60%N] /\
    source opts ks s0 /\ ks = ftoks (sh (f :: frs)) /\
    nest_all opts ks (mkNest [] None) = Some (nst st (sh (f :: frs))) /\ simU st f frs.
Definition reads (opts : parse_options) (s : list char) (st : doc) : Prop :=
  (is_W st /\ at_rest opts s st) \/ (is_T st /\ in_text opts s st) \/ (is_U st /\ after_lt opts s st).

Lemma init_sim : forall opts, simW (doc_new opts) (mkFr None []) [].
Proof.
  intro opts. constructor; cbn.
  - repeat constructor.
  - eapply op_root with (l := []); try reflexivity; [|constructor]. repeat split. cbn. lia.
  - reflexivity.
  - reflexivity.
  - discriminate.
  - intros [|x l] i c X; discriminate.
Qed.

Lemma written_last : forall ks k, is_ktext k = false -> last_text (ks ++ [k]) = false.
Proof. intros. rewrite last_text_snoc. assumption. Qed.

(** The pending text, completed. *)
Definition lt_of (st : doc) : doc :=
  mkDoc CUnkownTag (d_position st + 1) (d_position st) None [] (d_mark_char st) (d_chain_nodes st)
    (d_current_node st) (d_in_special st) (d_repeat_whitespace st)
    (if d_repeat_whitespace st then Some (d_current_node st) else None) HUnkownTag
    (d_parse_options st) (d_root st) (d_id_tags st)
    (hupd (hupd (d_heap st) (d_current_node st) (nset_content (Some (d_prev_chars st))))
       (d_current_node st) (end_info (d_position st))).
Lemma text_sim : forall st f frs, simT st f frs ->
  simU (lt_of st) (mkFr (f_tag f) (f_items f ++ [YText (d_current_node st) (d_prev_chars st)])) frs.
Proof.
  intros st f frs Si. destruct (t_cur _ _ _ Si) as [C1 [C2 [C3 C4]]]. set (k := d_current_node st) in *.
  eapply sim_text_done; try reflexivity; [exact Si|..]; fold k; cbn [d_heap lt_of].
  - constructor; [rewrite !hupd_length; lia|..]; intros i Hi; fold k.
    + unfold ty. rewrite !(hupd_keep n_type) by reflexivity. reflexivity.
    + rewrite !(hupd_keep n_meta) by reflexivity. reflexivity.
    + intro X. rewrite !hget_hupd_other by (intro Y; apply X; f_equal; congruence). reflexivity.
    + rewrite !(hupd_keep n_childs) by reflexivity. reflexivity.
    + rewrite !(hupd_keep n_end_tag) by reflexivity. reflexivity.
  - fold k. rewrite !hget_hupd_same by (rewrite ?hupd_length; exact C1). reflexivity.
  - fold k. rewrite !hget_hupd_same by (rewrite ?hupd_length; exact C1). exact C4.
Qed.
Lemma text_shape : forall f frs k c, sh (mkFr (f_tag f) (f_items f ++ [YText k c]) :: frs) = grow (KText c) (sh (f :: frs)).
Proof. intros. cbn. rewrite shape_items. reflexivity. Qed.
Lemma text_token : forall opts s st, is_T st -> in_text opts s st ->
  exists ks f frs, source opts ks s /\ ks = ftoks (sh (f :: frs)) /\
    nest_all opts ks (mkNest [] None) = Some (nst st (sh (f :: frs))) /\ simU (lt_of st) f frs.
Proof.
  intros opts s st Ti [ks [s0 [f [frs [-> [Nn [Nl [So [Lt [Ks [Ne Si]]]]]]]]]]].
  exists (ks ++ [KText (d_prev_chars st)]), (mkFr (f_tag f) (f_items f ++ [YText (d_current_node st) (d_prev_chars st)])), frs.
  split; [|split; [|split]].
  - apply source_snoc; [exact So| |rewrite Lt; discriminate]. apply w_text; assumption.
  - rewrite text_shape. rewrite (ftoks_grow opts _ _ None (nst (doc_new opts) (sh (f :: frs)))) by (try reflexivity; eapply framed_sh; apply (t_opens _ _ _ Si)).
    rewrite Ks. reflexivity.
  - rewrite nest_all_app, Ne. reflexivity.
  - apply text_sim. exact Si.
Qed.

Lemma reads_all : forall opts s st, bsteps (doc_new opts) s st -> strict opts -> ~ popping (d_heap st) -> reads opts s st.
Proof.
  intros opts s st B St. remember (doc_new opts) as st0 eqn:E.
  induction B as [st|st s st' t st'' B IH Bs]; intro Ns.
  - subst st. left. split; [apply init_W|]. exists [], (mkFr None []), [].
    split; [constructor|]. split; [reflexivity|]. split; [reflexivity|]. split; [reflexivity|]. apply init_sim.
  - specialize (IH E). subst st. pose proof (bsteps_sok _ _ _ B) as S. destruct (reach _ _ _ B) as [_ Rp].
    assert (Ns' : ~ popping (d_heap st')).
    { intro X. apply Ns. eapply popping_fr; [eapply bstep_fr; eauto|exact X]. }
    specialize (IH Ns'). destruct IH as [[W R]|[[Ti R]|[U R]]].
    + destruct R as [ks [f [frs [So [Lt [Ks [Ne Si]]]]]]].
      destruct Bs; try (exfalso; solve [destruct W as [X _]; match goal with H : is_T _ |- _ => destruct H as [Y _] | H : is_U _ |- _ => destruct H as [Y _] end; congruence]).
      * right. right. split; [repeat split|]. exists ks, s, f, frs.
        split; [reflexivity|]. split; [exact So|]. split; [exact Ks|]. split; [exact Ne|]. eapply sim_wait_lt; eauto.
      * exfalso. rewrite (s_opts _ _ S) in *. destruct St. congruence.
      * right. left. split; [repeat split|]. exists ks, s, f, frs. cbn [d_prev_chars].
        split; [reflexivity|]. split; [discriminate|]. split; [intros [X|[]]; apply H0; exact X|].
        split; [exact So|]. split; [exact Lt|]. split; [exact Ks|]. split; [exact Ne|].
        eapply sim_text_start with (p := p) (rest := rest); eauto; reflexivity.
    + destruct Bs; try (exfalso; solve [destruct Ti as [X _]; match goal with H : is_W _ |- _ => destruct H as [Y _] | H : is_U _ |- _ => destruct H as [Y _] end; congruence]).
      * destruct R as [ks [s0 [f [frs [-> [Nn [Nl [So [Lt [Ks [Ne Si]]]]]]]]]]].
        right. left. split; [repeat split|]. exists ks, s0, f, frs. cbn [d_prev_chars].
        split; [symmetry; apply app_assoc|]. split; [destruct (d_prev_chars st); discriminate|].
        split; [intro X; apply in_app_or in X; destruct X as [X|[X|[]]]; [exact (Nl X)|apply H0; exact X]|].
        split; [exact So|]. split; [exact Lt|]. split; [exact Ks|]. split; [exact Ne|].
        eapply sim_text_char; eauto; reflexivity.
      * right. right. split; [repeat split|].
        destruct (text_token opts s st Ti R) as [ks [f [frs [So [Ks [Ne Si]]]]]].
        exists ks, s, f, frs. auto.
    + destruct (takes_sound opts st' t st'' Bs U S Rp St) as [[k T]|X].
      * destruct T as [_ [W [Wr [Kt T]]]]. destruct R as [ks [s0 [f [frs [-> [So [Ks [Ne Si]]]]]]]].
        destruct (T f frs Si) as [f' [frs' [Si' [Sh Nk]]]].
        left. split; [exact W|]. exists (ks ++ [k]), f', frs'. rewrite <- app_assoc. cbn [app].
        split; [apply source_snoc; auto; intros; exact Kt|].
        split; [apply written_last, Kt|]. split; [|split; [|exact Si']].
        -- rewrite Sh, Ks. symmetry. eapply ftoks_grow; [|exact Nk]. eapply framed_sh, (u_opens _ _ _ Si).
        -- rewrite nest_all_app, Ne. cbn [nest_all]. rewrite Nk. reflexivity.
      * exfalso. exact (Ns X).
Qed.

(** ** Reading out the tree *)
Lemma map_opt_forall2 : forall A B (f : A -> option B) l l', map_opt f l = Some l' -> Forall2 (fun x y => f x = Some y) l l'.
Proof.
  intros A B f. induction l as [|x l IH]; intros l' H; cbn in H; [injection H as <-; constructor|].
  destruct (f x) eqn:E; [|discriminate]. destruct (map_opt f l) eqn:E2; [|discriminate]. injection H as <-. constructor; auto.
Qed.
Lemma tree_inv2 : forall f h i t, tree_of f h i = Some t -> exists f',
  t_type t = n_type (hget h i) /\ t_content t = n_content (hget h i) /\ t_meta t = n_meta (hget h i) /\
  (n_childs (hget h i) = None -> t_childs t = None) /\ (n_end_tag (hget h i) = None -> t_end_tag t = None) /\
  (forall j, n_end_tag (hget h i) = Some j -> exists e, t_end_tag t = Some e /\ tree_of f' h j = Some e) /\
  Forall2 (fun j k => tree_of f' h j = Some k) (kids h i) (child_list t).
Proof.
  intros [|f] h i t H; [discriminate|]. exists f. cbn [tree_of] in H. unfold kids, child_list.
  destruct (n_end_tag (hget h i)) as [e0|] eqn:E; [destruct (tree_of f h e0) as [te|] eqn:Te; [|discriminate]|];
  (destruct (n_childs (hget h i)) as [l|] eqn:C; [destruct (map_opt (tree_of f h) l) as [l'|] eqn:Cl; [|discriminate]|]);
  injection H as <-; cbn; repeat split; try discriminate; try (intros j [= <-]; eauto); try (apply map_opt_forall2; exact Cl); constructor.
Qed.
Lemma end_tree : forall f h i t e, tree_of f h i = Some t -> end_node h i e -> end_is e t.
Proof.
  intros f h i t e T [j [E [_ [Ty [C [B1 [B2 B3]]]]]]].
  destruct (tree_inv2 _ _ _ _ T) as [f' [_ [_ [_ [_ [_ [X _]]]]]]]. destruct (X j E) as [te [Te Tj]].
  exists te. split; [exact Te|]. destruct (tree_inv2 _ _ _ _ Tj) as [f2 [A1 [A2 [A3 [A4 [A5 _]]]]]].
  split; [congruence|]. split; [congruence|]. repeat split; auto. congruence.
Qed.
Lemma bare_tree : forall f h i t, tree_of f h i = Some t -> bare_node (hget h i) -> plain_node t.
Proof.
  intros f h i t T [B1 [B2 B3]]. destruct (tree_inv2 _ _ _ _ T) as [f2 [A1 [A2 [A3 [A4 [A5 _]]]]]].
  repeat split; auto. congruence.
Qed.
Lemma real_tree : forall h i y, real h i y -> forall f t, tree_of f h i = Some t -> depicts (erase (sp h) y) t.
Proof.
  intros h. apply (real_ind2 h (fun i y => forall f t, tree_of f h i = Some t -> depicts (erase (sp h) y) t)).
  intros i y R IH f t T. destruct (tree_inv2 _ _ _ _ T) as [f2 [A1 [A2 [A3 [A4 [A5 [A6 A7]]]]]]].
  destruct R; cbn [erase].
  - apply dp_text; [|congruence|eapply bare_tree; eauto]. rewrite A1. unfold sp, ty. destruct H0 as [->| ->]; reflexivity.
  - apply dp_comment; [congruence|congruence|eapply bare_tree; eauto].
  - apply dp_cdata; [congruence|congruence|eapply bare_tree; eauto].
  - eapply dp_doctype with (m := m); auto; congruence.
  - eapply dp_leaf with (m := m); auto; congruence.
  - eapply dp_raw with (m := m); auto; try congruence. eapply end_tree; eauto.
  - eapply dp_elem with (m := m); auto; try congruence; [eapply end_tree; eauto|].
    specialize (IH _ _ _ _ eq_refl). revert IH A7. generalize (child_list t). clear. intros tl IH A7. revert tl A7.
    induction IH as [|j y l ys P IH IH2]; intros tl A7; inversion A7; subst; constructor; auto. eapply P; eauto.
Qed.

Lemma settled_marked : forall h l, settled h false l -> marked (map (erase (sp h)) l).
Proof.
  intros h l S. unfold marked. rewrite mark_all_list, <- mark_list_plain, map_map.
  rewrite (map_ext _ shape) by (intro; apply plain_erase). symmetry. exact S.
Qed.
Lemma settled_text : forall h l i c b b', settled h b (l ++ [YText i c]) -> settled h b' (l ++ [YText i c]).
Proof.
  intros h l i c b b' S. unfold settled in *. rewrite S, !map_app. cbn [map]. rewrite !mark_list_snoc. reflexivity.
Qed.

(** The document read off the final heap. *)
Lemma content_final : forall opts d f h, hs (auto_fix_unescaped_lt opts) (d_heap d) -> d_root d = 0 ->
  opens h [0] [] [f] -> settled h false (f_items f) -> ev None None None None h (d_heap d) ->
  doc_content d (map (erase (sp h)) (f_items f)) /\ marked (map (erase (sp h)) (f_items f)).
Proof.
  intros opts d f h H R O S E. split; [|apply settled_marked; exact S].
  assert (Sp : forall i, i < length h -> sp (d_heap d) i = sp h i).
  { intros i L. apply (ev_sp _ _ _ _ _ _ i E L). }
  assert (Ct : ck_text None h) by (intros i X; discriminate).
  inversion O as [i x tg it l Et On K F|]; subst. cbn [f_items] in *.
  destruct On as [L [A [B [_ [T M]]]]].
  destruct (tree_of (length (d_heap d)) (d_heap d) 0) as [t|] eqn:Te.
  2:{ exfalso. pose proof (ev_len _ _ _ _ _ _ E). apply (tree_exists _ _ (length (d_heap d)) 0 H); [lia|lia|exact Te]. }
  exists t. unfold doc_tree. rewrite R. split; [exact Te|].
  destruct (tree_inv2 _ _ _ _ Te) as [f2 [A1 [A2 [A3 [A4 [A5 [A6 A7]]]]]]].
  assert (Ty : n_type (hget (d_heap d) 0) = NAbstractRoot).
  { rewrite (ev_type _ _ _ _ _ _ 0 E Ct L); [exact T|]. rewrite T. apply nt; discriminate. }
  split; [congruence|]. split; [rewrite A2, (ev_content _ _ _ _ _ _ E 0 L); [exact A|discriminate]|].
  split; [apply A5; rewrite (ev_end _ _ _ _ _ _ E 0 L); [exact B|discriminate]|].
  split; [rewrite A3, (ev_meta _ _ _ _ _ _ E 0 L); exact M|].
  assert (Kd : kids (d_heap d) 0 = l).
  { unfold kids. rewrite (ev_childs _ _ _ _ _ _ E 0 L) by discriminate. fold (kids h 0). rewrite K. apply app_nil_r. }
  rewrite Kd in A7.
  assert (F' : Forall2 (real (d_heap d)) l it).
  { eapply reals_ev; eauto. intros j _. repeat split; discriminate. }
  rewrite (map_ext_in _ (erase (sp (d_heap d)))).
  2:{ intros y Hy. apply erase_ext. intros j Hj. symmetry. apply Sp.
      destruct (opens_ids _ _ _ _ j O) as [X _]; [|exact X]. unfold allids. cbn. rewrite app_nil_r.
      unfold fids. apply in_flat_map. eauto. }
  clear - F' A7. revert A7. generalize (child_list t). induction F' as [|j y l ys Rl F IH]; intros tl A7; inversion A7; subst; constructor; auto.
  eapply real_tree; eauto.
Qed.

Lemma single : forall h ch f, opens h ch [] [f] -> ch = [0].
Proof.
  intros h ch f O. inversion O as [i x tg it l Et On K F|i j c x tg it l fr Nt On K F O2]; subst; [|inversion O2].
  destruct On as [_ [_ [_ [-> _]]]]. reflexivity.
Qed.
Lemma final_hs : forall opts s st d, bsteps (doc_new opts) s st -> is_W st \/ is_T st -> eof st = ROk d ->
  hs (auto_fix_unescaped_lt opts) (d_heap d) /\ d_root d = 0.
Proof.
  intros opts s st d B R E. destruct (reach _ _ _ B) as [Rn _].
  assert (P : parse opts s = Parsed d) by (unfold parse, parse_res; rewrite Rn; cbn [rbind]; rewrite E; reflexivity).
  apply (parsed_hs _ _ _ P).
Qed.

Lemma done_ev : forall st r, d_current_node st < length (d_heap st) ->
  ev None None None None
    (flip (if d_repeat_whitespace st then Some (d_current_node st) else None)
       (hupd (hupd (d_heap st) (d_current_node st) (nset_content (Some (d_prev_chars st)))) (d_current_node st) (end_info (d_position st))))
    (hupd (hupd (d_heap st) (d_current_node st) (text_done st)) r (nset_end_at (d_position st))).
Proof.
  intros st r L. set (c := d_current_node st) in *.
  constructor; [unfold flip; destruct (d_repeat_whitespace st); rewrite !hupd_length; lia|..]; intros i _; unfold ty.
  all: rewrite ?(hupd_keep n_type _ r), ?(hupd_keep n_meta _ r), ?(hupd_keep n_content _ r), ?(hupd_keep n_childs _ r), ?(hupd_keep n_end_tag _ r) by reflexivity.
  all: unfold flip, text_done; destruct (Nat.eq_dec i c) as [->|N];
    [destruct (d_repeat_whitespace st); rewrite !hget_hupd_same by (rewrite ?hupd_length; exact L); reflexivity
    |destruct (d_repeat_whitespace st); rewrite !hget_hupd_other by congruence; reflexivity].
Qed.

(** ** States between tokens *)
Definition bnd (st : doc) (P : list pframe) : Prop :=
  (is_W st /\ exists f frs, simW st f frs /\ P = sh (f :: frs)) \/
  (is_T st /\ exists f frs, simT st f frs /\ P = grow (KText (d_prev_chars st)) (sh (f :: frs))).

Lemma bnd_framed : forall st P, bnd st P -> framed P.
Proof.
  intros st P [[_ [f [frs [Si ->]]]]|[_ [f [frs [Si ->]]]]].
  - eapply framed_sh, (w_opens _ _ _ Si).
  - rewrite <- (text_shape f frs (d_current_node st)). eapply framed_sh, (u_opens _ _ _ (text_sim _ _ _ Si)).
Qed.

(** What a document holds whose last element has been closed. *)
Lemma final_core : forall opts s st d L, bsteps (doc_new opts) s st -> bnd st [(None, L)] -> eof st = ROk d ->
  exists f, map plain f = L /\ marked f /\ doc_content d f.
Proof.
  intros opts s st d L B R E. destruct (eof_inv _ _ E) as [_ [Cd [Eh [Er _]]]].
  destruct R as [[W [f [frs [Si Es]]]]|[Ti [f0 [frs [Si0 Es]]]]].
  - destruct (final_hs _ _ _ _ B (or_introl W) E) as [Hh Hr].
    pose proof (w_opens _ _ _ Si) as O. destruct frs; [|discriminate].
    pose proof (single _ _ _ O) as C0. rewrite C0 in O.
    destruct (content_final opts d f (d_heap st) Hh Hr O (w_now _ _ _ Si)) as [Dc Mk].
    { rewrite Eh. unfold fin_heap. rewrite C0. cbn [rev app tl fix_heap fold_left].
      destruct W as [_ [[Cw|Cw] _]]; rewrite Cw; constructor; try (rewrite hupd_length; lia); intros i Hi; unfold ty;
        rewrite ?(hupd_keep n_type), ?(hupd_keep n_meta), ?(hupd_keep n_content), ?(hupd_keep n_childs), ?(hupd_keep n_end_tag) by reflexivity; reflexivity. }
    exists (map (erase (sp (d_heap st))) (f_items f)).
    rewrite map_map, (map_ext _ shape) by (intro; apply plain_erase). cbn in Es. injection Es as _ ->. auto.
  - destruct (final_hs _ _ _ _ B (or_intror Ti) E) as [Hh Hr].
    pose proof (text_sim _ _ _ Si0) as Si. rewrite <- (text_shape f0 frs (d_current_node st)) in Es.
    set (f := mkFr (f_tag f0) (f_items f0 ++ [YText (d_current_node st) (d_prev_chars st)])) in *.
    pose proof (u_opens _ _ _ Si) as O. destruct frs; [|discriminate].
    pose proof (single _ _ _ O) as C0. rewrite C0 in O. cbn [d_chain_nodes d_heap d_check_textnode lt_of] in *.
    set (h1 := hupd (hupd (d_heap st) (d_current_node st) (nset_content (Some (d_prev_chars st)))) (d_current_node st) (end_info (d_position st))) in *.
    set (ck := if d_repeat_whitespace st then Some (d_current_node st) else None) in *.
    destruct (t_cur _ _ _ Si0) as [Cu1 [Cu2 _]].
    assert (Ct : ck_text ck h1).
    { intros i X. unfold ck in X. destruct (d_repeat_whitespace st); [|discriminate]. injection X as <-.
      unfold ty, h1. rewrite !(hupd_keep n_type) by reflexivity. left. exact Cu2. }
    assert (O2 : opens (flip ck h1) [0] [] [f]).
    { eapply opens_ev_outer; [apply (ev_flip ck), ev_refl|exact Ct| |exact O|].
      - intros j _. repeat split; discriminate.
      - intros i _. repeat split; discriminate. }
    assert (Sn : settled (flip ck h1) false (f_items f)).
    { pose proof (u_next _ _ _ Si) as X. cbn [d_chain_nodes d_heap d_check_textnode lt_of] in X. fold h1 ck in X.
      eapply settled_text. exact X. }
    destruct (content_final opts d f (flip ck h1) Hh Hr O2 Sn) as [Dc Mk].
    { rewrite Eh. unfold fin_heap. rewrite C0. cbn [rev app tl fix_heap fold_left].
      rewrite (proj1 (proj2 Ti)). apply done_ev. exact Cu1. }
    exists (map (erase (sp (flip ck h1))) (f_items f)).
    rewrite map_map, (map_ext _ shape) by (intro; apply plain_erase). cbn [sh map] in Es. injection Es as _ ->. auto.
Qed.

Lemma reads_bnd : forall opts s st, is_W st \/ is_T st -> reads opts s st ->
  exists P, bnd st P /\ source opts (ftoks P) s /\ nest_all opts (ftoks P) (mkNest [] None) = Some (nst st P).
Proof.
  intros opts s st R [[W D]|[[Ti D]|[U D]]].
  - destruct D as [ks [f [frs [So [Lt [Ks [Ne Si]]]]]]]. exists (sh (f :: frs)). rewrite <- Ks. split; [left; eauto|auto].
  - destruct (text_token _ _ _ Ti D) as [_ _]. destruct D as [ks [s0 [f [frs [-> [Nn [Nl [So [Lt [Ks [Ne Si]]]]]]]]]]].
    exists (grow (KText (d_prev_chars st)) (sh (f :: frs))). split; [right; eauto|].
    rewrite (ftoks_grow opts _ _ None (nst (doc_new opts) (sh (f :: frs)))) by (try reflexivity; eapply framed_sh; apply (t_opens _ _ _ Si)).
    rewrite <- Ks. split.
    + apply source_snoc; [exact So| |rewrite Lt; discriminate]. apply w_text; assumption.
    + rewrite nest_all_app, Ne. reflexivity.
  - exfalso. destruct R as [X|X]; [exact (U_not_W _ U X)|exact (U_not_T _ U X)].
Qed.
Lemma bnd_single : forall st P, bnd st P -> length (d_chain_nodes st) <= 1 -> exists L, P = [(None, L)].
Proof.
  assert (A : forall h ch ex f frs, opens h ch ex (f :: frs) -> length ch <= 1 -> f_tag f = None /\ frs = []).
  { intros h ch ex f frs O L. inversion O as [i x tg it l Et On K F|i j c x tg it l fr Nt On K F O2]; subst; [auto|cbn in L; lia]. }
  intros st P [[_ [f [frs [Si ->]]]]|[_ [f [frs [Si ->]]]]] L.
  - destruct (A _ _ _ _ _ (w_opens _ _ _ Si) L) as [E ->]. cbn. rewrite E. eauto.
  - destruct (A _ _ _ _ _ (t_opens _ _ _ Si) L) as [E ->]. cbn. rewrite E. eauto.
Qed.

Theorem parsed_source : forall opts s d, parse opts s = Parsed d -> no_repair opts -> open_doctypes d ->
  exists f, source opts (flat_map tokens f) s /\ nests opts (flat_map tokens f) /\ marked f /\ doc_content d f.
Proof.
  intros opts s d P [N1 [N2 N3]] Ns.
  assert (Pr : parse_res opts s = ROk d) by (unfold parse, outcome_of in P; destruct (parse_res opts s); inversion P; subst; reflexivity).
  destruct (accepted _ _ _ Pr) as [s1 [s2 [st1 [st [Es [B [R [D He]]]]]]]].
  destruct D as [[-> [-> D]]|[Af _]]; [|congruence]. rewrite app_nil_r in Es. subst s1.
  destruct (reads_bnd opts s st1 D) as [Pf [Bn [So Ne]]]; [apply reads_all; auto; [split; assumption|]|].
  { intro X. apply (proj1 (open_doctypes_spec _) Ns). pose proof (bsteps_sok _ _ _ B) as So.
    eapply final_popping; [apply sok_ending; [exact So|exact D]|apply finish; [apply sok_ending; [exact So|exact D]|exact He]|exact X]. }
  destruct (bnd_single _ _ Bn) as [L ->].
  { destruct (eof_inv _ _ He) as [[X|X] _]; [exact X|]. rewrite (s_opts _ _ (bsteps_sok _ _ _ B)) in X. congruence. }
  destruct (final_core _ _ _ _ _ B Bn He) as [f [Pl [Mk Dc]]]. exists f.
  assert (Ek : flat_map tokens f = ftoks [(None, L)]) by (cbn [ftoks head_toks app]; rewrite <- Pl, tokens_list_plain; reflexivity).
  rewrite Ek. split; [exact So|]. split; [|auto]. eexists. rewrite Ne. reflexivity.
Qed.

(** ** Every text written this way is accepted *)
Lemma bss_one : forall opts s st t st', bsteps (doc_new opts) s st -> bstep st t st' -> bsteps (doc_new opts) (s ++ t) st'.
Proof. intros. econstructor; eauto. Qed.

Lemma step_lt : forall opts s st P, bsteps (doc_new opts) s st -> bnd st P ->
  exists u, bsteps (doc_new opts) (s ++ [60%N]) u /\ is_U u /\ d_in_special u = d_in_special st /\
    exists f frs, simU u f frs /\ P = sh (f :: frs).
Proof.
  intros opts s st P B [[W [f [frs [Si ->]]]]|[Ti [f [frs [Si ->]]]]].
  - eexists. split; [eapply bss_one; [exact B|apply bs_wait_lt; exact W]|]. split; [repeat split|]. split; [reflexivity|].
    exists f, frs. split; [|reflexivity]. eapply sim_wait_lt; eauto.
  - exists (lt_of st). split; [eapply bss_one; [exact B|apply bs_text_lt; exact Ti]|]. split; [repeat split|]. split; [reflexivity|].
    eexists _, frs. split; [apply text_sim; exact Si|]. symmetry. apply text_shape.
Qed.
Lemma step_text : forall opts c, auto_fix_unexpected_endtag opts = false -> c <> [] -> ~ In 60%N c ->
  forall s st f frs, bsteps (doc_new opts) s st -> is_W st -> simW st f frs ->
  exists st', bsteps (doc_new opts) (s ++ c) st' /\ is_T st' /\ d_in_special st' = d_in_special st /\
    d_prev_chars st' = c /\ simT st' f frs.
Proof.
  intros opts c Au. induction c as [|x c IH] using rev_ind; intros Nc Nl s st f frs B W Si; [congruence|].
  pose proof (bsteps_sok _ _ _ B) as S.
  assert (Nx : x <> TAG_BEGIN_CHAR) by (intros ->; apply Nl; apply in_or_app; right; left; reflexivity).
  destruct c as [|y c].
  - assert (Ec : exists p rest, d_chain_nodes st = p :: rest) by (pose proof (w_opens _ _ _ Si) as O; inversion O; eauto).
    destruct Ec as [p [rest Ec]].
    eexists. split; [eapply bss_one; [exact B|]; eapply bs_wait_text; eauto; left; rewrite (s_opts _ _ S); exact Au|].
    split; [repeat split|]. split; [reflexivity|]. split; [reflexivity|].
    eapply sim_text_start with (p := p) (rest := rest); eauto; reflexivity.
  - destruct (IH ltac:(discriminate)) with (s := s) (st := st) (f := f) (frs := frs) as [st' [B' [T' [I' [P' Si']]]]]; auto.
    { intro X. apply Nl. apply in_or_app. left. exact X. }
    eexists. split; [rewrite app_assoc; eapply bss_one; [exact B'|]; apply bs_text_char; [exact T'|exact Nx]|].
    split; [repeat split|]. split; [exact I'|]. split; [cbn [d_prev_chars]; rewrite P'; reflexivity|].
    eapply sim_text_char; eauto; reflexivity.
Qed.

Lemma complete_gen : forall opts ks t, source opts ks t -> strict opts -> forall s st P s2,
  bsteps (doc_new opts) s st -> bnd st P -> (is_T st -> match ks with k :: _ => is_ktext k = false | [] => True end) ->
  nest_all opts ks (nst st P) = Some s2 ->
  exists st', bsteps (doc_new opts) (s ++ t) st' /\ bnd st' (grow_all ks P) /\ nst st' (grow_all ks P) = s2.
Proof.
  intros opts ks t So St. induction So as [|k t0 ks r W So IH C]; intros s st P s2 B Bn Ht Ne.
  - exists st. rewrite app_nil_r. cbn in Ne. injection Ne as <-. auto.
  - cbn [nest_all] in Ne. destruct (nest opts k (nst st P)) as [s1|] eqn:Nk; [|discriminate].
    rewrite app_assoc.
    assert (X : exists st', bsteps (doc_new opts) (s ++ t0) st' /\ bnd st' (grow k P) /\ nst st' (grow k P) = s1 /\
      (is_T st' -> is_ktext k = true)).
    { destruct (is_ktext k) eqn:Kt.
      - destruct k; try discriminate. inversion W; subst.
        destruct Bn as [[Wt [f [frs [Si ->]]]]|[Ti _]]; [|specialize (Ht Ti); discriminate].
        destruct (step_text opts t0 (proj1 St) H0 H1 s st f frs B Wt Si) as [st' [B' [T' [I' [P' Si']]]]].
        exists st'. split; [exact B'|]. split; [right; split; [exact T'|]; exists f, frs; rewrite P'; auto|].
        split; [|auto]. cbn in Nk. injection Nk as <-. unfold nst. rewrite I'. reflexivity.
      - destruct (step_lt _ _ _ _ B Bn) as [u [Bu [U [Iu [f [frs [Su ->]]]]]]].
        pose proof (bsteps_sok _ _ _ Bu) as S.
        assert (Et : exists t', t0 = 60%N :: t') by (inversion W; subst; try discriminate Kt; eexists; reflexivity).
        destruct Et as [t' ->].
        destruct (takes_complete opts u t' k f frs U S Su W Kt) as [st' Tk].
        { unfold nst in *. rewrite Iu. rewrite Nk. discriminate. }
        destruct Tk as [Bs [Wt [_ [_ Tk]]]]. destruct (Tk f frs Su) as [f' [frs' [Si' [Sh Nk']]]].
        exists st'. split; [change (60%N :: t') with ([60%N] ++ t'); rewrite app_assoc; eapply bss_one; eauto|].
        split; [left; split; [exact Wt|]; exists f', frs'; auto|].
        split; [|intro T'; exfalso; destruct Wt as [Y _]; destruct T' as [Z _]; congruence].
        unfold nst in Nk'. rewrite Iu in Nk'. unfold nst in Nk. rewrite Nk in Nk'. rewrite <- Sh. unfold nst. congruence. }
    destruct X as [st' [B' [Bn' [En' Ht']]]].
    destruct (IH (s ++ t0) st' (grow k P) s2 B' Bn') as [st2 [B2 [Bn2 E2]]].
    + intro T'. apply C. auto.
    + rewrite En'. exact Ne.
    + exists st2. auto.
Qed.

Lemma bnd_start : forall opts, bnd (doc_new opts) p_start.
Proof. intro opts. left. split; [apply init_W|]. exists (mkFr None []), []. split; [apply init_sim|reflexivity]. Qed.

Lemma eof_ok_bnd : forall opts s st L, bsteps (doc_new opts) s st -> bnd st [(None, L)] -> exists d, eof st = ROk d.
Proof.
  intros opts s st L B Bn.
  assert (C0 : d_chain_nodes st = [0]).
  { destruct Bn as [[_ [f [frs [Si Es]]]]|[_ [f [frs [Si Es]]]]].
    - destruct frs; [|discriminate]. eapply single, (w_opens _ _ _ Si).
    - destruct frs; [|destruct f; discriminate]. exact (single _ _ _ (u_opens _ _ _ (text_sim _ _ _ Si))). }
  unfold eof. rewrite C0. cbn [length Nat.ltb Nat.leb rbind].
  destruct Bn as [[[_ [[W|W] _]] _]|[[_ [T _]] _]]; rewrite ?W, ?T; cbn [rbind]; eauto.
Qed.

Theorem source_parses : forall opts f s, source opts (flat_map tokens f) s -> nests opts (flat_map tokens f) -> marked f ->
  strict opts -> exists d, parse opts s = Parsed d /\ doc_content d f.
Proof.
  intros opts f s So [fo Ne] Mk St.
  destruct (complete_gen opts _ _ So St [] (doc_new opts) p_start (mkNest [] fo)) as [st [B [Bn En]]].
  - constructor.
  - apply bnd_start.
  - intros [X _]. discriminate X.
  - exact Ne.
  - unfold p_start in Bn. rewrite grow_items in Bn. cbn [app] in *.
    destruct (eof_ok_bnd _ _ _ _ B Bn) as [d E]. destruct (final_core _ _ _ _ _ B Bn E) as [f' [Pl [Mk' Dc]]].
    exists d. split.
    + unfold parse, parse_res. rewrite (proj1 (reach _ _ _ B)). cbn [rbind]. rewrite E. reflexivity.
    + rewrite (marked_unique f f' Mk Mk') by congruence. exact Dc.
Qed.
