(** Proofs about dropped end tags and escaped '<'. *)
From Coq Require Import String Sorting.Sorted Lia.
From Verif Require Import Api SpecText SpecParse SpecTree SpecMisc NameProofs TextProofs MiscProofs HeapLemmas InvCtl CtlSteps CtlHandlers CtlEnd CtlRun
  Big BigSteps Replay RawText Struct StructEnd Frame Shape Real Sim CloseInv Final DocSound Mono FixProofs DocEnd SpecFix SpecStream Stream StreamSteps StreamRel StreamEnd StreamParse.
Local Open Scope string_scope.
Local Open Scope list_scope.

(** ** Every reached state has a stream *)
Lemma view_init : forall opts, view opts (doc_new opts) [] [].
Proof.
  intro opts.
  assert (S0 : spine (d_heap (doc_new opts)) [] 0 0) by constructor.
  constructor.
  - change (vh (doc_new opts)) with (d_heap (doc_new opts)). apply ls_at with (Q := []) (e := []); [cbn; lia|cbn; lia|constructor|reflexivity|reflexivity].
  - intros i [<-|[]]. exact S0.
  - intro X. discriminate X.
  - intros _. split; [exact S0|]. split; [reflexivity|]. intros i [<-|[]]. cbn. lia.
Qed.
Lemma srel_init : forall opts, srel opts (doc_new opts) (doc_new opts).
Proof.
  intro opts. pose proof (bsteps_sok opts [] (doc_new opts) (bss_nil _)) as S.
  assert (N : no_text opts (doc_new opts)) by (intros _ _ X; discriminate X).
  constructor; auto; [right; split; left; apply init_W|]. exists [], [], [], []. split; [apply view_init|]. split; [apply view_init|]. split; [reflexivity|]. right. tauto.
Qed.
Lemma srel_refl : forall opts s st, bsteps (doc_new opts) s st -> srel opts st st.
Proof.
  intros opts s st B. destruct (srel_steps _ _ _ _ B _ (srel_init opts)) as [st' [B' R]].
  destruct (reach _ _ _ B) as [R1 _]. destruct (reach _ _ _ B') as [R2 _]. rewrite R1 in R2. injection R2 as <-. exact R.
Qed.
Lemma reached_view : forall opts s st, bsteps (doc_new opts) s st -> exists l z, view opts st l z.
Proof. intros opts s st B. destruct (sr_view _ _ _ (srel_refl _ _ _ B)) as [l [z [_ [_ [V _]]]]]. eauto. Qed.
Lemma spine_open : forall h z i p, spine h z i p -> (forall j, inside h j p -> n_end_tag (hget h j) = None) -> z = [] /\ inside h i p.
Proof.
  intros h z i p S. induction S as [i|i l k z e p K E S IH]; intro H; [split; [reflexivity|constructor]|].
  destruct (IH H) as [-> I].
  assert (Ii : inside h i p).
  { unfold kids in K. destruct (n_childs (hget h i)) as [x|] eqn:C; [|destruct l; discriminate]. subst x. eapply inside_child; [exact C|apply in_or_app; right; left; reflexivity|exact I]. }
  split; [|exact Ii]. subst e. rewrite (ends_none _ _ (H i Ii)). reflexivity.
Qed.
Lemma inside_vh : forall st i j, inside (vh st) i j -> inside (d_heap st) i j.
Proof.
  intros st i j H. induction H as [i|i l k j C I H IH]; [constructor|]. rewrite (vh_keep n_childs) in C by reflexivity. econstructor; eauto.
Qed.
Lemma open_view : forall opts st l z, sok opts st -> view opts st l z -> ~ after_raw st -> z = [].
Proof.
  intros opts st l z S V N.
  assert (O : forall j, inside (vh st) j (d_current_node st) -> n_end_tag (hget (vh st) j) = None).
  { intros j I. rewrite (vh_keep n_end_tag) by reflexivity. destruct (n_end_tag (hget (d_heap st) j)) as [e|] eqn:E; [|reflexivity].
    exfalso. apply N. exists j. split; [congruence|apply inside_vh; exact I]. }
  destruct (text_dec st) as [T|T].
  - destruct (v_text _ _ _ _ V T) as [Sp _]. eapply spine_open; eauto.
  - destruct (v_other _ _ _ _ V T) as [_ [-> _]]. apply ends_none. destruct (lt_cases st) as [->|[-> _]]; [|apply O; constructor].
    rewrite (vh_keep n_end_tag) by reflexivity. apply (top_type _ _ S).
Qed.

Lemma between_steps : forall opts s st, run (doc_new opts) s = ROk st -> between st -> bsteps (doc_new opts) s st /\ is_WT st.
Proof.
  intros opts s st R [H _]. destruct (decompose _ _ _ R) as [a [b [u [-> [R1 [B D]]]]]].
  destruct D as [[-> ->]|D].
  - rewrite app_nil_r. split; [exact B|]. destruct (bsteps_ready _ _ _ B (or_introl (init_W opts))) as [X|[X|[X _]]]; [left; exact X|right; exact X|].
    exfalso. destruct H; congruence.
  - exfalso. destruct D; cbn in H; destruct H as [H|H]; try discriminate H.
    all: try (destruct (ta_mode t) as [[|]| |]; discriminate H).
Qed.

(** ** An end tag that closes nothing *)
Theorem dropped_end : forall o s1 st nm s2, run (doc_new o) s1 = ROk st -> between st -> unmatched st nm -> ~ In 62%N nm ->
  auto_fix_unexpected_endtag o = true -> (auto_fix_unescaped_lt o = false \/ ~ after_raw st) ->
  same_result (parse o (s1 ++ s2)) (parse o (s1 ++ str "</" ++ nm ++ str ">" ++ s2)).
Proof.
  intros o s1 st nm s2 R Bt Um Ng Ue Lr. destruct (between_steps _ _ _ R Bt) as [B K]. pose proof (bsteps_sok _ _ _ B) as S.
  destruct (reached_view _ _ _ B) as [l [z V]]. pose proof (sr_nt _ _ _ (srel_refl _ _ _ B)) as [Nt _].
  destruct (view_lt o st S K l z V) as [v [Bv [Uv [Vv [Sv [Cv Tv]]]]]]. pose proof (bstep_sok _ _ _ _ Bv S) as S1.
  destruct (sk_metas _ _ Sv) as [Em _].
  assert (Cl : closes v nm = None).
  { pose proof (closes_metas v st nm Em) as X. destruct (closes v nm) as [[t r]|] eqn:Y; [|reflexivity]. exfalso.
    destruct (closes st nm) as [[t' r']|] eqn:Z; [|exact X]. unfold unmatched in Um. unfold closes, get_node in Z.
    destruct (d_chain_nodes st) as [|i [|j c]]; try discriminate. destruct (n_meta (hget (d_heap st) i)) as [m|]; [|discriminate].
    rewrite (Um m eq_refl) in Z. discriminate. }
  assert (Ue' : auto_fix_unexpected_endtag (d_parse_options v) = true) by (rewrite (s_opts _ _ S1); exact Ue).
  pose proof (bs_drop v nm Uv Ng Cl Ue') as Bd. pose proof (bstep_sok _ _ _ _ Bd S1) as S2.
  match type of S2 with sok _ ?x => set (w := x) in * end.
  pose proof (view_drop o v w l z S1 S2 Vv (U_hand _ Uv) ltac:(discriminate) eq_refl eq_refl eq_refl) as Vw.
  cbn [w W_of d_current_node] in Vw. fold w in Vw. rewrite (s_opts _ _ S1) in Vw. specialize (Vw eq_refl).
  assert (Sw : sk w = sk v).
  { unfold sk, w, metas. cbn [W_of d_heap d_chain_nodes d_in_special d_mark_char d_id_tags d_parse_options].
    rewrite (map_ext_in (fun i => n_meta (hget (dropped_heap v) i)) (fun i => n_meta (hget (d_heap v) i))); [reflexivity|].
    intros i Hi. unfold dropped_heap. rewrite hget_app_old; [reflexivity|]. eapply chain_type; [exact S1|exact Hi]. }
  assert (Zn : auto_fix_unescaped_lt o = true -> z = []).
  { intro Lt. destruct Lr as [Lr|Lr]; [congruence|]. exact (open_view o st l z S V Lr). }
  assert (Rl : srel o st w).
  { constructor.
    - auto.
    - split; [exact Nt|]. intros X. congruence.
    - congruence.
    - right. split; [exact K|]. left. apply W_of_W.
    - destruct Bt as [_ Ne]. destruct (auto_fix_unclosed_tag o).
      + exists l, z, l, z. split; [exact V|]. split; [exact Vw|]. split; [reflexivity|]. left. auto.
      + exists l, z, (l ++ z), []. split; [exact V|]. split; [exact Vw|]. split; [rewrite app_nil_r; reflexivity|]. left. auto. }
  replace (s1 ++ str "</" ++ nm ++ str ">" ++ s2) with (((s1 ++ [TAG_BEGIN_CHAR]) ++ str "/" ++ nm ++ str ">") ++ s2)
    by (rewrite <- !app_assoc; reflexivity).
  eapply same_result_parse; [exact B| |exact Rl]. eapply bss_snoc; [eapply bss_snoc; [exact B|exact Bv]|exact Bd].
Qed.

(** ** A '<' that starts no markup *)
Lemma plain_char : forall o s st l c, bsteps (doc_new o) s st -> is_WT st -> d_chain_nodes st <> [] -> c <> TAG_BEGIN_CHAR -> view o st l [] ->
  exists v, bsteps (doc_new o) (s ++ [c]) v /\ is_T v /\ view o v (l ++ [AChar c]) [] /\ sk v = sk st /\ d_chain_nodes v = d_chain_nodes st.
Proof.
  intros o s st l c B K Ne Nc V. pose proof (bsteps_sok _ _ _ B) as S. pose proof (sr_nt _ _ _ (srel_refl _ _ _ B)) as [Nt _].
  destruct (view_char o st c S K Nc Nt (or_introl Ne) l [] V) as [v [l' [z' [Bv [Tv [Vv [[Y1 Y2] [Sv Cv]]]]]]]].
  exists v. split; [eapply bss_snoc; eauto|]. split; [exact Tv|]. split; [|auto].
  destruct (text_dec st) as [T|T]; [destruct (Y1 T) as [-> ->]|destruct (Y2 T) as [-> ->]]; exact Vv.
Qed.
Lemma plain_chars : forall o x s st l, bsteps (doc_new o) s st -> is_WT st -> d_chain_nodes st <> [] -> ~ In TAG_BEGIN_CHAR x -> x <> [] -> view o st l [] ->
  exists v, bsteps (doc_new o) (s ++ x) v /\ is_T v /\ view o v (l ++ map AChar x) [] /\ sk v = sk st /\ d_chain_nodes v = d_chain_nodes st.
Proof.
  intros o x. induction x as [|c x IH]; intros s st l B K Ne Ni Nx V; [congruence|].
  destruct (plain_char o s st l c B K Ne) as [v [Bv [Tv [Vv [Sv Cv]]]]]; [intros ->; apply Ni; left; reflexivity|exact V|].
  destruct x as [|c' x].
  - exists v. auto 6.
  - destruct (IH (s ++ [c]) v (l ++ [AChar c]) Bv (or_intror Tv)) as [w [Bw [Tw [Vw [Sw Cw]]]]];
      [rewrite Cv; exact Ne|intro X; apply Ni; right; exact X|discriminate|exact Vv|].
    exists w. rewrite <- app_assoc in Bw. rewrite <- app_assoc in Vw. split; [exact Bw|]. split; [exact Tw|]. split; [exact Vw|]. split; congruence.
Qed.
Lemma text_rel : forall o st v w l, sok o v -> sok o w -> is_T v -> is_T w -> view o v l [] -> view o w l [] -> sk v = sk st -> sk w = sk st ->
  d_chain_nodes v <> [] -> srel o v w.
Proof.
  intros o st v w l Sv Sw Tv Tw Vv Vw Kv Kw Ne. constructor.
  - auto.
  - split; intros _ [X _]; [destruct Tv as [Y _]|destruct Tw as [Y _]]; congruence.
  - congruence.
  - right. split; right; assumption.
  - exists l, [], l, []. split; [exact Vv|]. split; [exact Vw|]. split; [reflexivity|]. left. auto.
Qed.
Theorem stray_lt : forall o s1 st c s2, run (doc_new o) s1 = ROk st -> between st -> ~ after_raw st -> auto_fix_unescaped_lt o = true -> stray c ->
  same_result (parse o (s1 ++ str "&lt;" ++ c :: s2)) (parse o (s1 ++ str "<" ++ c :: s2)).
Proof.
  intros o s1 st c s2 R Bt Nr Lt [C1 [C2 C3]]. destruct (between_steps _ _ _ R Bt) as [B K]. pose proof (bsteps_sok _ _ _ B) as S. destruct Bt as [_ Ne].
  destruct (reached_view _ _ _ B) as [l [z V]]. assert (z = []) as -> by exact (open_view o st l z S V Nr).
  destruct (view_lt o st S K l [] V) as [u [Bu [Uu [Vu [Su [Cu Tu]]]]]]. pose proof (bstep_sok _ _ _ _ Bu S) as S1.
  assert (Lt' : auto_fix_unescaped_lt (d_parse_options u) = true) by (rewrite (s_opts _ _ S1); exact Lt).
  assert (Bu' : bsteps (doc_new o) (s1 ++ [TAG_BEGIN_CHAR]) u) by (eapply bss_snoc; eauto).
  destruct (plain_chars o (str "&lt;") s1 st l B K Ne) as [v [Bv [Tv [Vv [Sv Cv]]]]]; [vm_compute; intuition discriminate|discriminate|exact V|].
  assert (Nv : d_chain_nodes v <> []) by (rewrite Cv; exact Ne).
  pose proof (bsteps_sok _ _ _ Bv) as S2.
  replace (s1 ++ str "&lt;" ++ c :: s2) with (((s1 ++ str "&lt;") ++ [c]) ++ s2) by (rewrite <- !app_assoc; reflexivity).
  replace (s1 ++ str "<" ++ c :: s2) with (((s1 ++ [TAG_BEGIN_CHAR]) ++ [c]) ++ s2) by (rewrite <- !app_assoc; reflexivity).
  destruct (N.eq_dec c TAG_BEGIN_CHAR) as [->|Nc].
  - destruct (view_lt_text o u (str "&lt;") S1 Uu Lt l [] Vu) as [Vw [Sw Cw]].
    assert (Rl : srel o v (lt_text u (str "&lt;"))).
    { eapply (text_rel o st); [exact S2|apply sok_lt; assumption|exact Tv|apply lt_text_T|exact Vv|exact Vw|exact Sv|congruence|exact Nv]. }
    destruct (srel_lt o _ _ Rl (or_intror Tv) (or_intror (lt_text_T _ _))) as [w [w' [Bw [Bw' Rw]]]].
    eapply same_result_parse; [eapply bss_snoc; [exact Bv|exact Bw]| |exact Rw]. eapply bss_snoc; [exact Bu'|]. apply bs_lt_lt; assumption.
  - destruct (plain_char o (s1 ++ str "&lt;") v (l ++ map AChar (str "&lt;")) c Bv (or_intror Tv) Nv Nc Vv) as [w [Bw [Tw [Vw [Sw Cw]]]]].
    destruct (view_lt_text o u (str "&lt;" ++ [c]) S1 Uu Lt l [] Vu) as [Vx [Sx Cx]]. rewrite map_app, app_assoc in Vx.
    eapply same_result_parse; [exact Bw|eapply bss_snoc; [exact Bu'|apply bs_lt_char; assumption]|].
    pose proof (bsteps_sok _ _ _ Bw) as S3.
    assert (S4 : sok o (lt_text u (str "&lt;" ++ [c]))) by (apply sok_lt; assumption).
    assert (Rl : srel o w (lt_text u (str "&lt;" ++ [c]))).
    { eapply (text_rel o st); [exact S3|exact S4|exact Tw|apply lt_text_T|exact Vw|exact Vx|congruence|congruence|rewrite Cw; exact Nv]. }
    pose proof (set_position_srel o _ _ (d_position w) (d_position u + 1) Rl Tw (lt_text_T _ _)) as X.
    replace (set_position (d_position w) w) with w in X by (destruct w; reflexivity). exact X.
Qed.

(** The open elements and the nodes after a dropped end tag. *)
Theorem dropped_state : forall o s1 st nm, run (doc_new o) s1 = ROk st -> between st -> unmatched st nm -> ~ In 62%N nm ->
  auto_fix_unexpected_endtag o = true ->
  exists st', run (doc_new o) (s1 ++ str "</" ++ nm ++ str ">") = ROk st' /\ between st' /\ d_chain_nodes st' = d_chain_nodes st /\
    (forall i, i < length (d_heap st) -> i <> d_current_node st -> hget (d_heap st') i = hget (d_heap st) i) /\
    (forall i x, n_childs (hget (d_heap st') i) = Some x -> n_childs (hget (d_heap st) i) = Some x).
Proof.
  intros o s1 st nm R Bt Um Ng Ue. destruct (between_steps _ _ _ R Bt) as [B K]. pose proof (bsteps_sok _ _ _ B) as S.
  destruct (reached_view _ _ _ B) as [l [z V]].
  destruct (view_lt o st S K l z V) as [v [Bv [Uv [Vv [Sv [Cv Tv]]]]]]. pose proof (bstep_sok _ _ _ _ Bv S) as S1.
  destruct (sk_metas _ _ Sv) as [Em _].
  assert (Cl : closes v nm = None).
  { pose proof (closes_metas v st nm Em) as X. destruct (closes v nm) as [[t r]|] eqn:Y; [|reflexivity]. exfalso.
    destruct (closes st nm) as [[t' r']|] eqn:Z; [|exact X]. unfold unmatched in Um. unfold closes, get_node in Z.
    destruct (d_chain_nodes st) as [|i [|j c]]; try discriminate. destruct (n_meta (hget (d_heap st) i)) as [m|]; [|discriminate].
    rewrite (Um m eq_refl) in Z. discriminate. }
  assert (Ue' : auto_fix_unexpected_endtag (d_parse_options v) = true) by (rewrite (s_opts _ _ S1); exact Ue).
  pose proof (bs_drop v nm Uv Ng Cl Ue') as Bd.
  assert (Hv : length (d_heap v) = length (d_heap st) /\ (forall i, i <> d_current_node st -> hget (d_heap v) i = hget (d_heap st) i) /\
    (forall i, n_childs (hget (d_heap v) i) = n_childs (hget (d_heap st) i))).
  { inversion Bv; subst; try (exfalso; eapply WT_U; eauto; fail); try congruence; cbn [d_heap].
    - auto.
    - rewrite !hupd_length. split; [reflexivity|]. split; [intros i Ni; rewrite !hget_hupd_other by congruence; reflexivity|].
      intro i. rewrite !(hupd_keep n_childs) by reflexivity. reflexivity. }
  destruct Hv as [Lv [Gv Kv]]. eexists. split; [|split; [|split; [|split]]].
  - apply (reach o (s1 ++ str "</" ++ nm ++ str ">")). change (str "</") with ([TAG_BEGIN_CHAR] ++ str "/"). rewrite <- (app_assoc [TAG_BEGIN_CHAR]), app_assoc.
    eapply bss_snoc; [eapply bss_snoc; [exact B|exact Bv]|exact Bd].
  - destruct Bt as [_ Ne]. split; [left; reflexivity|]. cbn [W_of d_chain_nodes]. rewrite Cv. exact Ne.
  - exact Cv.
  - intros i Li Ni. cbn [W_of d_heap]. unfold dropped_heap. rewrite hget_app_old by lia. apply Gv. exact Ni.
  - intros i x X. cbn [W_of d_heap] in X. unfold dropped_heap in X. destruct (Nat.lt_trichotomy i (length (d_heap v))) as [L|[L|L]].
    + rewrite hget_app_old in X by exact L. rewrite Kv in X. exact X.
    + subst i. rewrite hget_app_new in X. destruct (auto_fix_unclosed_tag (d_parse_options v)); discriminate X.
    + rewrite hget_default in X by (rewrite app_length; cbn; lia). discriminate X.
Qed.
