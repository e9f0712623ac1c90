(** Every handler preserves the control invariant (end tags, raw text, comments, stray '<',
    declarations), and the whole run. *)
From Coq Require Import String ZifyBool ZifyN.
From Verif Require Import Api SpecText SpecParse NameProofs MiscProofs HeapLemmas InvCtl CtlSteps
  CtlHandlers.
Local Open Scope string_scope.
Local Open Scope list_scope.

Lemma chain_head_name : forall opts pre st i rest, base opts pre st -> d_chain_nodes st = i :: rest ->
  rest <> [] -> d_handle st <> HTagName -> exists m, n_meta (get_node st i) = Some m.
Proof.
  intros opts pre st i rest B E R Hh.
  assert (T : ty (d_heap st) i = NTag).
  { pose proof (InvCtl.k_chain _ _ _ B) as C. rewrite E in C. destruct C as [_ [C _]].
    destruct rest; [contradiction|exact C]. }
  destruct (InvCtl.k_chain_meta _ _ _ B i) as [N|[N _]]; [rewrite E; left; reflexivity| | |contradiction].
  - intros ->. rewrite (InvCtl.k_root_ty _ _ _ B) in T. discriminate.
  - unfold name_of, mt in N. unfold get_node. destruct (n_meta (hget (d_heap st) i)); [eauto|contradiction].
Qed.

(** Popping the innermost element by its end tag. *)
Lemma base_close : forall opts pre c st st' i rest m nm w a, base opts pre st ->
  d_chain_nodes st = i :: rest -> rest <> [] -> d_code_in st = CTagEnd -> d_handle st <> HTagName ->
  n_meta (get_node st i) = Some m -> same_name (m_name m) nm = true ->
  pre ++ [c] = a ++ str "</" ++ nm ++ w ++ str ">" -> Forall is_ws w -> special_before a st ->
  d_parse_options st' = d_parse_options st -> d_mem_position st' = d_mem_position st ->
  d_root st' = d_root st -> d_current_node st' = d_current_node st ->
  d_heap st' = d_heap st -> d_chain_nodes st' = rest ->
  d_in_special st' = match d_in_special st with
                     | Some (sp, n) => if chars_eqb n nm then None else Some (sp, n)
                     | None => None
                     end ->
  d_code_in st' = CUnkown ->
  (forall j, d_check_textnode st' = Some j -> d_check_textnode st = Some j) ->
  base opts (pre ++ [c]) st'.
Proof.
  intros opts pre c st st' i rest m nm w a B Ec R Hc Hh M Sn Ep Fw Sb E1 E2 E3 E4 E5 E6 E7 E8 E9.
  pose proof (base_app _ _ c _ B) as B'. dbase B'.
  constructor; rewrite ?E1, ?E2, ?E3, ?E4, ?E5, ?E6; auto.
  - rewrite Ec in Kchain. destruct Kchain as [A [_ C]]. eapply chain_ok_weaken; [exact C|lia].
  - intros j Hj H0. left. destruct (Kcmeta j) as [X|[X _]]; auto; rewrite Ec; right; exact Hj.
  - contradiction.
  - unfold special_inv in *. rewrite E7. destruct (d_in_special st) as [[sp n]|] eqn:Es; [|trivial].
    destruct (chars_eqb n nm) eqn:En; [trivial|]. apply chars_eqb_neq in En. rewrite E5.
    destruct Kspecial as [A [C D]]. split; [exact A|]. split; [exact C|].
    destruct D as [[k [D1 D2]]|D]; [|right; exact D].
    unfold open_chain in D1. rewrite Hc, Ec in D1. destruct D1 as [->|D1].
    + right. left. exists []. unfold name_of, mt in D2. unfold get_node in M. rewrite M in D2.
      cbn in D2. injection D2 as D2.
      unfold special_before in Sb. rewrite Es in Sb. destruct Sb as [a1 [b1 Sb]].
      exists a1, n, b1, nm, w. split; [|repeat split; auto].
      * rewrite Ep, Sb. repeat (rewrite <- app_assoc; cbn [app]). reflexivity.
      * rewrite <- D2. exact Sn.
    + left. exists k. split; [|exact D2]. unfold open_chain. rewrite E8, E6. exact D1.
Qed.

Lemma tagend_ok : forall opts pre c st, ctl opts pre st -> d_handle st = HTagEnd ->
  step_ok opts pre c (parse_tagend st c).
Proof.
  intros opts pre c st [B [P H]] E. pose proof H as H0. unfold handle_inv in H. rewrite E in H.
  destruct H as [Hc [T [Hd [Hp [a [Ea Sb]]]]]].
  assert (Hn : d_handle st <> HTagName) by (rewrite E; discriminate).
  pose proof (InvCtl.k_opts _ _ _ B) as Ho. pose proof (InvCtl.k_cur _ _ _ B) as Hcu.
  unfold parse_tagend. destruct (N.eqb_spec c TAG_END_CHAR) as [->|Nc].
  2:{ clear H0 Ho Hcu. dst st. ndi E. ndi P. ndi Hc. ndi T. ndi Hd. ndi Hp. subst. nd.
      split; [reflexivity|]. split; [bs B|]. unfold handle_inv. nd.
      split; [reflexivity|]. split; [exact T|]. split; [reflexivity|]. split; [exact Hp|].
      exists a. split; [|exact Sb]. ndi Ea. rewrite Ea, <- !app_assoc. reflexivity. }
  assert (Unexp : step_ok opts pre TAG_END_CHAR
    (if negb (auto_fix_unexpected_endtag (d_parse_options st))
     then doc_error (EWrongEndTag (d_prev_chars st)) st
     else do st <- (match n_prev (cur st) with
         | Some prev_node =>
             if alive st prev_node then ROk (set_current_node prev_node st) else RPanic PUpgrade
         | None => ROk st
         end);
      ROk (set_code CUnkown (clean_chars st)))).
  { destruct (auto_fix_unexpected_endtag (d_parse_options st)) eqn:Af; cbn [negb].
    2:{ split; [lia|]. cbn. congruence. }
    assert (Go : forall p, p < length (d_heap st) -> ty (d_heap st) p <> NSpacesBetweenTag ->
      step_ok opts pre TAG_END_CHAR (ROk (set_code CUnkown (clean_chars (set_current_node p st))))).
    { intros p Hp1 Hp2. clear - B P Hc Hd Hn Hp1 Hp2. dst st. ndi P. ndi Hc. ndi Hd. ndi Hn. ndi Hp1. ndi Hp2. subst. nd.
      split; [reflexivity|]. split.
      - apply base_app. eapply base_to; [exact B|..]; nd; auto.
        + exact (InvCtl.k_mem _ _ _ B).
        + apply incl_refl.
        + exact (InvCtl.k_check _ _ _ B).
      - apply hi_wait; auto. }
    destruct (n_prev (cur st)) as [p|] eqn:Ep.
    - destruct (alive st p); cbn [rbind]; [|left; reflexivity].
      destruct (Hp p eq_refl). apply Go; assumption.
    - cbn [rbind]. specialize (Go (d_current_node st) Hcu). clear - Go T. dst st. apply Go. ndi T. nd. rewrite T. discriminate. }
  destruct (Nat.ltb_spec 1 (length (d_chain_nodes st))) as [Hl|Hl]; [|exact Unexp].
  destruct (d_chain_nodes st) as [|i rest] eqn:Ec; [cbn in Hl; lia|].
  assert (R : rest <> []) by (intros ->; cbn in Hl; lia).
  destruct (chain_head_name _ _ _ _ _ B Ec R Hn) as [m M]. rewrite M, is_equal_chars_ignore_case_spec.
  rewrite <- trim_right_eq.
  destruct (trim_right_split (d_prev_chars st)) as [w [Ew Fw]].
  set (nm := trim_right (d_prev_chars st)) in *.
  destruct (same_name (m_name m) nm) eqn:Sn; [|exact Unexp].
  destruct (_ && _)%bool eqn:F; cbn [rbind].
  { apply andb_true_iff in F as [F _]. split; [lia|]. cbn. congruence. }
  clear F Unexp. 
  set (only := match n_childs _ with Some [k] => _ | _ => false end). clearbody only.
  set (st1 := set_heap (hupd (d_heap st) i (nset_end_tag (Some (d_current_node st)))) st).
  assert (L1 : heap_le (length pre) (d_heap st) (d_heap st1)) by apply heap_le_hupd, tame_end_tag.
  assert (Hck : forall j, d_check_textnode st1 = Some j -> textual (ty (d_heap st1) j)).
  { intros j Hj. eapply check_keep; [exact L1|]. apply (InvCtl.k_check _ _ _ B). exact Hj. }
  assert (S2 : exists h2 ck, (if only then st1 else set_text_spaces_between st1)
     = set_check_textnode ck (set_heap h2 st1) /\ heap_le (length pre) (d_heap st1) h2 /\
     length h2 = length (d_heap st1) /\ (forall j, ck = Some j -> d_check_textnode st1 = Some j) /\
     (forall j, n_meta (hget h2 j) = n_meta (hget (d_heap st1) j)) /\
     ty h2 (d_current_node st) = ty (d_heap st1) (d_current_node st)).
  { destruct only.
    - exists (d_heap st1), (d_check_textnode st1). split; [dst st; reflexivity|].
      split; [apply heap_le_refl|]. repeat split; auto.
    - destruct (spaces_between_ok (length pre) st1 Hck) as [h2 [E2 [Ln [L2 [M2 T2]]]]].
      exists h2, None. split; [exact E2|]. split; [exact L2|]. split; [exact Ln|].
      split; [discriminate|]. split; [exact M2|]. apply T2. unfold st1, ty. cbn.
      rewrite (hupd_keep n_type) by reflexivity. fold (ty (d_heap st) (d_current_node st)). rewrite T. intros [X|X]; discriminate. }
  destruct S2 as [h2 [ck [E2 [L2 [Ln2 [Ck2 [M2 T2]]]]]]].
  set (special' := match d_in_special st with
                     | Some (sp, n) => if chars_eqb n nm then None else Some (sp, n)
                     | None => None
                     end).
  set (h3 := hupd (hupd h2 (d_current_node st) (fun n => nset_end_at
      (if node_type_eqb (n_type n) NText then length pre else length pre + 1) n)) (d_current_node st)
      (fun n => nset_content (Some (d_prev_chars st)) (nset_parent (Some i) n))).
  match goal with |- step_ok _ _ _ (ROk ?x) =>
    assert (Ex : x = set_in_special special' (set_chain_nodes rest (set_code CUnkown (clean_chars (set_heap h3 (set_check_textnode ck st))))))
  end.
  { clear - E2 P Ew. unfold special', h3. clear special' h3. unfold st1 in *. clear st1.
    replace (set_chain_nodes rest st) with (set_chain_nodes rest st) by reflexivity.
    assert (E3 : (if only then upd_node i (nset_end_tag (Some (d_current_node (set_chain_nodes rest st)))) (set_chain_nodes rest st)
         else set_text_spaces_between (upd_node i (nset_end_tag (Some (d_current_node (set_chain_nodes rest st)))) (set_chain_nodes rest st)))
       = set_chain_nodes rest (set_check_textnode ck (set_heap h2 st))).
    { destruct st. cbn in *. unfold set_text_spaces_between in *. cbn in *. destruct only.
      - unfold upd_node, set_heap, set_check_textnode, set_chain_nodes in *. cbn in *. injection E2 as -> ->. reflexivity.
      - destruct d_check_textnode; unfold upd_node, set_heap, set_check_textnode, set_chain_nodes in *; cbn in *; injection E2 as -> ->; reflexivity. }
    rewrite E3. clear E3 E2. dst st. ndi P. subst. nd. rewrite ?is_equal_chars_none_eqb.
    destruct spec as [[sp n]|]; [|reflexivity]. rewrite is_equal_chars_none_eqb.
    destruct (chars_eqb n nm); reflexivity. }
  rewrite Ex. clear Ex.
  assert (L3 : heap_le (length pre) (d_heap st) h3).
  { eapply heap_le_trans; [exact L1|]. eapply heap_le_trans; [exact L2|]. unfold h3.
    eapply heap_le_trans; apply heap_le_hupd.
    - apply (tame_end_at (fun n => if node_type_eqb (n_type n) NText then length pre else length pre + 1)).
    - apply tame_content_parent. }
  assert (M3 : n_meta (hget h3 i) = Some m).
  { unfold h3. rewrite !(hupd_keep n_meta) by reflexivity. rewrite M2. unfold st1. cbn.
    rewrite (hupd_keep n_meta) by reflexivity. exact M. }
  assert (T3 : ty h3 (d_current_node st) = NTagEnd).
  { unfold h3, ty. rewrite !(hupd_keep n_type) by reflexivity. fold (ty h2 (d_current_node st)).
    rewrite T2. unfold st1, ty. cbn. rewrite (hupd_keep n_type) by reflexivity. exact T. }
  clearbody h3. change (d_check_textnode st1) with (d_check_textnode st) in Ck2.
  split; [exact P|]. split.
  - pose proof (base_heap _ _ _ _ B L3) as B3.
    eapply (base_close _ _ _ (set_heap h3 st) _ i rest m nm w a B3 Ec R Hc); try reflexivity; auto.
    rewrite Ea. rewrite Ew at 1. repeat (rewrite <- app_assoc; cbn [app]). reflexivity.
  - apply hi_wait; auto. change (ty h3 (d_current_node st) <> NSpacesBetweenTag). rewrite T3. discriminate.
Qed.

Lemma content_ok : forall opts pre c st, ctl opts pre st -> d_handle st = HContent ->
  step_ok opts pre c (parse_content_tag st c).
Proof.
  intros opts pre c st [B [P H]] E. start st.
  destruct H as [Hc [T [[rest ->] [m [M D]]]]]. ndi M. ndi D.
  unfold parse_content_tag. nd.
  assert (Push : step_ok opts pre c (ROk (mkDoc code (length pre) mem det (prev ++ [c]) mark (cu :: rest) cu spec rep chk HContent po rt ids h))).
  { split; [reflexivity|]. split; [bs B|]. unfold handle_inv. nd. split; [exact Hc|]. split; [exact T|].
    split; [eauto|]. exists m. auto. }
  destruct (negb (N.eqb c TAG_END_CHAR)); [exact Push|]. subst det.
  destruct (_ && _)%bool; [|exact Push]. clear Push.
  split; [reflexivity|].
  set (e := nset_parent _ _). cbn [tl].
  set (h' := hupd (h ++ [e]) cu _).
  assert (L : heap_le (length (pre ++ [c])) h h').
  { unfold h'. eapply heap_le_trans; [apply heap_le_alloc|apply heap_le_hupd].
    - cbn. rewrite app_length. cbn. lia.
    - reflexivity.
    - intro n. repeat split; apply same_kind_refl. }
  pose proof (base_heap _ _ _ h' (base_app _ _ c _ B) L) as B'. ndi B'.
  assert (T' : ty h' cu = NTag).
  { unfold h', ty. rewrite (hupd_keep n_type) by reflexivity. rewrite hget_app_old; [exact T|].
    exact (InvCtl.k_cur _ _ _ B). }
  clearbody h'. split.
  - eapply base_pop; [exact B'|reflexivity|exact T'| |..]; try reflexivity.
    right. exact Hc.
  - apply hi_wait; try reflexivity. nd. rewrite T'. discriminate.
Qed.

Lemma comment_ok : forall opts pre c st, ctl opts pre st -> d_handle st = HCommentOrCdata ->
  step_ok opts pre c (parse_comment_or_cdata st c).
Proof.
  intros opts pre c st [B [P H]] E. start st. destruct H as [H ->].
  unfold parse_comment_or_cdata. nd.
  assert (T : ty h cu <> NSpacesBetweenTag) by (destruct H as [[_ [H _]]|[_ [H _]]]; rewrite H; discriminate).
  destruct (_ && _)%bool.
  - split; [reflexivity|].
    set (h' := hupd (hupd _ _ _) _ _).
    assert (L : heap_le (length pre) h h').
    { unfold h'. eapply heap_le_trans; apply heap_le_hupd; [apply tame_content|].
      apply (tame_end_at (fun n => if node_type_eqb (n_type n) NText then length pre else length pre + 1)). }
    assert (T' : ty h' cu <> NSpacesBetweenTag).
    { unfold h', ty. rewrite !(hupd_keep n_type) by reflexivity. exact T. }
    assert (Ln : length h' = length h) by (unfold h'; rewrite !hupd_length; reflexivity).
    clearbody h'. split; [bs B|]. apply hi_wait; auto.
  - split; [reflexivity|]. split; [bs B|]. unfold handle_inv. nd. auto.
Qed.

Lemma fix_lt_ok : forall opts pre c st, ctl opts pre st -> d_handle st = HUnkownTag ->
  step_ok opts pre c (fix_unescaped_lt st c).
Proof.
  intros opts pre c st [B [P H]] E. start st. destruct H as [-> [-> [-> [Ns _]]]].
  unfold fix_unescaped_lt. nd.
  set (chars := str "&lt;" ++ _). clearbody chars.
  assert (Fin : forall h' cu' pv, heap_le (length pre) h h' -> cu' < length h' -> ty h' cu' = NText ->
     step_ok opts pre c (if N.eqb c TAG_BEGIN_CHAR
       then parse_text (mkDoc CTextNode (length pre) mem None pv mark chain cu' spec false chk HText po rt ids h') c
       else ROk (mkDoc CTextNode (length pre) mem None pv mark chain cu' spec false chk HText po rt ids h'))).
  { intros h' cu' pv L Hcu T.
    assert (B' : base opts pre (mkDoc CTextNode (length pre) mem None pv mark chain cu' spec false chk HText po rt ids h')).
    { pose proof (base_heap _ _ _ _ B L) as B'. eapply base_to; [exact B'|..]; nd; auto.
      - exact (InvCtl.k_mem _ _ _ B).
      - apply incl_refl.
      - discriminate.
      - exact (InvCtl.k_check _ _ _ B'). }
    destruct (N.eqb c TAG_BEGIN_CHAR).
    - apply text_ok; auto. unfold handle_inv. nd. auto.
    - split; [reflexivity|]. split; [apply base_app; exact B'|]. unfold handle_inv. nd. auto. }
  assert (New : forall p, step_ok opts pre c
     (if N.eqb c TAG_BEGIN_CHAR then parse_text (mkDoc CTextNode (length pre) mem None chars mark chain (length h) spec false chk HText po rt ids
           (hupd (h ++ [nset_index (length (match n_childs (hget h p) with Some l => l | None => [] end)) (node_new NText mem)]) p
               (nset_childs (Some (match n_childs (hget h p) with Some l => l | None => [] end ++ [length h]))))) c
      else ROk (mkDoc CTextNode (length pre) mem None chars mark chain (length h) spec false chk HText po rt ids
           (hupd (h ++ [nset_index (length (match n_childs (hget h p) with Some l => l | None => [] end)) (node_new NText mem)]) p
               (nset_childs (Some (match n_childs (hget h p) with Some l => l | None => [] end ++ [length h]))))))).
  { intro p. apply Fin.
    - eapply heap_le_trans; [apply heap_le_alloc|apply heap_le_hupd, tame_childs].
      + exact (InvCtl.k_mem _ _ _ B).
      + reflexivity.
    - rewrite hupd_length, app_length. cbn. lia.
    - unfold ty. rewrite (hupd_keep n_type) by reflexivity. rewrite hget_app_new. reflexivity. }
  assert (Hcu : cu < length h) by exact (InvCtl.k_cur _ _ _ B).
  assert (NewC : forall chain', chain' = chain -> step_ok opts pre c
     (let p := match chain' with i :: _ => i | [] => rt end in
      if N.eqb c TAG_BEGIN_CHAR then parse_text (mkDoc CTextNode (length pre) mem None chars mark chain (length h) spec false chk HText po rt ids
           (hupd (h ++ [nset_index (length (match n_childs (hget h p) with Some l => l | None => [] end)) (node_new NText mem)]) p
               (nset_childs (Some (match n_childs (hget h p) with Some l => l | None => [] end ++ [length h]))))) c
      else ROk (mkDoc CTextNode (length pre) mem None chars mark chain (length h) spec false chk HText po rt ids
           (hupd (h ++ [nset_index (length (match n_childs (hget h p) with Some l => l | None => [] end)) (node_new NText mem)]) p
               (nset_childs (Some (match n_childs (hget h p) with Some l => l | None => [] end ++ [length h]))))))).
  { intros chain' _. apply New. }
  specialize (NewC chain eq_refl). specialize (New cu).
  destruct (n_type (hget h cu)) eqn:T; [exact NewC|exact NewC|exact NewC| | | |exact NewC|exact NewC].
  - cbn [node_type_eqb]. destruct (n_content (hget h cu)); apply Fin; auto.
    + apply heap_le_hupd, tame_content.
    + rewrite hupd_length. exact Hcu.
    + unfold ty. rewrite (hupd_keep n_type) by reflexivity. exact T.
    + apply heap_le_refl.
  - contradiction.
  - destruct (negb _); [exact New|exact NewC].
Qed.

Lemma unkown_ok : forall opts pre c st, ctl opts pre st -> d_handle st = HUnkownTag ->
  step_ok opts pre c (parse_unkown_tag st c).
Proof.
  intros opts pre c st K E. pose proof (fix_lt_ok _ _ c _ K E) as Fx.
  destruct K as [B [P H]]. start st. destruct H as [-> [-> [-> [Ns [a [Ea Sb]]]]]].
  pose proof (InvCtl.k_opts _ _ _ B) as Ho. ndi Ho.
  pose proof (InvCtl.k_mem _ _ _ B) as Hm. ndi Hm.
  pose proof (InvCtl.k_cur _ _ _ B) as Hcu. ndi Hcu.
  unfold parse_unkown_tag. nd.
  destruct (is_ascii_alphabetic c) eqn:Al.
  { match goal with |- context [add_new_node ?n ?s] =>
      assert (A : _) by (apply (add_tag opts pre n s B); nd; try discriminate; auto)
    end.
    destruct (add_new_node _ _) as [st'|k i|p]; [|contradiction|right; left; exact A].
    destruct A as [h' [-> [L [Ln [T [M B']]]]]]. revert L Ln T M B'. nd. intros L Ln T M B'.
    pose proof (InvCtl.k_check _ _ _ B') as Ck.
    destruct (spaces_between_ok (length pre) _ Ck) as [h2 [E2 [Ln2 [L2 [M2 T2]]]]].
    revert E2 Ln2 L2 M2 T2. nd. intros E2 Ln2 L2 M2 T2.
    rewrite E2. nd. split; [reflexivity|].
    pose proof (base_heap _ _ _ _ B' L2) as B2. ndi B2. split.
    - bs B2.
    - unfold handle_inv. nd. split; [|split; [reflexivity|split; [|split]]].
      + repeat split; [|nd; eauto]. nd. rewrite T2, T; [reflexivity|]. rewrite T. intros [X|X]; discriminate.
      + exists c, []. split; [reflexivity|]. split; [exact Al|constructor].
      + rewrite M2. exact M.
      + exists a. rewrite Ea. rewrite <- app_assoc. reflexivity. }
  destruct (N.eqb_spec c END_SLASH_CHAR) as [->|Nsl].
  { match goal with |- context [add_new_node ?n ?s] =>
      assert (A : _) by (apply (add_end opts pre n s B); [reflexivity|exact Hm|reflexivity])
    end. destruct A as [A L].
    rewrite A. clear A. revert L. nd. set (e := node_new NTagEnd mem). intro L.
    destruct (auto_fix_unclosed_tag po); cbn [negb].
    - set (h' := hupd (h ++ [e]) (length h) (nset_prev (Some cu))).
      assert (L' : heap_le (length pre) h h').
      { eapply heap_le_trans; [exact L|]. apply heap_le_hupd, tame_prev. }
      assert (Ln : length h' = S (length h)) by (unfold h'; rewrite hupd_length, app_length; cbn; lia).
      assert (Ne : hget h' (length h) = nset_prev (Some cu) e).
      { unfold h'. rewrite hget_hupd_same by (rewrite app_length; cbn; lia). rewrite hget_app_new. reflexivity. }
      assert (Tc : ty h' cu = ty h cu).
      { unfold ty, h'. rewrite (hupd_keep n_type) by reflexivity. rewrite hget_app_old by exact Hcu. reflexivity. }
      clearbody h'. split; [reflexivity|]. split; [bs B|].
      unfold handle_inv. nd. unfold ty. rewrite Ne. split; [reflexivity|]. split; [reflexivity|]. split; [reflexivity|].
      split.
      + cbn. intros p Hp. injection Hp as <-. split; [lia|]. fold (ty h' cu). rewrite Tc. exact Ns.
      + exists a. split; [|exact Sb]. rewrite Ea, <- app_assoc. reflexivity.
    - assert (Ln : length (h ++ [e]) = S (length h)) by (rewrite app_length; cbn; lia).
      split; [reflexivity|]. split; [bs B|].
      unfold handle_inv. nd. unfold ty. rewrite hget_app_new. split; [reflexivity|]. split; [reflexivity|]. split; [reflexivity|].
      split.
      + discriminate.
      + exists a. split; [|exact Sb]. rewrite Ea, <- app_assoc. reflexivity. }
  destruct (N.eqb_spec c EXCLAM_CHAR) as [->|Nex].
  { split; [reflexivity|]. split; [bs B|]. unfold handle_inv. nd. split; [reflexivity|]. split; [|reflexivity].
    exists a. rewrite Ea. rewrite <- app_assoc. reflexivity. }
  destruct (auto_fix_unescaped_lt po) eqn:Af; cbn [negb]; [exact Fx|].
  split; [exact Hm|]. right. left. split; [eauto|]. rewrite <- Ho. exact Af.
Qed.

Lemma upper_spec : forall c d, to_ascii_uppercase c = d -> is_ascii_uppercase d = false -> c = d.
Proof.
  intros c d H U. unfold to_ascii_uppercase, is_ascii_lowercase, is_ascii_uppercase in *.
  destruct (N.leb 97 c && N.leb c 122)%bool eqn:E; [|exact H]. lia.
Qed.

Lemma lower_upper : forall c, to_ascii_lowercase (to_ascii_uppercase c) = to_ascii_lowercase c.
Proof.
  intro c. unfold to_ascii_lowercase, to_ascii_uppercase, is_ascii_lowercase, is_ascii_uppercase.
  destruct (N.leb 97 c && N.leb c 122)%bool eqn:E; [|reflexivity].
  replace (N.leb 65 (c - 32) && N.leb (c - 32) 90)%bool with true by lia.
  replace (N.leb 65 c && N.leb c 90)%bool with false by lia. lia.
Qed.

Lemma upper_name : forall s d, map to_ascii_uppercase s = d -> same_name s d = true.
Proof.
  intros s d <-. apply same_name_lower. unfold lower. rewrite map_map. apply map_ext.
  intro c. symmetry. apply lower_upper.
Qed.

Lemma firstn_snoc : forall (d : list char) k, k < length d ->
  firstn (k + 1) d = firstn k d ++ [nth k d EOF_CHAR].
Proof.
  induction d as [|x d IH]; intros [|k] H; cbn in *; try lia; [reflexivity|].
  rewrite IH by lia. reflexivity.
Qed.

Lemma ends_lt_excl : forall (a x r : list char), a ++ str "<!" = x ++ str ">" ++ r ->
  exists r1, r = r1 ++ str "<!".
Proof.
  intros a x r H. destruct r as [|c r] using rev_ind.
  - change (str "<!") with ([60%N] ++ [33%N]) in H. rewrite app_assoc, app_nil_r in H.
    apply app_inj_tail in H as [_ H]. discriminate.
  - clear IHr. change (str "<!") with ([60%N] ++ [33%N]) in H.
    rewrite !app_assoc in H. apply app_inj_tail in H as [H <-].
    destruct r as [|d r] using rev_ind.
    + rewrite app_nil_r in H. apply app_inj_tail in H as [_ H]. discriminate.
    + clear IHr. rewrite app_assoc in H. apply app_inj_tail in H as [_ <-].
      exists r. rewrite <- app_assoc. reflexivity.
Qed.

Lemma exclamation_ok : forall opts pre c st, ctl opts pre st -> d_handle st = HExclamation ->
  step_ok opts pre c (parse_exclamation_begin st c).
Proof.
  intros opts pre c st [B [P H]] E. start st. destruct H as [-> [[a Ea] Hd]].
  pose proof (InvCtl.k_mem _ _ _ B) as Hm. ndi Hm.
  unfold parse_exclamation_begin. nd.
  destruct det as [d|].
  - destruct Hd as [x [Ed [[H0 H1] H2]]].
    replace (Nat.ltb (length prev) (length d)) with true by (symmetry; apply Nat.ltb_lt; exact H1).
    destruct (N.eqb_spec (nth (length prev) d EOF_CHAR) (to_ascii_uppercase c)) as [Hc|Hc].
    2:{ split; [exact Hm|exact I]. }
    assert (H3 : map to_ascii_uppercase (prev ++ [c]) = firstn (length prev + 1) d).
    { rewrite map_app, H2, firstn_snoc, Hc by exact H1. reflexivity. }
    destruct (Nat.eqb_spec (length prev) (length d - 1)) as [Hl|Hl].
    2:{ split; [reflexivity|]. split; [bs B|]. unfold handle_inv. nd. split; [reflexivity|]. split.
        - exists a. rewrite Ea, <- !app_assoc. reflexivity.
        - exists x. rewrite app_length. cbn [length]. split; [exact Ed|]. split; [lia|exact H3]. }
    assert (Cc : (c = DASH_CHAR /\ x = DComment) \/ (c = LEFT_BRACKET_CHAR /\ x = DXMLCDATA) \/
                 ((c = 69 \/ c = 101)%N /\ x = DDOCTYPE)).
    { rewrite Hl in Hc. rewrite Ed in Hc. destruct x; cbn in Hc; symmetry in Hc.
      - left. split; [|reflexivity]. apply upper_spec in Hc; [exact Hc|reflexivity].
      - right. right. split; [|reflexivity]. unfold to_ascii_uppercase, is_ascii_lowercase in Hc.
        destruct (N.leb 97 c && N.leb c 122)%bool eqn:Ec; lia.
      - right. left. split; [|reflexivity]. apply upper_spec in Hc; [exact Hc|reflexivity]. }
    assert (Plain : forall cd mk nt, cd = CComment \/ cd = CXMLCDATA ->
       (cd = CComment -> nt = NComment /\ mk = DASH_CHAR) -> (cd = CXMLCDATA -> nt = NXMLCDATA /\ mk = RIGHT_BRACKET_CHAR) ->
       step_ok opts pre c (do st <- add_new_node (node_new nt mem) (mkDoc cd (length pre) mem (Some d) prev mk chain cu spec rep chk HCommentOrCdata po rt ids h);
            ROk (set_detect None (set_text_spaces_between (set_prev_chars [] st))))).
    { intros cd mk nt Hcd Hc1 Hc2.
      assert (B1 : base opts pre (mkDoc cd (length pre) mem (Some d) prev mk chain cu spec rep chk HCommentOrCdata po rt ids h)).
      { eapply base_to; [exact B|..]; nd; auto.
        - exact (InvCtl.k_cur _ _ _ B).
        - unfold open_chain. nd. destruct Hcd as [->| ->]; apply incl_refl.
        - discriminate.
        - exact (InvCtl.k_check _ _ _ B). }
      match goal with |- context [add_new_node ?n ?s] =>
        assert (A : _) by (apply (add_plain opts pre n s B1); nd; try discriminate; auto;
          destruct Hcd as [->| ->]; [destruct (Hc1 eq_refl) as [-> _]|destruct (Hc2 eq_refl) as [-> _]
                                    |destruct (Hc1 eq_refl) as [-> _]|destruct (Hc2 eq_refl) as [-> _]]; discriminate)
      end.
      destruct (add_new_node _ _) as [st'|k i|p]; [|contradiction|right; left; exact A].
      destruct A as [h' [-> [L [Ln T]]]]. revert L Ln T. nd. intros L Ln T.
      pose proof (base_heap _ _ _ _ B1 L) as B2. ndi B2.
      assert (Ck : forall i, d_check_textnode (mkDoc cd (length pre) mem (Some d) [] mk chain (length h) spec rep chk HCommentOrCdata po rt ids h') = Some i ->
         textual (ty (d_heap (mkDoc cd (length pre) mem (Some d) [] mk chain (length h) spec rep chk HCommentOrCdata po rt ids h')) i)).
      { exact (InvCtl.k_check _ _ _ B2). }
      destruct (spaces_between_ok (length pre) _ Ck) as [h2 [E2 [Ln2 [L2 [M2 T2]]]]].
      revert E2 Ln2 L2 M2 T2. nd. intros E2 Ln2 L2 M2 T2. rewrite E2. nd.
      assert (L3 : heap_le (length pre) h h2) by (eapply heap_le_trans; eauto).
      assert (Ln3 : length h2 = S (length h)) by congruence.
      cbn [n_type node_new] in T.
      assert (T3 : ty h2 (length h) = nt).
      { rewrite T2, T; [reflexivity|]. rewrite T.
        destruct Hcd as [->| ->]; [destruct (Hc1 eq_refl) as [-> _]|destruct (Hc2 eq_refl) as [-> _]];
          intros [X|X]; discriminate. }
      clear E2 T2 M2 L2 Ln2. split; [reflexivity|]. split.
      - bs B1.
      - unfold handle_inv. nd. rewrite T3. split; [|reflexivity].
        destruct Hcd as [->| ->]; [destruct (Hc1 eq_refl) as [-> ->]|destruct (Hc2 eq_refl) as [-> ->]]; auto. }
    destruct Cc as [[-> _]|[[-> _]|[Hce ->]]].
    + apply (Plain CComment DASH_CHAR NComment); [auto|auto|discriminate].
    + apply (Plain CXMLCDATA RIGHT_BRACKET_CHAR NXMLCDATA); [auto|discriminate|auto].
    + clear Plain. replace (N.eqb c DASH_CHAR || N.eqb c LEFT_BRACKET_CHAR)%bool with false
        by (destruct Hce as [->| ->]; reflexivity).
      replace (N.eqb c 69 || N.eqb c 101)%bool with true by (destruct Hce as [->| ->]; reflexivity).
      assert (B1 : base opts pre (mkDoc CHTMLDOCTYPE (length pre) mem (Some d) prev mark chain cu spec rep chk HDoctypeName po rt ids h)).
      { eapply base_to; [exact B|..]; nd; auto.
        - exact (InvCtl.k_cur _ _ _ B).
        - apply incl_refl.
        - discriminate.
        - exact (InvCtl.k_check _ _ _ B). }
      match goal with |- context [add_new_node ?n ?s] =>
        assert (A : _) by (apply (add_plain opts pre n s B1); nd; try discriminate; auto);
        assert (Am : forall st', add_new_node n s = ROk st' -> n_meta (cur st') = None)
      end.
      { intros st' A'. match type of A' with add_new_node ?n ?s = _ => 
          destruct (add_new_node_spec n s ltac:(discriminate)) as [[_ X]|[par [ch' [idx [ks [X1 [X2 X]]]]]]] end;
        rewrite X in A'; [discriminate|]. injection A' as <-. nd. cbn [node_type_eqb n_type node_new].
        rewrite add_ty; [reflexivity|]. pose proof (InvCtl.k_chain _ _ _ B) as C. ndi C. ndi X1. rewrite X1 in C. apply C. }
      destruct (add_new_node _ _) as [st'|k i|p]; [|contradiction|right; left; exact A].
      specialize (Am _ eq_refl).
      destruct A as [h' [-> [L [Ln T]]]]. revert L Ln T Am. nd. intros L Ln T Am.
      pose proof (base_heap _ _ _ _ B1 L) as B2. ndi B2.
      assert (Ck : forall i, d_check_textnode (mkDoc CHTMLDOCTYPE (length pre) mem (Some d) prev mark chain (length h) spec rep chk HDoctypeName po rt ids h') = Some i ->
         textual (ty (d_heap (mkDoc CHTMLDOCTYPE (length pre) mem (Some d) prev mark chain (length h) spec rep chk HDoctypeName po rt ids h')) i)).
      { exact (InvCtl.k_check _ _ _ B2). }
      destruct (spaces_between_ok (length pre) _ Ck) as [h2 [E2 [Ln2 [L2 [M2 T2]]]]].
      revert E2 Ln2 L2 M2 T2. nd. intros E2 Ln2 L2 M2 T2. rewrite E2. nd.
      assert (L3 : heap_le (length pre) h h2) by (eapply heap_le_trans; eauto).
      assert (Ln3 : length h2 = S (length h)) by congruence.
      cbn [n_type node_new] in T.
      assert (T3 : ty h2 (length h) = NHTMLDOCTYPE).
      { rewrite T2, T; [reflexivity|]. rewrite T. intros [X|X]; discriminate. }
      assert (M3 : n_meta (hget h2 (length h)) = None) by (rewrite M2; exact Am).
      clear E2 T2 M2 L2 Ln2. split; [reflexivity|]. split.
      * bs B1.
      * unfold handle_inv. nd. rewrite T3. repeat split; auto.
        -- assert (X : same_name (prev ++ [c]) (str "DOCTYPE") = true).
           { apply upper_name. rewrite H3, Ed. rewrite Hl, Ed. reflexivity. }
           eapply same_name_trans; [exact X|reflexivity].
        -- exists a. rewrite Ea, <- !app_assoc. reflexivity.
  - subst prev. cbn [app] in Ea.
    assert (Push : forall x, map to_ascii_uppercase [c] = firstn 1 (detect_char_map x) ->
       step_ok opts pre c (ROk (mkDoc CExclamationBegin (length pre) mem (Some (detect_char_map x)) [c] mark chain cu spec rep chk HExclamation po rt ids h))).
    { intros x Hx. split; [reflexivity|]. split; [bs B|]. unfold handle_inv. nd. split; [reflexivity|]. split.
      - exists a. rewrite Ea, <- !app_assoc. reflexivity.
      - exists x. split; [reflexivity|]. split; [destruct x; cbn; lia|exact Hx]. }
    destruct (N.eqb_spec c DASH_CHAR) as [->|N1]; [apply (Push DComment); reflexivity|].
    destruct (N.eqb_spec c 68) as [->|N2]; [apply (Push DDOCTYPE); reflexivity|].
    destruct (N.eqb_spec c 100) as [->|N3]; [apply (Push DDOCTYPE); reflexivity|]. cbn [orb].
    destruct (N.eqb_spec c LEFT_BRACKET_CHAR) as [->|N4].
    2:{ split; [exact Hm|]. left. reflexivity. }
    destruct spec as [[sp tag_name]|]; [|split; [lia|exact I]].
    destruct chain as [|top rest].
    { right. left. apply (InvCtl.k_empty _ _ _ B). reflexivity. }
    destruct (n_meta (hget h top)) as [m|] eqn:M.
    { destruct (is_equal_chars tag_name (m_name m) None); [split; [lia|exact I]|].
      apply (Push DXMLCDATA). reflexivity. }
    destruct rest as [|i rest].
    2:{ destruct (chain_head_name _ _ _ top (i :: rest) B) as [m Hx]; [reflexivity|discriminate|discriminate|].
        unfold get_node in Hx. ndi Hx. congruence. }
    assert (top = 0).
    { pose proof (InvCtl.k_chain _ _ _ B) as C. destruct C as [_ [C _]]. exact C. }
    subst top.
    pose proof (InvCtl.k_special _ _ _ B) as S. unfold special_inv in S. ndi S.
    destruct S as [_ [_ [[k [S1 S2]]|[[r S]|S]]]].
    + unfold open_chain in S1. ndi S1. destruct S1 as [<-|[]].
      unfold name_of, mt in S2. ndi S2. rewrite M in S2. discriminate.
    + right. right. pose proof S as S0. destruct S as [x1 [n [b [n' [w [Ex S]]]]]].
      assert (R : exists r1, r = r1 ++ str "<!").
      { eapply (ends_lt_excl a (x1 ++ str "<" ++ n ++ b ++ str "</" ++ n' ++ w)).
        change (str "<!" ++ []) with (str "<!") in Ea. rewrite <- Ea, Ex.
        repeat (rewrite <- app_assoc; cbn [app]). reflexivity. }
      destruct R as [r1 ->]. exists r1, [].
      replace (r1 ++ str "<![" ++ []) with ((r1 ++ str "<!") ++ [LEFT_BRACKET_CHAR]).
      * apply misspelt_app. exact S0.
      * rewrite app_nil_r, <- app_assoc. reflexivity.
    + right. left. exact S.
Qed.

(** ** The whole run *)

Lemma step_all : forall opts pre c st, ctl opts pre st -> step_ok opts pre c (run_handle st c).
Proof.
  intros opts pre c st K. pose proof K as [B [P H]]. unfold run_handle. destruct (d_handle st) eqn:E.
  - unfold handle_inv in H. rewrite E in H. contradiction.
  - apply wait_ok; assumption.
  - apply text_ok; assumption.
  - apply doctype_name_ok; assumption.
  - apply tag_name_ok; assumption.
  - apply self_closing_ok; assumption.
  - unfold handle_inv in H. rewrite E in H. destruct H as [H1 [H2 H3]]. apply tag_wait_ok; auto.
  - apply attr_key_ok; assumption.
  - apply attr_value_ok; assumption.
  - apply tagend_ok; assumption.
  - apply content_ok; assumption.
  - apply comment_ok; assumption.
  - apply unkown_ok; assumption.
  - apply exclamation_ok; assumption.
Qed.

Lemma next_ok : forall opts pre c st, ctl opts pre st ->
  match next st c with
  | ROk st' => ctl opts (pre ++ [c]) st'
  | RErr k i => i <= length pre /\ err_kind_ok opts k
  | RPanic p => panic_ok pre c p
  end.
Proof.
  intros opts pre c st K. pose proof (step_all _ _ c _ K) as S. unfold next.
  destruct (run_handle st c) as [st'|k i|p]; cbn [rbind]; try exact S.
  destruct S as [P [B H]].
  dst st'. ndi P. subst. nd. split; [|split].
  - dbase B. constructor; auto.
  - nd. rewrite app_length. reflexivity.
  - exact H.
Qed.

Lemma init_ok : forall opts, ctl opts [] (doc_new opts).
Proof.
  intro opts. unfold doc_new. split; [|split].
  - constructor; nd; try reflexivity; try discriminate; auto.
    + intros [|i]; [unfold hget; cbn; lia|]. rewrite hget_default by (cbn; lia). cbn. lia.
    + intros [|i] n; [discriminate|]. unfold name_of, mt. rewrite hget_default by (cbn; lia). discriminate.
    + cbn. auto.
    + intros i [<-|[]] H. contradiction.
  - reflexivity.
  - unfold handle_inv. nd. repeat split; auto. discriminate.
Qed.
