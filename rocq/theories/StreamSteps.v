(** What each token adds to the stream. *)
From Coq Require Import String.
From Verif Require Import Api SpecText SpecParse SpecTree SpecMisc NameProofs TextProofs MiscProofs HeapLemmas InvCtl CtlSteps CtlHandlers CtlEnd CtlRun
  Big BigSteps Replay RawText Struct StructEnd Frame Shape Real Sim CloseInv SpecFix SpecStream Stream.
Local Open Scope string_scope.
Local Open Scope list_scope.

Definition metas (st : doc) : list (option tag_meta) := map (fun i => n_meta (hget (d_heap st) i)) (d_chain_nodes st).
Definition sk (st : doc) := (metas st, d_in_special st, d_mark_char st, map fst (d_id_tags st), d_parse_options st).
Lemma metas_keep : forall opts u v, sok opts u -> d_chain_nodes v = d_chain_nodes u ->
  (forall i, i < length (d_heap u) -> n_meta (hget (d_heap v) i) = n_meta (hget (d_heap u) i)) -> metas v = metas u.
Proof.
  intros opts u v S E H. unfold metas. rewrite E. apply map_ext_in. intros i Hi. apply H. eapply chain_type; eauto.
Qed.
Definition text_cur (st : doc) : Prop := ty (d_heap st) (d_current_node st) = NText.

Lemma W_hand : forall st, is_W st -> d_handle st <> HText.
Proof. intros st [E _]. rewrite E. discriminate. Qed.
Lemma U_hand : forall st, is_U st -> d_handle st <> HText.
Proof. intros st [E _]. rewrite E. discriminate. Qed.

(** ** Characters *)
Lemma view_lt : forall opts u, sok opts u -> is_W u \/ is_T u -> forall l z, view opts u l z ->
  exists v, bstep u [TAG_BEGIN_CHAR] v /\ is_U v /\ view opts v l z /\ sk v = sk u /\ d_chain_nodes v = d_chain_nodes u /\ (text_cur v <-> text_cur u).
Proof.
  intros opts u S [W|T] l z V.
  - eexists. split; [apply bs_wait_lt; exact W|]. split; [repeat split|]. split; [|split; [reflexivity|split; [reflexivity|reflexivity]]].
    pose proof (W_hand _ W) as N. destruct V as [V1 V2 V3 V4]. unfold vh in *. destruct (d_handle u); try (exfalso; apply N; reflexivity); constructor; assumption.
  - pose proof (s_text _ _ S T) as Tx. pose proof (s_cur _ _ S) as Lc. eexists. split; [apply bs_text_lt; exact T|]. split; [repeat split|].
    match goal with |- view _ ?x _ _ /\ _ => set (v := x) end.
    assert (Hv : d_heap v = hupd (hupd (d_heap u) (d_current_node u) (nset_content (Some (d_prev_chars u)))) (d_current_node u) (end_info (d_position u))) by reflexivity.
    assert (G : forall {A} (f : node -> A) i, (forall n c, f (nset_content c n) = f n) -> (forall n c, f (nset_end_at c n) = f n) ->
      f (hget (d_heap v) i) = f (hget (d_heap u) i)).
    { intros A f i F1 F2. rewrite Hv, !(hupd_keep f); auto. intro n. unfold end_info. apply F2. }
    split; [|split; [unfold sk; rewrite (metas_keep opts u v); auto|split; [reflexivity|unfold text_cur, ty; change (d_current_node v) with (d_current_node u); rewrite (G _ n_type) by auto; reflexivity]]].
    rewrite <- (app_nil_r l). change (@nil atom) with (map AChar []). eapply view_text_add with (u := u); eauto.
    + rewrite Hv, !hupd_length. reflexivity.
    + intros j Nj. rewrite Hv, !hget_hupd_other by auto. reflexivity.
    + rewrite (G _ n_type) by auto. exact Tx.
    + exists (d_prev_chars u). rewrite app_nil_r. rewrite (vh_not v) by discriminate. unfold vh. destruct T as [-> _]. rewrite Hv.
      rewrite !hget_hupd_same by (rewrite ?hupd_length; exact Lc). split; [reflexivity|]. unfold end_info. destruct (node_type_eqb _ _); reflexivity.
Qed.

Definition typed (st : doc) (l z : list atom) (c : char) (l' z' : list atom) : Prop :=
  (text_cur st -> l' = l ++ [AChar c] /\ z' = z) /\ (~ text_cur st -> l' = l ++ z ++ [AChar c] /\ z' = []).
Lemma text_dec : forall st, text_cur st \/ ~ text_cur st.
Proof. intro st. unfold text_cur. destruct (ty (d_heap st) (d_current_node st)); auto; right; discriminate. Qed.
Lemma view_char : forall opts u c, sok opts u -> is_W u \/ is_T u -> c <> TAG_BEGIN_CHAR ->
  (auto_fix_unexpected_endtag opts = false -> is_W u -> ~ text_cur u) -> (d_chain_nodes u <> [] \/ text_cur u) -> forall l z, view opts u l z ->
  exists v l' z', bstep u [c] v /\ is_T v /\ view opts v l' z' /\ typed u l z c l' z' /\ sk v = sk u /\ d_chain_nodes v = d_chain_nodes u.
Proof.
  intros opts u c S D Nc Au Ne l z V. pose proof (s_cur _ _ S) as Lc. pose proof (s_opts _ _ S) as So. destruct (text_dec u) as [T|T].
  - assert (Tx := T). unfold text_cur, ty in Tx. destruct (v_text _ _ _ _ V T) as [_ [_ Cn]].
    destruct D as [W|W].
    + rewrite (vh_not u (W_hand _ W)) in Cn. destruct (n_content (hget (d_heap u) (d_current_node u))) as [x|] eqn:Ex; [|congruence].
      assert (Ua : auto_fix_unexpected_endtag (d_parse_options u) = true).
      { rewrite So. destruct (auto_fix_unexpected_endtag opts); [reflexivity|]. exfalso. apply (Au eq_refl W T). }
      pose proof (bs_wait_merge u c (Some x) W Nc Ua Tx Ex) as B. match type of B with bstep _ _ ?v0 => set (v := v0) in B end.
      exists v, (l ++ [AChar c]), z. split; [exact B|]. split; [repeat split|].
      assert (Hv : d_heap v = hupd (d_heap u) (d_current_node u) (nset_content (Some []))) by reflexivity.
      split; [|split; [split; [auto|contradiction]|split; [|reflexivity]]].
      * change [AChar c] with (map AChar [c]). eapply view_text_add with (u := u); eauto; rewrite ?Hv, ?(hupd_keep n_type), ?(hupd_keep n_childs), ?(hupd_keep n_end_tag) by reflexivity; auto.
        -- apply hupd_length.
        -- intros j Nj. apply hget_hupd_other. auto.
        -- exists x. rewrite (vh_not u (W_hand _ W)). split; [exact Ex|]. unfold vh. cbn [v d_handle d_heap d_current_node d_prev_chars].
           rewrite hget_hupd_same by (rewrite hupd_length; exact Lc). reflexivity.
      * unfold sk. rewrite (metas_keep opts u v); auto. intros i _. rewrite Hv, (hupd_keep n_meta) by reflexivity. reflexivity.
    + pose proof (bs_text_char u c W Nc) as B. match type of B with bstep _ _ ?v0 => set (v := v0) in B end.
      exists v, (l ++ [AChar c]), z. split; [exact B|]. split; [repeat split|].
      split; [|split; [split; [auto|contradiction]|split; reflexivity]].
      change [AChar c] with (map AChar [c]). eapply view_text_add with (u := u); eauto.
      exists (d_prev_chars u). unfold vh. cbn [v d_handle d_heap d_current_node d_prev_chars]. destruct W as [-> _].
      rewrite !hget_hupd_same by exact Lc. split; reflexivity.
  - destruct D as [W|W]; [|exfalso; apply T; apply (s_text _ _ S W)].
    destruct Ne as [Ne|Ne]; [|contradiction]. destruct (d_chain_nodes u) as [|p rest] eqn:Ec; [congruence|].
    pose proof (bs_wait_text u c p rest W Nc (or_intror T) Ec) as B. match type of B with bstep _ _ ?v0 => set (v := v0) in B end.
    exists v, (l ++ z ++ [AChar c]), []. split; [exact B|]. split; [repeat split|].
    split; [|split; [split; [contradiction|auto]|split; [|exact Ec]]].
    + change [AChar c] with (map AChar (d_prev_chars v)). eapply view_text_new with (u := u); eauto; try reflexivity. apply W_hand. exact W.
    + unfold sk. rewrite (metas_keep opts u v); auto. intros i Li. cbn [v d_heap]. unfold add_child. rewrite (hupd_keep n_meta) by reflexivity.
      rewrite hget_app_old by exact Li. reflexivity.
Qed.

Lemma lt_text_T : forall u c, is_T (lt_text u c).
Proof. intros u c. unfold lt_text. destruct (n_type (cur u)); try (repeat split; fail). destruct (n_content (cur u)); repeat split. Qed.
Lemma view_lt_text : forall opts u chars, sok opts u -> is_U u -> auto_fix_unescaped_lt opts = true -> forall l z, view opts u l z ->
  view opts (lt_text u chars) (l ++ map AChar chars) z /\ sk (lt_text u chars) = sk u /\ d_chain_nodes (lt_text u chars) = d_chain_nodes u.
Proof.
  intros opts u chars S U Lt l z V. pose proof (s_cur _ _ S) as Lc. set (v := lt_text u chars).
  assert (Ch : d_chain_nodes v = d_chain_nodes u).
  { unfold v, lt_text. destruct (n_type (cur u)); try reflexivity. destruct (n_content (cur u)); reflexivity. }
  assert (Sk : sk v = sk u).
  { unfold sk. rewrite (metas_keep opts u v); auto.
    - unfold v, lt_text. destruct (n_type (cur u)); try reflexivity. destruct (n_content (cur u)); reflexivity.
    - intros i Li. unfold v, lt_text. assert (G : forall n p, n_meta (hget (add_orphan (d_heap u) p n) i) = n_meta (hget (d_heap u) i)).
      { intros n p. unfold add_orphan. rewrite (hupd_keep n_meta) by reflexivity. rewrite hget_app_old by exact Li. reflexivity. }
      destruct (n_type (cur u)); try apply G. destruct (n_content (cur u)); [|reflexivity]. cbn [d_heap]. apply (hupd_keep n_meta). reflexivity. }
  split; [|split; assumption]. destruct (text_dec u) as [T|T].
  - destruct (v_text _ _ _ _ V T) as [_ [_ Cn]]. rewrite (vh_not u (U_hand _ U)) in Cn. destruct (n_content (hget (d_heap u) (d_current_node u))) as [x|] eqn:Ex; [|congruence].
    assert (Tx := T). unfold text_cur, ty in Tx.
    assert (Hv : d_heap v = hupd (d_heap u) (d_current_node u) (nset_content (Some [])) /\ d_current_node v = d_current_node u /\ d_prev_chars v = x ++ chars /\ d_handle v = HText).
    { unfold v, lt_text, cur, get_node. rewrite Tx, Ex. repeat split. }
    destruct Hv as [Hv [Hc [Hp Hh]]]. eapply view_text_add with (u := u); eauto; rewrite ?Hv, ?(hupd_keep n_type), ?(hupd_keep n_childs), ?(hupd_keep n_end_tag) by reflexivity; auto.
    + apply hupd_length.
    + intros j Nj. apply hget_hupd_other. auto.
    + exists x. rewrite (vh_not u (U_hand _ U)). split; [exact Ex|]. unfold vh. rewrite Hh, Hc, Hp, Hv. rewrite hget_hupd_same by (rewrite hupd_length; exact Lc). reflexivity.
  - assert (Hv : d_heap v = add_orphan (d_heap u) (lt_parent u) (node_new NText (d_mem_position u)) /\ d_current_node v = length (d_heap u) /\ d_prev_chars v = chars /\ d_handle v = HText).
    { unfold v, lt_text, cur, get_node. unfold text_cur, ty in T. destruct (n_type (hget (d_heap u) (d_current_node u))); try congruence; repeat split. }
    destruct Hv as [Hv [Hc [Hp Hh]]]. rewrite <- Hp. eapply view_lt_new with (u := u); eauto; try reflexivity. apply U_hand. exact U.
Qed.

(** ** Nodes *)
Lemma ev_ext : forall ck pt pk pe h h1 h', ev ck pt pk pe h h1 -> length h <= length h' ->
  (forall j, j < length h -> hget h' j = hget h1 j) -> ev ck pt pk pe h h'.
Proof.
  intros ck pt pk pe h h1 h' [A B C D E F] L G. constructor; [exact L|..]; intros i Li; unfold ty in *; rewrite G by exact Li; auto.
Qed.
Lemma view_opened : forall opts u v l z p rest t n0 e,
  sok opts u -> sok opts v -> is_U u -> is_W v -> view opts u l z -> d_chain_nodes u = p :: rest ->
  length (d_heap u) < length (d_heap v) ->
  (forall j, j < length (d_heap u) -> hget (d_heap v) j = hget (opened u p t) j) -> hget (d_heap v) (length (d_heap u)) = n0 ->
  n_childs n0 = None -> ends (d_heap v) (length (d_heap v)) (length (d_heap u)) e -> n_type n0 <> NText -> d_current_node v = length (d_heap u) ->
  (forall i, In i (d_chain_nodes v) -> i = length (d_heap u) \/ In i (d_chain_nodes u)) ->
  (lt_parent v = length (d_heap u) \/ e = []) ->
  view opts v (l ++ z ++ own (n_type n0) (n_content n0) (n_meta n0)) e /\
  (forall i, i < length (d_heap u) -> n_meta (hget (d_heap v) i) = n_meta (hget (d_heap u) i)).
Proof.
  intros opts u v l z p rest t n0 e S S' U W V Ec L G G0 Ck He Tk Ecur Ch Lp.
  assert (Ip : In p (d_chain_nodes u)) by (rewrite Ec; left; reflexivity). destruct (chain_type _ _ _ S Ip) as [T1 [T2 L1]].
  assert (E : ev (d_check_textnode u) None (Some p) None (d_heap u) (d_heap v)) by (eapply ev_ext; [apply ev_opened|lia|exact G]).
  split; [|apply (ev_meta _ _ _ _ _ _ E)].
  replace (own (n_type n0) (n_content n0) (n_meta n0)) with (own_at (d_heap v) (length (d_heap u))) by (unfold own_at; rewrite G0; reflexivity).
  eapply view_node with (u := u) (p := p) (rest := rest) (ck := d_check_textnode u); eauto.
  - apply U_hand; exact U.
  - apply W_hand; exact W.
  - apply (sok_ck _ _ S).
  - unfold kids at 1. rewrite G by exact L1. apply kids_opened_p. exact L1.
  - unfold kids. rewrite G0, Ck. reflexivity.
  - unfold ty. rewrite G0. exact Tk.
Qed.
Lemma metas_opened : forall opts u v, sok opts u ->
  (forall i, i < length (d_heap u) -> n_meta (hget (d_heap v) i) = n_meta (hget (d_heap u) i)) ->
  forall ch, incl ch (d_chain_nodes u) -> map (fun i => n_meta (hget (d_heap v) i)) ch = map (fun i => n_meta (hget (d_heap u) i)) ch.
Proof. intros opts u v S H ch I. apply map_ext_in. intros i Hi. apply H. eapply chain_type; eauto. Qed.

Definition meta_mark (t : node_type) (m : tag_meta) : atom := AMark t None (Some (mset_auto_fix false m)).
Lemma view_meta : forall opts u l z p rest t m src mem mk ch sp ids,
  sok opts u -> is_U u -> view opts u l z -> d_chain_nodes u = p :: rest -> t = NTag \/ t = NHTMLDOCTYPE ->
  (forall i, In i ch -> i = length (d_heap u) \/ In i (d_chain_nodes u)) ->
  let v := W_of u src mem mk ch (length (d_heap u)) sp None ids (set_meta (opened u p t) (length (d_heap u)) m) in
  sok opts v ->
  view opts v (l ++ z ++ [meta_mark t m]) [] /\ ~ text_cur v /\ n_meta (hget (d_heap v) (length (d_heap u))) = Some m /\
  (forall i, i < length (d_heap u) -> n_meta (hget (d_heap v) i) = n_meta (hget (d_heap u) i)).
Proof.
  intros opts u l z p rest t m src mem mk ch sp ids S U V Ec Ht Hc v S'.
  assert (G0 : hget (d_heap v) (length (d_heap u)) = nset_meta (Some m) (child_node (d_heap u) p (node_new t (d_mem_position u)))).
  { cbn [v W_of d_heap]. unfold set_meta. rewrite hget_hupd_same by (rewrite opened_length; lia). f_equal. eapply hget_opened_new; eauto. }
  assert (L : length (d_heap v) = Datatypes.S (length (d_heap u))) by (cbn [v W_of d_heap]; rewrite set_meta_length, opened_length; reflexivity).
  assert (Tk : n_type (hget (d_heap v) (length (d_heap u))) = t) by (rewrite G0; reflexivity).
  assert (Nt : t <> NText) by (destruct Ht as [-> | ->]; discriminate).
  pose (n0 := hget (d_heap v) (length (d_heap u))).
  destruct (view_opened opts u v l z p rest t n0 [] S S' U) as [Vv Mv]; auto; unfold n0 in *; try (rewrite G0 in Vv); rewrite ?G0; auto.
  - split; [reflexivity|]. split; [left; reflexivity|split; reflexivity].
  - lia.
  - intros j Lj. cbn [v W_of d_heap]. unfold set_meta. apply hget_hupd_other. lia.
  - unfold ends. rewrite G0. reflexivity.
  - split; [|split; [unfold text_cur; cbn [v W_of d_current_node]; unfold ty; fold v; rewrite Tk; exact Nt|split; [rewrite ?G0; reflexivity|exact Mv]]].
    cbn [n_type n_content n_meta nset_meta child_node] in Vv.
    match type of Vv with view _ _ (_ ++ _ ++ ?x) _ => replace x with [meta_mark t m] in Vv; [exact Vv|] end.
    unfold meta_mark. destruct Ht as [-> | ->]; reflexivity.
Qed.

Lemma view_body : forall opts u l z p rest t x pos src mem mk sp ids,
  sok opts u -> is_U u -> view opts u l z -> d_chain_nodes u = p :: rest -> t = NComment \/ t = NXMLCDATA ->
  let v := W_of u src mem mk (d_chain_nodes u) (length (d_heap u)) sp None ids
    (hupd (hupd (opened u p t) (length (d_heap u)) (nset_content (Some x))) (length (d_heap u)) (end_info pos)) in
  sok opts v ->
  view opts v (l ++ z ++ [AMark t (Some x) None]) [] /\ ~ text_cur v /\
  (forall i, i < length (d_heap u) -> n_meta (hget (d_heap v) i) = n_meta (hget (d_heap u) i)).
Proof.
  intros opts u l z p rest t x pos src mem mk sp ids S U V Ec Ht v S'.
  assert (G0 : hget (d_heap v) (length (d_heap u)) = end_info pos (nset_content (Some x) (child_node (d_heap u) p (node_new t (d_mem_position u))))).
  { cbn [v W_of d_heap]. rewrite !hget_hupd_same by (rewrite ?hupd_length, opened_length; lia). do 2 f_equal. eapply hget_opened_new; eauto. }
  assert (L : length (d_heap v) = Datatypes.S (length (d_heap u))) by (cbn [v W_of d_heap]; rewrite !hupd_length, opened_length; reflexivity).
  assert (Tk : n_type (hget (d_heap v) (length (d_heap u))) = t) by (rewrite G0; reflexivity).
  assert (Nt : t <> NText) by (destruct Ht as [-> | ->]; discriminate).
  pose (n0 := hget (d_heap v) (length (d_heap u))).
  destruct (view_opened opts u v l z p rest t n0 [] S S' U) as [Vv Mv]; auto; unfold n0 in *; try (rewrite G0 in Vv); rewrite ?G0; auto.
  - split; [reflexivity|]. split; [left; reflexivity|split; reflexivity].
  - lia.
  - intros j Lj. cbn [v W_of d_heap]. rewrite !hget_hupd_other by lia. reflexivity.
  - unfold ends. rewrite G0. reflexivity.
  - split; [|split; [unfold text_cur; cbn [v W_of d_current_node]; unfold ty; fold v; rewrite Tk; exact Nt|exact Mv]].
    match type of Vv with view _ _ (_ ++ _ ++ ?y) _ => replace y with [AMark t (Some x) None] in Vv; [exact Vv|] end.
    destruct Ht as [-> | ->]; reflexivity.
Qed.

Lemma view_raw : forall opts u l z p rest m x y pos src mem mk sp ids,
  sok opts u -> is_U u -> view opts u l z -> d_chain_nodes u = p :: rest -> m_self_closed m = false -> m_auto_fix m = false ->
  let v := W_of u src mem mk (d_chain_nodes u) (length (d_heap u)) sp None ids
    (hupd (set_meta (opened u p NTag) (length (d_heap u)) m
            ++ [nset_parent (Some (length (d_heap u))) (nset_content (Some y) (node_new NTagEnd pos))])
        (length (d_heap u)) (fun n => nset_content (Some x) (nset_end_tag (Some (S (length (d_heap u)))) n))) in
  sok opts v ->
  view opts v (l ++ z ++ [AMark NTag (Some x) (Some (mset_auto_fix false m))]) [AMark NTagEnd (Some y) None] /\ ~ text_cur v /\
  (forall i, i < length (d_heap u) -> n_meta (hget (d_heap v) i) = n_meta (hget (d_heap u) i)).
Proof.
  intros opts u l z p rest m x y pos src mem mk sp ids S U V Ec M1 M2 v S'.
  set (k := length (d_heap u)) in *.
  assert (L1 : length (set_meta (opened u p NTag) k m) = Datatypes.S k) by (rewrite set_meta_length, opened_length; reflexivity).
  assert (G0 : hget (d_heap v) k = nset_content (Some x) (nset_end_tag (Some (Datatypes.S k)) (nset_meta (Some m) (child_node (d_heap u) p (node_new NTag (d_mem_position u)))))).
  { cbn [v W_of d_heap]. rewrite hget_hupd_same by (rewrite app_length; lia). rewrite hget_app_old by lia. do 2 f_equal.
    unfold set_meta. rewrite hget_hupd_same by (rewrite opened_length; fold k; lia). f_equal. eapply hget_opened_new; eauto. }
  assert (G1 : hget (d_heap v) (Datatypes.S k) = nset_parent (Some k) (nset_content (Some y) (node_new NTagEnd pos))).
  { cbn [v W_of d_heap]. rewrite hget_hupd_other by lia. rewrite <- L1. apply hget_app_new. }
  assert (L : length (d_heap v) = Datatypes.S (Datatypes.S k)) by (cbn [v W_of d_heap]; rewrite hupd_length, app_length, L1; cbn; lia).
  assert (Tk : n_type (hget (d_heap v) k) = NTag) by (rewrite G0; reflexivity).
  pose (n0 := hget (d_heap v) (length (d_heap u))).
  destruct (view_opened opts u v l z p rest NTag n0 [AMark NTagEnd (Some y) None] S S' U) as [Vv Mv]; auto; unfold n0 in *; try (rewrite G0 in Vv); rewrite ?G0; auto.
  - split; [reflexivity|]. split; [left; reflexivity|split; reflexivity].
  - fold k. lia.
  - fold k. intros j Lj. cbn [v W_of d_heap]. rewrite hget_hupd_other by lia. rewrite hget_app_old by lia. unfold set_meta. apply hget_hupd_other. lia.
  - fold k. rewrite G0. reflexivity.
  - fold k. unfold ends. rewrite G0. cbn [n_end_tag nset_content nset_end_tag]. rewrite L. split; [lia|]. unfold own_at. rewrite G1. split; reflexivity.
  - fold k. rewrite G0. discriminate.
  - left. unfold lt_parent, cur, get_node. cbn [v W_of d_current_node]. fold v. fold k. rewrite Tk, G0.
    change (match Some m with Some m0 => if (m_self_closed m0 || m_auto_fix m0)%bool then match d_chain_nodes v with i :: _ => i | [] => d_root v end else k | None => k end = k).
    cbv iota beta. rewrite M1, M2. reflexivity.
  - fold k in Vv. rewrite G0 in Vv. split; [exact Vv|]. split; [|exact Mv]. unfold text_cur. cbn [v W_of d_current_node]. unfold ty. fold v. fold k. rewrite Tk. discriminate.
Qed.
