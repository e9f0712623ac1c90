(** Every token between tags: what is written, what the parser does, what is added. *)
From Coq Require Import String ZifyBool ZifyN.
From Verif Require Import Api SpecText SpecParse SpecMisc SpecTree TextProofs NameProofs MiscProofs SpecDoc HeapLemmas
  InvCtl Big BigSteps Replay RawText Area Struct Frame CloseInv Shape Real Sim.
Local Open Scope string_scope.
Local Open Scope list_scope.

Definition nst (st : doc) (P : list pframe) : nesting :=
  mkNest (pnames P) (option_map snd (d_in_special st)).

(** [takes opts u t k st]: after '<', the text [t] is the token [k] and leads to [st]. *)
Definition takes (opts : parse_options) (u : doc) (t : list char) (k : token) (st : doc) : Prop :=
  bstep u t st /\ is_W st /\ written opts k (60%N :: t) /\ is_ktext k = false /\
  forall f frs, simU u f frs -> exists f' frs', simW st f' frs' /\ sh (f' :: frs') = grow k (sh (f :: frs)) /\
    nest opts k (nst u (sh (f :: frs))) = Some (nst st (sh (f' :: frs'))).

Lemma W_of_W : forall u src mem mark ch cu sp ck ids h, is_W (W_of u src mem mark ch cu sp ck ids h).
Proof. intros. repeat split. left. reflexivity. Qed.

Lemma area_start_with : forall a, area_start a <-> starts_with slash_filler a.
Proof.
  intros [|c a]; [cbn; tauto|]. cbn. unfold slash_filler. change END_SLASH_CHAR with 47%N. tauto.
Qed.
Lemma name_fits_iff : forall cs n nm, name_fits cs n nm = true <-> fits cs n nm.
Proof.
  intros [] n nm; unfold name_fits, fits; [rewrite chars_eqb_eq|]; split.
  - intros <-. split; [apply same_name_refl|auto].
  - intros [_ X]. auto.
  - intro. split; [assumption|discriminate].
  - tauto.
Qed.
Lemma raw_not_void : forall n, raw_name n = true -> void_name n = false.
Proof.
  intros n H. unfold raw_name, void_name, one_of in *. apply existsb_exists in H. destruct H as [x [Hx H]].
  apply Bool.not_true_iff_false. intro V. apply existsb_exists in V. destruct V as [y [Hy V]].
  rewrite same_name_sym in H. pose proof (same_name_trans _ _ _ H V) as X.
  cbn in Hx, Hy. repeat (destruct Hx as [<-|Hx]; [repeat (destruct Hy as [<-|Hy]; [discriminate X|]); destruct Hy|]). destruct Hx.
Qed.
Lemma shape_items : forall f y, map shape (f_items f ++ [y]) = map shape (f_items f) ++ [shape y].
Proof. intros. apply map_app. Qed.

(** A new node without contents below it. *)
Lemma new_set_meta : forall opts u p rest t m, sok opts u -> d_chain_nodes u = p :: rest ->
  let h := set_meta (opened u p t) (length (d_heap u)) m in
  ev (d_check_textnode u) None (Some p) None (d_heap u) h /\ kids h p = kids (d_heap u) p ++ [length (d_heap u)] /\
  length h = S (length (d_heap u)) /\ kids h (length (d_heap u)) = [] /\
  hget h (length (d_heap u)) = nset_meta (Some m) (child_node (d_heap u) p (node_new t (d_mem_position u))).
Proof.
  intros opts u p rest t m S E h. pose proof (chain_hd _ _ _ _ S E) as Lp. unfold h, set_meta.
  assert (X : hget (hupd (opened u p t) (length (d_heap u)) (nset_meta (Some m))) (length (d_heap u)) =
     nset_meta (Some m) (child_node (d_heap u) p (node_new t (d_mem_position u)))).
  { rewrite hget_hupd_same by (rewrite opened_length; lia). rewrite (hget_opened_new opts u p rest t S E). reflexivity. }
  split; [|split; [|split; [|split]]].
  - apply ev_new; [apply ev_opened|apply le_n].
  - rewrite kids_keep by reflexivity. apply kids_opened_p. exact Lp.
  - rewrite hupd_length, opened_length. reflexivity.
  - unfold kids. rewrite X. reflexivity.
  - exact X.
Qed.

Lemma grow_add : forall k x f frs y, (forall P, grow k P = add_item x P) -> shape y = x ->
  sh (mkFr (f_tag f) (f_items f ++ [y]) :: frs) = grow k (sh (f :: frs)).
Proof. intros k x f frs y G <-. rewrite G. cbn. rewrite shape_items. reflexivity. Qed.
Lemma pnames_add : forall f frs y, pnames (sh (mkFr (f_tag f) (f_items f ++ [y]) :: frs)) = pnames (sh (f :: frs)).
Proof. reflexivity. Qed.

Lemma takes_open : forall opts u n a t p rest, is_U u -> sok opts u -> open_name n -> area_start a ->
  d_chain_nodes u = p :: rest ->
  ta_run opts false a (ta_start (d_mark_char u)) = Some t -> ta_closable t = true ->
  ta_slash t = false -> void_name n = false -> raw_name n = false ->
  exists st, takes opts u (n ++ a ++ str ">") (KOpen n (ta_attrs (ta_close t))) st.
Proof.
  intros opts u n a t p rest U S O As E R C Sl V Rw. eexists. split; [|split; [|split; [|split]]].
  - rewrite <- (s_opts _ _ S) in R. unfold void_name, raw_name in *. rewrite <- is_void_spec in V. rewrite <- is_content_spec in Rw.
    eapply bs_tag; eauto.
  - apply W_of_W.
  - change (60%N :: n ++ a ++ str ">") with (str "<" ++ n ++ a ++ str ">").
    apply w_open; auto; [apply area_start_with, As|].
    pose proof (run_area _ _ _ _ _ R C) as X. rewrite Sl in X. exact X.
  - reflexivity.
  - intros f frs Su. destruct (new_set_meta opts u p rest NTag (ta_meta n false (ta_close t)) S E) as [E1 [K [L [K0 X]]]].
    exists (mkFr (Some (n, ta_attrs (ta_close t))) []), (f :: frs). split; [|split].
    + eapply sim_open; eauto; try reflexivity. unfold W_of. cbn [d_heap].
      split; [lia|]. rewrite X. repeat split. eexists. split; [reflexivity|]. repeat split. change (is_void_tag (lower n) = false).
      rewrite is_void_spec. exact V.
    + reflexivity.
    + unfold nst, W_of. cbn [nest d_in_special open_names foreign]. f_equal. f_equal.
      unfold special_after, special_elem. rewrite special_spec.
      destruct (d_in_special u); [reflexivity|]. cbn [option_map]. destruct (same_name n (str "svg")); [reflexivity|].
      destruct (same_name n (str "math")); reflexivity.
Qed.

Lemma takes_void : forall opts u n a t p rest, is_U u -> sok opts u -> open_name n -> area_start a ->
  d_chain_nodes u = p :: rest ->
  ta_run opts false a (ta_start (d_mark_char u)) = Some t -> ta_closable t = true ->
  ta_slash t = false -> void_name n = true ->
  exists st, takes opts u (n ++ a ++ str ">") (KLeaf n (ta_attrs (ta_close t)) false) st.
Proof.
  intros opts u n a t p rest U S O As E R C Sl V. eexists. split; [|split; [|split; [|split]]].
  - rewrite <- (s_opts _ _ S) in R. unfold void_name in *. rewrite <- is_void_spec in V. eapply bs_void; eauto.
  - apply W_of_W.
  - change (60%N :: n ++ a ++ str ">") with (str "<" ++ n ++ a ++ str ">").
    apply w_leaf; auto; [apply area_start_with, As|].
    pose proof (run_area _ _ _ _ _ R C) as X. rewrite Sl in X. exact X.
  - reflexivity.
  - intros f frs Su. destruct (new_set_meta opts u p rest NTag (ta_meta n false (ta_close t)) S E) as [E1 [K [L [K0 X]]]].
    eexists (mkFr (f_tag f) (f_items f ++ [_])), frs. split; [|split].
    + eapply sim_item with (y := YLeaf n (ta_attrs (ta_close t)) false); eauto; try reflexivity.
      * unfold W_of. cbn [d_heap]. eapply re_leaf; rewrite ?X; try reflexivity; [lia| |exact V]. repeat split. exact (is_void_spec n).
      * repeat split.
    + eapply grow_add; reflexivity.
    + reflexivity.
Qed.

Lemma ta_slash_close : forall t, ta_slash t = true -> ta_close t = t /\ ta_closable t = true.
Proof. intros t H. unfold ta_slash, ta_close, ta_closable in *. destruct (ta_mode t); try discriminate. auto. Qed.
Lemma self_ok : forall opts u n, sok opts u -> self_close_ok u n =
  (allow_self_closing opts || void_name n || match option_map snd (d_in_special u) with Some _ => true | None => false end)%bool.
Proof.
  intros opts u n S. unfold self_close_ok, void_name. rewrite (s_opts _ _ S), is_void_spec. destruct (d_in_special u); reflexivity.
Qed.
Lemma takes_self : forall opts u n a t p rest, is_U u -> sok opts u -> open_name n -> area_start a ->
  d_chain_nodes u = p :: rest ->
  ta_run opts false a (ta_start (d_mark_char u)) = Some t ->
  ta_slash t = true -> self_close_ok u n = true ->
  exists st, takes opts u (n ++ a ++ str ">") (KLeaf n (ta_attrs (ta_close t)) true) st.
Proof.
  intros opts u n a t p rest U S O As E R Sl V. destruct (ta_slash_close t Sl) as [Tc C]. eexists. split; [|split; [|split; [|split]]].
  - rewrite <- (s_opts _ _ S) in R. eapply bs_self; eauto.
  - apply W_of_W.
  - change (60%N :: n ++ a ++ str ">") with (str "<" ++ n ++ a ++ str ">").
    apply w_leaf; auto; [apply area_start_with, As|].
    pose proof (run_area _ _ _ _ _ R C) as X. rewrite Sl in X. exact X.
  - reflexivity.
  - intros f frs Su. rewrite Tc. destruct (new_set_meta opts u p rest NTag (ta_meta n true t) S E) as [E1 [K [L [K0 X]]]].
    eexists (mkFr (f_tag f) (f_items f ++ [_])), frs. split; [|split].
    + eapply sim_item with (y := YLeaf n (ta_attrs t) true); eauto; try reflexivity.
      * unfold W_of. cbn [d_heap]. eapply re_leaf; rewrite ?X; try reflexivity; [lia|]. repeat split. exact (is_void_spec n).
      * repeat split.
    + eapply grow_add; reflexivity.
    + rewrite (self_ok _ _ _ S) in V. cbn [nest nst foreign]. cbn [negb orb]. rewrite V. reflexivity.
Qed.

(** Raw text. *)
Lemma raw_end_spec : forall opts n b, open_name n ->
  (raw_end opts (str "</" ++ n) b = true <-> ends_in_end_tag (case_sensitive_tagname opts) n b).
Proof.
  intros opts n b O. rewrite raw_end_iff by exact O. unfold ends_in_end_tag.
  split; intros [body [nm [w [A [B C]]]]]; exists body, nm, w; rewrite name_fits_iff in *; auto.
Qed.
Lemma open_first : forall f P b, (forall p, f p = true <-> P p) ->
  (open_until f b /\ f b = true <-> first_end P b).
Proof.
  intros f P b H. unfold open_until, first_end. rewrite H. split.
  - intros [A B]. split; [exact B|]. intros p q X Y. apply H in Y. rewrite (A p q X) in Y. discriminate.
  - intros [A B]. split; [|exact A]. intros p q X. apply Bool.not_true_iff_false. rewrite H. eapply B; eauto.
Qed.
Lemma trim_split : forall s, exists w, s = trim_right s ++ w /\ Forall is_ws w.
Proof.
  intro s. induction s as [|c s [w [E W]]]; [exists []; auto|]. cbn [trim_right]. destruct (trim_right s) as [|d r] eqn:T.
  - cbn in E. subst w. destruct (is_ascii_whitespace c) eqn:C; [exists (c :: s)|exists s]; cbn; auto.
  - exists w. split; [cbn; f_equal; exact E|exact W].
Qed.
Lemma takes_raw : forall opts u n a t p rest c e, is_U u -> sok opts u -> open_name n -> area_start a ->
  d_chain_nodes u = p :: rest ->
  ta_run opts false a (ta_start (d_mark_char u)) = Some t -> ta_closable t = true ->
  ta_slash t = false -> raw_name n = true ->
  name_fits (case_sensitive_tagname opts) n (trim_right e) = true ->
  first_end (ends_in_end_tag (case_sensitive_tagname opts) n) (c ++ str "</" ++ e) ->
  exists st, takes opts u (n ++ a ++ str ">" ++ (c ++ str "</" ++ e) ++ str ">") (KRaw n (ta_attrs (ta_close t)) c e) st.
Proof.
  intros opts u n a t p rest c e U S O As E R C Sl V Nf Fe.
  set (b := c ++ str "</" ++ e) in *.
  assert (Hk : let k := length (chars_trim_end b) - length (str "</" ++ n) in firstn k b = c /\ skipn 2 (skipn k b) = e).
  { destruct (trim_split e) as [w [Ee Ww]]. rewrite Ee. eapply raw_split; eauto; [|apply name_fits_iff; exact Nf].
    unfold b. rewrite Ee at 1. reflexivity. }
  cbv zeta in Hk. destruct Hk as [Hk1 Hk2].
  eexists. split; [|split; [|split; [|split]]].
  - pose proof (proj2 (open_first _ _ b (fun q => raw_end_spec opts n q O)) Fe) as [F1 F2].
    rewrite <- (s_opts _ _ S) in R, F1, F2. unfold raw_name in V. rewrite <- is_content_spec in V. eapply bs_raw; eauto.
  - apply W_of_W.
  - change (60%N :: n ++ a ++ str ">" ++ b ++ str ">") with (str "<" ++ n ++ a ++ str ">" ++ b ++ str ">").
    unfold b. rewrite <- !app_assoc. apply w_raw; auto; [apply area_start_with, As|].
    pose proof (run_area _ _ _ _ _ R C) as X. rewrite Sl in X. exact X.
  - reflexivity.
  - intros f frs Su. destruct (new_set_meta opts u p rest NTag (ta_meta n false (ta_close t)) S E) as [E1 [K [L [K0 X]]]].
    eexists (mkFr (f_tag f) (f_items f ++ [_])), frs. split; [|split].
    + eapply sim_item with (y := YRaw n (ta_attrs (ta_close t)) c e); eauto; try reflexivity.
      * unfold W_of. cbn [d_heap]. apply ev_new; [|apply le_n]. apply ev_app. exact E1.
      * unfold W_of. cbn [d_heap]. rewrite kids_keep, kids_app by reflexivity. exact K.
      * unfold W_of. cbn [d_heap].
        set (h1 := set_meta (opened u p NTag) (length (d_heap u)) (ta_meta n false (ta_close t))) in *.
        assert (Y : forall q, hget (h1 ++ [q]) (length (d_heap u)) = nset_meta (Some (ta_meta n false (ta_close t))) (child_node (d_heap u) p (node_new NTag (d_mem_position u)))).
        { intro q. rewrite hget_app_old by lia. exact X. }
        apply re_raw with (m := ta_meta n false (ta_close t)); rewrite ?hget_hupd_same, ?Y by (rewrite app_length; lia); try reflexivity.
        -- rewrite hupd_length, app_length. lia.
        -- exact (f_equal Some Hk1).
        -- exists (Datatypes.S (length (d_heap u))). rewrite hget_hupd_same, Y by (rewrite app_length; lia).
           rewrite hupd_length, (app_length h1). rewrite hget_hupd_other by lia. rewrite <- L, hget_app_new.
           split; [reflexivity|]. split; [cbn [length]; lia|]. split; [reflexivity|]. split; [|repeat split].
           exact (f_equal Some Hk2).
        -- repeat split. change (is_void_tag (lower n) = false). rewrite is_void_spec. apply raw_not_void. exact V.
      * repeat split.
    + eapply grow_add; reflexivity.
    + reflexivity.
Qed.

(** Comments, CDATA, doctypes. *)
Lemma cm_end_spec : forall m b, cm_end m b = true <-> ends_in_two m b.
Proof. intros. apply cm_end_iff. Qed.
Lemma new_content : forall opts u p rest t c pos, sok opts u -> d_chain_nodes u = p :: rest ->
  let h := hupd (hupd (opened u p t) (length (d_heap u)) (nset_content (Some c))) (length (d_heap u)) (end_info pos) in
  ev (d_check_textnode u) None (Some p) None (d_heap u) h /\ kids h p = kids (d_heap u) p ++ [length (d_heap u)] /\
  length h = S (length (d_heap u)) /\ n_type (hget h (length (d_heap u))) = t /\
  n_content (hget h (length (d_heap u))) = Some c /\ bare_node (hget h (length (d_heap u))).
Proof.
  intros opts u p rest t c pos S E h. pose proof (chain_hd _ _ _ _ S E) as Lp. unfold h.
  assert (X : hget (hupd (hupd (opened u p t) (length (d_heap u)) (nset_content (Some c))) (length (d_heap u)) (end_info pos)) (length (d_heap u)) =
     end_info pos (nset_content (Some c) (child_node (d_heap u) p (node_new t (d_mem_position u))))).
  { rewrite !hget_hupd_same by (rewrite ?hupd_length, opened_length; lia). rewrite (hget_opened_new opts u p rest t S E). reflexivity. }
  rewrite X. split; [|split; [|split; [|repeat split]]].
  - apply ev_new; [|apply le_n]. apply ev_new; [apply ev_opened|apply le_n].
  - rewrite !kids_keep by reflexivity. apply kids_opened_p. exact Lp.
  - rewrite !hupd_length, opened_length. reflexivity.
Qed.
Lemma takes_comment : forall opts u c p rest, is_U u -> sok opts u -> d_chain_nodes u = p :: rest ->
  first_end (ends_in_two 45%N) (c ++ str "--") ->
  exists st, takes opts u (str "!--" ++ (c ++ str "--") ++ str ">") (KComment c) st.
Proof.
  intros opts u c p rest U S E Fe. eexists. split; [|split; [|split; [|split]]].
  - pose proof (proj2 (open_first _ _ _ (cm_end_spec 45%N)) Fe) as [F1 F2]. eapply bs_comment; eauto.
  - apply W_of_W.
  - change (60%N :: str "!--" ++ (c ++ str "--") ++ str ">") with (str "<!--" ++ (c ++ str "--") ++ str ">").
    rewrite <- app_assoc. change (str "--" ++ str ">") with (str "-->"). apply w_comment. exact Fe.
  - reflexivity.
  - intros f frs Su. 
    destruct (new_content opts u p rest NComment c (d_position u + length (str "!--" ++ c ++ str "--")) S E) as [E1 [K [L [Ty [Ct B]]]]].
    pose proof (cm_split DASH_CHAR c) as Sp. change [DASH_CHAR; DASH_CHAR] with (str "--") in Sp.
    eexists (mkFr (f_tag f) (f_items f ++ [_])), frs. split; [|split].
    + eapply sim_item with (y := YComment c); eauto; try reflexivity; unfold W_of; cbn [d_heap]; try rewrite Sp.
      * exact E1.
      * exact K.
      * apply re_comment; auto. lia.
      * repeat split.
    + eapply grow_add; reflexivity.
    + reflexivity.
Qed.

Lemma top_frame : forall h p rest ex f frs, opens h (p :: rest) ex (f :: frs) ->
  match f_tag f with
  | Some (n, l) => rest <> [] /\ frs <> [] /\ exists m, n_meta (hget h p) = Some m /\ m_name m = n
  | None => rest = [] /\ frs = [] /\ n_meta (hget h p) = None
  end.
Proof.
  intros h p rest ex f frs O. inversion O as [i x tg it l Et On K F|i j ch x tg it l fr Nt On K F O2]; subst; cbn [f_tag].
  - destruct On as [_ [_ [_ [_ [_ M]]]]]. auto.
  - destruct tg as [[n a]|]; [|congruence]. split; [discriminate|]. split; [intros ->; inversion O2|].
    destruct On as [_ [_ [_ [_ [m [M [N _]]]]]]]. eauto.
Qed.
Lemma takes_cdata : forall opts u kw c p rest, is_U u -> sok opts u -> d_chain_nodes u = p :: rest ->
  same_name kw (str "[cdata[") = true -> cdata_here u -> first_end (ends_in_two 93%N) (c ++ str "]]") ->
  exists st, takes opts u (str "!" ++ kw ++ (c ++ str "]]") ++ str ">") (KCData c) st.
Proof.
  intros opts u kw c p rest U S E Kw Cd Fe. eexists. split; [|split; [|split; [|split]]].
  - pose proof (proj2 (open_first _ _ _ (cm_end_spec 93%N)) Fe) as [F1 F2]. eapply bs_cdata; eauto.
  - apply W_of_W.
  - change (60%N :: str "!" ++ kw ++ (c ++ str "]]") ++ str ">") with (str "<!" ++ kw ++ (c ++ str "]]") ++ str ">").
    rewrite <- app_assoc. change (str "]]" ++ str ">") with (str "]]>"). apply w_cdata; auto.
  - reflexivity.
  - intros f frs Su.
    destruct (new_content opts u p rest NXMLCDATA c (d_position u + length (str "!" ++ kw ++ c ++ str "]]")) S E) as [E1 [K [L [Ty [Ct B]]]]].
    pose proof (cm_split RIGHT_BRACKET_CHAR c) as Sp. change [RIGHT_BRACKET_CHAR; RIGHT_BRACKET_CHAR] with (str "]]") in Sp.
    eexists (mkFr (f_tag f) (f_items f ++ [_])), frs. split; [|split].
    + eapply sim_item with (y := YCData c); eauto; try reflexivity; unfold W_of; cbn [d_heap]; try rewrite Sp.
      * exact E1.
      * exact K.
      * apply re_cdata; auto. lia.
      * repeat split.
    + eapply grow_add; reflexivity.
    + destruct Cd as [p' [rest' [sp_ [m [E' [Is [Mp Nm]]]]]]]. rewrite E in E'. injection E' as <- <-.
      pose proof (u_opens _ _ _ Su) as O. rewrite E in O. apply top_frame in O. unfold get_node in Mp. unfold nst, W_of. cbn [d_in_special].
      rewrite Is. cbn [nest open_names foreign option_map sh map pnames flat_map fst f_tag].
      destruct (f_tag f) as [[n l]|]; [|destruct O as [_ [_ O]]; congruence].
      destruct O as [_ [_ [m' [Mp' Nm']]]]. rewrite Mp in Mp'. injection Mp' as <-. subst n. cbn [app].
      rewrite (proj2 (chars_eqb_neq _ _) Nm). reflexivity.
Qed.
Lemma takes_doctype : forall opts u n c a t p rest, is_U u -> sok opts u -> d_chain_nodes u = p :: rest ->
  same_name n (str "doctype") = true -> is_ws c ->
  ta_run opts true a (ta_start (d_mark_char u)) = Some t -> ta_closable t = true -> ta_slash t = false ->
  exists st, takes opts u (str "!" ++ n ++ [c] ++ a ++ str ">") (KDoctype n (ta_attrs (ta_close t))) st.
Proof.
  intros opts u n c a t p rest U S E Kw Ws R C Sl. eexists. split; [|split; [|split; [|split]]].
  - rewrite <- (s_opts _ _ S) in R. eapply bs_doctype; eauto.
  - apply W_of_W.
  - change (60%N :: str "!" ++ n ++ [c] ++ a ++ str ">") with (str "<!" ++ n ++ [c] ++ a ++ str ">").
    apply w_doctype; auto. pose proof (run_area _ _ _ _ _ R C) as X. rewrite Sl in X. exact X.
  - reflexivity.
  - intros f frs Su. rewrite Sl.
    destruct (new_set_meta opts u p rest NHTMLDOCTYPE (ta_meta n false (ta_close t)) S E) as [E1 [K [L [K0 X]]]].
    eexists (mkFr (f_tag f) (f_items f ++ [_])), frs. split; [|split].
    + eapply sim_item with (y := YDoctype n (ta_attrs (ta_close t))); eauto; try reflexivity.
      * unfold W_of. cbn [d_heap]. eapply re_doctype; rewrite ?X; try reflexivity. lia.
      * repeat split.
    + eapply grow_add; reflexivity.
    + reflexivity.
Qed.

(** End tags. *)
Lemma takes_close : forall opts u nm tag rest, is_U u -> sok opts u -> ~ In TAG_END_CHAR nm ->
  closes u nm = Some (tag, rest) ->
  (case_sensitive_tagname opts = true -> exists m, n_meta (get_node u tag) = Some m /\ m_name m = trim_right nm) ->
  exists st, takes opts u (str "/" ++ nm ++ str ">") (KClose nm) st.
Proof.
  intros opts u nm tag rest U S Ni Cl Cs. eexists. split; [|split; [|split; [|split]]].
  - rewrite <- (s_opts _ _ S) in Cs. eapply bs_close; eauto.
  - apply W_of_W.
  - apply w_close. exact Ni.
  - reflexivity.
  - intros f frs Su. destruct (closes_inv _ _ _ _ Cl) as [Ec [Hr [m [Mt Sn]]]].
    destruct rest as [|par rest]; [congruence|].
    pose proof (u_opens _ _ _ Su) as O. rewrite Ec in O. pose proof (top_frame _ _ _ _ _ _ O) as Tf.
    destruct (f_tag f) as [[n l]|] eqn:Ft; [|destruct Tf as [X _]; discriminate].
    destruct Tf as [_ [Nf [m' [M' N']]]]. unfold get_node in *. rewrite Mt in M'. injection M' as <-.
    destruct (sim_close opts u f frs (W_of u (str "/" ++ nm ++ str ">") (d_mem_position u) (d_mark_char u)
           (par :: rest) (length (d_heap u)) (special_closed (d_in_special u) (trim_right nm))
           (closed_check u tag) (d_id_tags u)
           (closed_heap u tag nm (d_position u + length (str "/" ++ nm)))) tag par rest n l nm
           (d_position u + length (str "/" ++ nm)) S Su Ec Ft eq_refl eq_refl eq_refl) as [g [frs' [-> W]]].
    eexists _, frs'. split; [exact W|]. split.
    + cbn. rewrite Ft, shape_items. reflexivity.
    + unfold nst, W_of. cbn [d_in_special nest open_names foreign]. cbn [sh map pnames flat_map fst f_tag]. rewrite Ft. cbn [app].
      replace (name_fits (case_sensitive_tagname opts) n (trim_right nm)) with true.
      * f_equal. f_equal. unfold special_closed. destruct (d_in_special u) as [[s0 m0]|]; [|reflexivity]. cbn [option_map snd].
        destruct (chars_eqb m0 (trim_right nm)); reflexivity.
      * symmetry. apply name_fits_iff. subst n. split; [exact Sn|]. intro X. destruct (Cs X) as [m2 [M2 N2]]. congruence.
Qed.

(** ** All tokens *)
Definition strict (opts : parse_options) : Prop :=
  auto_fix_unexpected_endtag opts = false /\ auto_fix_unescaped_lt opts = false.

Lemma bstep_det : forall u t st st', replays u -> bstep u t st -> bstep u t st' -> st = st'.
Proof. intros u t st st' R A B. apply (replay _ _ _ A) in R as X. apply (replay _ _ _ B) in R as Y. congruence. Qed.

Lemma U_not_W : forall u, is_U u -> ~ is_W u.
Proof. intros u [A _] [B _]. congruence. Qed.
Lemma U_not_T : forall u, is_U u -> ~ is_T u.
Proof. intros u [A _] [B _]. congruence. Qed.

Lemma takes_sound : forall opts u t st, bstep u t st -> is_U u -> sok opts u -> replays u -> strict opts ->
  (exists k, takes opts u t k st) \/ popping (d_heap st).
Proof.
  intros opts u t st B U S R [St1 St2].
  assert (Fin : forall k, (exists st', takes opts u t k st') -> exists k, takes opts u t k st).
  { intros k [st' T]. exists k. rewrite (bstep_det u t st st' R B); [exact T|]. apply T. }
  destruct B; try (exfalso; solve [apply (U_not_W _ U); assumption|apply (U_not_T _ U); assumption]);
    try rewrite (s_opts _ _ S) in *; try congruence.
  - left. eapply Fin, takes_open; eauto; [unfold void_name; rewrite <- is_void_spec|unfold raw_name; rewrite <- is_content_spec]; assumption.
  - left. eapply Fin, takes_void; eauto. unfold void_name. rewrite <- is_void_spec. assumption.
  - left. eapply Fin, takes_self; eauto.
  - left. assert (Eb : ends_in_end_tag (case_sensitive_tagname opts) n b) by (apply raw_end_spec; auto).
    destruct Eb as [body [nm [w [Eb [Ww Nf]]]]]. subst src. rewrite Eb in *.
    pose proof (proj1 (name_fits_iff _ _ _) Nf) as Ft.
    eapply Fin, takes_raw; eauto.
    + unfold raw_name. rewrite <- is_content_spec. assumption.
    + pose proof (trim_fits _ n nm [] w H0 Ft Ww) as X. cbn [app] in X. rewrite X. exact Nf.
    + apply (proj1 (open_first _ _ _ (fun q => raw_end_spec opts n q H0))). auto.
  - left. eapply Fin, takes_close; eauto.
  - left. subst src. destruct (proj1 (cm_end_iff _ _) H2) as [c [Nc ->]]. 
    eapply Fin, takes_comment; eauto. apply (proj1 (open_first _ _ _ (cm_end_spec 45%N))). auto.
  - left. subst src. destruct (proj1 (cm_end_iff _ _) H4) as [c [Nc ->]]. 
    eapply Fin, takes_cdata; eauto. apply (proj1 (open_first _ _ _ (cm_end_spec 93%N))). auto.
  - subst src t'. destruct (ta_slash t) eqn:Sl; [right|left].
    + exists (length (d_heap u)), (ta_meta n true (ta_close t)).
      cbn [W_of d_heap]. rewrite ty_set_meta. unfold set_meta. rewrite hget_hupd_same by (rewrite opened_length; lia).
      unfold ty. rewrite (hget_opened_new _ _ _ _ _ S H0). repeat split.
    + eapply Fin, takes_doctype; eauto.
Qed.

Lemma chain_head : forall opts u, sok opts u -> forall f frs, simU u f frs -> exists p rest, d_chain_nodes u = p :: rest.
Proof.
  intros opts u S f frs Su. pose proof (u_opens _ _ _ Su) as O. inversion O; eauto.
Qed.
Lemma takes_complete : forall opts u t k f frs, is_U u -> sok opts u -> simU u f frs ->
  written opts k (60%N :: t) -> is_ktext k = false -> nest opts k (nst u (sh (f :: frs))) <> None ->
  exists st, takes opts u t k st.
Proof.
  intros opts u t k f frs U S Su W Kt N. destruct (chain_head _ _ S _ _ Su) as [p [rest E]].
  remember (60%N :: t) as s0 eqn:Es.
  inversion W as [c Nc Ni X Y|c Fe X Y|kw c Kw Fe X Y|n b a l Kw Ws A X Y|n a l sc O As A Sv X Y|n a l c e O As A Rn Nf Fe X Y|n a l O As A Vn Rn X Y|e Ne X Y];
    subst k s0; try discriminate.
  - assert (Y' : t = str "!--" ++ (c ++ str "--") ++ str ">") by (rewrite <- app_assoc; change (60%N :: str "!--" ++ c ++ str "-->" = 60%N :: t) in Y; injection Y as Y; symmetry; exact Y).
    subst t. eapply takes_comment; eauto.
  - assert (Y' : t = str "!" ++ kw ++ (c ++ str "]]") ++ str ">") by (rewrite <- app_assoc; change (60%N :: str "!" ++ kw ++ c ++ str "]]>" = 60%N :: t) in Y; injection Y as Y; symmetry; exact Y).
    subst t. eapply takes_cdata; eauto.
    cbn [nest nst open_names foreign sh map pnames flat_map fst] in N.
    pose proof (u_opens _ _ _ Su) as O. rewrite E in O. pose proof (top_frame _ _ _ _ _ _ O) as Tf.
    destruct (f_tag f) as [[n l]|]; [|destruct Tf as [_ [-> _]]; cbn in N; congruence].
    destruct Tf as [_ [_ [m [Mp Nm]]]]. cbn [app] in N.
    destruct (d_in_special u) as [sp0|] eqn:Is; [|cbn in N; congruence]. cbn [option_map] in N.
    destruct (chars_eqb n (snd sp0)) eqn:Ne; [congruence|]. exists p, rest, sp0, m.
    repeat split; auto. subst n. apply chars_eqb_neq. exact Ne.
  - assert (Y' : t = str "!" ++ n ++ [b] ++ a ++ str ">") by (change (60%N :: str "!" ++ n ++ [b] ++ a ++ str ">" = 60%N :: t) in Y; injection Y as Y; symmetry; exact Y).
    subst t. destruct (area_run opts true a l false (d_mark_char u) A) as [t [R [C [<- Sl]]]].
    eapply takes_doctype; eauto.
  - assert (Y' : t = n ++ a ++ str ">") by (change (60%N :: n ++ a ++ str ">" = 60%N :: t) in Y; injection Y as Y; symmetry; exact Y).
    subst t. destruct (area_run opts false a l sc (d_mark_char u) A) as [t [R [C [<- Sl]]]].
    apply area_start_with in As. destruct sc.
    + eapply takes_self; eauto. rewrite (self_ok _ _ _ S).
      cbn [nest nst foreign negb orb] in N. destruct (allow_self_closing opts || void_name n || _)%bool; congruence.
    + destruct Sv as [Sv|Sv]; [discriminate|]. eapply takes_void; eauto.
  - assert (Y' : t = n ++ a ++ str ">" ++ (c ++ str "</" ++ e) ++ str ">").
    { rewrite <- !app_assoc. change (60%N :: n ++ a ++ str ">" ++ c ++ str "</" ++ e ++ str ">" = 60%N :: t) in Y. injection Y as Y. symmetry. exact Y. }
    subst t. destruct (area_run opts false a l false (d_mark_char u) A) as [t [R [C [<- Sl]]]].
    apply area_start_with in As. eapply takes_raw; eauto.
  - assert (Y' : t = n ++ a ++ str ">") by (change (60%N :: n ++ a ++ str ">" = 60%N :: t) in Y; injection Y as Y; symmetry; exact Y).
    subst t. destruct (area_run opts false a l false (d_mark_char u) A) as [t [R [C [<- Sl]]]].
    apply area_start_with in As. eapply takes_open; eauto.
  - assert (Y' : t = str "/" ++ e ++ str ">") by (change (60%N :: str "/" ++ e ++ str ">" = 60%N :: t) in Y; injection Y as Y; symmetry; exact Y).
    subst t. pose proof (u_opens _ _ _ Su) as O. rewrite E in O. pose proof (top_frame _ _ _ _ _ _ O) as Tf.
    cbn [nest nst open_names foreign sh map pnames flat_map fst] in N.
    destruct (f_tag f) as [[n l]|]; [|destruct Tf as [_ [-> _]]; cbn in N; congruence].
    destruct Tf as [Nr [_ [m [Mp Nm]]]]. cbn [app] in N.
    destruct (name_fits (case_sensitive_tagname opts) n (trim_right e)) eqn:Nf; [|congruence].
    apply name_fits_iff in Nf. destruct Nf as [Nf1 Nf2]. destruct rest as [|par rest]; [congruence|].
    eapply takes_close; eauto.
    + unfold closes, get_node. rewrite E, Mp. subst n. rewrite Nf1. reflexivity.
    + intro X. exists m. split; [exact Mp|]. subst n. auto.
Qed.
