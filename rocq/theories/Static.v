(** Where each node was written in the source; what its tag says; ids; svg and math. *)
From Coq Require Import String Sorting.Sorted.
From Verif Require Import Api SpecText SpecParse SpecTree NameProofs HeapLemmas InvCtl Big BigSteps RawText Attrs Struct Frame Birth.
Local Open Scope string_scope.
Local Open Scope list_scope.

(** [n] was written as this token of [s]. *)
Inductive wr (opts : parse_options) (s : list char) (x : node) : Prop :=
  | wr_text : textual (n_type x) -> n_meta x = None -> wr opts s x
  | wr_tag : forall s1 n a s2 mk t, s = s1 ++ str "<" ++ n ++ a ++ str ">" ++ s2 -> n_begin_at x = length s1 ->
      open_name n -> area_start a -> ta_run opts false a (ta_start mk) = Some t -> ta_closable t = true ->
      ta_slash t = true \/ is_content_tag (lower n) None = false ->
      n_type x = NTag -> n_meta x = Some (ta_meta n (ta_slash t) (ta_close t)) -> n_content x = None -> wr opts s x
  | wr_raw : forall s1 n a b s2 mk t, s = s1 ++ str "<" ++ n ++ a ++ str ">" ++ b ++ str ">" ++ s2 -> n_begin_at x = length s1 ->
      open_name n -> area_start a -> ta_run opts false a (ta_start mk) = Some t -> ta_closable t = true ->
      ta_slash t = false -> is_content_tag (lower n) None = true ->
      open_until (raw_end opts (str "</" ++ n)) b -> raw_end opts (str "</" ++ n) b = true ->
      n_type x = NTag -> n_meta x = Some (ta_meta n false (ta_close t)) ->
      n_content x = Some (firstn (length (chars_trim_end b) - length (str "</" ++ n)) b) -> wr opts s x
  | wr_end : forall s1 nm s2, s = s1 ++ str "</" ++ nm ++ str ">" ++ s2 -> n_begin_at x = length s1 -> ~ In TAG_END_CHAR nm ->
      n_type x = NTagEnd -> n_meta x = None -> n_content x = Some nm \/ n_content x = None -> wr opts s x
  | wr_rawend : forall s1 s2, s = s1 ++ str ">" ++ s2 -> n_begin_at x = length (s1 ++ str ">") ->
      n_type x = NTagEnd -> n_meta x = None -> wr opts s x
  | wr_comment : forall s1 b s2, s = s1 ++ str "<!--" ++ b ++ str ">" ++ s2 -> n_begin_at x = length s1 ->
      open_until (cm_end DASH_CHAR) b -> cm_end DASH_CHAR b = true ->
      n_type x = NComment -> n_meta x = None -> n_content x = Some (firstn (length b - 2) b) ->
      n_end_at x = length (s1 ++ str "<!--" ++ b ++ str ">") -> wr opts s x
  | wr_cdata : forall s1 kw b s2, s = s1 ++ str "<!" ++ kw ++ b ++ str ">" ++ s2 -> n_begin_at x = length s1 ->
      same_name kw (str "[cdata[") = true ->
      open_until (cm_end RIGHT_BRACKET_CHAR) b -> cm_end RIGHT_BRACKET_CHAR b = true ->
      n_type x = NXMLCDATA -> n_meta x = None -> n_content x = Some (firstn (length b - 2) b) ->
      n_end_at x = length (s1 ++ str "<!" ++ kw ++ b ++ str ">") -> wr opts s x
  | wr_doctype : forall s1 n c a s2 mk t, s = s1 ++ str "<!" ++ n ++ [c] ++ a ++ str ">" ++ s2 -> n_begin_at x = length s1 ->
      same_name n (str "doctype") = true -> is_ws c ->
      ta_run opts true a (ta_start mk) = Some t -> ta_closable t = true ->
      n_type x = NHTMLDOCTYPE -> n_meta x = Some (ta_meta n (ta_slash t) (ta_close t)) -> n_content x = None -> wr opts s x.

Lemma slash_close : forall t, ta_slash t = true -> ta_close t = t /\ ta_closable t = true.
Proof. intros t H. unfold ta_slash, ta_close, ta_closable in *. destruct (ta_mode t); try discriminate. auto. Qed.

Lemma nfr_not_text : forall b n n' t, nfr b n n' -> n_type n = t -> ~ textual t ->
  n_type n' = t /\ n_content n' = n_content n /\ n_end_at n' = n_end_at n.
Proof.
  intros b n n' t F E T. split.
  - apply (kind_neq (n_type n) (n_type n') t (nf_kind _ _ _ F) T). exact E.
  - apply (nf_fixed _ _ _ F). rewrite E. exact T.
Qed.
Lemma not_textual : forall t, node_type_eqb t NText = false -> node_type_eqb t NSpacesBetweenTag = false -> ~ textual t.
Proof. intros t A B [-> | ->]; discriminate. Qed.

Theorem written : forall opts s st i, bsteps (doc_new opts) s st -> 0 < i < length (d_heap st) -> wr opts s (hget (d_heap st) i).
Proof.
  intros opts s st i B Hi.
  destruct (birth _ _ _ _ B Hi) as [s1 [tok [s2 [u [st1 [E [B1 [Su [B2 [S1 [B3 [Hi1 [Bn Nf]]]]]]]]]]]]].
  assert (Op : d_parse_options u = opts) by apply (s_opts _ _ Su).
  assert (UU : is_U u -> exists s0, s1 = s0 ++ str "<" /\ d_mem_position u = length s0) by (apply bsteps_U with (1 := B1)).
  pose proof (bsteps_pos0 _ _ _ B1) as Pu.
  set (n' := hget (d_heap st) i) in *.
  destruct Bn.
  - apply wr_text; [|rewrite (nf_meta _ _ _ Nf); reflexivity]. apply (same_kind_textual_iff _ _ (nf_kind _ _ _ Nf)). left. reflexivity.
  - destruct (UU H) as [s0 [-> Em]]. destruct (nfr_not_text _ _ _ NTag Nf) as [T [C _]]; [reflexivity|apply not_textual; reflexivity|].
    eapply (wr_tag opts s n' s0 n a s2 (d_mark_char u) t); auto.
    + rewrite E, <- !app_assoc. reflexivity.
    + rewrite (nf_begin _ _ _ Nf). exact Em.
    + rewrite <- Op. assumption.
    + rewrite (nf_meta _ _ _ Nf), H5. reflexivity.
  - destruct (UU H) as [s0 [-> Em]]. destruct (nfr_not_text _ _ _ NTag Nf) as [T [C _]]; [reflexivity|apply not_textual; reflexivity|].
    destruct (slash_close t H4) as [K1 K2].
    eapply (wr_tag opts s n' s0 n a s2 (d_mark_char u) t); auto.
    + rewrite E, <- !app_assoc. reflexivity.
    + rewrite (nf_begin _ _ _ Nf). exact Em.
    + rewrite <- Op. assumption.
    + rewrite (nf_meta _ _ _ Nf), H4, K1. reflexivity.
  - destruct (UU H) as [s0 [-> Em]]. destruct (nfr_not_text _ _ _ NTag Nf) as [T [C _]]; [reflexivity|apply not_textual; reflexivity|].
    eapply (wr_raw opts s n' s0 n a b s2 (d_mark_char u) t); auto.
    + rewrite E, <- !app_assoc. reflexivity.
    + rewrite (nf_begin _ _ _ Nf). exact Em.
    + rewrite <- Op. assumption.
    + rewrite <- Op. assumption.
    + rewrite <- Op. assumption.
    + rewrite (nf_meta _ _ _ Nf). reflexivity.
  - destruct (nfr_not_text _ _ _ NTagEnd Nf) as [T [C _]]; [reflexivity|apply not_textual; reflexivity|].
    apply (wr_rawend opts s n' (s1 ++ n ++ a ++ str ">" ++ b) s2); [| |exact T|].
    + rewrite E, <- !app_assoc. reflexivity.
    + rewrite (nf_begin _ _ _ Nf). cbn [nset_parent nset_content n_begin_at node_new]. rewrite Pu, !app_length. cbn. lia.
    + rewrite (nf_meta _ _ _ Nf). reflexivity.
  - destruct (UU H) as [s0 [-> Em]]. destruct (nfr_not_text _ _ _ NTagEnd Nf) as [T [C _]]; [assumption|apply not_textual; reflexivity|].
    apply (wr_end opts s n' s0 nm s2); auto.
    + rewrite E, <- !app_assoc. reflexivity.
    + rewrite (nf_begin _ _ _ Nf), <- Em. assumption.
    + rewrite (nf_meta _ _ _ Nf). assumption.
  - destruct (UU H) as [s0 [-> Em]]. destruct (nfr_not_text _ _ _ NTagEnd Nf) as [T [C _]]; [assumption|apply not_textual; reflexivity|].
    apply (wr_end opts s n' s0 nm s2); auto.
    + rewrite E, <- !app_assoc. reflexivity.
    + rewrite (nf_begin _ _ _ Nf), <- Em. assumption.
    + rewrite (nf_meta _ _ _ Nf). assumption.
    + right. congruence.
  - destruct (UU H) as [s0 [-> Em]]. destruct (nfr_not_text _ _ _ NComment Nf) as [T [C Ee]]; [reflexivity|apply not_textual; reflexivity|].
    apply (wr_comment opts s n' s0 b s2); auto.
    + rewrite E, <- !app_assoc. reflexivity.
    + rewrite (nf_begin _ _ _ Nf). exact Em.
    + rewrite (nf_meta _ _ _ Nf). reflexivity.
    + rewrite Ee, Pu. cbn [end_info n_end_at nset_end_at n_type nset_content child_node nset_root nset_index nset_parent node_new node_type_eqb].
      rewrite !app_length. cbn. lia.
  - destruct (UU H) as [s0 [-> Em]]. destruct (nfr_not_text _ _ _ NXMLCDATA Nf) as [T [C Ee]]; [reflexivity|apply not_textual; reflexivity|].
    apply (wr_cdata opts s n' s0 kw b s2); auto.
    + rewrite E, <- !app_assoc. reflexivity.
    + rewrite (nf_begin _ _ _ Nf). exact Em.
    + rewrite (nf_meta _ _ _ Nf). reflexivity.
    + rewrite Ee, Pu. cbn [end_info n_end_at nset_end_at n_type nset_content child_node nset_root nset_index nset_parent node_new node_type_eqb].
      rewrite !app_length. cbn. lia.
  - destruct (UU H) as [s0 [-> Em]]. destruct (nfr_not_text _ _ _ NHTMLDOCTYPE Nf) as [T [C _]]; [reflexivity|apply not_textual; reflexivity|].
    eapply (wr_doctype opts s n' s0 n c a s2 (d_mark_char u) t); auto.
    + rewrite E, <- !app_assoc. reflexivity.
    + rewrite (nf_begin _ _ _ Nf). exact Em.
    + rewrite <- Op. assumption.
    + rewrite (nf_meta _ _ _ Nf). reflexivity.
  - apply wr_text; [|rewrite (nf_meta _ _ _ Nf); reflexivity]. apply (same_kind_textual_iff _ _ (nf_kind _ _ _ Nf)). left. reflexivity.
  - apply wr_text; [|rewrite (nf_meta _ _ _ Nf); reflexivity]. apply (same_kind_textual_iff _ _ (nf_kind _ _ _ Nf)). left. reflexivity.
Qed.

(** ** svg and math *)
Definition special_at (h : list node) (j : nid) (k : special_tag) (nm : list char) : Prop :=
  ty h j = NTag /\ special_tag_map (lower nm) = Some k /\ exists m, n_meta (hget h j) = Some m /\ m_name m = nm.
Definition spec_ok (st : doc) : Prop :=
  forall k nm, d_in_special st = Some (k, nm) -> exists j, j < length (d_heap st) /\ special_at (d_heap st) j k nm.
Lemma special_fr : forall h h' j k nm, fr h h' -> j < length h -> special_at h j k nm -> special_at h' j k nm.
Proof.
  intros h h' j k nm [_ F] L [A [B [m [M N]]]]. split; [|split; [exact B|]].
  - apply (nfr_not_text _ _ _ NTag (F j L)); [exact A|apply not_textual; reflexivity].
  - exists m. rewrite (nf_meta _ _ _ (F j L)). auto.
Qed.
Lemma bstep_spec : forall opts u s st, bstep u s st -> sok opts u -> spec_ok u -> spec_ok st.
Proof.
  intros opts u s st B S K. pose proof (bstep_fr _ _ _ _ B S) as F.
  assert (Old : d_in_special st = d_in_special u -> spec_ok st).
  { intros E k nm X. rewrite E in X. destruct (K k nm X) as [j [J1 J2]]. exists j. split; [destruct F; lia|]. eapply special_fr; eauto. }
  assert (Lt : forall u s, d_in_special (lt_text u s) = d_in_special u).
  { intros u0 s0. unfold lt_text. cbv zeta. destruct (n_type (cur u0)); try destruct (n_content (cur u0)); reflexivity. }
  destruct B; try (apply Old; reflexivity; fail).
  - intros k nm X. cbn [W_of d_in_special] in X. unfold special_after in X. destruct (d_in_special u) as [x|] eqn:Ex.
    + injection X as ->. destruct (K k nm Ex) as [j [J1 J2]]. exists j. split; [destruct F; lia|]. eapply special_fr; eauto.
    + destruct (special_tag_map (lower n)) as [k'|] eqn:Ek; [|discriminate]. injection X as -> ->.
      exists (length (d_heap u)). assert (L : length (d_heap u) < length (set_meta (opened u p NTag) (length (d_heap u)) (ta_meta nm false (ta_close t))))
        by (rewrite set_meta_length, opened_length; lia).
      split; [exact L|]. cbn [W_of d_heap]. split; [|split; [exact Ek|]].
      * unfold ty, set_meta. rewrite (hupd_keep n_type) by reflexivity. rewrite (hget_opened_new opts u p rest) by assumption. reflexivity.
      * exists (ta_meta nm false (ta_close t)). unfold set_meta. rewrite hget_hupd_same by (rewrite opened_length; lia). auto.
  - intros k m X. cbn [W_of d_in_special] in X. unfold special_closed in X.
    destruct (d_in_special u) as [[k' m']|] eqn:Ex; [|discriminate]. destruct (chars_eqb m' (trim_right nm)); [discriminate|].
    injection X as -> ->. destruct (K k m Ex) as [j [J1 J2]]. exists j. split; [destruct F; lia|]. eapply special_fr; eauto.
  - apply Old. cbn [set_position d_in_special]. apply Lt.
  - apply Old. inversion B; subst; try (rewrite <- (Lt u (str "&lt;")); reflexivity; fail);
      match goal with U : is_U (lt_text _ _) |- _ => destruct U as [U _]; destruct (lt_text_T u (str "&lt;")) as [V _]; congruence end.
Qed.
Lemma bsteps_spec : forall opts s st, bsteps (doc_new opts) s st -> spec_ok st.
Proof.
  intros opts s st B. remember (doc_new opts) as s0 eqn:E0. induction B as [|st0 s st1 t st2 B IH C]; subst.
  - intros k nm X. discriminate.
  - eapply bstep_spec; eauto. eapply bsteps_sok; eauto.
Qed.

(** A self-closing tag is allowed, void, or follows an svg or math start tag. *)
Theorem self_closed_where : forall opts s st i m, bsteps (doc_new opts) s st -> ty (d_heap st) i = NTag ->
  n_meta (hget (d_heap st) i) = Some m -> m_self_closed m = true ->
  allow_self_closing opts = true \/ m_is_void m = true \/
  exists j k nm, j < i /\ special_at (d_heap st) j k nm.
Proof.
  intros opts s st i m B T M Sc.
  assert (Hi : 0 < i < length (d_heap st)).
  { split.
    - destruct i; [|lia]. pose proof (s_hs _ _ (bsteps_sok _ _ _ B)) as H. destruct (hs_root _ _ H) as [_ [X _]]. congruence.
    - destruct (Nat.lt_ge_cases i (length (d_heap st))) as [X|X]; [exact X|]. unfold ty in T. rewrite hget_default in T by exact X. discriminate. }
  destruct (birth _ _ _ _ B Hi) as [s1 [tok [s2 [u [st1 [E [B1 [Su [B2 [S1 [B3 [Hi1 [Bn Nf]]]]]]]]]]]]].
  rewrite (nf_meta _ _ _ Nf) in M. pose proof (s_opts _ _ Su) as Op.
  pose proof (fr_trans _ _ _ (bstep_fr _ _ _ _ B2 Su) (bsteps_fr _ _ _ _ B3 S1)) as F.
  assert (Ty : n_type (hget (d_heap st1) i) = NTag).
  { apply (kind_neq _ _ NTag (nf_kind _ _ _ Nf)); [apply not_textual; reflexivity|exact T]. }
  destruct Bn; cbn in M; try discriminate M; try (injection M as <-; discriminate Sc); try discriminate Ty.
  - injection M as <-. unfold self_close_ok in H5. rewrite Op in H5. unfold ta_meta. cbn [m_is_void].
    destruct (allow_self_closing opts); [left; reflexivity|]. destruct (is_void_tag (lower n)); [right; left; reflexivity|].
    destruct (d_in_special u) as [[k nm]|] eqn:Ex; [|discriminate]. right. right.
    destruct (bsteps_spec _ _ _ B1 k nm Ex) as [j [J1 J2]]. exists j, k, nm. split; [exact J1|]. eapply special_fr; eauto.
  - congruence.
  - congruence.
Qed.

(** ** Ids *)
Record ids_ok (ids : list (list char * nid)) (h : list node) : Prop := mkIds {
  i_in : forall x i, In (x, i) ids <-> exists m a, n_meta (hget h i) = Some m /\ In a (m_attrs m) /\ id_value a x;
  i_sorted : StronglySorted (fun p q => snd q <= snd p) ids
}.
Lemma ids_keep : forall ids h h', ids_ok ids h -> (forall i, n_meta (hget h' i) = n_meta (hget h i)) -> ids_ok ids h'.
Proof. intros ids h h' [A B] M. constructor; [|exact B]. intros x i. rewrite M. apply A. Qed.
Lemma ids_bound : forall ids h x i, ids_ok ids h -> In (x, i) ids -> i < length h.
Proof.
  intros ids h x i [A _] X. apply A in X. destruct X as [m [a [M _]]].
  destruct (Nat.lt_ge_cases i (length h)) as [Y|Y]; [exact Y|]. rewrite hget_default in M by exact Y. discriminate.
Qed.
Lemma ids_new : forall ids h h' t n sc, ids_ok ids h -> (forall i, i <> length h -> n_meta (hget h' i) = n_meta (hget h i)) ->
  n_meta (hget h' (length h)) = Some (ta_meta n sc t) -> ids_right (ta_attrs t) (ta_ids t) ->
  ids_ok (ids_of (length h) t ids) h'.
Proof.
  intros ids h h' t n sc I M N R. constructor.
  - intros x i. unfold ids_of. rewrite in_app_iff, in_map_iff. destruct (Nat.eq_dec i (length h)) as [->|X].
    + rewrite N. split.
      * intros [[y [Y1 Y2]]|Y]; [|pose proof (ids_bound _ _ _ _ I Y); lia]. injection Y1 as ->.
        exists (ta_meta n sc t). apply R in Y2. destruct Y2 as [a Y2]. exists a. auto.
      * intros [m [a [Y1 Y2]]]. injection Y1 as <-. left. exists x. split; [reflexivity|]. apply R. exists a. exact Y2.
    + rewrite M by exact X. rewrite <- (i_in _ _ I x i). split; [|auto].
      intros [[y [Y1 Y2]]|Y]; [|exact Y]. congruence.
  - clear R. unfold ids_of. induction (ta_ids t) as [|y l IH]; [apply (i_sorted _ _ I)|]. cbn. constructor; [exact IH|].
    apply Forall_app. split.
    + apply Forall_forall. intros q Q. apply in_map_iff in Q. destruct Q as [z [<- _]]. cbn. lia.
    + apply Forall_forall. intros [z j] Q. pose proof (ids_bound _ _ _ _ I Q). cbn. lia.
Qed.

(** Steps that touch no meta. *)
Definition mfr (h h' : list node) : Prop := forall i, n_meta (hget h' i) = n_meta (hget h i).
Lemma mfr_refl : forall h, mfr h h. Proof. intros h i. reflexivity. Qed.
Lemma mfr_app : forall h0 h n, n_meta n = None -> mfr h0 h -> mfr h0 (h ++ [n]).
Proof.
  intros h0 h n N F i. rewrite hget_app_case. destruct (Nat.ltb_spec i (length h)); [apply F|].
  rewrite <- F. rewrite (hget_default h) by assumption. destruct (Nat.eqb i (length h)); [exact N|reflexivity].
Qed.
Lemma mfr_upd : forall h0 h i f, (forall n, n_meta (f n) = n_meta n) -> mfr h0 h -> mfr h0 (hupd h i f).
Proof. intros h0 h i f K F j. rewrite (hupd_keep n_meta) by exact K. apply F. Qed.
Lemma mfr_flip : forall h0 h ck, mfr h0 h -> mfr h0 (flip ck h).
Proof. intros h0 h [k|] F; [|exact F]. cbn. apply mfr_upd; auto. Qed.
Lemma mfr_child : forall h p n, n_meta n = None -> mfr h (add_child h p n).
Proof. intros. unfold add_child. apply mfr_upd; [reflexivity|]. apply mfr_app; [assumption|apply mfr_refl]. Qed.
Lemma mfr_orphan : forall h p n, n_meta n = None -> mfr h (add_orphan h p n).
Proof. intros. unfold add_orphan. apply mfr_upd; [reflexivity|]. apply mfr_app; [assumption|apply mfr_refl]. Qed.
Lemma mfr_opened : forall u p t, mfr (d_heap u) (opened u p t).
Proof. intros. unfold opened. apply mfr_flip, mfr_child. reflexivity. Qed.
Lemma mfr_closed : forall u tag nm ps, mfr (d_heap u) (closed_heap u tag nm ps).
Proof.
  intros. unfold closed_heap. cbv zeta. apply mfr_upd; [reflexivity|]. apply mfr_upd; [reflexivity|].
  match goal with |- mfr _ (if ?b then ?x else _) => assert (F : mfr (d_heap u) x); [|destruct b; [exact F|apply mfr_flip; exact F]] end.
  apply mfr_upd; [reflexivity|]. apply mfr_app, mfr_refl. destruct (auto_fix_unclosed_tag _); reflexivity.
Qed.
Lemma mfr_lt : forall u s, mfr (d_heap u) (d_heap (lt_text u s)).
Proof.
  intros u s. unfold lt_text. cbv zeta. destruct (n_type (cur u)) eqn:T; try (apply mfr_orphan; reflexivity).
  destruct (n_content (cur u)); [|apply mfr_refl]. cbn [d_heap]. apply mfr_upd; [reflexivity|apply mfr_refl].
Qed.
Lemma mfr_set_meta : forall u p t m i, i <> length (d_heap u) ->
  n_meta (hget (set_meta (opened u p t) (length (d_heap u)) m) i) = n_meta (hget (d_heap u) i).
Proof. intros u p t m i N. unfold set_meta. rewrite hget_hupd_other by congruence. apply mfr_opened. Qed.
Lemma meta_set_meta : forall u p t m, n_meta (hget (set_meta (opened u p t) (length (d_heap u)) m) (length (d_heap u))) = Some m.
Proof. intros. unfold set_meta. rewrite hget_hupd_same by (rewrite opened_length; lia). reflexivity. Qed.

Lemma ids_opened : forall po dt a mk t u p ty n sc ids, ta_run po dt a (ta_start mk) = Some t -> ids_ok ids (d_heap u) ->
  ids_ok (ids_of (length (d_heap u)) t ids) (set_meta (opened u p ty) (length (d_heap u)) (ta_meta n sc t)) /\
  ids_ok (ids_of (length (d_heap u)) (ta_close t) ids) (set_meta (opened u p ty) (length (d_heap u)) (ta_meta n sc (ta_close t))).
Proof.
  intros po dt a mk t u p ty0 n sc ids R I. pose proof (ta_run_good _ _ _ _ _ (good_start mk) R) as G.
  split; (eapply ids_new; [exact I|intros i Hi; apply mfr_set_meta, Hi|apply meta_set_meta|]).
  - apply good_attrs, G.
  - apply close_attrs, G.
Qed.
Lemma bstep_ids : forall u s st, bstep u s st -> ids_ok (d_id_tags u) (d_heap u) -> ids_ok (d_id_tags st) (d_heap st).
Proof.
  intros u s st B. induction B; intro I; cbn [W_of d_heap d_id_tags set_position].
  - exact I.
  - eapply ids_keep; [exact I|]. destruct ct; [|apply mfr_refl]. apply mfr_upd; [reflexivity|apply mfr_refl].
  - eapply ids_keep; [exact I|]. apply mfr_child. reflexivity.
  - exact I.
  - eapply ids_keep; [exact I|]. do 2 (apply mfr_upd; [reflexivity|]). apply mfr_refl.
  - eapply ids_opened; eauto.
  - eapply ids_opened; eauto.
  - eapply ids_opened; eauto.
  - eapply ids_keep; [eapply ids_opened; eauto|]. apply mfr_upd; [reflexivity|]. apply mfr_app; [reflexivity|apply mfr_refl].
  - eapply ids_keep; [exact I|]. apply mfr_closed.
  - eapply ids_keep; [exact I|]. unfold dropped_heap. apply mfr_app, mfr_refl. destruct (auto_fix_unclosed_tag _); reflexivity.
  - eapply ids_keep; [exact I|]. do 2 (apply mfr_upd; [reflexivity|]). apply mfr_opened.
  - eapply ids_keep; [exact I|]. do 2 (apply mfr_upd; [reflexivity|]). apply mfr_opened.
  - eapply ids_opened; eauto.
  - replace (d_id_tags (lt_text u (str "&lt;" ++ [c]))) with (d_id_tags u); [eapply ids_keep; [exact I|apply mfr_lt]|].
    unfold lt_text. cbv zeta. destruct (n_type (cur u)); try destruct (n_content (cur u)); reflexivity.
  - apply IHB. replace (d_id_tags (lt_text u (str "&lt;"))) with (d_id_tags u); [eapply ids_keep; [exact I|apply mfr_lt]|].
    unfold lt_text. cbv zeta. destruct (n_type (cur u)); try destruct (n_content (cur u)); reflexivity.
Qed.
Lemma bsteps_ids : forall opts s st, bsteps (doc_new opts) s st -> ids_ok (d_id_tags st) (d_heap st).
Proof.
  intros opts s st B. remember (doc_new opts) as s0 eqn:E0. induction B as [|st0 s st1 t st2 B IH C]; subst.
  - constructor; [|constructor]. intros x i. split; [intros []|]. intros [m [a [M _]]]. exfalso.
    destruct i as [|[|i]]; discriminate M.
  - eapply bstep_ids; eauto.
Qed.
