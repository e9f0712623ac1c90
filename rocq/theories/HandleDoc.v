(** What the references of a parsed document keep alive. *)
From Coq Require Import String.
From Verif Require Import Api SpecText SpecRender SpecParse SpecTree SpecCost SpecHandles Handles HeapLemmas InvCtl Big BigSteps
  Struct StructEnd Frame Static Final DocFacts SizeDoc CostLow HandleProofs.
Local Open Scope string_scope.
Local Open Scope list_scope.

(** ** Nodes of the document *)
Definition doc_node (h : list node) (p : nid) : Prop :=
  p < length h /\ (ty h p <> NTagEnd \/ exists q, n_end_tag (hget h q) = Some p).
Lemma doc_node_in : forall lt h p, hs lt h -> (doc_node h p <-> in_doc h 0 p).
Proof.
  intros lt h p H. split.
  - intros [L [T|(q & E)]]; [eapply path_all; eauto|]. pose proof (hs_end _ _ H q p E) as (A & _ & _ & T).
    destruct (path_all lt h q H) as [w P]; [lia|rewrite T; discriminate|]. exists (w ++ [LEnd]). econstructor; [exact P|]. constructor. exact E.
  - intros [w P]. destruct P as [|w q x p P L].
    + split; [apply H|]. left. destruct (hs_root _ _ H) as (_ & T & _). rewrite T. discriminate.
    + split; [eapply linked_up; eauto|]. destruct L as [q l i k E N|q e E]; [|right; eauto]. left.
      apply (hs_kids _ _ H q). unfold kids. rewrite E. eapply nth_error_In; eauto.
Qed.
Lemma end_lt : forall h q e, n_end_tag (hget h q) = Some e -> q < length h.
Proof. intros h q e E. destruct (Nat.lt_ge_cases q (length h)); [assumption|]. rewrite hget_default in E by assumption. discriminate. Qed.
Lemma doc_node_fr : forall h h' p, fr h h' -> doc_node h p -> doc_node h' p.
Proof.
  intros h h' p [L F] [Lp D]. split; [lia|]. destruct D as [T|(q & E)].
  - left. intro X. apply T. exact (proj2 (kind_neq _ _ NTagEnd (nf_kind _ _ _ (F p Lp)) not_text_end) X).
  - right. exists q. apply (nf_end _ _ _ (F q (end_lt _ _ _ E))). exact E.
Qed.

(** ** The field prev *)
Definition prevs (h : list node) : Prop := forall i p, n_prev (hget h i) = Some p -> doc_node h p.
Lemma prevs_fr : forall h h', fr h h' -> prevs h -> (forall i p, length h <= i -> n_prev (hget h' i) = Some p -> doc_node h' p) -> prevs h'.
Proof.
  intros h h' F P N i p E. destruct (Nat.lt_ge_cases i (length h)) as [L|L]; [|eauto].
  eapply doc_node_fr; [exact F|]. apply (P i). destruct F as [_ F]. rewrite <- (nf_prev _ _ _ (F i L)). exact E.
Qed.
Lemma flip_prev : forall ck h i, n_prev (hget (flip ck h) i) = n_prev (hget h i).
Proof. intros [k|] h i; [|reflexivity]. cbn. apply hupd_keep. reflexivity. Qed.
Lemma app_prev : forall h n i, length h <= i -> n_prev (hget (h ++ [n]) i) = if Nat.eqb i (length h) then n_prev n else None.
Proof.
  intros h n i L. rewrite hget_app_case. destruct (Nat.ltb_spec i (length h)); [lia|]. destruct (Nat.eqb_spec i (length h)); reflexivity.
Qed.
Lemma child_prev : forall h p t at_ i, length h <= i -> n_prev (hget (add_child h p (node_new t at_)) i) = None.
Proof.
  intros h p t at_ i L. unfold add_child. rewrite (hupd_keep n_prev) by reflexivity. rewrite app_prev by exact L. destruct (Nat.eqb i (length h)); reflexivity.
Qed.
Lemma orphan_prev : forall h p t at_ i, length h <= i -> n_prev (hget (add_orphan h p (node_new t at_)) i) = None.
Proof.
  intros h p t at_ i L. unfold add_orphan. rewrite (hupd_keep n_prev) by reflexivity. rewrite app_prev by exact L. destruct (Nat.eqb i (length h)); reflexivity.
Qed.
Lemma opened_prev : forall u p t i, length (d_heap u) <= i -> n_prev (hget (opened u p t) i) = None.
Proof. intros. unfold opened. rewrite flip_prev. apply child_prev. assumption. Qed.
Lemma end_info_prev : forall pos n, n_prev (end_info pos n) = n_prev n. Proof. intros. unfold end_info. reflexivity. Qed.

(** The current node is a node of the document, unless it is an end tag that was dropped without
    auto_fix_unclosed_tag. *)
Definition cur_ok (st : doc) : Prop :=
  doc_node (d_heap st) (d_current_node st) \/
  (auto_fix_unexpected_endtag (d_parse_options st) = true /\ auto_fix_unclosed_tag (d_parse_options st) = false /\
   ty (d_heap st) (d_current_node st) = NTagEnd).

Lemma lt_prev : forall opts u s, sok opts u -> prevs (d_heap u) -> prevs (d_heap (lt_text u s)).
Proof.
  intros opts u s S P. eapply prevs_fr; [eapply fr_lt; exact S|exact P|]. intros i p L E. exfalso. revert E. unfold lt_text. cbv zeta.
  destruct (n_type (cur u)); try (cbn [d_heap]; rewrite orphan_prev by exact L; discriminate).
  destruct (n_content (cur u)); cbn [d_heap]; rewrite ?(hupd_keep n_prev) by reflexivity; rewrite hget_default by exact L; discriminate.
Qed.
Lemma closed_end : forall opts u nm tag rest pos, sok opts u -> closes u nm = Some (tag, rest) ->
  n_end_tag (hget (closed_heap u tag nm pos) tag) = Some (length (d_heap u)).
Proof.
  intros opts u nm tag rest pos S C. apply closes_inv in C. destruct C as (C & _). pose proof (chain_hd _ _ _ _ S C) as Lt.
  unfold closed_heap. cbv zeta. rewrite !(hupd_keep n_end_tag) by (intro; unfold end_info; reflexivity).
  match goal with |- n_end_tag (hget (if ?b then ?x else flip ?ck ?x) _) = _ => assert (E : n_end_tag (hget x tag) = Some (length (d_heap u))) end.
  { rewrite hget_hupd_same by (rewrite app_length; cbn; lia). reflexivity. }
  match goal with |- n_end_tag (hget (if ?b then _ else _) _) = _ => destruct b end; [exact E|].
  unfold flip. destruct (d_check_textnode u); [|exact E]. rewrite (hupd_keep n_end_tag) by reflexivity. exact E.
Qed.
Lemma closed_prev : forall u nm tag pos i, length (d_heap u) <= i ->
  n_prev (hget (closed_heap u tag nm pos) i) = None \/
  (auto_fix_unclosed_tag (d_parse_options u) = true /\ n_prev (hget (closed_heap u tag nm pos) i) = Some (d_current_node u)).
Proof.
  intros u nm tag pos i L. unfold closed_heap. cbv zeta. rewrite !(hupd_keep n_prev) by (intro; unfold end_info; reflexivity).
  match goal with |- n_prev (hget (if ?b then ?x else flip ?ck ?x) _) = _ \/ _ =>
    replace (n_prev (hget (if b then x else flip ck x) i)) with (n_prev (hget x i)) by (destruct b; [reflexivity|symmetry; apply flip_prev]) end.
  rewrite (hupd_keep n_prev) by reflexivity. rewrite app_prev by exact L. destruct (Nat.eqb i (length (d_heap u))); [|left; reflexivity].
  destruct (auto_fix_unclosed_tag (d_parse_options u)); [right; split; reflexivity|left; reflexivity].
Qed.

Lemma cur_now : forall opts u, sok opts u -> auto_fix_unclosed_tag (d_parse_options u) = true -> doc_node (d_heap u) (d_current_node u).
Proof.
  intros opts u S A. rewrite (s_opts _ _ S) in A. split; [apply (s_cur _ _ S)|].
  destruct (node_type_eqb (ty (d_heap u) (d_current_node u)) NTagEnd) eqn:T.
  - right. apply (s_last _ _ S A). destruct (ty (d_heap u) (d_current_node u)); try discriminate; reflexivity.
  - left. intro X. rewrite X in T. discriminate.
Qed.
Lemma bstep_prev : forall opts u s st, bstep u s st -> sok opts u -> prevs (d_heap u) -> prevs (d_heap st).
Proof.
  intros opts u s st B. induction B; intros S P.
  all: lazymatch goal with
    | |- prevs (d_heap (set_position _ (lt_text _ _))) => eapply lt_prev; eauto
    | IH : _ -> _ -> prevs (d_heap ?x) |- prevs (d_heap ?x) => apply IH; [|eapply lt_prev; eauto]; apply sok_lt; auto; rewrite <- (s_opts _ _ S); assumption
    | |- _ => idtac end.
  all: (eapply prevs_fr; [eapply bstep_fr; [econstructor; eassumption|exact S]|exact P|]); cbn [W_of d_heap].
  all: intros i0 p0 L0 E0.
  all: try (exfalso; rewrite ?(hupd_keep n_prev) in E0 by (intro; rewrite ?end_info_prev; reflexivity);
            rewrite ?opened_prev, ?child_prev in E0 by exact L0; rewrite ?hget_default in E0 by exact L0; discriminate E0).
  - exfalso. destruct ct; rewrite ?(hupd_keep n_prev) in E0 by reflexivity; rewrite hget_default in E0 by exact L0; discriminate E0.
  - exfalso. unfold set_meta in E0. rewrite ?(hupd_keep n_prev) in E0 by reflexivity. rewrite opened_prev in E0 by exact L0. discriminate E0.
  - exfalso. unfold set_meta in E0. rewrite ?(hupd_keep n_prev) in E0 by reflexivity. rewrite opened_prev in E0 by exact L0. discriminate E0.
  - exfalso. unfold set_meta in E0. rewrite ?(hupd_keep n_prev) in E0 by reflexivity. rewrite opened_prev in E0 by exact L0. discriminate E0.
  - exfalso. rewrite (hupd_keep n_prev) in E0 by reflexivity. unfold set_meta in E0.
    rewrite hget_app_case in E0. destruct (Nat.ltb i0 _); [rewrite (hupd_keep n_prev) in E0 by reflexivity; rewrite opened_prev in E0 by exact L0; discriminate E0|].
    destruct (Nat.eqb i0 _); discriminate E0.
  - destruct (closed_prev u nm tag (d_position u + length (str "/" ++ nm)) i0 L0) as [X|[A X]]; rewrite X in E0; [discriminate|]. injection E0 as <-.
    eapply doc_node_fr; [|eapply cur_now; eauto]. change (fr (d_heap u) (d_heap (W_of u (str "/" ++ nm ++ str ">") (d_mem_position u) (d_mark_char u) rest (length (d_heap u)) (special_closed (d_in_special u) (trim_right nm)) (closed_check u tag) (d_id_tags u) (closed_heap u tag nm (d_position u + length (str "/" ++ nm)))))).
    eapply bstep_fr; [econstructor; eassumption|exact S].
  - unfold dropped_heap in E0. rewrite app_prev in E0 by exact L0. destruct (Nat.eqb i0 (length (d_heap u))); [|discriminate].
    destruct (auto_fix_unclosed_tag (d_parse_options u)) eqn:A; [|discriminate]. cbn in E0. injection E0 as <-.
    eapply doc_node_fr; [|eapply cur_now; eauto]. unfold dropped_heap. apply fr_app, fr_refl.
  - exfalso. unfold set_meta in E0. rewrite ?(hupd_keep n_prev) in E0 by reflexivity. rewrite opened_prev in E0 by exact L0. discriminate E0.
Qed.

Definition cur_end (st : doc) : Prop :=
  auto_fix_unexpected_endtag (d_parse_options st) = false -> ty (d_heap st) (d_current_node st) = NTagEnd ->
  exists p, n_end_tag (hget (d_heap st) p) = Some (d_current_node st).
Lemma not_end : forall st, ty (d_heap st) (d_current_node st) <> NTagEnd -> cur_end st.
Proof. intros st N _ X. contradiction. Qed.
Lemma same_cur : forall u st, cur_end u -> d_parse_options st = d_parse_options u -> d_current_node st = d_current_node u ->
  (forall i, n_type (hget (d_heap st) i) = n_type (hget (d_heap u) i)) ->
  (forall i, n_end_tag (hget (d_heap st) i) = n_end_tag (hget (d_heap u) i)) -> cur_end st.
Proof.
  intros u st C Eo Ec T N A X. rewrite Eo in A. unfold ty in X. rewrite T, Ec in X. destruct (C A X) as [p E]. exists p. rewrite N, Ec. exact E.
Qed.
Lemma bstep_cur : forall opts u s st, bstep u s st -> sok opts u -> cur_end u -> cur_end st.
Proof.
  intros opts u s st B. induction B; intros S C.
  - apply (same_cur st); auto.
  - apply not_end. cbn [d_heap d_current_node]. destruct ct; unfold ty; rewrite ?(hupd_keep n_type) by reflexivity;
      change (n_type (cur st) <> NTagEnd); congruence.
  - apply not_end. cbn [d_heap d_current_node]. rewrite ty_add_child by (eapply chain_hd; eauto). rewrite Nat.eqb_refl. discriminate.
  - apply (same_cur st); auto.
  - apply not_end. cbn [d_heap d_current_node]. unfold ty. rewrite !(hupd_keep n_type) by (intro; unfold end_info; reflexivity).
    pose proof (s_text _ _ S H) as T. unfold ty in T. rewrite T. discriminate.
  - apply not_end. cbn [W_of d_heap d_current_node]. rewrite ty_set_meta. destruct (opened_ok opts u p rest NTag S H2) as (_ & _ & _ & T); try discriminate. rewrite T. discriminate.
  - apply not_end. cbn [W_of d_heap d_current_node]. rewrite ty_set_meta. destruct (opened_ok opts u p rest NTag S H2) as (_ & _ & _ & T); try discriminate. rewrite T. discriminate.
  - apply not_end. cbn [W_of d_heap d_current_node]. rewrite ty_set_meta. destruct (opened_ok opts u p rest NTag S H2) as (_ & _ & _ & T); try discriminate. rewrite T. discriminate.
  - apply not_end. cbn [W_of d_heap d_current_node]. unfold ty. rewrite (hupd_keep n_type) by reflexivity.
    rewrite hget_app_old by (rewrite set_meta_length, opened_length; lia).
    change (ty (set_meta (opened u p NTag) (length (d_heap u)) (ta_meta n false (ta_close t))) (length (d_heap u)) <> NTagEnd). rewrite ty_set_meta.
    destruct (opened_ok opts u p rest NTag S H2) as (_ & _ & _ & T); try discriminate. rewrite T. discriminate.
  - intros _ _. exists tag. cbn [W_of d_heap d_current_node]. eapply closed_end; eauto.
  - cbn [W_of]. intro A. cbn [W_of d_parse_options] in A. congruence.
  - apply not_end. cbn [W_of d_heap d_current_node]. rewrite !ty_hupd_quiet by auto with quiet.
    destruct (opened_ok opts u p rest NComment S H0) as (_ & _ & _ & T); try discriminate. rewrite T. discriminate.
  - apply not_end. cbn [W_of d_heap d_current_node]. rewrite !ty_hupd_quiet by auto with quiet.
    destruct (opened_ok opts u p rest NXMLCDATA S H0) as (_ & _ & _ & T); try discriminate. rewrite T. discriminate.
  - apply not_end. cbn [W_of d_heap d_current_node]. rewrite ty_set_meta. destruct (opened_ok opts u p rest NHTMLDOCTYPE S H0) as (_ & _ & _ & T); try discriminate. rewrite T. discriminate.
  - apply not_end. pose proof (sok_lt opts u (str "&lt;" ++ [c]) S H) as S'. rewrite (s_opts _ _ S) in H0. specialize (S' H0).
    pose proof (s_text _ _ S' (lt_text_T u (str "&lt;" ++ [c]))) as T. change (ty (d_heap (lt_text u (str "&lt;" ++ [c]))) (d_current_node (lt_text u (str "&lt;" ++ [c]))) <> NTagEnd).
    rewrite T. discriminate.
  - assert (S' : sok opts (lt_text u (str "&lt;"))) by (apply sok_lt; auto; rewrite <- (s_opts _ _ S); assumption).
    apply IHB; [exact S'|]. apply not_end. rewrite (s_text _ _ S' (lt_text_T u (str "&lt;"))). discriminate.
Qed.
Lemma bsteps_refs : forall opts s st, bsteps (doc_new opts) s st -> prevs (d_heap st) /\ cur_end st.
Proof.
  intros opts s st B. remember (doc_new opts) as u eqn:E. induction B as [st|u s st1 t st2 B IH H].
  - subst. split; [|apply not_end; discriminate]. intros [|[|i]] p X; discriminate.
  - destruct (IH E) as [P C]. subst u. pose proof (bsteps_sok _ _ _ B) as S. split; [eapply bstep_prev; eauto|eapply bstep_cur; eauto].
Qed.

(** ** The end of input *)
Lemma eof_refs : forall st d, eof st = ROk d ->
  d_current_node d = d_current_node st /\ d_check_textnode d = d_check_textnode st /\ incl (d_chain_nodes d) (d_chain_nodes st).
Proof.
  intros st d H. unfold eof in H.
  match type of H with (do st0 <- ?x; _) = _ => destruct x as [st1| |] eqn:E1; try discriminate end. cbn [rbind] in H.
  assert (A : d_current_node st1 = d_current_node st /\ d_check_textnode st1 = d_check_textnode st /\ incl (d_chain_nodes st1) (d_chain_nodes st)).
  { destruct (Nat.ltb 1 (length (d_chain_nodes st))).
    - destruct (negb (auto_fix_unclosed_tag (d_parse_options st))).
      + destruct (d_chain_nodes st) as [|i l] eqn:Ech; [injection E1 as <-; rewrite Ech; repeat split; auto; apply incl_refl|]. destruct (n_meta (get_node st i)); discriminate.
      + cbv zeta in E1. rewrite fix_unclosed_eq in E1. injection E1 as <-. dst st. cbn. split; [reflexivity|]. split; [reflexivity|].
        intros x X. apply in_rev. rewrite <- (firstn_skipn 1 (rev chain)). apply in_or_app. left. exact X.
    - injection E1 as <-. split; [reflexivity|]. split; [reflexivity|apply incl_refl]. }
  match type of H with (do st0 <- ?x; _) = _ => destruct x as [st2| |] eqn:E2; try discriminate end. cbn [rbind] in H. injection H as <-.
  assert (B : d_current_node st2 = d_current_node st1 /\ d_check_textnode st2 = d_check_textnode st1 /\ d_chain_nodes st2 = d_chain_nodes st1).
  { clear A E1. dst st1. destruct code; cbn in E2; try discriminate; try (injection E2 as <-; auto; fail).
    - destruct (auto_fix_unclosed_tag po); [|discriminate]. injection E2 as <-. auto.
    - destruct rep; injection E2 as <-; auto. }
  destruct A as (A1 & A2 & A3), B as (B1 & B2 & B3). dst st2. cbn in *. subst. auto.
Qed.
Lemma fin_prev : forall st i p, n_prev (hget (fin_heap st) i) = Some p -> n_prev (hget (d_heap st) i) = Some p.
Proof.
  intros st i p. unfold fin_heap. cbv zeta. rewrite (hupd_keep n_prev) by reflexivity.
  assert (E : n_prev (hget (match d_code_in st with CTextNode => hupd (fix_heap (d_position st) (tl (rev (d_chain_nodes st))) (d_heap st)) (d_current_node st) (text_done st)
      | _ => fix_heap (d_position st) (tl (rev (d_chain_nodes st))) (d_heap st) end) i) =
    n_prev (hget (fix_heap (d_position st) (tl (rev (d_chain_nodes st))) (d_heap st)) i)).
  { destruct (d_code_in st); try reflexivity. apply hupd_keep. intro n. unfold text_done. destruct (d_repeat_whitespace st); reflexivity. }
  rewrite E. clear E. generalize (tl (rev (d_chain_nodes st))) as l. generalize (d_heap st) as h. intros h l. revert h.
  induction l as [|k l IH]; intros h X; [exact X|]. cbn [fix_heap fold_left] in X. apply IH in X. unfold fix1 in X.
  destruct (n_meta (hget h k)); [|exact X]. rewrite (hupd_keep n_prev) in X by reflexivity.
  rewrite hget_app_case, hupd_length in X. destruct (Nat.ltb i (length h)).
  - rewrite (hupd_keep n_prev) in X by (intro; unfold nupd_meta; destruct (n_meta n); reflexivity). exact X.
  - destruct (Nat.eqb i (length h)); discriminate.
Qed.
Lemma fin_doc_node : forall opts st d p, ending opts st -> finished opts st d -> doc_node (d_heap st) p -> doc_node (d_heap d) p.
Proof.
  intros opts st d p E F [L D]. pose proof (f_len _ _ _ F) as Ll. split; [lia|]. destruct D as [T|(q & X)].
  - left. rewrite (f_type _ _ _ F p L). destruct (_ && _)%bool; [discriminate|exact T].
  - right. exists q. pose proof (end_lt _ _ _ X) as Lq. destruct (f_closed _ _ _ F q Lq) as [_ Y]; [|rewrite Y; exact X]. left. intro I.
    assert (Iq : In q (d_chain_nodes st)) by (apply (open_iff _ _ _ q (e_hs _ _ E) (e_chain _ _ E)); exact I).
    rewrite (e_open _ _ E q Iq) in X. discriminate.
Qed.
Lemma map_refs_in : forall m seen i, In i (map_refs seen m) -> exists x, In (x, i) m.
Proof.
  induction m as [|[x k] m IH]; intros seen i I; cbn [map_refs] in I; [destruct I|]. destruct (existsb (chars_eqb x) seen).
  - apply IH in I. destruct I as [y Y]. exists y. right. exact Y.
  - destruct I as [<-|I]; [exists x; left; reflexivity|]. apply IH in I. destruct I as [y Y]. exists y. right. exact Y.
Qed.

Definition dropped_end (opts : parse_options) (d : doc) (r : nid) : Prop :=
  r = d_current_node d /\ auto_fix_unexpected_endtag opts = true /\ auto_fix_unclosed_tag opts = false /\ ty (d_heap d) r = NTagEnd.
Theorem parsed_refs : forall opts s d, parse opts s = Parsed d ->
  prevs (d_heap d) /\ forall r, In r (doc_refs d) -> r < length (d_heap d) /\ (doc_node (d_heap d) r \/ dropped_end opts d r).
Proof.
  intros opts s d H. unfold parse, outcome_of in H. destruct (parse_res opts s) as [d'| |] eqn:R; try discriminate. injection H as ->.
  destruct (accepted _ _ _ R) as [s1 [s2 [st1 [st [Es [B [Rn [D He]]]]]]]].
  destruct (accepted_pre _ _ _ R) as [st' [Rn' [E [_ [Z [F _]]]]]]. rewrite Rn in Rn'. injection Rn' as <-.
  pose proof (bsteps_sok _ _ _ B) as S. destruct (bsteps_refs _ _ _ B) as [P C].
  assert (Q : prevs (d_heap st) /\ (doc_node (d_heap st) (d_current_node st) \/
      (auto_fix_unexpected_endtag opts = true /\ auto_fix_unclosed_tag opts = false /\ ty (d_heap st) (d_current_node st) = NTagEnd /\ d_code_in st <> CTextNode)) /\
      forall i, d_check_textnode st = Some i -> textual (ty (d_heap st) i)).
  { destruct D as [[_ [-> D]]|[Af [HU [_ [p [rest [Ec [[On ->]|[n [a [t [_ [On [Ha [As [Tr ->]]]]]]]]]]]]]]]].
    - split; [exact P|]. split; [|apply (s_check _ _ S)].
      destruct (node_type_eqb (ty (d_heap st1) (d_current_node st1)) NTagEnd) eqn:T.
      + assert (T' : ty (d_heap st1) (d_current_node st1) = NTagEnd) by (destruct (ty (d_heap st1) (d_current_node st1)); try discriminate; reflexivity).
        destruct (auto_fix_unclosed_tag opts) eqn:Af; [left; eapply cur_now; [exact S|rewrite (s_opts _ _ S); exact Af]|].
        destruct (auto_fix_unexpected_endtag opts) eqn:Ae.
        * right. repeat split; auto. intro X. rewrite (e_text _ _ E X) in T'. discriminate.
        * left. split; [apply (s_cur _ _ S)|]. right. apply C; [rewrite (s_opts _ _ S); exact Ae|exact T'].
      + left. split; [apply (s_cur _ _ S)|]. left. intro X. rewrite X in T. discriminate.
    - split; [|split; [left|discriminate]].
      + eapply prevs_fr; [eapply fr_opened; exact S|exact P|]. intros i q L X. cbn [st_name d_heap] in X. rewrite opened_prev in X by exact L. discriminate.
      + cbn [st_name d_heap d_current_node]. destruct (opened_ok opts st1 p rest NTag S Ec) as (_ & _ & _ & T); try discriminate.
        split; [rewrite opened_length; lia|]. left. rewrite T. discriminate.
    - split; [|split; [left|discriminate]].
      + cbn [st_area d_heap]. eapply prevs_fr; [apply fr_upd_new; [eapply fr_opened; exact S|apply le_n]|exact P|]. intros i q L X.
        unfold set_meta in X. rewrite (hupd_keep n_prev) in X by reflexivity. rewrite opened_prev in X by exact L. discriminate.
      + cbn [st_area d_heap d_current_node]. destruct (opened_ok opts st1 p rest NTag S Ec) as (_ & _ & _ & T); try discriminate.
        split; [rewrite set_meta_length, opened_length; lia|]. left. rewrite ty_set_meta, T. discriminate. }
  destruct Q as (Qp & Qc & Qk). destruct (eof_refs _ _ He) as (Ec & Ek & Ech). destruct (eof_inv _ _ He) as (_ & _ & Eh & _).
  pose proof (e_hs _ _ E) as HS.
  assert (Nd : forall r, doc_node (d_heap st) r -> r < length (d_heap d) /\ (doc_node (d_heap d) r \/ dropped_end opts d r)).
  { intros r X. pose proof (fin_doc_node opts st d r E F X) as Y. split; [apply Y|left; exact Y]. }
  split.
  - intros i p X. eapply fin_doc_node; eauto. apply (Qp i). apply fin_prev. rewrite <- Eh. exact X.
  - intros r I. unfold doc_refs in I. rewrite !in_app_iff in I. destruct I as [I|[I|[I|[I|I]]]].
    + apply in_rev in I. apply Ech in I. apply Nd. split; [apply (chain_in _ _ _ _ (e_chain _ _ E) I)|]. left.
      destruct (Nat.eq_dec r 0) as [->|N]; [destruct (hs_root _ _ HS) as (_ & T & _); rewrite T; discriminate|].
      rewrite (chain_zero _ _ _ (e_chain _ _ E) r I N). discriminate.
    + destruct I as [<-|[]]. rewrite Ec. destruct Qc as [X|(A1 & A2 & A3 & A4)]; [apply Nd; exact X|].
      pose proof (e_cur _ _ E) as Lc. pose proof (f_len _ _ _ F). split; [lia|]. right. unfold dropped_end. repeat split; auto.
      rewrite (f_type _ _ _ F _ Lc). destruct (d_code_in st); rewrite ?andb_false_r; try exact A3. congruence.
    + rewrite Ek in I. destruct (d_check_textnode st) as [k|] eqn:K; [|destruct I]. destruct I as [<-|[]]. pose proof (Qk k eq_refl) as T.
      apply Nd. split; [apply textual_lt; exact T|]. left. intro X. rewrite X in T. destruct T; discriminate.
    + destruct I as [<-|[]]. rewrite (f_root _ _ _ F). apply Nd. split; [apply HS|]. left. destruct (hs_root _ _ HS) as (_ & T & _). rewrite T. discriminate.
    + apply map_refs_in in I. destruct I as [x I]. rewrite (f_ids _ _ _ F) in I. apply Nd.
      split; [eapply ids_bound; [apply (z_ids _ _ _ Z)|exact I]|]. left. intro X.
      apply (i_in _ _ (z_ids _ _ _ Z)) in I. destruct I as (m & a & M & _).
      assert (Lr : r < length (d_heap st)) by (destruct (Nat.lt_ge_cases r (length (d_heap st))) as [Y|Y]; [exact Y|]; rewrite hget_default in M by exact Y; discriminate).
      destruct (Nat.eq_dec r 0) as [->|N]; [rewrite (z_root _ _ _ Z) in M; discriminate|].
      unfold ty in X. destruct (z_src _ _ _ Z r) as [W|W]; [lia| |destruct W as (_ & T & _); congruence].
      destruct W; try congruence. 
Qed.
