(** End tags match, elements are closed, leaves have no children; the id table. *)
From Coq Require Import String Sorting.Sorted.
From Verif Require Import Api SpecText SpecParse SpecTree NameProofs HeapLemmas InvCtl Big BigSteps RawText Attrs Struct Frame Birth.
Local Open Scope string_scope.
Local Open Scope list_scope.

Definition leaf (m : tag_meta) : bool :=
  (m_is_void m || m_self_closed m || is_content_tag (lower (m_name m)) None)%bool.
Definition vs (m : tag_meta) : bool := (m_is_void m || m_self_closed m)%bool.
Definition end_fits (opts : parse_options) (h : list node) (p e : nid) : Prop :=
  exists m nm, n_meta (hget h p) = Some m /\ n_content (hget h e) = Some nm /\
    fits (case_sensitive_tagname opts) (m_name m) (trim_right nm).
Definition popping (h : list node) : Prop :=
  exists j m, ty h j = NHTMLDOCTYPE /\ n_meta (hget h j) = Some m /\ m_self_closed m = true.

Lemma popping_fr : forall h h', fr h h' -> popping h -> popping h'.
Proof.
  intros h h' [L F] [j [m [T [M Sc]]]]. exists j, m.
  assert (Lj : j < length h).
  { destruct (Nat.lt_ge_cases j (length h)) as [X|X]; [exact X|]. rewrite hget_default in M by exact X. discriminate. }
  split; [|split; [rewrite (nf_meta _ _ _ (F j Lj)); exact M|exact Sc]].
  unfold ty in *. destruct (nf_kind _ _ _ (F j Lj)) as [X|[[X|X] _]]; congruence.
Qed.

Record cl (opts : parse_options) (ch : list nid) (h : list node) : Prop := mkCl {
  k_end : forall p e, n_end_tag (hget h p) = Some e -> end_fits opts h p e;
  k_closed : popping h \/ forall i m, ty h i = NTag -> n_meta (hget h i) = Some m ->
     In i ch \/ n_end_tag (hget h i) <> None \/ vs m = true;
  k_leaf : forall i m, In i ch -> ty h i = NTag -> n_meta (hget h i) = Some m -> leaf m = false;
  k_leafend : forall i m, ty h i = NTag -> n_meta (hget h i) = Some m -> vs m = true -> n_end_tag (hget h i) = None;
  k_kids : auto_fix_unescaped_lt opts = false -> forall i m, ty h i = NTag -> n_meta (hget h i) = Some m ->
     leaf m = true -> kids h i = []
}.

Definition new_ok (opts : parse_options) (ch' : list nid) (h' : list node) (j : nid) : Prop :=
  (forall e, n_end_tag (hget h' j) = Some e -> end_fits opts h' j e) /\
  (forall m, ty h' j = NTag -> n_meta (hget h' j) = Some m ->
     (In j ch' \/ n_end_tag (hget h' j) <> None \/ vs m = true) /\ (In j ch' -> leaf m = false) /\
     (vs m = true -> n_end_tag (hget h' j) = None) /\ (leaf m = true -> kids h' j = [])).

Lemma leaf_vs : forall m, vs m = true -> leaf m = true.
Proof. intros m H. unfold leaf. fold (vs m). rewrite H. reflexivity. Qed.
Lemma fr_ty : forall h h' i t, fr h h' -> i < length h -> ~ textual t -> (ty h' i = t <-> ty h i = t).
Proof.
  intros h h' i t [_ F] Hi N. pose proof (nf_kind _ _ _ (F i Hi)) as K. unfold ty.
  symmetry. apply kind_neq; assumption.
Qed.

Lemma cl_step : forall lt opts ch h ch' h', hs lt h -> cl opts ch h -> fr h h' ->
  (forall i, i < length h -> n_end_tag (hget h' i) = n_end_tag (hget h i) \/
      (In i ch /\ exists e, n_end_tag (hget h' i) = Some e /\ end_fits opts h' i e)) ->
  (auto_fix_unescaped_lt opts = false -> forall i, i < length h -> ~ In i ch -> kids h' i = kids h i) ->
  (popping h' \/ forall i, In i ch -> In i ch' \/ n_end_tag (hget h' i) <> None) ->
  (forall i, In i ch' -> In i ch \/ length h <= i) ->
  (forall j, length h <= j < length h' -> new_ok opts ch' h' j) -> cl opts ch' h'.
Proof.
  intros lt opts ch h ch' h' H [K1 K2 K3 K4 K5] F E K C C2 N. pose proof F as [L F'].
  assert (Ty : forall i, i < length h -> ty h' i = NTag <-> ty h i = NTag) by (intros; apply fr_ty; [exact F|assumption|apply not_text_tag]).
  assert (M : forall i, i < length h -> n_meta (hget h' i) = n_meta (hget h i)) by (intros i Hi; apply (nf_meta _ _ _ (F' i Hi))).
  assert (Nlt : forall i, ty h' i = NTag -> i < length h').
  { intros i Hi. destruct (Nat.lt_ge_cases i (length h')) as [X|X]; [exact X|]. unfold ty in Hi. rewrite hget_default in Hi by exact X. discriminate. }
  constructor.
  - intros p e X. destruct (Nat.lt_ge_cases p (length h)) as [Y|Y].
    + destruct (E p Y) as [Z|[_ [e' [Z Z']]]].
      * rewrite Z in X. destruct (K1 p e X) as [m [nm [A [B D]]]]. exists m, nm. rewrite M by exact Y.
        destruct (hs_end _ _ H p e X) as [P [T _]]. 
        destruct (nf_fixed _ _ _ (F' e ltac:(lia))) as [Q _]; [unfold ty in T; rewrite T; apply not_text_end|]. rewrite Q. auto.
      * rewrite Z in X. injection X as ->. exact Z'.
    + destruct (Nat.lt_ge_cases p (length h')) as [Z|Z]; [|rewrite hget_default in X by exact Z; discriminate].
      apply (N p (conj Y Z)). exact X.
  - destruct C as [C|C]; [left; exact C|]. destruct K2 as [[j [m [A [B D]]]]|K2].
    + left. exists j, m. assert (j < length h).
      { destruct (Nat.lt_ge_cases j (length h)) as [X|X]; [exact X|]. unfold ty in A. rewrite hget_default in A by exact X. discriminate. }
      rewrite M by assumption. split; [|auto]. apply (fr_ty h h' j NHTMLDOCTYPE F); auto. intros [X|X]; discriminate.
    + right. intros i m T Mi. destruct (Nat.lt_ge_cases i (length h)) as [Y|Y].
      * rewrite Ty in T by exact Y. rewrite M in Mi by exact Y. destruct (K2 i m T Mi) as [X|[X|X]]; auto.
        -- destruct (C i X); auto.
        -- right. left. destruct (E i Y) as [Z|[_ [e' [Z Z']]]]; congruence.
      * apply (N i (conj Y (Nlt i T))); assumption.
  - intros i m Hi T Mi. destruct (Nat.lt_ge_cases i (length h)) as [Y|Y].
    + destruct (C2 i Hi) as [X|X]; [|lia]. rewrite Ty in T by exact Y. rewrite M in Mi by exact Y. eauto.
    + apply (N i (conj Y (Nlt i T))); assumption.
  - intros i m T Mi V. destruct (Nat.lt_ge_cases i (length h)) as [Y|Y].
    + rewrite Ty in T by exact Y. rewrite M in Mi by exact Y. destruct (E i Y) as [Z|[Z _]].
      * rewrite Z. eauto.
      * apply leaf_vs in V. rewrite (K3 i m Z T Mi) in V. discriminate.
    + apply (N i (conj Y (Nlt i T)) ) with (m := m); assumption.
  - intros Hl i m T Mi V. destruct (Nat.lt_ge_cases i (length h)) as [Y|Y].
    + rewrite Ty in T by exact Y. rewrite M in Mi by exact Y. rewrite K; eauto.
      intro X. rewrite (K3 i m X T Mi) in V. discriminate.
    + apply (N i (conj Y (Nlt i T)) ) with (m := m); assumption.
Qed.

(** Links of old nodes under the heap operations. *)
Lemma et_flip : forall ck h i, n_end_tag (hget (flip ck h) i) = n_end_tag (hget h i).
Proof. intros [k|] h i; [|reflexivity]. cbn. apply (hupd_keep n_end_tag). reflexivity. Qed.
Lemma kids_flip : forall ck h i, kids (flip ck h) i = kids h i.
Proof. intros [k|] h i; [|reflexivity]. cbn. unfold kids. rewrite (hupd_keep n_childs) by reflexivity. reflexivity. Qed.
Lemma kids_keep : forall h i j f, (forall n, n_childs (f n) = n_childs n) -> kids (hupd h i f) j = kids h j.
Proof. intros. unfold kids. rewrite (hupd_keep n_childs) by assumption. reflexivity. Qed.
Lemma et_opened : forall u p t i, n_end_tag (hget (opened u p t) i) = n_end_tag (hget (d_heap u) i).
Proof. intros. unfold opened. rewrite et_flip. apply et_add_child. reflexivity. Qed.
Lemma kids_app : forall h n i, n_childs n = None -> kids (h ++ [n]) i = kids h i.
Proof.
  intros h n i E. unfold kids. rewrite hget_app_case. destruct (Nat.ltb_spec i (length h)); [reflexivity|].
  rewrite (hget_default h i) by assumption. destruct (Nat.eqb i (length h)); [rewrite E|]; reflexivity.
Qed.
Lemma kids_opened : forall u p t i, i <> p -> kids (opened u p t) i = kids (d_heap u) i.
Proof.
  intros u p t i N. unfold opened. rewrite kids_flip. unfold add_child. unfold kids at 1.
  rewrite hget_hupd_other by congruence. change (kids (d_heap u ++ [child_node (d_heap u) p (node_new t (d_mem_position u))]) i = kids (d_heap u) i).
  apply kids_app. reflexivity.
Qed.
Lemma et_set_meta : forall h i m j, n_end_tag (hget (set_meta h i m) j) = n_end_tag (hget h j).
Proof. intros. apply (hupd_keep n_end_tag). reflexivity. Qed.

Lemma cl_opened : forall opts u p rest t ch' h' nn, sok opts u -> cl opts (d_chain_nodes u) (d_heap u) ->
  d_chain_nodes u = p :: rest -> fr (d_heap u) h' -> length h' = S (length (d_heap u)) ->
  (forall i, i < length (d_heap u) -> hget h' i = hget (opened u p t) i) ->
  hget h' (length (d_heap u)) = nn -> n_end_tag nn = None -> n_childs nn = None ->
  (n_type nn = NTag -> forall m, n_meta nn = Some m ->
      (ch' = d_chain_nodes u /\ vs m = true) \/ (ch' = length (d_heap u) :: d_chain_nodes u /\ leaf m = false)) ->
  (ch' = d_chain_nodes u \/ ch' = length (d_heap u) :: d_chain_nodes u \/
   (ch' = rest /\ n_type nn = NHTMLDOCTYPE /\ exists m, n_meta nn = Some m /\ m_self_closed m = true)) ->
  cl opts ch' h'.
Proof.
  intros opts u p rest t ch' h' nn S K E F L Old New Ne Nc Tag Hch.
  assert (Hin : forall i, In i (d_chain_nodes u) -> i < length (d_heap u)) by (intros i; apply (chain_in _ _ _ _ (s_chain _ _ S))).
  eapply cl_step; [apply (s_hs _ _ S)|exact K|exact F|..].
  - intros i Hi. left. rewrite Old by exact Hi. apply et_opened.
  - intros _ i Hi Ni. unfold kids. rewrite Old by exact Hi. apply (kids_opened u p t). intros ->. apply Ni. rewrite E. left. reflexivity.
  - destruct Hch as [->|[->|[-> [T [m [M1 M2]]]]]]; [right; auto|right; intros i Hi; left; right; exact Hi|].
    left. exists (length (d_heap u)), m. unfold ty. rewrite New. auto.
  - destruct Hch as [->|[->|[-> _]]]; intros i Hi; auto.
    + destruct Hi as [<-|Hi]; [right; apply le_n|auto].
    + left. rewrite E. right. exact Hi.
  - intros j Hj. assert (j = length (d_heap u)) by lia. subst j. split.
    + intros e X. rewrite New, Ne in X. discriminate.
    + intros m T Mj. unfold ty in T. rewrite New in T, Mj. rewrite New, Ne. unfold kids. rewrite New, Nc.
      destruct (Tag T m Mj) as [[-> V]|[-> V]].
      * split; [auto|]. split; [|auto]. intro X. apply Hin in X. lia.
      * split; [left; left; reflexivity|]. auto.
Qed.


Lemma et_closed : forall u tag nm pos i, tag < length (d_heap u) ->
  n_end_tag (hget (closed_heap u tag nm pos) i) = if Nat.eqb i tag then Some (length (d_heap u)) else n_end_tag (hget (d_heap u) i).
Proof.
  intros u tag nm pos i Ht. unfold closed_heap. cbv zeta. rewrite !(hupd_keep n_end_tag) by reflexivity.
  assert (X : forall n, n_end_tag n = None -> n_end_tag (hget (hupd (d_heap u ++ [n]) tag (nset_end_tag (Some (length (d_heap u))))) i) =
    if Nat.eqb i tag then Some (length (d_heap u)) else n_end_tag (hget (d_heap u) i)).
  { intros n Hn. destruct (Nat.eqb_spec i tag) as [->|N].
    - rewrite hget_hupd_same by (rewrite app_length; lia). reflexivity.
    - rewrite hget_hupd_other by congruence. rewrite hget_app_case. destruct (Nat.ltb_spec i (length (d_heap u))); [reflexivity|].
      rewrite (hget_default (d_heap u) i) by assumption. destruct (Nat.eqb i (length (d_heap u))); [rewrite Hn|]; reflexivity. }
  match goal with |- n_end_tag (hget (if ?b then _ else _) _) = _ => destruct b end; rewrite ?et_flip;
    apply X; destruct (auto_fix_unclosed_tag (d_parse_options u)); reflexivity.
Qed.
Lemma kids_closed : forall u tag nm pos i, kids (closed_heap u tag nm pos) i = kids (d_heap u) i.
Proof.
  intros u tag nm pos i. unfold closed_heap. cbv zeta. rewrite !kids_keep by reflexivity.
  match goal with |- kids (if ?b then _ else _) _ = _ => destruct b end; rewrite ?kids_flip, kids_keep by reflexivity;
    apply kids_app; destruct (auto_fix_unclosed_tag (d_parse_options u)); reflexivity.
Qed.
Lemma closed_length : forall u tag nm pos, length (closed_heap u tag nm pos) = S (length (d_heap u)).
Proof.
  intros. unfold closed_heap. cbv zeta. rewrite !hupd_length.
  match goal with |- length (if ?b then _ else _) = _ => destruct b end; rewrite ?flip_length, hupd_length, app_length; cbn; lia.
Qed.
Lemma closed_end_content : forall opts u nm tag rest pos, sok opts u -> closes u nm = Some (tag, rest) ->
  n_content (hget (closed_heap u tag nm pos) (length (d_heap u))) = Some nm /\ ty (closed_heap u tag nm pos) (length (d_heap u)) = NTagEnd.
Proof.
  intros opts u nm tag rest pos S C. destruct (closes_inv _ _ _ _ C) as [Ec [Hr _]].
  split.
  - unfold closed_heap. cbv zeta. rewrite hget_hupd_same; [reflexivity|].
    rewrite hupd_length. match goal with |- _ < length (if ?b then _ else _) => destruct b end; rewrite ?flip_length, hupd_length, app_length; cbn; lia.
  - destruct (closed_sim opts u tag rest nm pos S Ec Hr) as [n [_ [_ [_ [_ [F [_ [Te _]]]]]]]].
    destruct F as [_ F]. destruct (F (length (d_heap u))) as [_ K]. exact (proj1 (kind_neq _ _ NTagEnd K not_text_end) Te).
Qed.

Lemma lt_links : forall opts u s, sok opts u -> is_U u -> auto_fix_unescaped_lt opts = true ->
  cl opts (d_chain_nodes u) (d_heap u) -> cl opts (d_chain_nodes (lt_text u s)) (d_heap (lt_text u s)).
Proof.
  intros opts u s S U Hlt K.
  assert (Ec : d_chain_nodes (lt_text u s) = d_chain_nodes u).
  { unfold lt_text. cbv zeta. destruct (n_type (cur u)); try reflexivity. destruct (n_content (cur u)); reflexivity. }
  rewrite Ec. eapply cl_step; [apply (s_hs _ _ S)|exact K|eapply fr_lt; exact S|..].
  - intros i Hi. left. unfold lt_text. cbv zeta.
    assert (O : forall p n, n_end_tag n = None -> n_end_tag (hget (add_orphan (d_heap u) p n) i) = n_end_tag (hget (d_heap u) i)) by (intros; apply et_add_orphan; assumption).
    destruct (n_type (cur u)); try (apply O; reflexivity).
    destruct (n_content (cur u)); cbn [d_heap]; [|reflexivity]. apply (hupd_keep n_end_tag). reflexivity.
  - rewrite Hlt. discriminate.
  - right. auto.
  - auto.
  - intros j Hj. destruct (lt_new opts u s j) as [-> [_ [_ [p E]]]]; auto. split.
    + intros e X. rewrite E in X. discriminate.
    + intros m T. unfold ty in T. rewrite E in T. discriminate.
Qed.

Lemma bstep_cl : forall opts u s st, bstep u s st -> sok opts u -> cl opts (d_chain_nodes u) (d_heap u) ->
  cl opts (d_chain_nodes st) (d_heap st).
Proof.
  intros opts u s st B. induction B; intros S K; cbn [W_of d_heap d_chain_nodes].
  - exact K.
  - destruct ct; [|exact K]. eapply cl_step; [apply (s_hs _ _ S)|exact K|..]; auto.
    + apply fr_upd; [apply fr_refl|]. intros _. apply nfr_text; auto. left. assumption.
    + intros i Hi. left. apply (hupd_keep n_end_tag). reflexivity.
    + intros _ i Hi _. apply kids_keep. reflexivity.
    + intros j Hj. rewrite hupd_length in Hj. lia.
  - assert (Hp : p < length (d_heap st)) by (eapply chain_hd; eauto).
    eapply cl_step; [apply (s_hs _ _ S)|exact K|apply fr_child|..]; auto.
    + intros i Hi. left. apply et_add_child. reflexivity.
    + intros _ i Hi Ni. unfold kids at 1. rewrite hget_add_child. destruct (Nat.eqb_spec i (length (d_heap st))); [lia|].
      destruct (Nat.eqb_spec i p) as [->|]; [|reflexivity]. exfalso. apply Ni. rewrite H2. left. reflexivity.
    + intros j Hj. rewrite add_child_length in Hj. assert (j = length (d_heap st)) by lia. subst j. split.
      * intros e X. rewrite hget_child_new in X by exact Hp. discriminate.
      * intros m T. unfold ty in T. rewrite hget_child_new in T by exact Hp. discriminate.
  - exact K.
  - rewrite hupd_hupd. pose proof (s_text _ _ S H) as Tc. eapply cl_step; [apply (s_hs _ _ S)|exact K|..]; auto.
    + apply fr_upd; [apply fr_refl|]. intros _. apply nfr_text; auto. left. exact Tc.
    + intros i Hi. left. apply (hupd_keep n_end_tag). reflexivity.
    + intros _ i Hi _. apply kids_keep. reflexivity.
    + intros j Hj. rewrite hupd_length in Hj. lia.
  - eapply (cl_opened opts u p rest NTag _ _ (nset_meta (Some (ta_meta n false (ta_close t))) (child_node (d_heap u) p (node_new NTag (d_mem_position u))))); eauto.
    + apply fr_upd_new; [eapply fr_opened; eauto|apply le_n].
    + rewrite set_meta_length, opened_length. reflexivity.
    + intros i Hi. unfold set_meta. rewrite hget_hupd_other by lia. reflexivity.
    + unfold set_meta. rewrite hget_hupd_same by (rewrite opened_length; lia). rewrite (hget_opened_new opts u p rest) by assumption. reflexivity.
    + intros _ m Hm. cbn in Hm. injection Hm as <-. right. split; [reflexivity|]. unfold leaf, ta_meta. cbn [m_is_void m_self_closed m_name]. rewrite H6, H7. reflexivity.
  - eapply (cl_opened opts u p rest NTag _ _ (nset_meta (Some (ta_meta n false (ta_close t))) (child_node (d_heap u) p (node_new NTag (d_mem_position u))))); eauto.
    + apply fr_upd_new; [eapply fr_opened; eauto|apply le_n].
    + rewrite set_meta_length, opened_length. reflexivity.
    + intros i Hi. unfold set_meta. rewrite hget_hupd_other by lia. reflexivity.
    + unfold set_meta. rewrite hget_hupd_same by (rewrite opened_length; lia). rewrite (hget_opened_new opts u p rest) by assumption. reflexivity.
    + intros _ m Hm. cbn in Hm. injection Hm as <-. left. split; [reflexivity|]. unfold vs, ta_meta. cbn [m_is_void m_self_closed m_name]. rewrite H6. reflexivity.
  - eapply (cl_opened opts u p rest NTag _ _ (nset_meta (Some (ta_meta n true t)) (child_node (d_heap u) p (node_new NTag (d_mem_position u))))); eauto.
    + apply fr_upd_new; [eapply fr_opened; eauto|apply le_n].
    + rewrite set_meta_length, opened_length. reflexivity.
    + intros i Hi. unfold set_meta. rewrite hget_hupd_other by lia. reflexivity.
    + unfold set_meta. rewrite hget_hupd_same by (rewrite opened_length; lia). rewrite (hget_opened_new opts u p rest) by assumption. reflexivity.
    + intros _ m Hm. cbn in Hm. injection Hm as <-. left. split; [reflexivity|]. unfold vs, ta_meta. cbn [m_is_void m_self_closed m_name]. apply Bool.orb_true_r.
  - (* raw *)
    destruct (proj1 (raw_end_iff (d_parse_options u) n b H0) H8) as [body [nm [w [Eb [Ww Fn]]]]].
    destruct (raw_split (d_parse_options u) n b body nm w H0 Eb Ww Fn) as [Sb Sn].
    fold k in Sb, Sn. rewrite Sb, Sn.
    set (N := length (d_heap u)) in *. set (h1 := set_meta (opened u p NTag) N (ta_meta n false (ta_close t))).
    assert (L1 : length h1 = Datatypes.S N) by (unfold h1; rewrite set_meta_length, opened_length; reflexivity).
    set (e := nset_parent _ _). set (f := fun x : node => _). set (h2 := hupd (h1 ++ [e]) N f).
    assert (L2 : length h2 = Datatypes.S (Datatypes.S N)) by (unfold h2; rewrite hupd_length, app_length, L1; cbn; lia).
    assert (GN : hget h2 N = f (nset_meta (Some (ta_meta n false (ta_close t))) (child_node (d_heap u) p (node_new NTag (d_mem_position u))))).
    { unfold h2. rewrite hget_hupd_same by (rewrite app_length; lia). rewrite hget_app_old by lia. unfold h1, set_meta.
      rewrite hget_hupd_same by (rewrite opened_length; fold N; lia). unfold N. rewrite (hget_opened_new opts u p rest) by assumption. reflexivity. }
    assert (GE : hget h2 (Datatypes.S N) = e).
    { unfold h2. rewrite hget_hupd_other by lia. rewrite <- L1. apply hget_app_new. }
    assert (Old : forall i, i < N -> hget h2 i = hget (opened u p NTag) i).
    { intros i Hi. unfold h2. rewrite hget_hupd_other by lia. rewrite hget_app_old by lia. unfold h1, set_meta. rewrite hget_hupd_other by lia. reflexivity. }
    eapply cl_step; [apply (s_hs _ _ S)|exact K|..]; auto; fold N.
    + unfold h2. apply fr_upd_new; [|apply le_n]. apply fr_app. apply fr_upd_new; [eapply fr_opened; eauto|apply le_n].
    + intros i Hi. left. rewrite Old by exact Hi. apply et_opened.
    + intros _ i Hi Ni. unfold kids. rewrite Old by exact Hi. apply (kids_opened u p NTag). intros ->. apply Ni. rewrite H2. left. reflexivity.
    + intros j Hj. rewrite L2 in Hj. destruct (Nat.eq_dec j N) as [->|Nj].
      * split.
        -- intros e' X. rewrite GN in X. cbn in X. injection X as <-. unfold end_fits. rewrite GN, GE. cbn.
           eexists. eexists. split; [reflexivity|]. split; [reflexivity|]. cbn [ta_meta m_name].
           rewrite <- (s_opts _ _ S). pose proof (trim_fits (case_sensitive_tagname (d_parse_options u)) n nm [] w H0 Fn Ww) as X. cbn [app] in X. rewrite X. exact Fn.
        -- intros m T M. rewrite GN in M |- *. cbn in M. injection M as <-. split; [right; left; discriminate|]. split.
           ++ intro X. apply (chain_in _ _ _ _ (s_chain _ _ S)) in X. fold N in X. lia.
           ++ split; [|intros _; unfold kids; rewrite GN; reflexivity].
              intro V. unfold vs, ta_meta in V. cbn [m_is_void m_self_closed m_name] in V. rewrite (content_not_void _ H6) in V. discriminate.
      * assert (j = Datatypes.S N) by lia. subst j. split.
        -- intros e' X. rewrite GE in X. discriminate.
        -- intros m T. unfold ty in T. rewrite GE in T. discriminate.
  - (* end tag *)
    destruct (closes_inv _ _ _ _ H1) as [Ec [Hr [m [Mm Sn]]]].
    pose proof (chain_hd _ _ _ _ S Ec) as Ht.
    pose proof (fr_closed opts u tag nm (d_position u + length (str "/" ++ nm)) S) as F.
    assert (En : n_end_tag (hget (d_heap u) tag) = None) by (apply (s_open _ _ S); rewrite Ec; left; reflexivity).
    specialize (F En).
    destruct (closed_end_content opts u nm tag rest (d_position u + length (str "/" ++ nm)) S H1) as [Ce Te].
    eapply cl_step; [apply (s_hs _ _ S)|exact K|exact F|..].
    + intros i Hi. rewrite et_closed by exact Ht. destruct (Nat.eqb_spec i tag) as [->|Nt]; [right|left; reflexivity].
      split; [rewrite Ec; left; reflexivity|]. exists (length (d_heap u)). split; [reflexivity|].
      exists m, nm. destruct F as [_ F]. rewrite (nf_meta _ _ _ (F tag Ht)). split; [exact Mm|]. split; [exact Ce|].
      split; [exact Sn|]. intro Cs. rewrite <- (s_opts _ _ S) in Cs. destruct (H2 Cs) as [m' [M1 M2]].
      unfold get_node in M1. congruence.
    + intros _ i _ _. apply kids_closed.
    + right. intros i Hi. rewrite Ec in Hi. destruct Hi as [<-|Hi]; [right|left; exact Hi].
      rewrite et_closed, Nat.eqb_refl by exact Ht. discriminate.
    + intros i Hi. left. rewrite Ec. right. exact Hi.
    + intros j Hj. rewrite closed_length in Hj. assert (j = length (d_heap u)) by lia. subst j. split.
      * intros e X. rewrite et_closed in X by exact Ht. destruct (Nat.eqb_spec (length (d_heap u)) tag); [lia|].
        rewrite hget_default in X by lia. discriminate.
      * intros m' T. congruence.
  - destruct (dropped_eq u) as [n0 [Tn [E [_ En]]]].
    assert (Nn : n_end_tag n0 = None /\ n_childs n0 = None) by (subst n0; destruct (auto_fix_unclosed_tag (d_parse_options u)); split; reflexivity).
    destruct Nn as [N1 N2]. rewrite E.
    eapply cl_step; [apply (s_hs _ _ S)|exact K|apply fr_app, fr_refl|..]; auto.
    + intros i Hi. left. rewrite hget_app_old by exact Hi. reflexivity.
    + intros _ i Hi _. apply kids_app, N2.
    + intros j Hj. rewrite app_length in Hj. cbn in Hj. assert (j = length (d_heap u)) by lia. subst j.
      unfold new_ok, ty. rewrite hget_app_new. split; [intros e X; congruence|intros m T; congruence].
  - eapply (cl_opened opts u p rest NComment _ _ (end_info (d_position u + length (str "!--" ++ b)) (nset_content (Some (firstn (length b - 2) b)) (child_node (d_heap u) p (node_new NComment (d_mem_position u)))))); eauto.
    + apply fr_upd_new; [|apply le_n]. apply fr_upd_new; [eapply fr_opened; eauto|apply le_n].
    + rewrite !hupd_length, opened_length. reflexivity.
    + intros i Hi. rewrite !hget_hupd_other by lia. reflexivity.
    + rewrite hget_hupd_same by (rewrite hupd_length, opened_length; lia). rewrite hget_hupd_same by (rewrite opened_length; lia).
      rewrite (hget_opened_new opts u p rest) by assumption. reflexivity.
    + intro T. discriminate.
  - eapply (cl_opened opts u p rest NXMLCDATA _ _ (end_info (d_position u + length (str "!" ++ kw ++ b)) (nset_content (Some (firstn (length b - 2) b)) (child_node (d_heap u) p (node_new NXMLCDATA (d_mem_position u)))))); eauto.
    + apply fr_upd_new; [|apply le_n]. apply fr_upd_new; [eapply fr_opened; eauto|apply le_n].
    + rewrite !hupd_length, opened_length. reflexivity.
    + intros i Hi. rewrite !hget_hupd_other by lia. reflexivity.
    + rewrite hget_hupd_same by (rewrite hupd_length, opened_length; lia). rewrite hget_hupd_same by (rewrite opened_length; lia).
      rewrite (hget_opened_new opts u p rest) by assumption. reflexivity.
    + intro T. discriminate.
  - eapply (cl_opened opts u p rest NHTMLDOCTYPE _ _ (nset_meta (Some (ta_meta n (ta_slash t) t')) (child_node (d_heap u) p (node_new NHTMLDOCTYPE (d_mem_position u))))); eauto.
    + apply fr_upd_new; [eapply fr_opened; eauto|apply le_n].
    + rewrite set_meta_length, opened_length. reflexivity.
    + intros i Hi. unfold set_meta. rewrite hget_hupd_other by lia. reflexivity.
    + unfold set_meta. rewrite hget_hupd_same by (rewrite opened_length; lia). rewrite (hget_opened_new opts u p rest) by assumption. reflexivity.
    + intro T. discriminate.
    + destruct (ta_slash t) eqn:Sl; [|auto]. right. right. rewrite H0. split; [reflexivity|]. split; [reflexivity|].
      eexists. split; [reflexivity|]. reflexivity.
  - assert (Hlt : auto_fix_unescaped_lt opts = true) by (rewrite <- (s_opts _ _ S); assumption).
    exact (lt_links opts u _ S H Hlt K).
  - assert (Hlt : auto_fix_unescaped_lt opts = true) by (rewrite <- (s_opts _ _ S); assumption).
    apply IHB; [apply sok_lt; auto|]. apply lt_links; auto.
Qed.

Lemma cl_init : forall opts, cl opts (d_chain_nodes (doc_new opts)) (d_heap (doc_new opts)).
Proof.
  intro opts. constructor.
  - intros [|[|p]] e X; discriminate.
  - right. intros [|[|i]] m X; discriminate.
  - intros [|[|i]] m _ X; discriminate.
  - intros [|[|i]] m X; discriminate.
  - intros _ [|[|i]] m X; discriminate.
Qed.
Lemma bsteps_cl : forall opts s st, bsteps (doc_new opts) s st -> cl opts (d_chain_nodes st) (d_heap st).
Proof.
  intros opts s st B. remember (doc_new opts) as s0 eqn:E0. induction B as [|st0 s st1 t st2 B IH C]; subst.
  - apply cl_init.
  - eapply bstep_cl; [exact C|eapply bsteps_sok; exact B|apply IH; reflexivity].
Qed.
