(** What is known about the heap when the end of the input is reached. *)
From Coq Require Import String Sorting.Sorted.
From Verif Require Import Api SpecText SpecParse SpecTree NameProofs HeapLemmas InvCtl Big BigSteps RawText Attrs Struct
  Frame Birth TextInv CloseInv PosInv Static StructEnd Final.
Local Open Scope string_scope.
Local Open Scope list_scope.

(** A start tag cut off by the end of the input. *)
Definition un (opts : parse_options) (s : list char) (x : node) : Prop :=
  auto_fix_unclosed_tag opts = true /\ n_type x = NTag /\ n_content x = None /\
  exists s1 n a, s = s1 ++ str "<" ++ n ++ a /\ n_begin_at x = length s1 /\ open_name n /\
    ((a = [] /\ n_meta x = None) \/
     (a <> [] /\ area_start a /\ exists mk t, ta_run opts false a (ta_start mk) = Some t /\ n_meta x = Some (ta_meta n false t))).

Record pre (opts : parse_options) (s : list char) (st : doc) : Prop := mkPre {
  z_pos : d_position st = length s;
  z_root : n_meta (hget (d_heap st) 0) = None;
  z_rootat : n_begin_at (hget (d_heap st) 0) = 0;
  z_src : forall i, 0 < i < length (d_heap st) -> wr opts s (hget (d_heap st) i) \/ un opts s (hget (d_heap st) i);
  z_tok : tok_ok st;
  z_at : forall i, i < length (d_heap st) ->
     n_begin_at (hget (d_heap st) i) <= n_end_at (hget (d_heap st) i) <= d_position st;
  z_order : forall i j, i < j < length (d_heap st) ->
     n_begin_at (hget (d_heap st) i) <= n_begin_at (hget (d_heap st) j) /\
     (n_meta (hget (d_heap st) i) <> None -> n_meta (hget (d_heap st) j) <> None ->
      n_begin_at (hget (d_heap st) i) < n_begin_at (hget (d_heap st) j));
  z_ids : ids_ok (d_id_tags st) (d_heap st);
  z_end : forall p e, n_end_tag (hget (d_heap st) p) = Some e -> end_fits opts (d_heap st) p e;
  z_closed : popping (d_heap st) \/ forall i m, ty (d_heap st) i = NTag -> n_meta (hget (d_heap st) i) = Some m ->
     In i (d_chain_nodes st) \/ n_end_tag (hget (d_heap st) i) <> None \/ vs m = true;
  z_leaf : forall i m, In i (d_chain_nodes st) -> ty (d_heap st) i = NTag -> n_meta (hget (d_heap st) i) = Some m ->
     leaf m = false \/ un opts s (hget (d_heap st) i);
  z_leafend : forall i m, ty (d_heap st) i = NTag -> n_meta (hget (d_heap st) i) = Some m -> vs m = true -> n_end_tag (hget (d_heap st) i) = None;
  z_kids : auto_fix_unescaped_lt opts = false -> forall i m, ty (d_heap st) i = NTag -> n_meta (hget (d_heap st) i) = Some m ->
     leaf m = true -> kids (d_heap st) i = [];
  z_self : forall i m, ty (d_heap st) i = NTag -> n_meta (hget (d_heap st) i) = Some m -> m_self_closed m = true ->
     allow_self_closing opts = true \/ m_is_void m = true \/ exists j k nm, j < i /\ special_at (d_heap st) j k nm
}.

Lemma root_meta : forall opts s st, bsteps (doc_new opts) s st -> n_meta (hget (d_heap st) 0) = None /\ n_begin_at (hget (d_heap st) 0) = 0.
Proof.
  intros opts s st B. pose proof (bsteps_fr opts _ _ _ B) as Fr.
  destruct Fr as [_ Fr]; [eapply bsteps_sok; constructor|]. split; [apply (nf_meta _ _ _ (Fr 0 ltac:(cbn; lia)))|apply (nf_begin _ _ _ (Fr 0 ltac:(cbn; lia)))].
Qed.
Lemma pre_full : forall opts s st, bsteps (doc_new opts) s st -> pre opts s st.
Proof.
  intros opts s st B. pose proof (bsteps_cl _ _ _ B) as [K1 K2 K3 K4 K5]. pose proof (bsteps_pk _ _ _ B) as [P1 P2]. constructor; auto.
  - eapply bsteps_pos0; eauto.
  - eapply root_meta; eauto.
  - eapply root_meta; eauto.
  - intros i Hi. left. eapply written; eauto.
  - eapply bsteps_tok; eauto.
  - intros i Hi. apply P1, Hi.
  - eapply bsteps_ids; eauto.
  - intros i m Hi T M. left. eauto.
  - intros i m T M Sc. eapply self_closed_where; eauto.
Qed.

Lemma wr_more : forall opts s s' x, wr opts s x -> wr opts (s ++ s') x.
Proof.
  intros opts s s' x W. destruct W.
  - apply wr_text; assumption.
  - eapply (wr_tag opts _ x s1 n a (s2 ++ s')); eauto. subst. rewrite <- !app_assoc. reflexivity.
  - eapply (wr_raw opts _ x s1 n a b (s2 ++ s')); eauto. subst. rewrite <- !app_assoc. reflexivity.
  - eapply (wr_end opts _ x s1 nm (s2 ++ s')); eauto. subst. rewrite <- !app_assoc. reflexivity.
  - eapply (wr_rawend opts _ x s1 (s2 ++ s')); eauto. subst. rewrite <- !app_assoc. reflexivity.
  - eapply (wr_comment opts _ x s1 b (s2 ++ s')); eauto. subst. rewrite <- !app_assoc. reflexivity.
  - eapply (wr_cdata opts _ x s1 kw b (s2 ++ s')); eauto. subst. rewrite <- !app_assoc. reflexivity.
  - eapply (wr_doctype opts _ x s1 n c a (s2 ++ s')); eauto. subst. rewrite <- !app_assoc. reflexivity.
Qed.
Lemma wr_nfr : forall opts s b x x', nfr b x x' -> wr opts s x -> wr opts s x'.
Proof.
  intros opts s b x x' F W.
  assert (K : forall t, n_type x = t -> ~ textual t -> n_type x' = t /\ n_content x' = n_content x /\ n_end_at x' = n_end_at x)
    by (intros; eapply nfr_not_text; eauto).
  pose proof (nf_meta _ _ _ F) as M. pose proof (nf_begin _ _ _ F) as Bg.
  destruct W.
  - apply wr_text; [|congruence]. apply (same_kind_textual_iff _ _ (nf_kind _ _ _ F)). assumption.
  - destruct (K NTag) as [A [B C]]; [assumption|apply not_textual; reflexivity|]. eapply (wr_tag opts s x' s1 n a s2 mk t); congruence || eauto.
  - destruct (K NTag) as [A [B C]]; [assumption|apply not_textual; reflexivity|]. eapply (wr_raw opts s x' s1 n a b0 s2 mk t); congruence || eauto.
  - destruct (K NTagEnd) as [A [B C]]; [assumption|apply not_textual; reflexivity|]. eapply (wr_end opts s x' s1 nm s2); congruence || eauto.
  - destruct (K NTagEnd) as [A [B C]]; [assumption|apply not_textual; reflexivity|]. eapply (wr_rawend opts s x' s1 s2); congruence || eauto.
  - destruct (K NComment) as [A [B C]]; [assumption|apply not_textual; reflexivity|]. eapply (wr_comment opts s x' s1 b0 s2); congruence || eauto.
  - destruct (K NXMLCDATA) as [A [B C]]; [assumption|apply not_textual; reflexivity|]. eapply (wr_cdata opts s x' s1 kw b0 s2); congruence || eauto.
  - destruct (K NHTMLDOCTYPE) as [A [B C]]; [assumption|apply not_textual; reflexivity|]. eapply (wr_doctype opts s x' s1 n c a s2 mk t); congruence || eauto.
Qed.

(** The input ends inside a start tag. *)
Lemma pre_cut : forall opts s1 s2 u p rest st nn mo,
  bsteps (doc_new opts) s1 u -> is_U u -> auto_fix_unclosed_tag opts = true -> d_chain_nodes u = p :: rest ->
  d_position st = length (s1 ++ s2) -> d_chain_nodes st = length (d_heap u) :: d_chain_nodes u -> d_code_in st = CTag ->
  d_check_textnode st = None ->
  length (d_heap st) = S (length (d_heap u)) ->
  (forall i, i < length (d_heap u) -> hget (d_heap st) i = hget (opened u p NTag) i) ->
  hget (d_heap st) (length (d_heap u)) = nn -> un opts (s1 ++ s2) nn -> n_begin_at nn = d_mem_position u -> n_end_at nn = d_mem_position u ->
  n_end_tag nn = None -> n_childs nn = None -> n_meta nn = mo -> (forall m, mo = Some m -> m_self_closed m = false) ->
  ids_ok (d_id_tags st) (d_heap st) -> pre opts (s1 ++ s2) st.
Proof.
  intros opts s1 s2 u p rest st nn mo B U Af E Ps Ch Cd Ck L Old New Un Bn En Et Cn Mn Sc Id.
  pose proof (bsteps_sok _ _ _ B) as S. pose proof (pre_full _ _ _ B) as [Z1 Z0 Za Z2 Z3 _ Z5 Z6 Z7 Z8 Z9 Z10 Z11 Z12].
  pose proof (bsteps_pk _ _ _ B) as [P1 P2]. pose proof (bsteps_cl _ _ _ B) as [K1 K2 K3 K4 K5].
  destruct (bsteps_U _ _ _ B U) as [s0 [Es1 Em]].
  assert (Lim : lim u = d_mem_position u) by (destruct U as [X _]; unfold lim; rewrite X; reflexivity).
  set (N := length (d_heap u)) in *.
  pose proof (fr_opened opts u p NTag S) as [Lo Fo].
  assert (F : forall i, i < N -> nfr N (hget (d_heap u) i) (hget (d_heap st) i)) by (intros i Hi; rewrite Old by exact Hi; apply Fo, Hi).
  assert (Ty : forall i t, i < N -> ~ textual t -> ty (d_heap st) i = t <-> ty (d_heap u) i = t).
  { intros i t Hi Ht. unfold ty. symmetry. apply kind_neq; [apply (nf_kind _ _ _ (F i Hi))|exact Ht]. }
  assert (M : forall i, i < N -> n_meta (hget (d_heap st) i) = n_meta (hget (d_heap u) i)) by (intros i Hi; apply (nf_meta _ _ _ (F i Hi))).
  assert (Bg : forall i, i < N -> n_begin_at (hget (d_heap st) i) = n_begin_at (hget (d_heap u) i)) by (intros i Hi; apply (nf_begin _ _ _ (F i Hi))).
  assert (EtO : forall i, i < N -> n_end_tag (hget (d_heap st) i) = n_end_tag (hget (d_heap u) i)) by (intros i Hi; rewrite Old by exact Hi; apply et_opened).
  assert (Ee : forall i, i < N -> n_end_at (hget (d_heap st) i) = n_end_at (hget (d_heap u) i) \/ n_end_at (hget (d_heap st) i) = d_position u).
  { intros i Hi. rewrite Old by exact Hi. apply (efr_opened (d_position u) u p NTag i Hi). }
  assert (Tn : forall i t, ty (d_heap st) i = t -> t <> NAbstractRoot -> i < N \/ i = N).
  { intros i t T Nt. apply ty_lt in T; [lia|exact Nt]. }
  pose proof (bsteps_pos0 _ _ _ B) as Pu.
  assert (Mp : d_mem_position u <= d_position u) by (rewrite Em, Pu, Es1, app_length; lia).
  assert (Pp : d_position u <= d_position st) by (rewrite Ps, Pu, app_length; lia).
  assert (TN : ty (d_heap st) N = NTag) by (unfold ty; rewrite New; apply Un).
  assert (Hin : forall i, In i (d_chain_nodes u) -> i < N) by (intros i; apply (chain_in _ _ _ _ (s_chain _ _ S))).
  constructor.
  - exact Ps.
  - rewrite M; [exact Z0|]. destruct (hs_root _ _ (s_hs _ _ S)) as [X _]. exact X.
  - rewrite Bg; [exact Za|]. destruct (hs_root _ _ (s_hs _ _ S)) as [X _]. exact X.
  - intros i Hi. destruct (Nat.eq_dec i N) as [->|Ni]; [right; rewrite New; exact Un|].
    left. eapply wr_nfr; [apply F; lia|]. apply wr_more. eapply written; eauto. fold N. lia.
  - eapply token_ok; [exact Z3|right; exact U| | | |left; exact Ck|].
    + intros [_ [X _]]. congruence.
    + pose proof (cfr_opened u p NTag) as [_ C]. fold N in C |- *. split; [fold N; lia|]. intros i Hi. unfold ty. rewrite Old by exact Hi. apply C, Hi.
    + intros i Hi X. pose proof (textual_lt _ _ X). assert (i = N) by (fold N in Hi; lia). subst i. rewrite TN in X. destruct X; discriminate.
    + intros i Hi. eapply check_lt; eauto.
  - intros i Hi. destruct (Nat.eq_dec i N) as [->|Ni]; [rewrite New, Bn, En; lia|].
    assert (Hi' : i < N) by lia. rewrite Bg by exact Hi'. destruct (P1 i Hi') as [Q1 [Q2 Q3]].
    destruct (Ee i Hi') as [->| ->]; lia.
  - intros i j Hij. destruct (Nat.eq_dec j N) as [->|Nj].
    + assert (Hi' : i < N) by lia. rewrite New, Bn, Bg, M by exact Hi'. destruct (P1 i Hi') as [Q1 [Q2 Q3]]. rewrite Lim in *. auto.
    + rewrite !Bg, !M by lia. apply P2. fold N. lia.
  - exact Id.
  - intros q e X. assert (Hq : q < N).
    { destruct (Nat.lt_ge_cases q N) as [Y|Y]; [exact Y|]. destruct (Nat.eq_dec q N) as [->|Y2]; [rewrite New, Et in X; discriminate|].
      rewrite hget_default in X by lia. discriminate. }
    rewrite EtO in X by exact Hq. destruct (K1 q e X) as [m [nm [A1 [A2 A3]]]]. exists m, nm.
    rewrite M by exact Hq. split; [exact A1|]. split; [|exact A3].
    destruct (hs_end _ _ (s_hs _ _ S) q e X) as [Q1 [Q2 _]]. fold N in Q1.
    destruct (nfr_not_text _ _ _ NTagEnd (F e ltac:(lia)) Q2) as [_ [-> _]]; [apply not_textual; reflexivity|exact A2].
  - destruct K2 as [[j [m [A1 [A2 A3]]]]|K2].
    + left. exists j, m. assert (Hj : j < N) by (apply (ty_lt _ _ _ A1); discriminate). rewrite M by exact Hj. rewrite Ty by (auto; apply not_textual; reflexivity). auto.
    + right. intros i m T Mi. rewrite Ch. destruct (Tn i NTag T ltac:(discriminate)) as [Hi| ->]; [|left; left; reflexivity].
      rewrite Ty in T by (auto; apply not_textual; reflexivity). rewrite M in Mi by exact Hi. rewrite EtO by exact Hi.
      destruct (K2 i m T Mi) as [X|X]; [left; right; exact X|right; exact X].
  - intros i m X T Mi. rewrite Ch in X. destruct X as [<-|X]; [right; rewrite New; exact Un|].
    pose proof (Hin i X) as Hi. rewrite Ty in T by (auto; apply not_textual; reflexivity). rewrite M in Mi by exact Hi. left. eauto.
  - intros i m T Mi V. destruct (Tn i NTag T ltac:(discriminate)) as [Hi| ->]; [|rewrite New; exact Et].
    rewrite Ty in T by (auto; apply not_textual; reflexivity). rewrite M in Mi by exact Hi. rewrite EtO by exact Hi. eauto.
  - intros Hlt i m T Mi V. destruct (Tn i NTag T ltac:(discriminate)) as [Hi| ->]; [|unfold kids; rewrite New, Cn; reflexivity].
    rewrite Ty in T by (auto; apply not_textual; reflexivity). rewrite M in Mi by exact Hi.
    unfold kids. rewrite Old by exact Hi. change (kids (opened u p NTag) i = []). rewrite kids_opened; [eauto|].
    intros ->. rewrite (K3 p m) in V; auto; [discriminate|]. rewrite E. left. reflexivity.
  - intros i m T Mi V. destruct (Tn i NTag T ltac:(discriminate)) as [Hi| ->].
    + rewrite Ty in T by (auto; apply not_textual; reflexivity). rewrite M in Mi by exact Hi.
      destruct (Z12 i m T Mi V) as [X|[X|[j [k [nm [J1 J2]]]]]]; auto. right. right. exists j, k, nm. split; [exact J1|].
      destruct J2 as [A1 [A2 [mj [A3 A4]]]]. assert (Hj : j < N) by lia. split; [apply Ty; auto; apply not_textual; reflexivity|].
      split; [exact A2|]. exists mj. rewrite M by exact Hj. auto.
    + rewrite New, Mn in Mi. rewrite (Sc m Mi) in V. discriminate.
Qed.

Theorem accepted_pre : forall opts s d, parse_res opts s = ROk d ->
  exists st, run (doc_new opts) s = ROk st /\ ending opts st /\ eof st = ROk d /\ pre opts s st /\ finished opts st d /\
    ((bsteps (doc_new opts) s st /\ (is_W st \/ is_T st)) \/ (auto_fix_unclosed_tag opts = true /\ d_code_in st = CTag)).
Proof.
  intros opts s d H. destruct (accepted _ _ _ H) as [s1 [s2 [st1 [st [Es [B [R [D He]]]]]]]].
  destruct (accepted_ending _ _ _ H) as [st' [R' [E' He']]]. rewrite R in R'. injection R' as <-.
  exists st. split; [exact R|]. split; [exact E'|]. split; [exact He|].
  assert (P : pre opts s st /\ ((bsteps (doc_new opts) s st /\ (is_W st \/ is_T st)) \/ (auto_fix_unclosed_tag opts = true /\ d_code_in st = CTag)));
    [|destruct P as [P1 P2]; split; [exact P1|]; split; [eapply finish; eauto|exact P2]].
  pose proof (bsteps_sok _ _ _ B) as S. pose proof (bsteps_pos0 _ _ _ B) as Pu.
  destruct D as [[-> [-> D]]|[Af [HU [_ [p [rest [E [[On Est]|[n [a [t [E2 [On [Ha [As [Tr Est]]]]]]]]]]]]]]]].
  - rewrite app_nil_r in Es. subst s1. split; [apply pre_full; exact B|left; auto].
  - destruct (bsteps_U _ _ _ B HU) as [s0 [Es1 Em]]. subst s. split; [|right; split; [exact Af|subst st; reflexivity]].
    eapply (pre_cut opts s1 s2 st1 p rest st (child_node (d_heap st1) p (node_new NTag (d_mem_position st1))) None); eauto; subst st; cbn [st_name d_position d_chain_nodes d_code_in d_check_textnode d_heap d_id_tags]; try reflexivity.
    + rewrite Pu, app_length. reflexivity.
    + rewrite opened_length. lia.
    + rewrite (hget_opened_new opts st1 p rest) by assumption. reflexivity.
    + split; [exact Af|]. split; [reflexivity|]. split; [reflexivity|]. exists s0, s2, [].
      split; [rewrite Es1, app_nil_r, <- app_assoc; reflexivity|]. split; [exact Em|]. split; [exact On|]. left. auto.
    + intros m X. discriminate.
    + eapply ids_keep; [eapply bsteps_ids; exact B|]. apply mfr_opened.
  - destruct (bsteps_U _ _ _ B HU) as [s0 [Es1 Em]]. subst s s2. split; [|right; split; [exact Af|subst st; reflexivity]].
    eapply (pre_cut opts s1 (n ++ a) st1 p rest st (nset_meta (Some (ta_meta n false t)) (child_node (d_heap st1) p (node_new NTag (d_mem_position st1)))) (Some (ta_meta n false t)));
      eauto; subst st; cbn [st_area d_position d_chain_nodes d_code_in d_check_textnode d_heap d_id_tags]; try reflexivity.
    + rewrite Pu, (app_length s1). reflexivity.
    + rewrite set_meta_length, opened_length. lia.
    + intros i Hi. unfold set_meta. rewrite hget_hupd_other by lia. reflexivity.
    + unfold set_meta. rewrite hget_hupd_same by (rewrite opened_length; lia). rewrite (hget_opened_new opts st1 p rest) by assumption. reflexivity.
    + split; [exact Af|]. split; [reflexivity|]. split; [reflexivity|]. exists s0, n, a.
      split; [rewrite Es1, <- app_assoc; reflexivity|]. split; [exact Em|]. split; [exact On|]. right. split; [exact Ha|]. split; [exact As|].
      eexists. exists t. split; [exact Tr|]. reflexivity.
    + intros m X. injection X as <-. reflexivity.
    + eapply ids_opened; [exact Tr|]. eapply bsteps_ids; eauto.
Qed.
