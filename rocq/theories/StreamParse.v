(** Parsing the same text after two states with the same stream. *)
From Coq Require Import String Sorting.Sorted Lia.
From Verif Require Import Api SpecText SpecParse SpecTree SpecMisc NameProofs TextProofs MiscProofs HeapLemmas InvCtl CtlSteps CtlHandlers CtlEnd CtlRun
  Big BigSteps Replay RawText Struct StructEnd Frame Shape Real Sim CloseInv Final DocSound Mono FixProofs DocEnd SpecFix SpecStream Stream StreamSteps StreamRel StreamEnd.
Local Open Scope string_scope.
Local Open Scope list_scope.

(** ** Runs from a reached state *)
Lemma bsteps_app : forall u s v, bsteps u s v -> forall w t, bsteps w t u -> bsteps w (t ++ s) v.
Proof.
  intros u s v B. induction B; intros w t0 B0; [rewrite app_nil_r; exact B0|]. rewrite app_assoc. eapply bss_snoc; [apply IHB; exact B0|exact H].
Qed.
Lemma decompose_from : forall opts s1 st1 s2 st, bsteps (doc_new opts) s1 st1 -> run st1 s2 = ROk st ->
  exists a b st2, s2 = a ++ b /\ bsteps st1 a st2 /\ ((b = [] /\ st = st2) \/ inm st2 b st).
Proof.
  intros opts s1 st1 s2. induction s2 as [|c s2 IH] using rev_ind; intros st B H.
  - exists [], [], st1. cbn in H. injection H as <-. split; [reflexivity|]. split; [constructor|auto].
  - rewrite run_snoc in H. destruct (run st1 s2) as [st0| |] eqn:E; try discriminate. cbn [rbind] in H.
    destruct (IH _ B eq_refl) as [a [b [st2 [-> [B1 C]]]]].
    pose proof (bsteps_app _ _ _ B1 _ _ B) as B2. destruct (reach _ _ _ B2) as [R2 _].
    pose proof (run_ok (s1 ++ a) opts [] (doc_new opts) (init_ok opts)) as Ct. rewrite R2 in Ct. change ([] ++ s1 ++ a) with (s1 ++ a) in Ct.
    pose proof (bsteps_ready _ _ _ B2 (or_introl (init_W opts))) as Rd. pose proof (InvCtl.k_root _ _ _ (proj1 Ct)) as Ro.
    destruct C as [[-> ->]|In].
    + assert (S : bstep st2 [c] st \/ inm st2 [c] st).
      { pose proof (ctl_not_spaces _ _ _ Ct Rd) as Ns. destruct Rd as [W|[T|U]].
        - left. apply wait_big; auto. destruct Ns as [[Ht _]|Ns]; [|exact Ns]. destruct W as [Hw _]. congruence.
        - left. apply text_big; auto.
        - apply unkown_big; auto. destruct Ns as [[Ht _]|Ns]; [|exact Ns]. destruct U as [Hw _]. congruence. }
      rewrite app_nil_r in *. destruct S as [S|S].
      * exists (a ++ [c]), [], st. rewrite app_nil_r. split; [reflexivity|]. split; [eapply bss_snoc; eauto|auto].
      * exists a, [c], st2. auto.
    + destruct (inm_big st2 b st0 c In Ro (ctl_chain _ _ _ Ct) st H) as [S|S].
      * exists a, (b ++ [c]), st2. rewrite app_assoc. auto.
      * exists (a ++ b ++ [c]), [], st. rewrite app_nil_r, app_assoc. split; [reflexivity|]. split; [|auto]. rewrite <- app_assoc. eapply bss_snoc; eauto.
Qed.
Lemma srel_steps : forall opts u t v, bsteps u t v -> forall u', srel opts u u' -> exists v', bsteps u' t v' /\ srel opts v v'.
Proof.
  intros opts u t v B. induction B; intros u' R; [exists u'; split; [constructor|exact R]|].
  destruct (IHB _ R) as [w [B1 R1]]. destruct (srel_step _ _ _ _ H _ R1) as [w' [B2 R2]]. exists w'. split; [eapply bss_snoc; eauto|exact R2].
Qed.

(** ** States at the end *)
Definition meta_names (m : option tag_meta) : list (list char) := match m with Some m => [m_name m] | None => [] end.
Definition no_fix (st : doc) : Prop := forall i m, n_meta (hget (d_heap st) i) = Some m -> m_auto_fix m = false.
Record at_end (opts : parse_options) (st : doc) (P : list atom) : Prop := mkAtEnd {
  ae_ending : ending opts st;
  ae_text : d_code_in st = CTextNode <-> d_handle st = HText;
  ae_view : endview st P;
  ae_fix : no_fix st
}.
Lemma pick_flat : forall {A} (g : nat -> list A) n a L, StronglySorted lt L -> (forall i, In i L -> a <= i < a + n) ->
  (forall i, a <= i < a + n -> ~ In i L -> g i = []) -> flat_map g (seq a n) = flat_map g L.
Proof.
  intros A g n. induction n as [|n IH]; intros a L Ss B G2.
  - destruct L as [|i L]; [reflexivity|]. specialize (B i (or_introl eq_refl)). lia.
  - cbn [seq flat_map]. destruct (in_dec Nat.eq_dec a L) as [X|X].
    + destruct L as [|i L]; [destruct X|]. inversion Ss as [|? ? Ss' Fa]; subst. rewrite Forall_forall in Fa.
      assert (i = a). { destruct X as [->|X]; [reflexivity|]. apply Fa in X. specialize (B i (or_introl eq_refl)). lia. }
      subst i. cbn [flat_map]. f_equal. apply IH; [exact Ss'| |].
      * intros i Y. pose proof (Fa i Y). specialize (B i (or_intror Y)). lia.
      * intros i Hi Y. apply G2; [lia|]. intros [->|Z]; [lia|auto].
    + rewrite (G2 a) by (auto; lia). cbn [app]. apply IH; [exact Ss| |].
      * intros i Y. specialize (B i Y). assert (i <> a) by (intros ->; auto). lia.
      * intros i Hi Y. apply G2; [lia|exact Y].
Qed.
Lemma end_names : forall opts st d, ending opts st -> no_fix st -> eof st = ROk d -> fixed_names d = flat_map meta_names (rev (removelast (metas st))).
Proof.
  intros opts st d E N H. pose proof (finish _ _ _ E H) as F. pose proof (f_len _ _ _ F) as Ln.
  assert (Lo : forall i, In i (open_at_end st) -> i < length (d_heap st)).
  { intros i X. apply in_open in X. apply removelast_in in X. eapply chain_in; [apply (e_chain _ _ E)|exact X]. }
  unfold fixed_names. rewrite (heap_seq (d_heap d)) at 1. rewrite flat_map_concat_map, map_map, <- flat_map_concat_map.
  unfold metas. rewrite removelast_map, <- map_rev, <- open_rev. rewrite (flat_map_concat_map meta_names), map_map, <- flat_map_concat_map.
  rewrite (pick_flat _ _ _ (open_at_end st)).
  - rewrite !flat_map_concat_map. f_equal. apply map_ext_in. intros i X. pose proof (Lo i X) as L. unfold fixed_name, meta_names.
    destruct (n_meta (hget (d_heap st) i)) as [m|] eqn:M.
    + destruct (f_open _ _ _ F i m L X M) as [M' _]. rewrite M'. reflexivity.
    + destruct (f_closed _ _ _ F i L (or_intror M)) as [M' _]. rewrite M', M. reflexivity.
  - rewrite open_rev. eapply open_sorted. apply (e_chain _ _ E).
  - intros i X. apply Lo in X. lia.
  - intros i Hi X. unfold fixed_name. destruct (Nat.lt_ge_cases i (length (d_heap st))) as [L|L].
    + destruct (f_closed _ _ _ F i L (or_introl X)) as [M' _]. rewrite M'. destruct (n_meta (hget (d_heap st) i)) as [m|] eqn:M; [|reflexivity].
      rewrite (N _ _ M). reflexivity.
    + destruct (f_new _ _ _ F i) as [j [m [_ [_ [_ [_ Y]]]]]]; [lia|]. rewrite Y. reflexivity.
Qed.
Lemma metas_length : forall st, length (metas st) = length (d_chain_nodes st).
Proof. intro st. apply map_length. Qed.
Lemma same_end : forall opts st st' P d, at_end opts st P -> at_end opts st' P -> metas st = metas st' -> map fst (d_id_tags st) = map fst (d_id_tags st') ->
  (d_code_in st = CTag <-> d_code_in st' = CTag) -> (d_code_in st <> CTag -> d_code_in st' = CTextNode \/ d_code_in st' = CUnkown \/ d_code_in st' = CAbstractRoot) ->
  eof st = ROk d -> exists d', eof st' = ROk d' /\ fixed_names d' = fixed_names d /\ map fst (d_id_tags d') = map fst (d_id_tags d) /\
    (forall t t', doc_tree d = Some t -> doc_tree d' = Some t' -> stream t' = stream t).
Proof.
  intros opts st st' P d [E T V N] [E' T' V' N'] M I C1 C2 H. destruct (eof_inv _ _ H) as [L [C [_ [_ [Hi _]]]]].
  assert (X : exists d', eof st' = ROk d').
  { rewrite (e_opts _ _ E) in L, C. apply eof_succeeds; rewrite ?(e_opts _ _ E').
    - rewrite <- metas_length, <- M, metas_length. exact L.
    - assert (D : d_code_in st = CTag \/ d_code_in st <> CTag) by (destruct (d_code_in st); auto; right; discriminate).
      destruct D as [D|D]; [rewrite (proj1 C1 D); rewrite D in C; exact C|]. destruct (C2 D) as [-> |[-> | ->]]; exact Logic.I. }
  destruct X as [d' H']. exists d'. split; [exact H'|]. destruct (eof_inv _ _ H') as [_ [_ [_ [_ [Hi' _]]]]].
  split; [|split].
  - rewrite (end_names _ _ _ E N H), (end_names _ _ _ E' N' H'), M. reflexivity.
  - rewrite Hi, Hi'. auto.
  - intros t t' D D'. rewrite (end_stream _ _ _ _ _ E T V H D), (end_stream _ _ _ _ _ E' T' V' H' D'), M. reflexivity.
Qed.

Lemma end_WT : forall opts s st l z, bsteps (doc_new opts) s st -> is_WT st -> view opts st l z -> at_end opts st (l ++ z).
Proof.
  intros opts s st l z B K V. pose proof (bsteps_sok _ _ _ B) as S. constructor.
  - apply sok_ending; assumption.
  - destruct K as [[A [[B1|B1] _]]|[A [B1 _]]]; rewrite A, B1; split; congruence.
  - split; [apply (v_ls _ _ _ _ V)|apply (v_chain _ _ _ _ V)].
  - intros i m M. eapply no_fix_before; eauto.
Qed.

(** The input ends inside a start tag. *)
Lemma end_cut : forall opts u st l z p rest (n0 : node), sok opts u -> is_U u -> no_fix u -> view opts u l z -> d_chain_nodes u = p :: rest ->
  length (d_heap st) = S (length (d_heap u)) -> (forall j, j < length (d_heap u) -> hget (d_heap st) j = hget (opened u p NTag) j) ->
  hget (d_heap st) (length (d_heap u)) = n0 -> n_childs n0 = None -> n_end_tag n0 = None -> n_type n0 = NTag -> (forall m, n_meta n0 = Some m -> m_auto_fix m = false) ->
  d_chain_nodes st = length (d_heap u) :: d_chain_nodes u -> d_handle st <> HText -> d_code_in st = CTag -> ending opts st ->
  at_end opts st (l ++ z ++ own NTag (n_content n0) (n_meta n0)) /\ metas st = n_meta n0 :: metas u.
Proof.
  intros opts u st l z p rest n0 S U Nf V Ec L G G0 C0 E0 T0 A0 Ch Nh Cd En.
  assert (Ip : In p (d_chain_nodes u)) by (rewrite Ec; left; reflexivity). destruct (chain_type _ _ _ S Ip) as [T1 [T2 L1]].
  assert (E : ev (d_check_textnode u) None (Some p) None (d_heap u) (d_heap st)) by (eapply ev_ext; [apply ev_opened|lia|exact G]).
  destruct V as [V1 V2 _ _]. rewrite (vh_not u (U_hand _ U)) in *.
  destruct (grow (d_check_textnode u) (d_heap u) (d_heap st) p _ [] V1 (V2 p Ip) T1 E (sok_ck _ _ S)) as [l0 [El [H [Sk [Sc _]]]]].
  { unfold kids at 1. rewrite G by exact L1. apply kids_opened_p. exact L1. }
  { lia. }
  { unfold kids. rewrite G0, C0. reflexivity. }
  { unfold ends. rewrite G0, E0. reflexivity. }
  rewrite (ends_none _ _ (s_open _ _ S p Ip)), !app_nil_r in *. subst l0.
  unfold own_at in H. rewrite G0, T0 in H. rewrite <- app_assoc in H.
  split; [constructor|].
  - exact En.
  - rewrite Cd. split; [discriminate|contradiction].
  - split; rewrite (vh_not st Nh); [exact H|]. intros i Hi. rewrite Ch in Hi. destruct Hi as [<-|Hu]; [exact Sk|]. apply Sc; [|apply V2; exact Hu].
    pose proof (top_max _ _ _ _ (s_chain _ _ S) Hu) as X. rewrite Ec in X. exact X.
  - intros i m M. destruct (Nat.lt_trichotomy i (length (d_heap u))) as [X|[X|X]].
    + rewrite (ev_meta _ _ _ _ _ _ E i X) in M. eauto.
    + subst i. rewrite G0 in M. auto.
    + rewrite hget_default in M by lia. discriminate.
  - unfold metas. rewrite Ch. cbn [map]. rewrite G0. f_equal. apply map_ext_in. intros i Hi. apply (ev_meta _ _ _ _ _ _ E). eapply chain_type; eauto.
Qed.
Lemma inm_cut : forall opts u b st d, sok opts u -> inm u b st -> eof st = ROk d -> exists p rest, d_chain_nodes u = p :: rest /\
  ((open_name b /\ st = st_name u p b) \/
   (exists n a t, b = n ++ a /\ open_name n /\ a <> [] /\ area_start a /\
     ta_run opts false a (ta_start (d_mark_char u)) = Some t /\ st = st_area u p false n (d_position u + length (n ++ a)) t)).
Proof.
  intros opts u b st d S D H. destruct (eof_inv _ _ H) as [_ [C _]].
  assert (Cc : d_code_in st = CTag).
  { destruct D; cbn in C; try contradiction; try reflexivity.
    unfold raw_code in C. destruct (same_name n (str "script")); [contradiction|]. destruct (same_name n (str "style")); contradiction. }
  destruct D; cbn in Cc; try discriminate Cc.
  - exists p, rest. split; [assumption|]. left. auto.
  - exists p, rest. split; [assumption|]. right. exists n, a, t. rewrite <- (s_opts _ _ S). auto 10.
  - unfold raw_code in Cc. destruct (same_name n (str "script")); [discriminate|]. destruct (same_name n (str "style")); discriminate.
Qed.
Lemma end_name : forall opts s u l z p rest n, bsteps (doc_new opts) s u -> is_U u -> view opts u l z -> d_chain_nodes u = p :: rest ->
  at_end opts (st_name u p n) (l ++ z ++ [AMark NTag None None]) /\ metas (st_name u p n) = None :: metas u.
Proof.
  intros opts s u l z p rest n B U V Ec. pose proof (bsteps_sok _ _ _ B) as S.
  pose (n0 := child_node (d_heap u) p (node_new NTag (d_mem_position u))).
  apply (end_cut opts u (st_name u p n) l z p rest n0 S U); auto; try reflexivity.
  - intros i m M. eapply no_fix_before; eauto.
  - cbn [st_name d_heap]. rewrite opened_length. reflexivity.
  - cbn [st_name d_heap]. eapply hget_opened_new; eauto.
  - discriminate.
  - discriminate.
  - eapply (ending_tag opts u p rest _ (opened u p NTag)); eauto; try reflexivity; [apply sim_refl|apply (s_opts _ _ S)|apply (s_root _ _ S)].
Qed.
Lemma end_area : forall opts s u l z p rest n pos t, bsteps (doc_new opts) s u -> is_U u -> view opts u l z -> d_chain_nodes u = p :: rest ->
  at_end opts (st_area u p false n pos t) (l ++ z ++ [AMark NTag None (Some (mset_auto_fix false (ta_meta n false t)))]) /\
  metas (st_area u p false n pos t) = Some (ta_meta n false t) :: metas u.
Proof.
  intros opts s u l z p rest n pos t B U V Ec. pose proof (bsteps_sok _ _ _ B) as S.
  pose (n0 := nset_meta (Some (ta_meta n false t)) (child_node (d_heap u) p (node_new NTag (d_mem_position u)))).
  apply (end_cut opts u (st_area u p false n pos t) l z p rest n0 S U); auto; try reflexivity.
  - intros i m M. eapply no_fix_before; eauto.
  - cbn [st_area d_heap]. rewrite set_meta_length, opened_length. reflexivity.
  - intros j Lj. cbn [st_area d_heap]. unfold set_meta. apply hget_hupd_other. lia.
  - cbn [st_area d_heap]. unfold set_meta. rewrite hget_hupd_same by (rewrite opened_length; lia). unfold n0. f_equal. eapply hget_opened_new; eauto.
  - cbn. intros m X. injection X as <-. reflexivity.
  - cbn [st_area d_handle]. destruct (ta_mode t) as [[|]| |]; discriminate.
  - eapply (ending_tag opts u p rest _ (d_heap (st_area u p false n pos t))); eauto; try reflexivity;
      [apply sim_set_meta|intro i; apply ty_set_meta|apply (s_opts _ _ S)|apply (s_root _ _ S)].
Qed.
Lemma parse_tree : forall o s d, parse_res o s = ROk d -> parse o s = Parsed d /\ exists t, doc_tree d = Some t.
Proof. intros o s d H. assert (P : parse o s = Parsed d) by (unfold parse; rewrite H; reflexivity). split; [exact P|]. eapply has_tree; eauto. Qed.
Theorem srel_parse : forall o s1 s1' s2 u u' d, bsteps (doc_new o) s1 u -> bsteps (doc_new o) s1' u' -> srel o u u' ->
  parse o (s1 ++ s2) = Parsed d -> exists d', parse o (s1' ++ s2) = Parsed d' /\ same_result (Parsed d) (Parsed d').
Proof.
  intros o s1 s1' s2 u u' d B B' R H. pose proof (parsed_res _ _ _ H) as Hp. unfold parse_res in Hp.
  destruct (reach _ _ _ B) as [R1 _]. destruct (reach _ _ _ B') as [R1' _].
  rewrite run_app2, R1 in Hp. cbn [rbind] in Hp. destruct (run u s2) as [st| |] eqn:Ru; try discriminate. cbn [rbind] in Hp.
  destruct (decompose_from _ _ _ _ _ B Ru) as [a [b [v [-> [Bv D]]]]]. destruct (srel_steps _ _ _ _ Bv _ R) as [v' [Bv' Rv]].
  pose proof (bsteps_app _ _ _ Bv _ _ B) as B2. pose proof (bsteps_app _ _ _ Bv' _ _ B') as B2'. destruct (reach _ _ _ B2') as [R2' _].
  destruct (sk_metas _ _ (sr_sk _ _ _ Rv)) as [Em [Es [Ek [Ei Eo]]]]. destruct (sr_ok _ _ _ Rv) as [S S'].
  destruct (sr_view _ _ _ Rv) as [l [z [l' [z' [V [V' [E M]]]]]]].
  assert (K : exists st' P, run v' b = ROk st' /\ at_end o st P /\ at_end o st' P /\ metas st = metas st' /\ map fst (d_id_tags st) = map fst (d_id_tags st') /\
    (d_code_in st = CTag <-> d_code_in st' = CTag) /\ (d_code_in st <> CTag -> d_code_in st' = CTextNode \/ d_code_in st' = CUnkown \/ d_code_in st' = CAbstractRoot)).
  { destruct D as [[-> ->]|D].
    - destruct (sr_kind _ _ _ Rv) as [[U _]|[K K']].
      + exfalso. destruct (eof_inv _ _ Hp) as [_ [C _]]. destruct U as [_ [U _]]. rewrite U in C. exact C.
      + exists v', (l ++ z). split; [reflexivity|]. split; [eapply end_WT; eauto|]. split; [rewrite E; eapply end_WT; eauto|]. split; [exact Em|]. split; [exact Ei|].
        assert (Q : forall w, is_WT w -> d_code_in w = CTextNode \/ d_code_in w = CUnkown \/ d_code_in w = CAbstractRoot)
          by (intros w [[_ [[X|X] _]]|[_ [X _]]]; auto).
        pose proof (Q _ K) as Q1. pose proof (Q _ K') as Q2. split; [|auto]. split; intro X; exfalso; [destruct Q1 as [Y|[Y|Y]]|destruct Q2 as [Y|[Y|Y]]]; congruence.
    - pose proof (inm_U _ _ _ D) as U. destruct (sr_kind _ _ _ Rv) as [[_ U']|[K _]]; [|exfalso; eapply WT_U; eauto].
      destruct (inm_cut _ _ _ _ _ S D Hp) as [p [rest [Ec Dc]]].
      destruct (d_chain_nodes v') as [|p' rest'] eqn:Ec'; [exfalso; unfold metas in Em; rewrite Ec, Ec' in Em; discriminate|].
      destruct Dc as [[On ->]|[n [y [t [-> [On [Na [As [Ta ->]]]]]]]]].
      + destruct (end_name o (s1 ++ a) v l z p rest b B2 U V Ec) as [A1 M1]. destruct (end_name o (s1' ++ a) v' l' z' p' rest' b B2' U' V' Ec') as [A2 M2].
        eexists. exists (l ++ z ++ [AMark NTag None None]). split; [eapply run_name; eauto; apply (s_root _ _ S')|]. split; [exact A1|].
        split; [rewrite app_assoc, E, <- app_assoc; exact A2|]. split; [rewrite M1, M2, Em; reflexivity|]. split; [exact Ei|]. split; [split; reflexivity|intro X; exfalso; apply X; reflexivity].
      + set (pos := d_position v + length (n ++ y)). set (pos' := d_position v' + length (n ++ y)).
        destruct (end_area o (s1 ++ a) v l z p rest n pos t B2 U V Ec) as [A1 M1]. destruct (end_area o (s1' ++ a) v' l' z' p' rest' n pos' t B2' U' V' Ec') as [A2 M2].
        assert (Ta' : ta_run (d_parse_options v') false y (ta_start (d_mark_char v')) = Some t) by (rewrite <- Ek, (s_opts _ _ S'); exact Ta).
        exists (st_area v' p' false n pos' t). eexists. split; [|split; [exact A1|]].
        * rewrite run_app2, (run_name v' p' rest') by (auto; apply (s_root _ _ S')). cbn [rbind].
          rewrite (run_area_start v' p' n y t As Ta'). unfold st_tag. destruct y; [congruence|]. reflexivity.
        * split; [rewrite app_assoc, E, <- app_assoc; exact A2|]. split; [rewrite M1, M2, Em; reflexivity|].
          split; [cbn [st_area d_id_tags]; rewrite !ids_fst, Ei; reflexivity|]. split; [split; reflexivity|intro X; exfalso; apply X; reflexivity]. }
  destruct K as [st' [P [Rs [A1 [A2 [Me [Ie [C1 C2]]]]]]]].
  destruct (same_end o st st' P d A1 A2 Me Ie C1 C2 Hp) as [d' [He [Fn [In St]]]].
  assert (H' : parse_res o (s1' ++ a ++ b) = ROk d').
  { unfold parse_res. rewrite app_assoc, run_app2, R2'. cbn [rbind]. rewrite Rs. cbn [rbind]. exact He. }
  destruct (parse_tree _ _ _ H') as [P' [t' Ht']]. destruct (has_tree _ _ _ H) as [t Ht].
  exists d'. split; [exact P'|]. cbn [same_result]. split; [|auto]. exists t, t'. auto.
Qed.
Lemma same_result_parse : forall o s1 s1' s2 u u', bsteps (doc_new o) s1 u -> bsteps (doc_new o) s1' u' -> srel o u u' ->
  same_result (parse o (s1 ++ s2)) (parse o (s1' ++ s2)).
Proof.
  intros o s1 s1' s2 u u' B B' R. unfold same_result at 1.
  destruct (parse o (s1 ++ s2)) as [d| |] eqn:E.
  - destruct (srel_parse _ _ _ _ _ _ _ B B' R E) as [d' [-> X]]. exact X.
  - destruct (parse o (s1' ++ s2)) as [d'| |] eqn:E'; auto. destruct (srel_parse _ _ _ _ _ _ _ B' B (srel_sym _ _ _ R) E') as [d [X _]]. congruence.
  - destruct (parse o (s1' ++ s2)) as [d'| |] eqn:E'; auto. destruct (srel_parse _ _ _ _ _ _ _ B' B (srel_sym _ _ _ R) E') as [d [X _]]. congruence.
Qed.
