(** Nested elements lie at least three characters apart. *)
From Coq Require Import String.
From Verif Require Import Api SpecText SpecParse SpecTree NameProofs HeapLemmas InvCtl Big BigSteps RawText Attrs Struct
  Frame Birth TextInv CloseInv PosInv Static StructEnd Final DocFacts.
Local Open Scope string_scope.
Local Open Scope list_scope.

Record gap (st : doc) : Prop := mkGap {
  g_tag : forall i, i < length (d_heap st) -> ty (d_heap st) i = NTag -> n_begin_at (hget (d_heap st) i) + 3 <= lim st;
  g_order : forall i j, i < j < length (d_heap st) -> ty (d_heap st) i = NTag -> ty (d_heap st) j <> NTagEnd ->
     n_begin_at (hget (d_heap st) i) + 3 <= n_begin_at (hget (d_heap st) j);
  g_in : forall i, 0 < i < length (d_heap st) -> ty (d_heap st) i <> NTagEnd -> n_begin_at (hget (d_heap st) i) < d_position st
}.
Lemma open_name_len : forall n, open_name n -> 1 <= length n.
Proof. intros n (c & n' & -> & _). cbn. lia. Qed.
Lemma born_tag : forall u tok i n, born u tok i n -> n_type n = NTag -> is_U u /\ tok <> str "<" /\ 2 <= length tok.
Proof.
  intros u tok i n B T. destruct B; try discriminate T; try (rewrite T in *; discriminate);
    try (unfold end_info in T; cbn in T; congruence).
  - split; [assumption|]. split; [rewrite app_assoc; apply not_lt|]. apply open_name_len in H0. rewrite !app_length. cbn. lia.
  - split; [assumption|]. split; [rewrite app_assoc; apply not_lt|]. apply open_name_len in H0. rewrite !app_length. cbn. lia.
  - split; [assumption|]. split; [rewrite !app_assoc; apply not_lt|]. apply open_name_len in H0. rewrite !app_length. cbn. lia.
Qed.
Lemma born_id : forall u tok i n, born u tok i n -> n_type n <> NTagEnd -> i = length (d_heap u).
Proof. intros u tok i n B T. destruct B; try reflexivity. exfalso. apply T. reflexivity. Qed.
Lemma born_tok : forall u tok i n, born u tok i n -> 1 <= length tok.
Proof. intros u tok i n B. destruct B; rewrite ?app_length; cbn; lia. Qed.

Lemma gap_step : forall opts s u t st, bsteps (doc_new opts) s u -> sok opts u -> bstep u t st -> gap u -> gap st.
Proof.
  intros opts s u t st B S C [G O I].
  destruct (bstep_lim _ _ _ _ _ B C) as [L1 [L2 [L3 L4]]].
  pose proof (bstep_pos _ _ _ C) as Ps. pose proof (bstep_fr _ _ _ _ C S) as [Ln F].
  assert (Bo : forall i, length (d_heap u) <= i < length (d_heap st) -> born u t i (hget (d_heap st) i))
    by (intros i Hi; eapply bstep_born; eauto).
  assert (At : forall i, length (d_heap u) <= i < length (d_heap st) -> ty (d_heap st) i <> NTagEnd ->
     i = length (d_heap u) /\ n_begin_at (hget (d_heap st) i) = lim u).
  { intros i Hi T. pose proof (born_id _ _ _ _ (Bo i Hi) T) as E. split; [exact E|].
    destruct (a_id _ _ _ _ (born_pos _ _ _ _ L1 (Bo i Hi))) as [[_ A]|[A _]]; [exact A|lia]. }
  assert (Tt : forall i, i < length (d_heap u) -> ty (d_heap st) i = NTag -> ty (d_heap u) i = NTag).
  { intros i Hi T. exact (proj2 (kind_neq _ _ NTag (nf_kind _ _ _ (F i Hi)) not_text_tag) T). }
  assert (Te : forall i, i < length (d_heap u) -> ty (d_heap st) i <> NTagEnd -> ty (d_heap u) i <> NTagEnd).
  { intros i Hi T X. apply T. exact (proj1 (kind_neq _ _ NTagEnd (nf_kind _ _ _ (F i Hi)) not_text_end) X). }
  constructor.
  - intros i Hi T. destruct (Nat.lt_ge_cases i (length (d_heap u))) as [X|X].
    + rewrite (nf_begin _ _ _ (F i X)). specialize (G i X (Tt i X T)). lia.
    + assert (Nt : ty (d_heap st) i <> NTagEnd) by (rewrite T; discriminate).
      destruct (At i (conj X Hi) Nt) as [_ Ab]. destruct (born_tag _ _ _ _ (Bo i (conj X Hi)) T) as (U & Nl & L).
      specialize (L2 U). assert (Ls : lim st = d_position st).
      { destruct (bsteps_ready _ _ _ (bss_snoc _ _ _ _ _ B C) (or_introl (init_W opts))) as [Y|[Y|Y]].
        - destruct Y as [Y _]. unfold lim. rewrite Y. reflexivity.
        - destruct Y as [Y _]. unfold lim. rewrite Y. reflexivity.
        - destruct (bstep_U _ _ _ C Y) as [Et _]. contradiction. }
      rewrite Ab, Ls, Ps. lia.
  - intros i j Hij T Tj. destruct (Nat.lt_ge_cases j (length (d_heap u))) as [X|X].
    + assert (X' : i < length (d_heap u)) by lia. rewrite (nf_begin _ _ _ (F i X')), (nf_begin _ _ _ (F j X)). apply O; auto. lia.
    + assert (Hj : length (d_heap u) <= j < length (d_heap st)) by lia. destruct (At j Hj Tj) as [Ej Ab].
      assert (X' : i < length (d_heap u)) by lia. rewrite (nf_begin _ _ _ (F i X')), Ab. apply G; auto.
  - intros i Hi T. destruct (Nat.lt_ge_cases i (length (d_heap u))) as [X|X].
    + rewrite (nf_begin _ _ _ (F i X)). assert (Q : n_begin_at (hget (d_heap u) i) < d_position u) by (apply I; auto; lia). lia.
    + assert (Hb : length (d_heap u) <= i < length (d_heap st)) by lia. destruct (At i Hb T) as [_ Ab]. pose proof (born_tok _ _ _ _ (Bo i Hb)). lia.
Qed.
Theorem bsteps_gap : forall opts s st, bsteps (doc_new opts) s st -> gap st.
Proof.
  intros opts s st B. remember (doc_new opts) as s0 eqn:E0. induction B as [|st0 s st1 t st2 B IH C]; subst.
  - constructor; cbn [length d_heap doc_new]; intros; try lia. assert (i = 0) by lia. subst. discriminate.
  - eapply gap_step; eauto. eapply bsteps_sok; eauto.
Qed.

(** The same for finished documents. *)
Theorem parsed_gap : forall opts s d, parse opts s = Parsed d ->
  (forall i j, i < j < length (d_heap d) -> ty (d_heap d) i = NTag -> ty (d_heap d) j <> NTagEnd ->
     n_begin_at (hget (d_heap d) i) + 3 <= n_begin_at (hget (d_heap d) j)) /\
  (forall i, 0 < i < length (d_heap d) -> ty (d_heap d) i <> NTagEnd -> n_begin_at (hget (d_heap d) i) < length s) /\
  (forall i e, n_end_tag (hget (d_heap d) i) = Some e -> n_begin_at (hget (d_heap d) i) + 3 <= length s).
Proof.
  intros opts s d H. pose proof (parsed_hs _ _ _ H) as [Hd _]. unfold parse, outcome_of in H. destruct (parse_res opts s) as [d'| |] eqn:R; try discriminate. injection H as ->.
  destruct (accepted _ _ _ R) as [s1 [s2 [st1 [st [Es [B [Rn [D He]]]]]]]].
  destruct (accepted_pre _ _ _ R) as [st' [Rn' [E [_ [Z [F _]]]]]]. rewrite Rn in Rn'. injection Rn' as <-.
  pose proof (bsteps_sok _ _ _ B) as S. pose proof (bsteps_gap _ _ _ B) as [G O I].
  pose proof (bsteps_pos0 _ _ _ B) as Pu. pose proof (z_pos _ _ _ Z) as Pz.
  assert (Q : (forall i j, i < j < length (d_heap st) -> ty (d_heap st) i = NTag -> ty (d_heap st) j <> NTagEnd ->
       n_begin_at (hget (d_heap st) i) + 3 <= n_begin_at (hget (d_heap st) j)) /\
     (forall i, 0 < i < length (d_heap st) -> ty (d_heap st) i <> NTagEnd -> n_begin_at (hget (d_heap st) i) < length s)).
  { assert (K : is_U st1 -> s2 <> [] -> forall nn, (length (d_heap st) = Datatypes.S (length (d_heap st1))) ->
       (forall i, i < length (d_heap st1) -> nfr (length (d_heap st1)) (hget (d_heap st1) i) (hget (d_heap st) i)) ->
       hget (d_heap st) (length (d_heap st1)) = nn -> n_begin_at nn = d_mem_position st1 ->
       (forall i j, i < j < length (d_heap st) -> ty (d_heap st) i = NTag -> ty (d_heap st) j <> NTagEnd ->
         n_begin_at (hget (d_heap st) i) + 3 <= n_begin_at (hget (d_heap st) j)) /\
       (forall i, 0 < i < length (d_heap st) -> ty (d_heap st) i <> NTagEnd -> n_begin_at (hget (d_heap st) i) < length s)).
    { intros U Ne nn Le Fo En Bn. set (N := length (d_heap st1)) in *. destruct (bsteps_U _ _ _ B U) as [s0 [Es1 Em]].
      assert (Lim : lim st1 = d_mem_position st1) by (destruct U as [X _]; unfold lim; rewrite X; reflexivity).
      assert (Tt : forall i, i < N -> ty (d_heap st) i = NTag -> ty (d_heap st1) i = NTag).
      { intros i Hi T. exact (proj2 (kind_neq _ _ NTag (nf_kind _ _ _ (Fo i Hi)) not_text_tag) T). }
      assert (Te : forall i, i < N -> ty (d_heap st) i <> NTagEnd -> ty (d_heap st1) i <> NTagEnd).
      { intros i Hi T X. apply T. exact (proj1 (kind_neq _ _ NTagEnd (nf_kind _ _ _ (Fo i Hi)) not_text_end) X). }
      split.
      - intros i j Hij T Tj. assert (Hi : i < N) by lia. rewrite (nf_begin _ _ _ (Fo i Hi)). destruct (Nat.eq_dec j N) as [->|Nj].
        + rewrite En, Bn, <- Lim. apply G; auto.
        + assert (Hj : j < N) by lia. rewrite (nf_begin _ _ _ (Fo j Hj)). apply O; auto. fold N. lia.
      - intros i Hi T. destruct (Nat.eq_dec i N) as [->|Ni].
        + rewrite En, Bn, Em, Es, Es1, !app_length. cbn. lia.
        + assert (Li : i < N) by lia. rewrite (nf_begin _ _ _ (Fo i Li)). assert (X : n_begin_at (hget (d_heap st1) i) < d_position st1) by (apply I; auto; fold N; lia).
          rewrite Es, app_length. lia. }
    destruct D as [[-> [-> D]]|[Af [HU [_ [p [rest [Ec [[On E2]|[n [a [t [E3 [On [Ha [As [Tr E2]]]]]]]]]]]]]]]].
    - rewrite app_nil_r in Es. subst s1. split; [exact O|]. rewrite <- Pu. exact I.
    - pose proof (fr_opened opts st1 p NTag S) as [Lo Fo].
      apply (K HU) with (nn := child_node (d_heap st1) p (node_new NTag (d_mem_position st1))); try rewrite E2; cbn [st_name d_heap].
      + destruct On as (c & n' & -> & _). discriminate.
      + rewrite opened_length. lia.
      + intros i Hi. apply Fo, Hi.
      + apply (hget_opened_new opts st1 p rest); assumption.
      + reflexivity.
    - pose proof (fr_opened opts st1 p NTag S) as [Lo Fo].
      apply (K HU) with (nn := nset_meta (Some (ta_meta n false t)) (child_node (d_heap st1) p (node_new NTag (d_mem_position st1)))); try rewrite E2; cbn [st_area d_heap].
      + rewrite E3. destruct a; [contradiction|]. destruct n; discriminate.
      + rewrite set_meta_length, opened_length. lia.
      + intros i Hi. unfold set_meta. rewrite hget_hupd_other by (unfold nid in *; lia). apply Fo, Hi.
      + unfold set_meta. rewrite hget_hupd_same by (rewrite opened_length; lia). rewrite (hget_opened_new opts st1 p rest) by assumption. reflexivity.
      + reflexivity. }
  destruct Q as [Q1 Q2]. pose proof (f_len _ _ _ F) as Lf.
  assert (New : forall j, length (d_heap st) <= j < length (d_heap d) -> ty (d_heap d) j = NTagEnd).
  { intros j Hj. destruct (f_new _ _ _ F j Hj) as (i & m & _ & _ & _ & _ & X). unfold ty. rewrite X. reflexivity. }
  assert (Tt : forall i, i < length (d_heap st) -> ty (d_heap d) i = NTag -> ty (d_heap st) i = NTag).
  { intros i Hi T. rewrite (f_type _ _ _ F i Hi) in T. destruct (_ && _)%bool in T; [discriminate|exact T]. }
  split; [|split].
  - intros i j Hij T Tj. assert (Hj : j < length (d_heap st)).
    { destruct (Nat.lt_ge_cases j (length (d_heap st))) as [X|X]; [exact X|]. exfalso. apply Tj, New. lia. }
    rewrite (f_begin _ _ _ F i), (f_begin _ _ _ F j) by lia. apply Q1; [lia|apply Tt; [lia|exact T]|].
    rewrite (f_type _ _ _ F j Hj) in Tj. destruct (_ && _)%bool eqn:Eb in Tj; [|exact Tj].
    apply andb_true_iff in Eb. destruct Eb as [Eb Ecode]. apply andb_true_iff in Eb. destruct Eb as [Eb _]. apply Nat.eqb_eq in Eb. subst j.
    destruct (d_code_in st) eqn:Cd; try discriminate Ecode. pose proof (e_text _ _ E Cd) as X. rewrite X. discriminate.
  - intros i Hi T. assert (Li : i < length (d_heap st)).
    { destruct (Nat.lt_ge_cases i (length (d_heap st))) as [X|X]; [exact X|]. exfalso. apply T, New. lia. }
    rewrite (f_begin _ _ _ F i Li). apply Q2; [lia|].
    rewrite (f_type _ _ _ F i Li) in T. destruct (_ && _)%bool eqn:Eb in T; [|exact T].
    apply andb_true_iff in Eb. destruct Eb as [Eb Ecode]. apply andb_true_iff in Eb. destruct Eb as [Eb _]. apply Nat.eqb_eq in Eb. subst i.
    destruct (d_code_in st) eqn:Cd; try discriminate Ecode. pose proof (e_text _ _ E Cd) as X. rewrite X. discriminate.
  - intros i e X. pose proof (hs_end _ _ Hd _ _ X) as (A & _ & _ & T).
    assert (Li : i < length (d_heap st)).
    { destruct (Nat.lt_ge_cases i (length (d_heap st))) as [Y|Y]; [exact Y|]. rewrite New in T by lia. discriminate. }
    apply Tt in T; [|exact Li]. rewrite (f_begin _ _ _ F i Li).
    assert (Ni : 0 < i). { destruct i; [|lia]. unfold ty in T. pose proof (e_hs _ _ E) as Hs. destruct (hs_root _ _ Hs) as [_ [Tr _]]. unfold ty in Tr. congruence. }
    destruct (z_src _ _ _ Z i (conj Ni Li)) as [W|W].
    + destruct W as [Tx|s3 n a s4 mk t Es3 Bx On|s3 n a b s4 mk t Es3 Bx On| | | | |]; try (unfold ty in T; congruence).
      * unfold ty in T. rewrite T in Tx. destruct Tx; discriminate.
      * apply open_name_len in On. rewrite Bx, Es3, !app_length. cbn. lia.
      * apply open_name_len in On. rewrite Bx, Es3, !app_length. cbn. lia.
    + destruct W as (_ & _ & _ & s3 & n & a & Es3 & Bx & On & [[Ea Mx]|[Ea _]]).
      * destruct (f_closed _ _ _ F i Li (or_intror Mx)) as [_ Y]. rewrite X in Y. symmetry in Y. pose proof (z_end _ _ _ Z _ _ Y) as Fit.
        destruct Fit as (m & nm & Mm & _). congruence.
      * apply open_name_len in On. rewrite Bx, Es3, !app_length. destruct a; [contradiction|]. cbn. lia.
Qed.
