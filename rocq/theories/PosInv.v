(** Source positions of the nodes. *)
From Coq Require Import String Sorting.Sorted.
From Verif Require Import Api SpecText SpecParse SpecTree NameProofs HeapLemmas InvCtl Big BigSteps Struct Frame Birth.
Local Open Scope string_scope.
Local Open Scope list_scope.

(** The end position of an existing node stays, or is set to the current position. *)
Definition efr (pos : nat) (h h' : list node) : Prop :=
  forall i, i < length h -> n_end_at (hget h' i) = n_end_at (hget h i) \/ n_end_at (hget h' i) = pos.
Lemma efr_refl : forall pos h, efr pos h h. Proof. intros pos h i Hi. auto. Qed.
Lemma efr_trans : forall pos a b c, length a <= length b -> efr pos a b -> efr pos b c -> efr pos a c.
Proof.
  intros pos a b c L A B i Hi. destruct (B i) as [X|X]; [lia| |auto]. rewrite X. apply A, Hi.
Qed.
Lemma efr_app : forall pos h0 h n, length h0 <= length h -> efr pos h0 h -> efr pos h0 (h ++ [n]).
Proof. intros pos h0 h n L F i Hi. rewrite hget_app_old by lia. auto. Qed.
Lemma efr_upd_new : forall pos h0 h i f, efr pos h0 h -> length h0 <= i -> efr pos h0 (hupd h i f).
Proof. intros pos h0 h i f F Hi j Hj. rewrite hget_hupd_other by lia. auto. Qed.
Lemma efr_upd : forall pos h0 h i f, efr pos h0 h -> (forall n, n_end_at (f n) = n_end_at n) -> efr pos h0 (hupd h i f).
Proof. intros pos h0 h i f F K j Hj. rewrite (hupd_keep n_end_at) by exact K. auto. Qed.
Lemma efr_flip : forall pos h0 h ck, efr pos h0 h -> efr pos h0 (flip ck h).
Proof. intros pos h0 h [k|] F; [|exact F]. cbn. apply efr_upd; auto. Qed.
Lemma efr_child : forall pos h p n, efr pos h (add_child h p n).
Proof. intros. unfold add_child. apply efr_upd; [apply efr_app; [lia|apply efr_refl]|reflexivity]. Qed.
Lemma efr_orphan : forall pos h p n, efr pos h (add_orphan h p n).
Proof. intros. unfold add_orphan. apply efr_upd; [apply efr_app; [lia|apply efr_refl]|reflexivity]. Qed.
Lemma efr_opened : forall pos u p t, efr pos (d_heap u) (opened u p t).
Proof. intros. unfold opened. apply efr_flip, efr_child. Qed.
Lemma efr_closed : forall pos u tag nm ps, efr pos (d_heap u) (closed_heap u tag nm ps).
Proof.
  intros. unfold closed_heap. cbv zeta. apply efr_upd_new; [|apply le_n]. apply efr_upd_new; [|apply le_n].
  match goal with |- efr _ _ (if ?b then ?x else _) => assert (F : efr pos (d_heap u) x); [|destruct b; [exact F|apply efr_flip; exact F]] end.
  apply efr_upd; [apply efr_app; [lia|apply efr_refl]|]. reflexivity.
Qed.
Lemma efr_lt : forall pos u s, efr pos (d_heap u) (d_heap (lt_text u s)).
Proof.
  intros pos u s. unfold lt_text. cbv zeta. destruct (n_type (cur u)) eqn:T; try apply efr_orphan.
  destruct (n_content (cur u)); [|apply efr_refl]. cbn [d_heap]. apply efr_upd; [apply efr_refl|reflexivity].
Qed.
Lemma bstep_efr : forall opts u s st, bstep u s st -> sok opts u -> efr (d_position u) (d_heap u) (d_heap st).
Proof.
  intros opts u s st B. induction B; intro S; cbn [W_of d_heap set_position].
  - apply efr_refl.
  - destruct ct; [|apply efr_refl]. apply efr_upd; [apply efr_refl|reflexivity].
  - apply efr_child.
  - apply efr_refl.
  - pose proof (s_text _ _ S H) as T. rewrite hupd_hupd. intros i Hi. destruct (Nat.eq_dec (d_current_node st) i) as [E|E].
    + right. rewrite <- E, hget_hupd_same by lia. unfold end_info. cbn [n_type nset_content n_end_at nset_end_at].
      unfold ty in T. rewrite T. reflexivity.
    + left. rewrite hget_hupd_other by exact E. reflexivity.
  - apply efr_upd_new; [|apply le_n]. apply efr_opened.
  - apply efr_upd_new; [|apply le_n]. apply efr_opened.
  - apply efr_upd_new; [|apply le_n]. apply efr_opened.
  - apply efr_upd_new; [|apply le_n]. apply efr_app; [rewrite set_meta_length, opened_length; lia|]. apply efr_upd_new; [|apply le_n]. apply efr_opened.
  - apply efr_closed.
  - unfold dropped_heap. apply efr_app, efr_refl. lia.
  - apply efr_upd_new; [|apply le_n]. apply efr_upd_new; [|apply le_n]. apply efr_opened.
  - apply efr_upd_new; [|apply le_n]. apply efr_upd_new; [|apply le_n]. apply efr_opened.
  - apply efr_upd_new; [|apply le_n]. apply efr_opened.
  - apply efr_lt.
  - assert (S2 : sok opts (lt_text u (str "&lt;"))) by (apply sok_lt; auto; rewrite <- (s_opts _ _ S); assumption).
    eapply efr_trans; [|apply efr_lt|rewrite <- (lt_text_pos u (str "&lt;")); apply IHB, S2].
    eapply fr_len, fr_lt; eauto.
Qed.

(** Where the next node may begin. *)
Definition lim (st : doc) : nat :=
  match d_handle st with HUnkownTag => d_mem_position st | _ => d_position st end.
Record pk (st : doc) : Prop := mkPk {
  p_pos : forall i, i < length (d_heap st) -> n_begin_at (hget (d_heap st) i) <= lim st /\
     n_begin_at (hget (d_heap st) i) <= n_end_at (hget (d_heap st) i) <= d_position st /\
     (n_meta (hget (d_heap st) i) <> None -> n_begin_at (hget (d_heap st) i) < lim st);
  p_order : forall i j, i < j < length (d_heap st) ->
     n_begin_at (hget (d_heap st) i) <= n_begin_at (hget (d_heap st) j) /\
     (n_meta (hget (d_heap st) i) <> None -> n_meta (hget (d_heap st) j) <> None ->
      n_begin_at (hget (d_heap st) i) < n_begin_at (hget (d_heap st) j))
}.

Lemma bstep_lim : forall opts s u t st, bsteps (doc_new opts) s u -> bstep u t st ->
  lim u <= d_position u /\ (is_U u -> lim u < d_position u) /\ lim u <= lim st <= d_position st /\
  (is_U u -> ~ is_U st -> lim u < lim st).
Proof.
  intros opts s u t st B C.
  assert (A : lim u <= d_position u /\ (is_U u -> lim u < d_position u)).
  { destruct (bsteps_ready _ _ _ B (or_introl (init_W opts))) as [X|[X|X]].
    - destruct X as [X _]. unfold lim. rewrite X. split; [lia|]. intros [Y _]. congruence.
    - destruct X as [X _]. unfold lim. rewrite X. split; [lia|]. intros [Y _]. congruence.
    - destruct (bsteps_U _ _ _ B X) as [s0 [E M]]. pose proof (bsteps_pos0 _ _ _ B) as P.
      destruct X as [X _]. unfold lim. rewrite X, M, P, E, app_length. cbn. split; [lia|]. intros _. lia. }
  pose proof (bss_snoc _ _ _ _ _ B C) as B2. pose proof (bstep_pos _ _ _ C) as P2.
  destruct A as [A1 A2]. split; [exact A1|]. split; [exact A2|].
  destruct (bsteps_ready _ _ _ B2 (or_introl (init_W opts))) as [X|[X|X]].
  - destruct X as [X _]. unfold lim at 2 3. rewrite X. split; [lia|]. intros U _. specialize (A2 U). unfold lim at 2. rewrite X. lia.
  - destruct X as [X _]. unfold lim at 2 3. rewrite X. split; [lia|]. intros U _. specialize (A2 U). unfold lim at 2. rewrite X. lia.
  - destruct (bstep_U _ _ _ C X) as [E M]. assert (L : lim st = d_position u) by (destruct X as [X _]; unfold lim; rewrite X; exact M).
    rewrite L, P2. split; [lia|]. intros _ N. contradiction.
Qed.


Record at_pos (u : doc) (tok : list char) (i : nid) (n : node) : Prop := mkAt {
  a_begin : lim u <= n_begin_at n <= d_position u + length tok;
  a_end : n_begin_at n <= n_end_at n <= d_position u + length tok;
  a_meta : n_meta n <> None -> is_U u;
  a_lt : tok = str "<" -> n_begin_at n = lim u /\ n_meta n = None;
  a_id : (i = length (d_heap u) /\ n_begin_at n = lim u) \/ (i = S (length (d_heap u)) /\ n_meta n = None)
}.
Lemma not_lt : forall s, s ++ str ">" <> str "<".
Proof.
  intros s E. change (str "<") with ([] ++ str "<") in E. apply app_inj_tail in E. destruct E as [_ E]. discriminate.
Qed.
Lemma at_U : forall u tok n, is_U u -> lim u <= d_position u -> n_begin_at n = d_mem_position u ->
  n_end_at n = d_mem_position u \/ d_position u <= n_end_at n <= d_position u + length tok ->
  (tok = str "<" -> n_meta n = None) -> at_pos u tok (length (d_heap u)) n.
Proof.
  intros u tok n U L B E M.
  assert (LU : lim u = d_mem_position u) by (destruct U as [X _]; unfold lim; rewrite X; reflexivity).
  constructor; rewrite ?B, ?LU in *; try lia; auto.
Qed.
Lemma born_pos : forall u tok i n, lim u <= d_position u -> born u tok i n -> at_pos u tok i n.
Proof.
  intros u tok i n L B. destruct B;
   try (apply at_U; [assumption|exact L|reflexivity|left; reflexivity|intro E; exfalso; revert E; rewrite ?app_assoc; apply not_lt]; fail);
   try (apply at_U; [assumption|exact L|reflexivity|right; cbn [end_info n_end_at nset_end_at n_type nset_content child_node nset_root nset_index nset_parent node_new node_type_eqb]; rewrite !app_length; cbn; lia|reflexivity]; fail).
  - assert (LW : lim u = d_position u) by (destruct H0 as [X _]; unfold lim; rewrite X; reflexivity).
    constructor; cbn; try lia; auto. congruence.
  - constructor; cbn [n_begin_at n_end_at n_meta nset_parent nset_content node_new]; try lia; auto.
    + congruence.
    + intro E. exfalso. revert E. rewrite ?app_assoc. apply not_lt.
  - apply at_U; [assumption|exact L|exact H6| |intros _; exact H3]. right. unfold end_info. cbn [n_end_at nset_content nset_parent nset_end_at].
    rewrite H2. cbn [node_type_eqb]. rewrite !app_length. cbn. lia.
  - apply at_U; [assumption|exact L|assumption| |intros _; assumption]. left. assumption.
  - apply at_U; [assumption|exact L|reflexivity|left; reflexivity|reflexivity].
  - apply at_U; [assumption|exact L|reflexivity|right; cbn; lia|reflexivity].
Qed.

Lemma pk_step : forall opts s u t st, bsteps (doc_new opts) s u -> sok opts u -> bstep u t st -> pk u -> pk st.
Proof.
  intros opts s u t st B S C [P O].
  destruct (bstep_lim _ _ _ _ _ B C) as [L1 [L2 [L3 L4]]].
  pose proof (bstep_pos _ _ _ C) as Ps. pose proof (bstep_fr _ _ _ _ C S) as [Ln F]. pose proof (bstep_efr _ _ _ _ C S) as E.
  assert (Bo : forall i, length (d_heap u) <= i < length (d_heap st) -> at_pos u t i (hget (d_heap st) i)).
  { intros i Hi. apply born_pos; [exact L1|]. eapply bstep_born; eauto. }
  assert (Nb : forall i, length (d_heap u) <= i < length (d_heap st) -> n_begin_at (hget (d_heap st) i) <= lim st /\
     (n_meta (hget (d_heap st) i) <> None -> n_begin_at (hget (d_heap st) i) < lim st)).
  { intros i Hi. destruct (Bo i Hi) as [A1 A2 A3 A4 A5].
    destruct (bsteps_ready _ _ _ (bss_snoc _ _ _ _ _ B C) (or_introl (init_W opts))) as [X|[X|X]].
    - assert (Ls : lim st = d_position st) by (destruct X as [X _]; unfold lim; rewrite X; reflexivity). rewrite Ls, Ps.
      split; [lia|]. intro M. destruct A5 as [[_ A5]|[_ A5]]; [|congruence]. specialize (L2 (A3 M)). lia.
    - assert (Ls : lim st = d_position st) by (destruct X as [X _]; unfold lim; rewrite X; reflexivity). rewrite Ls, Ps.
      split; [lia|]. intro M. destruct A5 as [[_ A5]|[_ A5]]; [|congruence]. specialize (L2 (A3 M)). lia.
    - destruct (bstep_U _ _ _ C X) as [Et M]. destruct (A4 Et) as [A6 A7]. split; [lia|congruence]. }
  constructor.
  - intros i Hi. destruct (Nat.lt_ge_cases i (length (d_heap u))) as [X|X].
    + destruct (P i X) as [P1 [P2 P3]]. rewrite (nf_begin _ _ _ (F i X)), (nf_meta _ _ _ (F i X)).
      split; [lia|]. split; [destruct (E i X) as [->| ->]; lia|]. intro M. specialize (P3 M). lia.
    + destruct (Nb i (conj X Hi)) as [N1 N2]. split; [exact N1|]. split; [|exact N2].
      pose proof (a_end _ _ _ _ (Bo i (conj X Hi))). lia.
  - intros i j Hij. destruct (Nat.lt_ge_cases j (length (d_heap u))) as [X|X].
    + assert (X' : i < length (d_heap u)) by lia.
      rewrite (nf_begin _ _ _ (F i X')), (nf_meta _ _ _ (F i X')), (nf_begin _ _ _ (F j X)), (nf_meta _ _ _ (F j X)).
      apply O. lia.
    + assert (Hj : length (d_heap u) <= j < length (d_heap st)) by lia. destruct (Bo j Hj) as [A1 A2 A3 A4 A5].
      destruct (Nat.lt_ge_cases i (length (d_heap u))) as [Y|Y].
      * rewrite (nf_begin _ _ _ (F i Y)), (nf_meta _ _ _ (F i Y)). destruct (P i Y) as [P1 [P2 P3]]. split; [lia|].
        intros M _. specialize (P3 M). lia.
      * destruct (Bo i ltac:(lia)) as [C1 C2 C3 C4 C5].
        destruct C5 as [[C5 C6]|[C5 C6]]; [|destruct A5 as [[A5 _]|[A5 _]]; lia]. split; [lia|]. intros _ M.
        destruct A5 as [[A5 _]|[A5 A6]]; [lia|congruence].
Qed.
Lemma pk_init : forall opts, pk (doc_new opts).
Proof.
  intro opts. constructor.
  - intros i Hi. cbn in Hi. assert (i = 0) by lia. subst.
    change (0 <= 0 /\ 0 <= 0 <= 0 /\ (None (A := tag_meta) <> None -> 0 < 0)). split; [lia|]. split; [lia|]. congruence.
  - intros i j Hij. cbn in Hij. lia.
Qed.
Theorem bsteps_pk : forall opts s st, bsteps (doc_new opts) s st -> pk st.
Proof.
  intros opts s st B. remember (doc_new opts) as s0 eqn:E0. induction B as [|st0 s st1 t st2 B IH C]; subst.
  - apply pk_init.
  - eapply pk_step; eauto. eapply bsteps_sok; eauto.
Qed.
