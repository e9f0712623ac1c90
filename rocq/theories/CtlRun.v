(** The control invariant along a whole parse. *)
From Coq Require Import String.
From Verif Require Import Api SpecText TextProofs SpecParse NameProofs MiscProofs HeapLemmas InvCtl CtlSteps
  CtlHandlers CtlEnd.
Local Open Scope string_scope.
Local Open Scope list_scope.

Lemma run_ok : forall s opts pre st, ctl opts pre st ->
  match run st s with
  | ROk st' => ctl opts (pre ++ s) st'
  | RErr k i => (exists s1 c s2, s = s1 ++ c :: s2 /\ i <= length (pre ++ s1)) /\ err_kind_ok opts k
  | RPanic p => exists s1 c s2 st1, s = s1 ++ c :: s2 /\ run st s1 = ROk st1 /\
                  next st1 c = RPanic p /\ panic_ok (pre ++ s1) c p
  end.
Proof.
  induction s as [|c s IH]; intros opts pre st K.
  - cbn. rewrite app_nil_r. exact K.
  - pose proof (next_ok _ _ c _ K) as N. cbn [run]. destruct (next st c) as [st1|k i|p] eqn:E; cbn [rbind].
    + specialize (IH _ _ _ N). destruct (run st1 s) as [st2|k i|p].
      * rewrite <- app_assoc in IH. exact IH.
      * destruct IH as [[s1 [d [s2 [-> Hi]]]] He]. split; [|exact He].
        exists (c :: s1), d, s2. split; [reflexivity|]. rewrite <- app_assoc in Hi. exact Hi.
      * destruct IH as [s1 [d [s2 [st2 [-> [R [X Hi]]]]]]].
        exists (c :: s1), d, s2, st2. split; [reflexivity|]. split; [cbn; rewrite E; exact R|].
        split; [exact X|]. rewrite <- app_assoc in Hi. exact Hi.
    + destruct N as [N1 N2]. split; [|exact N2]. exists [], c, s. split; [reflexivity|].
      rewrite app_nil_r. exact N1.
    + exists [], c, s, st. split; [reflexivity|]. split; [reflexivity|]. split; [exact E|].
      rewrite app_nil_r. exact N.
Qed.

Lemma fix_one_keeps : forall l st, d_code_in (fix_unclosed_tag l st) = d_code_in st /\
  d_position (fix_unclosed_tag l st) = d_position st /\
  d_parse_options (fix_unclosed_tag l st) = d_parse_options st /\
  d_current_node (fix_unclosed_tag l st) = d_current_node st.
Proof.
  induction l as [|i l IH]; intro st; [cbn; auto|].
  change (fix_unclosed_tag (i :: l) st) with (fix_unclosed_tag l (fix_one_unclosed st i)).
  destruct (IH (fix_one_unclosed st i)) as [-> [-> [-> ->]]].
  unfold fix_one_unclosed. destruct (n_meta (get_node st i)); cbn; auto.
Qed.

Lemma fix_begin : forall l st b, d_position st <= b ->
  (forall i, n_begin_at (hget (d_heap st) i) <= b) ->
  forall i, n_begin_at (hget (d_heap (fix_unclosed_tag l st)) i) <= b.
Proof.
  induction l as [|k l IH]; intros st b P H i; [apply H|].
  change (fix_unclosed_tag (k :: l) st) with (fix_unclosed_tag l (fix_one_unclosed st k)).
  apply IH; clear i.
  - unfold fix_one_unclosed. destruct (n_meta (get_node st k)); cbn; exact P.
  - intro i. unfold fix_one_unclosed. destruct (n_meta (get_node st k)) as [m|]; [|apply H].
    cbn. rewrite (hupd_keep n_begin_at) by reflexivity. rewrite hget_app_case.
    destruct (Nat.ltb_spec i (length (hupd (d_heap st) k (nupd_meta (mset_auto_fix true))))).
    + rewrite (hupd_keep n_begin_at) by keeps. apply H.
    + destruct (Nat.eqb _ _); cbn; [exact P|lia].
Qed.

Lemma eof_ok : forall opts pre st, ctl opts pre st ->
  match eof st with
  | ROk _ => True
  | RErr k i => i <= length pre /\ err_kind_ok opts k
  | RPanic _ => auto_fix_unclosed_tag opts = false /\ ends_in_open_name pre
  end.
Proof.
  intros opts pre st [B [P H]]. unfold eof.
  pose proof (InvCtl.k_opts _ _ _ B) as Ho.
  assert (Second : forall st2, d_code_in st2 = d_code_in st -> d_parse_options st2 = d_parse_options st ->
     (forall i, n_begin_at (hget (d_heap st2) i) <= length pre) ->
     match (do st <-
    (match d_code_in st2 with
     | CTextNode =>
         let st := upd_cur (nset_content (Some (d_prev_chars st2))) st2 in
         let st := if d_repeat_whitespace st then upd_cur (nset_type NSpacesBetweenTag) st else st in
         ROk (upd_cur (nset_end_at (d_position st)) st)
     | CUnkown | CAbstractRoot => ROk st2
     | CTag =>
         if negb (auto_fix_unclosed_tag (d_parse_options st2)) then
           RErr (EUnclosedCode (d_code_in st2)) (n_begin_at (cur st2))
         else ROk st2
     | _ => RErr (EUnclosedCode (d_code_in st2)) (n_begin_at (cur st2))
     end);
    ROk (upd_node (d_root st) (nset_end_at (d_position st)) st)) with
     | ROk _ => True
     | RErr k i => i <= length pre /\ err_kind_ok opts k
     | RPanic _ => auto_fix_unclosed_tag opts = false /\ ends_in_open_name pre
     end).
  { intros st2 E1 E2 E3. rewrite E1, E2, Ho. destruct (d_code_in st) eqn:Ec; cbn [rbind]; try exact I;
      try (split; [apply E3|cbn; discriminate]).
    destruct (auto_fix_unclosed_tag opts) eqn:Af; cbn [negb rbind]; [exact I|].
    split; [apply E3|]. intros _. exact Af. }
  destruct (Nat.ltb_spec 1 (length (d_chain_nodes st))) as [Hl|Hl].
  2:{ cbn [rbind]. apply Second; auto. apply (InvCtl.k_begin _ _ _ B). }
  rewrite Ho. destruct (auto_fix_unclosed_tag opts) eqn:Af; cbn [negb].
  - cbn [rbind]. set (l := skipn _ _). set (st1 := set_chain_nodes _ st).
    destruct (fix_one_keeps l st1) as [K1 [K2 [K3 K4]]].
    specialize (Second (fix_unclosed_tag l st1)).
    apply Second.
    + rewrite K1. reflexivity.
    + rewrite K3. reflexivity.
    + apply fix_begin; [cbn; lia|]. apply (InvCtl.k_begin _ _ _ B).
  - destruct (d_chain_nodes st) as [|i rest] eqn:Ec; [cbn in Hl; lia|].
    destruct (n_meta (get_node st i)) as [m|] eqn:M; cbn [rbind].
    + split; [apply (InvCtl.k_begin _ _ _ B)|exact Af].
    + split; [reflexivity|].
      destruct (InvCtl.k_chain_meta _ _ _ B i) as [X|[X _]].
      * rewrite Ec. left. reflexivity.
      * intros ->. pose proof (InvCtl.k_chain _ _ _ B) as C. rewrite Ec in C. destruct C as [_ [C _]].
        destruct rest; [cbn in Hl; lia|]. rewrite (InvCtl.k_root_ty _ _ _ B) in C. discriminate.
      * unfold get_node in M. apply name_of_none in M. contradiction.
      * unfold handle_inv in H. rewrite X in H. destruct H as [_ [_ [O [_ [a Ea]]]]].
        exists a, (d_prev_chars st). auto.
Qed.

(** What a parse can end in. *)
Lemma parse_ok : forall opts s,
  match parse_res opts s with
  | ROk _ => True
  | RErr k i => i <= length s /\ err_kind_ok opts k
  | RPanic p => p = PUpgrade \/ (auto_fix_unclosed_tag opts = false /\ ends_in_open_name s) \/
      self_closed_doctype s \/ cdata_after_misspelt_special s
  end.
Proof.
  intros opts s. unfold parse_res. pose proof (run_ok s opts [] _ (init_ok opts)) as R.
  destruct (run (doc_new opts) s) as [st|k i|p]; cbn [rbind].
  - pose proof (eof_ok _ _ _ R) as Q. destruct (eof st); auto.
  - destruct R as [[s1 [c [s2 [-> Hi]]]] He]. split; [|exact He]. cbn in Hi.
    rewrite app_length. lia.
  - destruct R as [s1 [c [s2 [st1 [-> [_ [_ H]]]]]]]. cbn in H.
    destruct H as [H|[H|H]]; [left; exact H|right; right; left|right; right; right].
    + apply self_closed_app. exact H.
    + destruct H as [r1 [r2 H]]. exists r1, (r2 ++ s2).
      apply (misspelt_app _ _ s2) in H.
      replace (s1 ++ c :: s2) with ((s1 ++ [c]) ++ s2) by (rewrite <- app_assoc; reflexivity).
      replace (r1 ++ str "<![" ++ r2 ++ s2) with ((r1 ++ str "<![" ++ r2) ++ s2); [exact H|].
      rewrite <- !app_assoc. reflexivity.
Qed.

Lemma failed_kind : forall opts s k r, parse opts s = Failed k r -> err_kind_ok opts k.
Proof.
  intros opts s k r H. pose proof (parse_ok opts s) as P. unfold parse, outcome_of in H.
  destruct (parse_res opts s); inversion H; subst. apply P.
Qed.
Lemma failed_region : forall opts s k r, parse opts s = Failed k r ->
  r_index r <= length s /\ r = from_context_index s (r_index r).
Proof.
  intros opts s k r H. pose proof (parse_ok opts s) as P. unfold parse, outcome_of in H.
  destruct (parse_res opts s) as [|k' i|]; try discriminate. injection H as _ <-.
  assert (E : r_index (from_context_index s i) = i) by apply (region_correct s i).
  rewrite E. split; [apply P|reflexivity].
Qed.
Lemma panic_shapes : forall opts s p, parse opts s = Panicked p -> p <> PUpgrade ->
  (auto_fix_unclosed_tag opts = false /\ ends_in_open_name s) \/
  self_closed_doctype s \/ cdata_after_misspelt_special s.
Proof.
  intros opts s p H N. pose proof (parse_ok opts s) as P. unfold parse, outcome_of in H.
  destruct (parse_res opts s) as [|k' i|]; try discriminate. injection H as <-.
  destruct P as [P|P]; [contradiction|exact P].
Qed.
