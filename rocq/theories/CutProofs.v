(** Input that ends inside a start tag. *)
From Coq Require Import String ZifyBool ZifyN.
From Verif Require Import Api SpecText SpecRender SpecParse SpecMisc SpecTree SpecDoc SpecFix SpecCut NameProofs HeapLemmas InvCtl
  Big BigSteps RawText Attrs Struct Frame Birth TextInv CloseInv PosInv Static StructEnd Final DocFacts Area CloneProofs DocTree
  DocEnd DocSound DepthInv Origin Mono Replay FixProofs EditProofs.
Import SpecDoc.
Local Open Scope string_scope.
Local Open Scope list_scope.

(** ** The attributes that are left *)
Lemma cut_grows : forall eq, grows eq false (fun a l (_ : bool) => cut_area eq a l).
Proof.
  intro eq. constructor; intros; [apply ca_more_bare|apply ca_more_unquoted|apply ca_more_quoted|discriminate]; assumption.
Qed.
Lemma mid_cut : forall eq l0 t pre, mid eq false l0 t pre -> exists l, cut_area eq pre l /\ ta_attrs t = l0 ++ l.
Proof.
  intros eq l0 t pre M. destruct M; cbn [ta_attrs]; try discriminate.
  - exists []. rewrite app_nil_r. split; [constructor; assumption|reflexivity].
  - eexists. split; [apply ca_key; assumption|reflexivity].
  - eexists. split; [apply ca_after_key; assumption|reflexivity].
  - eexists. split; [apply ca_equals; assumption|reflexivity].
  - eexists. split; [apply ca_unquoted; assumption|reflexivity].
  - eexists. split; [apply (ca_quoted eq w k e v q x); assumption|reflexivity].
Qed.
Lemma run_cut_gen : forall po a t t' l0 pre, mid (allow_attr_key_starts_with_equal_sign po) false l0 t pre ->
  ta_run po false a t = Some t' ->
  exists l, cut_area (allow_attr_key_starts_with_equal_sign po) (pre ++ a) l /\ ta_attrs t' = l0 ++ l.
Proof.
  intros po a. induction a as [|c a IH]; intros t t' l0 pre M R; cbn [ta_run] in R.
  - injection R as <-. rewrite app_nil_r. apply mid_cut; assumption.
  - destruct (ta_closes c t) eqn:NC; [discriminate|]. destruct (ta_step po false c t) as [t1|] eqn:ST; [|discriminate].
    destruct (mid_step _ _ _ _ _ _ _ M NC ST) as [M'|[x [pre' [M' WR]]]].
    + destruct (IH _ _ _ _ M' R) as [l [A F]]. exists l. rewrite <- app_assoc in A. auto.
    + destruct (IH _ _ _ _ M' R) as [l [A F]]. exists (x :: l). rewrite F, <- app_assoc. split; [|reflexivity].
      apply (fun y => WR _ (cut_grows _) a l false y) in A. rewrite <- app_assoc in A. exact A.
Qed.
Lemma run_cut : forall po a mk t, ta_run po false a (ta_start mk) = Some t ->
  cut_area (allow_attr_key_starts_with_equal_sign po) a (ta_attrs t).
Proof.
  intros po a mk t R.
  destruct (run_cut_gen po a (ta_start mk) t [] [] (mid_wait _ _ [] false _ _ _ [] (Forall_nil _) eq_refl) R) as [l [A F]].
  rewrite F. exact A.
Qed.

Lemma cut_drop : forall eq c a l, slash_filler c -> cut_area eq (c :: a) l -> cut_area eq a l.
Proof.
  intros eq c a l C A.
  assert (NK : forall k x, attr_key eq false k -> c :: a <> [] ++ k ++ x).
  { intros k x [d [k' [-> [F [D _]]]]] E. cbn in E. injection E as E _. subst d.
    chars. destruct D as [D|[-> _]]; destruct C as [C|C]; try lia. discriminate. }
  inversion A as [w W E1 E2|w k W K E1 E2|w k c0 w2 W K C0 W2 E1 E2|w k e w2 W K EQ W2 E1 E2|w k e w2 v W K EQ W2 V E1 E2
    |w k e w2 q v W K EQ W2 Q V E1 E2|w k r l' W K AB Nr A' E1 E2|w k e w2 v r l' W K EQ W2 V SW Nr A' E1 E2
    |w k e w2 q v r l' W K EQ W2 Q V A' E1 E2]; subst.
  - inversion W; subst. constructor. assumption.
  - destruct w as [|d w]; [exfalso; apply (NK k [] K); rewrite app_nil_r; symmetry; exact E1|]. cbn in E1. injection E1 as -> <-.
    inversion W; subst. constructor; assumption.
  - destruct w as [|d w]; [exfalso; eapply (NK k _ K); symmetry; exact E1|]. cbn in E1. injection E1 as -> <-. inversion W; subst. apply ca_after_key; assumption.
  - destruct w as [|d w]; [exfalso; eapply (NK k _ K); symmetry; exact E1|]. cbn in E1. injection E1 as -> <-. inversion W; subst. apply ca_equals; assumption.
  - destruct w as [|d w]; [exfalso; eapply (NK k _ K); symmetry; exact E1|]. cbn in E1. injection E1 as -> <-. inversion W; subst. apply ca_unquoted; assumption.
  - destruct w as [|d w]; [exfalso; eapply (NK k _ K); symmetry; exact E1|]. cbn in E1. injection E1 as -> <-. inversion W; subst. apply (ca_quoted eq w k e w2 q v); assumption.
  - destruct w as [|d w]; [exfalso; eapply (NK k _ K); symmetry; exact E1|]. cbn in E1. injection E1 as -> <-. inversion W; subst. apply ca_more_bare; assumption.
  - destruct w as [|d w]; [exfalso; eapply (NK k _ K); symmetry; exact E1|]. cbn in E1. injection E1 as -> <-. inversion W; subst. apply ca_more_unquoted; assumption.
  - destruct w as [|d w]; [exfalso; eapply (NK k _ K); symmetry; exact E1|]. cbn in E1. injection E1 as -> <-. inversion W; subst. apply (ca_more_quoted eq w k e w2 q v r); assumption.
Qed.
Lemma cut_nil : forall eq l, cut_area eq [] l -> l = [].
Proof.
  intros eq l A.
  assert (NK : forall w k x, attr_key eq false k -> [] <> w ++ k ++ x).
  { intros w k x [d [k' [-> _]]] E. destruct w; discriminate. }
  inversion A; subst; try (exfalso; eapply NK; [eassumption|symmetry; eassumption]); auto.
  exfalso. apply (NK w k []); [assumption|]. rewrite app_nil_r. symmetry. assumption.
Qed.

Lemma cut_run_gen : forall po n a l, length a <= n -> cut_area (allow_attr_key_starts_with_equal_sign po) a l ->
  forall l0 b t, ready l0 b a t -> (a = [] -> ta_attrs t = l0) ->
  exists t', ta_run po false a t = Some t' /\ ta_attrs t' = l0 ++ l.
Proof.
  intros po n. set (eq := allow_attr_key_starts_with_equal_sign po). induction n as [|n IH]; intros a l LN A l0 b t R Z.
  { destruct a; [|cbn in LN; lia]. rewrite (cut_nil _ _ A), app_nil_r. exists t. split; [reflexivity|]. apply Z. reflexivity. }
  destruct R as [b code m mk ids a CO|m k mk ids a l1 -> AB|m k v ids a l1 -> SW].
  - (* between attributes *)
    assert (CO' : forall w k r, a = w ++ k ++ r -> filler w -> attr_key eq false k ->
      code = TWait \/ code = TKeyEnd /\ match k with c :: _ => c <> 61%N | [] => True end).
    { intros w k r E W K. destruct CO as [CO|[-> CO]]; [left; exact CO|]. right. split; [reflexivity|].
      destruct k as [|c k]; [exact I|]. intros ->. exact (CO w (k ++ r) W E). }
    assert (LK : forall w k r, a = w ++ k ++ r -> attr_key eq false k -> length r <= n).
    { intros w k r -> [? [? [-> _]]]. clear - LN. rewrite !app_length in LN. cbn in LN. lia. }
    clear Z. inversion A as [w W E1 E2|w k W K E1 E2|w k c0 w2 W K C0 W2 E1 E2|w k e w2 W K EQ W2 E1 E2|w k e w2 v W K EQ W2 V E1 E2
      |w k e w2 q v W K EQ W2 Q V E1 E2|w k r l' W K AB Nr A' E1 E2|w k e w2 v r l' W K EQ W2 V SW Nr A' E1 E2
      |w k e w2 q v r l' W K EQ W2 Q V A' E1 E2]; subst a.
    + rewrite run_filler by exact W. eexists. split; [reflexivity|]. rewrite app_nil_r. reflexivity.
    + rewrite ta_run_app, run_filler by exact W. rewrite run_key; [|exact K|apply (CO' w k []); [rewrite app_nil_r; reflexivity|exact W|exact K]].
      eexists. split; reflexivity.
    + rewrite ta_run_app, run_filler by exact W. rewrite ta_run_app, run_key by (exact K || exact (CO' _ _ _ eq_refl W K)).
      cbn [ta_run]. replace (ta_closes c0 _) with false by (unfold ta_closes; cbn; chars; unfold is_ascii_whitespace in C0; lia).
      unfold ta_step. cbn [ta_mode].
      replace (N.eqb c0 EQUAL_CHAR) with false by (chars; unfold is_ascii_whitespace in C0; lia).
      replace (N.eqb c0 END_SLASH_CHAR) with false by (chars; unfold is_ascii_whitespace in C0; lia).
      replace (is_ascii_whitespace c0) with true by (symmetry; exact C0).
      unfold ta_set_key. cbn [ta_attrs ta_map ta_prev ta_mark ta_ids]. rewrite upd_last_snoc, run_filler by exact W2.
      eexists. split; reflexivity.
    + rewrite ta_run_app, run_filler by exact W. rewrite ta_run_app, run_key by (exact K || exact (CO' _ _ _ eq_refl W K)). rewrite ta_run_app.
      destruct (run_equals po false e EQ l0 m k mk ids) as [m' ->]. rewrite run_filler by exact W2. eexists. split; reflexivity.
    + rewrite ta_run_app, run_filler by exact W. rewrite ta_run_app, run_key by (exact K || exact (CO' _ _ _ eq_refl W K)). rewrite ta_run_app.
      destruct (run_equals po false e EQ l0 m k mk ids) as [m' ->]. rewrite ta_run_app, run_filler by exact W2.
      rewrite run_val by exact V. eexists. split; reflexivity.
    + rewrite ta_run_app, run_filler by exact W. rewrite ta_run_app, run_key by (exact K || exact (CO' _ _ _ eq_refl W K)). rewrite ta_run_app.
      destruct (run_equals po false e EQ l0 m k mk ids) as [m' ->]. rewrite ta_run_app, run_filler by exact W2.
      rewrite ta_run_app, run_open_quote by exact Q. rewrite run_quoted_tail by assumption. eexists. split; reflexivity.
    + rewrite ta_run_app, run_filler by exact W. rewrite ta_run_app, run_key by (exact K || exact (CO' _ _ _ eq_refl W K)).
      destruct (IH r l' (LK _ _ _ eq_refl K) A' (l0 ++ [bare k]) false (mkTa AKey TKey (l0 ++ [new_key]) m k mk ids)) as [t' [R F]].
      { apply rd_key; [reflexivity|exact AB]. } { intro X. contradiction. }
      rewrite R. exists t'. split; [reflexivity|]. rewrite F, <- app_assoc. reflexivity.
    + pose proof (LK _ _ _ eq_refl K) as Lr. rewrite !app_length in Lr.
      rewrite ta_run_app, run_filler by exact W. rewrite ta_run_app, run_key by (exact K || exact (CO' _ _ _ eq_refl W K)). rewrite ta_run_app.
      destruct (run_equals po false e EQ l0 m k mk ids) as [m' ->]. rewrite ta_run_app, run_filler by exact W2.
      rewrite ta_run_app, run_val by exact V.
      destruct (IH r l' ltac:(lia) A' (l0 ++ [unquoted k v]) false (mkTa AVal TValue (l0 ++ [bare k]) m' v 32%N ids)) as [t' [R F]].
      { apply (rd_val _ _ k); [reflexivity|exact SW]. } { intro X. contradiction. }
      rewrite R. exists t'. split; [reflexivity|]. rewrite F, <- app_assoc. reflexivity.
    + pose proof (LK _ _ _ eq_refl K) as Lr. rewrite !app_length in Lr.
      rewrite ta_run_app, run_filler by exact W. rewrite ta_run_app, run_key by (exact K || exact (CO' _ _ _ eq_refl W K)). rewrite ta_run_app.
      destruct (run_equals po false e EQ l0 m k mk ids) as [m' ->]. rewrite ta_run_app, run_filler by exact W2.
      rewrite ta_run_app, run_open_quote by exact Q. rewrite (app_assoc v), ta_run_app.
      destruct (run_quoted po false q v Q V l0 (bare k) m' [] ids) as [ids' ->].
      change (val_attr ([] ++ v) (Some q) (bare k)) with (quoted k v q).
      destruct (IH r l' ltac:(lia) A' (l0 ++ [quoted k v q]) false (mkTa (AWait false) TWait (l0 ++ [quoted k v q]) m' [] EOF_CHAR ids')) as [t' [R F]].
      { apply rd_wait. left. reflexivity. } { intros _. reflexivity. }
      rewrite R. exists t'. split; [reflexivity|]. rewrite F, <- app_assoc. reflexivity.
  - (* after a key without value *)
    destruct a as [|c a].
    { rewrite (cut_nil _ _ A), app_nil_r. eexists. split; [reflexivity|]. apply Z. reflexivity. }
    destruct AB as [SF NE]. cbn in SF. pose proof (cut_drop _ _ _ _ SF A) as A'. cbn [ta_run].
    replace (ta_closes c _) with false by (unfold ta_closes; cbn; chars; unfold is_ascii_whitespace in SF; lia).
    unfold ta_step. cbn [ta_mode].
    replace (N.eqb c EQUAL_CHAR) with false by (chars; unfold is_ascii_whitespace in SF; lia).
    unfold ta_set_key. cbn [ta_attrs ta_map ta_prev ta_mark ta_ids]. rewrite upd_last_snoc.
    destruct (N.eqb c END_SLASH_CHAR) eqn:SC.
    + eapply IH; [cbn in LN; lia|exact A'|apply (rd_wait (l1 ++ [bare k]) true TWait); left; reflexivity|reflexivity].
    + replace (is_ascii_whitespace c) with true by (chars; lia).
      eapply IH; [cbn in LN; lia|exact A'|apply (rd_wait (l1 ++ [bare k]) false TKeyEnd); right; split; [reflexivity|]|reflexivity].
      intros w r W E. apply (NE (c :: w ++ str "=") r); [rewrite E; cbn; rewrite <- app_assoc; reflexivity|].
      right. exists c, w. split; [chars; lia|]. split; [exact W|reflexivity].
  - (* after an unquoted value *)
    destruct a as [|c a].
    { rewrite (cut_nil _ _ A), app_nil_r. eexists. split; [reflexivity|]. apply Z. reflexivity. }
    cbn in SW. pose proof (cut_drop _ _ _ _ (or_introl SW) A) as A'. cbn [ta_run].
    replace (ta_closes c _) with false by (unfold ta_closes; cbn; chars; unfold is_ascii_whitespace in SW; lia).
    unfold ta_step. cbn [ta_mode ta_mark]. change (N.eqb 32 WS_CHAR) with true. cbn iota.
    replace (is_ascii_whitespace c) with true by (chars; lia).
    unfold ta_set_val. cbn [ta_attrs ta_map ta_prev ta_mark ta_ids]. rewrite upd_last_snoc.
    change (val_attr v None (bare k)) with (unquoted k v).
    eapply IH; [cbn in LN; lia|exact A'|apply (rd_wait (l1 ++ [unquoted k v]) false TWait); left; reflexivity|reflexivity].
Qed.
Lemma cut_run : forall po a l mk, cut_area (allow_attr_key_starts_with_equal_sign po) a l ->
  exists t, ta_run po false a (ta_start mk) = Some t /\ ta_attrs t = l.
Proof.
  intros po a l mk A. apply (cut_run_gen po (length a) a l (le_n _) A [] false (ta_start mk)).
  - apply rd_wait. left. reflexivity.
  - reflexivity.
Qed.
Theorem cut_unique : forall eq a l l', cut_area eq a l -> cut_area eq a l' -> l = l'.
Proof.
  intros eq a l l' A A'. destruct (cut_run (mkPO false eq false false false false) a l EOF_CHAR A) as [t [R E]].
  destruct (cut_run (mkPO false eq false false false false) a l' EOF_CHAR A') as [t' [R' E']]. congruence.
Qed.
(** A tag that is cut off does not contain its end. *)
Lemma cut_not_area : forall eq a l, cut_area eq a l -> forall a1 a2 l' sc, a = a1 ++ str ">" ++ a2 -> ~ area eq false a1 l' sc.
Proof.
  intros eq a l A a1 a2 l' sc -> Ar. destruct (cut_run (mkPO false eq false false false false) _ l EOF_CHAR A) as [t [R _]].
  destruct (area_run (mkPO false eq false false false false) false a1 l' sc EOF_CHAR Ar) as [t1 [R1 [C1 _]]].
  rewrite ta_run_app, R1 in R. cbn in R. unfold ta_closes in R. rewrite C1 in R. discriminate R.
Qed.

(** ** The rest of the document *)
Record but (n N b : nat) (P : option tree -> option tag_meta -> Prop) (h h' : list node) : Prop := mkBut {
  bt_type : forall i, i < n -> ty h' i = ty h i;
  bt_content : forall i, i < n -> n_content (hget h' i) = n_content (hget h i);
  bt_childs : forall i, i < n -> n_childs (hget h' i) = n_childs (hget h i);
  bt_begin : forall i, i < n -> n_begin_at (hget h' i) = n_begin_at (hget h i);
  bt_index : forall i, i < n -> n_index (hget h' i) = n_index (hget h i);
  bt_end_at : forall i, i < n -> ty h i = NAbstractRoot \/ n_end_at (hget h' i) = n_end_at (hget h i);
  bt_meta : forall i, i < n -> i <> N -> n_meta (hget h' i) = n_meta (hget h i);
  bt_kids : forall i k, i < n -> In k (kids h i) -> k < n;
  bt_ends : forall i, i < n -> i <> N -> (n_end_tag (hget h i) = None /\ n_end_tag (hget h' i) = None) \/
    (exists e, e < n /\ n_end_tag (hget h i) = Some e /\ n_end_tag (hget h' i) = Some e /\ ty h e = NTagEnd) \/
    (exists e e' c, n_end_tag (hget h i) = Some e /\ n_end_tag (hget h' i) = Some e' /\ leaf_end (hget h e) c /\ leaf_end (hget h' e') c);
  bt_new : ty h N = NTag /\ n_begin_at (hget h N) = b /\ n_content (hget h N) = None /\ n_childs (hget h N) = None;
  bt_P : forall f et, match et with None => n_end_tag (hget h N) = None
    | Some t' => exists e, n_end_tag (hget h N) = Some e /\ tree_of f h e = Some t' end -> P et (n_meta (hget h N));
  bt_only : forall i, i < n -> i <> N -> ty h i <> NTag \/ n_begin_at (hget h i) <> b
}.
Lemma but_same : forall n N b P h h', but n N b P h h' -> forall f f' i t t', i < n ->
  tree_of f h i = Some t -> tree_of f' h' i = Some t' -> same_but b P t t'.
Proof.
  intros n N b P h h' A f. induction f as [|f IH]; intros f' i t t' L T T'; [discriminate|]. destruct f' as [|f']; [discriminate|].
  apply tree_eq in T. apply tree_eq in T'. destruct T as [et [ks [-> [E K]]]]. destruct T' as [et' [ks' [-> [E' K']]]].
  rewrite (bt_index _ _ _ _ _ _ A i L), (bt_begin _ _ _ _ _ _ A i L), (bt_content _ _ _ _ _ _ A i L).
  pose proof (bt_type _ _ _ _ _ _ A i L) as Et. unfold ty in Et. rewrite Et.
  destruct (Nat.eq_dec i N) as [->|Ni].
  - destruct (bt_new _ _ _ _ _ _ A) as [T0 [B0 [C0 K0]]]. unfold ty in T0. rewrite T0, B0, C0.
    assert (Ek : ks = None) by (destruct ks as [l|]; [destruct K as [ids [X _]]; congruence|reflexivity]).
    assert (Ek' : ks' = None) by (destruct ks' as [l|]; [destruct K' as [ids [X _]]; rewrite (bt_childs _ _ _ _ _ _ A N L) in X; congruence|reflexivity]).
    subst ks ks'. apply sb_cut. apply (bt_P _ _ _ _ _ _ A f et). exact E.
  - assert (X2 : n_type (hget h i) = NAbstractRoot \/ n_end_at (hget h i) = n_end_at (hget h' i)) by (destruct (bt_end_at _ _ _ _ _ _ A i L); auto).
    assert (X3 : end_alike et et').
    { destruct (bt_ends _ _ _ _ _ _ A i L Ni) as [[N1 N2]|[[e [Le [E1 [E2 Te]]]]|[e [e' [c [E1 [E2 [F1 F2]]]]]]]].
      - destruct et as [x|]; [destruct E as [y [Y _]]; congruence|]. destruct et' as [x|]; [destruct E' as [y [Y _]]; congruence|]. exact I.
      - destruct et as [x|]; [|congruence]. destruct et' as [x'|]; [|congruence]. destruct E as [y [Y Tx]]. destruct E' as [y' [Y' Tx']].
        rewrite E1 in Y. injection Y as <-. rewrite E2 in Y'. injection Y' as <-.
        destruct f as [|f]; [discriminate|]. destruct f' as [|f']; [discriminate|].
        apply tree_eq in Tx. apply tree_eq in Tx'. destruct Tx as [? [? [-> _]]]. destruct Tx' as [? [? [-> _]]]. cbn.
        split; [exact Te|]. split; [change (ty h' e = NTagEnd); rewrite (bt_type _ _ _ _ _ _ A e Le); exact Te|symmetry; apply (bt_content _ _ _ _ _ _ A e Le)].
      - destruct et as [x|]; [|congruence]. destruct et' as [x'|]; [|congruence]. destruct E as [y [Y Tx]]. destruct E' as [y' [Y' Tx']].
        rewrite E1 in Y. injection Y as <-. rewrite E2 in Y'. injection Y' as <-.
        destruct f as [|f]; [discriminate|]. destruct f' as [|f']; [discriminate|].
        apply tree_eq in Tx. apply tree_eq in Tx'. destruct Tx as [? [? [-> _]]]. destruct Tx' as [? [? [-> _]]]. cbn.
        destruct F1 as [F1 [F1c _]]. destruct F2 as [F2 [F2c _]]. rewrite F1, F2, F1c, F2c. auto. }
    rewrite (bt_meta _ _ _ _ _ _ A i L Ni). pose proof (bt_only _ _ _ _ _ _ A i L Ni) as O. unfold ty in O.
    pose proof (bt_childs _ _ _ _ _ _ A i L) as Ec.
    destruct ks as [l|]; destruct ks' as [l'|].
    + apply sb_node; auto. destruct K as [ids [C1 F1]]. destruct K' as [ids' [C2 F2]]. rewrite Ec, C1 in C2. injection C2 as <-.
      assert (Kn : forall k, In k ids -> k < n) by (intros k X; apply (bt_kids _ _ _ _ _ _ A i k L); unfold kids; rewrite C1; exact X).
      clear - F1 F2 IH Kn. revert l' F2. induction F1 as [|k x ids l Hx F1 IHF]; intros l' F2; inversion F2; subst; constructor.
      * eapply IH; [apply Kn; left; reflexivity|exact Hx|eassumption].
      * apply IHF; [|assumption]. intros k0 X. apply Kn. right. exact X.
    + destruct K as [ids [C1 _]]. congruence.
    + destruct K' as [ids [C1 _]]. congruence.
    + apply sb_leaf; auto.
Qed.

Lemma cut_but : forall opts u p rest st d st' d' mo mo' (P : option tree -> option tag_meta -> Prop), sok opts u -> d_chain_nodes u = p :: rest ->
  ending opts st -> eof st = ROk d -> ending opts st' -> eof st' = ROk d' ->
  d_chain_nodes st = length (d_heap u) :: d_chain_nodes u -> d_chain_nodes st' = length (d_heap u) :: d_chain_nodes u ->
  d_code_in st = CTag -> d_code_in st' = CUnkown ->
  length (d_heap st) = S (length (d_heap u)) -> length (d_heap st') = S (length (d_heap u)) ->
  (forall i, i < length (d_heap u) -> hget (d_heap st) i = hget (opened u p NTag) i) ->
  (forall i, i < length (d_heap u) -> hget (d_heap st') i = hget (opened u p NTag) i) ->
  hget (d_heap st) (length (d_heap u)) = nset_meta mo (child_node (d_heap u) p (node_new NTag (d_mem_position u))) ->
  hget (d_heap st') (length (d_heap u)) = nset_meta mo' (child_node (d_heap u) p (node_new NTag (d_mem_position u))) ->
  (forall i, i < length (d_heap u) -> ty (d_heap d) i <> NTag \/ n_begin_at (hget (d_heap d) i) <> d_mem_position u) ->
  match mo with
  | None => P None None
  | Some m => forall te, t_type te = NTagEnd -> t_content te = Some (m_name m) -> t_childs te = None -> P (Some te) (Some (mset_auto_fix true m))
  end ->
  but (S (length (d_heap u))) (length (d_heap u)) (d_mem_position u) P (d_heap d) (d_heap d').
Proof.
  intros opts u p rest st d st' d' mo mo' P S Ec En He En' He' Ch Ch' Cd Cd' Ln Ln' Old Old' New New' Only HP.
  pose proof (finish _ _ _ En He) as F. pose proof (finish _ _ _ En' He') as F'. set (N := length (d_heap u)) in *.
  assert (Op : open_at_end st = open_at_end st') by (unfold open_at_end; rewrite Ch, Ch'; reflexivity).
  assert (NO : In N (open_at_end st)).
  { unfold open_at_end. rewrite Ch, Ec. cbn [rev]. destruct (rev rest) as [|x l]; cbn; [left; reflexivity|]. apply in_or_app. right. left. reflexivity. }
  assert (Eq : forall {A} (f : node -> A), (forall m x, f (nset_meta m x) = f x) -> forall i, i < Datatypes.S N -> f (hget (d_heap st') i) = f (hget (d_heap st) i)).
  { intros A f Hf i L. destruct (Nat.eq_dec i N) as [->|Ni]; [rewrite New, New', !Hf; reflexivity|]. rewrite Old, Old' by lia. reflexivity. }
  assert (Ty0 : forall i, i < Datatypes.S N -> ty (d_heap d) i = ty (d_heap st) i).
  { intros i L. rewrite (f_type _ _ _ F i) by lia. rewrite Cd, Bool.andb_false_r. reflexivity. }
  assert (Ty1 : forall i, i < Datatypes.S N -> ty (d_heap d') i = ty (d_heap st') i).
  { intros i L. rewrite (f_type _ _ _ F' i) by lia. rewrite Cd', Bool.andb_false_r. reflexivity. }
  constructor.
  - intros i L. rewrite Ty0, Ty1 by exact L. unfold ty. apply Eq; [reflexivity|exact L].
  - intros i L. rewrite (f_content _ _ _ F i), (f_content _ _ _ F' i) by lia. rewrite Cd, Cd', !Bool.andb_false_r. apply (Eq _ n_content); [reflexivity|exact L].
  - intros i L. rewrite (f_childs _ _ _ F i), (f_childs _ _ _ F' i) by lia. apply (Eq _ n_childs); [reflexivity|exact L].
  - intros i L. rewrite (f_begin _ _ _ F i), (f_begin _ _ _ F' i) by lia. apply (Eq _ n_begin_at); [reflexivity|exact L].
  - intros i L. rewrite (fin_index st d i He), (fin_index st' d' i He') by lia. apply (Eq _ n_index); [reflexivity|exact L].
  - intros i L. destruct (Nat.eq_dec i 0) as [->|Nz].
    + left. rewrite Ty0 by lia. apply (hs_root _ _ (e_hs _ _ En)).
    + right. rewrite (f_end_at _ _ _ F i), (f_end_at _ _ _ F' i) by lia. rewrite Cd, Cd', !Bool.andb_false_r.
      destruct (Nat.eqb_spec i 0); [contradiction|]. cbn [orb]. apply (Eq _ n_end_at); [reflexivity|exact L].
  - intros i L Ni. assert (M : n_meta (hget (d_heap st') i) = n_meta (hget (d_heap st) i)) by (rewrite Old, Old' by lia; reflexivity).
    destruct (in_dec Nat.eq_dec i (open_at_end st)) as [X|X].
    + destruct (n_meta (hget (d_heap st) i)) as [m|] eqn:Em.
      * destruct (f_open _ _ _ F i m) as [-> _]; [lia|exact X|exact Em|]. destruct (f_open _ _ _ F' i m) as [-> _]; [lia|rewrite <- Op; exact X|exact M|]. reflexivity.
      * destruct (f_closed _ _ _ F i) as [-> _]; [lia|right; exact Em|]. destruct (f_closed _ _ _ F' i) as [-> _]; [lia|right; exact M|]. congruence.
    + destruct (f_closed _ _ _ F i) as [-> _]; [lia|left; exact X|]. destruct (f_closed _ _ _ F' i) as [-> _]; [lia|left; rewrite <- Op; exact X|]. exact M.
  - intros i k L X. unfold kids in X. rewrite (f_childs _ _ _ F i) in X by lia. rewrite <- Ln. apply (hs_kids _ _ (e_hs _ _ En) i k X).
  - intros i L Ni. assert (M : n_meta (hget (d_heap st') i) = n_meta (hget (d_heap st) i)) by (rewrite Old, Old' by lia; reflexivity).
    assert (Et : n_end_tag (hget (d_heap st') i) = n_end_tag (hget (d_heap st) i)) by (apply (Eq _ n_end_tag); [reflexivity|exact L]).
    assert (Cl : (~ In i (open_at_end st) \/ n_meta (hget (d_heap st) i) = None) ->
      (n_end_tag (hget (d_heap d) i) = None /\ n_end_tag (hget (d_heap d') i) = None) \/
      (exists e, e < Datatypes.S N /\ n_end_tag (hget (d_heap d) i) = Some e /\ n_end_tag (hget (d_heap d') i) = Some e /\ ty (d_heap d) e = NTagEnd)).
    { intro X. destruct (f_closed _ _ _ F i) as [_ ->]; [lia|exact X|]. destruct (f_closed _ _ _ F' i) as [_ ->]; [lia|rewrite <- Op, M; exact X|].
      rewrite Et. destruct (n_end_tag (hget (d_heap st) i)) as [e|] eqn:Ee; [right|left; auto].
      destruct (hs_end _ _ (e_hs _ _ En) i e Ee) as [Q1 [Q2 _]]. exists e. split; [lia|]. split; [reflexivity|]. split; [reflexivity|]. rewrite Ty0 by lia. exact Q2. }
    destruct (in_dec Nat.eq_dec i (open_at_end st)) as [X|X]; [|destruct (Cl (or_introl X)); auto].
    destruct (n_meta (hget (d_heap st) i)) as [m|] eqn:Em; [|destruct (Cl (or_intror eq_refl)); auto].
    right. right. destruct (f_open _ _ _ F i m) as [_ [e [Le [E1 E2]]]]; [lia|exact X|exact Em|].
    destruct (f_open _ _ _ F' i m) as [_ [e' [Le' [E1' E2']]]]; [lia|rewrite <- Op; exact X|exact M|].
    exists e, e', (m_name m). split; [exact E1|]. split; [exact E1'|]. split; [rewrite E2; repeat split|rewrite E2'; repeat split].
  - rewrite Ty0 by lia. unfold ty. rewrite (f_begin _ _ _ F N), (f_content _ _ _ F N), (f_childs _ _ _ F N) by lia.
    rewrite Cd, Bool.andb_false_r, New. repeat split.
  - intros f et E. assert (Mn : n_meta (hget (d_heap st) N) = mo) by (rewrite New; reflexivity). destruct mo as [m|].
    + destruct (f_open _ _ _ F N m) as [Hm [e [Le [E1 E2]]]]; [lia|exact NO|exact Mn|]. rewrite Hm.
      destruct et as [te|]; [|congruence]. destruct E as [y [Y T]]. rewrite E1 in Y. injection Y as <-.
      destruct f as [|f]; [discriminate|]. apply tree_eq in T. destruct T as [et [ks [-> [_ K]]]]. rewrite E2 in K |- *.
      apply HP; cbn; try reflexivity. destruct ks; [destruct K as [? [K _]]; discriminate|reflexivity].
    + destruct (f_closed _ _ _ F N) as [Hm He0]; [lia|right; exact Mn|]. rewrite Hm, Mn. rewrite New in He0. cbn in He0.
      destruct et as [te|]; [|exact HP]. destruct E as [y [Y _]]. congruence.
  - intros i L Ni. apply Only. lia.
Qed.

Lemma cut_tree : forall opts s1 s0 u p rest st d n a P, bsteps (doc_new opts) s1 u -> is_U u -> s1 = s0 ++ str "<" -> d_mem_position u = length s0 ->
  auto_fix_unclosed_tag opts = true -> d_chain_nodes u = p :: rest -> ending opts st -> eof st = ROk d -> parse opts (s1 ++ n ++ a) = Parsed d ->
  d_chain_nodes st = length (d_heap u) :: d_chain_nodes u -> d_code_in st = CTag -> length (d_heap st) = S (length (d_heap u)) ->
  (forall i, i < length (d_heap u) -> hget (d_heap st) i = hget (opened u p NTag) i) ->
  forall mo, hget (d_heap st) (length (d_heap u)) = nset_meta mo (child_node (d_heap u) p (node_new NTag (d_mem_position u))) ->
  match mo with
  | None => P None None
  | Some m => forall te, t_type te = NTagEnd -> t_content te = Some (m_name m) -> t_childs te = None -> P (Some te) (Some (mset_auto_fix true m)) : Prop
  end ->
  exists d' t t', parse opts (s0 ++ str "<a>") = Parsed d' /\ doc_tree d = Some t /\ doc_tree d' = Some t' /\
    (exists x, sub x t /\ t_type x = NTag /\ t_begin_at x = length s0) /\ same_but (length s0) P t t'.
Proof.
  intros opts s1 s0 u p rest st d n a P B U Es Mp Af Ec En He Hp Ch Cd Ln Old mo New HP.
  pose proof (bsteps_sok _ _ _ B) as S. pose proof (s_opts _ _ S) as Eo.
  assert (BT : bstep u (str "a" ++ [] ++ str ">")
        (W_of u (str "a" ++ [] ++ str ">") (d_mem_position u) (d_mark_char u)
           (length (d_heap u) :: d_chain_nodes u) (length (d_heap u)) (special_after (d_in_special u) (str "a")) None
           (ids_of (length (d_heap u)) (ta_start (d_mark_char u)) (d_id_tags u))
           (set_meta (opened u p NTag) (length (d_heap u)) (ta_meta (str "a") false (ta_start (d_mark_char u)))))).
  { apply (bs_tag u (str "a") [] (ta_start (d_mark_char u)) p rest); auto.
    exists 97%N, []. split; [reflexivity|]. split; [reflexivity|constructor]. exact I. }
  set (st' := W_of _ _ _ _ _ _ _ _ _ _) in BT.
  assert (B' : bsteps (doc_new opts) (s1 ++ str "a" ++ [] ++ str ">") st') by (eapply bss_snoc; eassumption).
  assert (W' : is_W st') by (repeat split; left; reflexivity).
  pose proof (bsteps_sok _ _ _ B') as S'.
  destruct (eof_succeeds st') as [d' He']; [right; cbn; rewrite Eo; exact Af|exact I|].
  pose proof (at_parse _ _ _ _ B' He') as Hp'. pose proof (sok_ending _ _ S' (or_introl W')) as En'.
  destruct (has_tree _ _ _ Hp) as [t Ht]. destruct (has_tree _ _ _ Hp') as [t' Ht'].
  pose proof (finish _ _ _ En He) as F. pose proof (finish _ _ _ En' He') as F'. set (N := length (d_heap u)) in *.
  pose proof (f_len _ _ _ F) as Lf.
  assert (TN : ty (d_heap st) N = NTag) by (unfold ty; rewrite New; reflexivity).
  assert (BN : n_begin_at (hget (d_heap d) N) = length s0) by (rewrite (f_begin _ _ _ F N) by lia; rewrite New; cbn; exact Mp).
  assert (TD : ty (d_heap d) N = NTag) by (apply (final_ty opts st d N NTag F En); [apply not_textual; reflexivity|discriminate|discriminate|exact TN]).
  assert (Only : forall i, i < N -> ty (d_heap d) i <> NTag \/ n_begin_at (hget (d_heap d) i) <> d_mem_position u).
  { intros i L. assert (D : ty (d_heap d) i = NTag \/ ty (d_heap d) i <> NTag) by (destruct (ty (d_heap d) i); auto; right; discriminate).
    destruct D as [T|T]; [|left; exact T]. right. destruct (parsed_gap _ _ _ Hp) as [G _]. specialize (G i N ltac:(lia) T). rewrite TD in G.
    specialize (G ltac:(discriminate)). lia. }
  assert (Lo : length (opened u p NTag) = Datatypes.S N) by (rewrite opened_length; reflexivity).
  pose proof (cut_but opts u p rest st d st' d' mo (Some (ta_meta (str "a") false (ta_start (d_mark_char u)))) P S Ec En He En' He' Ch eq_refl Cd eq_refl Ln) as BU.
  fold N in BU. cbn [st' W_of d_heap] in BU.
  assert (BU' : but (Datatypes.S N) N (d_mem_position u) P (d_heap d) (d_heap d')).
  { apply BU; auto.
    - rewrite set_meta_length. exact Lo.
    - intros i Hi. unfold set_meta. rewrite hget_hupd_other by lia. reflexivity.
    - unfold set_meta. rewrite hget_hupd_same by lia. unfold N. rewrite (hget_opened_new opts u p rest) by assumption. reflexivity. }
  exists d', t, t'. split; [rewrite <- Hp', Es, <- app_assoc; reflexivity|]. split; [exact Ht|]. split; [exact Ht'|]. split.
  - destruct (graph_tree _ _ _ Hp) as [_ [_ [G _]]].
    destruct (node_tree _ _ _ _ Hp Ht N) as [f [x [Tx Sx]]].
    { apply G; [lia|]. intro X. unfold ty in TD. rewrite TD in X. discriminate X. }
    exists x. split; [exact Sx|]. destruct f as [|f]; [discriminate|]. apply tree_eq in Tx. destruct Tx as [et [ks [-> _]]]. split; [exact TD|exact BN].
  - rewrite <- Mp. unfold doc_tree in Ht, Ht'. rewrite (f_root _ _ _ F) in Ht. rewrite (f_root _ _ _ F') in Ht'.
    eapply (but_same _ _ _ _ _ _ BU'); [|exact Ht|exact Ht']. lia.
Qed.
Lemma cut_at : forall opts s0 s1 u p rest n a t d, bsteps (doc_new opts) s1 u -> is_U u -> s1 = s0 ++ str "<" -> d_mem_position u = length s0 ->
  auto_fix_unclosed_tag opts = true -> d_chain_nodes u = p :: rest -> ta_run opts false a (ta_start (d_mark_char u)) = Some t ->
  run (doc_new opts) (s1 ++ n ++ a) = ROk (st_tag u p n a t) -> parse_res opts (s1 ++ n ++ a) = ROk d -> cut_document opts s0 n a d.
Proof.
  intros opts s0 s1 u p rest n a t d B U Es Mp Af Ec Tr R H. pose proof (bsteps_sok _ _ _ B) as S.
  destruct (accepted_ending _ _ _ H) as [st [R' [En He]]]. rewrite R in R'. injection R' as <-.
  assert (Hp : parse opts (s1 ++ n ++ a) = Parsed d) by (unfold parse; rewrite H; reflexivity).
  unfold cut_document. destruct a as [|c a].
  - eapply (cut_tree opts s1 s0 u p rest _ d n [] _ B U Es Mp Af Ec En He Hp) with (mo := None); try reflexivity; cbn [st_tag st_name d_heap].
    + apply opened_length.
    + rewrite (hget_opened_new opts u p rest) by assumption. reflexivity.
    + split; reflexivity.
  - eapply (cut_tree opts s1 s0 u p rest _ d n (c :: a) _ B U Es Mp Af Ec En He Hp) with (mo := Some (ta_meta n false t)); try reflexivity; cbn [st_tag st_area d_heap].
    + rewrite set_meta_length. apply opened_length.
    + intros i Hi. unfold set_meta. rewrite hget_hupd_other by lia. reflexivity.
    + unfold set_meta. rewrite hget_hupd_same by (rewrite opened_length; lia). rewrite (hget_opened_new opts u p rest) by assumption. reflexivity.
    + intros te T1 T2 T3. cbn [cut_element]. exists (ta_attrs t), te, (mset_auto_fix true (ta_meta n false t)).
      split; [apply (run_cut _ _ _ _ Tr)|]. cbn [ta_meta mset_auto_fix m_name m_attrs m_is_void m_self_closed m_auto_fix] in *.
      rewrite void_of. auto 12.
Qed.

(** A complete tag is not cut off. *)
Lemma span_unique : forall (Q : char -> Prop) n n' r r', Forall Q n -> Forall Q n' -> starts_with (fun c => ~ Q c) r -> starts_with (fun c => ~ Q c) r' ->
  n ++ r = n' ++ r' -> n = n' /\ r = r'.
Proof.
  intros Q n. induction n as [|c n IH]; intros n' r r' F F' S S' E.
  - destruct n' as [|c' n']; [auto|]. cbn in E. subst r. inversion F'; subst. contradiction.
  - inversion F; subst. destruct n' as [|c' n'].
    + cbn in E. subst r'. contradiction.
    + inversion F'; subst. injection E as <- E. destruct (IH n' r r') as [-> ->]; auto.
Qed.
Lemma open_name_chars : forall n, open_name n -> Forall name_char n.
Proof.
  intros n [c [n' [-> [A F]]]]. constructor; [|exact F]. unfold name_char, is_ws, is_ascii_alphabetic, is_ascii_lowercase, is_ascii_uppercase, is_ascii_whitespace in *. lia.
Qed.
Lemma full_not_cut : forall opts s st d, bsteps (doc_new opts) s st -> is_W st \/ is_T st -> eof st = ROk d -> ~ cut_short opts s d.
Proof.
  intros opts s st d B R He [i [s1 [n [a [T [Bg [Es [On [Sa Na]]]]]]]]].
  pose proof (sok_ending _ _ (bsteps_sok _ _ _ B) R) as En. pose proof (finish _ _ _ En He) as F.
  assert (T0 : ty (d_heap st) i = NTag) by (apply (final_ty opts st d i NTag F En); [apply not_textual; reflexivity|discriminate|discriminate|exact T]).
  assert (L : i < length (d_heap st)) by (apply (ty_lt _ _ _ T0); discriminate).
  assert (Nz : i <> 0) by (intros ->; pose proof (hs_root _ _ (e_hs _ _ En)) as Z; destruct Z as [_ [Z _]]; unfold ty in *; congruence).
  rewrite (f_begin _ _ _ F i L) in Bg.
  assert (K : forall s1' n' a' r mk t, s = s1' ++ str "<" ++ n' ++ a' ++ str ">" ++ r -> length s1' = length s1 -> open_name n' -> area_start a' ->
    ta_run opts false a' (ta_start mk) = Some t -> ta_closable t = true -> False).
  { intros s1' n' a' r mk t E Le On' As' Tr Cl. rewrite Es in E.
    assert (X : s1 = s1' /\ str "<" ++ n ++ a = str "<" ++ n' ++ a' ++ str ">" ++ r).
    { clear - E Le. revert s1' Le E. induction s1 as [|x l IH]; intros [|y l'] Le E; try discriminate; [auto|].
      injection Le as Le. injection E as -> E. destruct (IH l' Le E) as [-> E']. auto. }
    destruct X as [_ X]. cbn [str app] in X. injection X as X.
    destruct (span_unique name_char n n' a (a' ++ str ">" ++ r)) as [_ Ea]; auto using open_name_chars.
    - destruct a as [|c a]; [exact I|]. cbn in Sa |- *. unfold name_char, not_ws. destruct Sa as [Sa|Sa]; [|lia]. unfold is_ws in Sa. intros [Y _]. unfold is_ws in Y. congruence.
    - destruct a' as [|c a']; cbn in As' |- *; unfold name_char, not_ws; [unfold TAG_END_CHAR; lia|]. unfold END_SLASH_CHAR in As'. destruct As' as [As'|As']; [lia|]. unfold is_ws in As'. intros [Y _]. unfold is_ws in Y. congruence.
    - apply (Na a' r (ta_attrs (ta_close t)) (ta_slash t) Ea). apply (run_area _ _ _ _ _ Tr Cl). }
  pose proof (Static.written opts s st i B ltac:(lia)) as W. unfold ty in T0. destruct W; try congruence.
  - destruct H as [Q|Q]; congruence.
  - eapply K; eauto; congruence.
  - eapply K; [exact H|congruence|eauto..].
Qed.

Lemma area_start_iff : forall a, area_start a <-> starts_with slash_filler a.
Proof. intros [|c a]; cbn; [tauto|]. unfold slash_filler, END_SLASH_CHAR. tauto. Qed.
Theorem cut_backward : forall opts s d, parse opts s = Parsed d -> cut_short opts s d ->
  exists s0 n a, s = s0 ++ str "<" ++ n ++ a /\ open_name n /\ starts_with slash_filler a /\ cut_document opts s0 n a d.
Proof.
  intros opts s d H C. pose proof (parsed_res _ _ _ H) as Hr. destruct (accepted _ _ _ Hr) as [s1 [s2 [st1 [st [Es [B [R [D He]]]]]]]].
  destruct D as [[-> [-> D]]|[Af [U [_ [p [rest [Ec D]]]]]]].
  { exfalso. rewrite app_nil_r in Es. subst s1. eapply full_not_cut; eauto. }
  destruct (bsteps_U _ _ _ B U) as [s0 [E0 Mp]].
  destruct D as [[On ->]|[n [a [t [-> [On [Na [As [Ru ->]]]]]]]]].
  - exists s0, s2, []. rewrite app_nil_r. split; [rewrite Es, E0, <- app_assoc; reflexivity|]. split; [exact On|]. split; [exact I|].
    eapply (cut_at opts s0 s1 st1 p rest s2 [] (ta_start (d_mark_char st1))); eauto; rewrite app_nil_r, <- Es; assumption.
  - exists s0, n, a. split; [rewrite Es, E0, <- app_assoc; reflexivity|]. split; [exact On|]. split; [apply area_start_iff, As|].
    eapply (cut_at opts s0 s1 st1 p rest n a t); eauto; rewrite <- Es; [|assumption]. rewrite R. destruct a; [contradiction|reflexivity].
Qed.
Theorem cut_forward : forall opts s d0 n a l, parse opts s = Parsed d0 -> ~ cut_short opts s d0 -> open_doctypes d0 -> auto_fix_unclosed_tag opts = true ->
  open_name n -> starts_with slash_filler a -> cut_area (allow_attr_key_starts_with_equal_sign opts) a l ->
  exists d, parse opts (s ++ str "<" ++ n ++ a) = Parsed d /\ cut_short opts (s ++ str "<" ++ n ++ a) d /\ cut_document opts s n a d.
Proof.
  intros opts s d0 n a l H Nc Od Af On Sa Ca. destruct (cut_case _ _ _ (parsed_res _ _ _ H)) as [[st [B [W He0]]]|X]; [|contradiction].
  assert (E : ending opts st) by (apply sok_ending; [apply (bsteps_sok _ _ _ B)|exact W]).
  assert (Ne : d_chain_nodes st <> []).
  { intro X. apply (proj1 (open_doctypes_spec _) Od). eapply final_popping; [exact E|apply finish; [exact E|exact He0]|]. eapply chain_popping; eauto. }
  assert (X : exists u, bstep st [TAG_BEGIN_CHAR] u /\ is_U u /\ d_chain_nodes u = d_chain_nodes st) by (destruct W as [W|W]; eexists; (split; [constructor; exact W|repeat split])).
  destruct X as [u [Bu [U Eu]]]. pose proof (bss_snoc _ _ _ _ _ B Bu) as B1. change [TAG_BEGIN_CHAR] with (str "<") in B1.
  pose proof (bsteps_sok _ _ _ B1) as S. pose proof (s_opts _ _ S) as Eo. pose proof (s_root _ _ S) as Er.
  destruct (bsteps_U _ _ _ B1 U) as [s0 [E0 Mp]]. apply app_inv_tail in E0. subst s0.
  destruct (d_chain_nodes u) as [|p rest] eqn:Ec; [exfalso; congruence|].
  destruct (cut_run opts a l (d_mark_char u) Ca) as [t [Tr _]]. apply area_start_iff in Sa.
  assert (R : run (doc_new opts) ((s ++ str "<") ++ n ++ a) = ROk (st_tag u p n a t)).
  { rewrite DocSound.run_app2. destruct (reach _ _ _ B1) as [-> _]. cbn [rbind]. rewrite DocSound.run_app2, (run_name u p rest n U Er Ec On). cbn [rbind]. apply run_area_start; [exact Sa|]. rewrite Eo. exact Tr. }
  destruct (eof_succeeds (st_tag u p n a t)) as [d He].
  { right. destruct a; cbn; rewrite Eo; exact Af. }
  { destruct a; cbn; rewrite Eo; exact Af. }
  assert (Hr : parse_res opts ((s ++ str "<") ++ n ++ a) = ROk d) by (unfold parse_res; rewrite R; exact He).
  exists d. rewrite <- app_assoc in R, Hr. assert (Hp : parse opts (s ++ str "<" ++ n ++ a) = Parsed d) by (unfold parse; rewrite Hr; reflexivity).
  split; [exact Hp|]. split.
  - destruct (cut_case _ _ _ Hr) as [[st' [B' [W' He']]]|X]; [|exact X]. exfalso.
    destruct (reach _ _ _ B') as [R' _]. rewrite R in R'. injection R' as <-. destruct W' as [[W' _]|[W' _]]; destruct a; cbn in W'; try discriminate; destruct (ta_mode t) as [[|]| |]; discriminate.
  - eapply (cut_at opts s (s ++ str "<") u p rest n a t); eauto; rewrite <- app_assoc; assumption.
Qed.
