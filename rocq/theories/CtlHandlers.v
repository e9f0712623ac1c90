(** Every handler preserves the control invariant (continued). *)
From Coq Require Import String.
From Verif Require Import Api SpecText SpecParse NameProofs MiscProofs HeapLemmas InvCtl CtlSteps.
Local Open Scope string_scope.
Local Open Scope list_scope.

Lemma pos_len : forall opts pre st, ctl opts pre st -> d_position st = length pre.
Proof. intros opts pre st [_ [H _]]. exact H. Qed.

Lemma textual_dec : forall t, {textual t} + {~ textual t}.
Proof. intro t. destruct t; (left; left; reflexivity) || (left; right; reflexivity) || (right; intros [X|X]; discriminate). Qed.

Lemma check_keep : forall p h h' i, heap_le p h h' -> textual (ty h i) -> textual (ty h' i).
Proof.
  intros p h h' i [_ [L _]] H.
  assert (Hl : i < length h).
  { destruct (Nat.lt_ge_cases i (length h)) as [X|X]; [exact X|].
    unfold ty in H. rewrite hget_default in H by exact X. destruct H; discriminate. }
  destruct (L i Hl) as [[K|[_ K]] _]; [rewrite <- K|]; assumption.
Qed.

(** Closes the routine goals left by [base_step]. *)
Ltac bs B :=
  eapply (base_step _ _ _ _ _ B); nd;
  [ reflexivity
  | first [exact (InvCtl.k_mem _ _ _ B) | lia]
  | reflexivity
  | rewrite ?hupd_length, ?app_length; cbn [length];
    try (match goal with Ln : length ?x = _ |- _ < length ?x => rewrite Ln end);
    first [exact (InvCtl.k_cur _ _ _ B) | lia]
  | first [apply heap_le_refl | eassumption | idtac]
  | reflexivity
  | reflexivity
  | first [left; reflexivity | right; reflexivity]
  | first [congruence | (intros _; split; reflexivity) | idtac]
  | first [ discriminate
          | exact (InvCtl.k_check _ _ _ B)
          | let i := fresh "i" in let Hi := fresh "Hi" in
            intros i Hi;
            eapply check_keep; [eassumption|]; exact (InvCtl.k_check _ _ _ B i Hi) | idtac ] ].
(** Start of a handler proof. *)
Ltac start st :=
  dst st; match goal with
  | B : base _ _ _, P : _ = length _, H : handle_inv _ _, E : _ = _ |- _ =>
      ndi P; ndi E; subst; unfold handle_inv in H; ndi H
  end.

Lemma special_before_pre : forall opts pre st, base opts pre st -> special_before pre st.
Proof.
  intros opts pre st B. unfold special_before. pose proof (InvCtl.k_special _ _ _ B) as S.
  unfold special_inv in S. destruct (d_in_special st) as [[sp n]|]; [|trivial]. apply S.
Qed.

Lemma wait_ok : forall opts pre c st, ctl opts pre st -> d_handle st = HWait ->
  step_ok opts pre c (parse_wait st c).
Proof.
  intros opts pre c st [B [P H]] E. start st.
  destruct H as [H1 [-> [-> H4]]].
  unfold parse_wait. nd.
  destruct (N.eqb_spec c TAG_BEGIN_CHAR) as [->|Nc].
  - split; [reflexivity|]. split.
    + bs B.
    + unfold handle_inv. nd. repeat split; [exact H4|]. exists pre. split; [reflexivity|].
      exact (special_before_pre _ _ _ B).
  - destruct (_ && _)%bool eqn:F.
    + apply andb_true_iff in F as [_ F].
      assert (T : ty h cu = NText).
      { unfold ty in *. destruct (n_type (hget h cu)); try discriminate F; congruence. }
      destruct (n_content (hget h cu)) as [ct|]; nd.
      * assert (L : heap_le (length pre) h (hupd h cu (nset_content (Some [])))) by apply heap_le_hupd, tame_content.
        split; [reflexivity|]. split; [bs B|].
        unfold handle_inv. nd. repeat split. rewrite <- T. apply hupd_keep. reflexivity.
      * split; [reflexivity|]. split; [bs B|]. unfold handle_inv. nd. auto.
    + match goal with |- context [add_new_node ?n ?s] =>
        assert (A : _) by (apply (add_plain opts pre n s B); nd; try discriminate; cbn; lia || reflexivity)
      end.
      destruct (add_new_node _ _) as [st'|k i|p].
      * destruct A as [h' [-> [L [Ln T]]]]. revert L Ln T. nd. intros L Ln T. split; [reflexivity|]. split.
        -- bs B.
        -- unfold handle_inv. nd. auto.
      * contradiction.
      * right. left. exact A.
Qed.

Lemma text_ok : forall opts pre c st, base opts pre st -> d_position st = length pre ->
  handle_inv pre st -> d_handle st = HText ->
  step_ok opts pre c (parse_text st c).
Proof.
  intros opts pre c st B P H E. start st. destruct H as [-> [T ->]].
  unfold parse_text. nd.
  destruct (N.eqb_spec c TAG_BEGIN_CHAR) as [->|Nc].
  - split; [reflexivity|].
    set (h' := hupd (hupd _ _ _) _ _).
    assert (L : heap_le (length pre) h h').
    { unfold h'. eapply heap_le_trans; apply heap_le_hupd; [apply tame_content|].
      apply (tame_end_at (fun n => if node_type_eqb (n_type n) NText then length pre else length pre + 1)). }
    assert (T' : forall i, ty h' i = ty h i).
    { intro i. unfold h', ty. rewrite !hupd_keep by reflexivity. reflexivity. }
    assert (Ln : length h' = length h) by (unfold h'; rewrite !hupd_length; reflexivity).
    clearbody h'. split.
    + bs B. intros i Hi. rewrite T'. destruct rep; [|discriminate]. injection Hi as <-. left. exact T.
    + unfold handle_inv. nd. rewrite T', T. repeat split; [discriminate|].
      exists pre. split; [reflexivity|]. exact (special_before_pre _ _ _ B).
  - destruct rep; nd; (split; [reflexivity|]; split; [bs B|unfold handle_inv; nd; auto]).
Qed.

(** ** Names and start tags *)

Lemma hupd_meta_same : forall h i g, i < length h ->
  n_meta (hget (hupd h i (nupd_meta g)) i) = option_map g (n_meta (hget h i)).
Proof. intros. rewrite hget_hupd_same by assumption. apply nupd_meta_meta. Qed.

Lemma ty_nupd : forall h i j g, ty (hupd h i (nupd_meta g)) j = ty h j.
Proof. intros. unfold ty. apply hupd_keep. keeps. Qed.

Lemma name_of_none : forall h i, n_meta (hget h i) = None <-> name_of h i = None.
Proof. intros. unfold name_of, mt. destruct (n_meta (hget h i)); cbn; split; congruence. Qed.

(** Setting the meta data of the current tag or doctype. *)
Lemma base_meta : forall opts pre st m st', base opts pre st ->
  n_meta (cur st) = None ->
  ty (d_heap st) (d_current_node st) <> NAbstractRoot ->
  (ty (d_heap st) (d_current_node st) = NTag -> occurs (str "<" ++ m_name m) pre) ->
  d_parse_options st' = d_parse_options st -> d_mem_position st' = d_mem_position st ->
  d_root st' = d_root st -> d_current_node st' = d_current_node st ->
  d_heap st' = hupd (d_heap st) (d_current_node st) (nset_meta (Some m)) ->
  d_chain_nodes st' = d_chain_nodes st -> d_in_special st' = d_in_special st ->
  d_code_in st' = d_code_in st -> d_check_textnode st' = d_check_textnode st ->
  base opts pre st'.
Proof.
  intros opts pre st m st' B N R O E1 E2 E3 E4 E5 E6 E7 E8 E9. dbase B.
  assert (T : forall i, ty (d_heap st') i = ty (d_heap st) i).
  { intro i. rewrite E5. apply hupd_keep. reflexivity. }
  assert (Nm : forall i, i <> d_current_node st -> name_of (d_heap st') i = name_of (d_heap st) i).
  { intros i Hi. unfold name_of, mt. rewrite E5, hget_hupd_other by congruence. reflexivity. }
  assert (Nc : name_of (d_heap st') (d_current_node st) = Some (m_name m)).
  { unfold name_of, mt. rewrite E5, hget_hupd_same by assumption. reflexivity. }
  assert (Ln : length (d_heap st') = length (d_heap st)) by (rewrite E5; apply hupd_length).
  constructor; rewrite ?E1, ?E2, ?E3, ?E4, ?E6, ?E9, ?Ln, ?T; auto.
  - rewrite Nm; [exact Krootname|]. intro X. rewrite X in Krootty. contradiction.
  - intro i. rewrite E5, (hupd_keep n_begin_at) by reflexivity. apply Kbegin.
  - intros i n Hn Ht. rewrite T in Ht. destruct (Nat.eq_dec i (d_current_node st)) as [->|Hi].
    + rewrite Nc in Hn. injection Hn as <-. auto.
    + rewrite Nm in Hn by exact Hi. eauto.
  - clear - T Kchain. revert Kchain. generalize (length (d_heap st)).
    induction (d_chain_nodes st) as [|i l IH]; intros b H; cbn in *; [trivial|].
    destruct H as [A [C D]]. split; [exact A|]. split; [|apply IH; exact D].
    destruct l; [exact C|]. rewrite T. exact C.
  - intros i Hi H0. left. destruct (Nat.eq_dec i (d_current_node st)) as [->|Hn]; [congruence|].
    rewrite Nm by exact Hn. destruct (Kcmeta i Hi H0) as [X|[_ X]]; [exact X|contradiction].
  - unfold special_inv in *. rewrite E7. destruct (d_in_special st) as [[sp n]|]; [|trivial].
    destruct Kspecial as [A [C D]]. split; [exact A|]. split; [exact C|].
    destruct D as [[k [D1 D2]]|D]; [left|right; exact D]. exists k. split.
    + unfold open_chain in *. rewrite E8, E6. exact D1.
    + rewrite Nm; [exact D2|]. intros ->. apply name_of_none in N. congruence.
  - intros i Hi. rewrite T. auto.
Qed.

(** Closing the innermost tag without an end tag. *)
Definition tag_code (c : code_type_in) : Prop :=
  c = CTag \/ c = CHTMLScript \/ c = CHTMLStyle \/ c = CEscapeableRawText.
Lemma base_pop : forall opts pre st st' rest, base opts pre st ->
  d_chain_nodes st = d_current_node st :: rest ->
  ty (d_heap st) (d_current_node st) = NTag ->
  tag_code (d_code_in st) ->
  d_parse_options st' = d_parse_options st -> d_mem_position st' = d_mem_position st ->
  d_root st' = d_root st -> d_current_node st' = d_current_node st ->
  d_heap st' = d_heap st ->
  d_chain_nodes st' = rest -> d_in_special st' = d_in_special st ->
  d_code_in st' = CUnkown -> d_check_textnode st' = d_check_textnode st ->
  base opts pre st'.
Proof.
  intros opts pre st st' rest B Ec T Tc E1 E2 E3 E4 E5 E6 E7 E8 E9. dbase B.
  assert (Hr : rest <> []).
  { intros ->. rewrite Ec in Kchain. destruct Kchain as [_ [X _]]. rewrite X in T. congruence. }
  constructor; rewrite ?E1, ?E2, ?E3, ?E4, ?E5, ?E6, ?E9; auto.
  - rewrite Ec in Kchain. destruct Kchain as [A [_ C]]. eapply chain_ok_weaken; [exact C|lia].
  - intros i Hi H0. left. destruct (Kcmeta i) as [X|[_ X]]; auto; [rewrite Ec; right; exact Hi|].
    rewrite Ec in Kchain. destruct Kchain as [_ [_ C]]. pose proof (chain_ok_in _ _ _ _ C Hi). lia.
  - contradiction.
  - unfold special_inv in *. rewrite E7. destruct (d_in_special st) as [[sp n]|]; [|trivial].
    rewrite E5. destruct Kspecial as [A [C D]]. split; [exact A|]. split; [exact C|].
    destruct D as [[k [D1 D2]]|D]; [left|right; exact D]. exists k. split; [|exact D2].
    unfold open_chain in *. rewrite E8, E6. rewrite Ec in D1.
    destruct Tc as [X|[X|[X|X]]]; rewrite X in D1; exact D1.
Qed.

Lemma hi_wait : forall pre st, d_handle st = HWait -> d_code_in st = CUnkown ->
  d_prev_chars st = [] -> d_detect st = None ->
  ty (d_heap st) (d_current_node st) <> NSpacesBetweenTag -> handle_inv pre st.
Proof. intros pre st H1 H2 H3 H4 H5. unfold handle_inv. rewrite H1. auto. Qed.

(** '>' at the end of a start tag or doctype. *)
Lemma tag_type_ok : forall opts pre c st m, base opts pre st -> d_position st = length pre ->
  n_meta (cur st) = Some m -> d_prev_chars st = [] -> d_detect st = None ->
  (on_tag st \/ (on_doctype pre st /\ same_name (m_name m) (str "doctype") = true)) ->
  (d_handle st = HTagName -> name_of (d_heap st) (d_current_node st) <> None) ->
  step_ok opts pre c (check_tag_type_do st).
Proof.
  intros opts pre c st m B P M Hp Hd D Hn. unfold check_tag_type_do. rewrite M.
  assert (Nm : name_of (d_heap st) (d_current_node st) = Some (m_name m)).
  { unfold name_of, mt. unfold cur, get_node in M. rewrite M. reflexivity. }
  destruct (is_content_tag (lower (m_name m)) None) eqn:C.
  - destruct D as [[D1 [D2 [rest D3]]]|[_ D]].
    2:{ apply same_name_lower in D. change (str "doctype") with (lower (str "doctype")) in C.
        rewrite D in C. discriminate C. }
    set (cd := if is_equal_chars _ _ _ then _ else _).
    assert (Hc : cd = CHTMLScript \/ cd = CHTMLStyle \/ cd = CEscapeableRawText).
    { unfold cd. destruct (is_equal_chars _ _ _); [auto|]. destruct (is_equal_chars _ _ _); auto. }
    clearbody cd. dst st. ndi P. ndi Hp. ndi Hd. ndi D1. ndi D2. ndi D3. ndi Hn. ndi M. ndi Nm.
    subst. nd. split; [reflexivity|]. split.
    + apply base_app. eapply base_to; [exact B|..]; nd; auto.
      * apply (InvCtl.k_cur _ _ _ B).
      * unfold open_chain. nd. destruct Hc as [->|[->| ->]]; apply incl_refl.
      * apply (InvCtl.k_check _ _ _ B).
    + unfold handle_inv. nd. destruct Hc as [->|[->| ->]]; cbn; (split; [auto|]); (split; [exact D2|]);
        (split; [eexists; reflexivity|]); exists m; auto.
  - assert (Special : special_tag_map (lower (m_name m)) <> None -> special_name (m_name m)).
    { rewrite special_spec. unfold special_name. destruct (same_name _ (str "svg")); auto.
      destruct (same_name _ (str "math")); auto. }
    assert (OkNone : forall st', st' = set_code CUnkown st ->
       d_position st' = length pre /\ base opts (pre ++ [c]) st' /\ handle_inv (pre ++ [c]) st').
    { intros st' ->. dst st. ndi P. ndi Hp. ndi Hd. ndi Hn. subst. nd. split; [reflexivity|]. split.
      - apply base_app. eapply base_to; [exact B|..]; nd; auto.
        + apply (InvCtl.k_mem _ _ _ B).
        + apply (InvCtl.k_cur _ _ _ B).
        + unfold open_chain. nd. destruct code; try apply incl_refl; destruct chain; cbn;
            try apply incl_refl; apply incl_tl, incl_refl.
        + apply (InvCtl.k_check _ _ _ B).
      - apply hi_wait; try reflexivity. nd.
        destruct D as [[_ [D _]]|[[_ [D _]] _]]; ndi D; rewrite D; discriminate. }
    destruct (d_in_special st) as [x|] eqn:Sp.
    { apply OkNone. reflexivity. }
    destruct (special_tag_map (lower (m_name m))) as [sp|] eqn:Sm.
    2:{ apply OkNone. dst st. ndi Sp. subst. reflexivity. }
    destruct D as [[D1 [D2 [rest D3]]]|[_ D]].
    2:{ apply same_name_lower in D. change (str "doctype") with (lower (str "doctype")) in Sm.
        rewrite D in Sm. discriminate Sm. }
    destruct (OkNone _ eq_refl) as [O1 [O2 O3]]. split; [exact O1|]. split.
    + dst st. ndi P. ndi Hp. ndi Hd. ndi D1. ndi D2. ndi D3. ndi Hn. ndi M. ndi Nm. ndi Sp. subst.
      ndi O2. nd. pose proof (InvCtl.k_names _ _ _ O2 cu (m_name m) Nm D2) as Occ.
      dbase O2. constructor; auto.
      unfold special_inv. nd. split; [apply Special; discriminate|]. split; [exact Occ|].
      left. exists cu. split; [left; reflexivity|exact Nm].
    + dst st. exact O3.
Qed.

Lemma ws_cases : forall c, is_ascii_whitespace c = true -> c <> TAG_END_CHAR /\ c <> END_SLASH_CHAR /\
  c <> EQUAL_CHAR /\ c <> TAG_BEGIN_CHAR.
Proof.
  intros c H. unfold is_ascii_whitespace in H. unfold char in *.
  repeat split; intros ->; discriminate H.
Qed.

Lemma open_name_push : forall n c, open_name n -> is_ascii_whitespace c = false ->
  c <> END_SLASH_CHAR -> c <> TAG_END_CHAR -> open_name (n ++ [c]).
Proof.
  intros n c [x [n' [-> [A F]]]] W S G. exists x, (n' ++ [c]). split; [reflexivity|]. split; [exact A|].
  apply Forall_app. split; [exact F|]. constructor; [|constructor].
  split; [|split; [exact S|exact G]]. unfold is_ws. congruence.
Qed.

Lemma tag_name_ok : forall opts pre c st, ctl opts pre st -> d_handle st = HTagName ->
  step_ok opts pre c (parse_tag_name st c).
Proof.
  intros opts pre c st [B [P H]] E. start st.
  destruct H as [[D1 [D2 [rest D3]]] [-> [ON [N [a Ea]]]]]. ndi D1. ndi D2. ndi D3. ndi N. subst code chain.
  assert (Ocp : occurs (str "<" ++ prev) pre).
  { exists a, []. rewrite app_nil_r. exact Ea. }
  unfold parse_tag_name, set_tag_meta. nd.
  set (mm := mkMeta TWait (is_void_tag (lower prev)) false false prev [] []).
  set (h' := hupd h cu (nset_meta (Some mm))).
  assert (Hcu : cu < length h) by exact (InvCtl.k_cur _ _ _ B).
  assert (B1 : forall cd hd', base opts pre (mkDoc CTag (length pre) mem cd [] mark (cu :: rest) cu spec rep chk hd' po rt ids h')).
  { intros. eapply (base_meta opts pre _ mm _ B); nd; auto. rewrite D2. discriminate. }
  assert (T : ty h' cu = NTag). { unfold ty, h'. rewrite (hupd_keep n_type) by reflexivity. exact D2. }
  assert (M : n_meta (hget h' cu) = Some mm). { unfold h'. rewrite hget_hupd_same by assumption. reflexivity. }
  assert (Nm : name_of h' cu <> None). { unfold name_of, mt. rewrite M. discriminate. }
  destruct (N.eqb_spec c TAG_END_CHAR) as [->|C1]; [|destruct (N.eqb_spec c END_SLASH_CHAR) as [->|C2];
    [|destruct (is_ascii_whitespace c) eqn:W]].
  - destruct (is_void_tag (lower prev)) eqn:V.
    + split; [reflexivity|]. split.
      * apply base_app. eapply base_pop; [apply (B1 None HTagName)|..]; nd; try reflexivity; auto. left. reflexivity.
      * apply hi_wait; try reflexivity. nd. cbn [tl]. fold h'. rewrite T. discriminate.
    + eapply (tag_type_ok _ _ _ _ mm); try reflexivity; [apply B1|exact M| |].
      * left. repeat split; [exact T|]. nd. eauto.
      * nd. intros _. exact Nm.
  - split; [reflexivity|]. split; [apply base_app, B1|].
    unfold handle_inv. nd. split; [|repeat split; discriminate].
    exists mm. split; [exact M|]. split; [reflexivity|]. split; [left; reflexivity|].
    left. repeat split; [exact T|]. nd. eauto.
  - fold h'. split; [reflexivity|]. 
    assert (M2 : n_meta (hget (hupd h' cu (nupd_meta (mset_code_in TWait))) cu) = Some mm).
    { rewrite hupd_meta_same by (unfold h'; rewrite hupd_length; exact Hcu). rewrite M. reflexivity. }
    split.
    + apply base_app. apply (base_heap _ _ (mkDoc CTag (length pre) mem None [] mark (cu :: rest) cu spec rep chk HTagWait po rt ids h')); [apply B1|].
      apply heap_le_hupd, tame_nupd. reflexivity.
    + unfold handle_inv. nd. split; [|auto].
      exists mm. split; [exact M2|]. split; [reflexivity|]. split; [left; reflexivity|].
      left. repeat split; [nd; rewrite ty_nupd; exact T|]. nd. eauto.
  - split; [reflexivity|]. split; [bs B|]. unfold handle_inv. nd. split; [|split; [reflexivity|split; [|split; [exact N|]]]].
    + repeat split; [exact D2|]. nd. eauto.
    + apply open_name_push; auto.
    + exists a. rewrite Ea. rewrite <- !app_assoc. reflexivity.
Qed.

(** Rebuilding [area] after an update of the current node's meta data. *)
Lemma area_intro : forall pre c st st' m m' (P' : tag_meta -> Prop),
  m_is_void m = is_void_tag (lower (m_name m)) ->
  (on_tag st \/ (on_doctype pre st /\ same_name (m_name m) (str "doctype") = true)) ->
  d_code_in st' = d_code_in st -> d_current_node st' = d_current_node st ->
  d_chain_nodes st' = d_chain_nodes st ->
  ty (d_heap st') (d_current_node st) = ty (d_heap st) (d_current_node st) ->
  n_meta (hget (d_heap st') (d_current_node st)) = Some m' ->
  m_name m' = m_name m -> m_is_void m' = m_is_void m -> P' m' ->
  area (pre ++ [c]) st' P'.
Proof.
  intros pre c st st' m m' P' V D E1 E2 E3 E4 E5 E6 E7 H.
  exists m'. split; [unfold cur, get_node; rewrite E2; exact E5|].
  split; [congruence|]. split; [exact H|]. rewrite E6.
  destruct D as [[D1 [D2 D3]]|[[D1 [D2 D3]] D4]]; [left|right].
  - unfold on_tag. rewrite E1, E2, E3, E4. auto.
  - split; [|exact D4]. unfold on_doctype. rewrite E1, E2, E4. repeat split; auto.
    apply (doctype_text_app _ [] [c]) in D3. eapply doctype_text_nil, D3.
Qed.

Lemma doctype_name_ok : forall opts pre c st, ctl opts pre st -> d_handle st = HDoctypeName ->
  step_ok opts pre c (parse_doctype_name st c).
Proof.
  intros opts pre c st [B [P H]] E. start st.
  destruct H as [-> [T [-> [N [S [a Ea]]]]]]. unfold parse_doctype_name. nd.
  destruct (is_ascii_whitespace c) eqn:W; [|split; [lia|exact I]].
  set (mm := mkMeta TWait (is_void_tag (lower prev)) false false prev [] []).
  assert (Hcu : cu < length h) by exact (InvCtl.k_cur _ _ _ B).
  set (h' := hupd h cu (nset_meta (Some mm))).
  assert (Hcu' : cu < length h') by (unfold h'; rewrite hupd_length; exact Hcu).
  assert (T' : ty h' cu = NHTMLDOCTYPE).
  { unfold ty, h'. rewrite (hupd_keep n_type) by reflexivity. exact T. }
  assert (M : n_meta (hget h' cu) = Some mm). { unfold h'. rewrite hget_hupd_same by assumption. reflexivity. }
  split; [reflexivity|]. split.
  - apply base_app.
    apply (base_heap _ _ (mkDoc CHTMLDOCTYPE (length pre) mem None [] mark chain cu spec rep chk HTagWait po rt ids h')).
    + eapply (base_meta opts pre _ mm _ B); nd; auto; rewrite T; discriminate.
    + apply heap_le_hupd, tame_nupd. reflexivity.
  - unfold handle_inv. nd. split; [|auto]. fold h'.
    eapply (area_intro pre c (mkDoc CHTMLDOCTYPE (length pre) mem None [] mark chain cu spec rep chk HTagWait po rt ids h') _ mm); nd; try reflexivity.
    + right. split; [|exact S]. repeat split; [exact T'|]. exists a, prev, []. split; [|exact S].
      rewrite !app_nil_r. exact Ea.
    + apply ty_nupd.
    + rewrite hupd_meta_same, M by exact Hcu'. reflexivity.
    + left. reflexivity.
Qed.

(** '>' inside a start tag or doctype. *)
Lemma tag_close_ok : forall opts pre st P, base opts pre st -> d_position st = length pre ->
  area pre st P -> d_prev_chars st = [] -> d_detect st = None -> d_handle st <> HTagName ->
  step_ok opts pre TAG_END_CHAR (parse_tag_wait st TAG_END_CHAR).
Proof.
  intros opts pre st Q B P [m [M [V [_ D]]]] Hp Hd Hh. unfold parse_tag_wait.
  change (N.eqb TAG_END_CHAR DOUBLE_QUOTE_CHAR) with false.
  change (N.eqb TAG_END_CHAR SINGLE_QUOTE_CHAR) with false. rewrite N.eqb_refl. cbn [orb].
  rewrite M. destruct (m_is_void m) eqn:Vd.
  - destruct D as [[D1 [D2 [rest D3]]]|[_ D]].
    2:{ apply same_name_lower in D. rewrite D in V. discriminate V. }
    split; [exact P|]. split.
    + apply base_app. eapply base_pop; [exact B|exact D3|exact D2|left; exact D1|..]; try reflexivity.
      dst st. nd. ndi D3. subst. reflexivity.
    + apply hi_wait; try reflexivity; try assumption.
      change (ty (d_heap st) (d_current_node st) <> NSpacesBetweenTag). rewrite D2. discriminate.
  - eapply tag_type_ok; eauto; contradiction.
Qed.

Lemma attrs_app : forall (l : list attr) x, l ++ [x] <> [].
Proof. intros l x H. apply app_eq_nil in H as [_ H]. discriminate. Qed.

Lemma tag_wait_ok : forall opts pre c st, base opts pre st -> d_position st = length pre ->
  area pre st wait_meta -> d_prev_chars st = [] -> d_detect st = None ->
  d_handle st = HTagWait \/ (d_handle st = HSelfClosing /\ slashed pre st) ->
  step_ok opts pre c (parse_tag_wait st c).
Proof.
  intros opts pre c st B P A Hp Hd Hh.
  destruct (N.eqb_spec c TAG_END_CHAR) as [->|Nc].
  { eapply tag_close_ok; eauto. destruct Hh as [->|[-> _]]; discriminate. }
  destruct A as [m [M [V [W D]]]].
  assert (Hn : d_handle st <> HTagName) by (destruct Hh as [->|[-> _]]; discriminate).
  assert (Ho : d_parse_options st = opts) by exact (InvCtl.k_opts _ _ _ B).
  assert (Hcu : d_current_node st < length (d_heap st)) by exact (InvCtl.k_cur _ _ _ B).
  unfold parse_tag_wait, tag_code_of. rewrite M.
  apply N.eqb_neq in Nc. rewrite Nc. cbn [rbind].
  assert (Go : forall tc hd' pc mk g, (forall x, m_name (g x) = m_name x /\ m_is_void (g x) = m_is_void x) ->
    m_attrs (g m) <> [] -> hd' = HAttrKey \/ hd' = HAttrValue ->
    step_ok opts pre c (ROk (upd_cur (nupd_meta (mset_code_in tc)) (set_handle hd' (set_prev_chars pc (set_mark_char mk (upd_cur (nupd_meta g) st))))))).
  { clear Nc. intros tc hd' pc mk g G1 G2 G3. pose proof D as D0. 
    dst st. ndi M. ndi Hcu. ndi P. ndi Hp. ndi Hd. ndi Hh. ndi Hn. subst. nd. split; [reflexivity|].
    assert (L : heap_le (length pre) h (hupd (hupd h cu (nupd_meta g)) cu (nupd_meta (mset_code_in tc)))).
    { eapply heap_le_trans; apply heap_le_hupd, tame_nupd; [apply G1|reflexivity]. }
    split; [bs B|].
    assert (A' : area (pre ++ [c]) (mkDoc code (length pre) mem None pc mk chain cu spec rep chk hd' po rt ids
       (hupd (hupd h cu (nupd_meta g)) cu (nupd_meta (mset_code_in tc)))) (fun m => m_attrs m <> [])).
    { eapply (area_intro _ _ _ _ m (mset_code_in tc (g m))); [exact V|exact D0|..]; try reflexivity.
      - nd. rewrite !ty_nupd. reflexivity.
      - nd. rewrite hupd_meta_same by (rewrite hupd_length; exact Hcu).
        rewrite hupd_meta_same by exact Hcu. rewrite M. reflexivity.
      - apply (G1 m).
      - apply (G1 m).
      - exact G2. }
    unfold handle_inv. nd. destruct G3 as [->| ->]; auto. }
  assert (Id : forall tc hd' pc mk, m_attrs m <> [] -> hd' = HAttrKey \/ hd' = HAttrValue ->
    step_ok opts pre c (ROk (upd_cur (nupd_meta (mset_code_in tc)) (set_handle hd' (set_prev_chars pc (set_mark_char mk st)))))).
  { clear Nc Go. intros tc hd' pc mk G2 G3. pose proof D as D0. 
    dst st. ndi M. ndi Hcu. ndi P. ndi Hp. ndi Hd. ndi Hh. ndi Hn. subst. nd. split; [reflexivity|].
    assert (L : heap_le (length pre) h (hupd h cu (nupd_meta (mset_code_in tc)))).
    { apply heap_le_hupd, tame_nupd. reflexivity. }
    split; [bs B|].
    assert (A' : area (pre ++ [c]) (mkDoc code (length pre) mem None pc mk chain cu spec rep chk hd' po rt ids
       (hupd h cu (nupd_meta (mset_code_in tc)))) (fun m => m_attrs m <> [])).
    { eapply (area_intro _ _ _ _ m (mset_code_in tc m)); [exact V|exact D0|..]; try reflexivity.
      - nd. rewrite !ty_nupd. reflexivity.
      - nd. rewrite hupd_meta_same by exact Hcu. rewrite M. reflexivity.
      - exact G2. }
    unfold handle_inv. nd. destruct G3 as [->| ->]; auto. }
  assert (Wv : tag_code_in_eqb (m_code_in m) TWaitValue = true -> m_attrs m <> []).
  { intro X. destruct W as [W|[_ W]]; [rewrite W in X; discriminate|exact W]. }
  destruct (N.eqb c DOUBLE_QUOTE_CHAR || N.eqb c SINGLE_QUOTE_CHAR)%bool.
  { destruct (tag_code_in_eqb (m_code_in m) TWaitValue) eqn:X.
    - specialize (Id TValue HAttrValue (d_prev_chars st) c (Wv eq_refl) (or_intror eq_refl)).
      clear - Id. dst st. exact Id.
    - assert (K : step_ok opts pre c (ROk (set_tag_code_in TKey (push_char c (add_tag_attr_key st))))).
      { specialize (Go TKey HAttrKey (d_prev_chars st ++ [c]) (d_mark_char st)
          (fun m => mset_code_in TKey (mset_attrs (m_attrs m ++ [mkAttr (Some []) None None false]) m))).
        clear - Go. dst st. apply Go; [split; reflexivity|apply attrs_app|left; reflexivity]. }
      destruct (d_code_in st); try exact K.
      unfold add_tag_attr_value. rewrite M. cbn [rbind].
      specialize (Go TValue HAttrValue (d_prev_chars st) c
          (fun m => mset_code_in TValue (mset_attrs (m_attrs m ++ [mkAttr None (Some []) (Some c) false]) m))).
      clear - Go. dst st. apply Go; [split; reflexivity|apply attrs_app|right; reflexivity]. }
  destruct (N.eqb_spec c END_SLASH_CHAR) as [->|Ns].
  { clear - B P M V W D Hp Hd Hh Hn. pose proof D as D0. dst st. ndi M. ndi P. ndi Hp. ndi Hd. ndi Hh. ndi Hn. subst. nd.
    split; [reflexivity|]. split; [bs B|].
    unfold handle_inv. nd. split; [|repeat split].
    - eapply (area_intro _ _ _ _ m (m)); [exact V|exact D0|..]; try reflexivity; [exact M|exact W].
    - intro X. ndi X. destruct D0 as [[D1 _]|[[_ [_ D1]] _]]; [ndi D1; congruence|].
      exists []. split; [|constructor]. exact (doctype_text_app _ [] [END_SLASH_CHAR] D1). }
  destruct (N.eqb c EQUAL_CHAR).
  { destruct (tag_code_in_eqb (m_code_in m) TKeyEnd) eqn:X.
    - assert (Wa : m_attrs m <> []).
      { destruct W as [W|[_ W]]; [rewrite W in X; discriminate|exact W]. }
      clear - B P M V Wa D Hp Hd Hh Hn Hcu. pose proof D as D0. dst st. ndi M. ndi P. ndi Hp. ndi Hd. ndi Hh. ndi Hn. ndi Hcu. subst. nd.
      assert (L : heap_le (length pre) h (hupd h cu (nupd_meta (mset_code_in TWaitValue)))).
      { apply heap_le_hupd, tame_nupd. reflexivity. }
      split; [reflexivity|]. split; [bs B|].
      unfold handle_inv. nd. split; [|repeat split].
      eapply (area_intro _ _ _ _ m (mset_code_in TWaitValue m)); [exact V|exact D0|..]; try reflexivity; nd.
      + apply ty_nupd.
      + rewrite hupd_meta_same by exact Hcu. rewrite M. reflexivity.
      + right. split; [right; reflexivity|exact Wa].
    - destruct (tag_code_in_eqb (m_code_in m) TWait) eqn:X2.
      + destruct (allow_attr_key_starts_with_equal_sign (d_parse_options st)) eqn:Al; cbn [negb].
        * specialize (Go TKey HAttrKey (d_prev_chars st ++ [c]) (d_mark_char st)
            (fun m => mset_code_in TKey (mset_attrs (m_attrs m ++ [mkAttr (Some []) None None false]) m))).
          clear - Go. dst st. apply Go; [split; reflexivity|apply attrs_app|left; reflexivity].
        * split; [lia|]. right. right. split; [reflexivity|]. rewrite <- Ho. exact Al.
      + assert (Wa : m_attrs m <> []).
        { destruct W as [W|[_ W]]; [rewrite W in X2; discriminate|exact W]. }
        specialize (Id TValue HAttrValue (d_prev_chars st ++ [c]) WS_CHAR Wa (or_intror eq_refl)).
        clear - Id. dst st. exact Id. }
  destruct (is_ascii_whitespace c) eqn:Ws.
  { clear - B P M V W D Hp Hd Hh Hn Ws. split; [exact P|]. split; [apply base_app, B|].
    assert (A : area (pre ++ [c]) st wait_meta).
    { eapply (area_intro _ _ _ _ m (m)); [exact V|exact D|..]; try reflexivity; [exact M|exact W]. }
    unfold handle_inv. destruct Hh as [->|[-> S]]; [auto|]. repeat split; auto.
    intro X. destruct (S X) as [w [S1 S2]]. exists (w ++ [c]).
    split; [exact (doctype_text_app _ _ [c] S1)|]. apply Forall_app. split; [exact S2|].
    constructor; [|constructor]. left. exact Ws. }
  replace (n_meta (cur (push_char c st))) with (Some m) by (dst st; symmetry; exact M). cbn [rbind].
  destruct (tag_code_in_eqb (m_code_in m) TWaitValue) eqn:X.
  - specialize (Id TValue HAttrValue (d_prev_chars st ++ [c]) WS_CHAR (Wv eq_refl) (or_intror eq_refl)).
    clear - Id. dst st. exact Id.
  - specialize (Go TKey HAttrKey (d_prev_chars st ++ [c]) (d_mark_char st)
      (fun m => mset_code_in TKey (mset_attrs (m_attrs m ++ [mkAttr (Some []) None None false]) m))).
    clear - Go. dst st. apply Go; [split; reflexivity|apply attrs_app|left; reflexivity].
Qed.

(** A self-closed doctype also pops an entry of the chain. *)
Lemma base_pop_doctype : forall opts pre st st', base opts pre st -> self_closed_doctype pre ->
  d_handle st <> HTagName ->
  d_parse_options st' = d_parse_options st -> d_mem_position st' = d_mem_position st ->
  d_root st' = d_root st -> d_current_node st' = d_current_node st ->
  d_heap st' = d_heap st ->
  d_chain_nodes st' = tl (d_chain_nodes st) -> d_in_special st' = d_in_special st ->
  d_check_textnode st' = d_check_textnode st ->
  base opts pre st'.
Proof.
  intros opts pre st st' B Sc Hh E1 E2 E3 E4 E5 E6 E7 E8. dbase B.
  constructor; rewrite ?E1, ?E2, ?E3, ?E4, ?E5, ?E6, ?E8; auto.
  - destruct (d_chain_nodes st) as [|i l]; [exact I|]. destruct Kchain as [A [_ C]].
    eapply chain_ok_weaken; [exact C|lia].
  - intros i Hi H0. left. destruct (Kcmeta i) as [X|[X _]]; auto.
    destruct (d_chain_nodes st); [contradiction|right; exact Hi].
  - unfold special_inv in *. rewrite E7. destruct (d_in_special st) as [[sp n]|]; [|trivial].
    destruct Kspecial as [A [C _]]. auto.
Qed.

Lemma self_closing_ok : forall opts pre c st, ctl opts pre st -> d_handle st = HSelfClosing ->
  step_ok opts pre c (parse_tag_self_closing st c).
Proof.
  intros opts pre c st [B [P H]] E. unfold handle_inv in H. rewrite E in H.
  destruct H as [A [Hp [Hd S]]]. unfold parse_tag_self_closing.
  destruct (N.eqb_spec c TAG_END_CHAR) as [->|Nc].
  - destruct A as [m [M [V [W D]]]]. rewrite M.
    destruct (_ && _)%bool eqn:F.
    + apply andb_true_iff in F as [F _]. apply andb_true_iff in F as [F _].
      split; [lia|]. cbn. rewrite <- (InvCtl.k_opts _ _ _ B).
      destruct (allow_self_closing _); [discriminate|reflexivity].
    + clear F. assert (L : heap_le (length pre) (d_heap st)
          (hupd (d_heap st) (d_current_node st) (nupd_meta (mset_self_closed true)))).
      { apply heap_le_hupd, tame_nupd. reflexivity. }
      pose proof (base_heap _ _ _ _ B L) as B'.
      destruct D as [[D1 [D2 [rest D3]]]|[[D1 [D2 D3]] D4]].
      * split; [exact P|]. split.
        -- apply base_app. eapply base_pop; [exact B'|exact D3| |left; exact D1|..]; try reflexivity.
           ++ dst st. nd. rewrite ty_nupd. exact D2.
           ++ dst st. nd. ndi D3. subst. reflexivity.
        -- apply hi_wait; try reflexivity; try assumption.
           dst st. nd. rewrite ty_nupd. ndi D2. rewrite D2. discriminate.
      * assert (Sc : self_closed_doctype (pre ++ [TAG_END_CHAR])).
        { destruct (S D1) as [w [[a [d [b [Ea Hn]]]] F]]. exists a, d, b, w, [].
          split; [|split; assumption]. rewrite Ea. repeat (rewrite <- app_assoc; cbn [app]). reflexivity. }
        split; [exact P|]. split.
        -- eapply base_pop_doctype; [apply base_app; exact B'|exact Sc|..]; try reflexivity.
           dst st. ndi E. subst. discriminate.
        -- apply hi_wait; try reflexivity; try assumption.
           dst st. nd. rewrite ty_nupd. ndi D2. rewrite D2. discriminate.
  - destruct (N.eqb_spec c END_SLASH_CHAR) as [->|Ns].
    + destruct A as [m [M [V [W D]]]]. split; [exact P|]. split; [apply base_app, B|].
      unfold handle_inv. rewrite E. split; [|repeat split; auto].
      * eapply (area_intro _ _ _ _ m m); [exact V|exact D|..]; try reflexivity; [exact M|exact W].
      * intro X. destruct (S X) as [w [S1 S2]]. exists (w ++ [END_SLASH_CHAR]).
        split; [exact (doctype_text_app _ _ [_] S1)|]. apply Forall_app. split; [exact S2|].
        constructor; [|constructor]. right. reflexivity.
    + apply tag_wait_ok; auto.
Qed.

(** Completing an attribute: the state in the middle of the handler. *)
Lemma set_key_ok : forall opts pre st, base opts pre st -> d_position st = length pre ->
  area pre st (fun m => m_attrs m <> []) -> d_detect st = None -> d_handle st = HAttrKey ->
  exists g, set_tag_attr_key st = ROk (upd_cur (nupd_meta g) (clean_chars st)) /\
    (forall x, m_name (g x) = m_name x /\ m_is_void (g x) = m_is_void x /\
       (m_attrs x <> [] -> m_attrs (g x) <> [])).
Proof.
  intros opts pre st B P [m [M [V [W D]]]] Hd Hh. unfold set_tag_attr_key.
  replace (n_meta (cur (clean_chars st))) with (Some m) by (dst st; symmetry; exact M).
  destruct (m_attrs m) as [|a0 l] eqn:Ea; [contradiction|].
  eexists. split; [reflexivity|]. intro x. split; [reflexivity|]. split; [reflexivity|].
  cbn. intros Hx Y. apply Hx. destruct (m_attrs x) as [|y [|z l']]; [reflexivity|discriminate|discriminate].
Qed.

Lemma upd_last_nil : forall {A} (f : A -> A) l, upd_last f l = [] -> l = [].
Proof. intros A f [|x [|y l]] H; [reflexivity|discriminate|discriminate]. Qed.

Lemma set_value_ok : forall st q m, n_meta (cur st) = Some m -> m_attrs m <> [] ->
  exists ids' g, set_tag_attr_value q st = ROk (set_id_tags ids' (upd_cur (nupd_meta g) (clean_chars st))) /\
    (forall x, m_name (g x) = m_name x /\ m_is_void (g x) = m_is_void x).
Proof.
  intros st q m M W. unfold set_tag_attr_value.
  replace (n_meta (cur (clean_chars st))) with (Some m) by (dst st; symmetry; exact M).
  destruct (last_opt (m_attrs m)) as [a|] eqn:L.
  - destruct (check_if_id _) as [id|].
    + eexists. eexists. split; [reflexivity|split; reflexivity].
    + exists (d_id_tags st). eexists. split; [dst st; reflexivity|split; reflexivity].
  - exfalso. apply W. clear - L. induction (m_attrs m) as [|x [|y l] IH]; [reflexivity|discriminate|].
    specialize (IH L). discriminate.
Qed.

Lemma mid_area : forall opts pre st st' g tc hd' ids' m mk,
  base opts pre st -> d_position st = length pre ->
  n_meta (cur st) = Some m -> d_detect st = None -> d_handle st <> HTagName ->
  m_is_void m = is_void_tag (lower (m_name m)) ->
  (on_tag st \/ (on_doctype pre st /\ same_name (m_name m) (str "doctype") = true)) ->
  (forall x, m_name (g x) = m_name x /\ m_is_void (g x) = m_is_void x) ->
  hd' <> HTagName ->
  st' = upd_cur (nupd_meta (mset_code_in tc)) (set_handle hd' (set_mark_char mk (set_id_tags ids' (upd_cur (nupd_meta g) (clean_chars st))))) ->
  base opts pre st' /\ d_position st' = length pre /\ d_prev_chars st' = [] /\ d_detect st' = None /\
  d_handle st' = hd' /\ n_meta (cur st') = Some (mset_code_in tc (g m)) /\
  (on_tag st' \/ (on_doctype pre st' /\ same_name (m_name (mset_code_in tc (g m))) (str "doctype") = true)).
Proof.
  intros opts pre st st' g tc hd' ids' m mk B P M Hd Hh V D G Hh' ->.
  pose proof (InvCtl.k_cur _ _ _ B) as Hcu. pose proof D as D0.
  dst st. ndi M. ndi P. ndi Hd. ndi Hh. ndi Hcu. subst. nd.
  assert (L : heap_le (length pre) h (hupd (hupd h cu (nupd_meta g)) cu (nupd_meta (mset_code_in tc)))).
  { eapply heap_le_trans; apply heap_le_hupd, tame_nupd; [apply G|reflexivity]. }
  split; [|repeat split].
  - pose proof (base_heap _ _ _ _ B L) as B'. eapply base_to; [exact B'|..]; nd; auto.
    + exact (InvCtl.k_mem _ _ _ B).
    + rewrite !hupd_length. exact Hcu.
    + apply incl_refl.
    + intros i Hi. eapply check_keep; [exact L|]. exact (InvCtl.k_check _ _ _ B i Hi).
  - rewrite hupd_meta_same by (rewrite hupd_length; exact Hcu).
    rewrite hupd_meta_same by exact Hcu. rewrite M. reflexivity.
  - cbn [m_name mset_code_in]. replace (m_name (g m)) with (m_name m) by (symmetry; apply G).
    destruct D0 as [[D1 [D2 D3]]|[[D1 [D2 D3]] D4]]; [left|right].
    + unfold on_tag. nd. rewrite !ty_nupd. auto.
    + split; [|exact D4]. unfold on_doctype. nd. rewrite !ty_nupd. auto.
Qed.

Lemma area_app : forall pre c st P, area pre st P -> area (pre ++ [c]) st P.
Proof.
  intros pre c st P [m [M [V [W D]]]].
  eapply (area_intro _ _ _ _ m m); [exact V|exact D|..]; try reflexivity; [exact M|exact W].
Qed.

Lemma attr_key_ok : forall opts pre c st, ctl opts pre st -> d_handle st = HAttrKey ->
  step_ok opts pre c (parse_tag_attr_key st c).
Proof.
  intros opts pre c st [B [P H]] E. unfold handle_inv in H. rewrite E in H. destruct H as [A Hd].
  destruct (set_key_ok _ _ _ B P A Hd E) as [g [Eg G]].
  destruct A as [m [M [V [W D]]]].
  assert (G2 : forall x, m_name (g x) = m_name x /\ m_is_void (g x) = m_is_void x).
  { intro x. split; apply G. }
  assert (Hn : d_handle st <> HTagName) by (rewrite E; discriminate).
  assert (Ga : m_attrs (g m) <> []) by (apply G; exact W).
  unfold parse_tag_attr_key. rewrite Eg. cbn [rbind].
  destruct (N.eqb c EQUAL_CHAR); [|destruct (N.eqb_spec c TAG_END_CHAR) as [->|Nc];
    [|destruct (N.eqb_spec c END_SLASH_CHAR) as [->|Ns]; [|destruct (is_ascii_whitespace c) eqn:Ws]]].
  - edestruct (mid_area opts pre st (set_tag_code_in TWaitValue (upd_cur (nupd_meta g) (clean_chars st))) g TWaitValue HTagWait (d_id_tags st) m (d_mark_char st))
      as [B' [P' [Q' [D' [H' [M' O']]]]]]; eauto; try discriminate; try (dst st; reflexivity).
    split; [exact P'|]. split; [apply base_app, B'|]. unfold handle_inv. rewrite H'. split; [|auto].
    apply area_app. eexists. split; [exact M'|]. split; [|split; [|exact O']].
    + cbn. rewrite (proj1 (G2 m)), (proj2 (G2 m)). exact V.
    + right. split; [right; reflexivity|exact Ga].
  - edestruct (mid_area opts pre st (set_tag_code_in TKeyEnd (upd_cur (nupd_meta g) (clean_chars st))) g TKeyEnd HAttrKey (d_id_tags st) m (d_mark_char st))
      as [B' [P' [Q' [D' [H' [M' O']]]]]]; eauto; try discriminate; try (dst st; ndi E; subst; reflexivity).
    apply (tag_close_ok _ _ _ (fun _ => True)); auto; try (rewrite H'; discriminate).
    eexists. split; [exact M'|]. split; [|split; [trivial|exact O']].
    cbn. rewrite (proj1 (G2 m)), (proj2 (G2 m)). exact V.
  - edestruct (mid_area opts pre st (set_handle HSelfClosing (set_tag_code_in TWait (upd_cur (nupd_meta g) (clean_chars st)))) g TWait HSelfClosing (d_id_tags st) m (d_mark_char st))
      as [B' [P' [Q' [D' [H' [M' O']]]]]]; eauto; try discriminate; try (dst st; reflexivity).
    split; [exact P'|]. split; [apply base_app, B'|]. unfold handle_inv. rewrite H'. split; [|repeat split; auto].
    + apply area_app. eexists. split; [exact M'|]. split; [|split; [|exact O']].
      * cbn. rewrite (proj1 (G2 m)), (proj2 (G2 m)). exact V.
      * left. reflexivity.
    + intro X. destruct O' as [[O1 _]|[[_ [_ O1]] _]]; [congruence|].
      exists []. split; [|constructor]. exact (doctype_text_app _ [] [END_SLASH_CHAR] O1).
  - edestruct (mid_area opts pre st (set_handle HTagWait (set_tag_code_in TKeyEnd (upd_cur (nupd_meta g) (clean_chars st)))) g TKeyEnd HTagWait (d_id_tags st) m (d_mark_char st))
      as [B' [P' [Q' [D' [H' [M' O']]]]]]; eauto; try discriminate; try (dst st; reflexivity).
    split; [exact P'|]. split; [apply base_app, B'|]. unfold handle_inv. rewrite H'. split; [|auto].
    apply area_app. eexists. split; [exact M'|]. split; [|split; [|exact O']].
    + cbn. rewrite (proj1 (G2 m)), (proj2 (G2 m)). exact V.
    + right. split; [left; reflexivity|exact Ga].
  - clear - B P M V W D Hd E. pose proof D as D0. dst st. ndi E. ndi P. ndi Hd. subst. nd.
    split; [reflexivity|]. split; [bs B|]. unfold handle_inv. nd. split; [|reflexivity].
    eapply (area_intro _ _ _ _ m m); [exact V|exact D0|..]; try reflexivity; [exact M|exact W].
Qed.

Lemma attr_value_ok : forall opts pre c st, ctl opts pre st -> d_handle st = HAttrValue ->
  step_ok opts pre c (parse_tag_attr_value st c).
Proof.
  intros opts pre c st [B [P H]] E. unfold handle_inv in H. rewrite E in H. destruct H as [A Hd].
  destruct A as [m [M [V [W D]]]].
  assert (Hn : d_handle st <> HTagName) by (rewrite E; discriminate).
  unfold parse_tag_attr_value.
  destruct (_ && _)%bool eqn:F.
  - apply andb_true_iff in F as [_ F]. apply N.eqb_eq in F. subst c.
    destruct (set_value_ok st None m M W) as [ids' [g [Ev G]]]. rewrite Ev. cbn [rbind].
    edestruct (mid_area opts pre st (set_tag_code_in TValueEnd (set_id_tags ids' (upd_cur (nupd_meta g) (clean_chars st)))) g TValueEnd HTagWait ids' m (d_mark_char st))
      as [B' [P' [Q' [D' [H' [M' O']]]]]]; eauto; try discriminate; try (dst st; reflexivity).
    apply (tag_close_ok _ _ _ (fun _ => True)); auto; try (rewrite H'; discriminate).
    eexists. split; [exact M'|]. split; [|split; [trivial|exact O']].
    cbn. rewrite (proj1 (G m)), (proj2 (G m)). exact V.
  - assert (Push : step_ok opts pre c (ROk (push_char c st))).
    { clear - B P M V W D Hd E. pose proof D as D0. dst st. ndi E. ndi P. ndi Hd. subst. nd.
      split; [reflexivity|]. split; [bs B|]. unfold handle_inv. nd. split; [|reflexivity].
      eapply (area_intro _ _ _ _ m m); [exact V|exact D0|..]; try reflexivity; [exact M|exact W]. }
    assert (Fin : forall q, step_ok opts pre c (do st <- set_tag_attr_value q (set_mark_char EOF_CHAR st);
        ROk (set_tag_code_in TWait st))).
    { intro q. destruct (set_value_ok (set_mark_char EOF_CHAR st) q m) as [ids' [g [Ev G]]]; [dst st; exact M|exact W|].
      rewrite Ev. cbn [rbind].
      edestruct (mid_area opts pre st (set_tag_code_in TWait (set_id_tags ids' (upd_cur (nupd_meta g) (clean_chars (set_mark_char EOF_CHAR st))))) g TWait HTagWait ids' m EOF_CHAR)
        as [B' [P' [Q' [D' [H' [M' O']]]]]]; eauto; try discriminate; try (dst st; reflexivity).
      split; [exact P'|]. split; [apply base_app, B'|]. unfold handle_inv. rewrite H'. split; [|auto].
      apply area_app. eexists. split; [exact M'|]. split; [|split; [|exact O']].
      - cbn. rewrite (proj1 (G m)), (proj2 (G m)). exact V.
      - left. reflexivity. }
    destruct (N.eqb (d_mark_char st) WS_CHAR); [destruct (is_ascii_whitespace c)|destruct (N.eqb c (d_mark_char st))]; first [exact Push | apply Fin].
Qed.
