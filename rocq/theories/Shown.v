(** Documents rendered with any options: the rendering is the printed tokens, and can be read again. *)
From Coq Require Import String.
From Verif Require Import Api SpecText SpecRender SpecParse SpecMisc SpecTree SpecDoc SpecOpts NameProofs TextProofs RenderProofs Shape Tok DocTree DocSound Print SpecShown.
Local Open Scope string_scope.
Local Open Scope list_scope.

(** ** Rendering prints the shown tokens *)
Definition token_attrs (k : token) : list attr :=
  match k with KDoctype _ l | KLeaf _ l _ | KRaw _ l _ _ | KOpen _ l => l | _ => [] end.
Definition bare_quotes (k : token) : Prop := Forall (fun a => a_need_quote a = false) (token_attrs k).

Lemma shown_attrs_print : forall o l, Forall (fun a => a_need_quote a = false) l ->
  flat_map (fun a => WS_CHAR :: attr_build a (remove_attr_quote o)) l = print_attrs (shown_attrs o l).
Proof.
  intros o l F. unfold shown_attrs. destruct (remove_attr_quote o); [|apply attrs_print].
  induction F as [|[[k|] [v|] [q|] nq] l Q F IH]; [reflexivity|..]; cbn in Q |- *; rewrite IH, ?Q; reflexivity.
Qed.
Lemma plain_build' : forall env o t s, t_end_tag t = None -> t_childs t = None -> build_tree env o t s = build_node env o t s.
Proof.
  intros env o [i ty b e et c ks m] s A B. cbn in A, B. subst. rewrite build_tree_eq.
  destruct (build_node _ _ _ _) as [[s1 o1]| |]; cbn; rewrite ?app_nil_r; reflexivity.
Qed.

Lemma decode_parts : forall env s b e, minify_decode env s b e = squeeze env b (parts s e).
Proof.
  intros env s. induction s as [|c s IH]; intros b e.
  - destruct e as [e|]; [|reflexivity]. cbn. rewrite app_nil_r. reflexivity.
  - cbn [minify_decode parts]. change AMP_CHAR with 38%N. change SEMI_CHAR with 59%N. destruct e as [e|].
    + destruct (N.eqb c 59); [|apply IH]. cbn [squeeze]. rewrite IH. destruct (ent_decode env e); reflexivity.
    + destruct (N.eqb c 38); [apply IH|]. cbn [squeeze]. destruct (is_ascii_whitespace c); [destruct b|]; rewrite IH; reflexivity.
Qed.
Lemma decode_squeeze : forall env s, minify_decode env s false None = squeeze env false (parts s None).
Proof. intros. apply decode_parts. Qed.
Lemma parts_in : forall s e, ~ In 59%N (match e with Some e => e | None => [] end) ->
  in_parts (match e with Some e => str "&" ++ e | None => [] end ++ s) (parts s e).
Proof.
  induction s as [|c s IH]; intros e H.
  - rewrite app_nil_r. destruct e as [e|]; cbn [parts]; [apply in_cut; exact H|constructor].
  - cbn [parts]. destruct e as [e|].
    + destruct (N.eqb_spec c 59) as [->|Hc].
      * rewrite <- app_assoc. apply (in_ref e s); [exact H|]. exact (IH None (fun x => x)).
      * specialize (IH (Some (e ++ [c]))). cbn [app] in IH. rewrite <- !app_assoc in *. apply IH.
        intro I. apply in_app_or in I. destruct I as [I|[I|[]]]; [exact (H I)|congruence].
    + destruct (N.eqb_spec c 38) as [->|Hc].
      * exact (IH (Some []) (fun x => x)).
      * cbn [app]. constructor; [exact Hc|]. exact (IH None (fun x => x)).
Qed.
Lemma in_parts_eq : forall s l, in_parts s l -> l = parts s None.
Proof.
  assert (A : forall e s e0, ~ In 59%N e -> parts (e ++ str ";" ++ s) (Some e0) = Ref (e0 ++ e) :: parts s None).
  { induction e as [|c e IH]; intros s e0 H; [rewrite app_nil_r; reflexivity|]. rewrite <- app_comm_cons. cbn [parts].
    destruct (N.eqb_spec c 59) as [->|Hc]; [exfalso; apply H; left; reflexivity|].
    rewrite IH; [rewrite <- app_assoc; reflexivity|]. intro I. apply H. right. exact I. }
  assert (B : forall e e0, ~ In 59%N e -> parts e (Some e0) = [Cut (e0 ++ e)]).
  { induction e as [|c e IH]; intros e0 H; cbn [parts]; [rewrite app_nil_r; reflexivity|].
    destruct (N.eqb_spec c 59) as [->|Hc]; [exfalso; apply H; left; reflexivity|].
    rewrite IH; [rewrite <- app_assoc; reflexivity|]. intro I. apply H. right. exact I. }
  intros s l H. induction H as [|c s l Hc H IH|e s l He H IH|e He].
  - reflexivity.
  - cbn [parts]. destruct (N.eqb_spec c 38); [contradiction|]. rewrite <- IH. reflexivity.
  - change (str "&" ++ e ++ str ";" ++ s) with (38%N :: e ++ str ";" ++ s). cbn [parts N.eqb Pos.eqb]. rewrite (A _ _ _ He), <- IH. reflexivity.
  - change (str "&" ++ e) with (38%N :: e). cbn [parts N.eqb Pos.eqb]. rewrite (B _ _ He). reflexivity.
Qed.
Lemma minify_decode_parts : forall env s, exists l, in_parts s l /\ (forall l', in_parts s l' -> l' = l) /\
  minify_decode env s false None = squeeze env false l.
Proof.
  intros env s. exists (parts s None). split; [exact (parts_in s None (fun x => x))|]. split; [exact (in_parts_eq s)|apply decode_squeeze].
Qed.

Section Rendering.
Variable (env : entity_env) (o : render_options).
Hypothesis (Ac : always_close_void o = false).
(** The state of the renderer; the flag matters only for minification. *)
Definition at_pre (p : bool) (s : render_status) : Prop := whole s /\ (minify_spaces o = true -> rs_is_in_pre s = p).

Lemma pre_equal : forall n, is_equal_chars n PRE_TAG_NAME (Some Lower) = pre_name n.
Proof. intro n. unfold pre_name. rewrite is_equal_chars_lower by reflexivity. reflexivity. Qed.
Lemma plain_equal : forall n, is_plain_text_tag n (Some Lower) = plain_text_name n.
Proof.
  intro n. unfold is_plain_text_tag, plain_text_name. rewrite !is_equal_chars_lower by reflexivity. apply Bool.orb_comm.
Qed.
Lemma shown_tag : forall t m p s, at_pre p s -> t_type t = NTag -> t_meta t = Some m -> Forall (fun a => a_need_quote a = false) (m_attrs m) ->
  exists s', at_pre (p || pre_name (m_name m)) s' /\ build_node env o t s =
    ROk (s', str "<" ++ shown_name o (m_name m) ++ print_attrs (shown_attrs o (m_attrs m)) ++ (if m_self_closed m then str " /" else []) ++ str ">" ++
             match t_content t with Some c => shown_raw env o (m_name m) c | None => [] end).
Proof.
  intros t m p [it pr ro] [[A B] C] T M F. cbn in A, B, C. subst. unfold build_node. cbn [rs_is_in_pre rs_root rs_inner_type]. rewrite T, M.
  eexists. split; [|unfold attrs_to_string; rewrite (shown_attrs_print o _ F), Ac, plain_equal, Bool.andb_false_r, Bool.orb_false_r, <- !app_assoc;
    unfold shown_name, shown_raw; rewrite (ascii_lower_lower (m_name m)); destruct (m_self_closed m); reflexivity].
  split; [split; reflexivity|]. intro Mi. cbn. rewrite (C Mi), pre_equal. reflexivity.
Qed.
Lemma shown_end_tag : forall t e p s, at_pre p s -> t_type t = NTagEnd -> t_content t = Some e ->
  exists s', at_pre (p && negb (pre_name (trim_right e))) s' /\ build_node env o t s = ROk (s', str "</" ++ shown_end o e ++ str ">").
Proof.
  intros t c p [it pr ro] [[A B] C] T M. cbn in A, B, C. subst. unfold build_node. cbn [rs_is_in_pre rs_root rs_inner_type]. rewrite T, M.
  rewrite <- (trim_right_eq c), pre_equal.
  eexists. split; [|unfold shown_end, shown_name; destruct (lowercase_tagname o); [|reflexivity]; setoid_rewrite ascii_lower_lower; reflexivity].
  split; [destruct (pr && _)%bool; split; reflexivity|]. intro Mi. specialize (C Mi). subst pr.
  destruct p, (pre_name (trim_right c)); reflexivity.
Qed.
Lemma plain_pre_all : forall p n l ks e, plain_pre p (XElem n l ks e) -> (pre_name n = true -> p = false) /\ Forall (plain_pre (p || pre_name n)) ks.
Proof.
  intros p n l ks e [A B]. split; [exact A|]. clear A. induction ks as [|k r IH]; constructor; [exact (proj1 B)|exact (IH (proj2 B))].
Qed.

Lemma shown_build : forall x t, depicts x t -> end_tags_match t -> Forall bare_quotes (tokens x) -> forall p s, at_pre p s ->
  (minify_spaces o = true -> plain_pre p x) ->
  exists s', at_pre p s' /\ build_tree env o t s = ROk (s', print (shown env o p x)).
Proof.
  intro x. induction x as [c b|c|c|n a|n a sc|n a c e|n a ks e IH] using item_ind2; intros t D EM Q p s Ws Pp;
    cbn [shown]; unfold print; cbn [flat_map print_token]; rewrite ?app_nil_r.
  - inversion D as [c' b' t' T C (P1 & P2 & P3)| | | | | |]. subst. exists s. split; [exact Ws|]. rewrite plain_build' by assumption.
    unfold build_node, shown_text. rewrite T, C. destruct Ws as [[W1 W2] W3].
    destruct (minify_spaces o); [rewrite (W3 eq_refl)|rewrite Bool.andb_false_r]; destruct b, p, (decode_entity o); cbn;
      rewrite ?app_nil_r, ?collapse_minify, ?decode_squeeze; reflexivity.
  - inversion D as [|c' t' T C (P1 & P2 & P3)| | | | |]. subst. exists s. split; [exact Ws|]. rewrite plain_build' by assumption.
    destruct Ws as [[A B] _]. unfold build_node. rewrite T, C, A, B. destruct (remove_comment o); cbn; rewrite ?app_nil_r; reflexivity.
  - inversion D as [| |c' t' T C (P1 & P2 & P3)| | | |]. subst. exists s. split; [exact Ws|]. rewrite plain_build' by assumption.
    unfold build_node. rewrite T, C. reflexivity.
  - inversion D as [| | |n' l' m t' T C En K M Nm At Sc| | |]. subst. exists s. split; [exact Ws|]. rewrite plain_build' by assumption.
    apply Forall_cons_iff in Q. destruct Q as [Q _]. unfold bare_quotes in Q. cbn [token_attrs] in Q.
    unfold build_node. rewrite T, M. unfold attrs_to_string. rewrite (shown_attrs_print _ _ Q). reflexivity.
  - inversion D as [| | | |n' l' sc' m t' T C En K M MI| |]. subst. destruct MI as (A & B & S & E). subst.
    apply Forall_cons_iff in Q. destruct Q as [Q _]. unfold bare_quotes in Q. cbn [token_attrs] in Q.
    destruct (shown_tag t m p s Ws T M Q) as [s' [W' R]].
    exists s'. split; [|rewrite plain_build', R, C by assumption; rewrite app_nil_r; reflexivity].
    destruct W' as [W1 W2]. split; [exact W1|]. intro Mi. specialize (Pp Mi). cbn [plain_pre] in Pp. rewrite (W2 Mi), Pp. apply Bool.orb_false_r.
  - inversion D as [| | | | |n' l' c' e' m t' T C En K M MI|]. subst. destruct MI as (A & B & S & E). subst.
    apply Forall_cons_iff in Q. destruct Q as [Q _]. unfold bare_quotes in Q. cbn [token_attrs] in Q.
    destruct (shown_tag t m p s Ws T M Q) as [s' [W' R]].
    destruct En as (te & X1 & X2 & X3 & X4).
    destruct (EM t (sub_refl t)) as [EM1 _]. destruct (EM1 te X1) as (_ & _ & m' & c' & M' & C' & Nn).
    assert (m' = m) by congruence. subst m'. assert (c' = e) by congruence. subst c'.
    assert (P0 : minify_spaces o = true -> pre_name (m_name m) = false) by (intro Mi; exact (Pp Mi)).
    assert (W0 : at_pre p s').
    { destruct W' as [W1 W2]. split; [exact W1|]. intro Mi. rewrite (W2 Mi), (P0 Mi). apply Bool.orb_false_r. }
    destruct (shown_end_tag te e p s' W0 X2 X3) as [s2 [W2 Q2]].
    exists s2. split.
    + destruct W2 as [Z1 Z2]. split; [exact Z1|]. intro Mi. rewrite (Z2 Mi). specialize (P0 Mi).
      replace (pre_name (trim_right e)) with false; [apply Bool.andb_true_r|].
      symmetry. destruct (pre_name (trim_right e)) eqn:Ep; [|reflexivity]. unfold pre_name in *. rewrite <- P0. symmetry.
      exact (same_name_trans _ _ _ Nn Ep).
    + destruct t as [i ty b ee et cc ks mm]. cbn [t_type t_content t_end_tag t_childs t_meta] in *. subst. rewrite build_tree_eq.
      rewrite R. cbn [rbind]. rewrite Q2. cbn [rbind app]. rewrite S. cbn [app]. rewrite <- !app_assoc. reflexivity.
  - inversion D as [| | | | | |n' l' ks' e' m t' T C En M MI Z]. subst. destruct MI as (A & B & S & E). subst.
    cbn [tokens] in Q. apply Forall_cons_iff in Q. destruct Q as [Q Qk]. unfold bare_quotes in Q. cbn [token_attrs] in Q.
    apply Forall_app in Qk. destruct Qk as [Qk _].
    destruct (shown_tag t m p s Ws T M Q) as [s' [W' R]].
    destruct En as (te & X1 & X2 & X3 & X4).
    destruct (EM t (sub_refl t)) as [EM1 _]. destruct (EM1 te X1) as (_ & _ & m' & c' & M' & C' & Nn).
    assert (m' = m) by congruence. subst m'. assert (c' = e) by congruence. subst c'.
    set (p' := (p || pre_name (m_name m))%bool) in *.
    assert (Pk : minify_spaces o = true -> Forall (plain_pre p') ks) by (intro Mi; exact (proj2 (plain_pre_all _ _ _ _ _ (Pp Mi)))).
    assert (Ek : forall k, In k (child_list t) -> end_tags_match k).
    { intros k Ik. unfold child_list in Ik. destruct (t_childs t) as [l|] eqn:Ec; [|destruct Ik].
      intros y Sy. apply EM. eapply sub_child; eauto. }
    assert (G : forall l, Forall2 depicts ks l -> (forall k, In k l -> end_tags_match k) -> forall s, at_pre p' s -> exists s', at_pre p' s' /\
      build_list env o l s = ROk (s', print (flat_map (shown env o p') ks))).
    { clear - IH Qk Pk. intros l Z. induction Z as [|k t ks l K Z IHZ]; intros Ek s Ws.
      - exists s. split; [exact Ws|reflexivity].
      - apply Forall_cons_iff in IH. destruct IH as [I1 I2]. cbn [flat_map] in Qk. apply Forall_app in Qk. destruct Qk as [Q1 Qr].
        destruct (I1 _ K (Ek _ (or_introl eq_refl)) Q1 p' s Ws) as [s1 [W1 R1]]; [intro Mi; exact (Forall_inv (Pk Mi))|].
        destruct (IHZ I2 Qr (fun Mi => Forall_inv_tail (Pk Mi)) (fun x I => Ek x (or_intror I)) s1 W1) as [s2 [W2 Q2]].
        exists s2. split; [exact W2|]. cbn [build_list]. rewrite R1. cbn [rbind]. rewrite Q2. cbn [rbind flat_map].
        unfold print. rewrite flat_map_app. reflexivity. }
    destruct (G _ Z Ek s' W') as [s1 [W1 Q1]]. destruct (shown_end_tag te e p' s1 W1 X2 X3) as [s2 [W2 Q2]].
    exists s2. split.
    + destruct W2 as [Z1 Z2]. split; [exact Z1|]. intro Mi. rewrite (Z2 Mi). destruct (plain_pre_all _ _ _ _ _ (Pp Mi)) as [P0 _].
      assert (En : pre_name (trim_right e) = pre_name (m_name m)).
      { unfold pre_name. destruct (same_name (m_name m) (str "pre")) eqn:E1.
        - rewrite same_name_sym in Nn. exact (same_name_trans _ _ _ Nn E1).
        - destruct (same_name (trim_right e) (str "pre")) eqn:E2; [|reflexivity]. rewrite <- E1. symmetry. exact (same_name_trans _ _ _ Nn E2). }
      rewrite En. subst p'. destruct (pre_name (m_name m)); [rewrite (P0 eq_refl); reflexivity|]. destruct p; reflexivity.
    + destruct t as [i ty b ee et cc kk mm]. cbn [t_type t_content t_end_tag t_childs t_meta child_list] in *. subst. rewrite build_tree_eq.
      rewrite R. cbn [rbind].
      assert (Q3 : match kk with None => ROk (s', []) | Some l => if rs_root s' then do '(_, out) <- build_list env o l (rs_set_root false s'); ROk (s', out)
        else build_list env o l s' end = ROk (s1, print (flat_map (shown env o p') ks))).
      { destruct kk as [l|]; [rewrite (proj2 (proj1 W')); exact Q1|]. exact Q1. }
      rewrite Q3. cbn [rbind]. rewrite Q2. cbn [rbind]. rewrite S. cbn [app]. rewrite flat_map_app. cbn [flat_map print_token].
      unfold print. rewrite <- !app_assoc, app_nil_r. reflexivity.
Qed.
Lemma shown_list : forall l f, Forall2 depicts f l -> (forall k, In k l -> end_tags_match k) -> Forall bare_quotes (flat_map tokens f) ->
  (minify_spaces o = true -> Forall (plain_pre false) f) -> forall s, at_pre false s ->
  exists s', at_pre false s' /\ build_list env o l s = ROk (s', print (flat_map (shown env o false) f)).
Proof.
  intros l f Z. induction Z as [|k t ks l K Z IHZ]; intros Ek Q Pk s Ws.
  - exists s. split; [exact Ws|reflexivity].
  - cbn [flat_map] in Q. apply Forall_app in Q. destruct Q as [Q1 Qr].
    destruct (shown_build _ _ K (Ek _ (or_introl eq_refl)) Q1 false s Ws) as [s1 [W1 R1]]; [intro Mi; exact (Forall_inv (Pk Mi))|].
    destruct (IHZ (fun x I => Ek x (or_intror I)) Qr (fun Mi => Forall_inv_tail (Pk Mi)) s1 W1) as [s2 [W2 Q2]].
    exists s2. split; [exact W2|]. cbn [build_list]. rewrite R1. cbn [rbind]. rewrite Q2. cbn [rbind flat_map].
    unfold print. rewrite flat_map_app. reflexivity.
Qed.
Lemma shown_render : forall d f t, doc_content d f -> doc_tree d = Some t -> end_tags_match t -> Forall bare_quotes (flat_map tokens f) ->
  inner_html o = false -> (minify_spaces o = true -> Forall (plain_pre false) f) ->
  build env o t false = ROk (print (flat_map (shown env o false) f)).
Proof.
  intros d f t (t' & E & T & C & En & Me & Z) E' EM Q Ih Pp. assert (t' = t) by congruence. subst t'. clear E E'. unfold build. rewrite Ih. cbn [andb].
  assert (Ek : forall k, In k (child_list t) -> end_tags_match k).
  { intros k Ik. unfold child_list in Ik. destruct (t_childs t) as [l|] eqn:Ec; [|destruct Ik].
    intros y Sy. apply EM. eapply sub_child; eauto. }
  destruct t as [i ty b e et c ks m]. cbn [t_type t_content t_end_tag t_meta] in *. subst.
  destruct (shown_list _ _ Z Ek Q Pp (mkRS INone false false)) as [s' [_ R]]; [split; [split; reflexivity|reflexivity]|].
  cbv zeta. rewrite build_tree_eq. cbn [build_node t_type rbind rs_root rs_set_root rs_inner_type rs_is_in_pre].
  destruct ks as [l|]; cbn [rs_set_root rs_inner_type rs_is_in_pre rs_root].
  - cbn [child_list t_childs] in R. unfold rs_set_root. cbn [rs_inner_type rs_is_in_pre]. rewrite R. cbn [rbind app]. rewrite app_nil_r. reflexivity.
  - cbn in R. injection R as _ R. rewrite <- R. reflexivity.
Qed.
End Rendering.
