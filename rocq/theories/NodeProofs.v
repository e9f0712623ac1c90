(** Proofs for C62: building a single node. *)
From Coq Require Import String.
From Verif Require Import Api SpecText SpecRender SpecParse SpecMisc SpecTree SpecDoc SpecOpts NameProofs TextProofs RenderProofs MinifyProofs Shape Tok DocTree DocSound Print SpecShown Shown ShownRead ShownDoc SpecJoin JoinProofs SpecNode.
Local Open Scope string_scope.
Local Open Scope list_scope.

Lemma end_pre : forall n e, same_name n e = true -> pre_name e = pre_name n.
Proof.
  intros n e Nn. unfold pre_name. destruct (same_name n (str "pre")) eqn:E1.
  - rewrite same_name_sym in Nn. exact (same_name_trans _ _ _ Nn E1).
  - destruct (same_name e (str "pre")) eqn:E2; [|reflexivity]. rewrite <- E1. symmetry. exact (same_name_trans _ _ _ Nn E2).
Qed.
Lemma each_ext : forall A (g h : bool -> item -> list A) ks, Forall (fun x => forall p, g p x = h p x) ks -> forall p, each g p ks = each h p ks.
Proof. intros A g h ks F. induction F as [|x ks E F IH]; intro p; [reflexivity|]. cbn [each]. rewrite E, IH. reflexivity. Qed.

Section Text.
Variable (env : entity_env) (o : render_options).
Definition at_text (p : bool) (s : render_status) : Prop :=
  rs_inner_type s = IText /\ rs_root s = false /\ (minify_spaces o = true -> rs_is_in_pre s = p).

Lemma text_tag : forall t m p s, at_text p s -> t_type t = NTag -> t_meta t = Some m ->
  exists s', at_text (p || pre_name (m_name m)) s' /\ build_node env o t s =
    ROk (s', match t_content t with Some c => shown_raw env o (m_name m) c | None => [] end).
Proof.
  intros t m p [it pr ro] (A & B & C) T M. cbn in A, B, C. subst. unfold build_node. cbn [rs_is_in_pre rs_root rs_inner_type]. rewrite T, M.
  eexists. split; [|rewrite plain_equal; reflexivity].
  split; [reflexivity|]. split; [reflexivity|]. intro Mi. cbn. rewrite (C Mi), pre_equal. reflexivity.
Qed.
Lemma text_end_tag : forall t e p s, at_text p s -> t_type t = NTagEnd -> t_content t = Some e ->
  exists s', at_text (p && negb (pre_name (trim_right e))) s' /\ build_node env o t s = ROk (s', []).
Proof.
  intros t c p [it pr ro] (A & B & C) T M. cbn in A, B, C. subst. unfold build_node. cbn [rs_is_in_pre rs_root rs_inner_type]. rewrite T, M.
  rewrite <- (trim_right_eq c), pre_equal.
  eexists. split; [|reflexivity].
  split; [destruct (pr && _)%bool; reflexivity|]. split; [destruct (pr && _)%bool; reflexivity|]. intro Mi. specialize (C Mi). subst pr.
  destruct p, (pre_name (trim_right c)); reflexivity.
Qed.

Lemma words_build : forall x t, depicts x t -> end_tags_match t -> Forall bare_quotes (tokens x) -> forall p s, at_text p s ->
  exists s', at_text (pre_after p x) s' /\ build_tree env o t s = ROk (s', words_of env o p x).
Proof.
  intro x. induction x as [c b|c|c|n a|n a sc|n a c e|n a ks e IH] using item_ind2; intros t D EM Q p s Ws; cbn [words_of pre_after].
  - inversion D as [c' b' t' T C (P1 & P2 & P3)| | | | | |]. subst. exists s. split; [exact Ws|]. rewrite plain_build' by assumption.
    unfold build_node, shown_text. rewrite T, C. destruct Ws as (W1 & W2 & W3).
    destruct (minify_spaces o); [rewrite (W3 eq_refl)|rewrite Bool.andb_false_r]; destruct b, p, (decode_entity o); cbn;
      rewrite ?app_nil_r, ?collapse_minify, ?decode_squeeze; reflexivity.
  - inversion D as [|c' t' T C (P1 & P2 & P3)| | | | |]. subst. exists s. split; [exact Ws|]. rewrite plain_build' by assumption.
    destruct Ws as (A & B & _). unfold build_node. rewrite T, C, A, B. destruct (remove_comment o); reflexivity.
  - inversion D as [| |c' t' T C (P1 & P2 & P3)| | | |]. subst. exists s. split; [exact Ws|]. rewrite plain_build' by assumption.
    unfold build_node. rewrite T, C. unfold print. cbn [flat_map]. rewrite app_nil_r. reflexivity.
  - inversion D as [| | |n' l' m t' T C En K M Nm At Sc| | |]. subst. exists s. split; [exact Ws|]. rewrite plain_build' by assumption.
    apply Forall_cons_iff in Q. destruct Q as [Q _]. unfold bare_quotes in Q. cbn [token_attrs] in Q.
    unfold build_node. rewrite T, M. unfold attrs_to_string. rewrite (shown_attrs_print _ _ Q). unfold print. cbn [flat_map]. rewrite app_nil_r. reflexivity.
  - inversion D as [| | | |n' l' sc' m t' T C En K M MI| |]. subst. destruct MI as (A & B & S & E). subst.
    destruct (text_tag t m p s Ws T M) as [s' [W' R]].
    exists s'. split; [exact W'|rewrite plain_build', R, C by assumption; reflexivity].
  - inversion D as [| | | | |n' l' c' e' m t' T C En K M MI|]. subst. destruct MI as (A & B & S & E). subst.
    destruct (text_tag t m p s Ws T M) as [s' [W' R]].
    destruct En as (te & X1 & X2 & X3 & X4).
    destruct (EM t (sub_refl t)) as [EM1 _]. destruct (EM1 te X1) as (_ & _ & m' & c' & M' & C' & Nn).
    assert (m' = m) by congruence. subst m'. assert (c' = e) by congruence. subst c'.
    destruct (text_end_tag te e _ s' W' X2 X3) as [s2 [W2 Q2]].
    exists s2. split.
    + rewrite (end_pre _ _ Nn) in W2. destruct W2 as (Z1 & Z2 & Z3). split; [exact Z1|]. split; [exact Z2|]. intro Mi. rewrite (Z3 Mi).
      destruct p, (pre_name (m_name m)); reflexivity.
    + destruct t as [i ty b ee et cc ks mm]. cbn [t_type t_content t_end_tag t_childs t_meta] in *. subst. rewrite build_tree_eq.
      rewrite R. cbn [rbind]. rewrite Q2. cbn [rbind app]. rewrite app_nil_r. reflexivity.
  - inversion D as [| | | | | |n' l' ks' e' m t' T C En M MI Z]. subst. destruct MI as (A & B & S & E). subst.
    cbn [tokens] in Q. apply Forall_cons_iff in Q. destruct Q as [Q Qk].
    apply Forall_app in Qk. destruct Qk as [Qk _].
    destruct (text_tag t m p s Ws T M) as [s' [W' R]].
    destruct En as (te & X1 & X2 & X3 & X4).
    destruct (EM t (sub_refl t)) as [EM1 _]. destruct (EM1 te X1) as (_ & _ & m' & c' & M' & C' & Nn).
    assert (m' = m) by congruence. subst m'. assert (c' = e) by congruence. subst c'.
    set (p' := (p || pre_name (m_name m))%bool) in *.
    assert (Ek : forall k, In k (child_list t) -> end_tags_match k).
    { intros k Ik. unfold child_list in Ik. destruct (t_childs t) as [l|] eqn:Ec; [|destruct Ik].
      intros y Sy. apply EM. eapply sub_child; eauto. }
    assert (G : forall l, Forall2 depicts ks l -> (forall k, In k l -> end_tags_match k) -> forall p s, at_text p s -> exists s', at_text (fold_left pre_after ks p) s' /\
      build_list env o l s = ROk (s', each (words_of env o) p ks)).
    { clear - IH Qk. intros l Z. induction Z as [|k t ks l K Z IHZ]; intros Ek p s Ws.
      - exists s. split; [exact Ws|reflexivity].
      - apply Forall_cons_iff in IH. destruct IH as [I1 I2]. cbn [flat_map] in Qk. apply Forall_app in Qk. destruct Qk as [Q1 Qr].
        destruct (I1 _ K (Ek _ (or_introl eq_refl)) Q1 p s Ws) as [s1 [W1 R1]].
        destruct (IHZ I2 Qr (fun x I => Ek x (or_intror I)) _ s1 W1) as [s2 [W2 Q2]].
        exists s2. split; [exact W2|]. cbn [build_list]. rewrite R1. cbn [rbind]. rewrite Q2. reflexivity. }
    destruct (G _ Z Ek p' s' W') as [s1 [W1 Q1]]. destruct (text_end_tag te e _ s1 W1 X2 X3) as [s2 [W2 Q2]].
    exists s2. split.
    + rewrite (end_pre _ _ Nn) in W2. destruct W2 as (Z1 & Z2 & Z3). split; [exact Z1|]. split; [exact Z2|]. intro Mi. rewrite (Z3 Mi).
      subst p'. destruct (pre_name (m_name m)); [apply Bool.andb_false_r|]. rewrite Bool.orb_false_r, Bool.andb_true_r. reflexivity.
    + destruct t as [i ty b ee et cc kk mm]. cbn [t_type t_content t_end_tag t_childs t_meta child_list] in *. subst. rewrite build_tree_eq.
      rewrite R. cbn [rbind].
      assert (Q3 : match kk with None => ROk (s', []) | Some l => if rs_root s' then do '(_, out) <- build_list env o l (rs_set_root false s'); ROk (s', out)
        else build_list env o l s' end = ROk (s1, each (words_of env o) p' ks)).
      { destruct kk as [l|]; [rewrite (proj1 (proj2 W')); exact Q1|]. exact Q1. }
      rewrite Q3. cbn [rbind]. rewrite Q2. cbn [rbind app]. rewrite app_nil_r. reflexivity.
Qed.
Lemma words_list : forall l f, Forall2 depicts f l -> (forall k, In k l -> end_tags_match k) -> Forall bare_quotes (flat_map tokens f) ->
  forall p s, at_text p s -> exists s', build_list env o l s = ROk (s', each (words_of env o) p f).
Proof.
  intros l f Z. induction Z as [|k t ks l K Z IHZ]; intros Ek Q p s Ws.
  - exists s. reflexivity.
  - cbn [flat_map] in Q. apply Forall_app in Q. destruct Q as [Q1 Qr].
    destruct (words_build _ _ K (Ek _ (or_introl eq_refl)) Q1 p s Ws) as [s1 [W1 R1]].
    destruct (IHZ (fun x I => Ek x (or_intror I)) Qr _ s1 W1) as [s2 Q2].
    exists s2. cbn [build_list]. rewrite R1. cbn [rbind]. rewrite Q2. reflexivity.
Qed.
End Text.

(** ** The node asked for *)
Section Root.
Variable (env : entity_env) (o : render_options).
Hypothesis (Ac : always_close_void o = false).

Lemma shown_in_build : forall x t, depicts x t -> end_tags_match t -> Forall bare_quotes (tokens x) -> forall p s, at_pre o p s ->
  exists s', at_pre o (pre_after p x) s' /\ build_tree env o t s = ROk (s', print (shown_in env o p x)).
Proof.
  intro x. induction x as [c b|c|c|n a|n a sc|n a c e|n a ks e IH] using item_ind2; intros t D EM Q p s Ws;
    cbn [shown_in shown pre_after]; unfold print; cbn [flat_map print_token]; rewrite ?app_nil_r.
  - inversion D as [c' b' t' T C (P1 & P2 & P3)| | | | | |]. subst. exists s. split; [exact Ws|]. rewrite plain_build' by assumption.
    unfold build_node, shown_text. rewrite T, C. destruct Ws as [[W1 W2] W3].
    destruct (minify_spaces o); [rewrite (W3 eq_refl)|rewrite Bool.andb_false_r]; destruct b, p, (decode_entity o); cbn;
      rewrite ?app_nil_r, ?collapse_minify, ?decode_squeeze; reflexivity.
  - inversion D as [|c' t' T C (P1 & P2 & P3)| | | | |]. subst. exists s. split; [exact Ws|]. rewrite plain_build' by assumption.
    destruct Ws as [[A B] _]. unfold build_node. rewrite T, C, A, B. destruct (remove_comment o); cbn; rewrite ?app_nil_r; reflexivity.
  - inversion D as [| |c' t' T C (P1 & P2 & P3)| | | |]. subst. exists s. split; [exact Ws|]. rewrite plain_build' by assumption.
    unfold build_node. rewrite T, C. reflexivity.
  - inversion D as [| | |n' l' m t' T C En K M Nm At Sc| | |]. subst. exists s. split; [exact Ws|]. rewrite plain_build' by assumption.
    apply Forall_cons_iff in Q. destruct Q as [Q _]. unfold bare_quotes in Q. cbn [token_attrs] in Q.
    unfold build_node. rewrite T, M. unfold attrs_to_string. rewrite (shown_attrs_print _ _ Q). reflexivity.
  - inversion D as [| | | |n' l' sc' m t' T C En K M MI| |]. subst. destruct MI as (A & B & S & E). subst.
    apply Forall_cons_iff in Q. destruct Q as [Q _]. unfold bare_quotes in Q. cbn [token_attrs] in Q.
    destruct (shown_tag env o Ac t m p s Ws T M Q) as [s' [W' R]].
    exists s'. split; [exact W'|rewrite plain_build', R, C by assumption; rewrite app_nil_r; reflexivity].
  - inversion D as [| | | | |n' l' c' e' m t' T C En K M MI|]. subst. destruct MI as (A & B & S & E). subst.
    apply Forall_cons_iff in Q. destruct Q as [Q _]. unfold bare_quotes in Q. cbn [token_attrs] in Q.
    destruct (shown_tag env o Ac t m p s Ws T M Q) as [s' [W' R]].
    destruct En as (te & X1 & X2 & X3 & X4).
    destruct (EM t (sub_refl t)) as [EM1 _]. destruct (EM1 te X1) as (_ & _ & m' & c' & M' & C' & Nn).
    assert (m' = m) by congruence. subst m'. assert (c' = e) by congruence. subst c'.
    destruct (shown_end_tag env o te e _ s' W' X2 X3) as [s2 [W2 Q2]].
    exists s2. split.
    + rewrite (end_pre _ _ Nn) in W2. destruct W2 as [Z1 Z3]. split; [exact Z1|]. intro Mi. rewrite (Z3 Mi).
      destruct p, (pre_name (m_name m)); reflexivity.
    + destruct t as [i ty b ee et cc ks mm]. cbn [t_type t_content t_end_tag t_childs t_meta] in *. subst. rewrite build_tree_eq.
      rewrite R. cbn [rbind]. rewrite Q2. cbn [rbind app]. rewrite S. cbn [app]. rewrite <- !app_assoc. reflexivity.
  - inversion D as [| | | | | |n' l' ks' e' m t' T C En M MI Z]. subst. destruct MI as (A & B & S & E). subst.
    cbn [tokens] in Q. apply Forall_cons_iff in Q. destruct Q as [Q Qk]. unfold bare_quotes in Q. cbn [token_attrs] in Q.
    apply Forall_app in Qk. destruct Qk as [Qk _].
    destruct (shown_tag env o Ac t m p s Ws T M Q) as [s' [W' R]].
    destruct En as (te & X1 & X2 & X3 & X4).
    destruct (EM t (sub_refl t)) as [EM1 _]. destruct (EM1 te X1) as (_ & _ & m' & c' & M' & C' & Nn).
    assert (m' = m) by congruence. subst m'. assert (c' = e) by congruence. subst c'.
    set (p' := (p || pre_name (m_name m))%bool) in *.
    assert (Ek : forall k, In k (child_list t) -> end_tags_match k).
    { intros k Ik. unfold child_list in Ik. destruct (t_childs t) as [l|] eqn:Ec; [|destruct Ik].
      intros y Sy. apply EM. eapply sub_child; eauto. }
    assert (G : forall l, Forall2 depicts ks l -> (forall k, In k l -> end_tags_match k) -> forall p s, at_pre o p s -> exists s', at_pre o (fold_left pre_after ks p) s' /\
      build_list env o l s = ROk (s', print (each (shown_in env o) p ks))).
    { clear - IH Qk. intros l Z. induction Z as [|k t ks l K Z IHZ]; intros Ek p s Ws.
      - exists s. split; [exact Ws|reflexivity].
      - apply Forall_cons_iff in IH. destruct IH as [I1 I2]. cbn [flat_map] in Qk. apply Forall_app in Qk. destruct Qk as [Q1 Qr].
        destruct (I1 _ K (Ek _ (or_introl eq_refl)) Q1 p s Ws) as [s1 [W1 R1]].
        destruct (IHZ I2 Qr (fun x I => Ek x (or_intror I)) _ s1 W1) as [s2 [W2 Q2]].
        exists s2. split; [exact W2|]. cbn [build_list]. rewrite R1. cbn [rbind]. rewrite Q2. cbn [rbind each]. unfold print. rewrite flat_map_app. reflexivity. }
    destruct (G _ Z Ek p' s' W') as [s1 [W1 Q1]]. destruct (shown_end_tag env o te e _ s1 W1 X2 X3) as [s2 [W2 Q2]].
    exists s2. split.
    + rewrite (end_pre _ _ Nn) in W2. destruct W2 as [Z1 Z3]. split; [exact Z1|]. intro Mi. rewrite (Z3 Mi).
      subst p'. destruct (pre_name (m_name m)); [apply Bool.andb_false_r|]. rewrite Bool.orb_false_r, Bool.andb_true_r. reflexivity.
    + destruct t as [i ty b ee et cc kk mm]. cbn [t_type t_content t_end_tag t_childs t_meta child_list] in *. subst. rewrite build_tree_eq.
      rewrite R. cbn [rbind].
      assert (Q3 : match kk with None => ROk (s', []) | Some l => if rs_root s' then do '(_, out) <- build_list env o l (rs_set_root false s'); ROk (s', out)
        else build_list env o l s' end = ROk (s1, print (each (shown_in env o) p' ks))).
      { destruct kk as [l|]; [rewrite (proj2 (proj1 W')); exact Q1|]. exact Q1. }
      rewrite Q3. cbn [rbind]. rewrite Q2. cbn [rbind]. rewrite S. cbn [app]. rewrite flat_map_app. cbn [flat_map print_token].
      unfold print. rewrite <- !app_assoc, app_nil_r. reflexivity.
Qed.
Lemma shown_list_at : forall l f, Forall2 depicts f l -> (forall k, In k l -> end_tags_match k) -> Forall bare_quotes (flat_map tokens f) ->
  forall p s, at_pre o p s -> exists s', build_list env o l s = ROk (s', print (each (shown_in env o) p f)).
Proof.
  intros l f Z. induction Z as [|k t ks l K Z IHZ]; intros Ek Q p s Ws.
  - exists s. reflexivity.
  - cbn [flat_map] in Q. apply Forall_app in Q. destruct Q as [Q1 Qr].
    destruct (shown_in_build _ _ K (Ek _ (or_introl eq_refl)) Q1 p s Ws) as [s1 [W1 R1]].
    destruct (IHZ (fun x I => Ek x (or_intror I)) Qr _ s1 W1) as [s2 Q2].
    exists s2. cbn [build_list]. rewrite R1. cbn [rbind]. rewrite Q2. cbn [rbind each]. unfold print. rewrite flat_map_app. reflexivity.
Qed.

(** The children of the node asked for. *)
Lemma kids_match : forall t, end_tags_match t -> forall k, In k (child_list t) -> end_tags_match k.
Proof.
  intros t EM k Ik. unfold child_list in Ik. destruct (t_childs t) as [l|] eqn:Ec; [|destruct Ik].
  intros y Sy. apply EM. eapply sub_child; eauto.
Qed.
Lemma root_end : forall it p e c, t_type e = NTagEnd -> t_content e = Some c ->
  exists s, build_node env o e (mkRS it p true) =
    ROk (s, match it with INone => str "</" ++ shown_end o c ++ str ">" | _ => [] end).
Proof.
  intros it p e c T C. unfold build_node. cbn [rs_is_in_pre rs_root rs_inner_type]. rewrite T, C. eexists.
  rewrite <- (trim_right_eq c). destruct it; reflexivity.
Qed.
Lemma root_tag : forall it t m, t_type t = NTag -> t_meta t = Some m -> Forall (fun a => a_need_quote a = false) (m_attrs m) ->
  build_node env o t (mkRS it false true) =
    ROk (mkRS it (pre_name (m_name m)) true,
         match it with INone => str "<" ++ shown_name o (m_name m) ++ print_attrs (shown_attrs o (m_attrs m)) ++ (if m_self_closed m then str " /" else []) ++ str ">" | _ => [] end ++
         match t_content t with Some c => shown_raw env o (m_name m) c | None => [] end).
Proof.
  intros it t m T M F. unfold build_node. cbn [rs_is_in_pre rs_root rs_inner_type]. rewrite T, M.
  unfold attrs_to_string. rewrite (shown_attrs_print o _ F), Ac, plain_equal, Bool.andb_false_r, Bool.orb_false_r, pre_equal, <- (ascii_lower_lower (m_name m)).
  unfold rs_set_pre. cbn [rs_inner_type rs_root orb]. destruct it; destruct (m_self_closed m); reflexivity.
Qed.

Definition kids_of (it : inner_type) (p : bool) (ks : list item) : list char :=
  match it with IText => each (words_of env o) p ks | _ => print (each (shown_in env o) p ks) end.
Lemma shown_inner_flag : forall v x p, shown_in env (with_inner_html v o) p x = shown_in env o p x.
Proof.
  intros v x. induction x as [c b|c|c|n a|n a sc|n a c e|n a ks e IH] using item_ind2; intro p; try reflexivity.
  cbn [shown_in]. f_equal. f_equal. apply each_ext, IH.
Qed.
Lemma each_inner_flag : forall v p ks, each (shown_in env (with_inner_html v o)) p ks = each (shown_in env o) p ks.
Proof. intros v p ks. apply each_ext. apply Forall_forall. intros x _ q. apply shown_inner_flag. Qed.
End Root.

Lemma root_kids : forall env o it l f p, always_close_void o = false -> (it = IHtml -> inner_html o = true) ->
  Forall2 depicts f l -> (forall k, In k l -> end_tags_match k) -> Forall bare_quotes (flat_map tokens f) ->
  exists s, build_list env o l (mkRS it p false) = ROk (s, kids_of env o it p f).
Proof.
  intros env o it l f p Ac I2 Z Ek Q. destruct it; cbn [kids_of].
  - destruct (shown_list_at env o Ac l f Z Ek Q p (mkRS INone p false)) as (s & R); [split; [split; reflexivity|reflexivity]|]. exists s. exact R.
  - pose proof (I2 eq_refl) as Ih.
    destruct (shown_list_at env (with_inner_html false o) Ac l f Z Ek Q p (mkRS INone p false)) as (s & R); [split; [split; reflexivity|reflexivity]|].
    rewrite each_inner_flag in R.
    pose proof (sim_list env o l (mkRS INone p false) (mkRS IHtml p false)) as X. specialize (X ltac:(repeat split; reflexivity)).
    rewrite R in X. destruct o as [a b c d e g h i j]. cbn in Ih. subst. cbn in X |- *.
    destruct (build_list env _ l (mkRS IHtml p false)) as [[s' out]| |]; cbn in X; try contradiction. destruct X as [_ <-]. exists s'. reflexivity.
  - destruct (words_list env o l f Z Ek Q p (mkRS IText p false)) as (s & R); [split; [reflexivity|split; reflexivity]|]. exists s. exact R.
Qed.

(** Building the node asked for. *)
Lemma node_tree : forall env o it x t, always_close_void o = false -> (it = IHtml -> inner_html o = true) ->
  depicts x t -> end_tags_match t -> Forall bare_quotes (tokens x) ->
  exists s, build_tree env o t (mkRS it false true) =
    ROk (s, match it, x with
            | INone, _ => outer_of env o x
            | _, XElem n _ ks _ => kids_of env o it (pre_name n) ks
            | _, XRaw n _ c _ => shown_raw env o n c
            | _, XLeaf _ _ _ => []
            | IText, XComment c => if remove_comment o then [] else c
            | _, XText c b => print (shown_text env o false c b)
            | _, XComment c => if remove_comment o then [] else print [KComment c]
            | _, XCData c => print [KCData c]
            | _, XDoctype n l => print [KDoctype n (shown_attrs o l)]
            end).
Proof.
  intros env o it x t Ac Ih D EM Q. destruct x as [c b|c|c|n a|n a sc|n a c e|n a ks e].
  - inversion D as [c' b' t' T C (P1 & P2 & P3)| | | | | |]. subst. rewrite plain_build' by assumption.
    unfold build_node. rewrite T, C. cbn [rs_is_in_pre negb andb].
    assert (X : (if b then NSpacesBetweenTag else NText) = NText \/ (if b then NSpacesBetweenTag else NText) = NSpacesBetweenTag) by (destruct b; auto).
    unfold outer_of. cbn [shown_in shown]. unfold shown_text.
    destruct b; cbn [negb andb]; destruct (minify_spaces o), (decode_entity o); cbn [negb andb]; eexists; destruct it; cbn;
      rewrite ?app_nil_r, ?collapse_minify, ?decode_squeeze; reflexivity.
  - inversion D as [|c' t' T C (P1 & P2 & P3)| | | | |]. subst. rewrite plain_build' by assumption.
    unfold build_node. rewrite T, C. unfold outer_of. cbn [shown_in shown rs_root rs_inner_type]. destruct (remove_comment o); eexists; destruct it; cbn; rewrite ?app_nil_r; reflexivity.
  - inversion D as [| |c' t' T C (P1 & P2 & P3)| | | |]. subst. rewrite plain_build' by assumption.
    unfold build_node. rewrite T, C. unfold outer_of. cbn [shown_in shown]. eexists; destruct it; cbn; rewrite ?app_nil_r; reflexivity.
  - inversion D as [| | |n' l' m t' T C En K M Nm At Sc| | |]. subst. rewrite plain_build' by assumption.
    apply Forall_cons_iff in Q. destruct Q as [Q _]. unfold bare_quotes in Q. cbn [token_attrs] in Q.
    unfold build_node. rewrite T, M. unfold attrs_to_string. rewrite (shown_attrs_print _ _ Q). unfold outer_of. cbn [shown_in shown].
    eexists; destruct it; unfold print; cbn [flat_map print_token]; rewrite ?app_nil_r; reflexivity.
  - inversion D as [| | | |n' l' sc' m t' T C En K M MI| |]. subst. destruct MI as (A & B & S & E). subst.
    apply Forall_cons_iff in Q. destruct Q as [Q _]. unfold bare_quotes in Q. cbn [token_attrs] in Q.
    rewrite plain_build' by assumption. rewrite (root_tag env o Ac it t m T M Q), C. unfold outer_of. cbn [shown_in shown].
    eexists; destruct it; unfold print; cbn [flat_map print_token]; rewrite ?app_nil_r; reflexivity.
  - inversion D as [| | | | |n' l' c' e' m t' T C En K M MI|]. subst. destruct MI as (A & B & S & E). subst.
    apply Forall_cons_iff in Q. destruct Q as [Q _]. unfold bare_quotes in Q. cbn [token_attrs] in Q.
    destruct En as (te & X1 & X2 & X3 & X4).
    pose proof (root_tag env o Ac it t m T M Q) as R. rewrite C in R.
    destruct (root_end env o it (pre_name (m_name m)) te e X2 X3) as [s2 R2].
    destruct t as [i ty b ee et cc ks mm]. cbn [t_type t_content t_end_tag t_childs t_meta] in *. subst. rewrite build_tree_eq.
    rewrite R. cbn [rbind]. rewrite R2. cbn [rbind app]. rewrite S. unfold outer_of. cbn [shown_in shown].
    eexists; destruct it; unfold print; cbn [flat_map print_token app]; rewrite <- ?app_assoc, ?app_nil_r; reflexivity.
  - inversion D as [| | | | | |n' l' ks' e' m t' T C En M MI Z]. subst. destruct MI as (A & B & S & E). subst.
    cbn [tokens] in Q. apply Forall_cons_iff in Q. destruct Q as [Q Qk]. unfold bare_quotes in Q. cbn [token_attrs] in Q.
    apply Forall_app in Qk. destruct Qk as [Qk _].
    destruct En as (te & X1 & X2 & X3 & X4).
    pose proof (root_tag env o Ac it t m T M Q) as R. rewrite C in R.
    destruct (root_end env o it (pre_name (m_name m)) te e X2 X3) as [s2 R2].
    destruct (root_kids env o it (child_list t) ks (pre_name (m_name m)) Ac Ih Z (kids_match t EM) Qk) as [s1 R1].
    destruct t as [i ty b ee et cc kk mm]. cbn [t_type t_content t_end_tag t_childs t_meta child_list] in *. subst. rewrite build_tree_eq.
    rewrite R. cbn [rbind]. unfold rs_set_root. cbn [rs_root rs_inner_type rs_is_in_pre].
    assert (Q3 : match kk with None => ROk (mkRS it (pre_name (m_name m)) true, []) | Some l =>
        do '(_, out) <- build_list env o l (mkRS it (pre_name (m_name m)) false); ROk (mkRS it (pre_name (m_name m)) true, out) end
        = ROk (mkRS it (pre_name (m_name m)) true, kids_of env o it (pre_name (m_name m)) ks)).
    { cbn [child_list t_childs] in R1. unfold child_list in R1. cbn [t_childs] in R1. destruct kk as [l|]; [rewrite R1; reflexivity|]. cbn in R1. injection R1 as _ R1. rewrite <- R1. reflexivity. }
    rewrite Q3. cbn [rbind]. rewrite R2. cbn [rbind]. rewrite S. unfold outer_of. cbn [shown_in shown orb].
    eexists; destruct it; unfold print; cbn [flat_map print_token app kids_of]; rewrite ?flat_map_app; cbn [flat_map print_token];
      rewrite <- ?app_assoc, ?app_nil_r; reflexivity.
Qed.
Lemma item_type : forall x t, depicts x t -> t_type t = match x with
  | XText _ b => if b then NSpacesBetweenTag else NText | XComment _ => NComment | XCData _ => NXMLCDATA | XDoctype _ _ => NHTMLDOCTYPE | _ => NTag end.
Proof. intros x t D. inversion D; subst; assumption. Qed.
Lemma node_built0 : forall env o x t text, always_close_void o = false -> depicts x t -> end_tags_match t -> Forall bare_quotes (tokens x) ->
  build env o t text = built_as (built env o x text).
Proof.
  intros env o x t text Ac D EM Q. unfold build, built. pose proof (item_type x t D) as T.
  destruct text.
  - destruct (inner_html o) eqn:Ih; [reflexivity|]. cbn [andb]. cbv zeta.
    destruct (node_tree env o IText x t Ac ltac:(discriminate) D EM Q) as [s R]. rewrite R, T. cbn [rbind].
    destruct x as [c []|c|c|n a|n a sc|n a c e|n a ks e]; reflexivity.
  - destruct (inner_html o) eqn:Ih; cbn [andb]; cbv zeta.
    + destruct (node_tree env o IHtml x t Ac ltac:(intros _; exact Ih) D EM Q) as [s R]. rewrite R, T. cbn [rbind].
      destruct x as [c []|c|c|n a|n a sc|n a c e|n a ks e]; reflexivity.
    + destruct (node_tree env o INone x t Ac ltac:(discriminate) D EM Q) as [s R]. rewrite R. reflexivity.
Qed.
