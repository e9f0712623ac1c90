(** The trees of parsed documents satisfy the conditions of the renderer theorems. *)
From Coq Require Import String.
From Verif Require Import Api SpecText SpecRender SpecParse SpecTree SpecMisc NameProofs MiscProofs HeapLemmas Big Struct TextInv StructEnd
  RenderProofs MinifyProofs Static Final DocFacts DocEnd.
Local Open Scope string_scope.
Local Open Scope list_scope.

Lemma map_opt_in : forall {A B} (f : A -> option B) l l' y, map_opt f l = Some l' -> In y l' -> exists x, In x l /\ f x = Some y.
Proof.
  intros A B f. induction l as [|x l IH]; intros l' y H I; cbn in H.
  - injection H as <-. destruct I.
  - destruct (f x) as [z|] eqn:E; [|discriminate]. destruct (map_opt f l) as [r|] eqn:R; [|discriminate]. injection H as <-.
    destruct I as [->|I]; [exists x; split; [left; reflexivity|exact E]|].
    destruct (IH r y eq_refl I) as [x' [I' E']]. exists x'. split; [right; exact I'|exact E'].
Qed.
Lemma tree_inv : forall f h i t, tree_of f h i = Some t ->
  t_type t = n_type (hget h i) /\ t_content t = n_content (hget h i) /\ t_meta t = n_meta (hget h i) /\
  (n_childs (hget h i) = None <-> t_childs t = None) /\ (n_end_tag (hget h i) = None <-> t_end_tag t = None) /\
  (forall e, t_end_tag t = Some e -> exists f' j, tree_of f' h j = Some e /\ n_end_tag (hget h i) = Some j) /\
  (forall ks k, t_childs t = Some ks -> In k ks -> exists f' j, tree_of f' h j = Some k /\ In j (kids h i)).
Proof.
  intros [|f] h i t H; [discriminate|]. cbn [tree_of] in H.
  destruct (n_end_tag (hget h i)) as [e0|] eqn:E; [destruct (tree_of f h e0) as [te|] eqn:Te; [|discriminate]|];
  (destruct (n_childs (hget h i)) as [l|] eqn:C; [destruct (map_opt (tree_of f h) l) as [l'|] eqn:Cl; [|discriminate]|]);
  injection H as <-; cbn [t_type t_content t_meta t_childs t_end_tag]; do 3 (split; [reflexivity|]);
  (split; [split; congruence|]); (split; [split; congruence|]); split; intros; try congruence.
  - injection H as <-. eauto.
  - injection H as <-. destruct (map_opt_in _ _ _ _ Cl H0) as [x [I X]]. exists f, x. split; [exact X|]. unfold kids. rewrite C. exact I.
  - injection H as <-. eauto.
  - injection H as <-. destruct (map_opt_in _ _ _ _ Cl H0) as [x [I X]]. exists f, x. split; [exact X|]. unfold kids. rewrite C. exact I.
Qed.
Lemma doc_step : forall h r i j, in_doc h r i -> In j (kids h i) \/ n_end_tag (hget h i) = Some j -> in_doc h r j.
Proof.
  intros h r i j [w P] [I|I].
  - apply In_nth_error in I. destruct I as [n I]. exists (w ++ [LChild n]). eapply path_step; [exact P|].
    unfold kids in I. destruct (n_childs (hget h i)) as [l|] eqn:C; [|destruct n; discriminate]. eapply linked_child; eauto.
  - exists (w ++ [LEnd]). eapply path_step; [exact P|]. apply linked_end. exact I.
Qed.
Lemma sub_node : forall f h r i t s, tree_of f h i = Some t -> in_doc h r i -> sub s t ->
  exists f' j, tree_of f' h j = Some s /\ in_doc h r j.
Proof.
  intros f h r i t s H D S. revert f i H D.
  induction S as [t|s t ks k Hk Hin S IH|s t e He S IH]; intros f i H D; [eauto| |].
  - destruct (tree_inv _ _ _ _ H) as [_ [_ [_ [_ [_ [_ K]]]]]]. destruct (K ks k Hk Hin) as [f' [j [Tj Ij]]].
    eapply IH; [exact Tj|]. eapply doc_step; eauto.
  - destruct (tree_inv _ _ _ _ H) as [_ [_ [_ [_ [_ [K _]]]]]]. destruct (K e He) as [f' [j [Tj Ij]]].
    eapply IH; [exact Tj|]. eapply doc_step; eauto.
Qed.

Lemma tree_in_sub : forall d t s, tree_in d t -> sub s t -> tree_in d s.
Proof. intros d t s [f [i [D H]]] S. destruct (sub_node _ _ _ _ _ _ H D S) as [f' [j [A B]]]. exists f', j. auto. Qed.
Lemma doc_tree_in : forall opts s d t, parse opts s = Parsed d -> doc_tree d = Some t -> tree_in d t /\ t_type t = NAbstractRoot.
Proof.
  intros opts s d t H T. destruct (parsed_hs _ _ _ H) as [HS R]. split.
  - exists (length (d_heap d)), (d_root d). split; [exists []; constructor|exact T].
  - destruct (tree_inv _ _ _ _ T) as [-> _]. rewrite R. apply (hs_root _ _ HS).
Qed.

Lemma end_linked : forall opts s d, parse opts s = Parsed d -> forall i, in_doc (d_heap d) (d_root d) i -> n_type (hget (d_heap d) i) = NTagEnd ->
  exists p, n_end_tag (hget (d_heap d) p) = Some i.
Proof.
  intros opts s d Hp i [w P] T. destruct (parsed_hs _ _ _ Hp) as [HS R]. inversion P as [|w' p x k P' L]; subst.
  - rewrite R in T. destruct (hs_root _ _ HS) as [_ [X _]]. unfold ty in X. congruence.
  - inversion L; subst; [|eauto]. assert (I : In i (kids (d_heap d) p)) by (unfold kids; rewrite H; eapply nth_error_In; eauto).
    apply (hs_kids _ _ HS) in I. unfold ty in I. tauto.
Qed.
Theorem tree_complete : forall opts s d, parse opts s = Parsed d -> forall t, ~ (auto_fix_unclosed_tag opts = true /\ ends_in_open_name s) -> tree_in d t -> complete t.
Proof.
  intros opts s d Hp t N I x Sx. destruct (tree_in_sub _ _ _ I Sx) as [f [i [D T]]]. destruct (tree_inv _ _ _ _ T) as [A [B [C _]]].
  unfold node_complete. rewrite A, B, C. destruct (n_type (hget (d_heap d) i)) eqn:Ty; try exact Logic.I.
  - eapply tags_have_meta; eauto.
  - destruct (text_content _ _ _ i Hp) as [_ X]. destruct (X Ty) as [c [Y _]]. congruence.
  - destruct (text_content _ _ _ i Hp) as [X _]. destruct (X Ty) as [c [Y _]]. congruence.
  - eapply tags_have_meta; eauto.
  - destruct (end_linked _ _ _ Hp i D Ty) as [p Ep]. destruct (end_tag_names _ _ _ _ _ Hp Ep) as [_ [_ [m [nm [_ [X _]]]]]]. congruence.
Qed.
Theorem tree_spaces : forall opts s d, parse opts s = Parsed d -> forall t, tree_in d t -> spaces_are_ws t.
Proof.
  intros opts s d Hp t I x c Sx Ty Cx. destruct (tree_in_sub _ _ _ I Sx) as [f [i [D T]]]. destruct (tree_inv _ _ _ _ T) as [A [B _]].
  rewrite A in Ty. rewrite B in Cx. destruct (text_content _ _ _ i Hp) as [X _]. destruct (X Ty) as [c' [Y [_ Z]]]. congruence.
Qed.
Theorem tree_end_tags : forall opts s d, parse opts s = Parsed d -> forall t, tree_in d t -> end_tags_match t.
Proof.
  intros opts s d Hp t I x Sx. destruct (tree_in_sub _ _ _ I Sx) as [f [i [D T]]]. destruct (tree_inv _ _ _ _ T) as [A [B [C [_ [_ [K1 K2]]]]]].
  split.
  - intros e He. destruct (K1 e He) as [f' [j [Tj Ej]]]. destruct (tree_inv _ _ _ _ Tj) as [Ae [Be _]].
    destruct (end_tag_names _ _ _ _ _ Hp Ej) as [X1 [X2 [m [nm [X3 [X4 [X5 _]]]]]]].
    rewrite A, C, Ae, Be. split; [exact X1|]. split; [exact X2|]. exists m, nm. auto.
  - intros ks k Hk Ik. destruct (K2 ks k Hk Ik) as [f' [j [Tj Ij]]]. destruct (tree_inv _ _ _ _ Tj) as [Ae _]. rewrite Ae.
    destruct (parsed_hs _ _ _ Hp) as [HS _]. apply (hs_kids _ _ HS i j Ij).
Qed.
Theorem tree_ends_placed : forall opts s d, parse opts s = Parsed d -> forall t, tree_in d t -> end_tags_placed t /\ end_tags_not_comments t.
Proof.
  intros opts s d Hp t I. pose proof (tree_end_tags _ _ _ Hp t I) as M. split.
  - intros x Sx. destruct (M x Sx) as [A B]. split; [|exact B]. intros e He. apply (A e He).
  - intros x e Sx He X. destruct (M x Sx) as [A _]. destruct (A e He) as [_ [Y _]]. congruence.
Qed.
Theorem tree_comments : forall opts s d, parse opts s = Parsed d -> forall t, tree_in d t -> comments_are_leaves t.
Proof.
  intros opts s d Hp t I x Sx Ty. destruct (tree_in_sub _ _ _ I Sx) as [f [i [D T]]]. destruct (tree_inv _ _ _ _ T) as [A [B [C [K1 [K2 _]]]]].
  destruct (parsed_hs _ _ _ Hp) as [HS _]. rewrite A in Ty. split.
  - apply K1. destruct (n_childs (hget (d_heap d) i)) as [l|] eqn:E; [|reflexivity]. destruct l as [|k l].
    + exfalso. apply (hs_some _ _ HS _ _ E). reflexivity.
    + assert (Ik : In k (kids (d_heap d) i)) by (unfold kids; rewrite E; left; reflexivity).
      apply (hs_kids _ _ HS) in Ik. destruct Ik as [_ [_ X]]. unfold container, ty in X. rewrite Ty in X. intuition discriminate.
  - apply K2. destruct (n_end_tag (hget (d_heap d) i)) as [e|] eqn:E; [|reflexivity].
    destruct (end_tag_names _ _ _ _ _ Hp E) as [X _]. congruence.
Qed.
Theorem tree_no_auto : forall opts s d, parse opts s = Parsed d -> auto_fix_unclosed_tag opts = false -> forall t, tree_in d t ->
  forall x m, sub x t -> t_type x = NTag -> t_meta x = Some m -> m_auto_fix m = false.
Proof.
  intros opts s d Hp Au t I x m Sx Ty Mx. destruct (tree_in_sub _ _ _ I Sx) as [f [i [D T]]]. destruct (tree_inv _ _ _ _ T) as [A [B [C _]]].
  rewrite C in Mx. destruct (attr_maps _ _ _ _ _ Hp Mx) as [_ [_ X]]. destruct (m_auto_fix m); [|reflexivity]. specialize (X eq_refl). congruence.
Qed.
Theorem tree_pre_ends : forall opts s d, parse opts s = Parsed d -> open_doctypes d -> forall t, tree_in d t -> no_selfclosed_pre t -> pre_has_end t.
Proof.
  intros opts s d Hp Nd t I Np x Sx Px X. destruct (tree_in_sub _ _ _ I Sx) as [f [i [D T]]]. destruct (tree_inv _ _ _ _ T) as [A [B [C [_ [K _]]]]].
  assert (Ex : exists m, t_meta x = Some m /\ t_type x = NTag /\ same_name (m_name m) (str "pre") = true).
  { unfold is_pre in Px. destruct (t_type x); try discriminate. destruct (t_meta x) as [m|]; [|discriminate]. eauto. }
  destruct Ex as [m [Mx [Ty Nm]]]. pose proof (Np x m Sx Px Mx) as Sc. rewrite A in Ty. rewrite C in Mx.
  destruct (all_closed _ _ _ i m Hp Nd Ty Mx) as [Y|[Y|[e Y]]].
  - destruct (parsed_final _ _ _ Hp) as [st [E [P [F _]]]]. pose proof (is_tag_ty _ _ _ _ F E Ty) as Ts.
    destruct (final_meta _ _ _ _ _ _ P F Mx) as [m0 [L [Em Hm]]].
    destruct (tag_name_open _ _ _ _ _ P Ts Em) as [_ V].
    assert (Q : m_is_void m = m_is_void m0 /\ m_name m = m_name m0) by (destruct Hm as [[-> _]|[-> _]]; auto).
    destruct Q as [Q1 Q2]. rewrite Q1, V, is_void_spec in Y. rewrite Q2 in Nm. unfold one_of in Y.
    apply existsb_exists in Y. destruct Y as [v [Iv Sv]].
    assert (Z : same_name (str "pre") v = true).
    { rewrite same_name_sym in Nm. eapply same_name_trans; eauto. }
    clear - Iv Z. cbn in Iv. repeat (destruct Iv as [<-|Iv]; [vm_compute in Z; discriminate|]). destruct Iv.
  - congruence.
  - apply K in X. congruence.
Qed.

(** ** Rendering parsed documents *)
Theorem parsed_renders : forall opts s d env o, parse opts s = Parsed d ->
  ~ (auto_fix_unclosed_tag opts = true /\ ends_in_open_name s) -> inner_html o = false ->
  (exists out, render env o d = ROk out) /\
  forall t, tree_in d t -> exists out, build env o t false = ROk out.
Proof.
  intros opts s d env o Hp N I.
  assert (A : forall t, tree_in d t -> exists out, build env o t false = ROk out).
  { intros t T. apply build_ok; [|exact I]. eapply tree_complete; eauto. }
  split; [|exact A]. unfold render, render_gen. destruct (doc_tree d) as [t|] eqn:T.
  - apply A. eapply doc_tree_in; eauto.
  - destruct (graph_tree _ _ _ Hp) as [_ [_ [_ [_ [_ X]]]]]. contradiction.
Qed.
Theorem parsed_remove_comment : forall opts s d t env o text, parse opts s = Parsed d -> tree_in d t -> t_type t <> NComment ->
  build env (with_remove_comment true o) t text = build env (with_remove_comment false o) (no_comments t) text.
Proof.
  intros opts s d t env o text Hp T N. apply remove_comment_render.
  - eapply tree_comments; eauto.
  - eapply tree_ends_placed; eauto.
  - unfold is_comment. destruct (t_type t); congruence.
Qed.
Theorem parsed_minify_visible : forall opts s d t env o, parse opts s = Parsed d -> tree_in d t ->
  ~ (auto_fix_unclosed_tag opts = true /\ ends_in_open_name s) -> decode_entity o = false -> inner_html o = false ->
  exists out1 out2,
    build env (with_minify_spaces true o) t false = ROk out1 /\
    build env (with_minify_spaces false o) t false = ROk out2 /\ visible out1 = visible out2.
Proof.
  intros opts s d t env o Hp T N D I. apply minify_visible; [exact D|exact I| |].
  - eapply tree_complete; eauto.
  - eapply tree_spaces; eauto.
Qed.
Theorem parsed_minify_pre : forall opts s d t env o text, parse opts s = Parsed d -> tree_in d t ->
  open_doctypes d -> no_selfclosed_pre t -> pre_not_nested t -> decode_entity o = false -> t_type t <> NTagEnd ->
  build env (with_minify_spaces true o) t text = build env (with_minify_spaces false o) (minified false t) text.
Proof.
  intros opts s d t env o text Hp T Nd Np Nn D Ty. apply minify_render; auto.
  - eapply tree_end_tags; eauto.
  - eapply tree_pre_ends; eauto.
Qed.
Theorem parsed_render_text : forall opts s d t env o, parse opts s = Parsed d -> tree_in d t ->
  ~ (auto_fix_unclosed_tag opts = true /\ ends_in_open_name s) -> plain_options o -> t_type t = NTag -> no_markup t ->
  build env o t true = ROk (text_of t).
Proof.
  intros opts s d t env o Hp T N P Ty M. apply render_text_tag; auto.
  - eapply tree_complete; eauto.
  - eapply tree_ends_placed; eauto.
Qed.
Theorem parsed_close_void : forall opts s d t env o text, parse opts s = Parsed d -> tree_in d t ->
  auto_fix_unclosed_tag opts = false ->
  build env (with_always_close_void true o) t text = build env (with_always_close_void false o) t text.
Proof.
  intros opts s d t env o text Hp T A. rewrite close_auto_fixed_render, close_auto_fixed_id; [reflexivity|].
  eapply tree_no_auto; eauto.
Qed.
