(** Proofs about the renderer, by induction on trees. *)
From Coq Require Import String.
From Verif Require Import Api SpecText SpecRender TextProofs NameProofs.
Local Open Scope string_scope.
Local Open Scope list_scope.

(** * Induction on trees *)

Definition optP {A} (P : A -> Prop) (x : option A) : Prop :=
  match x with Some a => P a | None => True end.

Section TreeInd.
  Variable P : tree -> Prop.
  Hypothesis H : forall i ty b e et c ks m,
    optP P et -> optP (Forall P) ks -> P (TNode i ty b e et c ks m).
  Fixpoint tree_ind' (t : tree) : P t :=
    match t with
    | TNode i ty b e et c ks m =>
        H i ty b e et c ks m
          (match et return optP P et with Some x => tree_ind' x | None => I end)
          (match ks return optP (Forall P) ks with
           | Some l =>
               (fix go (l : list tree) : Forall P l :=
                  match l with
                  | [] => Forall_nil _
                  | k :: r => Forall_cons _ (tree_ind' k) (go r)
                  end) l
           | None => I
           end)
    end.
End TreeInd.

Lemma build_tree_eq : forall env o i ty b e et c ks m s,
  let t := TNode i ty b e et c ks m in
  build_tree env o t s =
  do '(s1, o1) <- build_node env o t s;
  do '(s2, o2) <-
    (match ks with
     | None => ROk (s1, [])
     | Some l =>
         if rs_root s1 then
           do '(_, out) <- build_list env o l (rs_set_root false s1); ROk (s1, out)
         else build_list env o l s1
     end);
  do '(s3, o3) <- (match et with None => ROk (s2, []) | Some x => build_node env o x s2 end);
  ROk (s3, o1 ++ o2 ++ o3).
Proof.
  intros. subst t. cbn [build_tree].
  set (bl := fix build_list (l : list tree) (s : render_status) {struct l} := _).
  assert (E : forall l s, bl l s = build_list env o l s).
  { induction l as [|k l IH]; intro s'; [reflexivity|]. cbn.
    destruct (build_tree env o k s') as [[s1 o1]| |]; try reflexivity. cbn. rewrite IH. reflexivity. }
  destruct (build_node env o _ s) as [[s1 o1]| |]; try reflexivity. cbn [rbind].
  destruct ks as [l|]; [|reflexivity]. rewrite !E. reflexivity.
Qed.

(** * Options that act on single nodes *)

Section Map.
  Variables (env1 env2 : entity_env) (o1 o2 : render_options).
  Variable f : node_type -> option (list char) -> option tag_meta -> option (list char) * option tag_meta.
  Hypothesis Hnode : forall t s, build_node env1 o1 t s = build_node env2 o2 (tmap f t) s.
  Hypothesis Hinner : inner_html o1 = inner_html o2.

  Lemma build_tree_map : forall t s, build_tree env1 o1 t s = build_tree env2 o2 (tmap f t) s.
  Proof.
    induction t as [i ty b e et c ks m Het Hks] using tree_ind'. intro s.
    cbn [tmap]. rewrite !build_tree_eq. cbn zeta.
    rewrite Hnode. cbn [tmap].
    destruct (build_node env2 o2 _ s) as [[s1 out1]|k x|p]; try reflexivity.
    cbn [rbind].
    assert (Hl : forall l s, Forall (fun t => forall s, build_tree env1 o1 t s = build_tree env2 o2 (tmap f t) s) l ->
              build_list env1 o1 l s = build_list env2 o2 (map (tmap f) l) s).
    { clear. induction l as [|k l IH]; intros s Hf; [reflexivity|].
      inversion Hf as [|? ? Hk Hl]; subst. cbn. rewrite Hk.
      destruct (build_tree env2 o2 (tmap f k) s) as [[s' o']| |]; try reflexivity. cbn.
      rewrite IH by exact Hl. reflexivity. }
    destruct ks as [l|]; cbn in Hks.
    - rewrite !Hl by exact Hks.
      destruct (if rs_root s1 then _ else _) as [[s2 out2]|k x|p]; try reflexivity. cbn [rbind].
      destruct et as [x|]; [|reflexivity]. rewrite Hnode. reflexivity.
    - cbn [rbind]. destruct et as [x|]; [|reflexivity]. rewrite Hnode. reflexivity.
  Qed.

  Lemma tmap_type : forall t, t_type (tmap f t) = t_type t.
  Proof. intros []. reflexivity. Qed.
  Lemma filter_is_tag_map : forall l, filter is_tag (map (tmap f) l) = map (tmap f) (filter is_tag l).
  Proof.
    induction l as [|k l IH]; [reflexivity|]. cbn. unfold is_tag at 1. rewrite tmap_type.
    fold (is_tag k). destruct (is_tag k); cbn; rewrite IH; reflexivity.
  Qed.

  Lemma build_map : forall t text, build env1 o1 t text = build env2 o2 (tmap f t) text.
  Proof.
    intros t text. unfold build. rewrite Hinner, tmap_type.
    destruct (text && inner_html o2)%bool; [reflexivity|]. cbn zeta.
    rewrite <- build_tree_map.
    destruct (if text then IText else if inner_html o2 then IHtml else INone); [reflexivity| |];
      destruct (t_type t); try reflexivity;
      destruct t as [i ty b e et c ks m]; cbn [tmap t_childs];
      (destruct ks as [l|]; [|reflexivity]);
      rewrite filter_is_tag_map;
      (destruct (filter is_tag l) as [|k [|k2 r]]; cbn [map]; [reflexivity| |reflexivity]);
      rewrite build_tree_map; reflexivity.
  Qed.
End Map.

Lemma flat_map_ext2 : forall {A B C} (f : A -> list C) (g : B -> list C) (h : A -> B) l,
  (forall x, f x = g (h x)) -> flat_map f l = flat_map g (map h l).
Proof. induction l as [|x l IH]; intro H; [reflexivity|]. cbn. rewrite H, IH by exact H. reflexivity. Qed.

Lemma lower_names_render : forall env o t text,
  build env (with_lowercase_tagname true o) t text =
  build env (with_lowercase_tagname false o) (lower_names t) text.
Proof.
  intros env o t text. apply build_map; [|reflexivity].
  clear t text. intros [i ty b e et c ks m] s. unfold build_node. cbn [tmap t_type t_content t_meta].
  destruct ty; try reflexivity.
  - destruct m as [m|]; [|reflexivity]. cbn [fst snd omap m_name m_attrs m_self_closed m_auto_fix].
    cbn [with_lowercase_tagname lowercase_tagname remove_attr_quote always_close_void encode_content].
    unfold attrs_to_string. cbn [m_attrs].
    rewrite !is_equal_chars_lower by reflexivity.
    unfold is_plain_text_tag. rewrite !is_equal_chars_lower by reflexivity.
    change ascii_lower with lower; rewrite !same_name_lower_l. reflexivity.
  - destruct c as [c|]; [|reflexivity]. cbn [fst snd omap].
    cbn [with_lowercase_tagname lowercase_tagname remove_endtag_space].
    rewrite !is_equal_chars_lower by reflexivity.
    rewrite <- !trim_right_eq. change ascii_lower with lower; rewrite <- lower_trim, same_name_lower_l.
    destruct (remove_endtag_space o); reflexivity.
Qed.

Lemma unquote_render : forall env o t text,
  build env (with_remove_attr_quote true o) t text =
  build env (with_remove_attr_quote false o) (unquote_attrs t) text.
Proof.
  intros env o t text. apply build_map; [|reflexivity].
  clear t text. intros [i ty b e et c ks m] s. unfold build_node. cbn [tmap t_type t_content t_meta fst snd].
  assert (A : forall l, flat_map (fun a => WS_CHAR :: attr_build a true) l =
                        flat_map (fun a => WS_CHAR :: attr_build a false) (map unquoted l)).
  { intro l. apply flat_map_ext2. intros [k v q nq]. unfold attr_build, unquoted. cbn.
    destruct nq; cbn; [reflexivity|]. destruct v; [|reflexivity]. destruct q; reflexivity. }
  destruct ty; try reflexivity.
  - destruct m as [m|]; [|reflexivity]. cbn [omap].
    cbn [with_remove_attr_quote remove_attr_quote m_name]. unfold attrs_to_string. cbn [m_attrs].
    rewrite A. reflexivity.
  - destruct m as [m|]; [|reflexivity]. cbn [omap].
    cbn [with_remove_attr_quote remove_attr_quote lowercase_tagname always_close_void encode_content
         m_name m_self_closed m_auto_fix]. unfold attrs_to_string. cbn [m_attrs].
    rewrite A. reflexivity.
Qed.

Lemma close_auto_fixed_render : forall env o t text,
  build env (with_always_close_void true o) t text =
  build env (with_always_close_void false o) (close_auto_fixed t) text.
Proof.
  intros env o t text. apply build_map; [|reflexivity].
  clear t text. intros [i ty b e et c ks m] s. unfold build_node. cbn [tmap t_type t_content t_meta].
  destruct ty; try reflexivity.
  destruct m as [m|]; [|reflexivity]. cbn [fst snd omap].
  cbn [with_always_close_void remove_attr_quote lowercase_tagname always_close_void encode_content
         m_name m_self_closed m_auto_fix]. unfold attrs_to_string. cbn [m_attrs].
  rewrite andb_true_r, andb_false_r, orb_false_r. reflexivity.
Qed.

Lemma trim_end_tags_render : forall env o t text,
  build env (with_remove_endtag_space true o) t text =
  build env (with_remove_endtag_space false o) (trim_end_tags t) text.
Proof.
  intros env o t text. apply build_map; [|reflexivity].
  clear t text. intros [i ty b e et c ks m] s. unfold build_node. cbn [tmap t_type t_content t_meta].
  destruct ty; try reflexivity.
  destruct c as [c|]; [|reflexivity]. cbn [fst snd omap].
  cbn [with_remove_endtag_space remove_endtag_space lowercase_tagname].
  rewrite <- !trim_right_eq, trim_right_idem. reflexivity.
Qed.

Lemma encode_render : forall env o t text,
  build env (with_encode_content true o) t text =
  build env (with_encode_content false o) (encode_titles env t) text.
Proof.
  intros env o t text. apply build_map; [|reflexivity].
  clear t text. intros [i ty b e et c ks m] s. unfold build_node. cbn [tmap t_type t_content t_meta].
  destruct ty; try reflexivity.
  destruct m as [m|]; [|reflexivity].
  cbn [with_encode_content remove_attr_quote lowercase_tagname always_close_void encode_content].
  destruct (same_name (m_name m) (str "title") || same_name (m_name m) (str "textarea"))%bool eqn:E;
    cbn [fst snd omap]; unfold is_plain_text_tag; rewrite !is_equal_chars_lower by reflexivity;
    change TEXTAREA_TAG_NAME with (str "textarea"); change TITLE_TAG_NAME with (str "title");
    rewrite (orb_comm (same_name (m_name m) (str "textarea"))), E; cbn [andb];
    destruct c as [c|]; reflexivity.
Qed.

(** The transformations change nothing when there is nothing to change. *)
Lemma tmap_id : forall f t, (forall s, sub s t -> f (t_type s) (t_content s) (t_meta s) = (t_content s, t_meta s)) ->
  tmap f t = t.
Proof.
  intros f t. induction t as [i ty b e et c ks m Het Hks] using tree_ind'. intro H.
  cbn [tmap]. pose proof (H _ (sub_refl _)) as H0. cbn in H0. rewrite H0. cbn [fst snd].
  f_equal.
  - destruct et as [x|]; [|reflexivity]. cbn in Het. rewrite Het; [reflexivity|].
    intros s Hs. apply H. eapply sub_end; [reflexivity|exact Hs].
  - destruct ks as [l|]; [|reflexivity]. cbn in Hks. f_equal.
    assert (Hin : forall k, In k l -> tmap f k = k).
    { intros k Hk. rewrite Forall_forall in Hks. apply Hks; [exact Hk|].
      intros s Hs. apply H. eapply sub_child; [reflexivity|exact Hk|exact Hs]. }
    clear -Hin. induction l as [|k l IH]; [reflexivity|]. cbn. rewrite (Hin k) by (left; reflexivity).
    f_equal. apply IH. intros k' Hk'. apply Hin. right. exact Hk'.
Qed.

Lemma close_auto_fixed_id : forall t,
  (forall s m, sub s t -> t_type s = NTag -> t_meta s = Some m -> m_auto_fix m = false) ->
  close_auto_fixed t = t.
Proof.
  intros t H. apply tmap_id. intros s Hs.
  destruct (t_type s) eqn:Ht; try reflexivity.
  destruct (t_meta s) as [m|] eqn:Hm; [|reflexivity]. cbn.
  rewrite (H s m Hs Ht Hm), orb_false_r. rewrite <- (H s m Hs Ht Hm). destruct m. reflexivity.
Qed.

(** * Completeness of rendering: no panic on complete trees *)

Definition node_ok (t : tree) : Prop := node_complete t.

Lemma build_node_ok : forall env o t s, node_complete t ->
  exists s' out, build_node env o t s = ROk (s', out) /\
    rs_inner_type s' = rs_inner_type s /\ rs_root s' = rs_root s.
Proof.
  intros env o [i ty b e et c ks m] s H. unfold node_complete in H. unfold build_node.
  cbn [t_type t_meta t_content] in *.
  destruct ty; cbn [t_type] in H;
    try (destruct c as [c|]; [|congruence]); try (destruct m as [m|]; [|congruence]);
    try (eexists; eexists; split; [reflexivity|]; split; reflexivity).
  - destruct (negb (rs_is_in_pre s) && minify_spaces o)%bool; eexists; eexists; split; [reflexivity|split; reflexivity|reflexivity|split; reflexivity].
  - destruct (rs_is_in_pre s && _)%bool; eexists; eexists; split; [reflexivity|split; reflexivity|reflexivity|split; reflexivity].
Qed.

Lemma build_tree_ok : forall env o t s, complete t ->
  exists s' out, build_tree env o t s = ROk (s', out) /\
    rs_inner_type s' = rs_inner_type s /\ rs_root s' = rs_root s.
Proof.
  intros env o t. induction t as [i ty b e et c ks m Het Hks] using tree_ind'. intros s H.
  rewrite build_tree_eq. cbn zeta.
  destruct (build_node_ok env o (TNode i ty b e et c ks m) s (H _ (sub_refl _)))
    as (s1 & o1 & E1 & I1 & R1). rewrite E1. cbn [rbind].
  assert (Hl : exists s2 o2,
    (match ks with
     | None => ROk (s1, [])
     | Some l =>
         if rs_root s1 then
           do '(_, out) <- build_list env o l (rs_set_root false s1); ROk (s1, out)
         else build_list env o l s1
     end) = ROk (s2, o2) /\ rs_inner_type s2 = rs_inner_type s1 /\ rs_root s2 = rs_root s1).
  { destruct ks as [l|]; [|eauto].
    cbn in Hks.
    assert (HL : forall s, exists s2 o2, build_list env o l s = ROk (s2, o2) /\
               rs_inner_type s2 = rs_inner_type s /\ rs_root s2 = rs_root s).
    { assert (Hsub : forall k, In k l -> complete k).
      { intros k Hk u Hu. apply H. eapply sub_child; [reflexivity|exact Hk|exact Hu]. }
      clear -Hks Hsub. induction l as [|k l IH]; intro s; [cbn; eauto|].
      inversion Hks as [|? ? Hk Hl]; subst. cbn.
      destruct (Hk s (Hsub k (or_introl eq_refl))) as (sa & oa & Ea & Ia & Ra). rewrite Ea. cbn.
      destruct (IH Hl (fun k' Hk' => Hsub k' (or_intror Hk')) sa) as (sb & ob & Eb & Ib & Rb).
      rewrite Eb. cbn. eexists. eexists. split; [reflexivity|]. split; congruence. }
    destruct (rs_root s1) eqn:Er.
    - destruct (HL (rs_set_root false s1)) as (sa & oa & Ea & Ia & Ra). rewrite Ea. cbn. eauto.
    - destruct (HL s1) as (sa & oa & Ea & Ia & Ra). rewrite Ea. rewrite <- Er. eauto. }
  destruct Hl as (s2 & o2 & E2 & I2 & R2). rewrite E2. cbn [rbind].
  destruct et as [x|].
  - destruct (build_node_ok env o x s2) as (s3 & o3 & E3 & I3 & R3).
    { apply H. eapply sub_end; [reflexivity|apply sub_refl]. }
    rewrite E3. cbn. eexists. eexists. split; [reflexivity|]. split; congruence.
  - cbn. eexists. eexists. split; [reflexivity|]. split; congruence.
Qed.

Lemma build_ok : forall env o t, complete t -> inner_html o = false ->
  exists out, build env o t false = ROk out.
Proof.
  intros env o t H Hi. unfold build. rewrite Hi. cbn.
  destruct (build_tree_ok env o t (mkRS INone false true) H) as (s & out & E & _).
  rewrite E. cbn. eauto.
Qed.

(** * Comments *)

Lemma no_comments_type : forall t, t_type (no_comments t) = t_type t.
Proof. intros []. reflexivity. Qed.

Fixpoint strip_list (l : list tree) : list tree :=
  match l with
  | [] => []
  | k :: r => if is_comment k then strip_list r else no_comments k :: strip_list r
  end.
Lemma no_comments_eq : forall i ty b e et c ks m,
  no_comments (TNode i ty b e et c ks m) =
  TNode i ty b e et c (match ks with Some l => Some (strip_list l) | None => None end) m.
Proof. reflexivity. Qed.

Lemma build_node_comments : forall env o t s, is_comment t = false ->
  build_node env (with_remove_comment true o) t s =
  build_node env (with_remove_comment false o) (no_comments t) s.
Proof.
  intros env o [i ty b e et c ks m] s H. rewrite no_comments_eq. unfold build_node.
  cbn [t_type t_content t_meta]. destruct ty; try reflexivity. discriminate.
Qed.
Lemma build_node_rc : forall env o t s, is_comment t = false ->
  build_node env (with_remove_comment true o) t s =
  build_node env (with_remove_comment false o) t s.
Proof.
  intros env o [i ty b e et c ks m] s H. unfold build_node.
  cbn [t_type t_content t_meta]. destruct ty; try reflexivity. discriminate.
Qed.

Lemma build_tree_comments : forall env o t s,
  comments_are_leaves t -> end_tags_not_comments t -> is_comment t = false ->
  build_tree env (with_remove_comment true o) t s =
  build_tree env (with_remove_comment false o) (no_comments t) s.
Proof.
  intros env o t. induction t as [i ty b e et c ks m Het Hks] using tree_ind'. intros s HL HE Hc.
  pose proof (build_node_comments env o _ s Hc) as Hn.
  rewrite no_comments_eq in *. rewrite !build_tree_eq. cbn zeta. rewrite Hn.
  destruct (build_node env (with_remove_comment false o) _ s) as [[s1 o1]| |]; try reflexivity.
  cbn [rbind].
  assert (Hl : forall l, Forall (fun t => forall s, comments_are_leaves t -> end_tags_not_comments t -> is_comment t = false ->
      build_tree env (with_remove_comment true o) t s =
      build_tree env (with_remove_comment false o) (no_comments t) s) l ->
      (forall k, In k l -> comments_are_leaves k /\ end_tags_not_comments k) ->
      forall s, build_list env (with_remove_comment true o) l s =
                build_list env (with_remove_comment false o) (strip_list l) s).
  { clear. induction l as [|k l IH]; intros HF Hall s; [reflexivity|].
    inversion HF as [|? ? Hk Hl]; subst. cbn [build_list strip_list].
    destruct (Hall k (or_introl eq_refl)) as [HkL HkE].
    assert (Hall' : forall k, In k l -> comments_are_leaves k /\ end_tags_not_comments k)
      by (intros; apply Hall; right; assumption).
    destruct (is_comment k) eqn:Ec.
    - assert (Et : t_type k = NComment) by (unfold is_comment in Ec; destruct (t_type k); congruence).
      destruct (HkL k (sub_refl k) Et) as [K1 K2].
      destruct k as [i ty b e et c ks m]. cbn in Et, K1, K2. subst.
      rewrite build_tree_eq. cbn zeta. unfold build_node. cbn. rewrite IH by assumption.
      destruct (build_list env (with_remove_comment false o) (strip_list l) s) as [[s2 o2]| |]; reflexivity.
    - rewrite (Hk s HkL HkE eq_refl). cbn [build_list].
      destruct (build_tree env (with_remove_comment false o) (no_comments k) s) as [[s2 o2]| |]; try reflexivity.
      cbn [rbind]. rewrite IH by assumption. reflexivity. }
  assert (He : forall s, (match et with None => ROk (s, []) | Some x => build_node env (with_remove_comment true o) x s end)
             = (match et with None => ROk (s, []) | Some x => build_node env (with_remove_comment false o) x s end)).
  { intro s2. destruct et as [x|]; [|reflexivity]. apply build_node_rc.
    pose proof (HE _ x (sub_refl _) eq_refl) as Hx. unfold is_comment. destruct (t_type x); congruence. }
  destruct ks as [l|].
  - cbn in Hks. rewrite !Hl; try assumption.
    + destruct (if rs_root s1 then _ else _) as [[s2 o2]| |]; try reflexivity. cbn [rbind].
      rewrite He. reflexivity.
    + intros k Hk. split.
      * intros u Hu. apply HL. eapply sub_child; [reflexivity|exact Hk|exact Hu].
      * intros u x Hu. apply HE. eapply sub_child; [reflexivity|exact Hk|exact Hu].
    + intros k Hk. split.
      * intros u Hu. apply HL. eapply sub_child; [reflexivity|exact Hk|exact Hu].
      * intros u x Hu. apply HE. eapply sub_child; [reflexivity|exact Hk|exact Hu].
  - cbn [rbind]. rewrite He. reflexivity.
Qed.

Lemma filter_strip : forall l, filter is_tag (strip_list l) = map no_comments (filter is_tag l).
Proof.
  induction l as [|k l IH]; [reflexivity|]. cbn [strip_list filter].
  destruct (is_comment k) eqn:Ec.
  - assert (is_tag k = false) as -> by (unfold is_comment in Ec; unfold is_tag; destruct (t_type k); try discriminate; reflexivity).
    exact IH.
  - cbn [filter]. unfold is_tag at 1. rewrite no_comments_type. fold (is_tag k).
    destruct (is_tag k); cbn; rewrite IH; reflexivity.
Qed.

Lemma remove_comment_render : forall env o t text,
  comments_are_leaves t -> end_tags_not_comments t -> is_comment t = false ->
  build env (with_remove_comment true o) t text =
  build env (with_remove_comment false o) (no_comments t) text.
Proof.
  intros env o t text HL HE Hc. unfold build. rewrite no_comments_type.
  change (inner_html (with_remove_comment true o)) with (inner_html o).
  change (inner_html (with_remove_comment false o)) with (inner_html o).
  destruct (text && inner_html o)%bool; [reflexivity|]. cbn zeta.
  rewrite build_tree_comments by assumption.
  destruct (if text then IText else if inner_html o then IHtml else INone); [reflexivity| |];
    destruct (t_type t); try reflexivity;
    destruct t as [i ty b e et c ks m]; rewrite no_comments_eq; cbn [t_childs];
    (destruct ks as [l|]; [|reflexivity]);
    rewrite filter_strip;
    (destruct (filter is_tag l) as [|k [|k2 r]] eqn:Ef; cbn [map]; [reflexivity| |reflexivity]);
    assert (Hk : In k l /\ is_tag k = true)
      by (apply filter_In; rewrite Ef; left; reflexivity);
    destruct Hk as [Hk Hkt];
    (rewrite build_tree_comments; [reflexivity| | |]);
    try (intros u Hu; apply HL; eapply sub_child; [reflexivity|exact Hk|exact Hu]);
    try (intros u x Hu; apply HE; eapply sub_child; [reflexivity|exact Hk|exact Hu]);
    unfold is_tag in Hkt; unfold is_comment; destruct (t_type k); try discriminate; reflexivity.
Qed.
