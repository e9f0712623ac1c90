(** Proofs about minify_spaces, render_text and inner_html. *)
From Coq Require Import String.
From Verif Require Import Api SpecText SpecRender TextProofs NameProofs RenderProofs.
Local Open Scope string_scope.
Local Open Scope list_scope.

Definition is_pre_end (t : tree) : bool :=
  match t_type t, t_content t with
  | NTagEnd, Some c => same_name (trim_right c) (str "pre")
  | _, _ => false
  end.

Lemma build_node_status : forall env o t s s' out,
  build_node env o t s = ROk (s', out) ->
  rs_inner_type s' = rs_inner_type s /\ rs_root s' = rs_root s /\
  rs_is_in_pre s' = ((rs_is_in_pre s || is_pre t) && negb (is_pre_end t))%bool.
Proof.
  intros env o [i ty b e et c ks m] s s' out. unfold build_node, is_pre, is_pre_end.
  cbn [t_type t_content t_meta].
  assert (K : forall x (y : list char), ROk (s, x) = ROk (s', y) ->
      rs_inner_type s' = rs_inner_type s /\ rs_root s' = rs_root s /\
      rs_is_in_pre s' = ((rs_is_in_pre s || false) && negb false)%bool).
  { intros x y H. injection H as <- _. rewrite orb_false_r, andb_true_r. auto. }
  destruct ty; try (intro H; eapply K; exact H).
  - destruct m as [m|]; [|discriminate]. intro H. eapply K; exact H.
  - destruct c as [c|]; [|discriminate]. intro H. eapply K; exact H.
  - destruct (negb (rs_is_in_pre s) && minify_spaces o)%bool; [intro H; eapply K; exact H|].
    destruct c as [c|]; [|discriminate]. intro H; eapply K; exact H.
  - destruct m as [m|]; [|discriminate]. intro H. injection H as <- _. cbn.
    rewrite is_equal_chars_lower by reflexivity. rewrite andb_true_r. auto.
  - destruct c as [c|]; [|discriminate]. intro H. injection H as <- _.
    rewrite is_equal_chars_lower by reflexivity. rewrite <- trim_right_eq.
    change PRE_TAG_NAME with (str "pre").
    destruct (rs_is_in_pre s) eqn:Ep, (same_name (trim_right c) (str "pre"));
      cbn [andb negb orb rs_set_pre rs_inner_type rs_root rs_is_in_pre]; rewrite ?Ep;
      repeat split; assumption || reflexivity.
Qed.

Lemma min_node : forall env o t s, decode_entity o = false ->
  build_node env (with_minify_spaces true o) t s =
  build_node env (with_minify_spaces false o) (minified (rs_is_in_pre s) t) s.
Proof.
  intros env o [i ty b e et c ks m] s Hd. unfold build_node. cbn [minified t_type t_content t_meta].
  destruct ty; try (destruct (rs_is_in_pre s); reflexivity).
  - cbn [with_minify_spaces minify_spaces decode_entity]. rewrite Hd.
    destruct (rs_is_in_pre s); cbn [negb andb]; [reflexivity|].
    destruct c as [c|]; cbn [omap]; [|reflexivity]. rewrite collapse_minify. reflexivity.
Qed.
Lemma min_end_node : forall env o t s, t_type t = NTagEnd ->
  build_node env (with_minify_spaces true o) t s =
  build_node env (with_minify_spaces false o) t s.
Proof. intros env o [i ty b e et c ks m] s H. cbn in H. subst. reflexivity. Qed.

Definition min_hyps (inpre : bool) (t : tree) : Prop :=
  end_tags_match t /\ pre_has_end t /\ pre_not_nested t /\
  (inpre = true -> forall u, sub u t -> is_pre u = false).

Lemma min_hyps_child : forall inpre t ks k,
  min_hyps inpre t -> t_childs t = Some ks -> In k ks -> min_hyps (inpre || is_pre t) k.
Proof.
  intros inpre t ks k (H1 & H2 & H3 & H4) Hk Hin. split; [|split; [|split]].
  - intros u Hu. apply H1. eapply sub_child; eauto.
  - intros u Hu. apply H2. eapply sub_child; eauto.
  - intros u ks' k' u' Hu. apply H3. eapply sub_child; eauto.
  - intro E. apply orb_true_iff in E as [E|E].
    + intros u Hu. apply H4; [exact E|]. eapply sub_child; eauto.
    + intros u Hu. eapply (H3 t); eauto. apply sub_refl.
Qed.

Lemma min_tree : forall env o, decode_entity o = false -> forall t s,
  min_hyps (rs_is_in_pre s) t -> t_type t <> NTagEnd ->
  build_tree env (with_minify_spaces true o) t s =
  build_tree env (with_minify_spaces false o) (minified (rs_is_in_pre s) t) s /\
  (forall s' out, build_tree env (with_minify_spaces true o) t s = ROk (s', out) ->
     rs_is_in_pre s' = rs_is_in_pre s).
Proof.
  intros env o Hd t. induction t as [i ty b e et c ks m Het Hks] using tree_ind'. intros s HH Hty.
  set (t := TNode i ty b e et c ks m) in *.
  pose proof (min_node env o t s Hd) as Hn.
  assert (EM : minified (rs_is_in_pre s) t =
     TNode i ty b e et
       (if rs_is_in_pre s then c
        else match ty with NText => omap collapse c | NSpacesBetweenTag => Some [] | _ => c end)
       (match ks with Some l => Some (map (minified (rs_is_in_pre s || is_pre t)) l) | None => None end) m)
    by reflexivity.
  rewrite EM. unfold t. rewrite !build_tree_eq. cbn zeta. fold t. rewrite <- EM.
  rewrite <- Hn.
  destruct (build_node env (with_minify_spaces true o) t s) as [[s1 o1]| |] eqn:E1;
    [|split; [reflexivity|intros; discriminate]|split; [reflexivity|intros; discriminate]].
  cbn [rbind].
  destruct (build_node_status _ _ _ _ _ _ E1) as (I1 & R1 & P1).
  assert (Ept : is_pre_end t = false).
  { unfold is_pre_end. subst t. cbn in *. destruct ty; try reflexivity. congruence. }
  rewrite Ept, andb_true_r in P1.
  assert (Hl : forall l, ks = Some l -> forall s2, rs_is_in_pre s2 = (rs_is_in_pre s || is_pre t)%bool ->
     build_list env (with_minify_spaces true o) l s2 =
     build_list env (with_minify_spaces false o) (map (minified (rs_is_in_pre s || is_pre t)) l) s2 /\
     (forall s' out, build_list env (with_minify_spaces true o) l s2 = ROk (s', out) ->
        rs_is_in_pre s' = rs_is_in_pre s2)).
  { intros l -> . cbn in Hks.
    assert (HC : forall k, In k l -> min_hyps (rs_is_in_pre s || is_pre t) k /\ t_type k <> NTagEnd).
    { intros k Hk. split.
      - eapply min_hyps_child; [exact HH|reflexivity|exact Hk].
      - destruct HH as (H1 & _). destruct (H1 t (sub_refl t)) as [_ H1']. eapply H1'; [reflexivity|exact Hk]. }
    revert HC. generalize (rs_is_in_pre s || is_pre t)%bool. intros p HC.
    clear -Hks HC. induction l as [|k l IH]; intros s2 Es2.
    - split; [reflexivity|]. cbn. intros s' out H. injection H as <- _. reflexivity.
    - pose proof (Forall_inv Hks) as Hk; pose proof (Forall_inv_tail Hks) as Hl; cbn beta in Hk. cbn [build_list map].
      destruct (HC k (or_introl eq_refl)) as [HCk HTk].
      rewrite <- Es2 in HCk. destruct (Hk s2 HCk HTk) as [A B]. rewrite Es2 in A. rewrite <- A.
      destruct (build_tree env (with_minify_spaces true o) k s2) as [[s3 o3]| |];
        [|split; [reflexivity|intros; discriminate]|split; [reflexivity|intros; discriminate]].
      cbn [rbind]. specialize (B s3 o3 eq_refl).
      destruct (IH Hl (fun k' Hk' => HC k' (or_intror Hk')) s3) as [A2 B2]; [congruence|].
      rewrite <- A2.
      destruct (build_list env (with_minify_spaces true o) l s3) as [[s4 o4]| |];
        [|split; [reflexivity|intros; discriminate]|split; [reflexivity|intros; discriminate]].
      split; [reflexivity|]. cbn. intros s' out H. injection H as <- _.
      rewrite (B2 _ _ eq_refl). exact B. }
  (* the end tag *)
  assert (He : forall s2 : render_status, rs_is_in_pre s2 = (rs_is_in_pre s || is_pre t)%bool ->
     (match et with None => ROk (s2, []) | Some x => build_node env (with_minify_spaces true o) x s2 end) =
     (match et with None => ROk (s2, []) | Some x => build_node env (with_minify_spaces false o) x s2 end) /\
     (forall s' out, (match et with None => ROk (s2, []) | Some x => build_node env (with_minify_spaces true o) x s2 end)
        = ROk (s', out) -> rs_is_in_pre s' = rs_is_in_pre s)).
  { intros s2 Es2. destruct HH as (H1 & H2 & H3 & H4).
    destruct et as [x|].
    - destruct (H1 t (sub_refl t)) as [H1' _]. destruct (H1' x eq_refl) as (Tt & Tx & mm & cc & Em & Ec & En).
      split; [apply min_end_node; exact Tx|].
      intros s' out H. destruct (build_node_status _ _ _ _ _ _ H) as (_ & _ & P). rewrite P, Es2.
      assert (Ex : is_pre x = false) by (unfold is_pre; rewrite Tx; reflexivity).
      rewrite Ex, orb_false_r.
      assert (Exe : is_pre_end x = is_pre t).
      { unfold is_pre_end, is_pre. rewrite Tx, Ec. rewrite Tt, Em.
        apply eq_true_iff_eq. rewrite !same_name_lower. apply same_name_lower in En. rewrite <- En. reflexivity. }
      rewrite Exe. destruct (rs_is_in_pre s) eqn:Eps.
      + rewrite (H4 eq_refl t (sub_refl t)). reflexivity.
      + destruct (is_pre t); reflexivity.
    - split; [reflexivity|]. intros s' out H. injection H as <- _. rewrite Es2.
      assert (is_pre t = false) as ->; [|apply orb_false_r].
      destruct (is_pre t) eqn:Ep; [|reflexivity]. exfalso. exact (H2 t (sub_refl t) Ep eq_refl). }
  destruct ks as [l|].
  - destruct (rs_root s1) eqn:Er.
    + destruct (Hl l eq_refl (rs_set_root false s1)) as [A _]; [exact P1|]. rewrite <- A.
      destruct (build_list env (with_minify_spaces true o) l (rs_set_root false s1)) as [[s2 o2]| |];
        [|split; [reflexivity|intros; discriminate]|split; [reflexivity|intros; discriminate]].
      cbn [rbind]. destruct (He s1 P1) as [B1 B2]. rewrite <- B1.
      split; [reflexivity|]. intros s' out H.
      destruct (match et with None => _ | Some x => _ end) as [[s3 o3]| |]; try discriminate.
      cbn in H. injection H as <- _. exact (B2 _ _ eq_refl).
    + destruct (Hl l eq_refl s1 P1) as [A A2]. rewrite <- A.
      destruct (build_list env (with_minify_spaces true o) l s1) as [[s2 o2]| |];
        [|split; [reflexivity|intros; discriminate]|split; [reflexivity|intros; discriminate]].
      cbn [rbind]. specialize (A2 _ _ eq_refl).
      destruct (He s2) as [B1 B2]; [congruence|]. rewrite <- B1.
      split; [reflexivity|]. intros s' out H.
      destruct (match et with None => _ | Some x => _ end) as [[s3 o3]| |]; try discriminate.
      cbn in H. injection H as <- _. exact (B2 _ _ eq_refl).
  - cbn [rbind]. destruct (He s1 P1) as [B1 B2]. rewrite <- B1.
    split; [reflexivity|]. intros s' out H.
    destruct (match et with None => _ | Some x => _ end) as [[s3 o3]| |]; try discriminate.
    cbn in H. injection H as <- _. exact (B2 _ _ eq_refl).
Qed.

Lemma minified_type : forall b t, t_type (minified b t) = t_type t.
Proof. intros b []. reflexivity. Qed.

Lemma filter_minified : forall b l, filter is_tag (map (minified b) l) = map (minified b) (filter is_tag l).
Proof.
  induction l as [|k l IH]; [reflexivity|]. cbn. unfold is_tag at 1. rewrite minified_type.
  fold (is_tag k). destruct (is_tag k); cbn; rewrite IH; reflexivity.
Qed.

Lemma minify_render : forall env o t text,
  decode_entity o = false ->
  end_tags_match t -> pre_has_end t -> pre_not_nested t -> t_type t <> NTagEnd ->
  build env (with_minify_spaces true o) t text =
  build env (with_minify_spaces false o) (minified false t) text.
Proof.
  intros env o t text Hd H1 H2 H3 Ht. unfold build. rewrite minified_type.
  change (inner_html (with_minify_spaces true o)) with (inner_html o).
  change (inner_html (with_minify_spaces false o)) with (inner_html o).
  destruct (text && inner_html o)%bool; [reflexivity|]. cbn zeta.
  assert (HH : min_hyps false t) by (split; [|split; [|split]]; try assumption; discriminate).
  assert (A : forall it, build_tree env (with_minify_spaces true o) t (mkRS it false true) =
     build_tree env (with_minify_spaces false o) (minified false t) (mkRS it false true)).
  { intro it. exact (proj1 (min_tree env o Hd t (mkRS it false true) HH Ht)). }
  rewrite !A.
  destruct (if text then IText else if inner_html o then IHtml else INone); [reflexivity| |];
    destruct (t_type t) eqn:Et; try reflexivity;
    destruct t as [i ty b e et c ks m]; cbn [minified t_childs];
    (destruct ks as [l|]; [|reflexivity]); cbn in Et; subst ty;
    change (is_pre (TNode i NAbstractRoot b e et c (Some l) m)) with false; cbn [orb];
    rewrite filter_minified;
    (destruct (filter is_tag l) as [|k [|k2 r]] eqn:Ef; cbn [map]; [reflexivity| |reflexivity]);
    assert (Hk : In k l /\ is_tag k = true)
      by (apply filter_In; rewrite Ef; left; reflexivity);
    destruct Hk as [Hk Hkt];
    match goal with |- context [mkRS ?it false true] =>
      rewrite (proj1 (min_tree env o Hd k (mkRS it false true)
        (min_hyps_child false _ l k HH eq_refl Hk)
        ltac:(unfold is_tag in Hkt; intro X; rewrite X in Hkt; discriminate))) end; reflexivity.
Qed.

(** * minify never loses visible characters *)

Definition vis_eq (r1 r2 : res (render_status * list char)) : Prop :=
  match r1, r2 with
  | ROk (s1, o1), ROk (s2, o2) => s1 = s2 /\ visible o1 = visible o2
  | _, _ => False
  end.

Lemma vis_node : forall env o t s, decode_entity o = false -> node_complete t ->
  (t_type t = NSpacesBetweenTag -> forall c, t_content t = Some c -> Forall is_ws c) ->
  vis_eq (build_node env (with_minify_spaces true o) t s)
         (build_node env (with_minify_spaces false o) t s).
Proof.
  intros env o [i ty b e et c ks m] s Hd Hc Hs. unfold node_complete in Hc. unfold build_node.
  cbn [t_type t_content t_meta] in *.
  destruct ty; cbn [t_type] in Hc; try (destruct c as [c|]; [|congruence]); try (destruct m as [m|]; [|congruence]);
    try (split; reflexivity).
  - cbn [with_minify_spaces minify_spaces decode_entity]. rewrite Hd.
    rewrite andb_true_r, andb_false_r. cbn. split; [reflexivity|].
    destruct (rs_is_in_pre s); cbn; [reflexivity|]. apply visible_minify.
  - cbn [with_minify_spaces minify_spaces]. rewrite andb_true_r, andb_false_r.
    destruct (rs_is_in_pre s); cbn; (split; [reflexivity|]); [reflexivity|].
    rewrite (visible_ws c) by (apply Hs; reflexivity). reflexivity.
Qed.

Lemma vis_tree : forall env o, decode_entity o = false -> forall t s,
  complete t -> spaces_are_ws t ->
  vis_eq (build_tree env (with_minify_spaces true o) t s)
         (build_tree env (with_minify_spaces false o) t s).
Proof.
  intros env o Hd t. induction t as [i ty b e et c ks m Het Hks] using tree_ind'. intros s HC HS.
  rewrite !build_tree_eq. cbn zeta. set (t := TNode i ty b e et c ks m) in *.
  assert (N : forall x s, sub x t -> vis_eq (build_node env (with_minify_spaces true o) x s)
         (build_node env (with_minify_spaces false o) x s)).
  { intros x s' Hx. apply vis_node; [exact Hd|apply HC; exact Hx|].
    intros Tx cx Ex. eapply HS; eauto. }
  pose proof (N t s (sub_refl t)) as N0.
  destruct (build_node env (with_minify_spaces true o) t s) as [[s1 o1]| |]; try contradiction.
  destruct (build_node env (with_minify_spaces false o) t s) as [[s1' o1']| |]; try contradiction.
  destruct N0 as [<- V1]. cbn [rbind].
  assert (HL : forall l, ks = Some l -> forall s, vis_eq (build_list env (with_minify_spaces true o) l s)
         (build_list env (with_minify_spaces false o) l s)).
  { intros l ->. cbn in Hks.
    assert (HH : forall k, In k l -> complete k /\ spaces_are_ws k).
    { intros k Hk. split; [intros u Hu; apply HC|intros u cu Hu; apply HS]; eapply sub_child; eauto; reflexivity. }
    clear -Hks HH. induction l as [|k l IH]; intro s; [split; reflexivity|].
    pose proof (Forall_inv Hks) as Hk; pose proof (Forall_inv_tail Hks) as Hl; cbn beta in Hk. cbn [build_list].
    destruct (HH k (or_introl eq_refl)) as [A B]. specialize (Hk s A B).
    destruct (build_tree env (with_minify_spaces true o) k s) as [[s2 o2]| |]; try contradiction.
    destruct (build_tree env (with_minify_spaces false o) k s) as [[s2' o2']| |]; try contradiction.
    destruct Hk as [<- Vk]. cbn [rbind].
    specialize (IH Hl (fun k' Hk' => HH k' (or_intror Hk')) s2).
    destruct (build_list env (with_minify_spaces true o) l s2) as [[s3 o3]| |]; try contradiction.
    destruct (build_list env (with_minify_spaces false o) l s2) as [[s3' o3']| |]; try contradiction.
    destruct IH as [<- Vl]. cbn. rewrite !visible_app. split; congruence. }
  assert (HM : vis_eq
    (match ks with None => ROk (s1, []) | Some l => if rs_root s1 then
       do '(_, out) <- build_list env (with_minify_spaces true o) l (rs_set_root false s1); ROk (s1, out)
       else build_list env (with_minify_spaces true o) l s1 end)
    (match ks with None => ROk (s1, []) | Some l => if rs_root s1 then
       do '(_, out) <- build_list env (with_minify_spaces false o) l (rs_set_root false s1); ROk (s1, out)
       else build_list env (with_minify_spaces false o) l s1 end)).
  { destruct ks as [l|]; [|split; reflexivity].
    destruct (rs_root s1); [|apply HL; reflexivity].
    pose proof (HL l eq_refl (rs_set_root false s1)) as X.
    destruct (build_list env (with_minify_spaces true o) l (rs_set_root false s1)) as [[s3 o3]| |]; try contradiction.
    destruct (build_list env (with_minify_spaces false o) l (rs_set_root false s1)) as [[s3' o3']| |]; try contradiction.
    destruct X as [_ X]. split; [reflexivity|exact X]. }
  destruct (match ks with None => _ | Some l => if rs_root s1 then
       do '(_, out) <- build_list env (with_minify_spaces true o) l (rs_set_root false s1); ROk (s1, out)
       else build_list env (with_minify_spaces true o) l s1 end) as [[s2 o2]| |]; try contradiction.
  destruct (match ks with None => _ | Some l => if rs_root s1 then
       do '(_, out) <- build_list env (with_minify_spaces false o) l (rs_set_root false s1); ROk (s1, out)
       else build_list env (with_minify_spaces false o) l s1 end) as [[s2' o2']| |]; try contradiction.
  destruct HM as [<- V2]. cbn [rbind].
  destruct et as [x|].
  - pose proof (N x s2 ltac:(eapply sub_end; [reflexivity|apply sub_refl])) as N1.
    destruct (build_node env (with_minify_spaces true o) x s2) as [[s3 o3]| |]; try contradiction.
    destruct (build_node env (with_minify_spaces false o) x s2) as [[s3' o3']| |]; try contradiction.
    destruct N1 as [<- V3]. cbn. rewrite !visible_app. split; congruence.
  - cbn. rewrite !visible_app. split; congruence.
Qed.

Lemma minify_visible : forall env o t,
  decode_entity o = false -> inner_html o = false -> complete t -> spaces_are_ws t ->
  exists out1 out2,
    build env (with_minify_spaces true o) t false = ROk out1 /\
    build env (with_minify_spaces false o) t false = ROk out2 /\
    visible out1 = visible out2.
Proof.
  intros env o t Hd Hi HC HS. unfold build.
  change (inner_html (with_minify_spaces true o)) with (inner_html o).
  change (inner_html (with_minify_spaces false o)) with (inner_html o). rewrite Hi. cbn.
  pose proof (vis_tree env o Hd t (mkRS INone false true) HC HS) as V.
  destruct (build_tree env (with_minify_spaces true o) t _) as [[s1 o1]| |]; try contradiction.
  destruct (build_tree env (with_minify_spaces false o) t _) as [[s2 o2]| |]; try contradiction.
  destruct V as [_ V]. cbn. eauto.
Qed.

(** * Minify and decode on text without ampersands *)

Lemma minify_decode_no_amp : forall env s b, ~ In AMP_CHAR s ->
  minify_decode env s b None = minify_text s b.
Proof.
  induction s as [|c s IH]; intros b H; [reflexivity|]. cbn.
  destruct (N.eqb_spec c AMP_CHAR) as [->|Hc]; [exfalso; apply H; left; reflexivity|].
  assert (Hs : ~ In AMP_CHAR s) by (intro X; apply H; right; exact X).
  destruct (is_ascii_whitespace c); [destruct b|]; rewrite ?IH by exact Hs; reflexivity.
Qed.

(** * render_text *)

Lemma text_node : forall env o t s, plain_options o -> node_complete t ->
  rs_inner_type s = IText -> (t_type t <> NHTMLDOCTYPE /\ t_type t <> NXMLCDATA) ->
  (rs_root s = true -> t_type t <> NComment) ->
  exists s', build_node env o t s =
    ROk (s', match t_type t with
             | NText | NSpacesBetweenTag | NTag => match t_content t with Some c => c | None => [] end
             | _ => []
             end) /\ rs_inner_type s' = IText /\ rs_root s' = rs_root s.
Proof.
  intros env o [i ty b e et c ks m] s (Hm & Hd & He & Hi) Hc Hs [D1 D2] Hr.
  unfold node_complete in Hc. unfold build_node. cbn [t_type t_content t_meta] in *.
  rewrite ?Hm, ?Hd, ?He, ?Hs. rewrite andb_false_r.
  destruct ty; cbn [t_type] in Hc; try congruence;
    try (destruct c as [c|]; [|congruence]); try (destruct m as [m|]; [|congruence]);
    try (eexists; split; [reflexivity|]; split; [exact Hs|reflexivity]).
  - eexists. split; [|split; [exact Hs|reflexivity]]. f_equal. f_equal.
    destruct (rs_root s); [exfalso; apply Hr; reflexivity|]. destruct (remove_comment o); reflexivity.
  - destruct (rs_root s) eqn:Er; eexists; (split; [reflexivity|]; split; [exact Hs|exact Er]).
  - destruct (rs_root s) eqn:Er; destruct (rs_is_in_pre s && _)%bool; eexists; (split; [reflexivity|]; split; [exact Hs|exact Er]).
Qed.

Lemma text_tree : forall env o t s, plain_options o -> complete t -> no_markup t -> end_tags_placed t ->
  t_type t <> NTagEnd -> rs_inner_type s = IText -> (rs_root s = true -> t_type t <> NComment) ->
  exists s', build_tree env o t s = ROk (s', text_of t) /\ rs_inner_type s' = IText /\ rs_root s' = rs_root s.
Proof.
  intros env o t. induction t as [i ty b e et c ks m Het Hks] using tree_ind'.
  intros s Hp HC HM HE HT Hs Hr. rewrite build_tree_eq. cbn zeta.
  set (t := TNode i ty b e et c ks m) in *.
  destruct (text_node env o t s Hp (HC _ (sub_refl _)) Hs (HM _ (sub_refl _)) Hr) as (s1 & E1 & I1 & R1).
  rewrite E1. cbn [rbind].
  assert (HL : forall l, ks = Some l -> forall s, rs_inner_type s = IText -> rs_root s = false ->
     exists s', build_list env o l s = ROk (s', flat_map text_of l) /\ rs_inner_type s' = IText /\ rs_root s' = false).
  { intros l ->. cbn in Hks.
    assert (HH : forall k, In k l -> complete k /\ no_markup k /\ end_tags_placed k /\ t_type k <> NTagEnd).
    { intros k Hk. assert (Hsub : forall u, sub u k -> sub u t) by (intros u Hu; eapply sub_child; eauto; reflexivity).
      split; [intros u Hu; apply HC; auto|]. split; [intros u Hu; apply HM; auto|].
      split; [intros u Hu; apply HE; auto|].
      destruct (HE t (sub_refl t)) as [_ HE']. eapply HE'; [reflexivity|exact Hk]. }
    clear -Hks HH Hp. induction l as [|k l IH]; intros s Hs Hr; [cbn; eauto|].
    pose proof (Forall_inv Hks) as Hk; pose proof (Forall_inv_tail Hks) as Hl; cbn beta in Hk. cbn [build_list flat_map].
    destruct (HH k (or_introl eq_refl)) as (A & B & C & D).
    destruct (Hk s Hp A B C D Hs) as (s2 & E2 & I2 & R2); [congruence|]. rewrite E2. cbn [rbind].
    destruct (IH Hl (fun k' Hk' => HH k' (or_intror Hk')) s2 I2) as (s3 & E3 & I3 & R3); [congruence|].
    rewrite E3. cbn. eauto. }
  assert (HK : exists s2, (match ks with None => ROk (s1, []) | Some l => if rs_root s1 then
       do '(_, out) <- build_list env o l (rs_set_root false s1); ROk (s1, out)
       else build_list env o l s1 end) = ROk (s2, match ks with Some l => flat_map text_of l | None => [] end)
       /\ rs_inner_type s2 = IText /\ rs_root s2 = rs_root s).
  { destruct ks as [l|]; [|eauto]. destruct (rs_root s1) eqn:Er.
    - destruct (HL l eq_refl (rs_set_root false s1)) as (s2 & E2 & _); [exact I1|reflexivity|].
      rewrite E2. cbn. exists s1. repeat split; congruence.
    - destruct (HL l eq_refl s1 I1 Er) as (s2 & E2 & I2 & R2). rewrite E2. exists s2. repeat split; congruence. }
  destruct HK as (s2 & E2 & I2 & R2). rewrite E2. cbn [rbind].
  assert (TX : (match t_type t with
             | NText | NSpacesBetweenTag | NTag => match t_content t with Some c => c | None => [] end
             | _ => [] end) ++ (match ks with Some l => flat_map text_of l | None => [] end) = text_of t) by reflexivity.
  destruct et as [x|].
  - assert (Sx : sub x t) by (eapply sub_end; [reflexivity|apply sub_refl]).
    destruct (HE t (sub_refl t)) as [HE1 _]. specialize (HE1 x eq_refl).
    destruct (text_node env o x s2 Hp (HC _ Sx) I2 (HM _ Sx)) as (s3 & E3 & I3 & R3); [congruence|].
    rewrite E3. cbn [rbind]. rewrite HE1. exists s3. rewrite app_nil_r. rewrite TX.
    repeat split; congruence.
  - cbn [rbind]. exists s2. rewrite app_nil_r, TX. auto.
Qed.

Lemma render_text_tag : forall env o t,
  plain_options o -> t_type t = NTag -> complete t -> no_markup t -> end_tags_placed t ->
  build env o t true = ROk (text_of t).
Proof.
  intros env o t Hp Ht HC HM HE. unfold build. pose proof Hp as (_ & _ & _ & Hi). rewrite Hi. cbn.
  rewrite Ht.
  destruct (text_tree env o t (mkRS IText false true) Hp HC HM HE) as (s & E & _);
    try reflexivity; try congruence. rewrite E. reflexivity.
Qed.

(** * inner_html *)


(** Below the root, [IHtml] and [INone] behave alike. *)
Definition sim (s1 s2 : render_status) : Prop :=
  rs_is_in_pre s1 = rs_is_in_pre s2 /\ rs_root s1 = false /\ rs_root s2 = false /\
  rs_inner_type s1 = INone /\ rs_inner_type s2 = IHtml.

Definition sim_res (r1 r2 : res (render_status * list char)) : Prop :=
  match r1, r2 with
  | ROk (s1, o1), ROk (s2, o2) => sim s1 s2 /\ o1 = o2
  | RErr k i, RErr k' i' => k = k' /\ i = i'
  | RPanic p, RPanic p' => p = p'
  | _, _ => False
  end.

Lemma sim_node : forall env o t s1 s2, sim s1 s2 ->
  sim_res (build_node env (with_inner_html false o) t s1) (build_node env (with_inner_html true o) t s2).
Proof.
  intros env o [i ty b e et c ks m] [i1 p1 r1] [i2 p2 r2] (H1 & H2 & H3 & H4 & H5).
  cbn in *. subst. unfold build_node. cbn.
  destruct ty; cbn; try (destruct c as [c|]; cbn); try (destruct m as [m|]; cbn); try (destruct p2; cbn);
    try (destruct (minify_spaces o); cbn);
    try (repeat split; reflexivity).
  all: destruct (is_equal_chars (chars_trim_end c) _ (Some Lower)); cbn; repeat split; reflexivity.
Qed.

Lemma sim_tree : forall env o t s1 s2, sim s1 s2 ->
  sim_res (build_tree env (with_inner_html false o) t s1) (build_tree env (with_inner_html true o) t s2).
Proof.
  intros env o t. induction t as [i ty b e et c ks m Het Hks] using tree_ind'. intros s1 s2 H.
  rewrite !build_tree_eq. cbn zeta.
  pose proof (sim_node env o (TNode i ty b e et c ks m) s1 s2 H) as N.
  destruct (build_node env (with_inner_html false o) _ s1) as [[sa oa]| |];
    destruct (build_node env (with_inner_html true o) _ s2) as [[sb ob]| |]; cbn in N; try contradiction;
    [|destruct N; subst; cbn; auto|subst; cbn; reflexivity].
  destruct N as [N ->]. cbn [rbind].
  assert (HL : forall l, ks = Some l -> forall s1 s2, sim s1 s2 ->
    sim_res (build_list env (with_inner_html false o) l s1) (build_list env (with_inner_html true o) l s2)).
  { intros l ->. cbn in Hks. clear -Hks. induction l as [|k l IH]; intros s1 s2 H; [cbn; auto|].
    pose proof (Forall_inv Hks) as Hk; pose proof (Forall_inv_tail Hks) as Hl; cbn beta in Hk. cbn [build_list]. specialize (Hk s1 s2 H).
    destruct (build_tree env (with_inner_html false o) k s1) as [[sa oa]| |];
      destruct (build_tree env (with_inner_html true o) k s2) as [[sb ob]| |]; cbn in Hk; try contradiction;
      [|destruct Hk; subst; cbn; auto|subst; cbn; reflexivity].
    destruct Hk as [Hs ->]. cbn [rbind]. specialize (IH Hl sa sb Hs).
    destruct (build_list env (with_inner_html false o) l sa) as [[sc oc]| |];
      destruct (build_list env (with_inner_html true o) l sb) as [[sd od]| |]; cbn in IH; try contradiction;
      [|destruct IH; subst; cbn; auto|subst; cbn; reflexivity].
    destruct IH as [IH ->]. cbn. auto. }
  assert (HK : sim_res
    (match ks with None => ROk (sa, []) | Some l => if rs_root sa then
       do '(_, out) <- build_list env (with_inner_html false o) l (rs_set_root false sa); ROk (sa, out)
       else build_list env (with_inner_html false o) l sa end)
    (match ks with None => ROk (sb, []) | Some l => if rs_root sb then
       do '(_, out) <- build_list env (with_inner_html true o) l (rs_set_root false sb); ROk (sb, out)
       else build_list env (with_inner_html true o) l sb end)).
  { destruct ks as [l|]; [|cbn; auto]. pose proof N as (_ & Ra & Rb & _). rewrite Ra, Rb. apply HL; auto. }
  destruct (match ks with None => ROk (sa, []) | Some l => _ end) as [[sc oc]| |];
    destruct (match ks with None => ROk (sb, []) | Some l => _ end) as [[sd od]| |]; cbn in HK; try contradiction;
    [|destruct HK; subst; cbn; auto|subst; cbn; reflexivity].
  destruct HK as [HK ->]. cbn [rbind].
  destruct et as [x|]; [|cbn; auto].
  pose proof (sim_node env o x sc sd HK) as N2.
  destruct (build_node env (with_inner_html false o) x sc) as [[se oe]| |];
    destruct (build_node env (with_inner_html true o) x sd) as [[sf of]| |]; cbn in N2; try contradiction;
    [|destruct N2; subst; cbn; auto|subst; cbn; reflexivity].
  destruct N2 as [N2 ->]. cbn. auto.
Qed.

Lemma sim_list : forall env o l s1 s2, sim s1 s2 ->
  sim_res (build_list env (with_inner_html false o) l s1) (build_list env (with_inner_html true o) l s2).
Proof.
  induction l as [|k l IH]; intros s1 s2 H; [cbn; auto|].
  cbn [build_list]. pose proof (sim_tree env o k s1 s2 H) as Hk.
  destruct (build_tree env (with_inner_html false o) k s1) as [[sa oa]| |];
    destruct (build_tree env (with_inner_html true o) k s2) as [[sb ob]| |]; cbn in Hk; try contradiction;
    [|destruct Hk; subst; cbn; auto|subst; cbn; reflexivity].
  destruct Hk as [Hs ->]. cbn [rbind]. specialize (IH sa sb Hs).
  destruct (build_list env (with_inner_html false o) l sa) as [[sc oc]| |];
    destruct (build_list env (with_inner_html true o) l sb) as [[sd od]| |]; cbn in IH; try contradiction;
    [|destruct IH; subst; cbn; auto|subst; cbn; reflexivity].
  destruct IH as [IH ->]. cbn. auto.
Qed.

Lemma attr_build_print : forall a, attr_build a false = print_attr a.
Proof.
  intros [k v q nq]. unfold attr_build, print_attr. cbn. rewrite orb_true_r.
  destruct v as [v|]; destruct k as [k|]; try destruct q; reflexivity.
Qed.
Lemma attrs_print : forall m, attrs_to_string m false = print_attrs (m_attrs m).
Proof.
  intro m. unfold attrs_to_string, print_attrs. apply flat_map_ext. intro a.
  rewrite attr_build_print. reflexivity.
Qed.
Lemma attrs_print_unquoted : forall m, attrs_to_string m true = print_attrs (map unquoted (m_attrs m)).
Proof.
  intro m. unfold attrs_to_string, print_attrs. apply flat_map_ext2. intros [k v q nq].
  unfold attr_build, unquoted, print_attr. cbn.
  destruct nq; destruct k as [k|]; destruct v as [v|]; destruct q as [q|]; reflexivity.
Qed.

Lemma start_print : forall o m body,
  ([TAG_BEGIN_CHAR]
   ++ (if lowercase_tagname o then lower (m_name m) else m_name m)
   ++ attrs_to_string m (remove_attr_quote o)
   ++ (if (m_self_closed m || (m_auto_fix m && always_close_void o))%bool
       then [WS_CHAR; END_SLASH_CHAR] else [])
   ++ [TAG_END_CHAR]) ++ body = print_start o m ++ body.
Proof.
  intros o m body. f_equal. unfold print_start. cbn [str app]. f_equal. f_equal.
  destruct (remove_attr_quote o); rewrite ?attrs_print_unquoted, ?attrs_print;
  destruct (m_self_closed m || (m_auto_fix m && always_close_void o))%bool; reflexivity.
Qed.

Definition tag_body (env : entity_env) (o : render_options) (m : tag_meta) (c : option (list char)) : list char :=
  match c with
  | Some content =>
      if (encode_content o && is_plain_text_tag (m_name m) (Some Lower))%bool
      then content_encode env content else content
  | None => []
  end.
Lemma bn_root_tag : forall env o i b e et c ks m it,
  build_node env o (TNode i NTag b e et c ks (Some m)) (mkRS it false true) =
  ROk (mkRS it (same_name (m_name m) (str "pre")) true,
       (match it with INone => print_start o m | _ => [] end) ++ tag_body env o m c).
Proof.
  intros. unfold build_node. cbn [t_type t_meta t_content rs_root rs_inner_type rs_is_in_pre orb].
  rewrite is_equal_chars_lower by reflexivity. unfold rs_set_pre. cbn [rs_inner_type rs_root].
  unfold tag_body. destruct it; [|reflexivity|reflexivity].
  rewrite start_print. reflexivity.
Qed.
Lemma bn_root_end : forall env o x c it p, t_type x = NTagEnd -> t_content x = Some c ->
  exists s, build_node env o x (mkRS it p true) =
  ROk (s, match it with INone => print_end o c | _ => [] end).
Proof.
  intros env o [i ty b e et c' ks m] c it p Ht Hc. cbn in Ht, Hc. subst.
  unfold build_node. cbn [t_type t_content rs_root rs_inner_type]. eexists. f_equal. f_equal.
  destruct it; [|reflexivity|reflexivity]. unfold print_end.
  rewrite <- trim_right_eq. destruct (remove_endtag_space o), (lowercase_tagname o); reflexivity.
Qed.

Lemma inner_outer : forall env o t m out,
  t_type t = NTag -> t_meta t = Some m ->
  (forall e, t_end_tag t = Some e -> t_type e = NTagEnd) ->
  build env (with_inner_html false o) t false = ROk out ->
  exists inner,
    build env (with_inner_html true o) t false = ROk inner /\
    out = print_start o m ++ inner ++
          match t_end_tag t with
          | Some e => match t_content e with Some c => print_end o c | None => [] end
          | None => []
          end.
Proof.
  intros env o [i ty b e et c ks m'] m out Ht Hm He. cbn in Ht, Hm, He. subst ty m'.
  unfold build. cbn [inner_html with_inner_html andb t_type].
  rewrite !build_tree_eq. cbn zeta. rewrite !bn_root_tag. cbn [rbind rs_root].
  set (pre := same_name (m_name m) (str "pre")). unfold rs_set_root. cbn [rs_inner_type rs_is_in_pre].
  intro H.
  assert (EB : tag_body env (with_inner_html false o) m c = tag_body env (with_inner_html true o) m c) by reflexivity.
  assert (EE : forall c, print_end (with_inner_html false o) c = print_end o c) by reflexivity.
  rewrite EB in H. clear EB. change (print_start (with_inner_html false o) m) with (print_start o m) in H.
  revert H. generalize (print_start o m). intros A H.
  set (kids1 := match ks with None => ROk (mkRS INone pre true, []) | Some l => _ end) in H.
  set (kids2 := match ks with None => ROk (mkRS IHtml pre true, []) | Some l => _ end).
  assert (HK : (exists ok, kids1 = ROk (mkRS INone pre true, ok) /\ kids2 = ROk (mkRS IHtml pre true, ok)) \/
               (forall a, kids1 <> ROk a)).
  { subst kids1 kids2. destruct ks as [l|]; [|left; eauto].
    assert (Hsim : sim (mkRS INone pre false) (mkRS IHtml pre false)) by (repeat split; reflexivity).
    pose proof (sim_list env o l _ _ Hsim) as S.
    destruct (build_list env (with_inner_html false o) l _) as [[sa oa]| |];
      destruct (build_list env (with_inner_html true o) l _) as [[sb ob]| |]; cbn in S; try contradiction;
      [|right; intros; discriminate|right; intros; discriminate].
    destruct S as [_ ->]. left. cbn. eauto. }
  destruct HK as [(ok & K1 & K2)|HK]; [|destruct kids1; try discriminate H; exfalso; eapply HK; reflexivity].
  rewrite K1 in H. rewrite K2. cbn [rbind t_end_tag] in *.
  destruct et as [x|].
  - specialize (He x eq_refl). destruct (t_content x) as [xc|] eqn:Exc.
    + destruct (bn_root_end env (with_inner_html false o) x xc INone pre He Exc) as [s1 E1].
      destruct (bn_root_end env (with_inner_html true o) x xc IHtml pre He Exc) as [s2 E2].
      rewrite E1 in H. rewrite E2. cbn [rbind] in *. injection H as <-.
      eexists. split; [reflexivity|]. rewrite EE.
      generalize (print_end o xc) (tag_body env (with_inner_html true o) m c).
      intros B C. cbn [app]. rewrite !app_nil_r, <- !app_assoc. reflexivity.
    + exfalso. unfold build_node in H. rewrite He, Exc in H. discriminate.
  - cbn [rbind] in *. injection H as <-. eexists. split; [reflexivity|].
    generalize (tag_body env (with_inner_html true o) m c).
    intros C. cbn [app]. rewrite !app_nil_r, <- !app_assoc. reflexivity.
Qed.
