(** Two runs over the same text from states with the same stream. *)
From Coq Require Import String.
From Verif Require Import Api SpecText SpecParse SpecTree SpecMisc NameProofs TextProofs MiscProofs HeapLemmas InvCtl CtlSteps CtlHandlers CtlEnd CtlRun
  Big BigSteps Replay RawText Struct StructEnd Frame Shape Real Sim CloseInv Mono SpecFix SpecStream Stream StreamSteps.
Local Open Scope string_scope.
Local Open Scope list_scope.

Definition is_WT (st : doc) : Prop := is_W st \/ is_T st.
Definition no_text (opts : parse_options) (st : doc) : Prop := auto_fix_unexpected_endtag opts = false -> is_W st -> ~ text_cur st.
Definition mode (opts : parse_options) (u u' : doc) (z z' : list atom) : Prop :=
  (d_chain_nodes u <> [] /\ (auto_fix_unescaped_lt opts = true -> z = [] /\ z' = [])) \/
  ((text_cur u <-> text_cur u') /\ z = z').
Record srel (opts : parse_options) (u u' : doc) : Prop := mkSrel {
  sr_ok : sok opts u /\ sok opts u';
  sr_nt : no_text opts u /\ no_text opts u';
  sr_sk : sk u = sk u';
  sr_kind : (is_U u /\ is_U u') \/ (is_WT u /\ is_WT u');
  sr_view : exists l z l' z', view opts u l z /\ view opts u' l' z' /\ l ++ z = l' ++ z' /\ mode opts u u' z z'
}.

Lemma metas_nil : forall u u', metas u = metas u' -> d_chain_nodes u <> [] -> d_chain_nodes u' <> [].
Proof. intros u u' E N X. apply N. unfold metas in E. rewrite X in E. destruct (d_chain_nodes u); [reflexivity|discriminate]. Qed.
Lemma sk_metas : forall u u', sk u = sk u' -> metas u = metas u' /\ d_in_special u = d_in_special u' /\ d_mark_char u = d_mark_char u' /\
  map fst (d_id_tags u) = map fst (d_id_tags u') /\ d_parse_options u = d_parse_options u'.
Proof. intros u u' E. unfold sk in E. injection E as E1 E2 E3 E4 E5. auto 6. Qed.
Lemma srel_sym : forall opts u u', srel opts u u' -> srel opts u' u.
Proof.
  intros opts u u' [[A1 A2] [B1 B2] C D [l [z [l' [z' [V [V' [E M]]]]]]]]. constructor; auto; [tauto|].
  exists l', z', l, z. split; [exact V'|]. split; [exact V|]. split; [auto|]. destruct M as [[M1 M2]|[M1 M2]]; [left|right].
  - split; [eapply metas_nil; [|exact M1]; apply sk_metas; exact C|]. intro X. destruct (M2 X). auto.
  - split; [tauto|auto].
Qed.

Lemma closes_metas : forall u u' nm, metas u = metas u' ->
  match closes u nm, closes u' nm with
  | Some (t, r), Some (t', r') => n_meta (get_node u t) = n_meta (get_node u' t') /\ d_chain_nodes u = t :: r /\ d_chain_nodes u' = t' :: r' /\
      map (fun i => n_meta (hget (d_heap u) i)) r = map (fun i => n_meta (hget (d_heap u') i)) r'
  | None, None => True
  | _, _ => False
  end.
Proof.
  intros u u' nm E. unfold metas in E. unfold closes, get_node.
  destruct (d_chain_nodes u) as [|a [|b c]]; destruct (d_chain_nodes u') as [|a' [|b' c']]; try discriminate; auto.
  cbn [map] in E. injection E as E1 E2 E3. rewrite <- E1. destruct (n_meta (hget (d_heap u) a)) as [m|] eqn:Em; [|exact I].
  destruct (same_name (m_name m) (trim_right nm)); [|exact I]. split; [congruence|]. split; [reflexivity|]. split; [reflexivity|].
  cbn [map]. congruence.
Qed.

Lemma T_text : forall opts u, sok opts u -> is_T u -> text_cur u.
Proof. intros opts u S T. apply (s_text _ _ S T). Qed.

(** Both runs are between two tokens. *)
Lemma both_W : forall opts v v' l l' e, sok opts v -> sok opts v' -> is_W v -> is_W v' -> ~ text_cur v -> ~ text_cur v' -> sk v = sk v' ->
  view opts v l e -> view opts v' l' e -> l = l' -> srel opts v v'.
Proof.
  intros opts v v' l l' e S S' W W' N N' K V V' E. subst l'. constructor; auto; [split; intros ? ?; assumption|right; split; left; assumption|].
  exists l, e, l, e. split; [exact V|]. split; [exact V'|]. split; [reflexivity|]. right. tauto.
Qed.
Lemma W_of_W : forall u src mem mk ch cu sp ck ids h, is_W (W_of u src mem mk ch cu sp ck ids h).
Proof. intros. split; [reflexivity|]. split; [left; reflexivity|split; reflexivity]. Qed.

Lemma srel_lt : forall opts u u', srel opts u u' -> is_WT u -> is_WT u' -> exists v v',
  bstep u [TAG_BEGIN_CHAR] v /\ bstep u' [TAG_BEGIN_CHAR] v' /\ srel opts v v'.
Proof.
  intros opts u u' [[A1 A2] [B1 B2] C D [l [z [l' [z' [V [V' [E M]]]]]]]] K K'.
  destruct (view_lt opts u A1 K l z V) as [v [Bv [Uv [Vv [Sv [Cv Tv]]]]]]. destruct (view_lt opts u' A2 K' l' z' V') as [v' [Bv' [Uv' [Vv' [Sv' [Cv' Tv']]]]]].
  exists v, v'. split; [exact Bv|]. split; [exact Bv'|]. constructor.
  - split; eapply bstep_sok; eauto.
  - split; intros _ [X _]; [destruct Uv as [Y _]|destruct Uv' as [Y _]]; congruence.
  - congruence.
  - left. auto.
  - exists l, z, l', z'. split; [exact Vv|]. split; [exact Vv'|]. split; [exact E|]. destruct M as [[M1 M2]|[M1 M2]]; [left; rewrite Cv; auto|right; tauto].
Qed.
Lemma srel_char : forall opts u u' c, srel opts u u' -> is_WT u -> is_WT u' -> c <> TAG_BEGIN_CHAR -> (d_chain_nodes u <> [] \/ text_cur u) -> exists v v',
  bstep u [c] v /\ bstep u' [c] v' /\ srel opts v v' /\ is_T v /\ is_T v'.
Proof.
  intros opts u u' c [[A1 A2] [B1 B2] C D [l [z [l' [z' [V [V' [E M]]]]]]]] K K' Nc Ne.
  assert (Ne' : d_chain_nodes u' <> [] \/ text_cur u').
  { destruct Ne as [Ne|Ne]; [left; eapply metas_nil; [apply sk_metas; exact C|exact Ne]|].
    destruct M as [[M1 M2]|[M1 M2]]; [left; eapply metas_nil; [apply sk_metas; exact C|exact M1]|right; tauto]. }
  destruct (view_char opts u c A1 K Nc B1 Ne l z V) as [v [l1 [z1 [Bv [Tv [Vv [Ty [Sv Cv]]]]]]]].
  destruct (view_char opts u' c A2 K' Nc B2 Ne' l' z' V') as [v' [l1' [z1' [Bv' [Tv' [Vv' [Ty' [Sv' Cv']]]]]]]].
  exists v, v'. split; [exact Bv|]. split; [exact Bv'|]. split; [|auto]. pose proof (bstep_sok _ _ _ _ Bv A1) as S1. pose proof (bstep_sok _ _ _ _ Bv' A2) as S2.
  assert (Sv1 : text_cur v) by (eapply T_text; eauto). assert (Sv2 : text_cur v') by (eapply T_text; eauto).
  constructor.
  - auto.
  - split; intros _ [X _]; [destruct Tv as [Y _]|destruct Tv' as [Y _]]; congruence.
  - congruence.
  - right. split; right; assumption.
  - exists l1, z1, l1', z1'. split; [exact Vv|]. split; [exact Vv'|]. destruct Ty as [Y1 Y2]. destruct Ty' as [Y1' Y2'].
    destruct M as [[M1 M2]|[M1 M2]].
    + assert (Q : forall w lw zw lx zx, view opts w lw zw -> (auto_fix_unescaped_lt opts = true -> zw = []) ->
        (text_cur w -> lx = lw ++ [AChar c] /\ zx = zw) -> (~ text_cur w -> lx = lw ++ zw ++ [AChar c] /\ zx = []) -> lx ++ zx = (lw ++ zw) ++ [AChar c] /\ (auto_fix_unescaped_lt opts = true -> zx = [])).
      { intros w lw zw lx zx Vw Zw F1 F2. destruct (text_dec w) as [T|T].
        - destruct (F1 T) as [-> ->]. assert (zw = []) as ->.
          { destruct (auto_fix_unescaped_lt opts) eqn:El; [auto|]. apply (v_text _ _ _ _ Vw T). exact El. }
          rewrite !app_nil_r. auto.
        - destruct (F2 T) as [-> ->]. rewrite app_nil_r, app_assoc. auto. }
      destruct (Q u l z l1 z1 V) as [Q1 Q2]; auto; [intro X; apply M2; exact X|].
      destruct (Q u' l' z' l1' z1' V') as [Q1' Q2']; auto; [intro X; apply M2; exact X|].
      split; [rewrite Q1, Q1', E; reflexivity|]. left. rewrite Cv. auto.
    + subst z'. apply app_inv_tail in E. subst l'. destruct (text_dec u) as [T|T].
      * destruct (Y1 T) as [-> ->]. destruct (Y1' (proj1 M1 T)) as [-> ->]. split; [reflexivity|]. right. tauto.
      * assert (T' : ~ text_cur u') by tauto. destruct (Y2 T) as [-> ->]. destruct (Y2' T') as [-> ->]. split; [reflexivity|]. right. tauto.
Qed.
Lemma srel_lt_text : forall opts u u' chars, srel opts u u' -> is_U u -> is_U u' -> auto_fix_unescaped_lt opts = true ->
  srel opts (lt_text u chars) (lt_text u' chars).
Proof.
  intros opts u u' chars [[A1 A2] [B1 B2] C D [l [z [l' [z' [V [V' [E M]]]]]]]] U U' Lt.
  destruct (view_lt_text opts u chars A1 U Lt l z V) as [Vv [Sv Cv]]. destruct (view_lt_text opts u' chars A2 U' Lt l' z' V') as [Vv' [Sv' Cv']].
  assert (S1 : sok opts (lt_text u chars)) by (apply sok_lt; assumption). assert (S2 : sok opts (lt_text u' chars)) by (apply sok_lt; assumption).
  pose proof (lt_text_T u chars) as T1. pose proof (lt_text_T u' chars) as T2. constructor.
  - auto.
  - split; intros _ [X _]; [destruct T1 as [Y _]|destruct T2 as [Y _]]; congruence.
  - congruence.
  - right. split; right; assumption.
  - exists (l ++ map AChar chars), z, (l' ++ map AChar chars), z'. split; [exact Vv|]. split; [exact Vv'|]. destruct M as [[M1 M2]|[M1 M2]].
    + destruct (M2 Lt) as [-> ->]. rewrite !app_nil_r in *. subst l'. split; [reflexivity|]. left. rewrite Cv. auto.
    + subst z'. apply app_inv_tail in E. subst l'. split; [reflexivity|]. right. split; [|reflexivity].
      split; intros _; eapply T_text; eauto.
Qed.
Lemma set_position_srel : forall opts u u' k k', srel opts u u' -> is_T u -> is_T u' -> srel opts (set_position k u) (set_position k' u').
Proof.
  intros opts u u' k k' [[A1 A2] [B1 B2] C D [l [z [l' [z' [V [V' [E M]]]]]]]] T T'. constructor.
  - split; [destruct A1|destruct A2]; constructor; assumption.
  - split; intros _ [X _]; [destruct T as [Y _]|destruct T' as [Y _]]; cbn in X; congruence.
  - exact C.
  - right. split; right; assumption.
  - exists l, z, l', z'. split; [destruct V; constructor; assumption|]. split; [destruct V'; constructor; assumption|]. auto.
Qed.
Lemma WT_U : forall u, is_WT u -> is_U u -> False.
Proof. intros u [[A _]|[A _]] [B _]; congruence. Qed.
Lemma step_det : forall u t v v', is_WT u -> bstep u t v -> bstep u t v' -> v = v'.
Proof.
  intros u t v v' K B B'.
  assert (X : (is_W u -> is_T u -> False)) by (intros [A _] [C _]; congruence).
  inversion B; subst; try (exfalso; eapply WT_U; eauto; fail);
  inversion B'; subst; try (exfalso; eapply WT_U; eauto; fail); try reflexivity; try (exfalso; auto; fail); try congruence;
  try (exfalso; match goal with D : _ \/ _ |- _ => destruct D; congruence end).
Qed.


Lemma ids_fst : forall k t ids, map fst (ids_of k t ids) = ta_ids t ++ map fst ids.
Proof. intros k t ids. unfold ids_of. rewrite map_app, map_map. cbn [fst]. rewrite map_id. reflexivity. Qed.
Lemma metas_two : forall opts u u' h h' ch ch', sok opts u -> sok opts u' ->
  incl ch (d_chain_nodes u) -> incl ch' (d_chain_nodes u') ->
  map (fun i => n_meta (hget (d_heap u) i)) ch = map (fun i => n_meta (hget (d_heap u') i)) ch' ->
  (forall i, i < length (d_heap u) -> n_meta (hget h i) = n_meta (hget (d_heap u) i)) ->
  (forall i, i < length (d_heap u') -> n_meta (hget h' i) = n_meta (hget (d_heap u') i)) ->
  map (fun i => n_meta (hget h i)) ch = map (fun i => n_meta (hget h' i)) ch'.
Proof.
  intros opts u u' h h' ch ch' S S' I I' E H H'.
  rewrite (map_ext_in (fun i => n_meta (hget h i)) (fun i => n_meta (hget (d_heap u) i))) by (intros i Hi; apply H; eapply chain_type; [exact S|auto]).
  rewrite (map_ext_in (fun i => n_meta (hget h' i)) (fun i => n_meta (hget (d_heap u') i))) by (intros i Hi; apply H'; eapply chain_type; [exact S'|auto]).
  exact E.
Qed.
Lemma sk_W : forall u u' src src' mem mem' mk ch ch' cu cu' sp ck ck' ids ids' h h',
  map (fun i => n_meta (hget h i)) ch = map (fun i => n_meta (hget h' i)) ch' -> map fst ids = map fst ids' -> d_parse_options u = d_parse_options u' ->
  sk (W_of u src mem mk ch cu sp ck ids h) = sk (W_of u' src' mem' mk ch' cu' sp ck' ids' h').
Proof. intros. unfold sk, metas, W_of. cbn [d_heap d_chain_nodes d_in_special d_mark_char d_id_tags d_parse_options]. congruence. Qed.

Lemma srel_step : forall opts u t v, bstep u t v -> forall u', srel opts u u' -> exists v', bstep u' t v' /\ srel opts v v'.
Proof.
  intros opts u t v B. induction B; intros u' R.
  Local Ltac both_kind R W := destruct (sr_kind _ _ _ R) as [[X _]|[K K']]; [exfalso; eapply WT_U; [|exact X]; (left; exact W) || (right; exact W)|].
  - both_kind R H. destruct (srel_lt _ _ _ R K K') as [v [v' [B1 [B2 R2]]]]. exists v'. split; [exact B2|].
    rewrite (step_det _ _ _ _ K (bs_wait_lt st H) B1). exact R2.
  - both_kind R H. destruct (srel_char _ _ _ c R K K' H0) as [v [v' [B1 [B2 [R2 _]]]]]; [right; exact H2|]. exists v'. split; [exact B2|].
    rewrite (step_det _ _ _ _ K (bs_wait_merge st c ct H H0 H1 H2 H3) B1). exact R2.
  - both_kind R H. destruct (srel_char _ _ _ c R K K' H0) as [v [v' [B1 [B2 [R2 _]]]]]; [left; congruence|]. exists v'. split; [exact B2|].
    rewrite (step_det _ _ _ _ K (bs_wait_text st c p rest H H0 H1 H2) B1). exact R2.
  - both_kind R H. destruct (srel_char _ _ _ c R K K' H0) as [v [v' [B1 [B2 [R2 _]]]]]; [right; eapply T_text; eauto; apply R|]. exists v'. split; [exact B2|].
    rewrite (step_det _ _ _ _ K (bs_text_char st c H H0) B1). exact R2.
  - both_kind R H. destruct (srel_lt _ _ _ R K K') as [v [v' [B1 [B2 R2]]]]. exists v'. split; [exact B2|].
    rewrite (step_det _ _ _ _ K (bs_text_lt st H) B1). exact R2.
  (* tags *)
  Local Ltac both_U R H := destruct (sr_kind _ _ _ R) as [[_ U']|[K _]]; [|exfalso; eapply WT_U; [exact K|exact H]];
    destruct R as [[S S'] _ Sk _ [l [z [l' [z' [V [V' [E M]]]]]]]]; destruct (sk_metas _ _ Sk) as [Em [Es [Ek [Ei Eo]]]].
  Local Ltac chain2 Em Ec := let p' := fresh "p'" in let rest' := fresh "rest'" in let Ec' := fresh "Ec'" in
    match type of Em with metas ?u = metas ?u' => destruct (d_chain_nodes u') as [|p' rest'] eqn:Ec';
      [exfalso; unfold metas in Em; rewrite Ec, Ec' in Em; discriminate|] end.
  Local Ltac oks B B' S S' := pose proof (bstep_sok _ _ _ _ B S) as S1; pose proof (bstep_sok _ _ _ _ B' S') as S2.
  Local Ltac done S1 S2 N1 N2 V1 V2 E := eapply both_W; [exact S1|exact S2|apply W_of_W|apply W_of_W|exact N1|exact N2| |exact V1|exact V2|rewrite !app_assoc, E; reflexivity].
  - both_U R H. chain2 Em H2. pose proof H3 as H3'. rewrite Eo, Ek in H3'.
    pose proof (bs_tag u' n a t p' rest' U' H0 H1 Ec' H3' H4 H5 H6 H7) as B'. eexists. split; [exact B'|].
    oks (bs_tag u n a t p rest H H0 H1 H2 H3 H4 H5 H6 H7) B' S S'.
    edestruct view_meta with (1 := S) (2 := H) (3 := V) (4 := H2) (7 := S1) as [V1 [N1 [M1 K1]]]; [left; reflexivity|intros i [<-|Hi]; auto|].
    edestruct view_meta with (1 := S') (2 := U') (3 := V') (4 := Ec') (7 := S2) as [V2 [N2 [M2 K2]]]; [left; reflexivity|intros i [<-|Hi]; auto|].
    done S1 S2 N1 N2 V1 V2 E. rewrite Es. apply sk_W; [|rewrite !ids_fst, Ei; reflexivity|exact Eo].
    cbn [map]. f_equal; [etransitivity; [exact M1|symmetry; exact M2]|]. eapply metas_two with (u := u) (u' := u'); eauto using incl_refl.
  - both_U R H. chain2 Em H2. pose proof H3 as H3'. rewrite Eo, Ek in H3'.
    pose proof (bs_void u' n a t p' rest' U' H0 H1 Ec' H3' H4 H5 H6) as B'. eexists. split; [exact B'|].
    oks (bs_void u n a t p rest H H0 H1 H2 H3 H4 H5 H6) B' S S'.
    edestruct view_meta with (1 := S) (2 := H) (3 := V) (4 := H2) (7 := S1) as [V1 [N1 [M1 K1]]]; [left; reflexivity|auto|].
    edestruct view_meta with (1 := S') (2 := U') (3 := V') (4 := Ec') (7 := S2) as [V2 [N2 [M2 K2]]]; [left; reflexivity|auto|].
    done S1 S2 N1 N2 V1 V2 E. rewrite Es. apply sk_W; [|rewrite !ids_fst, Ei; reflexivity|exact Eo].
    eapply metas_two with (u := u) (u' := u'); eauto using incl_refl.
  - both_U R H. chain2 Em H2. pose proof H3 as H3'. rewrite Eo, Ek in H3'. pose proof H5 as H5'. unfold self_close_ok in H5'. rewrite Eo, Es in H5'.
    pose proof (bs_self u' n a t p' rest' U' H0 H1 Ec' H3' H4 H5') as B'. eexists. split; [exact B'|].
    oks (bs_self u n a t p rest H H0 H1 H2 H3 H4 H5) B' S S'.
    edestruct view_meta with (1 := S) (2 := H) (3 := V) (4 := H2) (7 := S1) as [V1 [N1 [M1 K1]]]; [left; reflexivity|auto|].
    edestruct view_meta with (1 := S') (2 := U') (3 := V') (4 := Ec') (7 := S2) as [V2 [N2 [M2 K2]]]; [left; reflexivity|auto|].
    done S1 S2 N1 N2 V1 V2 E. rewrite Es. apply sk_W; [|rewrite !ids_fst, Ei; reflexivity|exact Eo].
    eapply metas_two with (u := u) (u' := u'); eauto using incl_refl.
  - both_U R H. chain2 Em H2. pose proof H3 as H3'. rewrite Eo, Ek in H3'. pose proof H7 as H7'. pose proof H8 as H8'. rewrite Eo in H7', H8'.
    pose proof (bs_raw u' n a t p' rest' b U' H0 H1 Ec' H3' H4 H5 H6 H7' H8') as B'. eexists. split; [exact B'|].
    oks (bs_raw u n a t p rest b H H0 H1 H2 H3 H4 H5 H6 H7 H8) B' S S'. fold k in S1, S2. fold src in S1, S2. fold k src.
    edestruct view_raw with (1 := S) (2 := H) (3 := V) (4 := H2) (7 := S1) as [V1 [N1 K1]]; [reflexivity|reflexivity|].
    edestruct view_raw with (1 := S') (2 := U') (3 := V') (4 := Ec') (7 := S2) as [V2 [N2 K2]]; [reflexivity|reflexivity|].
    done S1 S2 N1 N2 V1 V2 E. rewrite Es. apply sk_W; [|rewrite !ids_fst, Ei; reflexivity|exact Eo].
    eapply metas_two with (u := u) (u' := u'); eauto using incl_refl.
  - both_U R H. pose proof (closes_metas u u' nm Em) as Cm. rewrite H1 in Cm. destruct (closes u' nm) as [[tag' rest']|] eqn:Cl; [|contradiction].
    destruct Cm as [Cm [Cc [Cc' Cr]]].
    assert (H2' : case_sensitive_tagname (d_parse_options u') = true -> exists m, n_meta (get_node u' tag') = Some m /\ m_name m = trim_right nm).
    { rewrite <- Eo, <- Cm. exact H2. }
    pose proof (bs_close u' nm tag' rest' U' H0 Cl H2') as B'. eexists. split; [exact B'|].
    oks (bs_close u nm tag rest H H0 H1 H2) B' S S'.
    pose proof (view_close opts u _ l z tag rest nm _ S S1 V (U_hand _ H) ltac:(discriminate) H1 eq_refl eq_refl eq_refl) as V1.
    pose proof (view_close opts u' _ l' z' tag' rest' nm _ S' S2 V' (U_hand _ U') ltac:(discriminate) Cl eq_refl eq_refl eq_refl) as V2.
    eapply both_W; [exact S1|exact S2|apply W_of_W|apply W_of_W| | | |exact V1|exact V2|rewrite !app_assoc, E; reflexivity].
    + unfold text_cur, ty. cbn [W_of d_heap d_current_node]. destruct (closed_end_node u tag nm (d_position u + length (str "/" ++ nm))) as [X _].
      { eapply chain_type; [exact S|rewrite Cc; left; reflexivity]. } { intros i X. apply textual_lt. apply (s_check _ _ S i X). }
      rewrite X. discriminate.
    + unfold text_cur, ty. cbn [W_of d_heap d_current_node]. destruct (closed_end_node u' tag' nm (d_position u' + length (str "/" ++ nm))) as [X _].
      { eapply chain_type; [exact S'|rewrite Cc'; left; reflexivity]. } { intros i X. apply textual_lt. apply (s_check _ _ S' i X). }
      rewrite X. discriminate.
    + rewrite Es, Ek. apply sk_W; [|exact Ei|exact Eo].
      eapply metas_two with (u := u) (u' := u'); eauto; [rewrite Cc; apply incl_tl, incl_refl|rewrite Cc'; apply incl_tl, incl_refl|..];
        intros i Li; eapply (ev_meta _ _ _ _ _ _ (ev_closed _ _ _ _)); exact Li.
  - both_U R H. pose proof (closes_metas u u' nm Em) as Cm. rewrite H1 in Cm. destruct (closes u' nm) as [[tag' rest']|] eqn:Cl; [contradiction|].
    pose proof H2 as H2'. rewrite Eo in H2'. pose proof (bs_drop u' nm U' H0 Cl H2') as B'. eexists. split; [exact B'|].
    oks (bs_drop u nm H H0 H1 H2) B' S S'. pose proof (s_opts _ _ S) as O1. pose proof (s_opts _ _ S') as O2.
    match type of S1 with sok _ ?x => set (v := x) in * end. match type of S2 with sok _ ?x => set (v' := x) in * end.
    pose proof (view_drop opts u v l z S S1 V (U_hand _ H) ltac:(discriminate) eq_refl eq_refl eq_refl) as V1.
    pose proof (view_drop opts u' v' l' z' S' S2 V' (U_hand _ U') ltac:(discriminate) eq_refl eq_refl eq_refl) as V2.
    cbn [v v' W_of d_current_node] in V1, V2. fold v in V1. fold v' in V2. rewrite O1 in V1. rewrite O2 in V2. specialize (V1 eq_refl). specialize (V2 eq_refl).
    assert (G : forall w i, i < length (d_heap w) -> hget (dropped_heap w) i = hget (d_heap w) i) by (intros w i Li; unfold dropped_heap; apply hget_app_old; exact Li).
    assert (Un : auto_fix_unexpected_endtag opts = true) by (rewrite <- O1; exact H2).
    constructor.
    + auto.
    + split; intros X; congruence.
    + unfold v, v'. rewrite Es, Ek. apply sk_W; [|exact Ei|exact Eo].
      eapply metas_two with (u := u) (u' := u'); eauto using incl_refl; intros i Li; rewrite G by exact Li; reflexivity.
    + right. split; left; apply W_of_W.
    + assert (Tc : forall w, sok opts w -> d_parse_options w = opts -> let y := W_of w (str "/" ++ nm ++ str ">") (d_mem_position w) (d_mark_char w) (d_chain_nodes w)
            (if auto_fix_unclosed_tag (d_parse_options w) then d_current_node w else length (d_heap w)) (d_in_special w) (d_check_textnode w) (d_id_tags w) (dropped_heap w) in
          if auto_fix_unclosed_tag opts then (text_cur y <-> text_cur w) else ~ text_cur y).
      { intros w Sw Ow. cbv zeta. unfold text_cur, ty. cbn [W_of d_heap d_current_node]. rewrite Ow. destruct (auto_fix_unclosed_tag opts) eqn:Ea.
        - rewrite G by apply (s_cur _ _ Sw). reflexivity.
        - unfold dropped_heap. rewrite hget_app_new, Ow, Ea. discriminate. }
      pose proof (Tc u S O1) as T1. pose proof (Tc u' S' O2) as T2. cbv zeta in T1, T2. fold v in T1. fold v' in T2.
      destruct (auto_fix_unclosed_tag opts).
      * exists l, z, l', z'. split; [exact V1|]. split; [exact V2|]. split; [exact E|]. destruct M as [M|[M1 M2]]; [left; exact M|right; tauto].
      * exists (l ++ z), [], (l' ++ z'), []. split; [exact V1|]. split; [exact V2|]. split; [rewrite !app_nil_r; exact E|]. right. tauto.
  - both_U R H. chain2 Em H0.
    pose proof (bs_comment u' b p' rest' U' Ec' H1 H2) as B'. eexists. split; [exact B'|].
    oks (bs_comment u b p rest H H0 H1 H2) B' S S'. fold src in S1, S2. fold src.
    edestruct view_body with (1 := S) (2 := H) (3 := V) (4 := H0) (6 := S1) as [V1 [N1 K1]]; [left; reflexivity|].
    edestruct view_body with (1 := S') (2 := U') (3 := V') (4 := Ec') (6 := S2) as [V2 [N2 K2]]; [left; reflexivity|].
    done S1 S2 N1 N2 V1 V2 E. rewrite Es. apply sk_W; [|exact Ei|exact Eo].
    eapply metas_two with (u := u) (u' := u'); eauto using incl_refl.
  - both_U R H. chain2 Em H0.
    assert (H2' : cdata_here u').
    { destruct H2 as [q [r [sp [m [A1 [A2 [A3 A4]]]]]]]. exists p', rest', sp, m. split; [exact Ec'|]. rewrite <- Es. split; [exact A2|]. split; [|exact A4].
      unfold metas in Em. rewrite Ec', H0 in Em. cbn [map] in Em. injection Em as Em1 Em2. unfold get_node in *. rewrite <- Em1. congruence. }
    pose proof (bs_cdata u' kw b p' rest' U' Ec' H1 H2' H3 H4) as B'. eexists. split; [exact B'|].
    oks (bs_cdata u kw b p rest H H0 H1 H2 H3 H4) B' S S'. fold src in S1, S2. fold src.
    edestruct view_body with (1 := S) (2 := H) (3 := V) (4 := H0) (6 := S1) as [V1 [N1 K1]]; [right; reflexivity|].
    edestruct view_body with (1 := S') (2 := U') (3 := V') (4 := Ec') (6 := S2) as [V2 [N2 K2]]; [right; reflexivity|].
    done S1 S2 N1 N2 V1 V2 E. rewrite Es. apply sk_W; [|exact Ei|exact Eo].
    eapply metas_two with (u := u) (u' := u'); eauto using incl_refl.
  - both_U R H. chain2 Em H0. pose proof H3 as H3'. rewrite Eo, Ek in H3'.
    pose proof (bs_doctype u' n c a t p' rest' U' Ec' H1 H2 H3' H4) as B'. eexists. split; [exact B'|].
    oks (bs_doctype u n c a t p rest H H0 H1 H2 H3 H4) B' S S'. fold t' in S1, S2. fold src in S1, S2. fold t' src.
    assert (G : forall w (b : bool) (i : nat), In i (if b then tl (d_chain_nodes w) else d_chain_nodes w) -> i = length (d_heap w) \/ In i (d_chain_nodes w)).
    { intros w b i Hi. right. destruct b; [|exact Hi]. destruct (d_chain_nodes w); [contradiction|right; exact Hi]. }
    edestruct view_meta with (1 := S) (2 := H) (3 := V) (4 := H0) (7 := S1) as [V1 [N1 [M1 K1]]]; [right; reflexivity|apply G|].
    edestruct view_meta with (1 := S') (2 := U') (3 := V') (4 := Ec') (7 := S2) as [V2 [N2 [M2 K2]]]; [right; reflexivity|apply G|].
    done S1 S2 N1 N2 V1 V2 E. rewrite Es. apply sk_W; [|rewrite !ids_fst, Ei; reflexivity|exact Eo].
    eapply metas_two with (u := u) (u' := u'); eauto.
    + destruct (ta_slash t); [destruct (d_chain_nodes u); [apply incl_refl|apply incl_tl, incl_refl]|apply incl_refl].
    + destruct (ta_slash t); [destruct (d_chain_nodes u'); [apply incl_refl|apply incl_tl, incl_refl]|apply incl_refl].
    + unfold metas in Em. destruct (ta_slash t); [|exact Em]. rewrite H0, Ec' in *. cbn [map tl] in *. injection Em as _ Em. exact Em.
  - destruct (sr_kind _ _ _ R) as [[_ U']|[K _]]; [|exfalso; eapply WT_U; [exact K|exact H]].
    pose proof (sr_ok _ _ _ R) as [S S']. destruct (sk_metas _ _ (sr_sk _ _ _ R)) as [_ [_ [_ [_ Eo]]]].
    assert (Lt : auto_fix_unescaped_lt opts = true) by (rewrite <- (s_opts _ _ S); exact H0).
    pose proof (srel_lt_text opts u u' (str "&lt;" ++ [c]) R H U' Lt) as R2. eexists. split; [apply bs_lt_char; eauto; rewrite <- Eo; exact H0|].
    apply set_position_srel; [exact R2|apply lt_text_T|apply lt_text_T].
  - destruct (sr_kind _ _ _ R) as [[_ U']|[K _]]; [|exfalso; eapply WT_U; [exact K|exact H]].
    pose proof (sr_ok _ _ _ R) as [S S']. destruct (sk_metas _ _ (sr_sk _ _ _ R)) as [_ [_ [_ [_ Eo]]]].
    assert (Lt : auto_fix_unescaped_lt opts = true) by (rewrite <- (s_opts _ _ S); exact H0).
    pose proof (srel_lt_text opts u u' (str "&lt;") R H U' Lt) as R2. destruct (IHB _ R2) as [v' [B' R3]]. exists v'. split; [|exact R3].
    apply bs_lt_lt; auto. rewrite <- Eo. exact H0.
Qed.
