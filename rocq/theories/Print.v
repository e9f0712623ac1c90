(** Documents written canonically: rendering is printing, and printed documents can be read again. *)
From Coq Require Import String.
From Verif Require Import Api SpecText SpecRender SpecParse SpecMisc SpecTree SpecDoc SpecOpts NameProofs RenderProofs Shape Tok DocEnd DocSound Mono.
Local Open Scope string_scope.
Local Open Scope list_scope.

(** ** Nesting token sequences are the tokens of exactly one content *)
Lemma framed_grow : forall opts k P s s', framed P -> nest opts k (mkNest (pnames P) s) = Some s' ->
  framed (grow k P) /\ pnames (grow k P) = open_names s'.
Proof.
  intros opts k P s s' F N.
  assert (A : forall x, framed (add_item x P) /\ pnames (add_item x P) = pnames P).
  { intro x. destruct P as [|[h l] [|p r]]; cbn in *; auto. }
  destruct k; cbn [grow nest] in *; try (injection N as N; subst s'; cbn [open_names]; apply A).
  - cbn [open_names foreign] in N. destruct (pnames P) as [|n r] eqn:Ep, s as [fo|]; try discriminate.
    destruct (chars_eqb n fo); [discriminate|]. injection N as N; subst s'. apply A.
  - destruct (_ || _)%bool; [|discriminate]. injection N as N; subst s'. apply A.
  - injection N as N; subst s'. split; [|reflexivity]. destruct P as [|[h l] r]; [destruct F|]. split; [discriminate|exact F].
  - destruct P as [|[h l] r]; [destruct F|]. destruct h as [[n a]|].
    + destruct r as [|[h' l'] r]; [discriminate F|]. cbn [pnames flat_map fst app open_names] in N.
      destruct (name_fits _ _ _); [|discriminate]. injection N as N; subst s'. cbn [open_names].
      destruct F as [_ F]. cbn [add_item]. split; [destruct r; exact F|reflexivity].
    + destruct r as [|p r]; [|destruct F as [F _]; congruence]. discriminate N.
Qed.
Lemma nest_all_grow : forall opts ks P s s', framed P -> nest_all opts ks (mkNest (pnames P) s) = Some s' ->
  framed (grow_all ks P) /\ pnames (grow_all ks P) = open_names s' /\ ftoks (grow_all ks P) = ftoks P ++ ks.
Proof.
  intros opts ks. induction ks as [|k ks IH]; intros P s s' F N.
  - cbn in *. injection N as N; subst s'. rewrite app_nil_r. auto.
  - cbn [nest_all] in N. destruct (nest opts k _) as [[o f]|] eqn:E; [|discriminate].
    destruct (framed_grow _ _ _ _ _ F E) as [F' E']. cbn [open_names] in E'. rewrite <- E' in N.
    change (grow_all (k :: ks) P) with (grow_all ks (grow k P)).
    destruct (IH _ _ _ F' N) as (A & B & C). rewrite C, (ftoks_grow _ _ _ _ _ F E), <- app_assoc. auto.
Qed.
Lemma nests_content : forall opts ks, nests opts ks -> exists f, flat_map tokens f = ks /\ marked f.
Proof.
  intros opts ks [fo N]. destruct (nest_all_grow opts ks p_start None _ eq_refl N) as (A & B & C).
  destruct (grow_all ks p_start) as [|[h l] r]; [destruct A|]. destruct r as [|p r].
  - cbn in A. subst h. cbn [ftoks head_toks app] in C. exists (mark_all l).
    rewrite mark_all_list, <- tokens_list_plain, plain_mark_list, tokens_list_plain. split; [exact C|].
    unfold marked. rewrite mark_all_list. apply mark_list_idem.
  - destruct A as [A _]. destruct h as [[n a]|]; [discriminate B|congruence].
Qed.
Lemma tokens_unique : forall f f', marked f -> marked f' -> flat_map tokens f = flat_map tokens f' -> f = f'.
Proof.
  intros f f' M M' E. apply marked_unique; auto. pose proof (grow_items f None [] []) as A.
  rewrite E, grow_items in A. cbn [app] in A. congruence.
Qed.

Lemma source_accepted : forall opts ks s, source opts ks s -> nests opts ks ->
  exists d f, parse opts s = Parsed d /\ flat_map tokens f = ks /\ marked f /\ doc_content d f.
Proof.
  intros opts ks s S N. destruct (nests_content _ _ N) as [f [E M]]. subst ks.
  destruct (source_parses_all opts f s S N M) as [d [P D]]. eauto 6.
Qed.

(** A tree holds one content. *)
Lemma depicts_unique : forall x t, depicts x t -> forall x', depicts x' t -> x = x'.
Proof.
  intro x. induction x as [c b|c|c|n a|n a s|n a c e|n a ks e IH] using item_ind2; intros t D x' D'.
  1-6: inversion D; inversion D'; subst; unfold end_is, meta_is in *;
    repeat match goal with H : exists _, _ |- _ => destruct H | H : _ /\ _ |- _ => destruct H end;
    repeat match goal with b : bool |- _ => destruct b end; cbn in *; try congruence.
  inversion D; inversion D'; subst; unfold end_is, meta_is in *;
    repeat match goal with H : exists _, _ |- _ => destruct H | H : _ /\ _ |- _ => destruct H end;
    repeat match goal with b : bool |- _ => destruct b end; cbn in *; try congruence.
  f_equal; try congruence.
  match goal with H : Forall2 depicts ks _, H2 : Forall2 depicts ?k _ |- ks = ?k => rename H into Z; rename H2 into Z'; rename k into ks0 end.
  clear - IH Z Z'. revert ks0 Z'. induction Z as [|k t1 ks l K Z IHZ]; intros ks0 Z'; inversion Z'; subst; [reflexivity|].
  inversion IH; subst. f_equal; eauto.
Qed.
Lemma content_unique : forall d f f', doc_content d f -> doc_content d f' -> f = f'.
Proof.
  intros d f f' (t & E & _ & _ & _ & _ & Z) (t' & E' & _ & _ & _ & _ & Z'). assert (t' = t) by congruence. subst t'. clear E E'.
  revert f' Z'. induction Z as [|k t' ks l K Z IHZ]; intros f' Z'; inversion Z'; subst; [reflexivity|].
  f_equal; eauto using depicts_unique.
Qed.
(** Two nesting token sequences with the same spelling are equal. *)
Lemma source_unambiguous : forall opts ks ks' s, source opts ks s -> source opts ks' s -> nests opts ks -> nests opts ks' -> ks = ks'.
Proof.
  intros opts ks ks' s S S' N N'.
  destruct (source_accepted opts ks s S N) as (d & f & P & E & M & D).
  destruct (source_accepted opts ks' s S' N') as (d' & f' & P' & E' & M' & D').
  assert (d' = d) by congruence. subst d'. rewrite <- E, <- E', (content_unique _ _ _ D D'). reflexivity.
Qed.

(** ** Printing is the default rendering *)
Lemma attrs_print : forall l, flat_map (fun a => WS_CHAR :: attr_build a false) l = print_attrs l.
Proof.
  induction l as [|[[k|] [v|] [q|] nq] l IH]; [reflexivity|..]; cbn; rewrite IH, ?Bool.orb_true_r; reflexivity.
Qed.
Lemma plain_build : forall env t s, plain_node t -> build_tree env default_ro t s = build_node env default_ro t s.
Proof.
  intros env [i ty b e et c ks m] s (A & B & C). cbn in A, B, C. subst. rewrite build_tree_eq.
  destruct (build_node _ _ _ _) as [[s1 o1]| |]; cbn; rewrite ?app_nil_r; reflexivity.
Qed.
Lemma leaf_build : forall env t s, t_end_tag t = None -> t_childs t = None -> build_tree env default_ro t s = build_node env default_ro t s.
Proof.
  intros env [i ty b e et c ks m] s A B. cbn in A, B. subst. rewrite build_tree_eq.
  destruct (build_node _ _ _ _) as [[s1 o1]| |]; cbn; rewrite ?app_nil_r; reflexivity.
Qed.
Definition whole (s : render_status) : Prop := rs_inner_type s = INone /\ rs_root s = false.
Lemma tag_build : forall env t m s, whole s -> t_type t = NTag -> t_meta t = Some m ->
  exists s', whole s' /\ build_node env default_ro t s =
    ROk (s', str "<" ++ m_name m ++ print_attrs (m_attrs m) ++ (if m_self_closed m then str " /" else []) ++ str ">" ++
             match t_content t with Some c => c | None => [] end).
Proof.
  intros env t m [it pr ro] [A B] T M. cbn in A, B. subst. unfold build_node. cbn [rs_is_in_pre rs_root rs_inner_type]. rewrite T, M.
  eexists. split; [|unfold attrs_to_string; rewrite attrs_print; cbn [lowercase_tagname remove_attr_quote always_close_void encode_content default_ro];
    rewrite Bool.andb_false_r, Bool.orb_false_r, <- !app_assoc; destruct (m_self_closed m); reflexivity].
  split; reflexivity.
Qed.
Lemma end_build : forall env t c s, whole s -> t_type t = NTagEnd -> t_content t = Some c ->
  exists s', whole s' /\ build_node env default_ro t s = ROk (s', str "</" ++ c ++ str ">").
Proof.
  intros env t c [it pr ro] [A B] T M. cbn in A, B. subst. unfold build_node. cbn [rs_is_in_pre rs_root rs_inner_type]. rewrite T, M.
  eexists. split; [|reflexivity]. destruct (_ && _)%bool; split; reflexivity.
Qed.
Lemma depicts_build : forall env x t, depicts x t -> forall s, whole s ->
  exists s', whole s' /\ build_tree env default_ro t s = ROk (s', print (tokens x)).
Proof.
  intros env x. induction x as [c b|c|c|n a|n a sc|n a c e|n a ks e IH] using item_ind2; intros t D s Ws;
    unfold print; cbn [tokens flat_map print_token]; rewrite ?app_nil_r.
  - inversion D as [c' b' t' T C Pn| | | | | |]. subst. exists s. split; [exact Ws|]. rewrite plain_build by assumption.
    unfold build_node. rewrite T, C. destruct b; cbn; rewrite Bool.andb_false_r; reflexivity.
  - inversion D as [|c' t' T C Pn| | | | |]. subst. exists s. split; [exact Ws|]. rewrite plain_build by assumption.
    destruct Ws as [A B]. unfold build_node. rewrite T, C, A, B. reflexivity.
  - inversion D as [| |c' t' T C Pn| | | |]. subst. exists s. split; [exact Ws|]. rewrite plain_build by assumption.
    unfold build_node. rewrite T, C. reflexivity.
  - inversion D as [| | |n' l' m t' T C En K M Nm At Sc| | |]. subst. exists s. split; [exact Ws|]. rewrite leaf_build by assumption.
    unfold build_node. rewrite T, M. unfold attrs_to_string. cbn [remove_attr_quote default_ro]. rewrite attrs_print. reflexivity.
  - inversion D as [| | | |n' l' sc' m t' T C En K M MI| |]. subst. destruct MI as (A & B & S & E). subst.
    destruct (tag_build env t m s Ws T M) as [s' [W' Q]].
    exists s'. split; [exact W'|]. rewrite leaf_build by assumption. rewrite Q, C. rewrite app_nil_r. reflexivity.
  - inversion D as [| | | | |n' l' c' e' m t' T C En K M MI|]. subst. destruct MI as (A & B & S & E). subst.
    destruct (tag_build env t m s Ws T M) as [s' [W' Q]].
    destruct En as (te & X1 & X2 & X3 & X4). destruct (end_build env te e s' W' X2 X3) as [s2 [W2 Q2]].
    exists s2. split; [exact W2|]. destruct t as [i ty b ee et cc ks mm]. cbn [t_type t_content t_end_tag t_childs t_meta] in *. subst. rewrite build_tree_eq.
    rewrite Q. cbn [rbind]. rewrite Q2. cbn [rbind app]. rewrite S. cbn [app]. rewrite <- !app_assoc. reflexivity.
  - inversion D as [| | | | | |n' l' ks' e' m t' T C En M MI Z]. subst. destruct MI as (A & B & S & E). subst.
    destruct (tag_build env t m s Ws T M) as [s' [W' Q]].
    destruct En as (te & X1 & X2 & X3 & X4).
    assert (G : forall l, Forall2 depicts ks l -> forall s, whole s -> exists s', whole s' /\
      build_list env default_ro l s = ROk (s', print (flat_map tokens ks))).
    { clear - IH. intros l Z. induction Z as [|k t ks l K Z IHZ]; intros s Ws.
      - exists s. split; [exact Ws|reflexivity].
      - apply Forall_cons_iff in IH. destruct IH as [I1 I2]. destruct (I1 _ K s Ws) as [s1 [W1 Q1]]. destruct (IHZ I2 s1 W1) as [s2 [W2 Q2]].
        exists s2. split; [exact W2|]. cbn [build_list]. rewrite Q1. cbn [rbind]. rewrite Q2. cbn [rbind flat_map].
        unfold print. rewrite flat_map_app. reflexivity. }
    destruct (G _ Z s' W') as [s1 [W1 Q1]]. destruct (end_build env te e s1 W1 X2 X3) as [s2 [W2 Q2]].
    exists s2. split; [exact W2|]. destruct t as [i ty b ee et cc kk mm]. cbn [t_type t_content t_end_tag t_childs t_meta child_list] in *. subst. rewrite build_tree_eq.
    rewrite Q. cbn [rbind].
    assert (Q3 : match kk with None => ROk (s', []) | Some l => if rs_root s' then do '(_, out) <- build_list env default_ro l (rs_set_root false s'); ROk (s', out)
      else build_list env default_ro l s' end = ROk (s1, print (flat_map tokens ks))).
    { destruct kk as [l|]; [rewrite (proj2 W'); exact Q1|]. exact Q1. }
    rewrite Q3. cbn [rbind]. rewrite Q2. cbn [rbind]. rewrite S. cbn [app]. rewrite flat_map_app. cbn [flat_map print_token].
    unfold print. rewrite <- !app_assoc, app_nil_r. reflexivity.
Qed.
Lemma content_render : forall env d f, doc_content d f -> render env default_ro d = ROk (print (flat_map tokens f)).
Proof.
  intros env d f (t & E & T & C & En & Me & Z). unfold render, render_gen. rewrite E. unfold build. change (inner_html default_ro) with false. cbn [andb].
  destruct t as [i ty b e et c ks m]. cbn [t_type t_content t_end_tag t_meta] in *. subst.
  assert (G : forall l f, Forall2 depicts f l -> forall s, whole s -> exists s', whole s' /\
      build_list env default_ro l s = ROk (s', print (flat_map tokens f))).
  { clear. intros l f Z. induction Z as [|k t ks l K Z IHZ]; intros s Ws.
    - exists s. split; [exact Ws|reflexivity].
    - destruct (depicts_build env _ _ K s Ws) as [s1 [W1 Q1]]. destruct (IHZ s1 W1) as [s2 [W2 Q2]].
      exists s2. split; [exact W2|]. cbn [build_list]. rewrite Q1. cbn [rbind]. rewrite Q2. cbn [rbind flat_map].
      unfold print. rewrite flat_map_app. reflexivity. }
  destruct (G _ _ Z (mkRS INone false false)) as [s' [_ Q]]; [split; reflexivity|].
  cbv zeta. rewrite build_tree_eq. cbn [build_node t_type rbind rs_root rs_set_root rs_inner_type rs_is_in_pre].
  destruct ks as [l|]; cbn [rs_set_root rs_inner_type rs_is_in_pre rs_root].
  - cbn [child_list t_childs] in Q. unfold rs_set_root. cbn [rs_inner_type rs_is_in_pre]. rewrite Q. cbn [rbind app]. rewrite app_nil_r. reflexivity.
  - cbn in Q. injection Q as _ Q. rewrite <- Q. reflexivity.
Qed.

(** ** Printed tokens can be read again *)
Lemma area_good : forall dt s l sc, SpecDoc.area false dt s l sc -> Forall (good_attr dt) l.
Proof.
  intros dt s l sc A. induction A; try (constructor; [|assumption || constructor]); [constructor|..].
  - left. eauto.
  - left. eauto.
  - right. left. eauto 6.
  - right. right. left. exists k, v, q. auto.
  - right. right. right. eauto 6.
Qed.
Lemma filler_sp : filler (str " ").
Proof. constructor; [|constructor]. left. reflexivity. Qed.
(** No '=' after a blank in a printed area. *)
Lemma print_no_eq : forall dt l (sc : bool), Forall (good_attr dt) l ->
  after_bare (print_attrs l ++ if sc then str " /" else []).
Proof.
  intros dt l sc G. split.
  - destruct l; destruct sc; cbn; auto; left; reflexivity.
  - intros e r' E [Q|(c & w & Wc & Fw & Q)]; subst e.
    + destruct l; destruct sc; cbn in E; discriminate E.
    + destruct l as [|a l].
      * destruct sc; cbn in E; [|destruct w; discriminate E]. injection E as _ E.
        destruct w as [|x [|y w]]; cbn in E; try discriminate E.
      * cbn [print_attrs flat_map] in E. rewrite <- !app_assoc in E. change (str " ") with [32%N] in E. cbn [app] in E.
        injection E as _ E. inversion G as [|? ? Ga _]; subst.
        assert (K : exists x r, print_attr a = x :: r /\ ~ slash_filler x /\ x <> 61%N).
        { assert (KC : forall x, key_char x -> ~ slash_filler x /\ x <> 61%N).
          { intros x (A & B & C & D). split; [|exact B]. unfold not_ws in A; intros [Y|Y]; [unfold is_ws in Y; congruence|exact (C Y)]. }
          assert (QC : forall x, quote_char x -> ~ slash_filler x /\ x <> 61%N).
          { intros x [Y|Y]; subst x; (split; [|discriminate]); intros [Y|Y]; discriminate Y. }
          destruct Ga as [(k & Ea & (x & k' & Ek & _ & [Kx|[_ Kx]] & _))|[(k & v & Ea & (x & k' & Ek & _ & [Kx|[_ Kx]] & _) & _)|
            [(k & v & q & Ea & (x & k' & Ek & _ & [Kx|[_ Kx]] & _) & _)|(v & q & Ea & _ & Qq & _)]]]; try discriminate Kx; subst a.
          - subst k. exists x, k'. split; [reflexivity|apply KC; exact Kx].
          - subst k. eexists x, _. split; [reflexivity|apply KC; exact Kx].
          - subst k. eexists x, _. split; [reflexivity|apply KC; exact Kx].
          - eexists q, _. split; [reflexivity|apply QC; exact Qq]. }
        destruct K as (x & r & Ex & Nx & Ne). rewrite Ex in E. destruct w as [|y w]; cbn in E.
        -- injection E as E _. congruence.
        -- injection E as E _. subst y. inversion Fw; subst. contradiction.
Qed.
Lemma area_head : forall dt a l (sc : bool) w, filler w -> good_attr dt a -> Forall (good_attr dt) l ->
  SpecDoc.area false dt (print_attrs l ++ if sc then str " /" else []) l sc ->
  SpecDoc.area false dt (w ++ print_attr a ++ print_attrs l ++ if sc then str " /" else []) (a :: l) sc.
Proof.
  intros dt a l sc w Fw Ga G IH.
  destruct Ga as [(k & E & K)|[(k & v & E & K & V)|[(k & v & q & E & K & Q & N)|(v & q & E & D & Q & N)]]]; subst a.
  - apply ar_bare; auto. apply (print_no_eq dt); exact G.
  - cbn [print_attr unquoted a_key a_value a_quote]. rewrite <- !app_assoc.
    refine (ar_unquoted false dt w k (str "=") [] v _ l sc Fw K (or_introl eq_refl) (Forall_nil _) V _ IH).
    destruct l, sc; cbn; auto; reflexivity.
  - cbn [print_attr quoted a_key a_value a_quote]. rewrite <- !app_assoc.
    exact (ar_quoted false dt w k (str "=") [] q v _ l sc Fw K (or_introl eq_refl) (Forall_nil _) Q N IH).
  - cbn [print_attr keyless a_key a_value a_quote]. rewrite <- !app_assoc.
    exact (ar_keyless false dt w q v _ l sc Fw D Q N IH).
Qed.
Lemma area_print : forall dt l (sc : bool), Forall (good_attr dt) l ->
  SpecDoc.area false dt (print_attrs l ++ if sc then str " /" else []) l sc.
Proof.
  intros dt l sc G. induction G as [|a l Ga G IH].
  - destruct sc; [exact (ar_end false dt (str " /") ltac:(constructor; [left; reflexivity|constructor; [right; reflexivity|constructor]]))|].
    exact (ar_end false dt [] (Forall_nil _)).
  - cbn [print_attrs flat_map]. rewrite <- !app_assoc. apply area_head; auto using filler_sp.
Qed.
Lemma print_start : forall l (sc : bool), starts_with slash_filler (print_attrs l ++ if sc then str " /" else []).
Proof. intros [|a l] [|]; cbn; auto; left; reflexivity. Qed.

Lemma written_print : forall opts k s, written opts k s -> allow_attr_key_starts_with_equal_sign opts = false ->
  (forall n, k <> KDoctype n []) -> written opts k (print_token k).
Proof.
  intros opts k s W Eq Nd. destruct W as [c A B|c A|kw c A B|n b a l A B C|n a l sc A B C D|n a l c e A B C D E F|n a l A B C D E|e A];
    cbn [print_token]; rewrite ?Eq in *.
  - constructor; assumption.
  - constructor; assumption.
  - exact (w_cdata opts (str "[CDATA[") c eq_refl B).
  - destruct l as [|x l]; [exfalso; eapply Nd; reflexivity|]. pose proof (area_good _ _ _ _ C) as G.
    inversion G as [|? ? Gx Gl]; subst.
    pose proof (area_head true x l false [] (Forall_nil _) Gx Gl (area_print _ _ false Gl)) as P. cbn [app] in P. rewrite app_nil_r in P.
    cbn [print_attrs flat_map]. change (str " ") with [32%N]. rewrite <- !app_assoc.
    rewrite (app_assoc (print_attr x)). apply (w_doctype opts n 32%N); [exact A|reflexivity|]. rewrite Eq. exact P.
  - pose proof (area_print _ _ sc (area_good _ _ _ _ C)) as P. rewrite (app_assoc (print_attrs l)).
    apply w_leaf; rewrite ?Eq; auto using print_start.
  - pose proof (area_print _ _ false (area_good _ _ _ _ C)) as P. rewrite app_nil_r in P.
    apply w_raw; rewrite ?Eq; auto. rewrite <- (app_nil_r (print_attrs l)). exact (print_start l false).
  - pose proof (area_print _ _ false (area_good _ _ _ _ C)) as P. rewrite app_nil_r in P.
    apply w_open; rewrite ?Eq; auto. rewrite <- (app_nil_r (print_attrs l)). exact (print_start l false).
  - constructor. exact A.
Qed.
Lemma source_print : forall opts ks s, source opts ks s -> allow_attr_key_starts_with_equal_sign opts = false ->
  (forall n, ~ In (KDoctype n []) ks) -> source opts ks (print ks).
Proof.
  intros opts ks s S Eq. induction S as [|k t ks r W S IH C]; intro N; [constructor|].
  change (print (k :: ks)) with (print_token k ++ print ks). constructor; [|apply IH; intros n I; apply (N n); right; exact I|exact C].
  apply (written_print opts k t W Eq). intros n E. apply (N n). left. exact E.
Qed.

(** ** Rendering and parsing again *)
Lemma doctype_sub : forall n x t, depicts x t -> In (KDoctype n []) (tokens x) ->
  exists t' m, sub t' t /\ t_type t' = NHTMLDOCTYPE /\ t_meta t' = Some m /\ m_attrs m = [].
Proof.
  intros n x. induction x as [c b|c|c|n0 a|n0 a sc|n0 a c e|n0 a ks e IH] using item_ind2; intros t D I;
    cbn [tokens] in I; try (destruct I as [I|I]; [try discriminate I|try destruct I]).
  - injection I as I1 I2. subst n0 a. inversion D as [| | |n' l' m t' T C En K M Nm At Sc| | |]. subst. exists t, m. auto using sub_refl.
  - apply in_app_iff in I. destruct I as [I|[I|[]]]; [|discriminate I].
    inversion D as [| | | | | |n' l' ks' e' m t' T C En M MI Z]. subst. unfold child_list in Z.
    assert (G : forall l, Forall2 depicts ks l -> exists k t' m, In k l /\ sub t' k /\ t_type t' = NHTMLDOCTYPE /\ t_meta t' = Some m /\ m_attrs m = []).
    { clear - IH I. intros l Z. induction Z as [|x k ks l K Z IHZ]; [destruct I|]. apply Forall_cons_iff in IH. destruct IH as [I1 I2].
      cbn [flat_map] in I. apply in_app_iff in I. destruct I as [I|I].
      - destruct (I1 _ K I) as (t' & m & A). exists k, t', m. split; [left; reflexivity|exact A].
      - destruct (IHZ I2 I) as (k' & t' & m & A & B). exists k', t', m. split; [right; exact A|exact B]. }
    destruct (G _ Z) as (k & t' & m' & A & B & C'). destruct (t_childs t) as [l|] eqn:Ec; [|destruct A].
    exists t', m'. split; [eapply sub_child; eauto|exact C'].
Qed.
Lemma full_tokens : forall d f, doc_content d f -> full_doctypes d -> forall n, ~ In (KDoctype n []) (flat_map tokens f).
Proof.
  intros d f (r & E & _ & _ & _ & _ & Z) FD n I. unfold child_list in Z. destruct (t_childs r) as [l|] eqn:Ec.
  - assert (G : exists k t' m, In k l /\ sub t' k /\ t_type t' = NHTMLDOCTYPE /\ t_meta t' = Some m /\ m_attrs m = []).
    { clear - Z I. induction Z as [|x k ks l K Z IHZ]; [destruct I|]. cbn [flat_map] in I. apply in_app_iff in I. destruct I as [I|I].
      - destruct (doctype_sub _ _ _ K I) as (t' & m & A). exists k, t', m. split; [left; reflexivity|exact A].
      - destruct (IHZ I) as (k' & t' & m & A & B). exists k', t', m. split; [right; exact A|exact B]. }
    destruct G as (k & t' & m' & A & B & C & D & F). exact (FD r t' m' E ltac:(eapply sub_child; eauto) C D F).
  - inversion Z; subst. destruct I.
Qed.
Lemma reparse : forall opts s d env, parse opts s = Parsed d -> no_repair opts -> open_doctypes d ->
  allow_attr_key_starts_with_equal_sign opts = false -> full_doctypes d ->
  exists out d' f, render env default_ro d = ROk out /\ parse opts out = Parsed d' /\
    doc_content d f /\ doc_content d' f /\ render env default_ro d' = ROk out.
Proof.
  intros opts s d env P NR SD Eq FD. destruct (parsed_source _ _ _ P NR SD) as (f & S & N & M & D).
  exists (print (flat_map tokens f)). pose proof (source_print _ _ _ S Eq (full_tokens d f D FD)) as S'.
  destruct (source_parses_all opts f _ S' N M) as (d' & P' & D').
  exists d', f. split; [apply content_render; exact D|]. split; [exact P'|]. split; [exact D|]. split; [exact D'|].
  apply content_render; exact D'.
Qed.
Lemma canonical : forall opts ks s env, source opts ks s -> nests opts ks -> s = print ks ->
  exists d, parse opts s = Parsed d /\ render env default_ro d = ROk s.
Proof.
  intros opts ks s env S N E. destruct (source_accepted opts ks s S N) as (d & f & P & Et & M & D).
  exists d. split; [exact P|]. rewrite (content_render env d f D), Et, <- E. reflexivity.
Qed.
(** A single tag with any attributes. *)
Lemma name_self : forall cs n, open_name n -> name_fits cs n (trim_right n) = true.
Proof.
  intros cs n O. rewrite (open_trim _ O). destruct cs; cbn; [apply chars_eqb_refl|apply same_name_refl].
Qed.
Lemma attributes_kept : forall opts n a l sc env, open_name n -> starts_with slash_filler a ->
  SpecDoc.area (allow_attr_key_starts_with_equal_sign opts) false a l sc -> raw_name n = false ->
  (sc = true -> allow_self_closing opts = true \/ void_name n = true) ->
  let closing := if (sc || void_name n)%bool then [] else str "</" ++ n ++ str ">" in
  exists d, parse opts (str "<" ++ n ++ a ++ str ">" ++ closing) = Parsed d /\
    doc_content d [if (sc || void_name n)%bool then XLeaf n l sc else XElem n l [] n] /\
    render env default_ro d =
      ROk (str "<" ++ n ++ print_attrs l ++ (if sc then str " /" else []) ++ str ">" ++ closing).
Proof.
  intros opts n a l sc env O St A R Sc closing. subst closing. destruct (sc || void_name n)%bool eqn:E.
  - assert (V : sc = true \/ void_name n = true) by (destruct sc; auto).
    destruct (source_parses_all opts [XLeaf n l sc] (str "<" ++ n ++ a ++ str ">")) as (d & P & D).
    + cbn [flat_map tokens app]. rewrite <- (app_nil_r (str "<" ++ _)). apply src_cons; [|constructor|discriminate].
      apply w_leaf; assumption.
    + exists None. cbn [flat_map tokens app nest_all nest foreign].
      replace (negb sc || _ || _ || _)%bool with true; [reflexivity|].
      destruct sc; [|reflexivity]. destruct (Sc eq_refl) as [->| ->]; cbn [negb orb]; rewrite ?Bool.orb_true_r; reflexivity.
    + reflexivity.
    + exists d. rewrite !app_nil_r. split; [exact P|]. split; [exact D|].
      rewrite (content_render env _ _ D). unfold print. cbn [flat_map tokens app print_token]. rewrite app_nil_r. reflexivity.
  - apply Bool.orb_false_iff in E. destruct E as [-> V].
    destruct (source_parses_all opts [XElem n l [] n] (str "<" ++ n ++ a ++ str ">" ++ str "</" ++ n ++ str ">")) as (d & P & D).
    + cbn [flat_map tokens app].
      replace (str "<" ++ n ++ a ++ str ">" ++ str "</" ++ n ++ str ">") with ((str "<" ++ n ++ a ++ str ">") ++ (str "</" ++ n ++ str ">") ++ [])
        by (rewrite app_nil_r, <- !app_assoc; reflexivity).
      apply src_cons; [apply w_open; assumption| |discriminate].
      apply src_cons; [|constructor|discriminate]. constructor.
      destruct O as (c & n' & -> & Al & Nc). intros [I|I].
      * subst c. discriminate Al.
      * rewrite Forall_forall in Nc. apply Nc in I. destruct I as (_ & _ & I). congruence.
    + cbn [flat_map tokens app]. unfold nests. cbn [nest_all nest open_names]. rewrite (name_self _ _ O). eexists. reflexivity.
    + reflexivity.
    + exists d. split; [exact P|]. split; [exact D|].
      rewrite (content_render env _ _ D). unfold print. cbn [flat_map tokens app print_token]. rewrite app_nil_r, <- !app_assoc. reflexivity.
Qed.
Lemma attributes_written : forall l (sc : bool), Forall (good_attr false) l ->
  SpecDoc.area false false (print_attrs l ++ if sc then str " /" else []) l sc /\
  starts_with slash_filler (print_attrs l ++ if sc then str " /" else []).
Proof. intros l sc G. split; [apply area_print; exact G|apply print_start]. Qed.
