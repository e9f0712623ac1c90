(** Proofs for C69: putting tags around children, taking them away, and changing them. *)
From Coq Require Import String.
From Verif Require Import Api SpecText SpecRender SpecParse SpecMisc SpecTree SpecDoc SpecJoin SpecMap SpecSwap NameProofs TextProofs DocTree DocSound Print MapProofs JoinProofs NodeProofs NodeDoc SwapProofs AttrsProofs FindProofs.
Local Open Scope string_scope.
Local Open Scope list_scope.

Lemma source_split : forall opts a b s, source opts (a ++ b) s -> exists s1 s2, s = s1 ++ s2 /\ source opts a s1 /\ source opts b s2.
Proof.
  intros opts a b. induction a as [|k a IH]; intros s S; [exists [], s; repeat split; [constructor|exact S]|].
  inversion S as [|k' w ks r W Sr T]; subst. destruct (IH _ Sr) as (s1 & s2 & -> & A & B).
  exists (w ++ s1), s2. split; [apply app_assoc|]. split; [|exact B]. constructor; [exact W|exact A|]. intro K. specialize (T K). destruct a; [exact I|exact T].
Qed.
Lemma source_one : forall opts k s, source opts [k] s -> written opts k s.
Proof. intros opts k s S. inversion S as [|k' w ks r W Sr T]; subst. inversion Sr; subst. rewrite app_nil_r. exact W. Qed.
Lemma join_close : forall q e, join q [KClose e] = q ++ [KClose e].
Proof. intros q e. induction q as [|k q IH]; [reflexivity|]. rewrite join_cons, IH; [reflexivity|]. intros; reflexivity. Qed.

(** An element as source, given its tags and the source of its content. *)
Lemma elem_source : forall opts n l w e m s, written opts (KOpen n l) w -> ~ In 62%N e -> source opts (flat_map tokens m) s ->
  source opts (flat_map tokens [XElem n l m e]) (w ++ s ++ str "</" ++ e ++ str ">").
Proof.
  intros opts n l w e m s W Ne S. cbn [flat_map tokens]. rewrite app_nil_r. cbn [app]. constructor; [exact W| |discriminate].
  rewrite <- join_close. apply join_source; [exact S|]. rewrite <- (app_nil_r (str "</" ++ e ++ str ">")). constructor; [constructor; exact Ne|constructor|discriminate].
Qed.
Lemma elem_nests : forall opts n l e m, allow_self_closing opts = true -> (forall c, ~ In (KCData c) (flat_map tokens m)) ->
  name_fits (case_sensitive_tagname opts) n (trim_right e) = true -> nests opts (flat_map tokens m) -> nests opts (flat_map tokens [XElem n l m e]).
Proof.
  intros opts n l e m Al Nc Nf [fo N]. assert (Q : exists f', nest_all opts (flat_map tokens [XElem n l m e]) (mkNest [] None) = Some (mkNest [] f')); [|exact Q].
  cbn [flat_map tokens]. rewrite app_nil_r. cbn [app nest_all]. cbn [nest open_names foreign]. rewrite nest_all_app.
  match goal with |- context [nest_all opts (flat_map tokens m) (mkNest ?a ?g)] => destruct (free_nests opts m Al Nc _ _ N a g) as [f' ->] end.
  cbn [nest_all nest open_names]. rewrite Nf. eauto.
Qed.
Lemma elem_cdata : forall n l e m, (forall c, ~ In (KCData c) (flat_map tokens m)) -> forall c, ~ In (KCData c) (flat_map tokens [XElem n l m e]).
Proof.
  intros n l e m Nc c I. cbn [flat_map tokens] in I. rewrite app_nil_r in I. destruct I as [I|I]; [discriminate I|]. apply in_app_iff in I. destruct I as [I|[I|[]]]; [exact (Nc c I)|discriminate I].
Qed.
Lemma elem_print : forall n l e m, print (flat_map tokens [XElem n l m e]) = (str "<" ++ n ++ print_attrs l ++ str ">") ++ print (flat_map tokens m) ++ str "</" ++ e ++ str ">".
Proof. intros n l e m. cbn [flat_map tokens]. rewrite app_nil_r. cbn [app]. unfold print. cbn [flat_map print_token]. rewrite flat_map_app. cbn [flat_map print_token]. rewrite app_nil_r, <- !app_assoc. reflexivity. Qed.

Theorem wrap_children : forall opts s d r p t i n nm l w e f env, parse opts s = Parsed d -> no_repair opts -> allow_self_closing opts = true -> without_cdata d ->
  doc_tree d = Some r -> at_place r p t -> roomy p t -> doc_content d f ->
  written opts (KOpen nm l) w -> name_fits (case_sensitive_tagname opts) nm (trim_right e) = true -> ~ In 62%N e ->
  exists s1 s2 s3 m d2 os o1 o3, s = s1 ++ s2 ++ s3 /\ length s1 = begins s t i /\
    Forall2 depicts m (firstn n (skipn i (child_list t))) /\ source opts (flat_map tokens m) s2 /\
    parse opts (s1 ++ (w ++ s2 ++ str "</" ++ e ++ str ">") ++ s3) = Parsed d2 /\ doc_content d2 (mark_all (splice p i n [XElem nm l m e] f)) /\
    Forall2 (fun k o => build env default_ro k false = ROk o) (firstn n (skipn i (child_list t))) os /\ render env default_ro d = ROk (o1 ++ concat os ++ o3) /\
    render env default_ro d2 = ROk (o1 ++ ((str "<" ++ nm ++ print_attrs l ++ str ">") ++ concat os ++ str "</" ++ e ++ str ">") ++ o3).
Proof.
  intros opts s d r p t i n nm l w e f env P Nr Al Nc Er At Ro Df W Nf Ne. pose proof (content_open _ _ _ _ P Df) as O.
  destruct (splice_core _ _ _ _ _ _ i n _ env P Nr O Al Nc Er At Ro Df) as (s1 & s2 & s3 & m & os & o1 & o3 & A1 & A2 & A3 & A4 & Nm & Ncm & A5 & Eo & A6 & A7).
  destruct (A7 [XElem nm l m e] _ (elem_source _ _ _ _ _ _ _ W Ne A4) (elem_nests _ _ _ _ _ Al Ncm Nf Nm) (elem_cdata _ _ _ _ Ncm)) as (d2 & P2 & D2 & R2).
  exists s1, s2, s3, m, d2, os, o1, o3. rewrite elem_print, <- Eo in R2. auto 12.
Qed.

Lemma place_item : forall r p t f, Forall2 depicts f (child_list r) -> at_place r p t -> p <> [] -> exists x, depicts x t.
Proof.
  intros r p t f Z At. revert f Z. induction At as [|r ks i k p u Ck Ek Ak IH]; intros f Z Np; [congruence|].
  unfold child_list in Z. rewrite Ck in Z. destruct (f2_nth _ _ Z _ _ Ek) as (x & _ & Dx & _). destruct p as [|j p]; [inversion Ak; subst; eauto|].
  assert (Sk : exists ks', t_childs k = Some ks') by (inversion Ak; subst; eauto). destruct Sk as [ks' Sk].
  inversion Dx; subst; try (unfold plain_node in *; repeat match goal with H : _ /\ _ |- _ => destruct H end; congruence).
  eapply IH; [eassumption|discriminate].
Qed.
Lemma parent_roomy : forall d f r p t i u, doc_content d f -> doc_tree d = Some r -> at_place r p t -> nth_error (child_list t) i = Some u ->
  (exists n l ks e, depicts (XElem n l ks e) u) -> roomy p t.
Proof.
  intros d f r p t i u (r0 & E0 & _ & _ & _ & _ & Z) Er At Ei (n & l & ks & e & Du). rewrite Er in E0. injection E0 as <-.
  destruct p as [|j p]; [left; reflexivity|right]. destruct (place_item _ _ _ _ Z At ltac:(discriminate)) as [x Dx].
  unfold child_list in Ei. destruct (t_childs t) as [kt|] eqn:Ct; [|destruct i; discriminate Ei].
  inversion Dx; subst; try (unfold plain_node in *; repeat match goal with H : _ /\ _ |- _ => destruct H end; congruence). eauto 8.
Qed.

(** The tags and the content of a child that is an element. *)
Lemma elem_core : forall opts s d r p t i u n l ks e f env, parse opts s = Parsed d -> no_repair opts -> allow_self_closing opts = true -> without_cdata d ->
  doc_tree d = Some r -> at_place r p t -> nth_error (child_list t) i = Some u -> depicts (XElem n l ks e) u -> doc_content d f ->
  exists s1 w s2 v s3 o1 o o3, s = s1 ++ w ++ s2 ++ v ++ s3 /\ length s1 = t_begin_at u /\ written opts (KOpen n l) w /\ source opts (flat_map tokens ks) s2 /\ written opts (KClose e) v /\
    build env (with_inner_html true default_ro) u false = ROk o /\ o = print (flat_map tokens ks) /\
    render env default_ro d = ROk (o1 ++ ((str "<" ++ n ++ print_attrs l ++ str ">") ++ o ++ str "</" ++ e ++ str ">") ++ o3) /\
    nests opts (flat_map tokens ks) /\ (forall c, ~ In (KCData c) (flat_map tokens ks)) /\
    forall g s', source opts (flat_map tokens g) s' -> nests opts (flat_map tokens g) -> (forall c, ~ In (KCData c) (flat_map tokens g)) ->
      exists d2, parse opts (s1 ++ s' ++ s3) = Parsed d2 /\ doc_content d2 (mark_all (splice p i 1 g f)) /\
        render env default_ro d2 = ROk (o1 ++ print (flat_map tokens g) ++ o3).
Proof.
  intros opts s d r p t i u n l ks e f env P Nr Al Nc Er At Ei Du Df. pose proof (content_open _ _ _ _ P Df) as O.
  assert (Ro : roomy p t) by (eapply parent_roomy; eauto 8).
  assert (Su : sub u r).
  { assert (A : at_place r (p ++ [i]) u); [|exact (at_sub _ _ _ A)]. clear - At Ei. induction At as [t|t ks j k p v C N A IH]; cbn [app].
    - unfold child_list in Ei. destruct (t_childs t) as [kt|] eqn:Ct; [|destruct i; discriminate Ei]. eapply at_child; [exact Ct|exact Ei|apply at_here].
    - eapply at_child; [exact C|exact N|exact (IH Ei)]. }
  destruct (splice_core _ _ _ _ _ _ i 1 _ env P Nr O Al Nc Er At Ro Df) as (s1 & s2 & s3 & m & os & o1 & o3 & A1 & A2 & A3 & A4 & [fo Nm] & Ncm & A5 & Eo & A6 & A7).
  assert (Ef : firstn 1 (skipn i (child_list t)) = [u]).
  { rewrite <- skip_head in Ei. destruct (skipn i (child_list t)); [discriminate Ei|]. injection Ei as ->. reflexivity. }
  rewrite Ef in A3. assert (Em : m = [XElem n l ks e]). { inversion A3 as [|x y m' l' Dx Z0 Q1 Q2]. inversion Z0. f_equal. eapply depicts_unique; [exact Dx|exact Du]. } subst m. clear A3.
  assert (Nck : forall c, ~ In (KCData c) (flat_map tokens ks)).
  { intros c I. apply (Ncm c). cbn [flat_map tokens]. rewrite app_nil_r. right. apply in_or_app. left. exact I. }
  assert (Nk : nests opts (flat_map tokens ks)).
  { cbn [flat_map] in Nm. rewrite app_nil_r in Nm. destruct (elem_nest _ _ _ _ _ _ _ Nm) as (f1 & f2 & K & _).
    destruct (free_nests opts ks Al Nck _ _ K [] None) as [f' F]. exists f'. exact F. }
  cbn [flat_map tokens] in A4. rewrite app_nil_r in A4. inversion A4 as [|k w kx rx W Sr T]; subst k kx s2.
  destruct (source_split _ _ _ _ Sr) as (sk & v & -> & Sk & Sv). apply source_one in Sv.
  exists s1, w, sk, v, s3, o1, (print (flat_map tokens ks)), o3.
  split; [rewrite A1, <- !app_assoc; reflexivity|]. split; [rewrite A2; unfold begins; rewrite Ei; reflexivity|].
  split; [exact W|]. split; [exact Sk|]. split; [exact Sv|]. split.
  { assert (Ne : u <> r) by (intros ->; destruct (doc_tree_in _ _ _ _ P Er) as [_ X]; rewrite (item_type _ _ Du) in X; discriminate X).
    rewrite (node_built _ _ _ _ _ _ env (with_inner_html true default_ro) false P (strict_orderly _ _ _ Nr O) (or_introl eq_refl) Er Su Ne Du). cbn. do 2 f_equal.
    apply each_flat, Forall_forall. intros x _ q. rewrite shown_inner_flag. apply shown_default. }
  split; [reflexivity|]. split; [rewrite Eo, elem_print in A6; exact A6|]. split; [exact Nk|]. split; [exact Nck|exact A7].
Qed.

Theorem unwrap_child : forall opts s d r p t i u n l ks e f env, parse opts s = Parsed d -> no_repair opts -> allow_self_closing opts = true -> without_cdata d ->
  doc_tree d = Some r -> at_place r p t -> nth_error (child_list t) i = Some u -> depicts (XElem n l ks e) u -> doc_content d f ->
  exists s1 w s2 v s3 d2 o1 o o3, s = s1 ++ w ++ s2 ++ v ++ s3 /\ length s1 = t_begin_at u /\ written opts (KOpen n l) w /\ written opts (KClose e) v /\
    parse opts (s1 ++ s2 ++ s3) = Parsed d2 /\ doc_content d2 (mark_all (splice p i 1 ks f)) /\
    build env (with_inner_html true default_ro) u false = ROk o /\
    render env default_ro d = ROk (o1 ++ (str "<" ++ n ++ print_attrs l ++ str ">") ++ o ++ (str "</" ++ e ++ str ">") ++ o3) /\
    render env default_ro d2 = ROk (o1 ++ o ++ o3).
Proof.
  intros opts s d r p t i u n l ks e f env P Nr Al Nc Er At Ei Du Df.
  destruct (elem_core _ _ _ _ _ _ _ _ _ _ _ _ _ env P Nr Al Nc Er At Ei Du Df) as (s1 & w & s2 & v & s3 & o1 & o & o3 & A1 & A2 & W & S & V & B & Eo & R & N & C & A).
  destruct (A ks s2 S N C) as (d2 & P2 & D2 & R2). rewrite <- Eo in R2. rewrite <- !app_assoc in R.
  exists s1, w, s2, v, s3, d2, o1, o, o3. rewrite <- !app_assoc. auto 12.
Qed.
Theorem retag_child : forall opts s d r p t i u n l ks e f n' l' w' e' env, parse opts s = Parsed d -> no_repair opts -> allow_self_closing opts = true -> without_cdata d ->
  doc_tree d = Some r -> at_place r p t -> nth_error (child_list t) i = Some u -> depicts (XElem n l ks e) u -> doc_content d f ->
  written opts (KOpen n' l') w' -> name_fits (case_sensitive_tagname opts) n' (trim_right e') = true -> ~ In 62%N e' ->
  exists s1 w s2 v s3 d2 o1 o o3, s = s1 ++ w ++ s2 ++ v ++ s3 /\ length s1 = t_begin_at u /\ written opts (KOpen n l) w /\ written opts (KClose e) v /\
    parse opts (s1 ++ w' ++ s2 ++ (str "</" ++ e' ++ str ">") ++ s3) = Parsed d2 /\ doc_content d2 (mark_all (splice p i 1 [XElem n' l' ks e'] f)) /\
    build env (with_inner_html true default_ro) u false = ROk o /\
    render env default_ro d = ROk (o1 ++ (str "<" ++ n ++ print_attrs l ++ str ">") ++ o ++ (str "</" ++ e ++ str ">") ++ o3) /\
    render env default_ro d2 = ROk (o1 ++ (str "<" ++ n' ++ print_attrs l' ++ str ">") ++ o ++ (str "</" ++ e' ++ str ">") ++ o3).
Proof.
  intros opts s d r p t i u n l ks e f n' l' w' e' env P Nr Al Nc Er At Ei Du Df W' Nf' Ne'.
  destruct (elem_core _ _ _ _ _ _ _ _ _ _ _ _ _ env P Nr Al Nc Er At Ei Du Df) as (s1 & w & s2 & v & s3 & o1 & o & o3 & A1 & A2 & W & S & V & B & Eo & R & N & C & A).
  destruct (A [XElem n' l' ks e'] _ (elem_source _ _ _ _ _ _ _ W' Ne' S) (elem_nests _ _ _ _ _ Al C Nf' N) (elem_cdata _ _ _ _ C)) as (d2 & P2 & D2 & R2).
  rewrite elem_print, <- Eo in R2. rewrite <- !app_assoc in R. do 3 (rewrite <- ?app_assoc in R2; rewrite <- ?app_assoc in P2).
  exists s1, w, s2, v, s3, d2, o1, o, o3. rewrite <- !app_assoc. repeat (split; [assumption|]). assumption.
Qed.
