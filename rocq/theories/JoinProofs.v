(** Proofs about putting documents together and taking them apart. *)
From Coq Require Import String Lia.
From Verif Require Import Api SpecText SpecRender SpecParse SpecMisc SpecTree SpecDoc SpecJoin SpecMap NameProofs RenderProofs Shape DocSound Print MapProofs.
Local Open Scope string_scope.
Local Open Scope list_scope.

(** ** Tokens of joined contents *)
Lemma join_app : forall P : list token -> list token -> Prop,
  (forall b, P [] b) ->
  (forall x y b, P [KText x] (KText y :: b)) ->
  (forall k a b, P a b -> (a = [] -> is_ktext k = true -> match b with k' :: _ => is_ktext k' = false | [] => True end) -> P (k :: a) b) ->
  forall a b, P a b.
Proof.
  intros P H0 H1 H2 a. induction a as [|k a IH]; intro b; [apply H0|].
  destruct a as [|k2 a]; [|apply H2; [apply IH|discriminate]].
  destruct k, b as [|[] b]; try (apply H2; [apply H0|cbn; intros _ X; first [exact I|discriminate X|reflexivity]]). apply H1.
Qed.
Lemma join_cons : forall k a b, (a = [] -> is_ktext k = true -> match b with k' :: _ => is_ktext k' = false | [] => True end) ->
  join (k :: a) b = k :: join a b.
Proof.
  intros k a b H. cbn [join]. destruct a as [|k2 a]; [|reflexivity]. destruct k; try reflexivity.
  destruct b as [|[] b]; try reflexivity. specialize (H eq_refl eq_refl). discriminate H.
Qed.
Lemma join_nest : forall opts a b s, nest_all opts (join a b) s = nest_all opts (a ++ b) s.
Proof.
  intros opts a b. pattern a, b. apply join_app; clear a b; [reflexivity|reflexivity|].
  intros k a b IH H s. rewrite join_cons by exact H. cbn [app nest_all]. destruct (nest opts k s); [apply IH|reflexivity].
Qed.
Lemma print_app : forall a b, print (a ++ b) = print a ++ print b.
Proof. intros. unfold print. apply flat_map_app. Qed.
Lemma join_print : forall a b, print (join a b) = print a ++ print b.
Proof.
  intros a b. pattern a, b. apply join_app; clear a b; [reflexivity| |].
  - intros. unfold print. cbn. rewrite app_nil_r, app_assoc. reflexivity.
  - intros k a b IH H. rewrite join_cons by exact H. unfold print in *. cbn. rewrite IH, app_assoc. reflexivity.
Qed.
Lemma join_hd : forall a b, match join a b with k :: _ => is_ktext k | [] => false end =
  match a with k :: _ => is_ktext k | [] => match b with k :: _ => is_ktext k | [] => false end end.
Proof. intros [|k [|k2 a]] b; [reflexivity| |]; cbn [join]; [|destruct k; reflexivity]. destruct k, b as [|[] b]; reflexivity. Qed.
Lemma written_text : forall opts k s, written opts k s -> forall c, k = KText c -> s = c /\ c <> [] /\ ~ In 60%N c.
Proof. intros opts k s W c E. destruct W; try discriminate E. injection E as ->. auto. Qed.
Lemma join_source : forall opts a s, source opts a s -> forall b t, source opts b t -> source opts (join a b) (s ++ t).
Proof.
  intros opts a s S. induction S as [|k s a r W S IH H]; intros b t B; [exact B|].
  assert (Z : (a = [] -> is_ktext k = true -> match b with k' :: _ => is_ktext k' = false | [] => True end) \/
    exists x y b', a = [] /\ k = KText x /\ b = KText y :: b').
  { destruct a as [|k2 a]; [|left; discriminate]. destruct k, b as [|[] b]; try (left; cbn; intros _ X; first [exact I|discriminate X|reflexivity]). right. eauto 6. }
  destruct Z as [Z|(x & y & b' & -> & -> & ->)].
  - rewrite join_cons, <- app_assoc by exact Z. constructor; [exact W|apply IH; exact B|].
    intro K. specialize (H K). pose proof (join_hd a b) as J. destruct a as [|k2 a].
    + cbn [join]. apply Z; auto.
    + destruct (join (k2 :: a) b); [exact I|]. rewrite J. exact H.
  - inversion S; subst. rewrite app_nil_r. cbn [join]. inversion B as [|k' sy b2 r' Wy Sy Hy]; subst. rewrite app_assoc.
    destruct (written_text _ _ _ W _ eq_refl) as (-> & A1 & A2). destruct (written_text _ _ _ Wy _ eq_refl) as (-> & B1 & B2).
    constructor; [apply w_text| exact Sy|exact Hy].
    + destruct x; [congruence|discriminate].
    + intro X. apply in_app_or in X. tauto.
Qed.
Lemma glue_tokens : forall f g, flat_map tokens (glue f g) = join (flat_map tokens f) (flat_map tokens g).
Proof.
  induction f as [|x f IH]; intro g; [reflexivity|].
  assert (N : forall x, tokens x <> []) by (destruct x0; discriminate).
  destruct f as [|x2 f].
  - assert (G : forall e, (flat_map tokens [x]) = e -> (forall c, e <> [KText c]) -> flat_map tokens [x] ++ flat_map tokens g = join e (flat_map tokens g)).
    { clear. intros e <- H. rewrite <- app_nil_r. cbn [flat_map]. rewrite !app_nil_r.
      assert (J : forall a b, (forall a' c, a <> a' ++ [KText c]) -> a ++ b = join a b).
      { induction a as [|k a IH]; intros b Q; [reflexivity|]. rewrite join_cons.
        - cbn [app]. rewrite IH; [reflexivity|]. intros a' c ->. apply (Q (k :: a') c). reflexivity.
        - intros -> X. destruct k; try discriminate X. destruct (Q [] c eq_refl). }
      apply J. intros a' c E. destruct x; cbn [tokens flat_map app] in *; try (destruct a' as [|? [|]]; discriminate E).
      - destruct a' as [|? [|]]; try discriminate E. injection E as ->. apply (H c). reflexivity.
      - change (KOpen n at_ :: flat_map tokens ks ++ [KClose e]) with ((KOpen n at_ :: flat_map tokens ks) ++ [KClose e]) in E.
        apply app_inj_tail in E. destruct E as [_ E]. discriminate E. }
    destruct x as [a ba| | | | | |]; cbn [glue];
      try (change (flat_map tokens (?y :: g)) with (tokens y ++ flat_map tokens g)).
    2-7: cbn [flat_map] in *; rewrite <- G with (e := _); [rewrite app_nil_r; reflexivity|reflexivity|intros c0 E; cbn [tokens app] in E; try discriminate E].
    destruct g as [|[b bb| | | | | |] g]; try reflexivity.
  - assert (GE : glue (x :: x2 :: f) g = x :: glue (x2 :: f) g) by (destruct x; reflexivity). rewrite GE. clear GE.
    cbn [flat_map] in *. rewrite IH. clear IH.
    generalize (tokens x). intro l. assert (Q : tokens x2 ++ flat_map tokens f <> []).
    { specialize (N x2). destruct (tokens x2); [congruence|discriminate]. }
    revert Q. generalize (tokens x2 ++ flat_map tokens f). intros q Q.
    induction l as [|k l IH]; [reflexivity|]. cbn [app]. rewrite join_cons, <- IH; [reflexivity|].
    intro E. apply app_eq_nil in E. tauto.
Qed.
Lemma mark_all_tokens : forall l, flat_map tokens (mark_all l) = flat_map tokens l.
Proof. intro l. rewrite mark_all_list, <- tokens_list_plain, plain_mark_list, tokens_list_plain. reflexivity. Qed.
Lemma mark_all_marked : forall l, marked (mark_all l).
Proof. intro l. unfold marked. rewrite !mark_all_list. apply mark_list_idem. Qed.
(** Content given up to marks. *)
Lemma accepted_as : forall opts g s, source opts (flat_map tokens g) s -> nests opts (flat_map tokens g) ->
  exists d, parse opts s = Parsed d /\ doc_content d (mark_all g).
Proof.
  intros opts g s S N. destruct (source_accepted _ _ _ S N) as (d & f & P & E & M & D). exists d. split; [exact P|].
  rewrite (tokens_unique (mark_all g) f (mark_all_marked g) M); [exact D|]. rewrite mark_all_tokens. congruence.
Qed.

(** ** Nesting *)
Lemma nest_all_app : forall opts a b s, nest_all opts (a ++ b) s = match nest_all opts a s with Some s' => nest_all opts b s' | None => None end.
Proof. intros opts a. induction a as [|k a IH]; intros b s; [reflexivity|]. cbn [app nest_all]. destruct (nest opts k s); [apply IH|reflexivity]. Qed.
Lemma nest_below : forall opts k a f a' f' r, nest opts k (mkNest a f) = Some (mkNest a' f') -> nest opts k (mkNest (a ++ r) f) = Some (mkNest (a' ++ r) f').
Proof.
  intros opts k a f a' f' r H. destruct k; cbn [nest open_names foreign] in *.
  1-2,4,6: injection H as <- <-; reflexivity.
  - destruct a as [|n a], f as [fo|]; try discriminate H. cbn [app]. destruct (chars_eqb n fo); [discriminate H|]. injection H as <- <-. reflexivity.
  - destruct (_ || _)%bool; [|discriminate H]. injection H as <- <-. reflexivity.
  - injection H as <- <-. reflexivity.
  - destruct a as [|n a]; [discriminate H|]. cbn [app]. destruct (name_fits _ _ _); [|discriminate H]. injection H as <- <-. reflexivity.
Qed.
Lemma nest_all_below : forall opts ks a f a' f' r, nest_all opts ks (mkNest a f) = Some (mkNest a' f') ->
  nest_all opts ks (mkNest (a ++ r) f) = Some (mkNest (a' ++ r) f').
Proof.
  intros opts ks. induction ks as [|k ks IH]; intros a f a' f' r H; cbn [nest_all] in *; [injection H as <- <-; reflexivity|].
  destruct (nest opts k (mkNest a f)) as [[a1 f1]|] eqn:E; [|discriminate H]. rewrite (nest_below _ _ _ _ _ _ r E). apply IH, H.
Qed.
Lemma closes_elem : forall n a ks e, closes_alike (XElem n a ks e) <-> (special_elem n = true -> trim_right e = n) /\ Forall closes_alike ks.
Proof.
  intros. cbn [closes_alike]. assert (G : forall l, (fix all (l : list item) : Prop := match l with [] => True | k :: r => closes_alike k /\ all r end) l <-> Forall closes_alike l).
  { induction l as [|k l IH]; [split; [constructor|auto]|]. rewrite Forall_cons_iff, IH. tauto. }
  rewrite G. tauto.
Qed.
(** Content whose svg and math elements are closed alike leaves nothing behind. *)
Definition leaves (opts : parse_options) (ks : list token) : Prop := forall a f s, nest_all opts ks (mkNest a f) = Some s ->
  s = mkNest a f \/ s = mkNest a None.
Lemma leaves_app : forall opts a b, leaves opts a -> leaves opts b -> leaves opts (a ++ b).
Proof.
  intros opts a b A B n f s H. rewrite nest_all_app in H. destruct (nest_all opts a (mkNest n f)) as [s1|] eqn:E; [|discriminate H].
  destruct (A _ _ _ E) as [-> | ->]; destruct (B _ _ _ H); auto.
Qed.
Lemma leaves_list : forall opts g, Forall (fun x => leaves opts (tokens x)) g -> leaves opts (flat_map tokens g).
Proof.
  intros opts g H. induction H as [|x g X H IH]; [intros a f s E; cbn in E; injection E as <-; auto|]. cbn [flat_map]. apply leaves_app; assumption.
Qed.
Lemma alike_leaves : forall opts x, closes_alike x -> leaves opts (tokens x).
Proof.
  intros opts x. induction x as [c b|c|c|n a|n a sc|n a c e|n a ks e IH] using item_ind2; intros C o f s H.
  1-6: cbn [tokens nest_all] in H; destruct (nest opts _ _) as [s1|] eqn:E; [|discriminate H]; injection H as <-; cbn [nest open_names foreign] in E.
  1-2,4,6: injection E as <-; auto.
  - destruct o, f; try discriminate E. destruct (chars_eqb _ _); [discriminate E|]. injection E as <-. auto.
  - destruct (_ || _)%bool; [|discriminate E]. injection E as <-. auto.
  - apply closes_elem in C. destruct C as [C1 C2]. cbn [tokens nest_all] in H. cbn [nest open_names foreign] in H. rewrite nest_all_app in H.
    assert (L : leaves opts (flat_map tokens ks)).
    { apply leaves_list. clear - IH C2. induction IH; inversion C2; subst; constructor; auto. }
    destruct (nest_all opts (flat_map tokens ks) _) as [s1|] eqn:E; [|discriminate H]. apply L in E.
    assert (Z : exists f1, s1 = mkNest (n :: o) f1 /\ (f1 = None \/ f1 = match f with Some f => Some f | None => if special_elem n then Some n else None end)).
    { destruct E as [-> | ->]; eauto. }
    destruct Z as (f1 & -> & Z). cbn [nest_all nest open_names foreign] in H. destruct (name_fits _ _ _); [|discriminate H]. injection H as <-.
    destruct Z as [-> | ->]; [auto|]. destruct f as [f|]; [destruct (chars_eqb f (trim_right e)); auto|].
    destruct (special_elem n); [|auto]. rewrite (C1 eq_refl), chars_eqb_refl. auto.
Qed.
Lemma tokens_nest : forall opts ks a f s, leaves opts ks -> nest_all opts ks (mkNest a f) = Some s -> f = None -> s = mkNest a None.
Proof. intros opts ks a f s L H ->. destruct (L _ _ _ H); assumption. Qed.
(** The elements opened by some content are closed by it. *)
Definition returns (opts : parse_options) (ks : list token) : Prop := forall s s', nest_all opts ks s = Some s' -> open_names s' = open_names s.
Lemma returns_app : forall opts a b, returns opts a -> returns opts b -> returns opts (a ++ b).
Proof.
  intros opts a b A B s s' H. rewrite nest_all_app in H. destruct (nest_all opts a s) as [s1|] eqn:E; [|discriminate H].
  rewrite (B _ _ H). apply A, E.
Qed.
Lemma returns_list : forall opts g, Forall (fun x => returns opts (tokens x)) g -> returns opts (flat_map tokens g).
Proof.
  intros opts g H. induction H as [|x g X H IH]; [intros s s' E; cbn in E; injection E as <-; auto|]. cbn [flat_map]. apply returns_app; assumption.
Qed.
Lemma item_returns : forall opts x, returns opts (tokens x).
Proof.
  intros opts x. induction x as [c b|c|c|n a|n a sc|n a c e|n a ks e IH] using item_ind2; intros [o f] s H.
  1-6: cbn [tokens nest_all] in H; destruct (nest opts _ _) as [s1|] eqn:E; [|discriminate H]; injection H as <-; cbn [nest open_names foreign] in E.
  1-2,4,6: injection E as <-; auto.
  - destruct o, f; try discriminate E. destruct (chars_eqb _ _); [discriminate E|]. injection E as <-. auto.
  - destruct (_ || _)%bool; [|discriminate E]. injection E as <-. auto.
  - cbn [tokens nest_all] in H. cbn [nest open_names foreign] in H. rewrite nest_all_app in H.
    destruct (nest_all opts (flat_map tokens ks) _) as [[o1 f1]|] eqn:E; [|discriminate H]. apply (returns_list _ _ IH) in E. cbn [open_names] in E. subst o1.
    cbn [nest_all nest open_names foreign] in H. destruct (name_fits _ _ _); [|discriminate H]. injection H as <-. reflexivity.
Qed.
Lemma list_returns : forall opts g, returns opts (flat_map tokens g).
Proof. intros. apply returns_list, Forall_forall. intros. apply item_returns. Qed.
Lemma nest_split : forall opts x g s s', nest_all opts (flat_map tokens (x :: g)) s = Some s' ->
  exists s1, nest_all opts (tokens x) s = Some s1 /\ nest_all opts (flat_map tokens g) s1 = Some s'.
Proof. intros opts x g s s' H. cbn [flat_map] in H. rewrite nest_all_app in H. destruct (nest_all opts (tokens x) s) as [s1|]; [eauto|discriminate H]. Qed.
Lemma elem_nest : forall opts n a ks e s s', nest_all opts (tokens (XElem n a ks e)) s = Some s' ->
  exists f1 f2, nest_all opts (flat_map tokens ks) (mkNest (n :: open_names s) f1) = Some (mkNest (n :: open_names s) f2) /\
    name_fits (case_sensitive_tagname opts) n (trim_right e) = true.
Proof.
  intros opts n a ks e [o f] s' H. cbn [tokens nest_all] in H. cbn [nest open_names foreign] in H. rewrite nest_all_app in H.
  destruct (nest_all opts (flat_map tokens ks) _) as [[o1 f1]|] eqn:E; [|discriminate H]. pose proof (list_returns _ _ _ _ E) as R. cbn [open_names] in R. subst o1.
  cbn [nest_all nest open_names] in H. destruct (name_fits _ _ _) eqn:Nf; [|discriminate H]. eauto.
Qed.
(** With case-sensitive names every element is closed alike. *)
Lemma sensitive_alike : forall opts, case_sensitive_tagname opts = true -> forall x s s', nest_all opts (tokens x) s = Some s' -> closes_alike x.
Proof.
  intros opts Cs x. induction x as [c b|c|c|n a|n a sc|n a c e|n a ks e IH] using item_ind2; intros s s' H; try exact I.
  destruct (elem_nest _ _ _ _ _ _ _ H) as (f1 & f2 & K & Nf). apply closes_elem. split.
  - intros _. rewrite Cs in Nf. cbn [name_fits] in Nf. apply chars_eqb_eq in Nf. congruence.
  - revert K. generalize (mkNest (n :: open_names s) f1) (mkNest (n :: open_names s) f2). clear - IH. induction IH as [|x ks X IH IH2]; intros s s' K; constructor.
    + destruct (nest_split _ _ _ _ _ K) as (s1 & A & _). eauto.
    + destruct (nest_split _ _ _ _ _ K) as (s1 & _ & A). eauto.
Qed.
Lemma sensitive_alike_list : forall opts, case_sensitive_tagname opts = true -> forall g s s', nest_all opts (flat_map tokens g) s = Some s' -> Forall closes_alike g.
Proof.
  intros opts Cs g. induction g as [|x g IH]; intros s s' K; constructor; destruct (nest_split _ _ _ _ _ K) as (s1 & A & B); [eapply sensitive_alike; eauto|eauto].
Qed.
Definition ends_alike (t : tree) : Prop := forall m te c, t_type t = NTag -> t_meta t = Some m -> special_elem (m_name m) = true ->
  t_end_tag t = Some te -> t_content te = Some c -> trim_right c = m_name m.
Lemma in_child_list : forall t k, In k (child_list t) -> exists ks, t_childs t = Some ks /\ In k ks.
Proof. intros t k H. unfold child_list in H. destruct (t_childs t) as [ks|]; [eauto|destruct H]. Qed.
Lemma child_sub : forall t k s, In k (child_list t) -> sub s k -> sub s t.
Proof. intros t k s H S. apply in_child_list in H. destruct H as (ks & A & B). eapply sub_child; eauto. Qed.
Lemma tree_alike : forall x t, depicts x t -> (forall t', sub t' t -> ends_alike t') -> closes_alike x.
Proof.
  intro x. induction x as [c b|c|c|n a|n a sc|n a c e|n a ks e IH] using item_ind2; intros t D A; try exact I.
  inversion D as [| | | | | |n' l' ks' e' m t' T C En M MI Z]. subst. destruct MI as (Nm & _). destruct En as (te & X1 & X2 & X3 & X4).
  apply closes_elem. split.
  - intro Sp. subst n. exact (A t (sub_refl _) m te e T M Sp X1 X3).
  - assert (G : forall l, Forall2 depicts ks l -> (forall k, In k l -> In k (child_list t)) -> Forall closes_alike ks).
    { clear - IH A. intros l Z. induction Z as [|k t1 ks l K Z IHZ]; intro Inc; [constructor|]. apply Forall_cons_iff in IH. destruct IH as [I1 I2]. constructor.
      - apply (I1 _ K). intros t' S. apply A. eapply child_sub; [|exact S]. apply Inc. left. reflexivity.
      - apply IHZ; auto. intros k' H. apply Inc. right. exact H. }
    eapply G; [exact Z|auto].
Qed.
Lemma doc_alike : forall d f, doc_content d f -> closed_alike d -> Forall closes_alike f.
Proof.
  intros d f (t & E & T & C & En & Me & Z) A.
  assert (G : forall l, Forall2 depicts f l -> (forall k, In k l -> In k (child_list t)) -> Forall closes_alike f).
  { clear - A E. intros l Z. induction Z as [|k t1 ks l K Z IHZ]; intro Inc; [constructor|]. constructor.
    - apply (tree_alike _ _ K). intros t' S m te c. apply (A t t' m te c E). eapply child_sub; [|exact S]. apply Inc. left. reflexivity.
    - apply IHZ. intros k' H. apply Inc. right. exact H. }
  eapply G; [exact Z|auto].
Qed.
Lemma leaves_none : forall opts d f, doc_content d f -> nests opts (flat_map tokens f) -> case_sensitive_tagname opts = true \/ closed_alike d ->
  leaves opts (flat_map tokens f).
Proof.
  intros opts d f D [fo N] H. assert (A : Forall closes_alike f) by (destruct H as [H|H]; [eapply sensitive_alike_list; eauto|eapply doc_alike; eauto]).
  apply leaves_list. eapply Forall_impl; [|exact A]. intros x X. apply alike_leaves, X.
Qed.

(** ** Composition *)
Lemma concat_docs : forall opts s1 s2 d1 d2 env, parse opts s1 = Parsed d1 -> parse opts s2 = Parsed d2 -> no_repair opts ->
  open_doctypes d1 -> open_doctypes d2 -> case_sensitive_tagname opts = true \/ closed_alike d1 ->
  exists d f1 f2 o1 o2, parse opts (s1 ++ s2) = Parsed d /\ doc_content d1 f1 /\ doc_content d2 f2 /\ doc_content d (mark_all (glue f1 f2)) /\
    render env default_ro d1 = ROk o1 /\ render env default_ro d2 = ROk o2 /\ render env default_ro d = ROk (o1 ++ o2).
Proof.
  intros opts s1 s2 d1 d2 env P1 P2 Nr O1 O2 A.
  destruct (parsed_source _ _ _ P1 Nr O1) as (f1 & S1 & N1 & M1 & D1). destruct (parsed_source _ _ _ P2 Nr O2) as (f2 & S2 & N2 & M2 & D2).
  pose proof (leaves_none _ _ _ D1 N1 A) as L. destruct N1 as [fo1 N1]. destruct N2 as [fo2 N2].
  destruct (accepted_as opts (glue f1 f2) (s1 ++ s2)) as (d & P & D).
  - rewrite glue_tokens. apply join_source; assumption.
  - exists fo2. rewrite glue_tokens, join_nest, nest_all_app, N1. pose proof (tokens_nest _ _ _ _ _ L N1 eq_refl) as E. rewrite E. exact N2.
  - exists d, f1, f2. rewrite (content_render env _ _ D1), (content_render env _ _ D2), (content_render env _ _ D), mark_all_tokens, glue_tokens, join_print. eauto 10.
Qed.
Lemma insert_doc : forall opts ks1 s1 ks3 s3 a s d env, source opts ks1 s1 -> source opts ks3 s3 -> nests opts (ks1 ++ ks3) ->
  nest_all opts ks1 (mkNest [] None) = Some (mkNest a None) ->
  parse opts s = Parsed d -> no_repair opts -> open_doctypes d -> case_sensitive_tagname opts = true \/ closed_alike d ->
  exists d' f f' o, parse opts (s1 ++ s ++ s3) = Parsed d' /\ doc_content d f /\ doc_content d' f' /\
    flat_map tokens f' = join ks1 (join (flat_map tokens f) ks3) /\
    render env default_ro d = ROk o /\ render env default_ro d' = ROk (print ks1 ++ o ++ print ks3).
Proof.
  intros opts ks1 s1 ks3 s3 a s d env S1 S3 [fo N] N1 P Nr O A.
  destruct (parsed_source _ _ _ P Nr O) as (f & S & Nf & M & D). pose proof (leaves_none _ _ _ D Nf A) as L. destruct Nf as [fo1 Nf].
  pose proof (tokens_nest _ _ _ _ _ L Nf eq_refl) as E. injection E as ->.
  destruct (source_accepted opts (join ks1 (join (flat_map tokens f) ks3)) (s1 ++ s ++ s3)) as (d' & f' & P' & E' & M' & D').
  - apply join_source; [assumption|]. apply join_source; assumption.
  - exists fo. rewrite join_nest, nest_all_app, N1, join_nest, nest_all_app. pose proof (nest_all_below _ _ _ _ _ _ a Nf) as B. cbn [app] in B. rewrite B.
    rewrite nest_all_app, N1 in N. exact N.
  - exists d', f, f'. rewrite (content_render env _ _ D), (content_render env _ _ D'), E', !join_print. eauto 10.
Qed.
Lemma wrap_doc : forall opts n l w e s d env, written opts (KOpen n l) w -> special_elem n = false ->
  name_fits (case_sensitive_tagname opts) n (trim_right e) = true -> ~ In 62%N e ->
  parse opts s = Parsed d -> no_repair opts -> open_doctypes d ->
  exists d' f o, parse opts (w ++ s ++ str "</" ++ e ++ str ">") = Parsed d' /\ doc_content d f /\ doc_content d' (mark_all [XElem n l f e]) /\
    render env default_ro d = ROk o /\ render env default_ro d' = ROk (str "<" ++ n ++ print_attrs l ++ str ">" ++ o ++ str "</" ++ e ++ str ">").
Proof.
  intros opts n l w e s d env W Sp Nf Ne P Nr O.
  destruct (parsed_source _ _ _ P Nr O) as (f & S & [fo N] & M & D).
  assert (Sc : source opts [KClose e] (str "</" ++ e ++ str ">")).
  { replace (str "</" ++ e ++ str ">") with ((str "</" ++ e ++ str ">") ++ []) by apply app_nil_r.
    constructor; [constructor; exact Ne|constructor|discriminate]. }
  destruct (accepted_as opts [XElem n l f e] (w ++ s ++ str "</" ++ e ++ str ">")) as (d' & P' & D').
  - cbn [flat_map tokens]. rewrite app_nil_r. constructor; [exact W| |discriminate].
    replace (flat_map tokens f ++ [KClose e]) with (join (flat_map tokens f) [KClose e]); [apply join_source; assumption|].
    generalize (flat_map tokens f). induction l0 as [|k q IH]; [reflexivity|]. rewrite join_cons, IH; [reflexivity|]. intros; reflexivity.
  - assert (Q : exists f', nest_all opts (flat_map tokens [XElem n l f e]) (mkNest [] None) = Some (mkNest [] f')); [|exact Q].
    cbn [flat_map tokens]. rewrite app_nil_r. cbn [nest_all]. cbn [nest open_names foreign]. pose proof (nest_all_below _ _ _ _ _ _ [n] N) as B. cbn [app] in B. rewrite Sp, nest_all_app, B. cbn [nest_all nest open_names]. rewrite Nf. eauto.
  - exists d', f. rewrite (content_render env _ _ D), (content_render env _ _ D'), mark_all_tokens. eexists. repeat split; try eassumption; try reflexivity.
    unfold print. cbn [flat_map tokens app print_token]. rewrite app_nil_r, flat_map_app. cbn [flat_map print_token]. rewrite app_nil_r, <- !app_assoc. reflexivity.
Qed.
(** ** Decomposition *)
Lemma strip_inner : forall opts x n b a f s, nest_all opts (tokens x) (mkNest (n :: b ++ a) f) = Some s ->
  nest_all opts (tokens x) (mkNest (n :: b) f) = Some (mkNest (n :: b) (foreign s)).
Proof.
  intros opts x. induction x as [c bl|c|c|n a|n a sc|n a c e|n a ks e IH] using item_ind2; intros n0 b r f s H.
  1-6: cbn [tokens nest_all] in *; destruct (nest opts _ _) as [s1|] eqn:E in H; [|discriminate H]; injection H as <-; cbn [nest open_names foreign] in *.
  1-2,4,6: injection E as <-; reflexivity.
  - destruct f; [|discriminate E]. destruct (chars_eqb _ _); [discriminate E|]. injection E as <-. reflexivity.
  - destruct (_ || _)%bool; [|discriminate E]. injection E as <-. reflexivity.
  - cbn [tokens nest_all] in *. cbn [nest open_names foreign] in *. rewrite nest_all_app in *.
    destruct (nest_all opts (flat_map tokens ks) _) as [[o1 f1]|] eqn:E in H; [|discriminate H]. pose proof (list_returns _ _ _ _ E) as R. cbn [open_names] in R. subst o1.
    assert (G : forall f f1, nest_all opts (flat_map tokens ks) (mkNest (n :: n0 :: b ++ r) f) = Some (mkNest (n :: n0 :: b ++ r) f1) ->
      nest_all opts (flat_map tokens ks) (mkNest (n :: n0 :: b) f) = Some (mkNest (n :: n0 :: b) f1)).
    { clear - IH. induction IH as [|x ks X IH IH2]; intros f f1 H; [cbn in *; injection H as <-; reflexivity|].
      destruct (nest_split _ _ _ _ _ H) as ([o2 f2] & A & B). pose proof (item_returns _ _ _ _ A) as R. cbn [open_names] in R. subst o2.
      cbn [flat_map]. rewrite nest_all_app. rewrite (X n (n0 :: b) r _ _ A). cbn [foreign]. apply IH2, B. }
    rewrite (G _ _ E). cbn [nest_all nest open_names foreign] in *. destruct (name_fits _ _ _); [|discriminate H]. injection H as <-. reflexivity.
Qed.
Lemma strip_list : forall opts g n b a f s, nest_all opts (flat_map tokens g) (mkNest (n :: b ++ a) f) = Some s ->
  nest_all opts (flat_map tokens g) (mkNest (n :: b) f) = Some (mkNest (n :: b) (foreign s)).
Proof.
  intros opts g n b a. induction g as [|x g IH]; intros f s H; [cbn in *; injection H as <-; reflexivity|].
  destruct (nest_split _ _ _ _ _ H) as ([o2 f2] & A & B). pose proof (item_returns _ _ _ _ A) as R. cbn [open_names] in R. subst o2.
  cbn [flat_map]. rewrite nest_all_app, (strip_inner _ _ _ _ _ _ _ A). apply IH, B.
Qed.
Lemma strip_top : forall opts x a s, closes_alike x -> nest_all opts (tokens x) (mkNest a None) = Some s ->
  nest_all opts (tokens x) (mkNest [] None) = Some (mkNest [] None).
Proof.
  intros opts x a s C H. assert (Q : exists s', nest_all opts (tokens x) (mkNest [] None) = Some s').
  { destruct x as [c b|c|c|n l|n l sc|n l c e|n l ks e]; try (eexists; reflexivity).
    - cbn in H. destruct a; discriminate H.
    - cbn [tokens nest_all nest foreign] in *. destruct (_ || _)%bool; [eauto|discriminate H].
    - cbn [tokens nest_all] in *. cbn [nest open_names foreign] in *. rewrite nest_all_app in *.
      destruct (nest_all opts (flat_map tokens ks) _) as [[o1 f1]|] eqn:E in H; [|discriminate H]. pose proof (list_returns _ _ _ _ E) as R. cbn [open_names] in R. subst o1.
      rewrite (strip_list opts ks n [] a _ _ E). cbn [nest_all nest open_names foreign] in *. destruct (name_fits _ _ _); [eauto|discriminate H]. }
  destruct Q as [s' Q]. destruct (alike_leaves _ _ C _ _ _ Q) as [-> | ->]; exact Q.
Qed.
Lemma strip_tops : forall opts g a s, Forall closes_alike g -> nest_all opts (flat_map tokens g) (mkNest a None) = Some s ->
  nest_all opts (flat_map tokens g) (mkNest [] None) = Some (mkNest [] None).
Proof.
  intros opts g a s C. revert s. induction C as [|x g X C IH]; intros s H; [reflexivity|]. destruct (nest_split _ _ _ _ _ H) as (s1 & A & B).
  cbn [flat_map]. rewrite nest_all_app, (strip_top _ _ _ _ X A). destruct (alike_leaves _ _ X _ _ _ A) as [-> | ->]; eapply IH; exact B.
Qed.
Lemma part_doc : forall opts ks1 g s2 ks3 a, source opts (flat_map tokens g) s2 -> 
  nests opts (ks1 ++ flat_map tokens g ++ ks3) -> nest_all opts ks1 (mkNest [] None) = Some (mkNest a None) ->
  case_sensitive_tagname opts = true \/ Forall closes_alike g ->
  exists d, parse opts s2 = Parsed d /\ doc_content d (mark_all g).
Proof.
  intros opts ks1 g s2 ks3 a S [fo N] N1 A. rewrite nest_all_app, N1, nest_all_app in N.
  destruct (nest_all opts (flat_map tokens g) (mkNest a None)) as [s1|] eqn:E; [|discriminate N].
  assert (C : Forall closes_alike g) by (destruct A as [A|A]; [eapply sensitive_alike_list; eauto|exact A]).
  apply accepted_as; [exact S|]. exists None. eapply strip_tops; eauto.
Qed.

(** ** The text of a node *)
Lemma ok_eq : forall {A} (a b : A), ROk a = ROk b -> a = b.
Proof. intros A a b H. congruence. Qed.
Lemma node_flags : forall env t p r s out, build_node env default_ro t (mkRS INone p r) = ROk (s, out) ->
  exists p1, s = mkRS INone p1 r /\ (forall r2, build_node env default_ro t (mkRS INone p r2) = ROk (mkRS INone p1 r2, out)) /\
  forall p2, exists p3, build_node env default_ro t (mkRS INone p2 r) = ROk (mkRS INone p3 r, out).
Proof.
  intros env t p r s out H.
  unfold build_node in *. cbn [rs_is_in_pre rs_root rs_inner_type] in *.
  destruct (t_type t); try discriminate H.
  all: cbn [minify_spaces default_ro remove_comment] in *; rewrite ?Bool.andb_false_r in *.
  all: try (destruct (t_content t); [|discriminate H]).
  all: try (destruct (t_meta t); [|discriminate H]).
  all: apply ok_eq in H; injection H as <- <-.
  all: unfold rs_set_pre; cbn [rs_inner_type rs_root rs_is_in_pre].
  all: try (eexists; split; [reflexivity|]; split; [intros []; destruct r; reflexivity|intros p2; rewrite ?Bool.andb_false_r; eexists; destruct r; reflexivity]).
  all: repeat match goal with |- context [if ?b then mkRS _ _ _ else _] => destruct b end.
  all: try (eexists; split; [reflexivity|]; split; [intros []; destruct r; reflexivity|intros p2]).
  all: repeat match goal with |- context [if ?b then mkRS _ _ _ else _] => destruct b end; eexists; destruct r; reflexivity.
Qed.
Lemma root_build : forall env x t, depicts x t -> build env default_ro t false = ROk (print (tokens x)).
Proof.
  intros env x t D. destruct (depicts_build env x t D (mkRS INone false false)) as [s' [_ Q]]; [split; reflexivity|].
  unfold build. cbn [andb]. change (inner_html default_ro) with false. cbv beta zeta iota.
  destruct t as [i ty b e et c ks m]. rewrite build_tree_eq in *.
  destruct (build_node env default_ro _ (mkRS INone false false)) as [[s1 o1]| |] eqn:E in Q; try discriminate Q. cbn [rbind] in Q.
  destruct (node_flags _ _ _ _ _ _ E) as (p1 & -> & F & _). rewrite (F true). cbn [rbind rs_root] in *. unfold rs_set_root. cbn [rs_inner_type rs_is_in_pre].
  assert (K : exists p2 o2, match ks with Some l => build_list env default_ro l (mkRS INone p1 false) | None => ROk (mkRS INone p1 false, []) end = ROk (mkRS INone p2 false, o2)).
  { destruct ks as [l|]; [|eauto]. inversion D; subst; cbn [t_childs child_list] in *; try discriminate; try (match goal with H : plain_node _ |- _ => destruct H as (_ & _ & X); discriminate X end).
    match goal with H : Forall2 depicts _ _ |- _ => rename H into Z end. clear - Z. cbn [t_childs child_list] in Z.
    assert (G : forall s, whole s -> exists s' o, whole s' /\ build_list env default_ro l s = ROk (s', o)).
    { induction Z as [|k t ks l K Z IHZ]; intros s Ws; [exists s, []; auto|]. destruct (depicts_build env _ _ K s Ws) as [s1 [W1 Q1]]. destruct (IHZ s1 W1) as (s2 & o2 & W2 & Q2).
      exists s2. cbn [build_list]. rewrite Q1. cbn [rbind]. rewrite Q2. cbn [rbind]. eauto. }
    destruct (G (mkRS INone p1 false)) as ([it p ro] & o & [A B] & Q); [split; reflexivity|]. cbn in A, B. subst. eauto. }
  destruct K as (p2 & o2 & K).
  assert (K2 : match ks with Some l => do '(_, out) <- build_list env default_ro l (mkRS INone p1 false); ROk (mkRS INone p1 true, out) | None => ROk (mkRS INone p1 true, []) end = ROk (mkRS INone p1 true, o2)).
  { destruct ks as [l|]; [rewrite K; reflexivity|]. injection K as _ <-. reflexivity. }
  rewrite K2. rewrite K in Q. cbn [rbind] in *. destruct et as [te|]; [|cbn [rbind] in *; injection Q as _ Q; rewrite Q; reflexivity].
  destruct (build_node env default_ro te (mkRS INone p2 false)) as [[s3 o3]| |] eqn:E3 in Q; try discriminate Q.
  destruct (node_flags _ _ _ _ _ _ E3) as (p3 & -> & F3 & G3). destruct (G3 p1) as [p4 E4]. destruct (node_flags _ _ _ _ _ _ E4) as (p5 & _ & F5 & _). rewrite (F5 true).
  cbn [rbind] in *. injection Q as _ Q. rewrite Q. reflexivity.
Qed.

(** ** The place of a node *)
Lemma f2_in : forall (l : list tree) f, Forall2 depicts f l -> forall k, In k l -> exists f1 x f2 l1 l2, f = f1 ++ x :: f2 /\ l = l1 ++ k :: l2 /\
  Forall2 depicts f1 l1 /\ depicts x k /\ Forall2 depicts f2 l2.
Proof.
  intros l f Z. induction Z as [|x t f l D Z IH]; intros k H; [destruct H|]. destruct H as [-> |H].
  - exists [], x, f, [], l. auto.
  - destruct (IH k H) as (f1 & y & f2 & l1 & l2 & -> & -> & A & B & C). exists (x :: f1), y, f2, (t :: l1), l2. auto.
Qed.
Lemma list_count : forall f l, Forall2 depicts f l -> length (flat_map nodes l) = widths (flat_map tokens f).
Proof. intros f l Z. apply count_list; [exact Z|]. apply Forall_forall. intros x _ t. apply depicts_count. Qed.
Lemma end_leaf : forall e t s, end_is e t -> forall te, t_end_tag t = Some te -> sub s te -> t_type s = NTagEnd.
Proof.
  intros e t s (x & A & B & C & D & E & F) te H S. rewrite A in H. injection H as <-. inversion S; subst; [exact B|congruence|congruence].
Qed.
Lemma node_place : forall x t, depicts x t -> forall t', sub t' t -> t_type t' <> NTagEnd ->
  exists x' a b na nb, depicts x' t' /\ tokens x = a ++ tokens x' ++ b /\ nodes t = na ++ nodes t' ++ nb /\ length na = widths a.
Proof.
  intro x. induction x as [c bl|c|c|n a|n a sc|n a c e|n a ks e IH] using item_ind2; intros t D t' S Ty; inversion S as [u|u v kl k Ck Ik Sk|u v te Et Se]; subst.
  all: try (eexists _, [], [], [], []; split; [exact D|]; rewrite !app_nil_r; auto; fail).
  all: inversion D; subst; unfold plain_node in *; repeat match goal with H : _ /\ _ |- _ => destruct H end; try congruence.
  1,3: exfalso; eauto using end_leaf.
  match goal with H : Forall2 depicts _ _ |- _ => rename H into Z end. unfold child_list in Z. rewrite Ck in Z.
  destruct (f2_in _ _ Z k Ik) as (f1 & x & f2 & l1 & l2 & -> & -> & A & B & C).
  apply Forall_app in IH. destruct IH as [_ IH]. apply Forall_cons_iff in IH. destruct IH as [IH _].
  destruct (IH _ B _ Sk Ty) as (x' & pa & pb & na & nb & D' & E1 & E2 & E3).
  exists x', ((KOpen n a :: flat_map tokens f1) ++ pa), (pb ++ flat_map tokens f2 ++ [KClose e]), ((t :: flat_map nodes l1) ++ na), (nb ++ flat_map nodes l2 ++ match t_end_tag t with Some e => nodes e | None => [] end).
  split; [exact D'|]. split; [|split].
  - cbn [tokens]. rewrite flat_map_app. cbn [flat_map]. rewrite E1. cbn [app]. rewrite <- !app_assoc. reflexivity.
  - rewrite nodes_unfold. unfold child_list. rewrite Ck, flat_map_app. cbn [flat_map]. rewrite E2. cbn [app]. rewrite <- !app_assoc. reflexivity.
  - rewrite app_length, widths_app, E3. f_equal. cbn [length]. rewrite (list_count _ _ A). reflexivity.
Qed.
Lemma doc_place : forall d f r t, doc_content d f -> doc_tree d = Some r -> sub t r -> t <> r -> t_type t <> NTagEnd ->
  exists x a b na nb, depicts x t /\ flat_map tokens f = a ++ tokens x ++ b /\ nodes r = (r :: na) ++ nodes t ++ nb /\ length na = widths a.
Proof.
  intros d f r t (r' & E & T & C & En & Me & Z) Er S Ne Ty. rewrite E in Er. injection Er as ->. inversion S as [u|u v kl k Ck Ik Sk|u v te Et Se]; subst; [congruence| |congruence].
  unfold child_list in Z. rewrite Ck in Z. destruct (f2_in _ _ Z k Ik) as (f1 & x & f2 & l1 & l2 & -> & -> & A & B & F).
  destruct (node_place _ _ B _ Sk Ty) as (x' & pa & pb & na & nb & D' & E1 & E2 & E3).
  exists x', (flat_map tokens f1 ++ pa), (pb ++ flat_map tokens f2), (flat_map nodes l1 ++ na), (nb ++ flat_map nodes l2).
  split; [exact D'|]. split; [|split].
  - rewrite flat_map_app. cbn [flat_map]. rewrite E1, <- !app_assoc. reflexivity.
  - rewrite nodes_unfold. unfold child_list. rewrite Ck, En, app_nil_r, flat_map_app. cbn [flat_map app]. rewrite E2, <- !app_assoc. reflexivity.
  - rewrite app_length, widths_app, E3, (list_count _ _ A). reflexivity.
Qed.

(** Texts are apart from each other. *)
Fixpoint apart (ks : list token) : Prop :=
  match ks with
  | [] => True
  | k :: r => (is_ktext k = true -> match r with k' :: _ => is_ktext k' = false | [] => True end) /\ apart r
  end.
Lemma source_apart : forall opts ks s, source opts ks s -> apart ks.
Proof. intros opts ks s S. induction S; cbn; auto. Qed.
Lemma apart_app : forall a b, apart (a ++ b) -> apart a /\ apart b.
Proof.
  induction a as [|k a IH]; intros b H; [cbn; auto|]. cbn [app apart] in *. destruct H as [H1 H2]. apply IH in H2. split; [|tauto]. split; [|tauto].
  intro K. specialize (H1 K). destruct a; [exact I|exact H1].
Qed.
Lemma words_source : forall opts l, Forall (fun p => written opts (fst p) (snd p)) l -> apart (map fst l) -> source opts (map fst l) (words l).
Proof.
  intros opts l W. induction W as [|[k w] l X W IH]; intro A; [constructor|]. cbn [map fst words flat_map snd] in *. destruct A as [A1 A2].
  constructor; [exact X|apply IH; exact A2|exact A1].
Qed.
Lemma places_app : forall l1 l2 off, places off (l1 ++ l2) = places off l1 ++ places (off + length (words l1)) l2.
Proof.
  induction l1 as [|[k w] l1 IH]; intros l2 off; [cbn; rewrite Nat.add_0_r; reflexivity|]. cbn [app places words flat_map snd]. fold (words l1).
  rewrite IH, app_length, app_assoc, Nat.add_assoc. reflexivity.
Qed.
Lemma words_app : forall l1 l2, words (l1 ++ l2) = words l1 ++ words l2.
Proof. intros. apply flat_map_app. Qed.
Lemma map_split : forall {A B} (f : A -> B) l a b, map f l = a ++ b -> exists la lb, l = la ++ lb /\ map f la = a /\ map f lb = b.
Proof.
  intros A B f l a. revert l. induction a as [|x a IH]; intros l b H; [exists [], l; auto|]. destruct l as [|y l]; [discriminate H|]. cbn [map app] in H. injection H as Hx H.
  destruct (IH _ _ H) as (la & lb & -> & <- & <-). exists (y :: la), lb. subst x. auto.
Qed.
Lemma app_eq_len : forall {A} (a b c d : list A), a ++ b = c ++ d -> length a = length c -> a = c /\ b = d.
Proof.
  intros A a. induction a as [|x a IH]; intros b c d H L; destruct c as [|y c]; try discriminate L; [auto|].
  cbn in *. injection H as -> H. injection L as L. destruct (IH _ _ _ H L) as [-> ->]. auto.
Qed.
Lemma place_begin : forall k off w r l, place k off w = r :: l -> r_begin r = off.
Proof. intros k off w r l H. destruct k; cbn in H; injection H as <- _; reflexivity. Qed.
Lemma tokens_cons : forall x, exists k l, tokens x = k :: l.
Proof. destruct x; cbn [tokens]; eauto. Qed.

(** Without CDATA, and self-closing allowed everywhere, nesting does not depend on what surrounds it. *)
Lemma free_nest : forall opts x, allow_self_closing opts = true -> (forall c, ~ In (KCData c) (tokens x)) -> forall s s', nest_all opts (tokens x) s = Some s' ->
  forall a f, exists f', nest_all opts (tokens x) (mkNest a f) = Some (mkNest a f').
Proof.
  intros opts x Al. induction x as [c bl|c|c|n a|n a sc|n a c e|n a ks e IH] using item_ind2; intros Nc s s' H o f.
  1-2,4,6: eexists; reflexivity.
  - destruct (Nc c). left. reflexivity.
  - cbn [tokens nest_all nest]. rewrite Al, Bool.orb_true_r. cbn. eauto.
  - destruct (elem_nest _ _ _ _ _ _ _ H) as (f1 & f2 & K & Nf). cbn [tokens nest_all]. cbn [nest open_names foreign]. rewrite nest_all_app.
    assert (G : forall g o, exists f', nest_all opts (flat_map tokens ks) (mkNest o g) = Some (mkNest o f')).
    { assert (Nk : forall c, ~ In (KCData c) (flat_map tokens ks)) by (intros c X; apply (Nc c); right; apply in_or_app; auto).
      clear Nf Nc H. revert K Nk. generalize (mkNest (n :: open_names s) f1) (mkNest (n :: open_names s) f2). clear - IH. induction IH as [|x ks X IH IH2]; intros u v K Nk g o; [eexists; reflexivity|].
      destruct (nest_split _ _ _ _ _ K) as (s1 & A & B). cbn [flat_map]. rewrite nest_all_app.
      destruct (X (fun c H => Nk c (in_or_app _ _ _ (or_introl H))) _ _ A o g) as [g' ->]. apply (IH2 _ _ B). intros c H. apply (Nk c). cbn [flat_map]. apply in_or_app. auto. }
    destruct (G (match f with Some f => Some f | None => if special_elem n then Some n else None end) (n :: o)) as [f' ->]. cbn [nest_all nest open_names]. rewrite Nf. eauto.
Qed.
Lemma cdata_sub : forall c x t, depicts x t -> In (KCData c) (tokens x) -> exists t', sub t' t /\ t_type t' = NXMLCDATA.
Proof.
  intros c x. induction x as [c0 b|c0|c0|n0 a|n0 a sc|n0 a c0 e|n0 a ks e IH] using item_ind2; intros t D I;
    cbn [tokens] in I; try (destruct I as [I|I]; [try discriminate I|try destruct I]).
  - inversion D. subst. exists t. auto using sub_refl.
  - apply in_app_iff in I. destruct I as [I|[I|[]]]; [|discriminate I].
    inversion D as [| | | | | |n' l' ks' e' m t' T C En M MI Z]. subst.
    assert (G : forall l, Forall2 depicts ks l -> exists k t', In k l /\ sub t' k /\ t_type t' = NXMLCDATA).
    { clear - IH I. intros l Z. induction Z as [|x k ks l K Z IHZ]; [destruct I|]. apply Forall_cons_iff in IH. destruct IH as [I1 I2].
      cbn [flat_map] in I. apply in_app_iff in I. destruct I as [I|I].
      - destruct (I1 _ K I) as (t' & A). exists k, t'. split; [left; reflexivity|exact A].
      - destruct (IHZ I2 I) as (k' & t' & A & B). exists k', t'. split; [right; exact A|exact B]. }
    destruct (G _ Z) as (k & t' & A & B & C'). exists t'. split; [eapply child_sub; eauto|exact C'].
Qed.
Lemma extract_doc : forall opts s d r t env, parse opts s = Parsed d -> no_repair opts -> open_doctypes d -> allow_self_closing opts = true -> without_cdata d ->
  doc_tree d = Some r -> sub t r -> t <> r -> t_type t <> NTagEnd ->
  exists s1 s2 s3 x d2 o, s = s1 ++ s2 ++ s3 /\ length s1 = t_begin_at t /\ parse opts s2 = Parsed d2 /\ depicts x t /\ doc_content d2 (mark_all [x]) /\
    build env default_ro t false = ROk o /\ render env default_ro d2 = ROk o.
Proof.
  intros opts s d r t env P Nr O Al Nc Er S Ne Ty.
  destruct (source_map _ _ _ P Nr O) as (l & f & r' & Ew & Wr & So & Ns & Ef & Mk & Dc & Er' & Rw). rewrite Er in Er'. injection Er' as <-.
  destruct (doc_place _ _ _ _ Dc Er S Ne Ty) as (x & a & b & na & nb & Dx & Et & En & Ln).
  rewrite Et in Ef. destruct (map_split _ _ _ _ Ef) as (la & l' & -> & Ea & El'). destruct (map_split _ _ _ _ El') as (lx & lb & -> & Ex & Eb). clear El' Ef.
  exists (words la), (words lx), (words lb), x.
  assert (Sx : source opts (flat_map tokens [x]) (words lx)).
  { cbn [flat_map]. rewrite app_nil_r, <- Ex. apply words_source.
    - apply Forall_app in Wr. destruct Wr as [_ Wr]. apply Forall_app in Wr. apply Wr.
    - apply source_apart in So. rewrite !map_app in So. apply apart_app in So. destruct So as [_ So]. apply apart_app in So. apply So. }
  assert (Nx : nests opts (flat_map tokens [x])).
  { destruct Ns as [fo Ns]. rewrite !map_app, !nest_all_app, Ex in Ns. destruct (nest_all opts (map fst la) _) as [s1|]; [|discriminate Ns].
    rewrite nest_all_app in Ns. destruct (nest_all opts (tokens x) s1) as [s2|] eqn:E2; [|discriminate Ns]. cbn [flat_map]. rewrite app_nil_r.
    destruct (free_nest opts x Al) with (s := s1) (s' := s2) (a := @nil (list char)) (f := @None (list char)) as [f' F]; [|exact E2|exists f'; exact F].
    intros c I. destruct (cdata_sub _ _ _ Dx I) as (t' & A & B). apply (Nc r t' Er); [|exact B]. clear - A S. induction S; eauto using sub_child, sub_end. }
  destruct (accepted_as _ _ _ Sx Nx) as (d2 & P2 & D2). exists d2, (print (tokens x)).
  split; [rewrite <- Ew, !words_app; reflexivity|]. split.
  - rewrite En in Rw. apply (f_equal (@tl row)) in Rw. cbn [app map tl] in Rw. rewrite places_app, map_app in Rw.
    destruct (app_eq_len _ _ _ _ Rw) as [_ Rw2]; [rewrite map_length, places_width, Ln, Ea; reflexivity|]. rewrite places_app, nodes_unfold in Rw2. cbn [app map] in Rw2.
    destruct (tokens_cons x) as (k & ks & Ek). rewrite Ek in Ex. destruct lx as [|[k' w] lx]; [discriminate Ex|]. cbn [places] in Rw2.
    destruct (place k' (0 + length (words la)) w) as [|rw rest] eqn:Pl; [destruct k'; discriminate Pl|]. cbn [app] in Rw2. injection Rw2 as Rt _.
    apply place_begin in Pl. rewrite <- Rt in Pl. cbn in Pl. congruence.
  - split; [exact P2|]. split; [exact Dx|]. split; [exact D2|]. split; [apply root_build, Dx|].
    rewrite (content_render env _ _ D2), mark_all_tokens. cbn [flat_map]. rewrite app_nil_r. reflexivity.
Qed.
