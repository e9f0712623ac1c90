(** Replacing a node of a document. *)
From Coq Require Import String Lia.
From Verif Require Import Api SpecText SpecRender SpecParse SpecMisc SpecTree SpecDoc SpecJoin SpecMap SpecSwap NameProofs TextProofs DocTree DocSound Print MapProofs JoinProofs NodeProofs NodeDoc.
Local Open Scope string_scope.
Local Open Scope list_scope.

Lemma join_left : forall u k a b, is_ktext k = false -> join (u ++ k :: a) b = u ++ k :: join a b.
Proof.
  intros u k a b H. induction u as [|x u IH]; cbn [app].
  - apply join_cons. congruence.
  - rewrite join_cons by (destruct u; discriminate). rewrite IH. reflexivity.
Qed.
Lemma join_right : forall a b k c, is_ktext k = false -> join a (b ++ k :: c) = join a b ++ k :: c.
Proof.
  intros a b k c H. revert H. pattern a, b. apply join_app; clear a b; [reflexivity|reflexivity|].
  intros j a b IH E H. rewrite !join_cons; [cbn [app]; rewrite (IH H); reflexivity|exact E|].
  intros A B. specialize (E A B). destruct b; [exact H|exact E].
Qed.
Lemma join_nil : forall a, join a [] = a.
Proof. induction a as [|k a IH]; [reflexivity|]. rewrite join_cons, IH by auto. reflexivity. Qed.

(** The rest of a document does not depend on what surrounds it either. *)
Lemma free_tokens : forall opts ks, allow_self_closing opts = true -> (forall c, ~ In (KCData c) ks) ->
  forall a f a' f', nest_all opts ks (mkNest a f) = Some (mkNest a' f') -> forall g, exists g', nest_all opts ks (mkNest a g) = Some (mkNest a' g').
Proof.
  intros opts ks Al. induction ks as [|k ks IH]; intros Nc a f a' f' H g; [cbn in H; injection H as <- <-; exists g; reflexivity|].
  assert (X : forall a1 f1 g1, nest_all opts ks (mkNest a1 f1) = Some (mkNest a' f') -> exists g', nest_all opts ks (mkNest a1 g1) = Some (mkNest a' g')).
  { intros a1 f1 g1 H1. apply (IH (fun c I => Nc c (or_intror I)) _ _ _ _ H1). }
  cbn [nest_all] in *. destruct k as [c|c|c|n l|n l sc|n l c e|n l|e]; cbn [nest open_names foreign] in *.
  - eapply X; exact H.
  - eapply X; exact H.
  - destruct (Nc c). left. reflexivity.
  - eapply X; exact H.
  - rewrite Al, Bool.orb_true_r in *. cbn in *. eapply X; exact H.
  - eapply X; exact H.
  - eapply X; exact H.
  - destruct a as [|n a]; [discriminate H|]. destruct (name_fits _ _ _); [|discriminate H]. eapply X; exact H.
Qed.

(** The tokens of the content with a node replaced. *)
Lemma f2_nth : forall f l, Forall2 depicts f l -> forall i k, nth_error l i = Some k -> exists x, nth_error f i = Some x /\ depicts x k /\
  Forall2 depicts (firstn i f) (firstn i l) /\ Forall2 depicts (skipn (S i) f) (skipn (S i) l).
Proof.
  intros f l Z. induction Z as [|x t f l D Z IH]; intros [|i] k E; try discriminate E.
  - injection E as <-. exists x. cbn. auto.
  - destruct (IH _ _ E) as (y & A & B & C & F). exists y. cbn. auto.
Qed.
Lemma nth_cut : forall A (l : list A) i x, nth_error l i = Some x -> l = firstn i l ++ x :: skipn (S i) l.
Proof.
  intros A l. induction l as [|y l IH]; intros [|i] x E; try discriminate E; [injection E as ->; reflexivity|]. cbn. f_equal. exact (IH _ _ E).
Qed.
Lemma f2_first : forall f l n, Forall2 depicts f l -> Forall2 depicts (firstn n f) (firstn n l).
Proof. intros f l n Z. revert n. induction Z; intros [|n]; cbn; constructor; auto. Qed.
Lemma f2_skip : forall f l n, Forall2 depicts f l -> Forall2 depicts (skipn n f) (skipn n l).
Proof. intros f l n Z. revert n. induction Z; intros [|n]; cbn; auto. Qed.
Lemma three : forall A (l : list A) i n, l = firstn i l ++ firstn n (skipn i l) ++ skipn (i + n) l.
Proof.
  intros A l i n. rewrite <- (firstn_skipn i l) at 1. f_equal. rewrite <- (firstn_skipn n (skipn i l)) at 1. f_equal.
  revert l. induction i as [|i IH]; intro l; [reflexivity|]. destruct l; [rewrite !skipn_nil; reflexivity|]. cbn. apply IH.
Qed.
Lemma skip_head : forall A (l : list A) i, match skipn i l with x :: _ => Some x | [] => None end = nth_error l i.
Proof. intros A l. induction l as [|x l IH]; intros [|i]; cbn; auto. Qed.
(** The node that comes first in a list of trees. *)
Definition head_node (l : list tree) : option tree := match l with t :: _ => Some t | [] => None end.
Lemma nodes_head : forall l r, head_node (flat_map nodes l ++ r) = match l with t :: _ => Some t | [] => head_node r end.
Proof. intros [|t l] r; [reflexivity|]. cbn [flat_map]. rewrite nodes_unfold. reflexivity. Qed.
Lemma splice_place : forall i n p r t f, Forall2 depicts f (child_list r) -> at_place r p t -> roomy p t ->
  exists a m b na nb, Forall2 depicts m (firstn n (skipn i (child_list t))) /\ flat_map tokens f = a ++ flat_map tokens m ++ b /\
    flat_map nodes (child_list r) = na ++ nb /\ length na = widths a /\
    head_node nb = match nth_error (child_list t) i with Some k => Some k | None => if p then None else t_end_tag t end /\
    forall g, flat_map tokens (splice p i n g f) = join a (join (flat_map tokens g) b).
Proof.
  intros i n p. induction p as [|j p IH]; intros r t f Z At Ro.
  - inversion At; subst. exists (flat_map tokens (firstn i f)), (firstn n (skipn i f)), (flat_map tokens (skipn (i + n) f)), (flat_map nodes (firstn i (child_list t))), (flat_map nodes (skipn i (child_list t))).
    split; [apply f2_first, f2_skip, Z|]. split; [rewrite (three _ f i n) at 1; rewrite !flat_map_app; reflexivity|].
    split; [rewrite <- flat_map_app, firstn_skipn; reflexivity|]. split; [apply list_count, f2_first, Z|]. split.
    + rewrite <- (app_nil_r (flat_map nodes _)), nodes_head, <- skip_head. destruct (skipn i (child_list t)); reflexivity.
    + intro g. cbn [splice]. rewrite !glue_tokens. reflexivity.
  - inversion At as [|r' ks j' k p' u Ck Ek Ak]; subst. unfold child_list in Z. rewrite Ck in Z.
    destruct (f2_nth _ _ Z _ _ Ek) as (x & Ex & Dx & Z1 & Z2). pose proof (nth_cut _ _ _ _ Ex) as Ef. pose proof (nth_cut _ _ _ _ Ek) as El.
    destruct Ro as [Ro|Ro]; [discriminate Ro|].
    assert (Te : exists nm l kx e, x = XElem nm l kx e /\ Forall2 depicts kx (child_list k) /\ (exists te, t_end_tag k = Some te)).
    { destruct p as [|j2 p].
      - inversion Ak; subst. destruct Ro as (nm & l & kx & e & Dt).
        rewrite (depicts_unique _ _ Dx _ Dt). inversion Dt; subst. exists nm, l, kx, e. split; [reflexivity|]. split; [assumption|]. match goal with H : end_is _ _ |- _ => destruct H as (te & E1 & _); exists te; exact E1 end.
      - assert (Sk : exists ks', t_childs k = Some ks') by (inversion Ak; subst; eauto). destruct Sk as [ks' Sk].
        inversion Dx; subst; try (unfold plain_node in *; repeat match goal with H : _ /\ _ |- _ => destruct H end; congruence). do 4 eexists. split; [reflexivity|]. split; [eassumption|].
        match goal with H : end_is _ _ |- _ => destruct H as (te & E1 & _); exists te; exact E1 end. }
    destruct Te as (nm & l & kx & e & -> & Zk & te & Ete).
    destruct (IH k t kx Zk Ak (or_intror Ro)) as (a & m & b & na & nb & Dm & Et & En & Ln & Hd & Es).
    exists (flat_map tokens (firstn j f) ++ KOpen nm l :: a), m, (b ++ KClose e :: flat_map tokens (skipn (S j) f)),
      (flat_map nodes (firstn j ks) ++ k :: na), (nb ++ nodes te ++ flat_map nodes (skipn (S j) ks)).
    split; [exact Dm|]. split; [|split; [|split; [|split]]].
    + rewrite Ef at 1. rewrite flat_map_app. cbn [flat_map tokens]. rewrite Et. cbn [app]. rewrite <- !app_assoc. reflexivity.
    + unfold child_list at 1. rewrite Ck. rewrite El at 1. rewrite flat_map_app. cbn [flat_map]. rewrite nodes_unfold, Ete, En. cbn [app]. rewrite <- !app_assoc. reflexivity.
    + rewrite app_length, widths_app. cbn [length]. rewrite (list_count _ _ Z1), Ln. reflexivity.
    + destruct p as [|j2 p].
      * inversion Ak; subst. destruct (nth_error (child_list t) i); [destruct nb; [discriminate Hd|exact Hd]|]. destruct nb; [|discriminate Hd]. rewrite nodes_unfold. cbn. congruence.
      * destruct nb as [|y nb]; [|exact Hd]. exfalso. cbn in Hd. destruct Ro as (n1 & l1 & k1 & e1 & Dt). inversion Dt; subst.
        match goal with H : end_is _ _ |- _ => destruct H as (te' & E1 & _) end. rewrite E1 in Hd. destruct (nth_error (child_list t) i); discriminate Hd.
    + intro g. cbn [splice]. rewrite Ex, !flat_map_app. cbn [flat_map tokens]. rewrite Es, app_nil_r, join_left, !join_right by reflexivity. cbn [app]. rewrite <- !app_assoc. reflexivity.
Qed.
Lemma at_sub : forall r p t, at_place r p t -> sub t r.
Proof. intros r p t A. induction A as [|t ks i k p u C N A IH]; [apply sub_refl|]. eapply sub_child; [exact C|eapply nth_error_In; exact N|exact IH]. Qed.
Lemma cdata_doc : forall d f c, doc_content d f -> without_cdata d -> ~ In (KCData c) (flat_map tokens f).
Proof.
  intros d f c (r & Er & _ & _ & _ & _ & Z) W I. assert (X : exists k t', In k (child_list r) /\ sub t' k /\ t_type t' = NXMLCDATA).
  { clear - Z I. induction Z as [|x t f l D Z IH]; [destruct I|]. cbn [flat_map] in I. apply in_app_iff in I. destruct I as [I|I].
    - destruct (cdata_sub _ _ _ D I) as (t' & A & B). exists t, t'. split; [left; reflexivity|auto].
    - destruct (IH I) as (k & t' & A & B). exists k, t'. split; [right; exact A|exact B]. }
  destruct X as (k & t' & A & B & C). apply (W r t' Er (child_sub _ _ _ A B) C).
Qed.

(** The rendering of some nodes, one after the other. *)
Lemma built_list : forall env m l, Forall2 depicts m l -> Forall2 (fun t o => build env default_ro t false = ROk o) l (map (fun x => print (tokens x)) m) /\
  concat (map (fun x => print (tokens x)) m) = print (flat_map tokens m).
Proof.
  intros env m l Z. induction Z as [|x t m l D Z [IH1 IH2]]; [split; [constructor|reflexivity]|]. cbn [map flat_map concat]. split.
  - constructor; [apply root_build, D|exact IH1].
  - rewrite print_app, IH2. reflexivity.
Qed.

(** The text of some children, and what happens if other text takes its place. *)
Lemma splice_core : forall opts s d r p t i n f env, parse opts s = Parsed d -> no_repair opts -> open_doctypes d -> allow_self_closing opts = true -> without_cdata d ->
  doc_tree d = Some r -> at_place r p t -> roomy p t -> doc_content d f ->
  exists s1 s2 s3 m os o1 o3, s = s1 ++ s2 ++ s3 /\ length s1 = begins s t i /\
    Forall2 depicts m (firstn n (skipn i (child_list t))) /\ source opts (flat_map tokens m) s2 /\ nests opts (flat_map tokens m) /\
    (forall c, ~ In (KCData c) (flat_map tokens m)) /\
    Forall2 (fun k o => build env default_ro k false = ROk o) (firstn n (skipn i (child_list t))) os /\ concat os = print (flat_map tokens m) /\
    render env default_ro d = ROk (o1 ++ concat os ++ o3) /\
    forall g s', source opts (flat_map tokens g) s' -> nests opts (flat_map tokens g) -> (forall c, ~ In (KCData c) (flat_map tokens g)) ->
      exists d2, parse opts (s1 ++ s' ++ s3) = Parsed d2 /\ doc_content d2 (mark_all (splice p i n g f)) /\
        render env default_ro d2 = ROk (o1 ++ print (flat_map tokens g) ++ o3).
Proof.
  intros opts s d r p t i n f env P Nr O Al Nc Er At Ro Df.
  destruct (source_map _ _ _ P Nr O) as (l & f0 & r' & Ew & Wr & So & Ns & Ef & Mk & Dc & Er' & Rw). rewrite Er in Er'. injection Er' as <-.
  rewrite (content_unique _ _ _ Dc Df) in *. clear f0 Dc Mk.
  pose proof Df as (r0 & E0 & T0 & C0 & En0 & M0 & Z). rewrite Er in E0. injection E0 as <-.
  destruct (splice_place i n p r t f Z At Ro) as (a & m & b & na & nb & Dm & Et & En & Ln & Hd & Es).
  assert (Nt : forall c, ~ In (KCData c) (a ++ flat_map tokens m ++ b)) by (intros c I; rewrite <- Et in I; exact (cdata_doc _ _ _ Df Nc I)).
  rewrite Et in Ef. destruct (map_split _ _ _ _ Ef) as (la & l' & -> & Ea & El'). destruct (map_split _ _ _ _ El') as (lx & lb & -> & Ex & Eb). clear El' Ef.
  assert (Sa : source opts a (words la) /\ source opts (flat_map tokens m) (words lx) /\ source opts b (words lb)).
  { pose proof (source_apart _ _ _ So) as Ap. rewrite !map_app in Ap. apply apart_app in Ap. destruct Ap as [A1 Ap]. apply apart_app in Ap. destruct Ap as [A2 A3].
    apply Forall_app in Wr. destruct Wr as [W1 Wr]. apply Forall_app in Wr. destruct Wr as [W2 W3]. rewrite <- Ea, <- Ex, <- Eb. repeat split; apply words_source; assumption. }
  destruct Sa as (Sa & Sx & Sb). destruct (built_list env _ _ Dm) as [Bl Bc].
  assert (Ncm : forall c, ~ In (KCData c) (flat_map tokens m)) by (intros c I; apply (Nt c), in_or_app; right; apply in_or_app; left; exact I).
  destruct Ns as [fo Ns]. rewrite !map_app, nest_all_app, Ea, Ex, Eb in Ns.
  destruct (nest_all opts a (mkNest [] None)) as [[oa fa]|] eqn:Na; [|discriminate Ns]. rewrite nest_all_app in Ns.
  destruct (nest_all opts (flat_map tokens m) (mkNest oa fa)) as [[ox fx]|] eqn:Nx; [|discriminate Ns].
  pose proof (list_returns _ _ _ _ Nx) as R. cbn in R. subst ox.
  exists (words la), (words lx), (words lb), m, (map (fun x => print (tokens x)) m), (print a), (print b).
  split; [rewrite <- Ew, !words_app; reflexivity|]. split.
  { assert (Er2 : nodes r = r :: na ++ nb) by (rewrite nodes_unfold, En0, En, app_nil_r; reflexivity).
    rewrite Er2 in Rw. apply (f_equal (@tl row)) in Rw. cbn [app map tl] in Rw. rewrite places_app, map_app in Rw.
    destruct (app_eq_len _ _ _ _ Rw) as [_ Rw2]; [rewrite map_length, places_width, Ln, Ea; reflexivity|].
    assert (X : match nb with [] => length (words la) = length s | y :: _ => t_begin_at y = length (words la) end).
    { destruct (lx ++ lb) as [|[k' w] lr] eqn:Elr.
      - apply app_eq_nil in Elr. destruct Elr as [-> ->]. destruct nb; [|discriminate Rw2]. rewrite <- Ew, app_nil_r. reflexivity.
      - cbn [places] in Rw2. destruct (place k' (0 + length (words la)) w) as [|rw rest] eqn:Pl; [destruct k'; discriminate Pl|].
        destruct nb as [|y nb]; [discriminate Rw2|]. cbn [map app] in Rw2. injection Rw2 as Rt _. apply place_begin in Pl. rewrite <- Rt in Pl. exact Pl. }
    unfold begins. destruct nb as [|y nb]; cbn in Hd.
    + destruct (nth_error (child_list t) i); [discriminate Hd|]. destruct p as [|j p]; [inversion At; subst; rewrite En0; exact X|].
      destruct Ro as [Ro|(n1 & l1 & k1 & e1 & Dt)]; [discriminate Ro|]. inversion Dt; subst. match goal with H : end_is _ _ |- _ => destruct H as (te' & E1 & _) end. congruence.
    + destruct (nth_error (child_list t) i); [injection Hd as ->; congruence|]. destruct p as [|j p]; [discriminate Hd|]. rewrite <- Hd. congruence. }
  split; [exact Dm|]. split; [exact Sx|]. split; [destruct (free_nests opts m Al Ncm _ _ Nx [] None) as [f' F]; exists f'; exact F|]. split; [exact Ncm|].
  split; [exact Bl|]. split; [exact Bc|]. split; [rewrite (content_render env _ _ Df), Et, !print_app, Bc; reflexivity|].
  intros g s' Sg [fg Ng] Ncg.
  assert (Nn : nests opts (flat_map tokens (splice p i n g f))).
  { rewrite Es. destruct (free_nests opts g Al Ncg _ _ Ng oa fa) as [fg' G].
    destruct (free_tokens opts b Al (fun c I => Nt c (in_or_app _ _ _ (or_intror (in_or_app _ _ _ (or_intror I))))) _ _ _ _ Ns fg') as [fo' F].
    exists fo'. rewrite join_nest, nest_all_app, Na, join_nest, nest_all_app, G. exact F. }
  destruct (accepted_as opts (splice p i n g f) (words la ++ s' ++ words lb)) as (d2 & P2 & D2); [rewrite Es; apply join_source; [exact Sa|apply join_source; assumption]|exact Nn|].
  exists d2. split; [exact P2|]. split; [exact D2|]. rewrite (content_render env _ _ D2), mark_all_tokens, Es, !join_print. reflexivity.
Qed.
Theorem splice_doc : forall opts s d r p t i n s' d' f g env, parse opts s = Parsed d -> parse opts s' = Parsed d' -> no_repair opts ->
  open_doctypes d -> open_doctypes d' -> allow_self_closing opts = true -> without_cdata d -> without_cdata d' ->
  doc_tree d = Some r -> at_place r p t -> roomy p t -> doc_content d f -> doc_content d' g ->
  exists s1 s2 s3 m d2 os o1 o3 o', s = s1 ++ s2 ++ s3 /\ length s1 = begins s t i /\
    Forall2 depicts m (firstn n (skipn i (child_list t))) /\ source opts (flat_map tokens m) s2 /\
    parse opts (s1 ++ s' ++ s3) = Parsed d2 /\ doc_content d2 (mark_all (splice p i n g f)) /\
    Forall2 (fun k o => build env default_ro k false = ROk o) (firstn n (skipn i (child_list t))) os /\ render env default_ro d = ROk (o1 ++ concat os ++ o3) /\
    render env default_ro d' = ROk o' /\ render env default_ro d2 = ROk (o1 ++ o' ++ o3).
Proof.
  intros opts s d r p t i n s' d' f g env P P' Nr O O' Al Nc Nc' Er At Ro Df Dg.
  destruct (splice_core _ _ _ _ _ _ i n _ env P Nr O Al Nc Er At Ro Df) as (s1 & s2 & s3 & m & os & o1 & o3 & A1 & A2 & A3 & A4 & _ & _ & A5 & _ & A6 & A7).
  destruct (parsed_source _ _ _ P' Nr O') as (g0 & Sg & Ng & _ & Dg'). rewrite (content_unique _ _ _ Dg' Dg) in *. clear g0 Dg'.
  destruct (A7 g s' Sg Ng (fun c => cdata_doc _ _ c Dg Nc')) as (d2 & P2 & D2 & R2).
  exists s1, s2, s3, m, d2, os, o1, o3, (print (flat_map tokens g)). rewrite (content_render env _ _ Dg). auto 12.
Qed.

Lemma empty_doc : forall opts, exists d, parse opts [] = Parsed d /\ open_doctypes d /\ without_cdata d /\ doc_content d [].
Proof.
  intro opts. eexists. split; [destruct opts as [[] [] [] [] [] []]; vm_compute; reflexivity|]. split; [|split].
  - intros [|i] m A; [discriminate A|]. destruct i; discriminate A.
  - intros r t E S. destruct opts as [[] [] [] [] [] []]; vm_compute in E; injection E as <-; inversion S; subst; cbn in *; congruence.
  - eexists. split; [reflexivity|]. cbn. repeat split. constructor.
Qed.
Theorem remove_children : forall opts s d r p t i n f env, parse opts s = Parsed d -> no_repair opts -> open_doctypes d -> allow_self_closing opts = true -> without_cdata d ->
  doc_tree d = Some r -> at_place r p t -> roomy p t -> doc_content d f ->
  exists s1 s2 s3 m d2 os o1 o3, s = s1 ++ s2 ++ s3 /\ length s1 = begins s t i /\
    Forall2 depicts m (firstn n (skipn i (child_list t))) /\ source opts (flat_map tokens m) s2 /\
    parse opts (s1 ++ s3) = Parsed d2 /\ doc_content d2 (mark_all (splice p i n [] f)) /\
    Forall2 (fun k o => build env default_ro k false = ROk o) (firstn n (skipn i (child_list t))) os /\ render env default_ro d = ROk (o1 ++ concat os ++ o3) /\
    render env default_ro d2 = ROk (o1 ++ o3).
Proof.
  intros opts s d r p t i n f env P Nr O Al Nc Er At Ro Df. destruct (empty_doc opts) as (d' & P' & O' & Nc' & Dg).
  destruct (splice_doc _ _ _ _ _ _ i n _ _ _ _ env P P' Nr O O' Al Nc Nc' Er At Ro Df Dg) as (s1 & s2 & s3 & m & d2 & os & o1 & o3 & o' & A1 & A2 & A3 & A4 & A5 & A6 & A7 & A8 & A9 & A10).
  rewrite (content_render env _ _ Dg) in A9. injection A9 as <-. exists s1, s2, s3, m, d2, os, o1, o3. auto 12.
Qed.
Lemma f2_len : forall f l, Forall2 depicts f l -> length f = length l.
Proof. intros f l Z. induction Z; cbn; auto. Qed.
Theorem set_inner : forall opts s d r p t nm l ks e s' d' f g env, parse opts s = Parsed d -> parse opts s' = Parsed d' -> no_repair opts ->
  open_doctypes d -> open_doctypes d' -> allow_self_closing opts = true -> without_cdata d -> without_cdata d' ->
  doc_tree d = Some r -> at_place r p t -> depicts (XElem nm l ks e) t -> doc_content d f -> doc_content d' g ->
  exists s1 s2 s3 d2 o o1 o3 o', s = s1 ++ s2 ++ s3 /\ length s1 = begins s t 0 /\ source opts (flat_map tokens ks) s2 /\
    parse opts (s1 ++ s' ++ s3) = Parsed d2 /\ doc_content d2 (mark_all (splice p 0 (length ks) g f)) /\
    build env (with_inner_html true default_ro) t false = ROk o /\ render env default_ro d = ROk (o1 ++ o ++ o3) /\
    render env default_ro d' = ROk o' /\ render env default_ro d2 = ROk (o1 ++ o' ++ o3).
Proof.
  intros opts s d r p t nm l ks e s' d' f g env P P' Nr O O' Al Nc Nc' Er At Dt Df Dg.
  assert (Ro : roomy p t) by (right; eauto 8).
  destruct (splice_doc _ _ _ _ _ _ 0 (length ks) _ _ _ _ env P P' Nr O O' Al Nc Nc' Er At Ro Df Dg) as (s1 & s2 & s3 & m & d2 & os & o1 & o3 & o' & A1 & A2 & A3 & A4 & A5 & A6 & A7 & A8 & A9 & A10).
  assert (Em : m = ks /\ Forall2 depicts ks (child_list t)).
  { inversion Dt; subst. match goal with H : Forall2 depicts ks _ |- _ => rename H into Z end. split; [|exact Z]. cbn [skipn] in A3.
    rewrite (f2_len _ _ Z), firstn_all in A3. clear - A3 Z. revert m A3. induction Z as [|x y ks l D Z IH]; intros m A; inversion A; subst; [reflexivity|]. f_equal; [eapply depicts_unique; eauto|auto]. }
  destruct Em as [-> Z]. exists s1, s2, s3, d2, (concat os), o1, o3, o'.
  assert (Ne : t <> r) by (intros ->; destruct (doc_tree_in _ _ _ _ P Er) as [_ T]; rewrite (item_type _ _ Dt) in T; discriminate T).
  assert (B : build env (with_inner_html true default_ro) t false = ROk (concat os)).
  { rewrite (node_built _ _ _ _ _ _ env (with_inner_html true default_ro) false P (strict_orderly _ _ _ Nr O) (or_introl eq_refl) Er (at_sub _ _ _ At) Ne Dt). cbn. f_equal.
    cbn [skipn] in A7. rewrite (f2_len _ _ Z), firstn_all in A7.
    transitivity (print (flat_map tokens ks)); [f_equal; apply each_flat, Forall_forall; intros x _ q; rewrite shown_inner_flag; apply shown_default|].
    destruct (built_list env _ _ Z) as [B1 B2]. rewrite <- B2. f_equal. clear - A7 B1. revert os A7. induction B1 as [|x y l l' X B1 IH]; intros os A; inversion A; subst; [reflexivity|]. f_equal; [congruence|auto]. }
  auto 12.
Qed.
