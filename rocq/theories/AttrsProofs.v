(** Proofs for C67. *)
From Coq Require Import String Lia.
From Verif Require Import Api SpecText SpecRender SpecParse SpecMisc SpecTree SpecDoc SpecJoin SpecMap SpecSwap SpecAttrs NameProofs TextProofs Shape DocTree DocSound Print MapProofs JoinProofs NodeProofs NodeDoc SwapProofs.
Local Open Scope string_scope.
Local Open Scope list_scope.

(** ** The token *)
Definition token_with (l : list attr) (k : token) : token :=
  match k with
  | KDoctype n _ => KDoctype n l
  | KLeaf n _ sc => KLeaf n l sc
  | KRaw n _ c e => KRaw n l c e
  | KOpen n _ => KOpen n l
  | k => k
  end.
Lemma filler_ws : forall c w, is_ws c -> filler w -> filler (c :: w).
Proof. intros c w C W. constructor; [left; exact C|exact W]. Qed.
Lemma slash_ws : forall c w, is_ws c -> has_slash (c :: w) = has_slash w.
Proof. intros c w C. unfold has_slash. cbn [existsb]. destruct (N.eqb_spec 47 c) as [<-|E]; [discriminate C|reflexivity]. Qed.
Lemma area_blank : forall eq dt c a l sc, is_ws c -> area eq dt a l sc -> area eq dt (c :: a) l sc.
Proof.
  intros eq dt c a l sc C A. destruct A.
  - rewrite <- (slash_ws c) by exact C. constructor. apply filler_ws; assumption.
  - rewrite app_comm_cons. apply ar_bare; auto using filler_ws.
  - rewrite app_comm_cons. apply ar_empty; auto using filler_ws.
  - rewrite app_comm_cons. apply ar_unquoted; auto using filler_ws.
  - rewrite app_comm_cons. apply ar_quoted; auto using filler_ws.
  - rewrite app_comm_cons. apply ar_keyless; auto using filler_ws.
Qed.
Lemma area_unblank : forall eq dt c a l sc, is_ws c -> area eq dt (c :: a) l sc -> area eq dt a l sc.
Proof.
  intros eq dt c a l sc C A. remember (c :: a) as s eqn:E. revert E.
  assert (K : forall w r, filler w -> (forall x y, r = x :: y -> ~ is_ws x) -> r <> [] -> w ++ r = c :: a -> exists w', w = c :: w' /\ filler w' /\ a = w' ++ r).
  { intros [|x w] r F N Z E; cbn in E.
    - destruct r as [|x r]; [congruence|]. injection E as -> ->. destruct (N c a eq_refl C).
    - injection E as E1 E2; subst. inversion F; subst. exists w. auto. }
  assert (Kk : forall k r, attr_key eq dt k -> k ++ r <> [] /\ forall x y, k ++ r = x :: y -> ~ is_ws x).
  { intros k r (x & k' & -> & _ & [(N & _)|[-> _]] & _); (split; [discriminate|]); cbn; intros z y Q; injection Q as <- _; intro W; [unfold is_ws, not_ws in *; congruence|discriminate W]. }
  assert (Kq : forall q r, quote_char q -> [q] ++ r <> [] /\ forall x y, [q] ++ r = x :: y -> ~ is_ws x).
  { intros q r Q. split; [discriminate|]. cbn. intros x y E; injection E as <- _; intro W. destruct Q; subst; discriminate W. }
  destruct A as [w F|w k r l sc F Kq' B A|w k e w2 F Kq' Q F2|w k e w2 v r l sc F Kq' Q F2 V S A|w k e w2 q v r l sc F Kq' Q F2 Qq N A|w q v r l sc F D Qq N A]; intro E.
  - subst w. rewrite slash_ws by exact C. constructor. inversion F; assumption.
  - destruct (Kk k r Kq') as [K1 K2]. destruct (K _ _ F K2 K1 E) as (w' & -> & F' & ->). apply ar_bare; assumption.
  - destruct (Kk k (e ++ w2) Kq') as [K1 K2]. destruct (K _ _ F K2 K1 E) as (w' & -> & F' & ->). apply ar_empty; assumption.
  - destruct (Kk k (e ++ w2 ++ v ++ r) Kq') as [K1 K2]. destruct (K _ _ F K2 K1 E) as (w' & -> & F' & ->). apply ar_unquoted; assumption.
  - destruct (Kk k (e ++ w2 ++ [q] ++ v ++ [q] ++ r) Kq') as [K1 K2]. destruct (K _ _ F K2 K1 E) as (w' & -> & F' & ->). apply ar_quoted; assumption.
  - destruct (Kq q (v ++ [q] ++ r) Qq) as [K1 K2]. destruct (K _ _ F K2 K1 E) as (w' & -> & F' & ->). apply ar_keyless; assumption.
Qed.
(** The tag that an item starts with, as written and as printed. *)
Lemma start_written : forall opts x dt n l sc k ks w, starts_as x dt n l sc -> tokens x = k :: ks -> written opts k w ->
  exists a tail, w = n ++ a ++ str ">" ++ tail /\ follows_name dt a /\ area (allow_attr_key_starts_with_equal_sign opts) dt a l sc /\
    forall a' l', follows_name dt a' -> area (allow_attr_key_starts_with_equal_sign opts) dt a' l' sc -> written opts (token_with l' k) (n ++ a' ++ str ">" ++ tail).
Proof.
  intros opts x dt n l sc k ks w S T W. destruct S as [n l|n l sc|n l c e|n l kx e]; cbn [tokens] in T; injection T as <- _.
  - inversion W as [| | |? b a ? Sn B A| | | |]; subst. exists (b :: a), []. split; [rewrite <- !app_assoc; reflexivity|].
    split; [exists b, a; auto|]. split; [apply area_blank; assumption|]. intros a' l' (b' & r & -> & B') A'. apply area_unblank in A'; [|exact B'].
    pose proof (w_doctype opts n b' r l' Sn B' A') as X. rewrite app_nil_r, <- app_assoc. exact X.
  - inversion W as [| | | |? a ? ? On Sa A D| | |]; subst. exists a, []. split; [rewrite <- !app_assoc; reflexivity|]. split; [exact Sa|]. split; [exact A|].
    intros a' l' F A'. rewrite app_nil_r, <- app_assoc. apply w_leaf; assumption.
  - inversion W as [| | | | |? a ? ? ? On Sa A D E F| |]; subst. exists a, (c ++ str "</" ++ e ++ str ">"). split; [rewrite <- !app_assoc; reflexivity|]. split; [exact Sa|]. split; [exact A|].
    intros a' l' F' A'. rewrite <- app_assoc. apply w_raw; assumption.
  - inversion W as [| | | | | |? a ? On Sa A D E|]; subst. exists a, []. split; [rewrite <- !app_assoc; reflexivity|]. split; [exact Sa|]. split; [exact A|].
    intros a' l' F' A'. rewrite app_nil_r, <- app_assoc. apply w_open; assumption.
Qed.
Lemma start_printed : forall x dt n l sc k ks, starts_as x dt n l sc -> tokens x = k :: ks ->
  exists tail, forall l', print_token (token_with l' k) = n ++ print_attrs l' ++ tail.
Proof.
  intros x dt n l sc k ks S T. destruct S as [n l|n l sc|n l c e|n l kx e]; cbn [tokens] in T; injection T as <- _; eexists; intro l'; cbn [token_with print_token];
    rewrite <- !app_assoc; reflexivity.
Qed.
Lemma token_same : forall x dt n l sc k ks, starts_as x dt n l sc -> tokens x = k :: ks -> token_with l k = k.
Proof. intros x dt n l sc k ks S T. destruct S; cbn [tokens] in T; injection T as <- _; reflexivity. Qed.
Lemma with_tokens : forall x dt n l sc k ks l', starts_as x dt n l sc -> tokens x = k :: ks -> tokens (with_attrs l' x) = token_with l' k :: ks.
Proof. intros x dt n l sc k ks l' S T. destruct S; cbn [tokens with_attrs] in *; injection T as <- <-; reflexivity. Qed.
Lemma token_nest : forall opts l k s, nest opts (token_with l k) s = nest opts k s.
Proof. intros opts l [] s; reflexivity. Qed.

(** ** The place *)
Lemma attr_place : forall l' p r t f x dt n l sc, p <> [] -> Forall2 depicts f (child_list r) -> at_place r p t -> depicts x t -> starts_as x dt n l sc ->
  exists a k ks b na nb, tokens x = k :: ks /\ flat_map tokens f = a ++ k :: b /\ flat_map nodes (child_list r) = na ++ t :: nb /\ length na = widths a /\
    flat_map tokens (reattributed p l' f) = a ++ token_with l' k :: b.
Proof.
  intros l' p. induction p as [|j p IH]; intros r t f x dt n l sc Np Z At Dx St; [congruence|]. clear Np.
  inversion At as [|r' ks j' k p' u Ck Ek Ak]; subst. unfold child_list in *. rewrite Ck in *.
  destruct (f2_nth _ _ Z _ _ Ek) as (y & Ey & Dy & Z1 & Z2). pose proof (nth_cut _ _ _ _ Ey) as Ef. pose proof (nth_cut _ _ _ _ Ek) as El.
  destruct p as [|j2 p].
  - inversion Ak; subst. rewrite (depicts_unique _ _ Dy _ Dx) in *. clear y Dy. destruct (tokens_cons x) as (k0 & kr & Tx).
    exists (flat_map tokens (firstn j f)), k0, kr, (kr ++ flat_map tokens (skipn (S j) f)), (flat_map nodes (firstn j ks)), (tl (nodes t) ++ flat_map nodes (skipn (S j) ks)).
    split; [exact Tx|]. split; [rewrite Ef at 1; rewrite flat_map_app; cbn [flat_map]; rewrite Tx; reflexivity|].
    split; [rewrite El at 1; rewrite flat_map_app; cbn [flat_map]; rewrite nodes_unfold; reflexivity|]. split; [apply list_count, Z1|].
    cbn [reattributed]. rewrite Ey, !flat_map_app. cbn [flat_map]. rewrite (with_tokens _ _ _ _ _ _ _ l' St Tx), app_nil_r. reflexivity.
  - assert (Sk : exists ks', t_childs k = Some ks') by (inversion Ak; subst; eauto). destruct Sk as [ks' Sk].
    assert (Te : exists nm m kx e te, y = XElem nm m kx e /\ Forall2 depicts kx (child_list k) /\ t_end_tag k = Some te).
    { inversion Dy; subst; try (unfold plain_node in *; repeat match goal with H : _ /\ _ |- _ => destruct H end; congruence).
      match goal with H : end_is _ _ |- _ => destruct H as (te & E1 & _) end. do 5 eexists. split; [reflexivity|]. split; eassumption. }
    destruct Te as (nm & m & kx & e & te & -> & Zk & Ete).
    destruct (IH k t kx x dt n l sc ltac:(discriminate) Zk Ak Dx St) as (a & k0 & kr & b & na & nb & Tx & Et & En & Ln & Es).
    exists (flat_map tokens (firstn j f) ++ KOpen nm m :: a), k0, kr, (b ++ KClose e :: flat_map tokens (skipn (S j) f)),
      (flat_map nodes (firstn j ks) ++ k :: na), (nb ++ nodes te ++ flat_map nodes (skipn (S j) ks)).
    split; [exact Tx|]. split; [|split; [|split]].
    + rewrite Ef at 1. rewrite flat_map_app. cbn [flat_map tokens]. rewrite Et. cbn [app]. rewrite <- ?app_assoc. cbn [app]. rewrite <- ?app_assoc. reflexivity.
    + rewrite El at 1. rewrite flat_map_app. cbn [flat_map]. rewrite nodes_unfold, Ete. unfold child_list in En. unfold child_list. rewrite En. cbn [app]. rewrite <- ?app_assoc. cbn [app]. rewrite <- ?app_assoc. reflexivity.
    + rewrite app_length, widths_app. cbn [length]. rewrite (list_count _ _ Z1), Ln. reflexivity.
    + cbn [reattributed]. cbn [reattributed] in Es. rewrite Ey, !flat_map_app. cbn [flat_map tokens]. rewrite !flat_map_app in Es. rewrite !flat_map_app, Es, app_nil_r. cbn [app]. rewrite <- ?app_assoc. cbn [app]. rewrite <- ?app_assoc. reflexivity.
Qed.

(** ** Marks *)
(** Items that differ at most in attributes. *)
Inductive near : item -> item -> Prop :=
  | nr_same : forall x, near x x
  | nr_leaf : forall n l l' sc, near (XLeaf n l sc) (XLeaf n l' sc)
  | nr_doctype : forall n l l', near (XDoctype n l) (XDoctype n l')
  | nr_raw : forall n l l' c e, near (XRaw n l c e) (XRaw n l' c e)
  | nr_elem : forall n l l' ks ks' e, Forall2 near ks ks' -> near (XElem n l ks e) (XElem n l' ks' e).
Lemma near_is_text : forall x x', near x x' -> is_text x' = is_text x.
Proof. intros x x' H. destruct H; reflexivity. Qed.
Lemma near_refl : forall l, Forall2 near l l.
Proof. induction l; constructor; auto using nr_same. Qed.
Lemma near_mark : forall x x' o f, near x x' -> mark o f x = x -> mark o f x' = x'.
Proof.
  intros x. induction x as [c b|c|c|n a|n a s|n a c e|n a ks e IH] using item_ind2; intros x' o f R M; inversion R; subst; try reflexivity; try exact M.
  rewrite mark_elem in *. injection M as M. f_equal.
  assert (G : forall b, mark_list b ks = ks -> mark_list b ks' = ks').
  { clear M R. intro b. match goal with H : Forall2 _ ks ks' |- _ => rename H into F end. revert b. induction F as [|k k' ks ks' K F IHF]; intros b M; [reflexivity|].
    cbn [mark_list] in *. injection M as M1 M2. inversion IH; subst. f_equal; [|apply IHF; assumption].
    match goal with H : forall x', _ |- _ => eapply H; [exact K|] end. destruct F as [|k2 k2' ks ks' K2 F]; [exact M1|]. rewrite (near_is_text _ _ K2). exact M1. }
  match goal with H : Forall2 _ ks ks' |- _ => rename H into F end. destruct F as [|k k' ks ks' K F]; [reflexivity|]. destruct F as [|k2 k2' ks ks' K2 F].
  - injection M as M. inversion IH; subst. f_equal. match goal with H : forall x', _ |- _ => eapply H; [exact K|exact M] end.
  - apply G. exact M.
Qed.
Lemma near_marked : forall f f', Forall2 near f f' -> marked f -> marked f'.
Proof.
  intros f f' F M. unfold marked in *. rewrite mark_all_list in *. revert M. generalize false as b. induction F as [|x x' f f' R F IH]; intros b M; [reflexivity|].
  cbn [mark_list] in *. injection M as M1 M2. f_equal; [|exact (IH b M2)]. eapply near_mark; [exact R|]. destruct F as [|y y' f f' Q F]; [exact M1|]. rewrite (near_is_text _ _ Q). exact M1.
Qed.
Lemma reattributed_near : forall l p f, Forall2 near f (reattributed p l f).
Proof.
  intros l p. induction p as [|j p IH]; intro f; [apply near_refl|]. cbn [reattributed].
  destruct (nth_error f j) as [x|] eqn:E.
  - rewrite (nth_cut _ _ _ _ E) at 1. apply Forall2_app; [apply near_refl|]. cbn [app]. constructor; [|apply near_refl].
    destruct p as [|j2 p]; [destruct x; constructor; apply near_refl|]. destruct x; try apply nr_same. apply nr_elem, IH.
  - apply nth_error_None in E. rewrite firstn_all2 by lia. rewrite skipn_all2 by lia. rewrite !app_nil_r. apply near_refl.
Qed.

(** ** Documents *)
Theorem set_attributes : forall opts s d r p t x dt n l sc f a' l' env, parse opts s = Parsed d -> no_repair opts -> open_doctypes d ->
  doc_tree d = Some r -> at_place r p t -> depicts x t -> starts_as x dt n l sc -> doc_content d f ->
  follows_name dt a' -> area (allow_attr_key_starts_with_equal_sign opts) dt a' l' sc ->
  exists s1 a s3 d2 o1 o3, s = s1 ++ n ++ a ++ str ">" ++ s3 /\ length s1 = t_begin_at t /\ follows_name dt a /\
    area (allow_attr_key_starts_with_equal_sign opts) dt a l sc /\
    parse opts (s1 ++ n ++ a' ++ str ">" ++ s3) = Parsed d2 /\ doc_content d2 (reattributed p l' f) /\
    render env default_ro d = ROk (o1 ++ n ++ print_attrs l ++ o3) /\ render env default_ro d2 = ROk (o1 ++ n ++ print_attrs l' ++ o3).
Proof.
  intros opts s d r p t x dt n l sc f a' l' env P Nr O Er At Dx St Df Fo Ar.
  destruct (source_map _ _ _ P Nr O) as (lw & f0 & r' & Ew & Wr & So & Ns & Ef & Mk & Dc & Er' & Rw). rewrite Er in Er'. injection Er' as <-.
  rewrite (content_unique _ _ _ Dc Df) in *. clear f0 Dc.
  pose proof Df as (r0 & E0 & T0 & C0 & En0 & M0 & Z). rewrite Er in E0. injection E0 as <-.
  assert (Np : p <> []).
  { intros ->. inversion At; subst. inversion Dx; subst; inversion St; subst; congruence. }
  destruct (attr_place l' p r t f x dt n l sc Np Z At Dx St) as (a & k & kr & b & na & nb & Tx & Et & En & Ln & Es).
  rewrite Et in Ef. destruct (map_split _ _ _ _ Ef) as (la & lr & -> & Ea & El'). destruct lr as [|[k0 w] lb]; [discriminate El'|]. cbn [map fst] in El'. injection El' as -> Eb.
  pose proof (source_apart _ _ _ So) as Ap. rewrite map_app in Ap. cbn [map fst] in Ap. rewrite Ea, Eb in Ap.
  apply Forall_app in Wr. destruct Wr as [W1 Wr]. inversion Wr as [|? ? Wk W3]; subst. cbn [fst snd] in Wk.
  destruct (start_written _ _ _ _ _ _ _ _ _ St Tx Wk) as (a0 & tail & E0 & F0 & A0 & Wn). clear Wk Wr. cbn [snd] in E0. subst w. specialize (Wn a' l' Fo Ar).
  set (l2 := la ++ (token_with l' k, n ++ a' ++ str ">" ++ tail) :: lb).
  assert (S2 : source opts (flat_map tokens (reattributed p l' f)) (words l2)).
  { replace (flat_map tokens (reattributed p l' f)) with (map fst l2) by (unfold l2; rewrite map_app; cbn [map fst]; symmetry; exact Es).
    apply words_source; [unfold l2; apply Forall_app; split; [exact W1|constructor; assumption]|].
    unfold l2. rewrite map_app. cbn [map fst]. clear - Ap St Tx. induction (map fst la) as [|y q IH]; cbn [app apart] in *.
    - destruct Ap as [A1 A2]. split; [|exact A2]. intro H. destruct St; cbn [tokens] in Tx; injection Tx as <- _; discriminate H.
    - destruct Ap as [A1 A2]. split; [|exact (IH A2)]. intro H. specialize (A1 H). destruct q; [|exact A1]. cbn [app] in *. destruct St; cbn [tokens] in Tx; injection Tx as <- _; reflexivity. }
  assert (N2 : nests opts (flat_map tokens (reattributed p l' f))).
  { destruct Ns as [fo Ns]. exists fo. rewrite Es, nest_all_app. rewrite map_app in Ns. cbn [map fst] in Ns. rewrite nest_all_app in Ns. cbn [nest_all] in *.
    destruct (nest_all opts (map fst la) (mkNest [] None)); [|discriminate Ns]. rewrite token_nest. exact Ns. }
  destruct (accepted_as _ _ _ S2 N2) as (d2 & P2 & D2). rewrite (near_marked _ _ (reattributed_near l' p f) Mk) in D2.
  destruct (start_printed _ _ _ _ _ _ _ St Tx) as [tl' Pr].
  exists (words la), a0, (tail ++ words lb), d2, (print (map fst la)), (tl' ++ print (map fst lb)).
  split; [rewrite words_app; cbn [words flat_map snd]; rewrite <- !app_assoc; reflexivity|]. split.
  - assert (Er2 : nodes r = r :: na ++ t :: nb) by (rewrite nodes_unfold, En0, En, app_nil_r; reflexivity).
    rewrite Er2 in Rw. apply (f_equal (@List.tl row)) in Rw. cbn [app map List.tl] in Rw. rewrite places_app, map_app in Rw.
    destruct (app_eq_len _ _ _ _ Rw) as [_ Rw2]; [rewrite map_length, places_width, Ln; reflexivity|].
    cbn [places map] in Rw2. destruct (place k _ _) as [|rw rest] eqn:Pl in Rw2; [destruct k; discriminate Pl|]. cbn [app] in Rw2. injection Rw2 as Rt _.
    apply place_begin in Pl. rewrite <- Rt in Pl. symmetry. exact Pl.
  - split; [exact F0|]. split; [exact A0|]. split; [|split; [exact D2|]].
    + rewrite <- P2. f_equal. unfold l2. rewrite words_app. cbn [words flat_map snd]. rewrite <- !app_assoc. reflexivity.
    + assert (Pc : forall y ys, print (y :: ys) = print_token y ++ print ys) by reflexivity.
      rewrite (content_render env _ _ Df), (content_render env _ _ D2), Et, Es, !print_app, !Pc.
      rewrite <- (token_same _ _ _ _ _ _ _ St Tx) at 1. rewrite !Pr, <- !app_assoc. split; reflexivity.
Qed.

(** Attributes that can be written. *)
Lemma area_more : forall eq dt a l sc, area false dt a l sc -> area eq dt a l sc.
Proof.
  intros eq dt a l sc A. assert (K : forall k, attr_key false dt k -> attr_key eq dt k).
  { intros k (c & k' & -> & F & [C|[_ C]] & Q); [|discriminate C]. exists c, k'. auto. }
  induction A; [apply ar_end|apply ar_bare|apply ar_empty|apply ar_unquoted|apply ar_quoted|apply ar_keyless]; auto.
Qed.
Theorem canonical_attributes : forall opts s d r p t x dt n l sc f l' env, parse opts s = Parsed d -> no_repair opts -> open_doctypes d ->
  doc_tree d = Some r -> at_place r p t -> depicts x t -> starts_as x dt n l sc -> doc_content d f ->
  Forall (good_attr dt) l' -> (dt = true -> l' <> []) ->
  exists s1 a s3 d2 o1 o3, s = s1 ++ n ++ a ++ str ">" ++ s3 /\ length s1 = t_begin_at t /\
    area (allow_attr_key_starts_with_equal_sign opts) dt a l sc /\
    parse opts (s1 ++ n ++ print_attrs l' ++ (if sc then str " /" else []) ++ str ">" ++ s3) = Parsed d2 /\ doc_content d2 (reattributed p l' f) /\
    render env default_ro d = ROk (o1 ++ n ++ print_attrs l ++ o3) /\ render env default_ro d2 = ROk (o1 ++ n ++ print_attrs l' ++ o3).
Proof.
  intros opts s d r p t x dt n l sc f l' env P Nr O Er At Dx St Df G Nd.
  assert (Fo : follows_name dt (print_attrs l' ++ if sc then str " /" else [])).
  { destruct dt; [|apply print_start]. destruct l' as [|y l']; [destruct (Nd eq_refl eq_refl)|]. cbn [print_attrs flat_map]. rewrite <- !app_assoc. change (str " ") with [32%N]. cbn [app follows_name]. eexists _, _. split; [reflexivity|reflexivity]. }
  pose proof (area_more (allow_attr_key_starts_with_equal_sign opts) _ _ _ _ (area_print dt l' sc G)) as Ar.
  destruct (set_attributes opts s d r p t x dt n l sc f _ l' env P Nr O Er At Dx St Df Fo Ar) as (s1 & a & s3 & d2 & o1 & o3 & A & B & C & D & E & F & H & I).
  exists s1, a, s3, d2, o1, o3. rewrite <- !app_assoc in E. auto 10.
Qed.
