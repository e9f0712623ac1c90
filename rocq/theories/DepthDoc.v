(** Depth of parsed documents. *)
From Coq Require Import String.
From Verif Require Import Api SpecText SpecRender SpecParse SpecMisc SpecTree SpecDoc SpecCost SpecHandles SpecDepth Handles Depth NameProofs TextProofs HeapLemmas InvCtl Big BigSteps
  Struct StructEnd DocTree RenderProofs CloneProofs SizeDoc HandleProofs DepthProofs DepthInv Shape DocSound Print Tests.
Local Open Scope string_scope.
Local Open Scope list_scope.

(** ** Any options *)
Lemma list_max_all : forall l n, (forall x, In x l -> x <= n) -> list_max l <= n.
Proof. intros l n H. apply list_max_le. apply Forall_forall. exact H. Qed.
Lemma list_max_in : forall l n, list_max l = S n -> In (S n) l.
Proof.
  induction l as [|x r IH]; intros n Em; [discriminate|]. rewrite list_max_cons in Em.
  destruct (Nat.max_spec x (list_max r)) as [[A B]|[A B]]; rewrite B in Em; [right; apply IH, Em|left; exact Em].
Qed.
Lemma Forall2_in_r : forall A B (R : A -> B -> Prop) l l' y, Forall2 R l l' -> In y l' -> exists x, In x l /\ R x y.
Proof.
  intros A B R l l' y F. induction F as [|a b l l' Hab F IH]; intro I; [destruct I|]. destruct I as [<-|I].
  - exists a. split; [left; reflexivity|exact Hab].
  - destruct (IH I) as (x & X & Y). exists x. split; [right; exact X|exact Y].
Qed.
Lemma Forall2_in_l : forall A B (R : A -> B -> Prop) l l' x, Forall2 R l l' -> In x l -> exists y, In y l' /\ R x y.
Proof.
  intros A B R l l' x F. induction F as [|a b l l' Hab F IH]; intro I; [destruct I|]. destruct I as [<-|I].
  - exists b. split; [left; reflexivity|exact Hab].
  - destruct (IH I) as (y & X & Y). exists y. split; [right; exact X|exact Y].
Qed.
Lemma levels_bound : forall opts s d, parse opts s = Parsed d -> forall t f i, tree_of f (d_heap d) i = Some t ->
  0 < i < length (d_heap d) -> ty (d_heap d) i <> NTagEnd -> 3 * levels t + n_begin_at (hget (d_heap d) i) <= length s + 2.
Proof.
  intros opts s d P. destruct (parsed_hs _ _ _ P) as [H _]. destruct (parsed_gap _ _ _ P) as (G1 & G2 & _).
  intro t. induction t as [i0 ty0 b e et c ks m _ Hks] using tree_ind'. intros f i T Li Ti. destruct f as [|f]; [discriminate|].
  apply tree_eq in T. destruct T as (et' & ks' & E & _ & K). injection E as -> -> -> -> <- -> <- ->. cbn [levels].
  specialize (G2 i Li Ti). destruct ks as [l|]; [|lia]. destruct K as (ids & Ec & F2). cbn [optP] in Hks.
  assert (Q : forall n, In n (map levels l) -> 3 * n + n_begin_at (hget (d_heap d) i) + 3 <= length s + 2).
  { intros n I. apply in_map_iff in I. destruct I as (t' & <- & I). destruct (Forall2_in_r _ _ _ _ _ _ F2 I) as (k & Ik & Tk).
    assert (Kk : In k (kids (d_heap d) i)) by (unfold kids; rewrite Ec; exact Ik). destruct (hs_kids _ _ H _ _ Kk) as (A & B & C).
    assert (Tg : ty (d_heap d) i = NTag) by (destruct C as [C|C]; [exact C|]; exfalso; apply (hs_rootty _ _ H i Li C)).
    specialize (G1 i k ltac:(lia) Tg B). rewrite Forall_forall in Hks. specialize (Hks t' I f k Tk ltac:(lia) B). lia. }
  destruct (list_max (map levels l)) as [|n] eqn:Em; [lia|].
  apply list_max_in in Em. specialize (Q (S n) Em). lia.
Qed.
Lemma steps_bound : forall opts s d, parse opts s = Parsed d -> forall w i j, 0 < i < length (d_heap d) -> ty (d_heap d) i <> NTagEnd ->
  path (d_heap d) i w j -> 3 * length w + n_begin_at (hget (d_heap d) i) <= length s.
Proof.
  intros opts s d P. destruct (parsed_hs _ _ _ P) as [H _]. destruct (parsed_gap _ _ _ P) as (G1 & G2 & G3).
  intro w. induction w as [|x w IH]; intros i j Li Ti Q; [specialize (G2 i Li Ti); cbn; lia|].
  destruct (path_front _ _ _ _ Q) as [[X _]|(y & b & v & E & L & Q2)]; [discriminate|]. injection E as <- <-. destruct x as [n|].
  - apply linked_kids in L. apply nth_error_In in L. destruct (hs_kids _ _ H _ _ L) as (A & B & C).
    assert (Tg : ty (d_heap d) i = NTag) by (destruct C as [C|C]; [exact C|]; exfalso; apply (hs_rootty _ _ H i Li C)).
    specialize (G1 i b ltac:(lia) Tg B). specialize (IH b j ltac:(lia) B Q2). cbn [length]. lia.
  - inversion L as [|p e E]; subst. specialize (G3 i b E). destruct (hs_end _ _ H _ _ E) as (_ & Tb & _).
    destruct (path_front _ _ _ _ Q2) as [[-> _]|(y & b2 & v2 & -> & L2 & _)]; [cbn; lia|]. exfalso. inversion L2 as [p l k k' E1 N1|p e2 E1]; subst.
    + assert (K : In b2 (kids (d_heap d) b)) by (unfold kids; rewrite E1; eapply nth_error_In; eauto).
      destruct (hs_kids _ _ H _ _ K) as (_ & _ & [C|C]); congruence.
    + destruct (hs_end _ _ H _ _ E1) as (_ & _ & _ & C). congruence.
Qed.
Lemma depth_mono : forall h a i n, (forall w k, path h a w k -> length w <= n) -> in_doc h a i -> forall w k, path h i w k -> length w <= n.
Proof. intros h a i n B [u U] w k Q. specialize (B _ _ (path_app _ _ _ _ _ _ U Q)). rewrite app_length in B. lia. Qed.
Theorem frames_bound : forall opts s d, parse opts s = Parsed d ->
  (forall t, doc_tree d = Some t -> 3 * levels t <= length s + 5) /\
  (forall i n, in_doc (d_heap d) (d_root d) i -> deepest (d_heap d) i n -> 3 * S n <= length s + 6).
Proof.
  intros opts s d P. destruct (parsed_hs _ _ _ P) as [H R]. split.
  - intros t T. unfold doc_tree in T. rewrite R in T. destruct (length (d_heap d)) as [|f] eqn:Lf; [discriminate|].
    apply tree_eq in T. destruct T as (et & ks & -> & _ & K). cbn [levels]. destruct ks as [l|]; [|lia]. destruct K as (ids & Ec & F2).
    destruct (list_max (map levels l)) as [|n] eqn:Em; [lia|]. apply list_max_in in Em.
    apply in_map_iff in Em. destruct Em as (t' & Et & I). destruct (Forall2_in_r _ _ _ _ _ _ F2 I) as (k & Ik & Tk).
    assert (Kk : In k (kids (d_heap d) 0)) by (unfold kids; rewrite Ec; exact Ik). destruct (hs_kids _ _ H _ _ Kk) as (A & B & _).
    pose proof (levels_bound _ _ _ P _ _ _ Tk A B). lia.
  - intros i n D [(w & k & Q & <-) _]. rewrite R in D.
    assert (B : forall w k, path (d_heap d) 0 w k -> 3 * length w <= length s + 3).
    { intros v j V. destruct (path_front _ _ _ _ V) as [[-> _]|(y & b & v2 & -> & L & Q2)]; [cbn; lia|]. cbn [length].
      inversion L as [p l m k' E1 N1|p e E1]; subst.
      - assert (K : In b (kids (d_heap d) 0)) by (unfold kids; rewrite E1; eapply nth_error_In; eauto).
        destruct (hs_kids _ _ H _ _ K) as (A & T & _). pose proof (steps_bound _ _ _ P v2 b j A T Q2). lia.
      - exfalso. destruct (hs_end _ _ H _ _ E1) as (_ & _ & _ & C). destruct (hs_root _ _ H) as (_ & C2 & _). congruence. }
    destruct D as [u U]. specialize (B _ _ (path_app _ _ _ _ _ _ U Q)). rewrite app_length in B. lia.
Qed.

(** ** Without repairs *)
Fixpoint reachd (t : tree) : nat :=
  match t with
  | TNode _ _ _ _ et _ ks _ =>
      Nat.max (match et with Some e => S (reachd e) | None => 0 end)
              (match ks with Some l => list_max (map (fun k => S (reachd k)) l) | None => 0 end)
  end.
Lemma list_max_ge : forall l n, In n l -> n <= list_max l.
Proof. intros l n I. assert (Q : list_max l <= list_max l) by apply le_n. apply list_max_le in Q. rewrite Forall_forall in Q. apply Q, I. Qed.
Lemma path_reachd : forall h t f i w k, tree_of f h i = Some t -> path h i w k -> length w <= reachd t.
Proof.
  intros h t. induction t as [i0 ty0 b e et c ks m Het Hks] using tree_ind'. intros f i w k T Q. destruct f as [|f]; [discriminate|].
  apply tree_eq in T. destruct T as (et' & ks' & E & A & K). injection E as -> -> -> -> <- -> <- ->. cbn [reachd].
  destruct (path_front _ _ _ _ Q) as [[-> _]|(y & b & v & -> & L & Q2)]; [cbn; lia|]. cbn [length]. inversion L as [p l n k' E1 N1|p e2 E1]; subst.
  - destruct ks as [l'|]; [|congruence]. destruct K as (ids & Ec & F2). rewrite Ec in E1. injection E1 as ->.
    destruct (Forall2_in_l _ _ _ _ _ _ F2 (nth_error_In _ _ N1)) as (t' & I & T'). cbn [optP] in Hks. rewrite Forall_forall in Hks.
    specialize (Hks t' I f b v k T' Q2).
    assert (S (reachd t') <= list_max (map (fun k => S (reachd k)) l')) by (apply list_max_ge, in_map_iff; exists t'; auto). lia.
  - destruct et as [te|]; [|congruence]. destruct A as (e & Ee & Te). rewrite Ee in E1. injection E1 as ->. cbn [optP] in Het.
    specialize (Het f b v k Te Q2). lia.
Qed.
Definition tlen (k : token) : nat := match k with KOpen _ _ => 3 | KClose _ => 4 | KRaw _ _ _ _ => 7 | _ => 1 end.
Definition tlens (ks : list token) : nat := list_sum (map tlen ks).
Lemma tlens_cons : forall k ks, tlens (k :: ks) = tlen k + tlens ks. Proof. reflexivity. Qed.
Lemma tlens_app : forall a b, tlens (a ++ b) = tlens a + tlens b.
Proof. intros. unfold tlens. rewrite map_app. apply list_sum_app. Qed.
Lemma closes_named : forall opts ks s, source opts ks s -> forall st st', nest_all opts ks st = Some st' ->
  Forall (fun n => n <> []) (open_names st) -> Forall (fun k => forall e, k = KClose e -> e <> []) ks.
Proof.
  intros opts ks s H. induction H as [|k s ks r W Sr IH _]; intros st st' N F; [constructor|].
  cbn [nest_all] in N. destruct (nest opts k st) as [st2|] eqn:E; [|discriminate].
  assert (Q : Forall (fun n => n <> []) (open_names st2) /\ forall e, k = KClose e -> e <> []).
  { destruct k; cbn [nest] in E; try (injection E as <-; split; [exact F|discriminate]).
    - destruct (open_names st) as [|n l] eqn:O; [discriminate|]. destruct (foreign st); [|discriminate]. destruct (chars_eqb n l0); [discriminate|].
      injection E as <-. split; [rewrite O; exact F|discriminate].
    - match type of E with (if ?b then _ else _) = _ => destruct b end; [|discriminate]. injection E as <-. split; [exact F|discriminate].
    - injection E as <-. split; [|discriminate]. cbn [open_names]. constructor; [|exact F].
      inversion W as [| | | | | |n0 a0 l0 On|]; subst. destruct On as (c & n' & -> & _). discriminate.
    - destruct (open_names st) as [|n l] eqn:O; [discriminate|]. destruct (name_fits _ n (trim_right e)) eqn:Nf; [|discriminate]. injection E as <-.
      inversion F as [|? ? Fn Fl]; subst. split; [exact Fl|]. intros e' X. injection X as <-. intros ->. cbn in Nf. unfold name_fits in Nf.
      destruct n; [contradiction|]. destruct (case_sensitive_tagname opts); discriminate Nf. }
  destruct Q as [Q1 Q2]. constructor; [exact Q2|]. eapply IH; eauto.
Qed.
Lemma source_tlens : forall opts ks s, source opts ks s -> Forall (fun k => forall e, k = KClose e -> e <> []) ks -> tlens ks <= length s.
Proof.
  intros opts ks s H. induction H as [|k s ks r W Sr IH _]; intro F; [apply le_n|]. inversion F as [|? ? Fk Fl]; subst.
  rewrite tlens_cons, app_length. specialize (IH Fl). assert (tlen k <= length s); [|lia].
  destruct W as [c Ne _|c _|kw c _ _|n b a l _ _ _|n a l sc On _ _ _|n a l c e On _ _ _ Nf _|n a l On _ _ _ _|e _]; cbn [tlen]; rewrite ?app_length;
    try (apply open_name_len in On); try (cbn; lia).
  - destruct c; [contradiction|cbn; lia].
  - assert (1 <= length e); [|cbn; lia]. destruct e; [|cbn; lia]. exfalso. destruct n; [cbn in On; lia|].
    cbn in Nf. unfold name_fits in Nf. destruct (case_sensitive_tagname opts); discriminate Nf.
  - assert (1 <= length e); [|cbn; lia]. specialize (Fk e eq_refl). destruct e; [contradiction|cbn; lia].
Qed.
Lemma plain_flat : forall t, plain_node t -> reachd t = 0 /\ levels t = 1.
Proof. intros [i ty b e et c ks m] (A & _ & C). cbn in A, C. subst. split; reflexivity. Qed.
Lemma item_depth : forall x t, depicts x t -> 7 * levels t <= tlens (tokens x) + 6 /\ 7 * reachd t <= tlens (tokens x).
Proof.
  intro x. induction x as [c b|c|c|n a|n a sc|n a c e|n a ks e IH] using item_ind2; intros t D; inversion D; subst; cbn [tokens].
  1,2,3: match goal with H : plain_node _ |- _ => destruct (plain_flat _ H) as [-> ->] end; rewrite tlens_cons; change (tlens []) with 0; cbn [tlen]; lia.
  - match goal with |- context [levels ?t] => destruct t as [i ty b e et c ks m0] end. cbn in *. subst. rewrite tlens_cons; change (tlens []) with 0; cbn [tlen levels reachd]. lia.
  - match goal with |- context [levels ?t] => destruct t as [i ty b e et c ks m0] end. cbn in *. subst. rewrite tlens_cons; change (tlens []) with 0; cbn [tlen levels reachd]. lia.
  - match goal with |- context [levels ?t] => destruct t as [i ty b e0 et c0 ks m0] end. match goal with H : end_is _ _ |- _ => destruct H as (te & Et & _ & _ & Pl) end.
    apply plain_flat in Pl. destruct Pl as [Pl _]. cbn [t_end_tag t_childs] in *. subst. rewrite tlens_cons; change (tlens []) with 0; cbn [tlen levels reachd]. rewrite Pl. lia.
  - match goal with |- context [levels ?t] => destruct t as [i ty b e0 et c0 ks0 m0] end. match goal with H : end_is _ _ |- _ => destruct H as (te & Et & _ & _ & Pl) end.
    apply plain_flat in Pl. destruct Pl as [Pl _]. cbn [t_end_tag] in Et. subst et. rewrite tlens_cons, tlens_app.
    change (tlens [KClose e]) with 4. cbn [tlen levels reachd]. rewrite Pl.
    match goal with H : Forall2 depicts ks _ |- _ => rename H into F2 end. unfold child_list in F2. cbn [t_childs] in F2.
    assert (Q : forall l, Forall2 depicts ks l -> 7 * list_max (map levels l) <= tlens (flat_map tokens ks) + 6 /\
       7 * list_max (map (fun k => S (reachd k)) l) <= tlens (flat_map tokens ks) + 7).
    { clear - IH. intros l F. induction F as [|x t ks l Hx F IHl]; [cbn; lia|]. inversion IH as [|? ? Ix Il]; subst.
      destruct (IHl Il) as [A B]. destruct (Ix t Hx) as [C E]. cbn [map flat_map]. rewrite !list_max_cons, tlens_app. lia. }
    destruct ks0 as [l|]; [destruct (Q l F2) as [A B]|]; lia.
Qed.
Theorem strict_depth : forall opts s d, parse opts s = Parsed d -> no_repair opts -> open_doctypes d ->
  (forall t, doc_tree d = Some t -> 7 * levels t <= length s + 13) /\
  (forall i n, in_doc (d_heap d) (d_root d) i -> deepest (d_heap d) i n -> 7 * S n <= length s + 14).
Proof.
  intros opts s d P Nr Od. destruct (parsed_source _ _ _ P Nr Od) as (f & Sf & (fo & Nf) & _ & (t & T & _ & _ & Et & _ & F2)).
  assert (L : tlens (flat_map tokens f) <= length s) by (eapply source_tlens; [exact Sf|eapply closes_named; [exact Sf|exact Nf|constructor]]).
  assert (Q : forall f l, Forall2 depicts f l -> 7 * list_max (map levels l) <= tlens (flat_map tokens f) + 6 /\
     7 * list_max (map (fun k => S (reachd k)) l) <= tlens (flat_map tokens f) + 7).
  { clear. intros f l F. induction F as [|x t ks l Hx F IHl]; [cbn; lia|].
    destruct IHl as [A B]. destruct (item_depth x t Hx) as [C E]. cbn [map flat_map]. rewrite !list_max_cons, tlens_app. lia. }
  destruct (Q _ _ F2) as [A B].
  assert (K : 7 * levels t <= length s + 13 /\ 7 * reachd t <= length s + 7).
  { destruct t as [i ty b e et c ks m]. cbn in Et. subst et. unfold child_list in A, B. cbn [t_childs] in A, B. cbn [levels reachd]. destruct ks as [l|]; lia. }
  destruct K as [K1 K2]. split.
  - intros t' T'. rewrite T in T'. injection T' as <-. exact K1.
  - intros i n [u U] [(w & k & W & <-) _]. pose proof (path_reachd _ _ _ _ _ _ T (path_app _ _ _ _ _ _ U W)) as R. rewrite app_length in R. lia.
Qed.

(** ** Depth is not limited *)
Fixpoint nested (n : nat) : item :=
  match n with O => XText (str "x") false | S n' => XElem (str "a") [] [nested n'] (str "a") end.
Lemma nested_mark : forall n o f, mark o f (nested n) = nested n.
Proof. induction n as [|n IH]; intros o f; [reflexivity|]. cbn [nested mark]. rewrite IH. reflexivity. Qed.
Lemma times_S : forall n s, times (S n) s = s ++ times n s. Proof. reflexivity. Qed.
Lemma times_end : forall n s, times n s ++ s = times (S n) s.
Proof. induction n as [|n IH]; intro s; [symmetry; apply app_nil_r|]. rewrite times_S, <- app_assoc, IH. reflexivity. Qed.
Lemma a_open : forall opts, written opts (KOpen (str "a") []) (str "<a>").
Proof.
  intro opts. refine (w_open opts (str "a") [] [] _ I _ eq_refl eq_refl); [exists 97%N, []; repeat constructor|].
  apply (ar_end _ _ []). constructor.
Qed.
Lemma a_close : forall opts, written opts (KClose (str "a")) (str "</a>").
Proof. intro opts. apply (w_close _ (str "a")). vm_compute. intuition discriminate. Qed.
Lemma source_app : forall opts ks s, source opts ks s -> forall e r, written opts (KClose e) r -> source opts (ks ++ [KClose e]) (s ++ r).
Proof.
  intros opts ks s H. induction H as [|k s ks r W Sr IH Q]; intros e r' W'.
  - cbn [app]. rewrite <- (app_nil_r r'). apply src_cons; [exact W'|constructor|discriminate].
  - cbn [app]. rewrite <- app_assoc. apply src_cons; [exact W|apply IH; exact W'|]. intro K. specialize (Q K). destruct ks; [reflexivity|exact Q].
Qed.
Lemma nested_source : forall opts n, source opts (tokens (nested n)) (times n (str "<a>") ++ str "x" ++ times n (str "</a>")).
Proof.
  intros opts n. induction n as [|n IH].
  - change (source opts [KText (str "x")] (str "x" ++ [])). apply src_cons; [|constructor|intros; exact I].
    constructor; [discriminate|]. vm_compute. intuition discriminate.
  - cbn [nested tokens flat_map]. rewrite app_nil_r, <- (times_end n (str "</a>")), (times_S n (str "<a>")), <- app_assoc.
    apply src_cons; [apply a_open| |discriminate]. rewrite !app_assoc, <- (app_assoc (times n (str "<a>"))). apply source_app; [exact IH|apply a_close].
Qed.
Lemma nest_all_app : forall opts a b s, nest_all opts (a ++ b) s = match nest_all opts a s with Some s' => nest_all opts b s' | None => None end.
Proof. induction a as [|k a IH]; intros b s; [reflexivity|]. cbn [app nest_all]. destruct (nest opts k s); [apply IH|reflexivity]. Qed.
Lemma nested_nests : forall opts n st, nest_all opts (tokens (nested n)) (mkNest st None) = Some (mkNest st None).
Proof.
  intros opts n. induction n as [|n IH]; intro st; [reflexivity|].
  cbn [nested tokens flat_map]. rewrite app_nil_r. cbn [nest_all nest open_names foreign].
  change (special_elem (str "a")) with false. cbv beta iota. rewrite nest_all_app, IH. cbn [nest_all nest open_names foreign].
  change (trim_right (str "a")) with (str "a"). unfold name_fits. destruct (case_sensitive_tagname opts); reflexivity.
Qed.
Lemma nested_levels : forall n t, depicts (nested n) t -> levels t = S n.
Proof.
  induction n as [|n IH]; intros t D; inversion D; subst.
  - match goal with H : plain_node _ |- _ => apply plain_flat in H; apply H end.
  - match goal with H : Forall2 depicts _ _ |- _ => rename H into F2 end. destruct t as [i ty b e0 et c0 ks0 m0]. unfold child_list in F2. cbn [t_childs] in F2.
    inversion F2 as [|x t1 ? l D1 F3]; subst. inversion F3; subst. destruct ks0 as [l|]; [|discriminate]. subst l. cbn [levels map]. rewrite list_max_cons, (IH _ D1). cbn. lia.
Qed.
Lemma nested_reachd : forall n t, depicts (nested n) t -> reachd t = n.
Proof.
  induction n as [|n IH]; intros t D; inversion D; subst.
  - match goal with H : plain_node _ |- _ => apply plain_flat in H; apply H end.
  - match goal with H : end_is _ _ |- _ => destruct H as (te & Et & _ & _ & Pl) end. apply plain_flat in Pl. destruct Pl as [Pl _].
    match goal with H : Forall2 depicts _ _ |- _ => rename H into F2 end. destruct t as [i ty b e0 et c0 ks0 m0]. unfold child_list in F2. cbn [t_childs t_end_tag] in *. subst et.
    inversion F2 as [|x t1 ? l D1 F3]; subst. inversion F3; subst. destruct ks0 as [l|]; [|discriminate]. subst l. cbn [reachd map]. rewrite list_max_cons, (IH _ D1), Pl. cbn. lia.
Qed.
Lemma levels_path : forall h t f i, tree_of f h i = Some t -> exists w k, path h i w k /\ S (length w) = levels t.
Proof.
  intros h t. induction t as [i0 ty0 b e et c ks m _ Hks] using tree_ind'. intros f i T. destruct f as [|f]; [discriminate|].
  apply tree_eq in T. destruct T as (et' & ks' & E & _ & K). injection E as -> -> -> -> <- -> <- ->. cbn [levels].
  destruct ks as [l|]; [|exists [], i; split; [constructor|reflexivity]]. destruct K as (ids & Ec & F2).
  destruct (list_max (map levels l)) as [|n] eqn:Em; [exists [], i; split; [constructor|reflexivity]|].
  apply list_max_in in Em. apply in_map_iff in Em. destruct Em as (t' & Et & I). destruct (Forall2_in_r _ _ _ _ _ _ F2 I) as (k & Ik & Tk).
  cbn [optP] in Hks. rewrite Forall_forall in Hks. destruct (Hks t' I f k Tk) as (w & j & W & Lw). destruct (In_nth_error _ _ Ik) as [q Q].
  exists (LChild q :: w), j. split; [|cbn [length]; lia]. change (LChild q :: w) with ([LChild q] ++ w). eapply path_app; [apply path_one; econstructor; eauto|exact W].
Qed.
Lemma nested_closed : forall n, ~ ends_in_open_name (times n (str "<a>") ++ str "x" ++ times n (str "</a>")).
Proof.
  intros n (a & m & E & (c & m' & -> & Ac & Fm)). destruct n as [|n].
  - change (str "x" = a ++ [60%N] ++ c :: m') in E. destruct a as [|y [|z a]]; discriminate E.
  - rewrite <- (times_end n (str "</a>")) in E. change (str "</a>") with ([60; 47; 97]%N ++ [62%N]) in E at 2. rewrite !app_assoc in E.
    destruct (exists_last (l := c :: m') ltac:(discriminate)) as (m & z & Em). rewrite Em, app_assoc in E. apply app_inj_tail in E. destruct E as [_ <-].
    assert (I : In 62%N (c :: m')) by (rewrite Em; apply in_or_app; right; left; reflexivity). destruct I as [->|I]; [discriminate Ac|].
    rewrite Forall_forall in Fm. specialize (Fm _ I). revert Fm. vm_compute. intuition discriminate.
Qed.
Theorem depth_reached : forall opts n, exists d t,
  parse opts (times n (str "<a>") ++ str "x" ++ times n (str "</a>")) = Parsed d /\ doc_tree d = Some t /\
  (forall env o, inner_html o = false -> exists out, r_build env o t false = (ROk out, n + 2)) /\
  (exists h j, r_clone_node (d_heap d) (d_root d) = (ROk (h, j), n + 2)) /\
  exists cs, drop_node (d_heap d) (counts (d_heap d) [d_root d]) (d_root d) = Some (cs, n + 2).
Proof.
  intros opts n. destruct (source_accepted opts _ _ (nested_source opts n)) as (d & f & P & E & M & (t & T & _ & _ & Et & _ & F2)).
  { exists None. apply nested_nests. }
  assert (f = [nested n]) as ->.
  { apply tokens_unique; [exact M|unfold marked; cbn [mark_all]; rewrite nested_mark; reflexivity|]. rewrite E. cbn [flat_map]. rewrite app_nil_r. reflexivity. }
  assert (Q : levels t = n + 2 /\ reachd t = n + 1).
  { destruct t as [i ty b e0 et c0 ks0 m0]. unfold child_list in F2. cbn [t_childs t_end_tag] in F2, Et. subst et.
    inversion F2 as [|x t1 ? l D1 F3]; subst. inversion F3; subst. destruct ks0 as [l|]; [|discriminate]. subst l.
    cbn [levels reachd map]. rewrite !list_max_cons, (nested_levels _ _ D1), (nested_reachd _ _ D1). cbn [list_max fold_right]. lia. }
  destruct Q as [Q1 Q2].
  assert (De : deepest (d_heap d) (d_root d) (n + 1)).
  { split.
    - destruct (levels_path _ _ _ _ T) as (w & k & W & Lw). exists w, k. split; [exact W|lia].
    - intros w k W. rewrite <- Q2. eapply path_reachd; [exact T|exact W]. }
  assert (Dr : in_doc (d_heap d) (d_root d) (d_root d)) by (exists []; constructor).
  exists d, t. split; [exact P|]. split; [exact T|]. split; [|split].
  - intros env o Io. destruct (parsed_renders _ _ _ env o P) as [_ R]; [intros [_ X]; exact (nested_closed n X)|exact Io|].
    destruct (R t) as [out B]; [exists (length (d_heap d)), (d_root d); auto|]. destruct (r_build env o t false) as [r m] eqn:Eb.
    destruct (render_depth _ _ _ _ _ _ Eb) as (-> & _ & X). exists out. rewrite B in *. rewrite (X eq_refl Io out eq_refl), Q1. reflexivity.
  - destruct (parsed_hs _ _ _ P) as [H R].
    destruct (clone_depth _ _ _ (d_root d) P) as (h & j & m & C & _ & [(w & k & W & Lw) D2]); [rewrite R; apply (hs_root _ _ H)|].
    exists h, j. rewrite C. f_equal. destruct De as [(w2 & k2 & W2 & Lw2) De]. specialize (D2 _ _ W2). specialize (De _ _ W). lia.
  - destruct (drop_depth _ _ _ (d_root d) [] (n + 1) P Dr (Forall_nil _) De) as (m & C & _ & X). exists (counts (d_heap d) []).
    assert (m = n + 2) as <-; [|exact C]. rewrite X; [lia|]. intros j _ (r & [] & _).
Qed.
