(** The heap holds given content; which parts a token can change. *)
From Coq Require Import String.
From Verif Require Import Api SpecText SpecParse SpecMisc SpecTree SpecDoc HeapLemmas Big BigSteps Shape.
Local Open Scope string_scope.
Local Open Scope list_scope.

Definition textkind (t : node_type) : Prop := t = NText \/ t = NSpacesBetweenTag.
Definition sp (h : list node) (i : nid) : bool := node_type_eqb (ty h i) NSpacesBetweenTag.

(** The nodes of [h] in [h']: [ck] becomes a whitespace node, only [pt] may change its content,
    only [pk] its children, only [pe] its end tag. *)
Record ev (ck pt pk pe : option nid) (h h' : list node) : Prop := mkEv {
  ev_len : length h <= length h';
  ev_ty : forall i, i < length h -> ty h' i = if match ck with Some k => Nat.eqb k i | None => false end then NSpacesBetweenTag else ty h i;
  ev_meta : forall i, i < length h -> n_meta (hget h' i) = n_meta (hget h i);
  ev_content : forall i, i < length h -> pt <> Some i -> n_content (hget h' i) = n_content (hget h i);
  ev_childs : forall i, i < length h -> pk <> Some i -> n_childs (hget h' i) = n_childs (hget h i);
  ev_end : forall i, i < length h -> pe <> Some i -> n_end_tag (hget h' i) = n_end_tag (hget h i)
}.

(** Nodes that do not change any more (but for blank texts). *)
Definition fin (h : list node) (i : nid) : Prop :=
  i < length h /\
  match n_type (hget h i) with
  | NAbstractRoot => False
  | NText | NSpacesBetweenTag => n_content (hget h i) <> None
  | NTag => n_end_tag (hget h i) <> None \/
            exists m, n_meta (hget h i) = Some m /\ (m_self_closed m || m_is_void m)%bool = true
  | _ => True
  end.

Definition bare_node (n : node) : Prop := n_end_tag n = None /\ n_meta n = None /\ n_childs n = None.
Definition end_node (h : list node) (i : nid) (e : list char) : Prop :=
  exists j, n_end_tag (hget h i) = Some j /\ j < length h /\ n_type (hget h j) = NTagEnd /\
    n_content (hget h j) = Some e /\ bare_node (hget h j).
Inductive real (h : list node) : nid -> yitem -> Prop :=
  | re_text : forall i c, i < length h -> textkind (n_type (hget h i)) -> n_content (hget h i) = Some c ->
      bare_node (hget h i) -> real h i (YText i c)
  | re_comment : forall i c, i < length h -> n_type (hget h i) = NComment -> n_content (hget h i) = Some c ->
      bare_node (hget h i) -> real h i (YComment c)
  | re_cdata : forall i c, i < length h -> n_type (hget h i) = NXMLCDATA -> n_content (hget h i) = Some c ->
      bare_node (hget h i) -> real h i (YCData c)
  | re_doctype : forall i n l m, i < length h -> n_type (hget h i) = NHTMLDOCTYPE -> n_content (hget h i) = None ->
      n_end_tag (hget h i) = None -> n_childs (hget h i) = None -> n_meta (hget h i) = Some m ->
      m_name m = n -> m_attrs m = l -> m_self_closed m = false -> real h i (YDoctype n l)
  | re_leaf : forall i n l s m, i < length h -> n_type (hget h i) = NTag -> n_content (hget h i) = None ->
      n_end_tag (hget h i) = None -> n_childs (hget h i) = None -> n_meta (hget h i) = Some m ->
      meta_is n l s (void_name n) m -> (s || void_name n)%bool = true -> real h i (YLeaf n l s)
  | re_raw : forall i n l c e m, i < length h -> n_type (hget h i) = NTag -> n_content (hget h i) = Some c ->
      end_node h i e -> n_childs (hget h i) = None -> n_meta (hget h i) = Some m ->
      meta_is n l false false m -> real h i (YRaw n l c e)
  | re_elem : forall i n l ks e m, i < length h -> n_type (hget h i) = NTag -> n_content (hget h i) = None ->
      end_node h i e -> n_meta (hget h i) = Some m -> meta_is n l false false m ->
      Forall2 (real h) (kids h i) ks -> real h i (YElem n l ks e).

Lemma real_ind2 : forall h (P : nid -> yitem -> Prop),
  (forall i y, real h i y -> (forall n l ks e, y = YElem n l ks e -> Forall2 P (kids h i) ks) -> P i y) ->
  forall i y, real h i y -> P i y.
Proof.
  intros h P H. fix IH 3. intros i y R. apply H; [exact R|]. destruct R; intros nn ll kk ee E; try discriminate E.
  injection E as <- <- <- <-. match goal with F : Forall2 _ _ _ |- _ => induction F end; constructor; auto.
Qed.

Lemma real_fin : forall h i y, real h i y -> fin h i.
Proof.
  intros h i y R. unfold fin. destruct R; (split; [assumption|]);
  try (match goal with T : n_type _ = _ |- _ => rewrite T end; exact I).
  - destruct H0 as [->| ->]; congruence.
  - rewrite H0. right. exists m. split; [assumption|]. destruct H5 as [_ [_ [-> ->]]]. exact H6.
  - rewrite H0. left. destruct H2 as [j [-> _]]. discriminate.
  - rewrite H0. left. destruct H2 as [j [-> _]]. discriminate.
Qed.
Lemma real_lt : forall h i y, real h i y -> i < length h.
Proof. intros h i y R. apply real_fin in R. apply R. Qed.
Lemma end_fin : forall h i e j, end_node h i e -> n_end_tag (hget h i) = Some j -> fin h j.
Proof.
  intros h i e j [k [A [B [C _]]]] E. rewrite A in E. injection E as <-. split; [exact B|]. rewrite C. exact I.
Qed.

Definition untouched (pt pk pe : option nid) (h : list node) : Prop :=
  forall i, fin h i -> pt <> Some i /\ pk <> Some i /\ pe <> Some i.
Definition ck_text (ck : option nid) (h : list node) : Prop :=
  forall i, ck = Some i -> textkind (ty h i).

Lemma ev_type : forall ck pt pk pe h h' i, ev ck pt pk pe h h' -> ck_text ck h -> i < length h ->
  ~ textkind (n_type (hget h i)) -> n_type (hget h' i) = n_type (hget h i).
Proof.
  intros ck pt pk pe h h' i E C L N. pose proof (ev_ty _ _ _ _ _ _ E i L) as T. unfold ty in T. rewrite T.
  destruct ck as [k|]; [|reflexivity]. destruct (Nat.eqb_spec k i) as [->|]; [|reflexivity].
  exfalso. apply N. apply (C i eq_refl).
Qed.
Lemma ev_textkind : forall ck pt pk pe h h' i, ev ck pt pk pe h h' -> i < length h ->
  textkind (n_type (hget h i)) -> textkind (n_type (hget h' i)).
Proof.
  intros ck pt pk pe h h' i E L T. pose proof (ev_ty _ _ _ _ _ _ E i L) as Q. unfold ty in Q. rewrite Q.
  destruct (match ck with Some k => Nat.eqb k i | None => false end); [right; reflexivity|exact T].
Qed.
Lemma fin_ev : forall ck pt pk pe h h' i, ev ck pt pk pe h h' -> ck_text ck h -> untouched pt pk pe h -> fin h i -> fin h' i.
Proof.
  intros ck pt pk pe h h' i E C U F. destruct (U i F) as [U1 [U2 U3]]. destruct F as [L F].
  split; [pose proof (ev_len _ _ _ _ _ _ E); lia|].
  rewrite (ev_content _ _ _ _ _ _ E) by assumption. rewrite (ev_end _ _ _ _ _ _ E) by assumption.
  rewrite (ev_meta _ _ _ _ _ _ E) by assumption.
  assert (D : textkind (n_type (hget h i)) \/ ~ textkind (n_type (hget h i)))
    by (unfold textkind; destruct (n_type (hget h i)); auto; right; intros [|]; discriminate).
  destruct D as [T|T].
  - destruct (ev_textkind _ _ _ _ _ _ _ E L T) as [-> | ->]; destruct T as [T|T]; rewrite T in F; exact F.
  - rewrite (ev_type _ _ _ _ _ _ _ E C L T). exact F.
Qed.

Lemma nt : forall t, t <> NText -> t <> NSpacesBetweenTag -> ~ textkind t.
Proof. intros t A B [|]; contradiction. Qed.
Lemma bare_ev : forall ck pt pk pe h h' i, ev ck pt pk pe h h' -> untouched pt pk pe h -> fin h i ->
  bare_node (hget h i) -> bare_node (hget h' i).
Proof.
  intros ck pt pk pe h h' i E U F [A [B C]]. destruct (U i F) as [U1 [U2 U3]]. destruct F as [L F].
  repeat split; [rewrite (ev_end _ _ _ _ _ _ E)|rewrite (ev_meta _ _ _ _ _ _ E)|rewrite (ev_childs _ _ _ _ _ _ E)]; assumption.
Qed.
Lemma end_node_ev : forall ck pt pk pe h h' i e, ev ck pt pk pe h h' -> ck_text ck h -> untouched pt pk pe h -> fin h i ->
  end_node h i e -> end_node h' i e.
Proof.
  intros ck pt pk pe h h' i e E C U F N. pose proof N as [j [A [B [D [G K]]]]].
  pose proof (end_fin _ _ _ _ N A) as Fj. destruct (U i F) as [U1 [U2 U3]]. destruct (U j Fj) as [V1 [V2 V3]].
  exists j. rewrite (ev_end _ _ _ _ _ _ E) by (assumption || apply F). split; [exact A|].
  split; [pose proof (ev_len _ _ _ _ _ _ E); lia|]. split.
  - rewrite (ev_type _ _ _ _ _ _ _ E C B); [exact D|]. rewrite D. apply nt; discriminate.
  - rewrite (ev_content _ _ _ _ _ _ E) by assumption. split; [exact G|]. eapply bare_ev; eauto.
Qed.
Lemma real_ev : forall ck pt pk pe h h', ev ck pt pk pe h h' -> ck_text ck h -> untouched pt pk pe h ->
  forall i y, real h i y -> real h' i y.
Proof.
  intros ck pt pk pe h h' E C U. apply real_ind2. intros i y R IH. pose proof (real_fin _ _ _ R) as F.
  destruct (U i F) as [U1 [U2 U3]]. pose proof (proj1 F) as L.
  assert (L' : i < length h') by (pose proof (ev_len _ _ _ _ _ _ E); lia).
  assert (Ty : forall t, n_type (hget h i) = t -> t <> NText -> t <> NSpacesBetweenTag -> n_type (hget h' i) = t).
  { intros t Ht A B. rewrite (ev_type _ _ _ _ _ _ _ E C L); [exact Ht|]. rewrite Ht. apply nt; assumption. }
  pose proof (ev_content _ _ _ _ _ _ E i L U1) as Ec. pose proof (ev_childs _ _ _ _ _ _ E i L U2) as Ek.
  pose proof (ev_end _ _ _ _ _ _ E i L U3) as Ee. pose proof (ev_meta _ _ _ _ _ _ E i L) as Em.
  destruct R.
  - apply re_text; [exact L'|eapply ev_textkind; eauto|congruence|eapply bare_ev; eauto].
  - apply re_comment; [exact L'|apply Ty; auto; discriminate|congruence|eapply bare_ev; eauto].
  - apply re_cdata; [exact L'|apply Ty; auto; discriminate|congruence|eapply bare_ev; eauto].
  - eapply re_doctype with (m := m); try congruence. apply Ty; auto; discriminate.
  - eapply re_leaf with (m := m); try congruence; try assumption. apply Ty; auto; discriminate.
  - eapply re_raw with (m := m); try congruence; try assumption; [apply Ty; auto; discriminate|].
    eapply end_node_ev; eauto.
  - eapply re_elem with (m := m); try congruence; try assumption; [apply Ty; auto; discriminate|eapply end_node_ev; eauto|].
    specialize (IH _ _ _ _ eq_refl). unfold kids in *. rewrite Ek. exact IH.
Qed.
Lemma reals_ev : forall ck pt pk pe h h', ev ck pt pk pe h h' -> ck_text ck h -> untouched pt pk pe h ->
  forall l ys, Forall2 (real h) l ys -> Forall2 (real h') l ys.
Proof. intros ck pt pk pe h h' E C U l ys F. induction F; constructor; auto. eapply real_ev; eauto. Qed.

Lemma real_ids : forall h i y, real h i y -> forall j, In j (ids y) -> j < length h /\ textkind (ty h j) /\ n_content (hget h j) <> None.
Proof.
  intros h. apply (real_ind2 h (fun i y => forall j, In j (ids y) -> j < length h /\ textkind (ty h j) /\ n_content (hget h j) <> None)).
  intros i y R IH j Hj. destruct R; cbn in Hj; try contradiction.
  - destruct Hj as [<-|[]]. split; [assumption|]. split; [assumption|]. congruence.
  - specialize (IH _ _ _ _ eq_refl). clear - IH Hj. induction IH as [|x y ls ls' A B IH2]; [contradiction|]. cbn in Hj.
    apply in_app_or in Hj. destruct Hj as [Hj|Hj]; [apply A; exact Hj|apply IH2; exact Hj].
Qed.

(** ** Open elements *)
Record frame := mkFr { f_tag : option (list char * list attr); f_items : list yitem }.
Definition open_node (h : list node) (i : nid) (tg : option (list char * list attr)) : Prop :=
  i < length h /\ n_content (hget h i) = None /\ n_end_tag (hget h i) = None /\
  match tg with
  | None => i = 0 /\ n_type (hget h i) = NAbstractRoot /\ n_meta (hget h i) = None
  | Some (n, l) => n_type (hget h i) = NTag /\ exists m, n_meta (hget h i) = Some m /\ meta_is n l false false m
  end.
(** [opens h chain extra F]: the children of the innermost open node are the items of its frame,
    then [extra]. *)
Inductive opens (h : list node) : list nid -> list nid -> list frame -> Prop :=
  | op_root : forall i extra tg items l, tg = None -> open_node h i tg -> kids h i = l ++ extra -> Forall2 (real h) l items ->
      opens h [i] extra [mkFr tg items]
  | op_tag : forall i j chain extra tg items l frs, tg <> None -> open_node h i tg -> kids h i = l ++ extra ->
      Forall2 (real h) l items -> opens h (j :: chain) [i] frs ->
      opens h (i :: j :: chain) extra (mkFr tg items :: frs).

Lemma open_not_fin : forall h i tg, open_node h i tg -> ~ fin h i.
Proof.
  intros h i tg [_ [_ [E T]]] [_ F]. destruct tg as [[n l]|].
  - destruct T as [T [m [M [_ [_ [S V]]]]]]. rewrite T in F. destruct F as [F|[m' [M' B]]]; [congruence|].
    rewrite M in M'. injection M' as <-. rewrite S, V in B. discriminate.
  - destruct T as [_ [T _]]. rewrite T in F. exact F.
Qed.
Lemma opens_open : forall h chain extra F i, opens h chain extra F -> In i chain -> exists tg, open_node h i tg.
Proof.
  intros h chain extra F i O. induction O; intro Hi.
  - destruct Hi as [<-|[]]. eauto.
  - destruct Hi as [<-|Hi]; [eauto|]. apply IHO. exact Hi.
Qed.
Lemma open_node_ev : forall ck pt pk pe h h' i tg, ev ck pt pk pe h h' -> ck_text ck h -> pt <> Some i -> pe <> Some i ->
  open_node h i tg -> open_node h' i tg.
Proof.
  intros ck pt pk pe h h' i tg E C P1 P3 [L [A [B T]]].
  assert (Ty : forall t, n_type (hget h i) = t -> t <> NText -> t <> NSpacesBetweenTag -> n_type (hget h' i) = t).
  { intros t Ht X Y. rewrite (ev_type _ _ _ _ _ _ _ E C L); [exact Ht|]. rewrite Ht. apply nt; assumption. }
  split; [pose proof (ev_len _ _ _ _ _ _ E); lia|].
  rewrite (ev_content _ _ _ _ _ _ E), (ev_end _ _ _ _ _ _ E), (ev_meta _ _ _ _ _ _ E) by assumption.
  split; [exact A|]. split; [exact B|]. destruct tg as [[n l]|].
  - destruct T as [T1 T2]. split; [apply Ty; auto; discriminate|exact T2].
  - destruct T as [T1 [T2 T3]]. split; [exact T1|]. split; [apply Ty; auto; discriminate|exact T3].
Qed.

(** Elements further out are not touched; the innermost gets new children. *)
Lemma opens_ev_outer : forall ck pt pk pe h h', ev ck pt pk pe h h' -> ck_text ck h -> untouched pt pk pe h ->
  forall chain extra F, opens h chain extra F ->
  (forall i, In i chain -> pt <> Some i /\ pk <> Some i /\ pe <> Some i) ->
  opens h' chain extra F.
Proof.
  intros ck pt pk pe h h' E C U chain extra F O. induction O; intro H4.
  - destruct (H4 i (or_introl eq_refl)) as [P1 [P2 P3]]. pose proof (proj1 H0) as L.
    eapply op_root with (l := l); [assumption|eapply open_node_ev; eauto| |eapply reals_ev; eauto].
    unfold kids in *. rewrite (ev_childs _ _ _ _ _ _ E) by assumption. assumption.
  - destruct (H4 i (or_introl eq_refl)) as [P1 [P2 P3]]. pose proof (proj1 H0) as L.
    eapply op_tag with (l := l); [assumption|eapply open_node_ev; eauto| |eapply reals_ev; eauto|].
    + unfold kids in *. rewrite (ev_childs _ _ _ _ _ _ E) by assumption. assumption.
    + apply IHO. intros k Hk. apply H4. right. exact Hk.
Qed.
