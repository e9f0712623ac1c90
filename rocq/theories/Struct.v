(** Structure of the node heap: a tree of children with increasing identifiers, end tags attached to
    the tags they close, parent links. *)
From Coq Require Import String Sorting.Sorted.
From Verif Require Import Api SpecText SpecParse HeapLemmas InvCtl Big BigSteps.
Local Open Scope string_scope.
Local Open Scope list_scope.

Definition container (t : node_type) : Prop := t = NTag \/ t = NAbstractRoot.

Record hs (fix_lt : bool) (h : list node) : Prop := mkHs {
  hs_root : 0 < length h /\ ty h 0 = NAbstractRoot /\ n_parent (hget h 0) = None /\
            n_root (hget h 0) = Some 0;
  hs_kids : forall p k, In k (kids h p) -> p < k < length h /\ ty h k <> NTagEnd /\ container (ty h p);
  hs_sorted : forall p, StronglySorted Nat.lt (kids h p);
  hs_index : forall p i k, nth_error (kids h p) i = Some k -> n_index (hget h k) = i;
  hs_own : forall p q k, In k (kids h p) -> In k (kids h q) -> p = q;
  hs_att : forall k, 0 < k < length h -> ty h k <> NTagEnd -> exists p, In k (kids h p);
  hs_links : forall p k, In k (kids h p) ->
      (n_parent (hget h k) = Some p /\ n_root (hget h k) = Some 0) \/
      (fix_lt = true /\ textual (ty h k) /\ n_parent (hget h k) = None /\ n_root (hget h k) = None);
  hs_end : forall p e, n_end_tag (hget h p) = Some e ->
      p < e < length h /\ ty h e = NTagEnd /\ n_parent (hget h e) = Some p /\ ty h p = NTag;
  hs_some : forall p l, n_childs (hget h p) = Some l -> l <> [];
  hs_rootty : forall k, 0 < k < length h -> ty h k <> NAbstractRoot
}.

Definition skel (n : node) := (n_index n, n_parent n, n_root n, n_end_tag n, n_childs n, n_prev n).
Definition sim (h h' : list node) : Prop :=
  length h' = length h /\ forall i, skel (hget h' i) = skel (hget h i) /\ same_kind (ty h i) (ty h' i).

Lemma sim_refl : forall h, sim h h.
Proof. intro h. split; [reflexivity|]. intro i. split; [reflexivity|apply same_kind_refl]. Qed.
Lemma sim_trans : forall a b c, sim a b -> sim b c -> sim a c.
Proof.
  intros a b c [L1 A1] [L2 A2]. split; [congruence|]. intro i.
  destruct (A1 i), (A2 i). split; [congruence|]. eapply same_kind_trans; eauto.
Qed.
Definition quiet (f : node -> node) : Prop := forall n, skel (f n) = skel n /\ n_type (f n) = n_type n.
Lemma sim_hupd : forall h i f, quiet f -> sim h (hupd h i f).
Proof.
  intros h i f Q. split; [apply hupd_length|]. intro j. unfold ty. split.
  - apply hupd_keep. intro n. apply Q.
  - rewrite (hupd_keep n_type) by (intro n; apply Q). apply same_kind_refl.
Qed.
Lemma quiet_content : forall v, quiet (nset_content v). Proof. intros v n. split; reflexivity. Qed.
Lemma quiet_meta : forall v, quiet (nset_meta v). Proof. intros v n. split; reflexivity. Qed.
Lemma quiet_end_at : forall v, quiet (nset_end_at v). Proof. intros v n. split; reflexivity. Qed.
Lemma quiet_end_info : forall v, quiet (end_info v). Proof. intros v n. split; reflexivity. Qed.
Lemma quiet_nupd : forall g, quiet (nupd_meta g).
Proof. intros g n. unfold nupd_meta. destruct (n_meta n); split; reflexivity. Qed.
Global Hint Resolve quiet_content quiet_meta quiet_end_at quiet_end_info quiet_nupd : quiet.
Lemma sim_set_type : forall h i t, textual t -> textual (ty h i) -> sim h (hupd h i (nset_type t)).
Proof.
  intros h i t Ht T. split; [apply hupd_length|]. intro j. split.
  - apply hupd_keep. reflexivity.
  - unfold ty in *. destruct (Nat.eq_dec i j) as [->|N].
    + destruct (Nat.lt_ge_cases j (length h)) as [L|L].
      * rewrite hget_hupd_same by exact L. right. split; [exact T|exact Ht].
      * rewrite hget_default in T by exact L. destruct T; discriminate.
    + rewrite hget_hupd_other by exact N. apply same_kind_refl.
Qed.
Lemma sim_flip : forall h ck, (forall i, ck = Some i -> textual (ty h i)) -> sim h (flip ck h).
Proof.
  intros h [i|] H; cbn; [|apply sim_refl]. apply sim_set_type; [right; reflexivity|auto].
Qed.
Lemma sim_set_meta : forall h i m, sim h (set_meta h i m).
Proof. intros. apply sim_hupd. auto with quiet. Qed.

Lemma skel_kids : forall h h' p, skel (hget h' p) = skel (hget h p) -> kids h' p = kids h p.
Proof. intros h h' p E. unfold skel, kids in *. injection E as _ _ _ _ E _. rewrite E. reflexivity. Qed.

Lemma kind_neq : forall a b t, same_kind a b -> ~ textual t -> (a = t <-> b = t).
Proof.
  intros a b t [->|[[A|A] [B|B]]] N; [tauto|..]; subst; split; intro E; subst; exfalso; apply N;
    unfold textual; auto.
Qed.
Lemma not_text_end : ~ textual NTagEnd. Proof. intros [X|X]; discriminate. Qed.
Lemma not_text_root : ~ textual NAbstractRoot. Proof. intros [X|X]; discriminate. Qed.
Lemma not_text_tag : ~ textual NTag. Proof. intros [X|X]; discriminate. Qed.
Lemma kind_textual : forall a b, same_kind a b -> textual a -> textual b.
Proof. intros a b [->|[A B]] T; assumption. Qed.

Lemma hs_sim : forall lt h h', hs lt h -> sim h h' -> hs lt h'.
Proof.
  intros lt h h' H [L S].
  assert (K : forall p, kids h' p = kids h p) by (intro p; apply skel_kids, S).
  assert (E : forall i, n_index (hget h' i) = n_index (hget h i) /\ n_parent (hget h' i) = n_parent (hget h i) /\
    n_root (hget h' i) = n_root (hget h i) /\ n_end_tag (hget h' i) = n_end_tag (hget h i) /\
    n_childs (hget h' i) = n_childs (hget h i)).
  { intro i. destruct (S i) as [X _]. unfold skel in X. injection X as -> -> -> -> -> _. auto. }
  assert (Te : forall i, ty h i = NTagEnd <-> ty h' i = NTagEnd) by (intro i; apply kind_neq; [apply S|apply not_text_end]).
  assert (Tt : forall i, ty h i = NTag <-> ty h' i = NTag) by (intro i; apply kind_neq; [apply S|apply not_text_tag]).
  assert (Tr : forall i, ty h i = NAbstractRoot <-> ty h' i = NAbstractRoot) by (intro i; apply kind_neq; [apply S|apply not_text_root]).
  destruct H as [Hr Hk Hso Hi Ho Ha Hl He Hs Hrt]. constructor.
  - rewrite L. destruct (E 0) as [_ [-> [-> _]]]. destruct Hr as [A [B [C D]]]. repeat split; auto. apply Tr, B.
  - intros p k. rewrite K, L. intro X. destruct (Hk p k X) as [A [B C]]. split; [exact A|]. split.
    + rewrite <- Te. exact B.
    + destruct C as [C|C]; [left; apply Tt, C|right; apply Tr, C].
  - intro p. rewrite K. auto.
  - intros p i k. rewrite K. destruct (E k) as [-> _]. eauto.
  - intros p q k. rewrite !K. eauto.
  - intros k. rewrite L, <- Te. intros A B. destruct (Ha k A B) as [p X]. exists p. rewrite K. exact X.
  - intros p k. rewrite K. destruct (E k) as [_ [-> [-> _]]]. intro X.
    destruct (Hl p k X) as [A|[A [B C]]]; [left; exact A|right]. split; [exact A|]. split; [|exact C].
    eapply kind_textual; [apply S|exact B].
  - intros p e. destruct (E p) as [_ [_ [_ [-> _]]]]. intro X. destruct (He p e X) as [A [B [C D]]].
    rewrite L. destruct (E e) as [_ [-> _]]. rewrite <- Te, <- Tt. auto.
  - intros p l. destruct (E p) as [_ [_ [_ [_ ->]]]]. apply Hs.
  - intros k. rewrite L, <- Tr. auto.
Qed.

(** ** Adding a child *)
Lemma kids_default : forall h p, length h <= p -> kids h p = [].
Proof. intros. unfold kids. rewrite hget_default by assumption. reflexivity. Qed.

Lemma sorted_snoc : forall l x, StronglySorted Nat.lt l -> Forall (fun y => y < x) l -> StronglySorted Nat.lt (l ++ [x]).
Proof.
  induction l as [|y l IH]; intros x S F; cbn.
  - constructor; constructor.
  - inversion S; subst. inversion F; subst. constructor; [apply IH; assumption|].
    apply Forall_app. split; [assumption|]. constructor; [assumption|constructor].
Qed.

(** [n'] is the node actually stored; only its fields matter. *)
Lemma hs_grow : forall lt h p n', hs lt h -> p < length h -> container (ty h p) ->
  n_type n' <> NTagEnd -> n_type n' <> NAbstractRoot -> n_childs n' = None -> n_end_tag n' = None ->
  n_index n' = length (kids h p) ->
  ((n_parent n' = Some p /\ n_root n' = Some 0) \/
   (lt = true /\ textual (n_type n') /\ n_parent n' = None /\ n_root n' = None)) ->
  hs lt (hupd (h ++ [n']) p (nset_childs (Some (kids h p ++ [length h])))).
Proof.
  intros lt h p n' H Hp C T1 T2 Nc Ne Ni Nl.
  set (h' := hupd (h ++ [n']) p (nset_childs (Some (kids h p ++ [length h])))).
  assert (L : length h' = S (length h)) by (unfold h'; rewrite hupd_length, app_length; cbn; lia).
  assert (Old : forall i, i < length h -> i <> p -> hget h' i = hget h i).
  { intros i Hi Hn. unfold h'. rewrite hget_hupd_other by congruence. apply hget_app_old. exact Hi. }
  assert (New : hget h' (length h) = n').
  { unfold h'. rewrite hget_hupd_other by lia. apply hget_app_new. }
  assert (P : hget h' p = nset_childs (Some (kids h p ++ [length h])) (hget h p)).
  { unfold h'. rewrite hget_hupd_same by (rewrite app_length; lia). rewrite hget_app_old by exact Hp. reflexivity. }
  assert (Ty : forall i, i < length h -> ty h' i = ty h i).
  { intros i Hi. unfold ty. destruct (Nat.eq_dec i p) as [->|N]; [rewrite P; reflexivity|rewrite Old by assumption; reflexivity]. }
  assert (TyN : ty h' (length h) = n_type n') by (unfold ty; rewrite New; reflexivity).
  assert (Kp : kids h' p = kids h p ++ [length h]) by (unfold kids at 1; rewrite P; reflexivity).
  assert (Ko : forall q, q <> p -> kids h' q = kids h q).
  { intros q Hq. destruct (Nat.lt_ge_cases q (length h)) as [X|X].
    - unfold kids. rewrite Old by assumption. reflexivity.
    - rewrite (kids_default h q) by exact X. destruct (Nat.eq_dec q (length h)) as [->|Y].
      + unfold kids. rewrite New, Nc. reflexivity.
      + apply kids_default. lia. }
  assert (In' : forall q k, In k (kids h' q) -> In k (kids h q) \/ (q = p /\ k = length h)).
  { intros q k X. destruct (Nat.eq_dec q p) as [->|N].
    - rewrite Kp in X. apply in_app_or in X. destruct X as [X|[X|[]]]; auto.
    - rewrite Ko in X by exact N. auto. }
  assert (Fld : forall i, i < length h -> n_index (hget h' i) = n_index (hget h i) /\ n_parent (hget h' i) = n_parent (hget h i) /\
    n_root (hget h' i) = n_root (hget h i) /\ n_end_tag (hget h' i) = n_end_tag (hget h i)).
  { intros i Hi. destruct (Nat.eq_dec i p) as [->|N]; [rewrite P; repeat split|rewrite Old by assumption; repeat split]. }
  clearbody h'.
  destruct H as [Hr Hk Hso Hi Ho Ha Hl He Hs Hrt]. constructor.
  - destruct Hr as [A [B [D E]]]. rewrite Ty by exact A. destruct (Fld 0 A) as [_ [-> [-> _]]].
    repeat split; auto. lia.
  - intros q k X. destruct (In' q k X) as [Y|[-> ->]].
    + destruct (Hk q k Y) as [A [B D]]. rewrite !Ty by lia. repeat split; auto; lia.
    + rewrite TyN, Ty by lia. repeat split; auto; lia.
  - intro q. destruct (Nat.eq_dec q p) as [->|N].
    + rewrite Kp. apply sorted_snoc; [apply Hso|]. apply Forall_forall. intros y Hy. apply Hk in Hy. lia.
    + rewrite Ko by exact N. apply Hso.
  - intros q i k X. destruct (Nat.eq_dec q p) as [->|N].
    + rewrite Kp in X. destruct (Nat.lt_ge_cases i (length (kids h p))) as [Y|Y].
      * rewrite nth_error_app1 in X by exact Y. pose proof (nth_error_In _ _ X) as Z. apply Hk in Z.
        destruct (Fld k) as [-> _]; [lia|]. eauto.
      * rewrite nth_error_app2 in X by exact Y. destruct (i - length (kids h p)) as [|j] eqn:Ej; cbn in X.
        -- injection X as <-. rewrite New, Ni. lia.
        -- destruct j; discriminate.
    + rewrite Ko in X by exact N. pose proof (nth_error_In _ _ X) as Z. apply Hk in Z.
      destruct (Fld k) as [-> _]; [lia|]. eauto.
  - intros q r k X Y. destruct (In' q k X) as [A|[A A']], (In' r k Y) as [B|[B B']]; eauto.
    + apply Hk in A. lia.
    + apply Hk in B. lia.
    + congruence.
  - intros k Hkk Tk. destruct (Nat.eq_dec k (length h)) as [->|N].
    + exists p. rewrite Kp. apply in_or_app. right. left. reflexivity.
    + rewrite Ty in Tk by lia. destruct (Ha k) as [q Y]; [lia|exact Tk|]. exists q.
      destruct (Nat.eq_dec q p) as [->|N2]; [rewrite Kp; apply in_or_app; left|rewrite Ko by exact N2]; exact Y.
  - intros q k X. destruct (In' q k X) as [Y|[-> ->]].
    + pose proof (Hk q k Y). rewrite Ty by lia. destruct (Fld k) as [_ [-> [-> _]]]; [lia|]. auto.
    + rewrite New, TyN. exact Nl.
  - intros q e X. destruct (Nat.lt_ge_cases q (length h)) as [Y|Y].
    + destruct (Fld q Y) as [_ [_ [_ E]]]. rewrite E in X. destruct (He q e X) as [A [B [D F]]].
      rewrite !Ty by lia. destruct (Fld e) as [_ [-> _]]; [lia|]. repeat split; auto; lia.
    + destruct (Nat.eq_dec q (length h)) as [->|N].
      * rewrite New, Ne in X. discriminate.
      * rewrite hget_default in X by lia. discriminate.
  - intros q l X. destruct (Nat.eq_dec q p) as [->|N].
    + rewrite P in X. cbn in X. injection X as <-. intro Z. apply app_eq_nil in Z. destruct Z. discriminate.
    + destruct (Nat.lt_ge_cases q (length h)) as [Y|Y].
      * rewrite Old in X by assumption. eauto.
      * destruct (Nat.eq_dec q (length h)) as [->|N2].
        -- rewrite New, Nc in X. discriminate.
        -- rewrite hget_default in X by lia. discriminate.
  - intros k Hkk. destruct (Nat.eq_dec k (length h)) as [->|N].
    + rewrite TyN. exact T2.
    + rewrite Ty by lia. apply Hrt. lia.
Qed.

Lemma hs_add_child : forall lt h p n, hs lt h -> p < length h -> container (ty h p) ->
  n_type n <> NTagEnd -> n_type n <> NAbstractRoot -> n_childs n = None -> n_end_tag n = None ->
  hs lt (add_child h p n).
Proof. intros. unfold add_child. apply hs_grow; auto. Qed.
Lemma hs_add_orphan : forall h p n, hs true h -> p < length h -> container (ty h p) ->
  textual (n_type n) -> n_childs n = None -> n_end_tag n = None -> n_parent n = None -> n_root n = None ->
  hs true (add_orphan h p n).
Proof.
  intros h p n H Hp C T Nc Ne Np Nr. unfold add_orphan. apply hs_grow; auto.
  - cbn. destruct T as [-> | ->]; discriminate.
  - cbn. destruct T as [-> | ->]; discriminate.
Qed.

(** ** End tags *)
Lemma hs_alloc_end : forall lt h n, hs lt h -> n_type n = NTagEnd -> n_childs n = None -> n_end_tag n = None ->
  hs lt (h ++ [n]).
Proof.
  intros lt h n H T Nc Ne. set (h' := h ++ [n]).
  assert (L : length h' = S (length h)) by (unfold h'; rewrite app_length; cbn; lia).
  assert (Old : forall i, i < length h -> hget h' i = hget h i) by (intros; apply hget_app_old; assumption).
  assert (New : hget h' (length h) = n) by apply hget_app_new.
  assert (K : forall q, kids h' q = kids h q).
  { intro q. destruct (Nat.lt_ge_cases q (length h)) as [X|X].
    - unfold kids. rewrite Old by assumption. reflexivity.
    - rewrite (kids_default h q) by exact X. destruct (Nat.eq_dec q (length h)) as [->|Y].
      + unfold kids. rewrite New, Nc. reflexivity.
      + apply kids_default. lia. }
  assert (Ty : forall i, i < length h -> ty h' i = ty h i) by (intros; unfold ty; rewrite Old by assumption; reflexivity).
  clearbody h'.
  destruct H as [Hr Hk Hso Hi Ho Ha Hl He Hs Hrt]. constructor.
  - destruct Hr as [A [B [D E]]]. rewrite Ty, Old by exact A. repeat split; auto. lia.
  - intros p k. rewrite K. intro X. destruct (Hk p k X) as [A [B C]]. rewrite !Ty by lia. repeat split; auto; lia.
  - intro p. rewrite K. auto.
  - intros p i k. rewrite K. intro X. rewrite Old; [eauto|]. apply nth_error_In, Hk in X. lia.
  - intros p q k. rewrite !K. eauto.
  - intros k A B. destruct (Nat.eq_dec k (length h)) as [->|N].
    + exfalso. apply B. unfold ty. rewrite New. exact T.
    + rewrite Ty in B by lia. destruct (Ha k) as [p X]; [lia|exact B|]. exists p. rewrite K. exact X.
  - intros p k. rewrite K. intro X. pose proof (Hk p k X). rewrite Ty, Old by lia. eauto.
  - intros p e X. destruct (Nat.lt_ge_cases p (length h)) as [Y|Y].
    + rewrite Old in X by exact Y. destruct (He p e X) as [A [B [C D]]].
      rewrite !Ty, Old by lia. repeat split; auto; lia.
    + destruct (Nat.eq_dec p (length h)) as [->|N].
      * rewrite New, Ne in X. discriminate.
      * rewrite hget_default in X by lia. discriminate.
  - intros p l X. destruct (Nat.lt_ge_cases p (length h)) as [Y|Y].
    + rewrite Old in X by exact Y. eauto.
    + destruct (Nat.eq_dec p (length h)) as [->|N].
      * rewrite New, Nc in X. discriminate.
      * rewrite hget_default in X by lia. discriminate.
  - intros k Hkk. destruct (Nat.eq_dec k (length h)) as [->|N].
    + unfold ty. rewrite New, T. discriminate.
    + rewrite Ty by lia. apply Hrt. lia.
Qed.

(** Attaching the end tag [e] to [tag]. *)
Lemma hs_set_end : forall lt h tag e, hs lt h -> tag < e < length h -> ty h tag = NTag -> ty h e = NTagEnd ->
  n_parent (hget h e) = Some tag -> hs lt (hupd h tag (nset_end_tag (Some e))).
Proof.
  intros lt h tag e H Ht T Te Pe. set (h' := hupd h tag (nset_end_tag (Some e))).
  assert (L : length h' = length h) by apply hupd_length.
  assert (K : forall q, kids h' q = kids h q).
  { intro q. unfold kids, h'. rewrite (hupd_keep n_childs) by reflexivity. reflexivity. }
  assert (Ty : forall i, ty h' i = ty h i) by (intro; unfold ty, h'; apply (hupd_keep n_type); reflexivity).
  assert (Ix : forall i, n_index (hget h' i) = n_index (hget h i)) by (intro; apply (hupd_keep n_index); reflexivity).
  assert (Pa : forall i, n_parent (hget h' i) = n_parent (hget h i)) by (intro; apply (hupd_keep n_parent); reflexivity).
  assert (Ro : forall i, n_root (hget h' i) = n_root (hget h i)) by (intro; apply (hupd_keep n_root); reflexivity).
  assert (Ch : forall i, n_childs (hget h' i) = n_childs (hget h i)) by (intro; apply (hupd_keep n_childs); reflexivity).
  assert (Et : forall i, n_end_tag (hget h' i) = if Nat.eqb i tag then Some e else n_end_tag (hget h i)).
  { intro i. unfold h'. destruct (Nat.eqb_spec i tag) as [->|N].
    - rewrite hget_hupd_same by lia. reflexivity.
    - rewrite hget_hupd_other by congruence. reflexivity. }
  clearbody h'.
  destruct H as [Hr Hk Hso Hi Ho Ha Hl He Hs Hrt]. constructor; intros; rewrite ?K, ?Ty, ?L, ?Ix, ?Pa, ?Ro, ?Ch in *; eauto.
  - destruct (Ha k H H0) as [p X]. exists p. rewrite K. exact X.
  - rewrite Et in H. destruct (Nat.eqb_spec p tag) as [->|N]; [|eauto].
    injection H as <-. auto.
Qed.

(** A dangling end tag's parent link may be set. *)
Lemma hs_set_parent : forall lt h e v, hs lt h -> ty h e = NTagEnd ->
  (forall p, n_end_tag (hget h p) <> Some e) -> hs lt (hupd h e (nset_parent v)).
Proof.
  intros lt h e v H Te Nd. set (h' := hupd h e (nset_parent v)).
  assert (L : length h' = length h) by apply hupd_length.
  assert (K : forall q, kids h' q = kids h q).
  { intro q. unfold kids, h'. rewrite (hupd_keep n_childs) by reflexivity. reflexivity. }
  assert (Ty : forall i, ty h' i = ty h i) by (intro; unfold ty, h'; apply (hupd_keep n_type); reflexivity).
  assert (Ix : forall i, n_index (hget h' i) = n_index (hget h i)) by (intro; apply (hupd_keep n_index); reflexivity).
  assert (Ro : forall i, n_root (hget h' i) = n_root (hget h i)) by (intro; apply (hupd_keep n_root); reflexivity).
  assert (Ch : forall i, n_childs (hget h' i) = n_childs (hget h i)) by (intro; apply (hupd_keep n_childs); reflexivity).
  assert (Et : forall i, n_end_tag (hget h' i) = n_end_tag (hget h i)) by (intro; apply (hupd_keep n_end_tag); reflexivity).
  assert (Pa : forall i, i <> e -> n_parent (hget h' i) = n_parent (hget h i)).
  { intros i N. unfold h'. rewrite hget_hupd_other by congruence. reflexivity. }
  clearbody h'.
  destruct H as [Hr Hk Hso Hi Ho Ha Hl He Hs Hrt].
  constructor; intros; rewrite ?K, ?Ty, ?L, ?Ix, ?Ro, ?Ch, ?Et in *; eauto.
  - destruct Hr as [A [B [C D]]]. rewrite Pa; auto. intros <-. congruence.
  - destruct (Ha k H H0) as [p X]. exists p. rewrite K. exact X.
  - pose proof (Hk p k H) as [A [B C]]. rewrite Pa; [eauto|]. intros ->. contradiction.
  - destruct (He p e0 H) as [A [B [C D]]]. rewrite Pa; auto. intros ->. apply (Nd p). exact H.
Qed.

(** ** The invariant of states between tokens *)
Record sok (opts : parse_options) (st : doc) : Prop := mkSok {
  s_opts : d_parse_options st = opts;
  s_root : d_root st = 0;
  s_hs : hs (auto_fix_unescaped_lt opts) (d_heap st);
  s_cur : d_current_node st < length (d_heap st);
  s_chain : chain_ok (d_heap st) (d_chain_nodes st) (length (d_heap st));
  s_open : forall i, In i (d_chain_nodes st) -> n_end_tag (hget (d_heap st) i) = None;
  s_check : forall i, d_check_textnode st = Some i -> textual (ty (d_heap st) i);
  s_text : is_T st -> ty (d_heap st) (d_current_node st) = NText;
  s_nosp : ty (d_heap st) (d_current_node st) <> NSpacesBetweenTag;
  s_last : auto_fix_unclosed_tag opts = true -> ty (d_heap st) (d_current_node st) = NTagEnd ->
           exists p, n_end_tag (hget (d_heap st) p) = Some (d_current_node st)
}.

Lemma textual_lt : forall h i, textual (ty h i) -> i < length h.
Proof.
  intros h i T. destruct (Nat.lt_ge_cases i (length h)) as [L|L]; [exact L|].
  unfold ty in T. rewrite hget_default in T by exact L. destruct T; discriminate.
Qed.
Lemma ty_add_child : forall h p n i, p < length h ->
  ty (add_child h p n) i = if Nat.eqb i (length h) then n_type n else ty h i.
Proof.
  intros h p n i Hp. unfold ty, add_child. rewrite (hupd_keep n_type) by reflexivity.
  rewrite hget_app_case. destruct (Nat.ltb_spec i (length h)) as [L|L].
  - destruct (Nat.eqb_spec i (length h)); [lia|]. reflexivity.
  - destruct (Nat.eqb_spec i (length h)); [reflexivity|]. rewrite hget_default by lia. reflexivity.
Qed.
Lemma ty_add_orphan : forall h p n i, p < length h ->
  ty (add_orphan h p n) i = if Nat.eqb i (length h) then n_type n else ty h i.
Proof.
  intros h p n i Hp. unfold ty, add_orphan. rewrite (hupd_keep n_type) by reflexivity.
  rewrite hget_app_case. destruct (Nat.ltb_spec i (length h)) as [L|L].
  - destruct (Nat.eqb_spec i (length h)); [lia|]. reflexivity.
  - destruct (Nat.eqb_spec i (length h)); [reflexivity|]. rewrite hget_default by lia. reflexivity.
Qed.
Lemma et_add_child : forall h p n i, n_end_tag n = None ->
  n_end_tag (hget (add_child h p n) i) = n_end_tag (hget h i).
Proof.
  intros h p n i Hn. unfold add_child. rewrite (hupd_keep n_end_tag) by reflexivity.
  rewrite hget_app_case. destruct (Nat.ltb_spec i (length h)) as [L|L]; [reflexivity|].
  rewrite (hget_default h i) by lia. destruct (Nat.eqb i (length h)); [exact Hn|reflexivity].
Qed.
Lemma et_add_orphan : forall h p n i, n_end_tag n = None ->
  n_end_tag (hget (add_orphan h p n) i) = n_end_tag (hget h i).
Proof.
  intros h p n i Hn. unfold add_orphan. rewrite (hupd_keep n_end_tag) by reflexivity.
  rewrite hget_app_case. destruct (Nat.ltb_spec i (length h)) as [L|L]; [reflexivity|].
  rewrite (hget_default h i) by lia. destruct (Nat.eqb i (length h)); [exact Hn|reflexivity].
Qed.

Lemma chain_le : forall h h' l b, chain_ok h l b -> (forall i, i < b -> ty h i = NTag -> ty h' i = NTag) -> chain_ok h' l b.
Proof.
  intros h h' l. induction l as [|i l IH]; intros b H K; [exact I|]. cbn in *. destruct H as [A [B C]].
  split; [exact A|]. split; [destruct l; auto|]. apply IH; [exact C|]. intros j Hj. apply K. lia.
Qed.
Lemma chain_bound : forall h l b b', chain_ok h l b -> b <= b' -> chain_ok h l b'.
Proof. intros h [|i l] b b' H L; [exact I|]. cbn in *. destruct H as [A [B C]]. repeat split; auto. lia. Qed.
Lemma chain_in : forall h l b i, chain_ok h l b -> In i l -> i < b.
Proof.
  intros h l. induction l as [|j l IH]; intros b i H X; [destruct X|]. cbn in H. destruct H as [A [_ C]].
  destruct X as [->|X]; [exact A|]. specialize (IH j i C X). lia.
Qed.
Lemma chain_tl : forall h i l b, chain_ok h (i :: l) b -> chain_ok h l b.
Proof. intros h i l b H. cbn in H. destruct H as [A [_ C]]. eapply chain_bound; [exact C|lia]. Qed.
Lemma chain_head : forall lt h i l b, hs lt h -> chain_ok h (i :: l) b -> container (ty h i).
Proof.
  intros lt h i l b H C. cbn in C. destruct C as [_ [B _]]. destruct l.
  - subst. right. apply H.
  - left. exact B.
Qed.
Lemma chain_zero : forall h l b, chain_ok h l b -> forall i, In i l -> i <> 0 -> ty h i = NTag.
Proof.
  intros h l. induction l as [|j l IH]; intros b H i X N; [destruct X|]. cbn in H. destruct H as [A [B C]].
  destruct X as [->|X]; [|eauto]. destruct l; [congruence|exact B].
Qed.

(** Changes made by '<' and what follows that keep the old nodes. *)
Record ext (h h' : list node) : Prop := mkExt {
  x_len : length h <= length h';
  x_kind : forall i, i < length h -> same_kind (ty h i) (ty h' i)
}.
Lemma sim_ext : forall h h', sim h h' -> ext h h'.
Proof. intros h h' [L S]. constructor; [lia|]. intros i _. apply S. Qed.
Lemma ext_chain : forall h h' l, ext h h' -> chain_ok h l (length h) -> chain_ok h' l (length h').
Proof.
  intros h h' l [L K] C. apply (chain_bound _ _ (length h)); [|exact L]. eapply chain_le; [exact C|].
  intros i Hi T. exact (proj1 (kind_neq _ _ NTag (K i Hi) not_text_tag) T).
Qed.

Lemma sim_len : forall h h', sim h h' -> length h' = length h. Proof. intros h h' [L _]. exact L. Qed.
Lemma sim_et : forall h h' i, sim h h' -> n_end_tag (hget h' i) = n_end_tag (hget h i).
Proof. intros h h' i [_ S]. destruct (S i) as [X _]. unfold skel in X. injection X as _ _ _ E _ _. exact E. Qed.
Lemma sim_container : forall h h' i, sim h h' -> container (ty h i) -> container (ty h' i).
Proof.
  intros h h' i [_ S] [C|C]; destruct (S i) as [_ K].
  - left. exact (proj1 (kind_neq _ _ NTag K not_text_tag) C).
  - right. exact (proj1 (kind_neq _ _ NAbstractRoot K not_text_root) C).
Qed.

(** The heap after opening a node. *)
Lemma opened_ok : forall opts u p rest t, sok opts u -> d_chain_nodes u = p :: rest ->
  t <> NTagEnd -> t <> NAbstractRoot ->
  hs (auto_fix_unescaped_lt opts) (opened u p t) /\ ext (d_heap u) (opened u p t) /\
  (forall i, n_end_tag (hget (opened u p t) i) = n_end_tag (hget (d_heap u) i)) /\
  ty (opened u p t) (length (d_heap u)) = t.
Proof.
  intros opts u p rest t S E T1 T2.
  pose proof (s_chain _ _ S) as C. rewrite E in C.
  assert (Hp : p < length (d_heap u)) by (cbn in C; tauto).
  pose proof (s_hs _ _ S) as H.
  assert (H1 : hs (auto_fix_unescaped_lt opts) (add_child (d_heap u) p (node_new t (d_mem_position u)))).
  { apply hs_add_child; auto. eapply chain_head; eauto. }
  assert (F : sim (add_child (d_heap u) p (node_new t (d_mem_position u))) (opened u p t)).
  { apply sim_flip. intros i Hi. pose proof (s_check _ _ S i Hi) as X. rewrite ty_add_child by exact Hp.
    pose proof (textual_lt _ _ X). destruct (Nat.eqb_spec i (length (d_heap u))); [lia|exact X]. }
  split; [eapply hs_sim; eauto|]. split; [|split].
  - constructor.
    + rewrite opened_length. lia.
    + intros i Hi. destruct F as [_ F]. destruct (F i) as [_ K]. rewrite ty_add_child in K by exact Hp.
      destruct (Nat.eqb_spec i (length (d_heap u))); [lia|exact K].
  - intro i. rewrite (sim_et _ _ _ F). apply et_add_child. reflexivity.
  - unfold opened, flip. destruct (d_check_textnode u) as [k|] eqn:Ek.
    + pose proof (textual_lt _ _ (s_check _ _ S k Ek)). unfold ty. rewrite hget_hupd_other by lia.
      change (ty (add_child (d_heap u) p (node_new t (d_mem_position u))) (length (d_heap u)) = t).
      rewrite ty_add_child by exact Hp. rewrite Nat.eqb_refl. reflexivity.
    + rewrite ty_add_child by exact Hp. rewrite Nat.eqb_refl. reflexivity.
Qed.

(** States produced by a completed token. *)
Lemma sok_W : forall opts u src mem mk ch cu sp ck ids h, sok opts u ->
  hs (auto_fix_unescaped_lt opts) h -> cu < length h -> chain_ok h ch (length h) ->
  (forall i, In i ch -> n_end_tag (hget h i) = None) ->
  (forall i, ck = Some i -> textual (ty h i)) -> ty h cu <> NSpacesBetweenTag ->
  (auto_fix_unclosed_tag opts = true -> ty h cu = NTagEnd -> exists p, n_end_tag (hget h p) = Some cu) ->
  sok opts (W_of u src mem mk ch cu sp ck ids h).
Proof.
  intros opts u src mem mk ch cu sp ck ids h S H1 H2 H3 H4 H5 H6 H7.
  constructor; unfold W_of; cbn [d_parse_options d_root d_heap d_current_node d_chain_nodes d_check_textnode]; auto.
  - apply (s_opts _ _ S).
  - apply (s_root _ _ S).
  - intros [X _]. discriminate.
Qed.

Lemma sim_check : forall h h' ck, sim h h' -> (forall i, ck = Some i -> textual (ty h i)) ->
  forall i, ck = Some i -> textual (ty h' i).
Proof. intros h h' ck [_ S] H i E. eapply kind_textual; [apply S|auto]. Qed.
Lemma ext_check : forall h h' (ck : option nid), ext h h' -> (forall i, ck = Some i -> textual (ty h i)) ->
  forall i, ck = Some i -> textual (ty h' i).
Proof.
  intros h h' ck [L K] H i E. eapply kind_textual; [apply K|auto]. apply textual_lt. auto.
Qed.
Lemma ext_trans : forall a b c, ext a b -> ext b c -> ext a c.
Proof.
  intros a b c [L1 K1] [L2 K2]. constructor; [lia|]. intros i Hi.
  eapply same_kind_trans; [apply K1, Hi|apply K2; lia].
Qed.
Lemma ext_app : forall h n, ext h (h ++ [n]).
Proof.
  intros. constructor; [rewrite app_length; lia|]. intros i Hi. unfold ty. rewrite hget_app_old by exact Hi.
  apply same_kind_refl.
Qed.
Lemma ext_child : forall h p n, p < length h -> ext h (add_child h p n).
Proof.
  intros h p n Hp. constructor; [rewrite add_child_length; lia|]. intros i Hi. rewrite ty_add_child by exact Hp.
  destruct (Nat.eqb_spec i (length h)); [lia|apply same_kind_refl].
Qed.
Lemma ext_orphan : forall h p n, p < length h -> ext h (add_orphan h p n).
Proof.
  intros h p n Hp. constructor; [rewrite add_orphan_length; lia|]. intros i Hi. rewrite ty_add_orphan by exact Hp.
  destruct (Nat.eqb_spec i (length h)); [lia|apply same_kind_refl].
Qed.
Lemma ty_hupd_quiet : forall h i f j, quiet f -> ty (hupd h i f) j = ty h j.
Proof. intros. unfold ty. apply (hupd_keep n_type). intro n. apply H. Qed.

(** A start tag or similar: the opened node, then changes that keep the structure. *)
Lemma sok_opened : forall opts u p rest t src mem mk (ch : list nid) sp ids h, sok opts u ->
  d_chain_nodes u = p :: rest ->
  t <> NTagEnd -> t <> NAbstractRoot -> t <> NSpacesBetweenTag -> sim (opened u p t) h ->
  ty h (length (d_heap u)) = t ->
  (ch = d_chain_nodes u \/ ch = tl (d_chain_nodes u) \/ (t = NTag /\ ch = length (d_heap u) :: d_chain_nodes u)) ->
  sok opts (W_of u src mem mk ch (length (d_heap u)) sp None ids h).
Proof.
  intros opts u p rest t src mem mk ch sp ids h S E T1 T2 T3 F Ty Hch.
  destruct (opened_ok opts u p rest t S E T1 T2) as [H [X [Et Tn]]].
  assert (X' : ext (d_heap u) h) by (eapply ext_trans; [exact X|apply sim_ext, F]).
  assert (L : length h = Datatypes.S (length (d_heap u))) by (rewrite (sim_len _ _ F), opened_length; lia).
  assert (Et' : forall i, n_end_tag (hget h i) = n_end_tag (hget (d_heap u) i)).
  { intro i. rewrite (sim_et _ _ _ F). apply Et. }
  pose proof (ext_chain _ _ _ X' (s_chain _ _ S)) as C.
  apply sok_W; auto.
  - eapply hs_sim; eauto.
  - lia.
  - destruct Hch as [->|[->|[Ht ->]]]; [exact C| |].
    + destruct (d_chain_nodes u); [exact C|eapply chain_tl; exact C].
    + cbn. split; [lia|]. split; [rewrite E, Ty; exact Ht|].
      apply (chain_le (d_heap u)).
      * apply (s_chain _ _ S).
      * intros i Hi T. destruct X' as [_ K].
        exact (proj1 (kind_neq _ _ NTag (K i Hi) not_text_tag) T).
  - intros i Hi. rewrite Et'. destruct Hch as [->|[->|[Ht ->]]].
    + apply (s_open _ _ S). exact Hi.
    + apply (s_open _ _ S). destruct (d_chain_nodes u); [destruct Hi|right; exact Hi].
    + destruct Hi as [<-|Hi]; [|apply (s_open _ _ S); exact Hi].
      rewrite hget_default by lia. reflexivity.
  - discriminate.
  - rewrite Ty. exact T3.
  - intros _ Y. rewrite Ty in Y. contradiction.
Qed.

Lemma ty_set_meta : forall h i m j, ty (set_meta h i m) j = ty h j.
Proof. intros. apply ty_hupd_quiet. auto with quiet. Qed.

(** The end of a raw-text element. *)
Lemma sok_raw : forall opts u p rest src mem mk sp ids m cnt body pos, sok opts u ->
  d_chain_nodes u = p :: rest ->
  sok opts (W_of u src mem mk (d_chain_nodes u) (length (d_heap u)) sp None ids
    (hupd (set_meta (opened u p NTag) (length (d_heap u)) m
           ++ [nset_parent (Some (length (d_heap u))) (nset_content (Some cnt) (node_new NTagEnd pos))])
       (length (d_heap u))
       (fun x => nset_content (Some body) (nset_end_tag (Some (S (length (d_heap u)))) x)))).
Proof.
  intros opts u p rest src mem mk sp ids m cnt body pos S E.
  destruct (opened_ok opts u p rest NTag S E) as [H [X [Et Tn]]]; try discriminate.
  set (N := length (d_heap u)) in *.
  set (h1 := set_meta (opened u p NTag) N m).
  set (e := nset_parent (Some N) (nset_content (Some cnt) (node_new NTagEnd pos))).
  assert (L1 : length h1 = Datatypes.S N) by (unfold h1; rewrite set_meta_length, opened_length; unfold N; lia).
  assert (F1 : sim (opened u p NTag) h1) by apply sim_set_meta.
  assert (H1 : hs (auto_fix_unescaped_lt opts) (h1 ++ [e])).
  { apply hs_alloc_end; try reflexivity. eapply hs_sim; eauto. }
  assert (T1 : ty (h1 ++ [e]) N = NTag).
  { unfold ty. rewrite hget_app_old by lia. change (ty h1 N = NTag). unfold h1. rewrite ty_set_meta. exact Tn. }
  assert (E1 : hget (h1 ++ [e]) (Datatypes.S N) = e) by (rewrite <- L1; apply hget_app_new).
  set (h2 := hupd (h1 ++ [e]) N (nset_end_tag (Some (Datatypes.S N)))).
  assert (H2 : hs (auto_fix_unescaped_lt opts) h2).
  { apply hs_set_end; auto.
    - rewrite app_length, L1. cbn. lia.
    - unfold ty. rewrite E1. reflexivity.
    - rewrite E1. reflexivity. }
  match goal with |- sok _ (W_of _ _ _ _ _ _ _ _ _ ?h) => set (h3 := h) end.
  assert (E3 : h3 = hupd h2 N (nset_content (Some body))).
  { unfold h3, h2. rewrite hupd_hupd. reflexivity. }
  assert (F3 : sim h2 h3) by (rewrite E3; apply sim_hupd; auto with quiet).
  assert (L3 : length h3 = Datatypes.S (Datatypes.S N)).
  { rewrite (sim_len _ _ F3). unfold h2. rewrite hupd_length, app_length, L1. cbn. lia. }
  assert (X2 : ext (d_heap u) h3).
  { eapply ext_trans; [exact X|]. eapply ext_trans; [apply sim_ext, F1|].
    eapply ext_trans; [apply (ext_app h1 e)|].
    apply (ext_trans _ h2); [|apply sim_ext, F3]. constructor; [unfold h2; rewrite hupd_length; lia|].
    intros i _. unfold h2, ty. rewrite (hupd_keep n_type) by reflexivity. apply same_kind_refl. }
  assert (T3 : ty h3 N = NTag).
  { rewrite E3, ty_hupd_quiet by auto with quiet. unfold h2, ty. rewrite (hupd_keep n_type) by reflexivity. exact T1. }
  apply sok_W; auto.
  - eapply hs_sim; eauto.
  - lia.
  - apply (ext_chain (d_heap u)); [exact X2|apply (s_chain _ _ S)].
  - intros i Hi. pose proof (chain_in _ _ _ _ (s_chain _ _ S) Hi) as Hl. fold N in Hl.
    rewrite (sim_et _ _ _ F3). unfold h2. rewrite hget_hupd_other by lia. rewrite hget_app_old by lia.
    rewrite (sim_et _ _ _ F1), Et. apply (s_open _ _ S). exact Hi.
  - discriminate.
  - rewrite T3. discriminate.
  - intros _ Y. rewrite T3 in Y. discriminate.
Qed.

Lemma flip_skel : forall ck h i, skel (hget (flip ck h) i) = skel (hget h i).
Proof. intros [k|] h i; cbn; [|reflexivity]. apply (hupd_keep skel). reflexivity. Qed.
Lemma flip_kind : forall ck h i, (forall k, ck = Some k -> textual (ty h k)) -> same_kind (ty h i) (ty (flip ck h) i).
Proof. intros ck h i H. apply (sim_flip h ck H). Qed.

(** The structural content of [closed_heap]. *)
Lemma closed_sim : forall opts u tag rest nm pos, sok opts u -> d_chain_nodes u = tag :: rest -> rest <> [] ->
  exists n, n_type n = NTagEnd /\ n_childs n = None /\ n_end_tag n = None /\
  let N := length (d_heap u) in
  let hc := hupd (hupd (d_heap u ++ [n]) N (nset_parent (Some tag))) tag (nset_end_tag (Some N)) in
  hs (auto_fix_unescaped_lt opts) hc /\ sim hc (closed_heap u tag nm pos) /\ tag < N /\
  ty hc N = NTagEnd /\ ty (d_heap u) tag = NTag.
Proof.
  intros opts u tag rest nm pos S E Hr.
  destruct (dropped_eq u) as [n [Tn [En Rn]]].
  set (N := length (d_heap u)).
  pose proof (s_chain _ _ S) as C. rewrite E in C.
  assert (Ht : tag < N) by (cbn in C; tauto).
  assert (Tt : ty (d_heap u) tag = NTag) by (cbn in C; destruct C as [_ [C _]]; destruct rest; [congruence|exact C]).
  exists n. split; [exact Tn|].
  assert (Nc : n_childs n = None /\ n_end_tag n = None).
  { unfold dropped_heap in En. apply app_inj_tail in En. destruct En as [_ <-].
    destruct (auto_fix_unclosed_tag _); split; reflexivity. }
  destruct Nc as [Nc Ne]. split; [exact Nc|]. split; [exact Ne|]. cbv zeta.
  set (hb := hupd (d_heap u ++ [n]) N (nset_parent (Some tag))).
  assert (Lb : length hb = Datatypes.S N) by (unfold hb; rewrite hupd_length, app_length; cbn; unfold N; lia).
  assert (Hb : hs (auto_fix_unescaped_lt opts) hb).
  { apply hs_set_parent.
    - apply hs_alloc_end; auto. apply (s_hs _ _ S).
    - unfold ty, N. rewrite hget_app_new. exact Tn.
    - intros p X. rewrite hget_app_case in X. fold N in X.
      destruct (Nat.ltb_spec p N).
      + pose proof (hs_end _ _ (s_hs _ _ S) p _ X). fold N in H0. lia.
      + destruct (Nat.eqb p N); [rewrite Ne in X; discriminate|discriminate]. }
  assert (Tb : ty hb tag = NTag).
  { unfold hb, ty. rewrite hget_hupd_other by lia. rewrite hget_app_old by exact Ht. exact Tt. }
  assert (Eb : hget hb N = nset_parent (Some tag) n).
  { unfold hb. rewrite hget_hupd_same by (rewrite app_length; cbn; unfold N; lia). unfold N. rewrite hget_app_new. reflexivity. }
  split; [|split; [|split; [exact Ht|split; [|exact Tt]]]].
  - apply hs_set_end; auto.
    + lia.
    + unfold ty. rewrite Eb. exact Tn.
    + rewrite Eb. reflexivity.
  - unfold closed_heap. fold N.
    unfold dropped_heap in En. cbv zeta in En. cbv zeta. rewrite En.
    set (h1 := hupd (d_heap u ++ [n]) tag (nset_end_tag (Some N))).
    match goal with |- sim _ (hupd (hupd ?h N _) N _) => set (h2 := h) end.
    assert (L1 : length h1 = Datatypes.S N) by (unfold h1; rewrite hupd_length, app_length; cbn; unfold N; lia).
    assert (Ck : forall k, d_check_textnode u = Some k -> textual (ty h1 k)).
    { intros k Hk. pose proof (s_check _ _ S k Hk) as X. pose proof (textual_lt _ _ X).
      unfold h1, ty. rewrite (hupd_keep n_type) by reflexivity. rewrite hget_app_old by assumption. exact X. }
    assert (S12 : sim h1 h2).
    { unfold h2. match goal with |- sim _ (if ?b then _ else _) => destruct b end; [apply sim_refl|apply sim_flip, Ck]. }
    apply (sim_trans _ (hupd h1 N (nset_parent (Some tag)))).
    { (* the two updates commute *)
      split; [unfold hb, h1; rewrite !hupd_length; reflexivity|]. intro i. unfold hb, h1.
      assert (X : hget (hupd (hupd (d_heap u ++ [n]) N (nset_parent (Some tag))) tag (nset_end_tag (Some N))) i =
                  hget (hupd (hupd (d_heap u ++ [n]) tag (nset_end_tag (Some N))) N (nset_parent (Some tag))) i).
      { destruct (Nat.eq_dec i tag) as [->|N1].
        - rewrite hget_hupd_same by (rewrite hupd_length, app_length; cbn; unfold N in *; lia).
          rewrite !(hget_hupd_other _ N) by lia.
          rewrite hget_hupd_same by (rewrite app_length; cbn; unfold N in *; lia). reflexivity.
        - rewrite (hget_hupd_other _ tag) by congruence.
          destruct (Nat.eq_dec i N) as [->|N2].
          + rewrite !hget_hupd_same by (rewrite ?hupd_length, app_length; cbn; unfold N in *; lia).
            rewrite hget_hupd_other by congruence. reflexivity.
          + rewrite !hget_hupd_other by congruence. reflexivity. }
      split; [rewrite X; reflexivity|]. unfold ty. rewrite X. apply same_kind_refl. }
    assert (G : sim (hupd h1 N (nset_parent (Some tag))) (hupd h2 N (nset_parent (Some tag)))).
    { destruct S12 as [L S12]. split; [rewrite !hupd_length; exact L|]. intro i. destruct (S12 i) as [A B].
      unfold ty in *. rewrite !(hupd_keep n_type) by reflexivity. split; [|exact B].
      destruct (Nat.eq_dec i N) as [->|N2].
      - rewrite !hget_hupd_same by lia. unfold skel in *. cbn. congruence.
      - rewrite !hget_hupd_other by congruence. exact A. }
    eapply sim_trans; [exact G|].
    split; [rewrite !hupd_length; reflexivity|]. intro i.
    assert (L2 : length h2 = Datatypes.S N) by (destruct S12 as [L _]; lia).
    destruct (Nat.eq_dec i N) as [->|N2].
    + unfold ty. rewrite !hget_hupd_same by (rewrite ?hupd_length; lia). split; [reflexivity|apply same_kind_refl].
    + unfold ty. rewrite !hget_hupd_other by congruence. split; [reflexivity|apply same_kind_refl].
  - unfold ty. rewrite hget_hupd_other by lia. rewrite Eb. exact Tn.
Qed.

Lemma sok_close : forall opts u nm tag rest src mem mk sp ids pos, sok opts u ->
  closes u nm = Some (tag, rest) ->
  sok opts (W_of u src mem mk rest (length (d_heap u)) sp (closed_check u tag) ids (closed_heap u tag nm pos)).
Proof.
  intros opts u nm tag rest src mem mk sp ids pos S E.
  assert (E' : d_chain_nodes u = tag :: rest /\ rest <> []).
  { unfold closes in E. destruct (d_chain_nodes u) as [|i [|j l]]; try discriminate.
    destruct (n_meta (get_node u i)); [|discriminate]. destruct (same_name _ _); [|discriminate].
    injection E as <- <-. split; [reflexivity|discriminate]. }
  destruct E' as [E' Hr].
  destruct (closed_sim opts u tag rest nm pos S E' Hr) as [n [Tn [Nc [Ne [H [F [Ht [Te Tt]]]]]]]].
  set (N := length (d_heap u)) in *.
  set (hc := hupd (hupd (d_heap u ++ [n]) N (nset_parent (Some tag))) tag (nset_end_tag (Some N))) in *.
  assert (Lc : length hc = Datatypes.S N) by (unfold hc; rewrite !hupd_length, app_length; cbn; unfold N; lia).
  assert (X : ext (d_heap u) (closed_heap u tag nm pos)).
  { apply (ext_trans _ hc); [|apply sim_ext, F]. constructor; [fold N; lia|]. intros i Hi.
    unfold hc, ty. rewrite !(hupd_keep n_type) by reflexivity. rewrite hget_app_old by exact Hi. apply same_kind_refl. }
  assert (Te' : ty (closed_heap u tag nm pos) N = NTagEnd).
  { destruct F as [_ F]. destruct (F N) as [_ K]. exact (proj1 (kind_neq _ _ NTagEnd K not_text_end) Te). }
  assert (Cu : In tag rest -> False).
  { pose proof (s_chain _ _ S) as C. rewrite E' in C. cbn in C. destruct C as [_ [_ C]]. intro Y.
    pose proof (chain_in _ _ _ _ C Y). lia. }
  apply sok_W; auto.
  - eapply hs_sim; eauto.
  - rewrite (sim_len _ _ F). lia.
  - pose proof (ext_chain _ _ _ X (s_chain _ _ S)) as C. rewrite E' in C. eapply chain_tl. exact C.
  - intros i Hi. rewrite (sim_et _ _ _ F). unfold hc.
    assert (i <> tag) by (intros ->; auto).
    assert (Hl : i < N) by (apply (chain_in _ _ _ _ (s_chain _ _ S)); rewrite E'; right; exact Hi).
    rewrite !hget_hupd_other by lia. rewrite hget_app_old by exact Hl.
    apply (s_open _ _ S). rewrite E'. right. exact Hi.
  - intros i Hi. apply (ext_check _ _ (d_check_textnode u) X (s_check _ _ S)).
    unfold closed_check in Hi. destruct (n_childs (hget (d_heap u) tag)) as [[|k [|k2 l]]|]; try discriminate.
    destruct (node_type_eqb _ _); [exact Hi|discriminate].
  - rewrite Te'. discriminate.
  - intros _ _. exists tag. rewrite (sim_et _ _ _ F). unfold hc.
    rewrite hget_hupd_same by (rewrite hupd_length, app_length; cbn; unfold N; lia). reflexivity.
Qed.

Lemma sok_drop : forall opts u src mem mk sp ids, sok opts u ->
  sok opts (W_of u src mem mk (d_chain_nodes u)
    (if auto_fix_unclosed_tag (d_parse_options u) then d_current_node u else length (d_heap u))
    sp (d_check_textnode u) ids (dropped_heap u)).
Proof.
  intros opts u src mem mk sp ids S.
  destruct (dropped_eq u) as [n [Tn [En Rn]]].
  assert (Nc : n_childs n = None /\ n_end_tag n = None).
  { unfold dropped_heap in En. apply app_inj_tail in En. destruct En as [_ <-].
    destruct (auto_fix_unclosed_tag _); split; reflexivity. }
  destruct Nc as [Nc Ne].
  assert (X : ext (d_heap u) (dropped_heap u)) by (rewrite En; apply ext_app).
  pose proof (s_cur _ _ S) as Cu. pose proof (s_opts _ _ S) as Ho.
  assert (Tc : ty (dropped_heap u) (d_current_node u) = ty (d_heap u) (d_current_node u)).
  { rewrite En. unfold ty. rewrite hget_app_old by exact Cu. reflexivity. }
  assert (Tl : ty (dropped_heap u) (length (d_heap u)) = NTagEnd).
  { rewrite En. unfold ty. rewrite hget_app_new. exact Tn. }
  assert (L : length (dropped_heap u) = Datatypes.S (length (d_heap u))) by (rewrite En, app_length; cbn; lia).
  apply sok_W; auto.
  - rewrite En. apply hs_alloc_end; auto. apply (s_hs _ _ S).
  - destruct (auto_fix_unclosed_tag _); lia.
  - apply (ext_chain (d_heap u)); [exact X|apply (s_chain _ _ S)].
  - intros i Hi. rewrite En, hget_app_old; [apply (s_open _ _ S), Hi|].
    apply (chain_in _ _ _ _ (s_chain _ _ S) Hi).
  - apply (ext_check (d_heap u)); [exact X|apply (s_check _ _ S)].
  - destruct (auto_fix_unclosed_tag (d_parse_options u)); [rewrite Tc; apply (s_nosp _ _ S)|rewrite Tl; discriminate].
  - rewrite Ho. intros A B. rewrite A in B |- *. rewrite Tc in B. destruct (s_last _ _ S A B) as [p Hp]. exists p.
    rewrite En, hget_app_old; [exact Hp|].
    destruct (Nat.lt_ge_cases p (length (d_heap u))); [assumption|]. rewrite hget_default in Hp by assumption. discriminate.
Qed.

Lemma sok_lt : forall opts u chars, sok opts u -> is_U u -> auto_fix_unescaped_lt opts = true ->
  sok opts (lt_text u chars).
Proof.
  intros opts u chars S U Hlt. unfold lt_text.
  pose proof (s_hs _ _ S) as H. pose proof (s_cur _ _ S) as Cu. pose proof (s_chain _ _ S) as C.
  assert (TNew : forall pv, n_type (cur u) <> NText ->
    sok opts (mkDoc CTextNode (d_position u) (d_mem_position u) None pv (d_mark_char u) (d_chain_nodes u)
      (length (d_heap u)) (d_in_special u) false (d_check_textnode u) HText (d_parse_options u) (d_root u)
      (d_id_tags u) (add_orphan (d_heap u) (lt_parent u) (node_new NText (d_mem_position u))))).
  { intros pv _.
    assert (CP : forall q, q = match d_chain_nodes u with i :: _ => i | [] => d_root u end ->
                 q < length (d_heap u) /\ container (ty (d_heap u) q)).
    { intros q ->. destruct (d_chain_nodes u) as [|i l] eqn:E.
      - rewrite (s_root _ _ S). split; [apply H|right; apply H].
      - split; [cbn in C; tauto|eapply chain_head; eauto]. }
    assert (P : lt_parent u < length (d_heap u) /\ container (ty (d_heap u) (lt_parent u))).
    { unfold lt_parent. destruct (n_type (cur u)) eqn:Et; try (apply CP; reflexivity).
      assert (D : d_current_node u < length (d_heap u) /\ container (ty (d_heap u) (d_current_node u))).
      { split; [exact Cu|]. left. exact Et. }
      destruct (n_meta (cur u)) as [m|]; [|exact D]. destruct (m_self_closed m || m_auto_fix m)%bool; [apply CP; reflexivity|exact D]. }
    destruct P as [P1 P2].
    assert (X : ext (d_heap u) (add_orphan (d_heap u) (lt_parent u) (node_new NText (d_mem_position u)))) by (apply ext_orphan; exact P1).
    assert (Tl : ty (add_orphan (d_heap u) (lt_parent u) (node_new NText (d_mem_position u))) (length (d_heap u)) = NText).
    { rewrite ty_add_orphan by exact P1. rewrite Nat.eqb_refl. reflexivity. }
    constructor; cbn [d_parse_options d_root d_heap d_current_node d_chain_nodes d_check_textnode].
    - apply (s_opts _ _ S).
    - apply (s_root _ _ S).
    - rewrite Hlt in *. apply hs_add_orphan; auto. left. reflexivity.
    - rewrite add_orphan_length. lia.
    - apply (ext_chain (d_heap u)); assumption.
    - intros i Hi. rewrite et_add_orphan by reflexivity. apply (s_open _ _ S i Hi).
    - apply (ext_check (d_heap u)); [exact X|apply (s_check _ _ S)].
    - intros _. exact Tl.
    - rewrite Tl. discriminate.
    - intros _ Y. rewrite Tl in Y. discriminate. }
  assert (TOld : forall pv h, n_type (cur u) = NText -> sim (d_heap u) h ->
    (forall i, ty h i = ty (d_heap u) i) ->
    sok opts (mkDoc CTextNode (d_position u) (d_mem_position u) None pv (d_mark_char u) (d_chain_nodes u)
      (d_current_node u) (d_in_special u) false (d_check_textnode u) HText (d_parse_options u) (d_root u)
      (d_id_tags u) h)).
  { intros pv h Et F Ty. assert (Tl : ty h (d_current_node u) = NText) by (rewrite Ty; exact Et).
    constructor; cbn [d_parse_options d_root d_heap d_current_node d_chain_nodes d_check_textnode].
    - apply (s_opts _ _ S).
    - apply (s_root _ _ S).
    - eapply hs_sim; eauto.
    - rewrite (sim_len _ _ F). exact Cu.
    - apply (ext_chain (d_heap u)); [apply sim_ext, F|exact C].
    - intros i Hi. rewrite (sim_et _ _ _ F). apply (s_open _ _ S i Hi).
    - apply (sim_check (d_heap u)); [exact F|apply (s_check _ _ S)].
    - intros _. exact Tl.
    - rewrite Tl. discriminate.
    - intros _ Y. rewrite Tl in Y. discriminate. }
  cbv zeta. destruct (n_type (cur u)) eqn:Et; try (apply TNew; discriminate).
  destruct (n_content (cur u)).
  - apply TOld; [reflexivity|apply sim_hupd; auto with quiet|]. intro i. apply ty_hupd_quiet. auto with quiet.
  - apply TOld; [reflexivity|apply sim_refl|reflexivity].
Qed.

Lemma sok_position : forall opts st n, sok opts st -> sok opts (set_position n st).
Proof. intros opts st n S. destruct S. destruct st. constructor; assumption. Qed.

Lemma bstep_sok : forall opts u s st, bstep u s st -> sok opts u -> sok opts st.
Proof.
  intros opts u s st B. induction B; intro S.
  - (* '<' *)
    destruct S as [S1 S2 S3 S4 S5 S6 S7 S8 S9 S10]. constructor; cbn; auto. intros [X _]. discriminate.
  - (* text merged *)
    assert (Tc : ty (d_heap st) (d_current_node st) = NText) by assumption.
    match goal with |- sok _ (mkDoc _ _ _ _ _ _ _ _ _ _ _ _ _ _ _ ?h) => set (h' := h) end.
    assert (F : sim (d_heap st) h' /\ forall i, ty h' i = ty (d_heap st) i).
    { unfold h'. destruct ct.
      - split; [apply sim_hupd; auto with quiet|]. intro i. apply ty_hupd_quiet. auto with quiet.
      - split; [apply sim_refl|reflexivity]. }
    destruct F as [F Ty].
    constructor; cbn [d_parse_options d_root d_heap d_current_node d_chain_nodes d_check_textnode].
    + apply (s_opts _ _ S).
    + apply (s_root _ _ S).
    + eapply hs_sim; [apply (s_hs _ _ S)|exact F].
    + rewrite (sim_len _ _ F). apply (s_cur _ _ S).
    + apply (ext_chain (d_heap st)); [apply sim_ext, F|apply (s_chain _ _ S)].
    + intros i Hi. rewrite (sim_et _ _ _ F). apply (s_open _ _ S i Hi).
    + apply (sim_check (d_heap st)); [exact F|apply (s_check _ _ S)].
    + intros _. rewrite Ty. exact Tc.
    + rewrite Ty, Tc. discriminate.
    + intros _ Y. rewrite Ty, Tc in Y. discriminate.
  - (* new text *)
    pose proof (s_chain _ _ S) as C. rewrite H2 in C.
    assert (Hp : p < length (d_heap st)) by (cbn in C; tauto).
    set (h' := add_child (d_heap st) p (node_new NText (d_position st))).
    assert (X : ext (d_heap st) h') by (apply ext_child; exact Hp).
    assert (Tl : ty h' (length (d_heap st)) = NText).
    { unfold h'. rewrite ty_add_child by exact Hp. rewrite Nat.eqb_refl. reflexivity. }
    constructor; cbn [d_parse_options d_root d_heap d_current_node d_chain_nodes d_check_textnode].
    + apply (s_opts _ _ S).
    + apply (s_root _ _ S).
    + apply hs_add_child; cbn; try discriminate; auto; [apply (s_hs _ _ S)|].
      eapply chain_head; [apply (s_hs _ _ S)|exact C].
    + unfold h'. rewrite add_child_length. lia.
    + apply (ext_chain (d_heap st)); [exact X|apply (s_chain _ _ S)].
    + intros i Hi. unfold h'. rewrite et_add_child by reflexivity. apply (s_open _ _ S i Hi).
    + apply (ext_check (d_heap st)); [exact X|apply (s_check _ _ S)].
    + intros _. exact Tl.
    + rewrite Tl. discriminate.
    + intros _ Y. rewrite Tl in Y. discriminate.
  - (* more text *)
    pose proof (s_text _ _ S H) as Tc.
    destruct S as [S1 S2 S3 S4 S5 S6 S7 S8 S9 S10]. constructor; cbn; auto.
  - (* end of text *)
    pose proof (s_text _ _ S H) as Tc.
    match goal with |- sok _ (mkDoc _ _ _ _ _ _ _ _ _ _ _ _ _ _ _ ?h) => set (h' := h) end.
    assert (F : sim (d_heap st) h').
    { unfold h'. eapply sim_trans; apply sim_hupd; auto with quiet. }
    assert (Ty : forall i, ty h' i = ty (d_heap st) i).
    { intro i. unfold h'. rewrite !ty_hupd_quiet by auto with quiet. reflexivity. }
    constructor; cbn [d_parse_options d_root d_heap d_current_node d_chain_nodes d_check_textnode].
    + apply (s_opts _ _ S).
    + apply (s_root _ _ S).
    + eapply hs_sim; [apply (s_hs _ _ S)|exact F].
    + rewrite (sim_len _ _ F). apply (s_cur _ _ S).
    + apply (ext_chain (d_heap st)); [apply sim_ext, F|apply (s_chain _ _ S)].
    + intros i Hi. rewrite (sim_et _ _ _ F). apply (s_open _ _ S i Hi).
    + intros i Hi. rewrite Ty. destruct (d_repeat_whitespace st); [|discriminate]. injection Hi as <-.
      rewrite Tc. left. reflexivity.
    + intros [Y _]. discriminate.
    + rewrite Ty, Tc. discriminate.
    + intros _ Y. rewrite Ty, Tc in Y. discriminate.
  - (* start tag *)
    destruct (opened_ok opts u p rest NTag S) as [_ [_ [_ Tn]]]; try assumption; try discriminate.
    eapply (sok_opened opts u p rest NTag); eauto; try discriminate; [apply sim_set_meta|].
    rewrite ty_set_meta. exact Tn.
  - (* void tag *)
    destruct (opened_ok opts u p rest NTag S) as [_ [_ [_ Tn]]]; try assumption; try discriminate.
    eapply (sok_opened opts u p rest NTag); eauto; try discriminate; [apply sim_set_meta|].
    rewrite ty_set_meta. exact Tn.
  - (* self-closed tag *)
    destruct (opened_ok opts u p rest NTag S) as [_ [_ [_ Tn]]]; try assumption; try discriminate.
    eapply (sok_opened opts u p rest NTag); eauto; try discriminate; [apply sim_set_meta|].
    rewrite ty_set_meta. exact Tn.
  - (* raw text *) eapply sok_raw; eauto.
  - (* end tag *) eapply sok_close; eauto.
  - (* dropped end tag *) apply sok_drop. exact S.
  - (* comment *)
    destruct (opened_ok opts u p rest NComment S) as [_ [_ [_ Tn]]]; try assumption; try discriminate.
    eapply (sok_opened opts u p rest NComment); eauto; try discriminate.
    + eapply sim_trans; apply sim_hupd; auto with quiet.
    + rewrite !ty_hupd_quiet by auto with quiet. exact Tn.
  - (* CDATA *)
    destruct (opened_ok opts u p rest NXMLCDATA S) as [_ [_ [_ Tn]]]; try assumption; try discriminate.
    eapply (sok_opened opts u p rest NXMLCDATA); eauto; try discriminate.
    + eapply sim_trans; apply sim_hupd; auto with quiet.
    + rewrite !ty_hupd_quiet by auto with quiet. exact Tn.
  - (* doctype *)
    destruct (opened_ok opts u p rest NHTMLDOCTYPE S) as [_ [_ [_ Tn]]]; try assumption; try discriminate.
    eapply (sok_opened opts u p rest NHTMLDOCTYPE); eauto; try discriminate.
    + apply sim_set_meta.
    + rewrite ty_set_meta. exact Tn.
    + destruct (ta_slash t); auto.
  - (* '<' and a character *)
    apply sok_position, sok_lt; auto. rewrite <- (s_opts _ _ S). assumption.
  - (* '<<' *)
    apply IHB, sok_lt; auto. rewrite <- (s_opts _ _ S). assumption.
Qed.

Lemma sok_init : forall opts, sok opts (doc_new opts).
Proof.
  intro opts.
  assert (K : forall p, kids (d_heap (doc_new opts)) p = []).
  { intro p. destruct p as [|[|p]]; reflexivity. }
  assert (E : forall p, n_end_tag (hget (d_heap (doc_new opts)) p) = None).
  { intro p. destruct p as [|[|p]]; reflexivity. }
  constructor; try reflexivity.
  - constructor; intros; rewrite ?K in *.
    + repeat split. cbn. lia.
    + destruct H.
    + constructor.
    + destruct i; discriminate.
    + destruct H.
    + cbn in H. lia.
    + destruct H.
    + rewrite E in H. discriminate.
    + destruct p as [|[|p]]; discriminate.
    + cbn in H. lia.
  - cbn. lia.
  - cbn. auto.
  - intros i H. apply E.
  - discriminate.
  - intros [X _]. discriminate.
  - discriminate.
  - intros _ X. discriminate.
Qed.
Lemma bsteps_sok : forall opts s st, bsteps (doc_new opts) s st -> sok opts st.
Proof.
  intros opts s st B. remember (doc_new opts) as u eqn:E. induction B as [st|u s st1 t st2 B IH H].
  - subst. apply sok_init.
  - eapply bstep_sok; [exact H|]. auto.
Qed.
