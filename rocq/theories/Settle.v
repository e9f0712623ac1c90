(** Rendering the result of parsing minified output. *)
From Coq Require Import String ZifyBool ZifyN Lia.
From Verif Require Import Api SpecText SpecRender SpecParse SpecMisc SpecTree SpecDoc SpecOpts NameProofs TextProofs RenderProofs Shape RawText Tok DocTree DocSound Print SpecShown Shown ShownRead ShownDoc JoinProofs SpecSettle.
Local Open Scope string_scope.
Local Open Scope list_scope.

(** ** Collapsed texts *)
Lemma collapse_idem : forall c, collapse (collapse c) = collapse c.
Proof.
  intro c. rewrite !collapse_minify.
  enough (G : forall s b, minify_text (minify_text s b) b = minify_text s b) by apply G.
  induction s as [|x s IH]; intro b; [reflexivity|]. cbn [minify_text]. destruct (is_ascii_whitespace x) eqn:E; [|cbn [minify_text]; rewrite E, IH; reflexivity].
  destruct b; [apply IH|]. cbn [minify_text]. rewrite E, IH. reflexivity.
Qed.
Lemma collapse_blank : forall c, blank_text (collapse c) = blank_text c.
Proof.
  intro c. rewrite collapse_minify. unfold blank_text.
  enough (G : forall s b, forallb is_ascii_whitespace (minify_text s b) = forallb is_ascii_whitespace s) by apply G.
  induction s as [|x s IH]; intro b; [reflexivity|]. cbn [minify_text forallb]. destruct (is_ascii_whitespace x) eqn:E; [|cbn [forallb]; rewrite E; reflexivity].
  destruct b; cbn [forallb]; rewrite ?E, IH; reflexivity.
Qed.

(** ** Joining texts *)
Lemma merge_merge : forall a z, merge (merge a ++ z) = merge (a ++ z).
Proof.
  induction a as [|k a IH]; intro z; [reflexivity|]. destruct (is_ktext k) eqn:E.
  - destruct k; try discriminate E. cbn [app merge]. rewrite <- IH. destruct (merge a) as [|k' r]; [reflexivity|].
    destruct k'; try reflexivity. cbn [app merge]. destruct (merge (r ++ z)) as [|k2 r2]; [reflexivity|]. destruct k2; try reflexivity.
    rewrite <- app_assoc. reflexivity.
  - rewrite (merge_text _ _ E). cbn [app]. rewrite !(merge_text _ _ E), IH. reflexivity.
Qed.
Lemma merge_cons : forall k a b, merge a = merge b -> merge (k :: a) = merge (k :: b).
Proof. intros k a b E. destruct k; cbn [merge]; rewrite E; reflexivity. Qed.
Lemma merge_app : forall a a' b b', merge a = merge a' -> merge b = merge b' -> merge (a ++ b) = merge (a' ++ b').
Proof.
  intros a a' b b' A B. rewrite <- (merge_merge a b), A, merge_merge. clear A. induction a' as [|k a' IH]; [exact B|].
  cbn [app]. apply merge_cons, IH.
Qed.
Fixpoint fuse (l : list item) : list item :=
  match l with
  | [] => []
  | XText c b :: r => match fuse r with XText c' _ :: r' => XText (c ++ c') b :: r' | r' => XText c b :: r' end
  | x :: r => x :: fuse r
  end.
Lemma fuse_other : forall x l, is_text x = false -> fuse (x :: l) = x :: fuse l.
Proof. intros [] l E; try reflexivity. discriminate E. Qed.
Lemma fuse_tokens : forall l, merge (flat_map tokens (fuse l)) = merge (flat_map tokens l).
Proof.
  induction l as [|x l IH]; [reflexivity|]. destruct (is_text x) eqn:E.
  - destruct x; try discriminate E. cbn [fuse flat_map tokens app]. rewrite <- (merge_cons (KText c) _ _ IH). destruct (fuse l) as [|y r]; [reflexivity|].
    destruct y; try reflexivity. cbn [flat_map tokens app merge]. destruct (merge (flat_map tokens r)) as [|k q]; [reflexivity|]. destruct k; try reflexivity.
    rewrite <- app_assoc. reflexivity.
  - rewrite (fuse_other _ _ E). cbn [flat_map]. apply merge_app; [reflexivity|exact IH].
Qed.
Lemma fuse_Forall : forall (P : item -> Prop), (forall c b, P (XText c b)) -> forall l, Forall P l -> Forall P (fuse l).
Proof.
  intros P T l F. induction F as [|x l X F IH]; [constructor|]. destruct (is_text x) eqn:E; [|rewrite (fuse_other _ _ E); constructor; assumption].
  destruct x; try discriminate E. cbn [fuse]. destruct (fuse l) as [|y r]; [constructor; [exact X|constructor]|].
  destruct y; try (constructor; assumption). constructor; [apply T|]. inversion IH; assumption.
Qed.
(** No texts side by side. *)
Fixpoint text_apart (l : list item) : Prop :=
  match l with
  | [] => True
  | x :: r => (is_text x = true -> match r with y :: _ => is_text y = false | [] => True end) /\ text_apart r
  end.
Lemma fuse_apart : forall l, text_apart (fuse l).
Proof.
  induction l as [|x l IH]; [exact I|]. destruct (is_text x) eqn:E; [|rewrite (fuse_other _ _ E); split; [congruence|exact IH]].
  destruct x; try discriminate E. cbn [fuse]. destruct (fuse l) as [|y r]; [split; auto|].
  destruct y; try (split; [intros _; reflexivity|exact IH]). exact IH.
Qed.
Definition inner_apart (x : item) : Prop := forall z, apart z -> is_text x = false -> apart (tokens x ++ z).
Lemma apart_list : forall l z, text_apart l -> Forall inner_apart l -> apart z -> match z with k :: _ => is_ktext k = false | [] => True end ->
  apart (flat_map tokens l ++ z).
Proof.
  intros l z T F Z Zk. revert T. induction F as [|x l X F IH]; intro T; [exact Z|]. destruct T as [T1 T2]. specialize (IH T2). cbn [flat_map]. rewrite <- app_assoc.
  destruct (is_text x) eqn:E; [|apply X; [exact IH|exact E]]. specialize (T1 eq_refl). destruct x; try discriminate E. cbn [tokens app]. split; [|exact IH].
  intros _. destruct l as [|y l]; [exact Zk|]. cbn [flat_map]. destruct y; try reflexivity. discriminate T1.
Qed.

Section Minify.
Variable (env : entity_env) (o : render_options).
Hypothesis (Mi : minify_spaces o = true) (De : decode_entity o = false) (En : encode_content o = false).

(** The content of the output. *)
Definition view_text (p : bool) (c : list char) (b : bool) : list item :=
  if p then [XText c b] else if b then [] else [XText (collapse c) b].
Fixpoint view (p : bool) (x : item) : list item :=
  match x with
  | XText c b => view_text p c b
  | XComment c => if remove_comment o then [] else [XComment c]
  | XCData c => [XCData c]
  | XDoctype n l => [XDoctype n (shown_attrs o l)]
  | XLeaf n l sc => [XLeaf (shown_name o n) (shown_attrs o l) sc]
  | XRaw n l c e => [XRaw (shown_name o n) (shown_attrs o l) c (shown_end o e)]
  | XElem n l ks e => [XElem (shown_name o n) (shown_attrs o l) (fuse (flat_map (view (p || pre_name n)) ks)) (shown_end o e)]
  end.
Lemma shown_view_text : forall p c b, shown_text env o p c b = flat_map tokens (view_text p c b).
Proof. intros p c b. unfold shown_text, view_text. rewrite Mi, De. destruct p, b; reflexivity. Qed.
Lemma view_tokens : forall x p, merge (shown env o p x) = merge (flat_map tokens (view p x)).
Proof.
  intro x. induction x as [c b|c|c|n a|n a sc|n a c e|n a ks e IH] using item_ind2; intro p; cbn [shown view]; try reflexivity.
  - rewrite shown_view_text. reflexivity.
  - destruct (remove_comment o); reflexivity.
  - unfold shown_raw. rewrite En. reflexivity.
  - cbn [flat_map tokens]. rewrite app_nil_r. apply merge_cons. apply merge_app; [|reflexivity]. rewrite fuse_tokens.
    generalize (p || pre_name n)%bool. intro q. induction IH as [|k ks K IH IH2]; [reflexivity|]. cbn [flat_map]. rewrite flat_map_app. apply merge_app; [apply K|exact IH2].
Qed.
Lemma view_apart : forall x p, Forall inner_apart (view p x).
Proof.
  intro x. induction x as [c b|c|c|n a|n a sc|n a c e|n a ks e IH] using item_ind2; intro p; cbn [view].
  1: unfold view_text; destruct p, b; repeat (constructor; [intros z Z E; discriminate E|]); constructor.
  1: destruct (remove_comment o); [constructor|].
  1-5: constructor; [|constructor]; intros z Z _; cbn; split; [discriminate|exact Z].
  constructor; [|constructor]. intros z Z _. cbn [tokens app]. split; [discriminate|]. rewrite <- app_assoc. apply apart_list; [apply fuse_apart| |split; [discriminate|exact Z]|reflexivity].
  apply fuse_Forall; [intros c b z' _ E; discriminate E|]. apply flat_Forall. intros k K. rewrite Forall_forall in IH. apply IH, K.
Qed.
Lemma view_list : forall f p, merge (flat_map (shown env o p) f) = flat_map tokens (fuse (flat_map (view p) f)).
Proof.
  intros f p. rewrite <- (apart_merge (flat_map tokens (fuse (flat_map (view p) f)))).
  - rewrite fuse_tokens. induction f as [|x f IH]; [reflexivity|]. cbn [flat_map]. rewrite flat_map_app. apply merge_app; [apply view_tokens|exact IH].
  - rewrite <- (app_nil_r (flat_map tokens _)). apply apart_list; [apply fuse_apart| |exact I|exact I].
    apply fuse_Forall; [intros c b z' _ E; discriminate E|]. apply flat_Forall. intros k _. apply view_apart.
Qed.
Lemma view_content : forall f f', marked f' -> flat_map tokens f' = merge (flat_map (shown env o false) f) ->
  f' = mark_all (fuse (flat_map (view false) f)).
Proof.
  intros f f' M E. apply tokens_unique; [exact M|apply mark_all_marked|]. rewrite E, view_list, mark_all_tokens. reflexivity.
Qed.

(** ** The output can be read again after rendering its content *)
Lemma plain_pre_shown : forall n, pre_name (shown_name o n) = pre_name n.
Proof. intro n. unfold pre_name. apply same_name_cong, shown_same. Qed.
Lemma plain_pre_elem : forall p n l ks e, plain_pre p (XElem n l ks e) <-> (pre_name n = true -> p = false) /\ Forall (plain_pre (p || pre_name n)) ks.
Proof.
  intros p n l ks e. split; [apply plain_pre_all|]. intros [A B]. cbn [plain_pre]. split; [exact A|]. clear A. induction B; [exact I|]. split; assumption.
Qed.
Lemma plain_pre_plain : forall x p, plain_pre p x <-> plain_pre p (plain x).
Proof.
  intro x. induction x as [c b|c|c|n a|n a sc|n a c e|n a ks e IH] using item_ind2; intro p; cbn [plain]; try reflexivity.
  rewrite !plain_pre_elem. apply and_iff_compat_l. generalize (p || pre_name n)%bool. intro q.
  induction IH as [|k ks K IH IH2]; [split; constructor|]. cbn [map]. rewrite !Forall_cons_iff, IH2. rewrite (K q). reflexivity.
Qed.
Lemma plain_pre_marks : forall f, Forall (plain_pre false) (mark_all f) <-> Forall (plain_pre false) f.
Proof.
  intro f. assert (E : forall g, Forall (plain_pre false) g <-> Forall (plain_pre false) (map plain g)).
  { induction g as [|x g IH]; [split; constructor|]. cbn [map]. rewrite !Forall_cons_iff, <- IH, <- plain_pre_plain. reflexivity. }
  rewrite E, mark_all_list, plain_mark_list, <- E. reflexivity.
Qed.
Lemma view_plain_pre : forall x p, plain_pre p x -> Forall (plain_pre p) (view p x).
Proof.
  intro x. induction x as [c b|c|c|n a|n a sc|n a c e|n a ks e IH] using item_ind2; intros p H; cbn [view].
  - unfold view_text. destruct p, b; repeat constructor.
  - destruct (remove_comment o); repeat constructor.
  - repeat constructor.
  - repeat constructor.
  - constructor; [|constructor]. cbn [plain_pre] in *. rewrite plain_pre_shown. exact H.
  - constructor; [|constructor]. cbn [plain_pre] in *. rewrite plain_pre_shown. exact H.
  - constructor; [|constructor]. apply plain_pre_elem in H. apply plain_pre_elem. rewrite plain_pre_shown. destruct H as [A B]. split; [exact A|].
    apply fuse_Forall; [intros; exact I|]. apply flat_Forall. intros k K. rewrite Forall_forall in IH, B. apply IH; [exact K|]. apply B, K.
Qed.
Variable (cs : bool).
Notation ok := (item_readable cs env o).
Definition all_ok (x : item) : Prop := Forall ok (within x).
Lemma all_ok_elem : forall n l ks e, all_ok (XElem n l ks e) <-> ok (XElem n l [] e) /\ Forall all_ok ks.
Proof.
  intros n l ks e. unfold all_ok at 1. cbn [within]. rewrite Forall_cons_iff. apply and_iff_compat_l.
  induction ks as [|k ks IH]; [split; constructor|]. cbn [flat_map]. rewrite Forall_app, Forall_cons_iff, IH. reflexivity.
Qed.
Lemma all_ok_plain : forall x, all_ok x <-> all_ok (plain x).
Proof.
  intro x. induction x as [c b|c|c|n a|n a sc|n a c e|n a ks e IH] using item_ind2; try reflexivity; [split; intro; repeat constructor|].
  cbn [plain]. rewrite !all_ok_elem. apply and_iff_compat_l. induction IH as [|k ks K IH IH2]; [split; constructor|]. cbn [map]. rewrite !Forall_cons_iff, IH2, K. reflexivity.
Qed.
Lemma ok_flat : forall f, Forall ok (flat_map within f) <-> Forall all_ok f.
Proof. induction f as [|k ks IH]; [split; constructor|]. cbn [flat_map]. rewrite Forall_app, Forall_cons_iff, IH. reflexivity. Qed.
Lemma ok_marks : forall f, Forall all_ok (mark_all f) <-> Forall all_ok f.
Proof.
  intro f. assert (E : forall g, Forall all_ok g <-> Forall all_ok (map plain g)).
  { induction g as [|x g IH]; [split; constructor|]. cbn [map]. rewrite !Forall_cons_iff, <- IH, <- all_ok_plain. reflexivity. }
  rewrite E, mark_all_list, plain_mark_list, <- E. reflexivity.
Qed.
Lemma spare_shown : forall l, remove_attr_quote o = true -> Forall quotes_spare (shown_attrs o l).
Proof. intros l R. unfold shown_attrs. rewrite R. induction l as [|x l IH]; constructor; [exact I|exact IH]. Qed.
Lemma lower_shown : forall n, lowercase_tagname o = true -> ascii_lower (shown_name o n) = shown_name o n.
Proof. intros n L. pose proof (shown_name_idem o n) as E. unfold shown_name in *. rewrite L in *. exact E. Qed.
Lemma lower_shown_end : forall n, lowercase_tagname o = true -> ascii_lower (shown_end o n) = shown_end o n.
Proof. intros n L. unfold shown_end. apply lower_shown, L. Qed.
Lemma view_ok : forall x p, all_ok x -> Forall all_ok (view p x).
Proof.
  intro x. induction x as [c b|c|c|n a|n a sc|n a c e|n a ks e IH] using item_ind2; intros p H; cbn [view].
  - unfold view_text. destruct p, b; repeat constructor.
  - destruct (remove_comment o); repeat constructor.
  - repeat constructor.
  - apply Forall_inv in H. constructor; [|constructor]. constructor; [|constructor]. destruct H as [H _]. split; [apply shown_attrs_nil, H|apply spare_shown].
  - constructor; [|constructor]. constructor; [|constructor]. exact (spare_shown a).
  - constructor; [|constructor]. constructor; [|constructor]. split; [apply spare_shown|]. split; [congruence|]. intros L _. apply lower_shown, L.
  - constructor; [|constructor]. apply all_ok_elem in H. apply all_ok_elem. destruct H as [_ H]. split.
    + split; [apply spare_shown|]. intros L _. split; [apply lower_shown, L|apply lower_shown_end, L].
    + apply fuse_Forall; [intros; repeat constructor|]. apply flat_Forall. intros k K. rewrite Forall_forall in IH, H. apply IH; [exact K|]. apply H, K.
Qed.

(** ** Content that rendering leaves alone *)
Fixpoint stable (p : bool) (x : item) : Prop :=
  match x with
  | XText c b => p = true \/ (b = false /\ collapse c = c)
  | XComment _ => remove_comment o = false
  | XCData _ => True
  | XDoctype n l => shown_attrs o l = l
  | XLeaf n l _ => shown_name o n = n /\ shown_attrs o l = l
  | XRaw n l _ e => shown_name o n = n /\ shown_attrs o l = l /\ shown_end o e = e
  | XElem n l ks e => shown_name o n = n /\ shown_attrs o l = l /\ shown_end o e = e /\
      (fix all (ks : list item) : Prop := match ks with [] => True | k :: r => stable (p || pre_name n) k /\ all r end) ks
  end.
Lemma stable_elem : forall p n l ks e, stable p (XElem n l ks e) <->
  (shown_name o n = n /\ shown_attrs o l = l /\ shown_end o e = e /\ Forall (stable (p || pre_name n)) ks).
Proof.
  intros p n l ks e. cbn [stable]. do 3 apply and_iff_compat_l. induction ks as [|k ks IH]; [split; constructor|]. rewrite Forall_cons_iff, IH. reflexivity.
Qed.
Lemma stable_shown : forall x p, stable p x -> shown env o p x = tokens x.
Proof.
  intro x. induction x as [c b|c|c|n a|n a sc|n a c e|n a ks e IH] using item_ind2; intros p H; [| | | | | |apply stable_elem in H]; cbn [shown tokens stable] in *.
  - rewrite shown_view_text. unfold view_text. destruct p; [reflexivity|]. destruct H as [H|[-> H]]; [discriminate H|]. rewrite H. reflexivity.
  - rewrite H. reflexivity.
  - reflexivity.
  - rewrite H. reflexivity.
  - destruct H as [-> ->]. reflexivity.
  - destruct H as (-> & -> & ->). unfold shown_raw. rewrite En. reflexivity.
  - destruct H as (A & B & C & H). rewrite A, B, C. f_equal. f_equal. revert H. generalize (p || pre_name n)%bool. intros q H. clear A B C.
    induction IH as [|k ks K IH IH2]; [reflexivity|]. apply Forall_cons_iff in H. destruct H as [H1 H2]. cbn [flat_map]. rewrite (K _ H1), (IH2 H2). reflexivity.
Qed.
Lemma stable_all : forall p f, Forall (stable p) f -> flat_map (shown env o p) f = flat_map tokens f.
Proof. intros p f F. induction F as [|x f X F IH]; [reflexivity|]. cbn [flat_map]. rewrite (stable_shown _ _ X), IH. reflexivity. Qed.

(** ** After one rendering: blank texts, except in pre, are the only child of their element *)
Definition blank_item (x : item) : bool := match x with XText c _ => blank_text c | _ => false end.
Definition no_blank (l : list item) : Prop := Forall (fun x => blank_item x = false) l.
Definition one_text (l : list item) : Prop := match l with [XText _ _] => True | _ => False end.
Fixpoint tidy (p : bool) (x : item) : Prop :=
  match x with
  | XComment _ => remove_comment o = false
  | XElem n l ks e => ((p || pre_name n)%bool = true \/ no_blank ks \/ one_text ks) /\
      (fix all (ks : list item) : Prop := match ks with [] => True | k :: r => tidy (p || pre_name n) k /\ all r end) ks
  | _ => True
  end.
Lemma tidy_elem : forall p n l ks e, tidy p (XElem n l ks e) <->
  (((p || pre_name n)%bool = true \/ no_blank ks \/ one_text ks) /\ Forall (tidy (p || pre_name n)) ks).
Proof.
  intros p n l ks e. cbn [tidy]. apply and_iff_compat_l. induction ks as [|k ks IH]; [split; constructor|]. rewrite Forall_cons_iff, IH. reflexivity.
Qed.
Lemma no_blank_plain : forall l, no_blank l <-> no_blank (map plain l).
Proof. unfold no_blank. induction l as [|x l IH]; [split; constructor|]. cbn [map]. rewrite !Forall_cons_iff, IH. destruct x; reflexivity. Qed.
Lemma one_text_plain : forall l, one_text l <-> one_text (map plain l).
Proof. intros [|x [|y l]]; [reflexivity|destruct x; reflexivity|destruct x; reflexivity]. Qed.
Lemma tidy_plain : forall x p, tidy p x <-> tidy p (plain x).
Proof.
  intro x. induction x as [c b|c|c|n a|n a sc|n a c e|n a ks e IH] using item_ind2; intro p; try reflexivity.
  cbn [plain]. rewrite !tidy_elem, <- no_blank_plain, <- one_text_plain. apply and_iff_compat_l. generalize (p || pre_name n)%bool. intro q.
  induction IH as [|k ks K IH IH2]; [split; constructor|]. cbn [map]. rewrite !Forall_cons_iff, IH2, (K q). reflexivity.
Qed.
Lemma tidy_marks : forall p f l, Forall (tidy p) l /\ no_blank l -> Forall (tidy p) (mark_list f l) /\ no_blank (mark_list f l).
Proof.
  intros p f l [A B]. assert (E : forall g, Forall (tidy p) g <-> Forall (tidy p) (map plain g)).
  { induction g as [|x g IH]; [split; constructor|]. cbn [map]. rewrite !Forall_cons_iff, <- IH, <- tidy_plain. reflexivity. }
  split; [apply (proj2 (E _)); rewrite plain_mark_list; exact (proj1 (E _) A)|apply (proj2 (no_blank_plain _)); rewrite plain_mark_list; exact (proj1 (no_blank_plain _) B)].
Qed.
Lemma fuse_no_blank : forall l, no_blank l -> no_blank (fuse l).
Proof.
  intros l F. induction F as [|x l X F IH]; [constructor|]. destruct (is_text x) eqn:E; [|rewrite (fuse_other _ _ E); constructor; assumption].
  destruct x; try discriminate E. cbn [fuse]. destruct (fuse l) as [|y r]; [constructor; [exact X|constructor]|].
  destruct y; try (constructor; assumption). inversion IH as [|? ? Y IH']; subst. constructor; [|exact IH']. cbn in *. unfold blank_text in *. rewrite forallb_app, X. reflexivity.
Qed.
(** Texts are marked if blank. *)
Definition fair (x : item) : Prop := match x with XText c b => b = blank_text c | _ => True end.
Lemma mark_list_fair : forall f l, Forall fair (mark_list f l).
Proof.
  intros f l. induction l as [|k l IH]; [constructor|]. cbn [mark_list]. constructor; [|exact IH]. destruct k; try exact I. cbn. apply Bool.andb_true_r.
Qed.
Lemma view_no_blank : forall l, Forall fair l -> no_blank (flat_map (view false) l).
Proof.
  intros l F. apply flat_Forall. intros x X. rewrite Forall_forall in F. specialize (F x X). destruct x; cbn [view]; try (constructor; [reflexivity|constructor]).
  - cbn in F. unfold view_text. subst blank. destruct (blank_text c) eqn:B; [constructor|]. constructor; [|constructor]. cbn. rewrite collapse_blank. exact B.
  - destruct (remove_comment o); repeat constructor.
Qed.
Lemma view_other : forall x p, is_text x = false -> no_blank (view p x).
Proof. intros [] p E; cbn [view]; try (constructor; [reflexivity|constructor]); [discriminate E|]. destruct (remove_comment o); repeat constructor. Qed.
Lemma view_tidy : forall x p only fo, mark only fo x = x -> Forall (tidy p) (view p x).
Proof.
  intro x. induction x as [c b|c|c|n a|n a sc|n a c e|n a ks e IH] using item_ind2; intros p only fo H; cbn [view]; [| |constructor; [exact I|constructor]..|constructor; [|constructor]].
  - unfold view_text. destruct p, b; repeat constructor.
  - destruct (remove_comment o) eqn:E; constructor; [exact E|constructor].
  - rewrite mark_elem in H. injection H as H. apply tidy_elem. rewrite plain_pre_shown.
    set (q := (p || pre_name n)%bool). split.
    + destruct q; [left; reflexivity|right].
      destruct ks as [|k [|k2 ks]]; [left; constructor| |left; apply fuse_no_blank, view_no_blank; rewrite <- H; apply mark_list_fair].
      cbn [flat_map]. rewrite app_nil_r. destruct (is_text k) eqn:E; [|left; apply fuse_no_blank, view_other, E].
      destruct k; try discriminate E. cbn [view]. unfold view_text. destruct blank; [left; constructor|right; exact I].
    + apply fuse_Forall; [intros; exact I|]. clearbody q.
      assert (G : forall k, In k ks -> exists only' fo', mark only' fo' k = k).
      { destruct ks as [|k [|k2 ks]]; [intros k []| |].
        - injection H as H. intros k' [<-|[]]. eauto.
        - clear - H. revert H. generalize (k :: k2 :: ks). clear. intros l H k K. revert H. induction l as [|x l IHl]; [destruct K|]. cbn [mark_list]. intro H.
          assert (Hx := f_equal (@List.tl item) H). cbn in Hx. destruct K as [->|K]; [|auto]. assert (Hy := f_equal (fun z => match z with y :: _ => y | [] => k end) H). cbn in Hy. eauto. }
      clear H. apply flat_Forall. intros k K. rewrite Forall_forall in IH. destruct (G k K) as (o' & f' & E). exact (IH k K q o' f' E).
Qed.

(** ** Removing texts *)
Inductive thin : list token -> list token -> Prop :=
  | thin_nil : thin [] []
  | thin_other : forall k k' a b, is_ktext k = false -> is_ktext k' = false -> thin a b -> thin (k :: a) (k' :: b)
  | thin_text : forall c c' a b, thin a b -> thin (KText c :: a) (KText c' :: b)
  | thin_drop : forall c a b, thin a b -> thin (KText c :: a) b.
Lemma thin_app : forall a a' b b', thin a a' -> thin b b' -> thin (a ++ b) (a' ++ b').
Proof. intros a a' b b' A B. induction A; cbn [app]; try (constructor; assumption). exact B. Qed.
Lemma thin_apart : forall a b, thin a b -> apart a -> apart b.
Proof.
  intros a b T. induction T as [|k k' a b K K' T IH|c c' a b T IH|c a b T IH]; intro A; [exact I| | |exact (IH (proj2 A))].
  - split; [congruence|exact (IH (proj2 A))].
  - destruct A as [A1 A2]. split; [|exact (IH A2)]. intros _. specialize (A1 eq_refl). destruct T as [|k k' a b K K' T|? ? ? ? ?|? ? ? ?]; [exact I|exact K'|discriminate A1|discriminate A1].
Qed.
(** The comments are kept. *)
Fixpoint commented (x : item) : Prop :=
  match x with
  | XComment _ => remove_comment o = false
  | XElem _ _ ks _ => (fix all (ks : list item) : Prop := match ks with [] => True | k :: r => commented k /\ all r end) ks
  | _ => True
  end.
Lemma commented_elem : forall n l ks e, commented (XElem n l ks e) <-> Forall commented ks.
Proof. intros n l ks e. cbn [commented]. induction ks as [|k ks IH]; [split; constructor|]. rewrite Forall_cons_iff, IH. reflexivity. Qed.
Lemma kept_commented : remove_comment o = false -> forall x, commented x.
Proof.
  intros R x. induction x as [c b|c|c|n a|n a sc|n a c e|n a ks e IH] using item_ind2; try exact I; [exact R|]. apply commented_elem, IH.
Qed.
Lemma tidy_commented : forall x p, tidy p x -> commented x.
Proof.
  intro x. induction x as [c b|c|c|n a|n a sc|n a c e|n a ks e IH] using item_ind2; intros p T; try exact I; [exact T|]. apply commented_elem. apply tidy_elem in T. destruct T as [_ T].
  rewrite Forall_forall in *. intros k K. exact (IH k K _ (T k K)).
Qed.
Lemma shown_thin : forall x p, commented x -> thin (tokens x) (shown env o p x).
Proof.
  intro x. induction x as [c b|c|c|n a|n a sc|n a c e|n a ks e IH] using item_ind2; intros p C; cbn [shown tokens]; try (apply thin_other; [reflexivity|reflexivity|constructor]).
  - rewrite shown_view_text. unfold view_text. destruct p, b; first [apply thin_text|apply thin_drop]; constructor.
  - cbn in C. rewrite C. repeat constructor.
  - apply thin_other; [reflexivity|reflexivity|]. apply thin_app; [|repeat constructor]. apply commented_elem in C. generalize (p || pre_name n)%bool. intro q.
    induction IH as [|k ks K IH IH2]; [constructor|]. apply Forall_cons_iff in C. destruct C as [C1 C2]. cbn [flat_map]. apply thin_app; [apply K, C1|apply IH2, C2].
Qed.
Lemma thin_list : forall l p, Forall commented l -> thin (flat_map tokens l) (flat_map (shown env o p) l).
Proof. intros l p C. induction C as [|x l X C IH]; [constructor|]. cbn [flat_map]. apply thin_app; [apply shown_thin, X|exact IH]. Qed.

(** The content of the output if no comment is removed: nothing is joined. *)
Fixpoint look (p : bool) (x : item) : list item :=
  match x with
  | XText c b => view_text p c b
  | XComment c => [XComment c]
  | XCData c => [XCData c]
  | XDoctype n l => [XDoctype n (shown_attrs o l)]
  | XLeaf n l sc => [XLeaf (shown_name o n) (shown_attrs o l) sc]
  | XRaw n l c e => [XRaw (shown_name o n) (shown_attrs o l) c (shown_end o e)]
  | XElem n l ks e => [XElem (shown_name o n) (shown_attrs o l) (flat_map (look (p || pre_name n)) ks) (shown_end o e)]
  end.
Lemma look_tokens : forall x p, commented x -> shown env o p x = flat_map tokens (look p x).
Proof.
  intro x. induction x as [c b|c|c|n a|n a sc|n a c e|n a ks e IH] using item_ind2; intros p C; cbn [shown look]; try reflexivity.
  - apply shown_view_text.
  - cbn in C. rewrite C. reflexivity.
  - unfold shown_raw. rewrite En. reflexivity.
  - cbn [flat_map tokens]. rewrite app_nil_r. f_equal. f_equal. apply commented_elem in C. generalize (p || pre_name n)%bool. intro q.
    induction IH as [|k ks K IH IH2]; [reflexivity|]. apply Forall_cons_iff in C. destruct C as [C1 C2]. cbn [flat_map]. rewrite flat_map_app, (K _ C1), (IH2 C2). reflexivity.
Qed.
Lemma look_content : forall f f', Forall commented f -> apart (flat_map tokens f) -> marked f' -> flat_map tokens f' = merge (flat_map (shown env o false) f) ->
  f' = mark_all (flat_map (look false) f).
Proof.
  intros f f' C A M E. apply tokens_unique; [exact M|apply mark_all_marked|]. rewrite E, mark_all_tokens, (apart_merge _ (thin_apart _ _ (thin_list f false C) A)).
  clear - C Mi De En. induction C as [|x l X C IH]; [reflexivity|]. cbn [flat_map]. rewrite flat_map_app, (look_tokens _ _ X), IH. reflexivity.
Qed.

(** ** Content without lone blank texts is stable after one rendering *)
Definition calm (p : bool) (x : item) : Prop := forall only fo, stable p (mark only fo x).
Lemma full_elem : forall p n l ks e, no_lone_blank p (XElem n l ks e) ->
  ((p || pre_name n)%bool = true \/ match ks with [XText c _] => blank_text c = false | _ => True end) /\ Forall (no_lone_blank (p || pre_name n)) ks.
Proof.
  intros p n l ks e [A B]. split; [exact A|]. clear A. induction ks as [|k ks IH]; constructor; [apply B|apply IH, B].
Qed.
Lemma calm_list : forall p f l, Forall (calm p) l -> Forall (stable p) (mark_list f l).
Proof. intros p f l C. induction C as [|x l X C IH]; constructor; [apply X|exact IH]. Qed.
Lemma calm_elem : forall p n l ks e, shown_name o n = n -> shown_attrs o l = l -> shown_end o e = e -> Forall (calm (p || pre_name n)) ks -> calm p (XElem n l ks e).
Proof.
  intros p n l ks e A B C F only fo. rewrite mark_elem. apply stable_elem. do 3 (split; [assumption|]).
  destruct ks as [|k [|k2 ks]]; [constructor| |apply calm_list, F]. apply Forall_inv in F. constructor; [apply F|constructor].
Qed.
Lemma calm_text : forall c b, blank_text c = false -> calm false (XText (collapse c) b).
Proof. intros c b B only fo. right. rewrite collapse_blank, B, collapse_idem. auto. Qed.
Lemma look_calm : forall x p only fo, mark only fo x = x -> commented x -> no_lone_blank p x -> (p = true \/ only = false \/ blank_item x = false) -> Forall (calm p) (look p x).
Proof.
  intro x. induction x as [c b|c|c|n a|n a sc|n a c e|n a ks e IH] using item_ind2; intros p only fo H C F O; cbn [look].
  1: { unfold view_text. destruct p; [constructor; [left; reflexivity|constructor]|]. destruct b eqn:Eb; [constructor|]. constructor; [|constructor]. apply calm_text.
    cbn in H. assert (X : (blank_text c && negb only)%bool = false) by congruence. destruct O as [O|[->|O]]; [discriminate O| |exact O]. destruct (blank_text c); [discriminate X|reflexivity]. }
  1-5: constructor; [|constructor]; intros o' f'; cbn; rewrite ?shown_name_idem, ?shown_attrs_idem, ?shown_end_idem; auto.
  constructor; [|constructor]. apply calm_elem; [apply shown_name_idem|apply shown_attrs_idem|apply shown_end_idem|]. rewrite plain_pre_shown.
  apply commented_elem in C. apply full_elem in F. destruct F as [F0 F]. set (q := (p || pre_name n)%bool) in *. clearbody q. rewrite mark_elem in H. injection H as H.
  assert (G : forall k, In k ks -> exists only' fo', mark only' fo' k = k /\ (q = true \/ only' = false \/ blank_item k = false)).
  { destruct ks as [|k [|k2 ks]]; [intros k []| |].
    - injection H as H. intros k' [<-|[]]. eexists _, _. split; [exact H|]. destruct F0 as [F0|F0]; [left; exact F0|]. right. right. destruct k; try reflexivity. exact F0.
    - clear - H. revert H. generalize (k :: k2 :: ks). clear. intros l H k K. revert H. induction l as [|x l IHl]; [destruct K|]. cbn [mark_list]. intro H.
      assert (Hx := f_equal (@List.tl item) H). cbn in Hx. destruct K as [->|K]; [|auto]. assert (Hy := f_equal (fun z => match z with y :: _ => y | [] => k end) H). cbn in Hy. eexists _, _; split; [exact Hy|auto]. }
  clear H F0. apply flat_Forall. intros k K. rewrite Forall_forall in IH, C, F. destruct (G k K) as (o' & f' & E & B). exact (IH k K q o' f' E (C k K) (F k K) B).
Qed.

(** ** Tidy content is stable after one rendering *)
Definition settles (p only fo : bool) (x : item) : Prop := exists y, look p x = [y] /\ is_text y = is_text x /\ stable p (mark only fo y).
Lemma settles_list : forall p l f, (forall k, In k l -> forall fo, mark false fo k = k -> settles p false fo k) -> mark_list f l = l ->
  Forall (stable p) (mark_list f (flat_map (look p) l)) /\
  match flat_map (look p) l, l with y :: _, x :: _ => is_text y = is_text x | [], [] => True | _, _ => False end.
Proof.
  intros p l f. induction l as [|x l IH]; intros S M; [split; [constructor|exact I]|]. cbn [mark_list] in M.
  assert (Mx := f_equal (fun z => match z with y :: _ => y | [] => x end) M). assert (Ml := f_equal (@List.tl item) M). cbn in Mx, Ml. clear M.
  destruct (IH (fun k K => S k (or_intror K)) Ml) as [A B]. clear IH.
  destruct (S x (or_introl eq_refl) _ Mx) as (y & E1 & E2 & E3). cbn [flat_map]. rewrite E1. cbn [app mark_list]. split; [|exact E2].
  constructor; [|exact A]. destruct l as [|x2 l]; [exact E3|]. destruct (flat_map (look p) (x2 :: l)) as [|y2 r]; [destruct B|]. rewrite B. exact E3.
Qed.
Lemma look_settles : forall x p only fo, mark only fo x = x -> tidy p x -> (p = true \/ blank_item x = false) -> settles p only fo x.
Proof.
  intro x. induction x as [c b|c|c|n a|n a sc|n a c e|n a ks e IH] using item_ind2; intros p only fo H T O; unfold settles; cbn [look].
  1: { unfold view_text. destruct p; [eexists; split; [reflexivity|]; split; [reflexivity|left; reflexivity]|]. destruct O as [O|O]; [discriminate O|]. cbn in O, H.
    rewrite O in H. cbn in H. injection H as <-. eexists. split; [reflexivity|]. split; [reflexivity|]. apply calm_text, O. }
  1-5: eexists; (split; [reflexivity|]); (split; [reflexivity|]); cbn; rewrite ?shown_name_idem, ?shown_attrs_idem, ?shown_end_idem; auto.
  eexists. split; [reflexivity|]. split; [reflexivity|]. rewrite mark_elem. apply stable_elem. do 3 (split; [auto using shown_name_idem, shown_attrs_idem, shown_end_idem|]).
  rewrite plain_pre_shown. apply tidy_elem in T. rewrite mark_elem in H. injection H as H. set (q := (p || pre_name n)%bool) in *. clearbody q. destruct T as [T1 T].
  destruct ks as [|k [|k2 ks]]; [constructor| |].
  - apply Forall_inv in IH. apply Forall_inv in T. injection H as H. cbn [flat_map]. rewrite app_nil_r.
    assert (D : (q = true \/ blank_item k = false) \/ (q = false /\ blank_item k = true)) by (destruct q, (blank_item k); auto).
    destruct D as [D|[-> D]].
    + destruct (IH _ _ _ H T D) as (y & E1 & _ & E3). rewrite E1. constructor; [exact E3|constructor].
    + destruct k as [c b| | | | | |]; try discriminate D. cbn in D, H |- *. rewrite D in H. cbn in H. unfold view_text. destruct b; [constructor|].
      constructor; [|constructor]. right. assert (X : negb (negb fo) = false) by congruence. rewrite X, collapse_idem, Bool.andb_false_r. auto.
  - assert (D : q = true \/ no_blank (k :: k2 :: ks)) by (destruct T1 as [T1|[T1|T1]]; auto; destruct k; destruct T1).
    assert (L : Forall (stable q) (mark_list true (flat_map (look q) (k :: k2 :: ks))) /\
       match flat_map (look q) (k :: k2 :: ks) with y :: _ :: _ => True | _ => False end).
    { revert H D IH T. clear T1. intros H D IH T. rewrite Forall_forall in IH, T.
      assert (Q : forall x, In x (k :: k2 :: ks) -> forall fo, mark false fo x = x -> settles q false fo x).
      { intros x X f' E. apply IH; auto. destruct D as [D|D]; [left; exact D|right]. unfold no_blank in D. rewrite Forall_forall in D. apply D, X. }
      split; [apply settles_list; assumption|].
      cbn [mark_list] in H. assert (H1 := f_equal (fun z => match z with y :: _ => y | [] => k end) H). assert (H2 := f_equal (fun z => match z with _ :: y :: _ => y | _ => k2 end) H). cbn in H1, H2.
      destruct (Q k (or_introl eq_refl) _ H1) as (y1 & E1 & _). destruct (Q k2 (or_intror (or_introl eq_refl)) _ H2) as (y2 & E2 & _).
      cbn [flat_map]. rewrite E1, E2. exact I. }
    destruct L as [L1 L2]. destruct (flat_map (look q) (k :: k2 :: ks)) as [|y1 [|y2 r]]; [destruct L2|destruct L2|exact L1].
Qed.
End Minify.

(** ** Documents *)
Section Docs.
Variable (opts : parse_options) (env : entity_env) (o : render_options).
Hypothesis (NR : no_repair opts) (Eq : allow_attr_key_starts_with_equal_sign opts = false) (De : decode_entity o = false) (En : encode_content o = false).

Lemma stable_doc : forall s d f, parse opts s = Parsed d -> source opts (flat_map tokens f) s -> doc_content d f -> inner_html o = false ->
  minify_spaces o = true -> Forall (plain_pre false) f -> Forall (stable o false) f -> render env o d = ROk (print (flat_map tokens f)).
Proof.
  intros s d f P S D Ih Mi Pp St. rewrite (shown_source _ _ _ _ env o _ P (proj1 NR) S D Ih (fun _ => Pp)), (stable_all env o Mi De En _ _ St). reflexivity.
Qed.
Lemma mark_in : forall b l x, mark_list b l = l -> In x l -> exists fo, mark false fo x = x.
Proof.
  intros b l x H K. induction l as [|y l IH]; [destruct K|]. cbn [mark_list] in H.
  assert (Hx := f_equal (@List.tl item) H). cbn in Hx. destruct K as [->|K]; [|auto]. assert (Hy := f_equal (fun z => match z with y :: _ => y | [] => x end) H). cbn in Hy. eauto.
Qed.
Lemma readable_view : minify_spaces o = true -> forall f, readable opts env o f -> readable opts env o (mark_all (fuse (flat_map (view o false) f))).
Proof.
  intros Mi f (Ih & Pp & Dt & R). split; [exact Ih|]. split; [|split; [congruence|]].
  - intros _. apply plain_pre_marks. apply fuse_Forall; [intros; exact I|]. apply flat_Forall. intros x X. apply view_plain_pre.
    specialize (Pp Mi). rewrite Forall_forall in Pp. apply Pp, X.
  - apply ok_flat, ok_marks. apply ok_flat in R. apply fuse_Forall; [intros; repeat constructor|]. apply flat_Forall. intros x X. apply view_ok; [exact En|].
    rewrite Forall_forall in R. apply R, X.
Qed.

(** One step. *)
Lemma step_doc : forall s d f, parse opts s = Parsed d -> source opts (flat_map tokens f) s -> nests opts (flat_map tokens f) -> doc_content d f -> readable opts env o f ->
  exists out d' f', render env o d = ROk out /\ parse opts out = Parsed d' /\ source opts (flat_map tokens f') out /\ nests opts (flat_map tokens f') /\
    doc_content d' f' /\ marked f' /\ flat_map tokens f' = merge (flat_map (shown env o false) f) /\ out = print (flat_map (shown env o false) f).
Proof.
  intros s d f P S N D (Ih & Pp & _ & R). pose proof (source_can_write _ _ _ S) as W.
  assert (RB : Forall (reads_back opts) (flat_map (shown env o false) f)).
  { apply flat_Forall. intros x I. apply shown_reads; auto.
    - exact (Forall_flat _ _ _ _ _ W x I).
    - exact (Forall_flat _ _ _ _ _ R x I).
    - apply (shown_texts opts env o Eq De). exact (Forall_flat _ _ _ _ _ W x I). }
  pose proof (shown_nests_top opts env o f N R) as N'.
  destruct (source_accepted _ _ _ (merge_source _ _ RB) N') as (d' & f' & P' & T' & M' & D').
  exists (print (flat_map (shown env o false) f)), d', f'.
  split; [exact (shown_source _ _ _ _ _ _ _ P (proj1 NR) S D Ih Pp)|]. split; [exact P'|]. split; [rewrite T'; apply merge_source; exact RB|].
  split; [rewrite T'; exact N'|]. auto.
Qed.

Lemma settle_docs : forall s d f, parse opts s = Parsed d -> open_doctypes d -> doc_content d f -> readable opts env o f ->
  exists out d' out' d'', render env o d = ROk out /\ parse opts out = Parsed d' /\
    render env o d' = ROk out' /\ parse opts out' = Parsed d'' /\ render env o d'' = ROk out'.
Proof.
  intros s d f P SD D R. destruct (minify_spaces o) eqn:Mi; cycle 1.
  { destruct (shown_stable _ _ _ _ env o P NR SD Eq D R Mi De En) as (out & d' & A & B & C). exists out, d', out, d'. auto. }
  destruct (parsed_source _ _ _ P NR SD) as (f0 & S & N & Mf & D0). assert (f0 = f) by exact (content_unique _ _ _ D0 D). subst f0. clear D0.
  destruct (step_doc _ _ _ P S N D R) as (out & d' & f' & A & P' & S' & N' & D' & M' & T' & _).
  pose proof (view_content env o Mi De En _ _ M' T') as V.
  pose proof (readable_view Mi f R) as R'. rewrite <- V in R'.
  destruct (step_doc _ _ _ P' S' N' D' R') as (out' & d'' & f'' & A' & P'' & S'' & N'' & D'' & M'' & T'' & E').
  exists out, d', out', d''. do 4 (split; [assumption|]).
  assert (Td : Forall (tidy o false) f' /\ no_blank f').
  { unfold marked in Mf. rewrite mark_all_list in Mf. rewrite V.
    assert (Z : Forall (tidy o false) (fuse (flat_map (view o false) f)) /\ no_blank (fuse (flat_map (view o false) f))).
    { split; [|apply fuse_no_blank, view_no_blank; rewrite <- Mf; apply mark_list_fair].
      apply fuse_Forall; [intros; exact I|]. apply flat_Forall. intros x X. destruct (mark_in _ _ _ Mf X) as [fo E]. exact (view_tidy o x false false fo E). }
    rewrite mark_all_list. apply tidy_marks, Z. }
  pose proof (view_content env o Mi De En _ _ M'' T'') as V''.
  pose proof (readable_view Mi f' R') as R''. rewrite <- V'' in R''. destruct R'' as (Ih & Pp & _).
  assert (C : Forall (commented o) f') by (destruct Td as [Td _]; eapply Forall_impl; [|exact Td]; intros x X; exact (tidy_commented o x _ X)).
  pose proof (look_content env o Mi De En _ _ C (source_apart _ _ _ S') M'' T'') as L.
  assert (St : Forall (stable o false) f'').
  { rewrite L, mark_all_list. unfold marked in M'. rewrite mark_all_list in M'. apply settles_list; [|exact M'].
    intros k K fo E. destruct Td as [T1 T2]. unfold no_blank in T2. rewrite Forall_forall in T1, T2. apply look_settles; [exact E|exact (T1 k K)|right; exact (T2 k K)]. }
  rewrite (stable_doc _ _ _ P'' S'' D'' Ih Mi (Pp Mi) St). rewrite E', T'', merge_print. reflexivity.
Qed.

Lemma settle_once : forall s d f, parse opts s = Parsed d -> open_doctypes d -> doc_content d f -> readable opts env o f ->
  remove_comment o = false -> Forall (no_lone_blank false) f ->
  exists out d', render env o d = ROk out /\ parse opts out = Parsed d' /\ render env o d' = ROk out.
Proof.
  intros s d f P SD D R Rc Lo. destruct (minify_spaces o) eqn:Mi; cycle 1.
  { exact (shown_stable _ _ _ _ env o P NR SD Eq D R Mi De En). }
  destruct (parsed_source _ _ _ P NR SD) as (f0 & S & N & Mf & D0). assert (f0 = f) by exact (content_unique _ _ _ D0 D). subst f0. clear D0.
  destruct (step_doc _ _ _ P S N D R) as (out & d' & f' & A & P' & S' & N' & D' & M' & T' & E').
  exists out, d'. do 2 (split; [assumption|]).
  pose proof (view_content env o Mi De En _ _ M' T') as V.
  pose proof (readable_view Mi f R) as R'. rewrite <- V in R'. destruct R' as (Ih & Pp & _).
  assert (C : Forall (commented o) f) by (apply Forall_forall; intros x _; apply kept_commented; exact Rc).
  pose proof (look_content env o Mi De En _ _ C (source_apart _ _ _ S) M' T') as L.
  assert (St : Forall (stable o false) f').
  { rewrite L, mark_all_list. unfold marked in Mf. rewrite mark_all_list in Mf. apply calm_list. apply flat_Forall. intros k K. destruct (mark_in _ _ _ Mf K) as [fo E].
    rewrite Forall_forall in C, Lo. exact (look_calm o k false false fo E (C k K) (Lo k K) (or_intror (or_introl eq_refl))). }
  rewrite (stable_doc _ _ _ P' S' D' Ih Mi (Pp Mi) St), E', T', merge_print. reflexivity.
Qed.
End Docs.
