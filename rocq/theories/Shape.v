(** Document content with node identifiers on texts, marks, frames of open elements, tokens. *)
From Coq Require Import String.
From Verif Require Import Api SpecText SpecParse SpecMisc SpecDoc.
Local Open Scope string_scope.
Local Open Scope list_scope.

(** ** Induction over content *)
Lemma item_ind2 : forall P : item -> Prop,
  (forall c b, P (XText c b)) -> (forall c, P (XComment c)) -> (forall c, P (XCData c)) ->
  (forall n a, P (XDoctype n a)) -> (forall n a s, P (XLeaf n a s)) -> (forall n a c e, P (XRaw n a c e)) ->
  (forall n a ks e, Forall P ks -> P (XElem n a ks e)) -> forall x, P x.
Proof.
  intros P H1 H2 H3 H4 H5 H6 H7. fix IH 1. intros [c b|c|c|n a|n a s|n a c e|n a ks e];
    [apply H1|apply H2|apply H3|apply H4|apply H5|apply H6|].
  apply H7. induction ks; constructor; auto.
Qed.

Inductive yitem :=
  | YText (i : nid) (c : list char)
  | YComment (c : list char)
  | YCData (c : list char)
  | YDoctype (n : list char) (at_ : list attr)
  | YLeaf (n : list char) (at_ : list attr) (selfclosed : bool)
  | YRaw (n : list char) (at_ : list attr) (c : list char) (e : list char)
  | YElem (n : list char) (at_ : list attr) (ks : list yitem) (e : list char).
Lemma yitem_ind2 : forall P : yitem -> Prop,
  (forall i c, P (YText i c)) -> (forall c, P (YComment c)) -> (forall c, P (YCData c)) ->
  (forall n a, P (YDoctype n a)) -> (forall n a s, P (YLeaf n a s)) -> (forall n a c e, P (YRaw n a c e)) ->
  (forall n a ks e, Forall P ks -> P (YElem n a ks e)) -> forall x, P x.
Proof.
  intros P H1 H2 H3 H4 H5 H6 H7. fix IH 1. intros [i c|c|c|n a|n a s|n a c e|n a ks e];
    [apply H1|apply H2|apply H3|apply H4|apply H5|apply H6|].
  apply H7. induction ks; constructor; auto.
Qed.

(** With the blank flags given by [g]. *)
Fixpoint erase (g : nid -> bool) (y : yitem) : item :=
  match y with
  | YText i c => XText c (g i)
  | YComment c => XComment c
  | YCData c => XCData c
  | YDoctype n a => XDoctype n a
  | YLeaf n a s => XLeaf n a s
  | YRaw n a c e => XRaw n a c e
  | YElem n a ks e => XElem n a (map (erase g) ks) e
  end.
Fixpoint ids (y : yitem) : list nid :=
  match y with
  | YText i _ => [i]
  | YElem _ _ ks _ => flat_map ids ks
  | _ => []
  end.
(** Flags removed. *)
Fixpoint plain (x : item) : item :=
  match x with
  | XText c _ => XText c false
  | XElem n a ks e => XElem n a (map plain ks) e
  | x => x
  end.
Definition shape (y : yitem) : item := erase (fun _ => false) y.

Lemma erase_ext : forall g g' y, (forall i, In i (ids y) -> g i = g' i) -> erase g y = erase g' y.
Proof.
  intros g g' y. induction y as [i c|c|c|n a|n a s|n a c e|n a ks e IH] using yitem_ind2; intro H; try reflexivity.
  - cbn. rewrite H; [reflexivity|]. left. reflexivity.
  - cbn. f_equal. cbn in H. induction IH as [|k ks K IH IH2]; [reflexivity|]. cbn. f_equal.
    + apply K. intros i Hi. apply H. cbn. apply in_or_app. left. exact Hi.
    + apply IH2. intros i Hi. apply H. cbn. apply in_or_app. right. exact Hi.
Qed.
Lemma erase_list_ext : forall g g' l, (forall i, In i (flat_map ids l) -> g i = g' i) -> map (erase g) l = map (erase g') l.
Proof.
  intros g g' l H. apply map_ext_in. intros y Hy. apply erase_ext. intros i Hi. apply H. apply in_flat_map. eauto.
Qed.
Lemma plain_erase : forall g y, plain (erase g y) = shape y.
Proof.
  intros g y. induction y as [i c|c|c|n a|n a s|n a c e|n a ks e IH] using yitem_ind2; try reflexivity.
  unfold shape. cbn. f_equal. rewrite map_map. induction IH as [|k ks K IH IH2]; [reflexivity|]. cbn. f_equal; assumption.
Qed.
Lemma plain_plain : forall x, plain (plain x) = plain x.
Proof.
  intro x. induction x as [c b|c|c|n a|n a s|n a c e|n a ks e IH] using item_ind2; try reflexivity.
  cbn. f_equal. rewrite map_map. induction IH as [|k ks K IH IH2]; [reflexivity|]. cbn. f_equal; assumption.
Qed.
Lemma is_text_plain : forall x, is_text (plain x) = is_text x.
Proof. intros []; reflexivity. Qed.
Lemma tokens_plain : forall x, tokens (plain x) = tokens x.
Proof.
  intro x. induction x as [c b|c|c|n a|n a s|n a c e|n a ks e IH] using item_ind2; try reflexivity.
  cbn. f_equal. f_equal. induction IH as [|k ks K IH IH2]; [reflexivity|]. cbn. f_equal; assumption.
Qed.
Lemma tokens_list_plain : forall l, flat_map tokens (map plain l) = flat_map tokens l.
Proof. induction l as [|x l IH]; [reflexivity|]. cbn. rewrite tokens_plain, IH. reflexivity. Qed.

(** ** Marks *)
Fixpoint mark_list (f : bool) (l : list item) : list item :=
  match l with
  | [] => []
  | k :: r => mark false (match r with x :: _ => negb (is_text x) | [] => f end) k :: mark_list f r
  end.
Lemma mark_all_list : forall l, mark_all l = mark_list false l.
Proof. induction l as [|x l IH]; [reflexivity|]. cbn. rewrite IH. reflexivity. Qed.
Lemma mark_elem : forall o f n a ks e, mark o f (XElem n a ks e) =
  XElem n a (match ks with [k] => [mark (negb f) true k] | _ => mark_list true ks end) e.
Proof.
  intros. cbn [mark]. f_equal.
  match goal with |- match ks with [] => ?m ks | _ => _ end = _ => assert (G : forall l, m l = mark_list true l) end.
  { induction l as [|x l IH]; [reflexivity|]. cbn [mark_list]. rewrite <- IH. reflexivity. }
  destruct ks as [|k [|k2 ks]]; [reflexivity|reflexivity|]. apply (G (k :: k2 :: ks)).
Qed.
Lemma mark_list_snoc : forall b l x, mark_list b (l ++ [x]) = mark_list (negb (is_text x)) l ++ [mark false b x].
Proof.
  intros b l x. induction l as [|k l IH]; [reflexivity|]. cbn [app mark_list]. rewrite IH. f_equal.
  destruct l; reflexivity.
Qed.
Lemma mark_is_text : forall o f x, is_text (mark o f x) = is_text x.
Proof. intros o f []; reflexivity. Qed.
(** Marks do not depend on the flags present. *)
Lemma mark_plain : forall x o f, mark o f (plain x) = mark o f x.
Proof.
  intro x. induction x as [c b|c|c|n a|n a s|n a c e|n a ks e IH] using item_ind2; intros o f; try reflexivity.
  cbn [plain]. rewrite !mark_elem. f_equal.
  assert (G : mark_list true (map plain ks) = mark_list true ks).
  { induction IH as [|k ks K IH IH2]; [reflexivity|]. cbn [map mark_list]. rewrite IH2, K. f_equal.
    destruct ks as [|k2 ks]; [reflexivity|]. cbn [map]. rewrite is_text_plain. reflexivity. }
  destruct ks as [|k [|k2 ks]]; try exact G. cbn [map]. f_equal. inversion IH; subst. auto.
Qed.
Lemma mark_list_plain : forall f l, mark_list f (map plain l) = mark_list f l.
Proof.
  intros f l. induction l as [|k l IH]; [reflexivity|]. cbn [map mark_list]. rewrite mark_plain, IH. f_equal.
  destruct l; [reflexivity|]. cbn [map]. rewrite is_text_plain. reflexivity.
Qed.
(** Content with the same plain form and proper marks is the same. *)
Lemma marked_unique : forall f f', marked f -> marked f' -> map plain f = map plain f' -> f = f'.
Proof.
  intros f f' M M' E. unfold marked in *. rewrite mark_all_list in *. rewrite <- M, <- M'.
  rewrite <- (mark_list_plain false f), <- (mark_list_plain false f'), E. reflexivity.
Qed.
Lemma plain_mark : forall x o f, plain (mark o f x) = plain x.
Proof.
  intro x. induction x as [c b|c|c|n a|n a s|n a c e|n a ks e IH] using item_ind2; intros o f; try reflexivity.
  rewrite mark_elem. cbn [plain]. f_equal.
  assert (G : forall f, map plain (mark_list f ks) = map plain ks).
  { clear f. intro f. revert f. induction IH as [|k ks K IH IH2]; intro f; [reflexivity|]. cbn [map mark_list]. rewrite IH2, K. reflexivity. }
  destruct ks as [|k [|k2 ks]]; try apply G. cbn [map]. f_equal. inversion IH; subst. auto.
Qed.
Lemma plain_mark_list : forall f l, map plain (mark_list f l) = map plain l.
Proof. intros f l. induction l as [|k l IH]; [reflexivity|]. cbn [map mark_list]. rewrite plain_mark, IH. reflexivity. Qed.
Lemma mark_list_idem : forall f g l, mark_list f (mark_list g l) = mark_list f l.
Proof. intros. rewrite <- (mark_list_plain f (mark_list g l)), plain_mark_list, mark_list_plain. reflexivity. Qed.

(** ** Open elements *)
Definition pframe := (option (list char * list attr) * list item)%type.
(** One more token; the innermost open element comes first. *)
Definition add_item (x : item) (P : list pframe) : list pframe :=
  match P with (h, l) :: r => (h, l ++ [x]) :: r | [] => [] end.
Definition grow (k : token) (P : list pframe) : list pframe :=
  match k with
  | KText c => add_item (XText c false) P
  | KComment c => add_item (XComment c) P
  | KCData c => add_item (XCData c) P
  | KDoctype n a => add_item (XDoctype n a) P
  | KLeaf n a s => add_item (XLeaf n a s) P
  | KRaw n a c e => add_item (XRaw n a c e) P
  | KOpen n a => (Some (n, a), []) :: P
  | KClose e =>
      match P with
      | (Some (n, a), l) :: r => add_item (XElem n a l e) r
      | _ => P
      end
  end.
Definition grow_all (ks : list token) (P : list pframe) : list pframe := fold_left (fun P k => grow k P) ks P.
Definition p_start : list pframe := [(None, [])].
Lemma grow_all_app : forall a b P, grow_all (a ++ b) P = grow_all b (grow_all a P).
Proof. intros. apply fold_left_app. Qed.

(** The tokens of an item add it. *)
Lemma grow_item : forall x h l r, grow_all (tokens x) ((h, l) :: r) = (h, l ++ [plain x]) :: r.
Proof.
  intro x. induction x as [c b|c|c|n a|n a s|n a c e|n a ks e IH] using item_ind2; intros h l r; try reflexivity.
  cbn [tokens]. change (grow_all (KOpen n a :: flat_map tokens ks ++ [KClose e]) ((h, l) :: r))
    with (grow_all (flat_map tokens ks ++ [KClose e]) ((Some (n, a), []) :: (h, l) :: r)).
  rewrite grow_all_app.
  assert (G : forall l0, grow_all (flat_map tokens ks) ((Some (n, a), l0) :: (h, l) :: r) =
    (Some (n, a), l0 ++ map plain ks) :: (h, l) :: r).
  { induction IH as [|k ks K IH IH2]; intro l0; [cbn; rewrite app_nil_r; reflexivity|].
    cbn [flat_map]. rewrite grow_all_app, K, IH2, <- app_assoc. reflexivity. }
  rewrite G. reflexivity.
Qed.
Lemma grow_items : forall f h l r, grow_all (flat_map tokens f) ((h, l) :: r) = (h, l ++ map plain f) :: r.
Proof.
  intro f. induction f as [|x f IH]; intros h l r; [cbn; rewrite app_nil_r; reflexivity|].
  cbn [flat_map]. rewrite grow_all_app, grow_item, IH, <- app_assoc. reflexivity.
Qed.

(** The tokens read so far. *)
Definition head_toks (h : option (list char * list attr)) : list token :=
  match h with Some (n, a) => [KOpen n a] | None => [] end.
Fixpoint ftoks (P : list pframe) : list token :=
  match P with
  | [] => []
  | (h, l) :: r => ftoks r ++ head_toks h ++ flat_map tokens l
  end.
Lemma ftoks_add : forall x P, P <> [] -> ftoks (add_item x P) = ftoks P ++ tokens x.
Proof.
  intros x [|[h l] r] N; [congruence|]. cbn [add_item ftoks]. rewrite flat_map_app. cbn [flat_map].
  rewrite app_nil_r, !app_assoc. reflexivity.
Qed.
(** Every frame but the last has a name. *)
Fixpoint framed (P : list pframe) : Prop :=
  match P with
  | [] => False
  | [(h, _)] => h = None
  | (h, _) :: r => h <> None /\ framed r
  end.
Definition pnames (P : list pframe) : list (list char) :=
  flat_map (fun p => match fst p with Some (n, _) => [n] | None => [] end) P.

(** ** Sources *)
Definition last_text (ks : list token) : bool := match rev ks with k :: _ => is_ktext k | [] => false end.
Lemma last_text_snoc : forall ks k, last_text (ks ++ [k]) = is_ktext k.
Proof. intros. unfold last_text. rewrite rev_app_distr. reflexivity. Qed.
Lemma source_snoc : forall opts ks s, source opts ks s -> forall k t, written opts k t ->
  (last_text ks = true -> is_ktext k = false) -> source opts (ks ++ [k]) (s ++ t).
Proof.
  intros opts ks s S. induction S as [|k0 s0 ks r W S IH C]; intros k t Wk L.
  - cbn. rewrite <- (app_nil_r t). apply src_cons; [exact Wk|constructor|auto].
  - cbn [app]. rewrite <- app_assoc. apply src_cons; [exact W| |].
    + apply IH; [exact Wk|]. intro X. apply L. unfold last_text in *. cbn [rev]. destruct (rev ks); [discriminate|exact X].
    + intro X. specialize (C X). destruct ks as [|k1 ks]; cbn; [|exact C]. apply L. exact X.
Qed.

(** ** Nesting *)
Lemma nest_all_app : forall opts a b s, nest_all opts (a ++ b) s =
  match nest_all opts a s with Some s' => nest_all opts b s' | None => None end.
Proof.
  intros opts a. induction a as [|k a IH]; intros b s; [reflexivity|]. cbn. destruct (nest opts k s); [apply IH|reflexivity].
Qed.
