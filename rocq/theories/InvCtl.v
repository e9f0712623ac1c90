(** Control invariant of the parser: what every reachable state satisfies, whatever the options.
    Gives panic freedom (except for the known shapes), error kinds and error positions. *)
From Coq Require Import String.
From Verif Require Import Api SpecText SpecParse NameProofs MiscProofs HeapLemmas.
Local Open Scope string_scope.
Local Open Scope list_scope.

(** ** Changes of the heap that keep names, positions and node kinds *)

Definition name_of (h : list node) (i : nid) : option (list char) := option_map m_name (mt h i).
Global Arguments name_of : simpl never.
Definition textual (t : node_type) : Prop := t = NText \/ t = NSpacesBetweenTag.
Definition same_kind (a b : node_type) : Prop := a = b \/ (textual a /\ textual b).

Definition heap_le (p : nat) (h h' : list node) : Prop :=
  length h <= length h' /\
  (forall i, i < length h ->
     same_kind (ty h i) (ty h' i) /\ n_begin_at (hget h' i) = n_begin_at (hget h i) /\
     name_of h' i = name_of h i) /\
  (forall i, length h <= i -> n_begin_at (hget h' i) <= p /\ name_of h' i = None).

Lemma same_kind_refl : forall a, same_kind a a.
Proof. left. reflexivity. Qed.
Lemma same_kind_trans : forall a b c, same_kind a b -> same_kind b c -> same_kind a c.
Proof. intros a b c [->|[A B]] [->|[C D]]; unfold same_kind; auto. Qed.
Lemma same_kind_eq : forall a b, same_kind a b -> ~ textual a -> b = a.
Proof. intros a b [->|[A B]] N; [reflexivity|contradiction]. Qed.

Lemma heap_le_refl : forall p h, heap_le p h h.
Proof.
  intros p h. split; [lia|]. split.
  - intros i H. repeat split. apply same_kind_refl.
  - intros i H. unfold name_of, mt. rewrite hget_default by assumption. cbn. split; [lia|reflexivity].
Qed.
Lemma heap_le_trans : forall p h1 h2 h3, heap_le p h1 h2 -> heap_le p h2 h3 -> heap_le p h1 h3.
Proof.
  intros p h1 h2 h3 [L1 [A1 B1]] [L2 [A2 B2]]. split; [lia|]. split.
  - intros i H. destruct (A1 i H) as [K1 [P1 N1]]. destruct (A2 i) as [K2 [P2 N2]]; [lia|].
    split; [eapply same_kind_trans; eauto|]. split; congruence.
  - intros i H. destruct (Nat.lt_ge_cases i (length h2)) as [Hi|Hi].
    + destruct (A2 i Hi) as [_ [P2 N2]]. destruct (B1 i H) as [P1 N1]. rewrite P2, N2. auto.
    + apply B2. assumption.
Qed.

(** Node updates that keep names, positions and kinds. *)
Definition tame (f : node -> node) : Prop := forall n,
  same_kind (n_type n) (n_type (f n)) /\ n_begin_at (f n) = n_begin_at n /\
  option_map m_name (n_meta (f n)) = option_map m_name (n_meta n).

Lemma heap_le_hupd : forall p h i f, tame f -> heap_le p h (hupd h i f).
Proof.
  intros p h i f T. split; [rewrite hupd_length; lia|]. split.
  - intros j H. unfold ty, name_of, mt. destruct (Nat.eq_dec i j) as [->|N].
    + rewrite hget_hupd_same by assumption. apply T.
    + rewrite hget_hupd_other by assumption. repeat split. apply same_kind_refl.
  - intros j H. unfold name_of, mt. rewrite hget_hupd_out by assumption. cbn. split; [lia|reflexivity].
Qed.
Lemma heap_le_alloc : forall p h n, n_begin_at n <= p -> n_meta n = None -> heap_le p h (h ++ [n]).
Proof.
  intros p h n B M. split; [rewrite app_length; lia|]. split.
  - intros j H. unfold ty, name_of, mt. rewrite hget_app_old by assumption.
    repeat split. apply same_kind_refl.
  - intros j H. unfold name_of, mt. rewrite hget_app_case.
    destruct (Nat.ltb_spec j (length h)); [lia|]. destruct (Nat.eqb_spec j (length h)).
    + rewrite M. auto.
    + cbn. split; [lia|reflexivity].
Qed.
(** Also allowed on the node being written: any update of a node that is not a tag. *)
Lemma tame_content : forall v, tame (nset_content v).
Proof. intros v n. repeat split; apply same_kind_refl. Qed.
Lemma tame_childs : forall v, tame (nset_childs v).
Proof. intros v n. repeat split; apply same_kind_refl. Qed.
Lemma tame_end_at : forall g, tame (fun n => nset_end_at (g n) n).
Proof. intros v n. repeat split; apply same_kind_refl. Qed.
Lemma tame_end_tag : forall v, tame (nset_end_tag v).
Proof. intros v n. repeat split; apply same_kind_refl. Qed.
Lemma tame_prev : forall v, tame (nset_prev v).
Proof. intros v n. repeat split; apply same_kind_refl. Qed.
Lemma tame_content_parent : forall c p, tame (fun n => nset_content c (nset_parent p n)).
Proof. intros c p n. repeat split; apply same_kind_refl. Qed.
Lemma tame_content_end : forall c p, tame (fun n => nset_content c (nset_end_tag p n)).
Proof. intros c p n. repeat split; apply same_kind_refl. Qed.
Lemma tame_nupd : forall g, (forall m, m_name (g m) = m_name m) -> tame (nupd_meta g).
Proof.
  intros g H n. split; [|split].
  - replace (n_type (nupd_meta g n)) with (n_type n); [apply same_kind_refl|].
    symmetry. apply nupd_meta_other.
  - apply nupd_meta_other.
  - rewrite nupd_meta_meta. destruct (n_meta n); cbn; [rewrite H|]; reflexivity.
Qed.

(** ** The invariant *)

Fixpoint chain_ok (h : list node) (l : list nid) (bound : nat) : Prop :=
  match l with
  | [] => True
  | i :: l' => i < bound /\ match l' with [] => i = 0 | _ => ty h i = NTag end /\ chain_ok h l' i
  end.

(** The open elements: the element whose start tag is being read does not count. *)
Definition open_chain (st : doc) : list nid :=
  match d_code_in st with
  | CTag | CHTMLScript | CHTMLStyle | CEscapeableRawText => tl (d_chain_nodes st)
  | _ => d_chain_nodes st
  end.

Definition special_inv (pre : list char) (st : doc) : Prop :=
  match d_in_special st with
  | None => True
  | Some (_, n) =>
      special_name n /\ occurs (str "<" ++ n) pre /\
      ((exists k, In k (open_chain st) /\ name_of (d_heap st) k = Some n) \/
       (exists r, misspelt_special_end pre r) \/ self_closed_doctype pre)
  end.

Record base (opts : parse_options) (pre : list char) (st : doc) : Prop := mkBase {
  k_opts : d_parse_options st = opts;
  k_mem : d_mem_position st <= length pre;
  k_root : d_root st = 0;
  k_cur : d_current_node st < length (d_heap st);
  k_root_ty : ty (d_heap st) 0 = NAbstractRoot;
  k_root_name : name_of (d_heap st) 0 = None;
  k_begin : forall i, n_begin_at (hget (d_heap st) i) <= length pre;
  k_names : forall i n, name_of (d_heap st) i = Some n -> ty (d_heap st) i = NTag ->
                        occurs (str "<" ++ n) pre;
  k_chain : chain_ok (d_heap st) (d_chain_nodes st) (length (d_heap st));
  k_chain_meta : forall i, In i (d_chain_nodes st) -> i <> 0 ->
      name_of (d_heap st) i <> None \/ (d_handle st = HTagName /\ i = d_current_node st);
  k_empty : d_chain_nodes st = [] -> self_closed_doctype pre;
  k_special : special_inv pre st;
  k_check : forall i, d_check_textnode st = Some i -> textual (ty (d_heap st) i)
}.
Ltac dbase H := destruct H as [Kopts Kmem Kroot Kcur Krootty Krootname Kbegin Knames Kchain Kcmeta
  Kempty Kspecial Kcheck].

Definition special_before (a : list char) (st : doc) : Prop :=
  match d_in_special st with Some (_, n) => occurs (str "<" ++ n) a | None => True end.

(** A doctype is being read; [tail]: what was read since its name. *)
Definition doctype_text (pre tail : list char) : Prop :=
  exists a d b, pre = a ++ str "<!" ++ d ++ b ++ tail /\ same_name d (str "doctype") = true.

Definition on_tag (st : doc) : Prop :=
  d_code_in st = CTag /\ ty (d_heap st) (d_current_node st) = NTag /\
  exists rest, d_chain_nodes st = d_current_node st :: rest.
Definition on_doctype (pre : list char) (st : doc) : Prop :=
  d_code_in st = CHTMLDOCTYPE /\ ty (d_heap st) (d_current_node st) = NHTMLDOCTYPE /\
  doctype_text pre [].

Definition cur_meta (st : doc) (P : tag_meta -> Prop) : Prop :=
  exists m, n_meta (cur st) = Some m /\ P m.
(** Inside a start tag or doctype, after its name. *)
Definition area (pre : list char) (st : doc) (P : tag_meta -> Prop) : Prop :=
  cur_meta st (fun m => m_is_void m = is_void_tag (lower (m_name m)) /\ P m /\
    (on_tag st \/ (on_doctype pre st /\ same_name (m_name m) (str "doctype") = true))).
Definition wait_meta (m : tag_meta) : Prop :=
  m_code_in m = TWait \/ ((m_code_in m = TKeyEnd \/ m_code_in m = TWaitValue) /\ m_attrs m <> []).
Definition slashed (pre : list char) (st : doc) : Prop :=
  d_code_in st = CHTMLDOCTYPE -> exists w, doctype_text pre (str "/" ++ w) /\ Forall slash_filler w.

Definition handle_inv (pre : list char) (st : doc) : Prop :=
  match d_handle st with
  | HNoop => False
  | HWait => (d_code_in st = CUnkown \/ d_code_in st = CAbstractRoot) /\
             d_prev_chars st = [] /\ d_detect st = None /\
             ty (d_heap st) (d_current_node st) <> NSpacesBetweenTag
  | HText => d_code_in st = CTextNode /\ ty (d_heap st) (d_current_node st) = NText /\
             d_detect st = None
  | HDoctypeName => d_code_in st = CHTMLDOCTYPE /\
             ty (d_heap st) (d_current_node st) = NHTMLDOCTYPE /\ d_detect st = None /\
             n_meta (cur st) = None /\ same_name (d_prev_chars st) (str "doctype") = true /\
             exists a, pre = a ++ str "<!" ++ d_prev_chars st
  | HTagName => on_tag st /\ d_detect st = None /\ open_name (d_prev_chars st) /\
             n_meta (cur st) = None /\
             exists a, pre = a ++ str "<" ++ d_prev_chars st
  | HSelfClosing => area pre st wait_meta /\ d_prev_chars st = [] /\ d_detect st = None /\
             slashed pre st
  | HTagWait => area pre st wait_meta /\ d_prev_chars st = [] /\ d_detect st = None
  | HAttrKey | HAttrValue =>
             area pre st (fun m => m_attrs m <> []) /\ d_detect st = None
  | HTagEnd => d_code_in st = CTagEnd /\ ty (d_heap st) (d_current_node st) = NTagEnd /\
             d_detect st = None /\
             (forall p, n_prev (cur st) = Some p ->
                p < length (d_heap st) /\ ty (d_heap st) p <> NSpacesBetweenTag) /\
             exists a, pre = a ++ str "</" ++ d_prev_chars st /\ special_before a st
  | HContent => (d_code_in st = CHTMLScript \/ d_code_in st = CHTMLStyle \/
                 d_code_in st = CEscapeableRawText) /\
             ty (d_heap st) (d_current_node st) = NTag /\
             (exists rest, d_chain_nodes st = d_current_node st :: rest) /\
             cur_meta st (fun m => d_detect st = Some (str "</" ++ m_name m))
  | HCommentOrCdata =>
             ((d_code_in st = CComment /\ ty (d_heap st) (d_current_node st) = NComment /\
               d_mark_char st = DASH_CHAR) \/
              (d_code_in st = CXMLCDATA /\ ty (d_heap st) (d_current_node st) = NXMLCDATA /\
               d_mark_char st = RIGHT_BRACKET_CHAR)) /\ d_detect st = None
  | HUnkownTag => d_code_in st = CUnkownTag /\ d_prev_chars st = [] /\ d_detect st = None /\
             ty (d_heap st) (d_current_node st) <> NSpacesBetweenTag /\
             exists a, pre = a ++ str "<" /\ special_before a st
  | HExclamation => d_code_in st = CExclamationBegin /\
             (exists a, pre = a ++ str "<!" ++ d_prev_chars st) /\
             match d_detect st with
             | None => d_prev_chars st = []
             | Some d => exists x, d = detect_char_map x /\
                 0 < length (d_prev_chars st) < length d /\
                 map to_ascii_uppercase (d_prev_chars st) = firstn (length (d_prev_chars st)) d
             end
  end.

Definition ctl (opts : parse_options) (pre : list char) (st : doc) : Prop :=
  base opts pre st /\ d_position st = length pre /\ handle_inv pre st.

Definition panic_ok (pre : list char) (c : char) (p : panic_kind) : Prop :=
  p = PUpgrade \/ self_closed_doctype pre \/ cdata_after_misspelt_special (pre ++ [c]).

Definition step_ok (opts : parse_options) (pre : list char) (c : char) (r : res doc) : Prop :=
  match r with
  | ROk st' => d_position st' = length pre /\ base opts (pre ++ [c]) st' /\ handle_inv (pre ++ [c]) st'
  | RErr k i => i <= length pre /\ err_kind_ok opts k
  | RPanic p => panic_ok pre c p
  end.

(** ** Texts *)

Lemma occurs_app : forall x s c, occurs x s -> occurs x (s ++ c).
Proof. intros x s c [a [b ->]]. exists a, (b ++ c). rewrite <- !app_assoc. reflexivity. Qed.
Lemma self_closed_app : forall s c, self_closed_doctype s -> self_closed_doctype (s ++ c).
Proof.
  intros s c [a [d [b [w [r [-> H]]]]]]. exists a, d, b, w, (r ++ c). split; [|exact H].
  repeat (rewrite <- app_assoc; cbn [app]). reflexivity.
Qed.
Lemma misspelt_app : forall s r c, misspelt_special_end s r -> misspelt_special_end (s ++ c) (r ++ c).
Proof.
  intros s r c [a [n [b [n' [w [-> H]]]]]]. exists a, n, b, n', w. split; [|exact H].
  repeat (rewrite <- app_assoc; cbn [app]). reflexivity.
Qed.
Lemma doctype_text_app : forall pre t c, doctype_text pre t -> doctype_text (pre ++ c) (t ++ c).
Proof.
  intros pre t c [a [d [b [-> H]]]]. exists a, d, b. split; [|exact H].
  repeat (rewrite <- app_assoc; cbn [app]). reflexivity.
Qed.
Lemma doctype_text_nil : forall pre t, doctype_text pre t -> doctype_text pre [].
Proof.
  intros pre t [a [d [b [-> H]]]]. exists a, d, (b ++ t). split; [|exact H].
  rewrite app_nil_r. reflexivity.
Qed.

(** ** Preservation of [base] *)

Lemma chain_ok_weaken : forall h l b b', chain_ok h l b -> b <= b' -> chain_ok h l b'.
Proof. intros h [|i l] b b' H L; cbn in *; [trivial|]. destruct H as [A B]. split; [lia|exact B]. Qed.
Lemma chain_ok_in : forall h l b i, chain_ok h l b -> In i l -> i < b.
Proof.
  intros h l. induction l as [|j l IH]; intros b i H Hi; [contradiction|].
  destruct H as [A [B C]]. destruct Hi as [->|Hi]; auto.
  specialize (IH _ _ C Hi). lia.
Qed.
Lemma chain_ok_le : forall p h h' l b, heap_le p h h' -> chain_ok h l b -> b <= length h -> chain_ok h' l b.
Proof.
  intros p h h' l. induction l as [|i l IH]; intros b L H Hb; cbn in *; [trivial|].
  destruct H as [A [B C]]. split; [assumption|]. split; [|apply IH; [exact L|exact C|lia]].
  destruct l; [exact B|]. destruct L as [_ [L _]].
  destruct (L i) as [K _]; [lia|]. rewrite <- B. apply same_kind_eq; [exact K|].
  rewrite B. intros [X|X]; discriminate.
Qed.

Lemma base_app : forall opts pre c st, base opts pre st -> base opts (pre ++ [c]) st.
Proof.
  intros opts pre c st B. dbase B. constructor; auto; try (rewrite app_length; lia).
  - intro i. specialize (Kbegin i). rewrite app_length. lia.
  - intros. apply occurs_app. eauto.
  - intros. apply self_closed_app. auto.
  - unfold special_inv in *. destruct (d_in_special st) as [[sp n]|]; [|trivial].
    destruct Kspecial as [A [B C]]. split; [exact A|]. split; [apply occurs_app; exact B|].
    destruct C as [C|[[r C]|C]]; [left; exact C|right; left|right; right].
    + exists (r ++ [c]). apply misspelt_app. exact C.
    + apply self_closed_app. exact C.
Qed.

(** Replacing the heap. *)
Lemma base_heap : forall opts pre st h', base opts pre st -> heap_le (length pre) (d_heap st) h' ->
  base opts pre (set_heap h' st).
Proof.
  intros opts pre st h' B L. dbase B. pose proof L as [LL [LA LB]]. constructor; cbn; auto.
  - lia.
  - destruct (LA 0) as [K _]; [lia|]. rewrite <- Krootty. apply same_kind_eq; [exact K|].
    rewrite Krootty. intros [X|X]; discriminate.
  - destruct (LA 0) as [_ [_ N]]; [lia|]. congruence.
  - intro i. destruct (Nat.lt_ge_cases i (length (d_heap st))) as [Hi|Hi].
    + destruct (LA i Hi) as [_ [P _]]. rewrite P. auto.
    + apply LB. exact Hi.
  - intros i n Hn Ht. destruct (Nat.lt_ge_cases i (length (d_heap st))) as [Hi|Hi].
    + destruct (LA i Hi) as [K [_ N]]. apply (Knames i); [congruence|].
      destruct K as [K|[_ [K|K]]]; congruence.
    + destruct (LB i Hi) as [_ N]. congruence.
  - eapply chain_ok_weaken; [eapply chain_ok_le; eauto|exact LL].
  - intros i Hi H0. destruct (LA i) as [_ [_ N]]; [eapply chain_ok_in; eauto|]. rewrite N. auto.
  - unfold special_inv in *. cbn. destruct (d_in_special st) as [[sp n]|]; [|trivial].
    destruct Kspecial as [A [B [[k [C1 C2]]|C]]]; split; auto; split; auto.
    left. exists k. split; [exact C1|].
    destruct (LA k) as [_ [_ N]]; [|congruence].
    unfold open_chain in *. cbn in *. eapply chain_ok_in; [exact Kchain|].
    destruct (d_code_in st); auto; destruct (d_chain_nodes st); try contradiction; right; exact C1.
  - intros i Hi. specialize (Kcheck i Hi).
    assert (Hl : i < length (d_heap st)).
    { destruct (Nat.lt_ge_cases i (length (d_heap st))) as [X|X]; [exact X|].
      unfold ty in Kcheck. rewrite hget_default in Kcheck by exact X. destruct Kcheck; discriminate. }
    destruct (LA i Hl) as [[K|[_ K]] _]; [rewrite <- K|]; assumption.
Qed.
