(** Documents accepted with repairs hold a content, too. *)
From Coq Require Import String Lia.
From Verif Require Import Api SpecText SpecRender SpecParse SpecMisc SpecTree SpecDoc SpecOpts SpecFix SpecNode MiscProofs NameProofs HeapLemmas Big Struct StructEnd TextInv
  CloseInv RenderProofs Static Final DocFacts DocEnd DocTree Birth Origin EditProofs Shown ShownDoc.
From Verif Require FixProofs.
Local Open Scope string_scope.
Local Open Scope list_scope.

Lemma orderly_state : forall opts s d, parse opts s = Parsed d -> orderly opts s d ->
  exists st, bsteps (doc_new opts) s st /\ ending opts st /\ pre opts s st /\ finished opts st d.
Proof.
  intros opts s d H (_ & Nc & _).
  assert (X : exists st, bsteps (doc_new opts) s st /\ (is_W st \/ is_T st) /\ eof st = ROk d).
  { destruct (auto_fix_unclosed_tag opts) eqn:A.
    - destruct (FixProofs.cut_case _ _ _ (parsed_res _ _ _ H)) as [X|X]; [exact X|contradiction (Nc eq_refl X)].
    - destruct (parsed_final _ _ _ H) as (st & _ & _ & _ & He & [[B W]|[X _]]); [eauto|congruence]. }
  destruct X as (st & B & W & He). exists st. split; [exact B|].
  assert (E : ending opts st) by (apply sok_ending; [apply (bsteps_sok _ _ _ B)|exact W]).
  split; [exact E|]. split; [apply pre_full, B|]. apply finish; assumption.
Qed.

Section Orderly.
Variables (opts : parse_options) (s : list char) (d : doc) (st : doc).
Hypothesis (Hp : parse opts s = Parsed d) (Hs : orderly opts s d) (B : bsteps (doc_new opts) s st) (E : ending opts st) (P : pre opts s st) (F : finished opts st d).
Let h := d_heap d.

Lemma written_node : forall i, nontext (n_type (hget h i)) -> token_at opts s (hget h i).
Proof.
  intros i T. set (x := hget h i) in *. destruct (nontext_not _ T) as (T1 & T2 & T3).
  pose proof (final_old _ _ _ i _ F eq_refl T2 T3) as L.
  pose proof (proj1 (final_ty _ _ _ i _ F E T1 T2 T3) eq_refl) as Ty. unfold ty in Ty.
  assert (Li : 0 < i). { destruct i; [|lia]. exfalso. apply T3. rewrite <- Ty. apply (hs_root _ _ (e_hs _ _ E)). }
  assert (K : like (hget (d_heap st) i) x).
  { split; [symmetry; exact Ty|]. split; [|split; [apply (f_begin _ _ _ F i L)|]].
    - unfold x, h. rewrite (f_content _ _ _ F i L). destruct (Nat.eqb_spec i (d_current_node st)) as [->|]; [|reflexivity].
      destruct (d_code_in st) eqn:C; try reflexivity. exfalso. apply T1. left. rewrite <- Ty. exact (e_text _ _ E C).
    - unfold x, h. destruct (in_dec Nat.eq_dec i (open_at_end st)) as [I|I].
      + destruct (n_meta (hget (d_heap st) i)) as [m|] eqn:Em; [|left; rewrite <- Em; apply (f_closed _ _ _ F i L (or_intror Em))].
        right. exists m. split; [reflexivity|]. apply (f_open _ _ _ F i m L I Em).
      + left. apply (f_closed _ _ _ F i L (or_introl I)). }
  assert (T' : nontext (n_type (hget (d_heap st) i))) by (rewrite Ty; exact T).
  destruct (wr_origin _ _ _ (Static.written _ _ _ _ B (conj Li L)) T') as [X|X]; [eapply like_at; eauto|].
  destruct (like_slashed _ _ _ _ K X) as (Td & s1 & n & b & a & l & s2 & _ & _ & _ & _ & _ & m & M & _ & _ & Sc).
  destruct Hs as (_ & _ & Od). pose proof (Od i m Td M). congruence.
Qed.
Lemma no_kids : forall i, ~ container (n_type (hget h i)) -> n_childs (hget h i) = None.
Proof.
  intros i N. destruct (parsed_hs _ _ _ Hp) as [HS _]. fold h in HS. destruct (n_childs (hget h i)) as [l|] eqn:C; [|reflexivity].
  destruct l as [|k l]; [exfalso; apply (hs_some _ _ HS _ _ C); reflexivity|]. exfalso. apply N.
  assert (Ik : In k (kids h i)) by (unfold kids; rewrite C; left; reflexivity). apply (hs_kids _ _ HS) in Ik. apply Ik.
Qed.
Lemma no_end : forall i, n_type (hget h i) <> NTag -> n_end_tag (hget h i) = None.
Proof. intros i N. destruct (n_end_tag (hget h i)) as [e|] eqn:C; [|reflexivity]. destruct (end_tag_names _ _ _ _ _ Hp C) as [X _]. contradiction. Qed.
Lemma no_meta : forall i, n_type (hget h i) <> NTag -> n_type (hget h i) <> NHTMLDOCTYPE -> n_meta (hget h i) = None.
Proof.
  intros i N1 N2. destruct (n_meta (hget h i)) as [m|] eqn:M; [|reflexivity]. exfalso.
  destruct (final_meta _ _ _ _ _ _ P F M) as [m0 [L [Em _]]].
  assert (X : forall t, ~ InvCtl.textual t -> t <> NTagEnd -> t <> NAbstractRoot -> ty (d_heap st) i = t -> n_type (hget h i) = t).
  { intros t T1 T2 T3 Y. exact (proj2 (final_ty _ _ _ i t F E T1 T2 T3) Y). }
  destruct (meta_type _ _ _ _ _ P Em) as [Y|Y]; [apply N1|apply N2]; apply X; try exact Y; try discriminate; apply not_textual; reflexivity.
Qed.
Lemma leaf_no_end : forall i m, n_type (hget h i) = NTag -> n_meta (hget h i) = Some m -> (m_is_void m || m_self_closed m)%bool = true -> n_end_tag (hget h i) = None.
Proof.
  intros i m T M V. destruct (final_meta _ _ _ _ _ _ P F M) as [m0 [L [Em Hm]]]. pose proof (is_tag_ty _ _ _ _ F E T) as Ts.
  destruct Hm as [[-> N]|[-> I]].
  - destruct (f_closed _ _ _ F i L (or_introl N)) as [_ X]. unfold h. rewrite X. apply (z_leafend _ _ _ P i m0 Ts Em V).
  - exfalso. assert (Ic : In i (d_chain_nodes st)) by (unfold open_at_end in I; apply in_rev; destruct (rev (d_chain_nodes st)); [contradiction|right; exact I]).
    pose proof (k_leaf _ _ _ (bsteps_cl _ _ _ B) i m0 Ic Ts Em) as Lf. unfold leaf in Lf. cbn in V. rewrite V in Lf. discriminate.
Qed.

Lemma exists_all : forall A C (R : A -> C -> Prop) l, Forall (fun c => exists a, R a c) l -> exists f, Forall2 R f l.
Proof. intros A C R l H. induction H as [|c l [a Ra] H [f IH]]; [exists []; constructor|exists (a :: f); constructor; assumption]. Qed.

Lemma leaf_written : forall n l sc u, SpecDoc.written opts (KLeaf n l sc) u -> sc = true \/ void_name n = true.
Proof. intros n l sc u W. inversion W; assumption. Qed.
Lemma raw_written : forall n l c e u, SpecDoc.written opts (KRaw n l c e) u -> raw_name n = true.
Proof. intros n l c e u W. inversion W; assumption. Qed.
Lemma has_end : forall t f i, tree_of f h i = Some t -> in_doc h (d_root d) i -> n_end_tag (hget h i) <> None -> exists e, end_is e t.
Proof.
  intros t f i T D N. destruct (tree_inv _ _ _ _ T) as (_ & _ & _ & _ & Ke & En & _).
  destruct (t_end_tag t) as [te|] eqn:Et; [|exfalso; apply N, Ke; reflexivity].
  destruct (En te eq_refl) as (f' & j & Tj & Ej). destruct (end_tag_names _ _ _ _ _ Hp Ej) as (_ & _ & _ & nm & _ & Cn & _).
  destruct (tree_inv _ _ _ _ Tj) as (_ & Cj & _).
  assert (Ti : tree_in d t) by (exists f, i; split; assumption).
  destruct (tree_bare _ _ _ _ Hp Ti t te (sub_refl _) Et) as (X1 & X2 & X3 & X4).
  exists nm, te. split; [exact Et|]. split; [exact X1|]. split; [rewrite Cj; exact Cn|repeat split; assumption].
Qed.

Lemma node_item : forall t f i, tree_of f h i = Some t -> in_doc h (d_root d) i -> n_type (hget h i) <> NAbstractRoot -> n_type (hget h i) <> NTagEnd ->
  exists x, depicts x t /\ Forall bare_quotes (tokens x).
Proof.
  intro t. induction t as [i0 ty b e et c ks m _ Hks] using tree_ind'. intros f i T D N1 N2.
  destruct (tree_inv _ _ _ _ T) as (A & C & M & Kc & Ke & En & Kk). cbn [t_type t_content t_meta t_childs t_end_tag] in *.
  assert (Pl : n_type (hget h i) <> NTag -> n_type (hget h i) <> NHTMLDOCTYPE -> plain_node (TNode i0 ty b e et c ks m)).
  { intros X Y. repeat split; cbn.
    - apply Ke, no_end, X.
    - rewrite M. apply no_meta; assumption.
    - apply Kc, no_kids. intros [Z|Z]; contradiction. }
  destruct (n_type (hget h i)) eqn:Ty; try contradiction.
  - (* doctype *)
    pose proof (written_node i ltac:(rewrite Ty; cbn; auto)) as (s1 & k & u & s2 & _ & _ & W & K).
    destruct k as [c'|c'|c'|n l|n l sc|n l c' e'|n l|e']; cbn [token_node] in K; rewrite ?Ty in K; try contradiction; try (destruct K as [K _]; discriminate K).
    destruct K as (_ & K1 & m' & K2 & K3 & K4 & K5). exists (XDoctype n l). split; [|repeat constructor; exact (written_bare _ _ _ W)].
    apply (dp_doctype _ _ m'); cbn; try congruence; [apply Ke, no_end; rewrite Ty; discriminate|apply Kc, no_kids; rewrite Ty; intros [X|X]; discriminate].
  - (* comment *)
    pose proof (written_node i ltac:(rewrite Ty; cbn; auto)) as (s1 & k & u & s2 & _ & _ & W & K).
    destruct k as [c'|c'|c'|n l|n l sc|n l c' e'|n l|e']; cbn [token_node] in K; rewrite ?Ty in K; try contradiction; try (destruct K as [K _]; discriminate K).
    destruct K as (_ & K1 & _). eexists. split; [apply dp_comment; cbn; [congruence|rewrite C; exact K1|apply Pl; discriminate]|repeat constructor].
  - (* text *)
    destruct (text_content _ _ _ i Hp) as [_ X]. destruct (X Ty) as (c' & Ec & _). exists (XText c' false).
    split; [apply dp_text; cbn; [congruence|rewrite C; exact Ec|apply Pl; discriminate]|repeat constructor].
  - destruct (text_content _ _ _ i Hp) as [X _]. destruct (X Ty) as (c' & Ec & _). exists (XText c' true).
    split; [apply dp_text; cbn; [congruence|rewrite C; exact Ec|apply Pl; discriminate]|repeat constructor].
  - (* element *)
    pose proof (written_node i ltac:(rewrite Ty; cbn; auto)) as (s1 & k & u & s2 & _ & _ & W & K).
    destruct k as [c'|c'|c'|n l|n l sc|n l c' e'|n l|e']; cbn [token_node] in K; rewrite ?Ty in K; try contradiction; try (destruct K as [K _]; discriminate K).
    + (* leaf *)
      destruct K as (_ & K1 & m' & K2 & K3). pose proof K3 as (K4 & K5 & K6 & K7).
      assert (V : (m_is_void m' || m_self_closed m')%bool = true) by (rewrite K6, K7; destruct (leaf_written _ _ _ _ W) as [->| ->]; [apply Bool.orb_true_r|reflexivity]).
      exists (XLeaf n l sc). split; [|repeat constructor; exact (written_bare _ _ _ W)].
      apply (dp_leaf _ _ _ m'); try exact K3; cbn [t_type t_content t_meta t_childs t_end_tag]; try congruence.
      * apply Ke, (leaf_no_end i m' Ty K2 V).
      * apply Kc. refine (proj2 (leaf_tags _ _ _ i m' Hp Ty K2) _ (proj1 Hs)). apply Bool.orb_true_iff in V. tauto.
    + (* raw text *)
      destruct K as (_ & K1 & m' & K2 & K3). pose proof K3 as (K4 & K5 & K6 & K7).
      destruct (all_closed _ _ _ i m' Hp (proj2 (proj2 Hs)) Ty K2) as [X|[X|[e1 Ee]]]; [congruence|congruence|].
      destruct (has_end _ _ _ T D ltac:(unfold h; rewrite Ee; discriminate)) as [e2 E2].
      exists (XRaw n l c' e2). split; [|repeat constructor; exact (written_bare _ _ _ W)].
      apply (dp_raw _ _ _ _ m'); try exact K3; cbn [t_type t_content t_meta t_childs t_end_tag]; try congruence; try exact E2.
      apply Kc. refine (proj2 (leaf_tags _ _ _ i m' Hp Ty K2) _ (proj1 Hs)). right. right. rewrite K4. exact (raw_written _ _ _ _ _ W).
    + (* content *)
      destruct K as (_ & K1 & m' & K2 & K3). pose proof K3 as (K4 & K5 & K6 & K7).
      destruct (all_closed _ _ _ i m' Hp (proj2 (proj2 Hs)) Ty K2) as [X|[X|[e1 Ee]]]; [congruence|congruence|].
      destruct (has_end _ _ _ T D ltac:(unfold h; rewrite Ee; discriminate)) as [e2 E2].
      assert (Ks : exists g, Forall2 (fun x t => depicts x t /\ Forall bare_quotes (tokens x)) g (match ks with Some l => l | None => [] end)).
      { apply exists_all. destruct ks as [ks|]; [|constructor]. cbn in Hks. rewrite Forall_forall in *. intros k Ik.
        destruct (Kk ks k eq_refl Ik) as (f' & j & Tj & Ij). apply (Hks k Ik f' j Tj).
        - eapply doc_step; [exact D|]. left. exact Ij.
        - destruct (parsed_hs _ _ _ Hp) as [HS _]. destruct (hs_kids _ _ HS _ _ Ij) as [Lj _]. apply (hs_rootty _ _ HS). lia.
        - destruct (parsed_hs _ _ _ Hp) as [HS _]. apply (hs_kids _ _ HS _ _ Ij). }
      destruct Ks as [g G]. exists (XElem n l g e2). split.
      * apply (dp_elem _ _ _ _ m'); try exact K3; cbn [t_type t_content t_meta t_childs t_end_tag]; try congruence; try exact E2. clear - G. unfold child_list. cbn [t_childs]. destruct ks as [ks|]; (induction G as [|? ? ? ? [X _]]; constructor; auto).
      * cbn [tokens]. constructor; [exact (written_bare _ _ _ W)|]. apply Forall_app. split; [|repeat constructor]. clear - G.
        induction G as [|? ? ? ? [_ X]]; cbn; [constructor|apply Forall_app; split; assumption].
  - (* CDATA *)
    pose proof (written_node i ltac:(rewrite Ty; cbn; auto)) as (s1 & k & u & s2 & _ & _ & W & K).
    destruct k as [c'|c'|c'|n l|n l sc|n l c' e'|n l|e']; cbn [token_node] in K; rewrite ?Ty in K; try contradiction; try (destruct K as [K _]; discriminate K).
    destruct K as (_ & K1 & _). eexists. split; [apply dp_cdata; cbn; [congruence|rewrite C; exact K1|apply Pl; discriminate]|repeat constructor].
Qed.
Lemma root_content : n_content (hget h 0) = None.
Proof.
  assert (X : n_content (hget (d_heap st) 0) = None).
  { pose proof (bsteps_fr opts _ _ _ B) as Fr. destruct Fr as [_ Fr]; [eapply bsteps_sok; constructor|].
    refine (proj1 (proj2 (nfr_not_text _ _ _ NAbstractRoot (Fr 0 ltac:(cbn; lia)) eq_refl _))). intros [Y|Y]; discriminate Y. }
  unfold h. rewrite (f_content _ _ _ F 0); [|apply (hs_root _ _ (e_hs _ _ E))]. destruct (Nat.eqb_spec 0 (d_current_node st)) as [C|]; [|exact X].
  destruct (d_code_in st) eqn:Ci; try exact X. exfalso. pose proof (e_text _ _ E Ci) as T. rewrite <- C in T.
  pose proof (proj1 (proj2 (hs_root _ _ (e_hs _ _ E)))). congruence.
Qed.
Lemma doc_item : exists f, doc_content d f /\ Forall bare_quotes (flat_map tokens f).
Proof.
  destruct (parsed_hs _ _ _ Hp) as [HS Ro].
  destruct (tree_of (length (d_heap d)) (d_heap d) 0) as [t|] eqn:T.
  2:{ exfalso. destruct (hs_root _ _ HS) as [L _]. apply (tree_exists _ _ (length (d_heap d)) 0 HS); [lia|lia|exact T]. }
  destruct (tree_inv _ _ _ _ T) as (A & C & M & Kc & Ke & En & Kk).
  assert (Tr : n_type (hget h 0) = NAbstractRoot) by apply (hs_root _ _ HS).
  assert (Ks : exists g, Forall2 (fun x t => depicts x t /\ Forall bare_quotes (tokens x)) g (child_list t)).
  { apply exists_all. apply Forall_forall. unfold child_list. destruct (t_childs t) as [ks|] eqn:Ec; [|intros ? []]. intros k Ik.
    destruct (Kk ks k eq_refl Ik) as (f' & j & Tj & Ij). destruct (hs_kids _ _ HS _ _ Ij) as (Lj & N & _). apply (node_item k f' j Tj).
    - eapply doc_step; [|left; exact Ij]. rewrite Ro. exists []. constructor.
    - apply (hs_rootty _ _ HS). lia.
    - exact N. }
  destruct Ks as [g G]. exists g. split.
  - exists t. unfold doc_tree. rewrite Ro. split; [exact T|]. split; [rewrite A; exact Tr|]. split; [rewrite C; exact root_content|].
    split; [apply Ke, no_end; rewrite Tr; discriminate|]. split; [rewrite M; apply no_meta; rewrite Tr; discriminate|].
    clear - G. induction G as [|? ? ? ? [X _]]; constructor; auto.
  - clear - G. induction G as [|? ? ? ? [_ X]]; cbn; [constructor|apply Forall_app; split; assumption].
Qed.
End Orderly.

(** The document. *)
Theorem orderly_content : forall opts s d, parse opts s = Parsed d -> orderly opts s d -> exists f, doc_content d f /\ Forall bare_quotes (flat_map tokens f).
Proof. intros opts s d H Hs. destruct (orderly_state _ _ _ H Hs) as (st & B & E & P & F). eapply doc_item; eauto. Qed.
Theorem orderly_has_content : forall opts s d, parse opts s = Parsed d -> orderly opts s d -> exists f, doc_content d f.
Proof. intros opts s d H Hs. destruct (orderly_content _ _ _ H Hs) as (f & D & _). exists f. exact D. Qed.
