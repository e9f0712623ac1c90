(** Proofs about the repairs. *)
From Coq Require Import String Sorting.Sorted.
From Verif Require Import Api SpecText SpecParse SpecTree SpecMisc NameProofs TextProofs MiscProofs HeapLemmas InvCtl Big BigSteps Replay RawText Area Attrs Struct
  Frame Birth TextInv CloseInv PosInv Static StructEnd Final DocFacts DocEnd DocTree RenderProofs CloneProofs CtlEnd CtlRun Tok DocSound Mono SpecRender SpecDoc SpecOpts SpecFix.
Local Open Scope string_scope.
Local Open Scope list_scope.

(** ** Closing the open elements *)
Definition leaf_end (x : node) (c : list char) : Prop :=
  n_type x = NTagEnd /\ n_content x = Some c /\ n_childs x = None /\ n_end_tag x = None.
Record cl (L : list nid) (h h' : list node) : Prop := mkCl {
  cl_len : length h <= length h';
  cl_kind : forall i, i < length h -> same_kind (ty h i) (ty h' i);
  cl_meta : forall i, i < length h -> n_meta (hget h' i) = n_meta (hget h i);
  cl_begin : forall i, i < length h -> n_begin_at (hget h' i) = n_begin_at (hget h i);
  cl_index : forall i, i < length h -> n_index (hget h' i) = n_index (hget h i);
  cl_childs : forall i, i < length h -> n_childs (hget h' i) = n_childs (hget h i);
  cl_content : forall i, i < length h -> n_content (hget h' i) = n_content (hget h i);
  cl_end_at : forall i, i < length h -> n_end_at (hget h' i) = n_end_at (hget h i);
  cl_out : forall i, i < length h -> ~ In i L -> n_end_tag (hget h' i) = n_end_tag (hget h i);
  cl_in : forall i, In i L -> i < length h /\ exists e m, n_meta (hget h i) = Some m /\ length h <= e < length h' /\
     n_end_tag (hget h' i) = Some e /\ leaf_end (hget h' e) (m_name m)
}.
Lemma cl_refl : forall h, cl [] h h.
Proof. intro h. constructor; auto. - intros. apply same_kind_refl. - intros i []. Qed.
Lemma kind_end : forall t, same_kind NTagEnd t -> t = NTagEnd.
Proof. intros t [->|[[X|X] _]]; try reflexivity; discriminate. Qed.
Lemma cl_trans : forall L L' h h1 h2, cl L h h1 -> cl L' h1 h2 -> (forall i, In i L' -> i < length h) ->
  (forall i, In i L -> ~ In i L') -> cl (L ++ L') h h2.
Proof.
  intros L L' h h1 h2 [A1 A2 A3 A4 A5 A6 A7 A8 A9 A10] [B1 B2 B3 B4 B5 B6 B7 B8 B9 B10] Lt D. constructor.
  - lia.
  - intros i Hi. eapply same_kind_trans; [apply A2, Hi|apply B2; lia].
  - intros i Hi. rewrite B3 by lia. auto.
  - intros i Hi. rewrite B4 by lia. auto.
  - intros i Hi. rewrite B5 by lia. auto.
  - intros i Hi. rewrite B6 by lia. auto.
  - intros i Hi. rewrite B7 by lia. auto.
  - intros i Hi. rewrite B8 by lia. auto.
  - intros i Hi N. rewrite B9; [apply A9; auto|lia|]; intro X; apply N; apply in_or_app; auto.
  - intros i X. apply in_app_or in X. destruct X as [X|X].
    + destruct (A10 i X) as [Hi [e [m [M [He [E [E1 [E2 [E3 E4]]]]]]]]]. split; [exact Hi|]. exists e, m.
      split; [exact M|]. split; [lia|]. split; [rewrite B9; [exact E|lia|apply D, X]|].
      assert (Ne : ~ In e L') by (intro Y; apply Lt in Y; lia).
      split; [|split; [|split]].
      * apply kind_end. change (same_kind NTagEnd (ty h2 e)). rewrite <- E1. apply B2. lia.
      * rewrite B7 by lia. exact E2.
      * rewrite B6 by lia. exact E3.
      * rewrite B9 by (auto; lia). exact E4.
    + split; [apply Lt, X|]. destruct (B10 i X) as [Hi [e [m [M [He E]]]]]. exists e, m.
      rewrite A3 in M by (apply Lt, X). split; [exact M|]. split; [lia|]. exact E.
Qed.

Lemma cl_close : forall opts u tag rest m pos, sok opts u -> d_chain_nodes u = tag :: rest -> n_meta (hget (d_heap u) tag) = Some m ->
  cl [tag] (d_heap u) (closed_heap u tag (m_name m) pos).
Proof.
  intros opts u tag rest m pos S E M. unfold closed_heap. cbv zeta.
  set (n := if auto_fix_unclosed_tag (d_parse_options u) then _ else _).
  assert (Nn : n_type n = NTagEnd /\ n_childs n = None /\ n_end_tag n = None) by (unfold n; destruct (auto_fix_unclosed_tag _); auto).
  set (N := length (d_heap u)). set (h1 := hupd (d_heap u ++ [n]) tag (nset_end_tag (Some N))).
  set (b := match n_childs _ with Some [k] => _ | _ => _ end).
  assert (Ht : tag < N) by (apply (chain_in _ _ _ _ (s_chain _ _ S)); rewrite E; left; reflexivity).
  set (h2 := if b then h1 else flip (d_check_textnode u) h1).
  assert (L1 : length h1 = Datatypes.S N) by (unfold h1; rewrite hupd_length, app_length; cbn; unfold N; lia).
  assert (K : forall {A} (f : node -> A) i, (forall v x, f (nset_type v x) = f x) -> f (hget h2 i) = f (hget h1 i)).
  { intros A f i Hf. unfold h2. destruct b; [reflexivity|]. destruct (d_check_textnode u); [|reflexivity]. cbn [flip].
    apply (hupd_keep f). intro; apply Hf. }
  assert (L2 : length h2 = Datatypes.S N).
  { unfold h2. destruct b; [exact L1|]. destruct (d_check_textnode u); cbn [flip]; rewrite ?hupd_length; exact L1. }
  set (h3 := hupd (hupd h2 N _) N _).
  assert (L3 : length h3 = Datatypes.S N) by (unfold h3; rewrite !hupd_length; exact L2).
  assert (O : forall i, i < N -> hget h3 i = hget h2 i) by (intros i Hi; unfold h3; rewrite !hget_hupd_other by lia; reflexivity).
  assert (Q : forall {A} (f : node -> A) i, (forall v x, f (nset_type v x) = f x) -> (forall v x, f (nset_end_tag v x) = f x) -> i < N ->
    f (hget h3 i) = f (hget (d_heap u) i)).
  { intros A f i F1 F2 Hi. rewrite O by exact Hi. rewrite (K _ f) by exact F1. unfold h1. rewrite (hupd_keep f) by (intro; apply F2).
    rewrite hget_app_old by exact Hi. reflexivity. }
  constructor; fold N.
  - lia.
  - intros i Hi. unfold ty. rewrite O by exact Hi.
    assert (X : n_type (hget h1 i) = n_type (hget (d_heap u) i)).
    { unfold h1. rewrite (hupd_keep n_type) by reflexivity. rewrite hget_app_old by exact Hi. reflexivity. }
    rewrite <- X. unfold h2. destruct b; [apply same_kind_refl|]. apply flip_kind. intros k Hk.
    pose proof (s_check _ _ S k Hk) as T. pose proof (textual_lt _ _ T) as Lk.
    unfold ty, h1. rewrite (hupd_keep n_type) by reflexivity. rewrite hget_app_old by exact Lk. exact T.
  - intros i Hi. apply (Q _ n_meta); auto.
  - intros i Hi. apply (Q _ n_begin_at); auto.
  - intros i Hi. apply (Q _ n_index); auto.
  - intros i Hi. apply (Q _ n_childs); auto.
  - intros i Hi. apply (Q _ n_content); auto.
  - intros i Hi. apply (Q _ n_end_at); auto.
  - intros i Hi Ni. rewrite O by exact Hi. rewrite (K _ n_end_tag) by reflexivity. unfold h1.
    rewrite hget_hupd_other by (intros ->; apply Ni; left; reflexivity). rewrite hget_app_old by exact Hi. reflexivity.
  - intros i [<-|[]]. split; [exact Ht|]. exists N, m. split; [exact M|]. split; [lia|]. split.
    + rewrite O by exact Ht. rewrite (K _ n_end_tag) by reflexivity. unfold h1. rewrite hget_hupd_same by (rewrite app_length; cbn; unfold N in *; lia). reflexivity.
    + assert (X : hget h1 N = n).
      { unfold h1. rewrite hget_hupd_other by lia. unfold N. apply hget_app_new. }
      assert (Y : n_type (hget h2 N) = NTagEnd).
      { unfold h2. destruct b; [rewrite X; apply Nn|]. destruct (d_check_textnode u) as [k|] eqn:Ck; cbn [flip]; [|rewrite X; apply Nn].
        pose proof (textual_lt _ _ (s_check _ _ S k Ck)) as Lk. fold N in Lk. rewrite hget_hupd_other by lia. rewrite X. apply Nn. }
      unfold h3. rewrite hget_hupd_same by (rewrite hupd_length; lia). rewrite hget_hupd_same by lia.
      split; [exact Y|]. split; [reflexivity|].
      change (n_childs (hget h2 N) = None /\ n_end_tag (hget h2 N) = None).
      rewrite (K _ n_childs), (K _ n_end_tag), X by reflexivity. apply Nn.
Qed.

(** ** Reading the end tags *)
Definition name_at (h : list node) (i : nid) : list char := match n_meta (hget h i) with Some m => m_name m | None => [] end.
Definition done_heap (st : doc) : list node :=
  match d_code_in st with
  | CTextNode => hupd (hupd (d_heap st) (d_current_node st) (nset_content (Some (d_prev_chars st))))
              (d_current_node st) (end_info (d_position st))
  | _ => d_heap st
  end.
Lemma lt_any : forall st, is_W st \/ is_T st -> exists u, bstep st [TAG_BEGIN_CHAR] u /\ is_U u /\
  d_chain_nodes u = d_chain_nodes st /\ d_heap u = done_heap st /\ d_id_tags u = d_id_tags st.
Proof.
  intros st [W|T].
  - eexists. split; [apply bs_wait_lt; exact W|]. split; [repeat split|]. split; [reflexivity|]. split; [|reflexivity].
    unfold done_heap. destruct W as [_ [[-> | ->] _]]; reflexivity.
  - eexists. split; [apply bs_text_lt; exact T|]. split; [repeat split|]. split; [reflexivity|]. split; [|reflexivity].
    unfold done_heap. destruct T as [_ [-> _]]. reflexivity.
Qed.
Lemma open_no_gt : forall n, open_name n -> ~ In TAG_END_CHAR n.
Proof.
  intros n [c [n' [-> [A F]]]] [X|X].
  - subst c. discriminate A.
  - rewrite Forall_forall in F. apply F in X. destruct X as [_ [_ X]]. apply X. reflexivity.
Qed.
Lemma done_len : forall st, length (done_heap st) = length (d_heap st).
Proof. intro st. unfold done_heap. destruct (d_code_in st); rewrite ?hupd_length; reflexivity. Qed.
Lemma done_keep : forall {A} (f : node -> A) st i, (forall v x, f (nset_content v x) = f x) -> (forall v x, f (nset_end_at v x) = f x) ->
  f (hget (done_heap st) i) = f (hget (d_heap st) i).
Proof.
  intros A f st i F1 F2. unfold done_heap. destruct (d_code_in st); try reflexivity.
  rewrite !(hupd_keep f); [reflexivity|intro; apply F1|intro; apply F2].
Qed.
Lemma done_W : forall st, is_W st -> done_heap st = d_heap st.
Proof. intros st [_ [[X|X] _]]; unfold done_heap; rewrite X; reflexivity. Qed.

Lemma close_one : forall opts s st tag par rest m, bsteps (doc_new opts) s st -> is_W st \/ is_T st ->
  d_chain_nodes st = tag :: par :: rest -> n_meta (hget (d_heap st) tag) = Some m -> open_name (m_name m) ->
  exists st', bsteps (doc_new opts) (s ++ str "</" ++ m_name m ++ str ">") st' /\ is_W st' /\ d_chain_nodes st' = par :: rest /\
    d_id_tags st' = d_id_tags st /\ cl [tag] (done_heap st) (d_heap st').
Proof.
  intros opts s st tag par rest m B R E M O.
  destruct (lt_any st R) as [u [Bu [U [Eu [Hu Iu]]]]].
  pose proof (bss_one _ _ _ _ _ B Bu) as B2. pose proof (bsteps_sok _ _ _ B2) as S.
  assert (Mu : n_meta (hget (d_heap u) tag) = Some m) by (rewrite Hu, (done_keep n_meta) by reflexivity; exact M).
  assert (Cl : closes u (m_name m) = Some (tag, par :: rest)).
  { unfold closes, get_node. rewrite Eu, E, Mu. rewrite open_trim by exact O. rewrite same_name_refl. reflexivity. }
  eexists. split; [|split; [|split; [|split]]].
  - replace (s ++ str "</" ++ m_name m ++ str ">") with ((s ++ [TAG_BEGIN_CHAR]) ++ (str "/" ++ m_name m ++ str ">")) by (rewrite <- app_assoc; reflexivity).
    eapply bss_one; [exact B2|]. eapply bs_close; [exact U|apply open_no_gt, O|exact Cl|].
    intros _. exists m. split; [exact Mu|]. symmetry. apply open_trim, O.
  - apply W_of_W.
  - reflexivity.
  - exact Iu.
  - cbn [W_of d_heap]. rewrite <- Hu. eapply cl_close; [exact S|rewrite Eu; exact E|exact Mu].
Qed.

Lemma chain_tags : forall h l b i, chain_ok h l b -> In i (removelast l) -> 0 < i < b /\ ty h i = NTag.
Proof.
  intros h l. induction l as [|j l IH]; intros b i C X; [destruct X|]. cbn in C. destruct C as [A [T C]].
  destruct l as [|k l]; [destruct X|]. change (removelast (j :: k :: l)) with (j :: removelast (k :: l)) in X.
  destruct X as [<-|X]; [cbn in C; split; [lia|exact T]|]. destruct (IH j i C X) as [Y Z]. split; [lia|exact Z].
Qed.
Lemma chain_named : forall opts s st i, bsteps (doc_new opts) s st -> In i (removelast (d_chain_nodes st)) ->
  i < length (d_heap st) /\ exists m, n_meta (hget (d_heap st) i) = Some m /\ open_name (m_name m).
Proof.
  intros opts s st i B X. pose proof (bsteps_sok _ _ _ B) as S. destruct (chain_tags _ _ _ _ (s_chain _ _ S) X) as [L T].
  split; [lia|]. pose proof (Static.written _ _ _ _ B L) as W. unfold ty in T.
  destruct W; try congruence; try (rewrite T in *; match goal with Y : textual NTag |- _ => destruct Y; discriminate end);
    eexists; (split; [eassumption|]); cbn; assumption.
Qed.
Lemma chain_less : forall h l b, chain_ok h l b -> forall i j a c, l = a ++ i :: c -> In j c -> j < i.
Proof.
  intros h l b C i j a c -> X. revert b C. induction a as [|k a IH]; intros b C; cbn in C.
  - destruct C as [_ [_ C]]. eapply chain_in; eauto.
  - destruct C as [_ [_ C]]. eapply IH; exact C.
Qed.
Lemma removelast_in : forall {A} (l : list A) x, In x (removelast l) -> In x l.
Proof.
  intros A l x. induction l as [|y l IH]; intro H; [destruct H|]. destruct l; [destruct H|].
  change (In x (y :: removelast (a :: l))) in H. destruct H as [->|H]; [left; reflexivity|right; apply IH, H].
Qed.
Lemma map_name_eq : forall h h' l, (forall i, In i l -> n_meta (hget h' i) = n_meta (hget h i)) -> map (name_at h') l = map (name_at h) l.
Proof. intros h h' l H. apply map_ext_in. intros i X. unfold name_at. rewrite H by exact X. reflexivity. Qed.

Lemma close_all : forall opts n s st, length (d_chain_nodes st) <= n -> bsteps (doc_new opts) s st -> is_W st ->
  exists st', bsteps (doc_new opts) (s ++ closers (map (name_at (d_heap st)) (removelast (d_chain_nodes st)))) st' /\ is_W st' /\
    length (d_chain_nodes st') <= 1 /\ d_id_tags st' = d_id_tags st /\
    cl (removelast (d_chain_nodes st)) (d_heap st) (d_heap st').
Proof.
  intros opts n. induction n as [|n IH]; intros s st Hn B W.
  - destruct (d_chain_nodes st) as [|x l] eqn:E; [|cbn in Hn; lia]. exists st. cbn. rewrite app_nil_r, E. split; [exact B|]. split; [exact W|]. split; [cbn; lia|]. split; [reflexivity|apply cl_refl].
  - destruct (d_chain_nodes st) as [|tag [|par rest]] eqn:E.
    + exists st. cbn. rewrite app_nil_r, E. split; [exact B|]. split; [exact W|]. split; [cbn; lia|]. split; [reflexivity|apply cl_refl].
    + exists st. cbn. rewrite app_nil_r, E. split; [exact B|]. split; [exact W|]. split; [cbn; lia|]. split; [reflexivity|apply cl_refl].
    + destruct (chain_named _ _ _ tag B) as [Lt [m [M O]]]; [rewrite E; left; reflexivity|].
      destruct (close_one _ _ _ _ _ _ _ B (or_introl W) E M O) as [st1 [B1 [W1 [E1 [I1 C1]]]]]. rewrite done_W in C1 by exact W.
      assert (Ln : length (d_chain_nodes st1) <= n) by (rewrite E1; cbn in *; lia).
      destruct (IH _ st1 Ln B1 W1) as [st2 [B2 [W2 [L2 [I2 C2]]]]].
      rewrite E1 in B2, C2. exists st2. change (removelast (tag :: par :: rest)) with (tag :: removelast (par :: rest)).
      pose proof (bsteps_sok _ _ _ B) as S. pose proof (s_chain _ _ S) as Ch. rewrite E in Ch.
      assert (Less : forall i, In i (removelast (par :: rest)) -> i < tag).
      { intros i X. apply removelast_in in X. eapply (chain_less _ _ _ Ch tag i []); [reflexivity|exact X]. }
      split; [|split; [exact W2|split; [exact L2|split; [congruence|]]]].
      * cbn [map closers flat_map]. unfold name_at at 1. rewrite M. rewrite !app_assoc in *. 
        rewrite (map_name_eq (d_heap st)) in B2; [exact B2|]. intros i X. apply (cl_meta _ _ _ C1). apply Less in X. lia.
      * change (tag :: removelast (par :: rest)) with ([tag] ++ removelast (par :: rest)). eapply cl_trans; [exact C1|exact C2| |].
        -- intros i X. apply Less in X. lia.
        -- intros i [<-|[]] X. apply Less in X. lia.
Qed.
Lemma close_any : forall opts s st, bsteps (doc_new opts) s st -> is_W st \/ is_T st -> removelast (d_chain_nodes st) <> [] ->
  exists st', bsteps (doc_new opts) (s ++ closers (map (name_at (d_heap st)) (removelast (d_chain_nodes st)))) st' /\ is_W st' /\
    length (d_chain_nodes st') <= 1 /\ d_id_tags st' = d_id_tags st /\
    cl (removelast (d_chain_nodes st)) (done_heap st) (d_heap st').
Proof.
  intros opts s st B R Ne. destruct (d_chain_nodes st) as [|tag [|par rest]] eqn:E; try (destruct Ne; reflexivity). clear Ne.
  destruct (chain_named _ _ _ tag B) as [Lt [m [M O]]]; [rewrite E; left; reflexivity|].
  destruct (close_one _ _ _ _ _ _ _ B R E M O) as [st1 [B1 [W1 [E1 [I1 C1]]]]].
  destruct (close_all opts _ _ st1 (le_n _) B1 W1) as [st2 [B2 [W2 [L2 [I2 C2]]]]].
  rewrite E1 in B2, C2. exists st2. change (removelast (tag :: par :: rest)) with (tag :: removelast (par :: rest)).
  pose proof (bsteps_sok _ _ _ B) as S. pose proof (s_chain _ _ S) as Ch. rewrite E in Ch.
  assert (Less : forall i, In i (removelast (par :: rest)) -> i < tag).
  { intros i X. apply removelast_in in X. eapply (chain_less _ _ _ Ch tag i []); [reflexivity|exact X]. }
  split; [|split; [exact W2|split; [exact L2|split; [congruence|]]]].
  * cbn [map closers flat_map]. unfold name_at at 1. rewrite M. rewrite !app_assoc in *. 
    rewrite (map_name_eq (d_heap st)) in B2; [exact B2|]. intros i X. rewrite (cl_meta _ _ _ C1) by (rewrite done_len; apply Less in X; lia).
    apply done_keep; reflexivity.
  * change (tag :: removelast (par :: rest)) with ([tag] ++ removelast (par :: rest)). eapply cl_trans; [exact C1|exact C2| |].
    -- intros i X. apply Less in X. rewrite done_len. lia.
    -- intros i [<-|[]] X. apply Less in X. lia.
Qed.

(** ** Two finished documents *)
Lemma fin_index : forall st d i, eof st = ROk d -> i < length (d_heap st) -> n_index (hget (d_heap d) i) = n_index (hget (d_heap st) i).
Proof.
  intros st d i H L. destruct (eof_inv _ _ H) as [_ [_ [-> _]]]. unfold fin_heap. rewrite (hupd_keep n_index) by reflexivity.
  assert (K : forall l h, i < length h -> n_index (hget (fix_heap (d_position st) l h) i) = n_index (hget h i)).
  { intro l. induction l as [|j l IH]; intros h Lh; [reflexivity|]. unfold fix_heap in *. cbn [fold_left].
    rewrite IH by (pose proof (fix1_length (d_position st) h j); lia). unfold fix1.
    destruct (n_meta (hget h j)) eqn:M; [|reflexivity]. rewrite (hupd_keep n_index) by reflexivity.
    rewrite hget_app_old by (rewrite hupd_length; exact Lh). apply (hupd_keep n_index). intro n. unfold nupd_meta. destruct (n_meta n); reflexivity. }
  destruct (d_code_in st); rewrite ?(hupd_keep n_index); try (apply K, L).
  intro n. unfold text_done. destruct (d_repeat_whitespace st); reflexivity.
Qed.

Record agree (n : nat) (h h' : list node) : Prop := mkAgree {
  ag_kind : forall i, i < n -> same_kind (ty h i) (ty h' i);
  ag_content : forall i, i < n -> n_content (hget h' i) = n_content (hget h i);
  ag_childs : forall i, i < n -> n_childs (hget h' i) = n_childs (hget h i);
  ag_begin : forall i, i < n -> n_begin_at (hget h' i) = n_begin_at (hget h i);
  ag_index : forall i, i < n -> n_index (hget h' i) = n_index (hget h i);
  ag_end_at : forall i, i < n -> ty h i = NAbstractRoot \/ n_end_at (hget h' i) = n_end_at (hget h i);
  ag_meta : forall i, i < n -> meta_alike (n_meta (hget h i)) (n_meta (hget h' i));
  ag_kids : forall i k, i < n -> In k (kids h i) -> k < n;
  ag_ends : forall i, i < n -> (n_end_tag (hget h i) = None /\ n_end_tag (hget h' i) = None) \/
    (exists e, e < n /\ n_end_tag (hget h i) = Some e /\ n_end_tag (hget h' i) = Some e /\ ty h e = NTagEnd) \/
    (exists e e' c, n_end_tag (hget h i) = Some e /\ n_end_tag (hget h' i) = Some e' /\ leaf_end (hget h e) c /\ leaf_end (hget h' e') c)
}.

Lemma agree_alike : forall n h h', agree n h h' -> forall f f' i t t', i < n -> tree_of f h i = Some t -> tree_of f' h' i = Some t' -> alike t t'.
Proof.
  intros n h h' A f. induction f as [|f IH]; intros f' i t t' L T T'; [discriminate|]. destruct f' as [|f']; [discriminate|].
  apply tree_eq in T. apply tree_eq in T'. destruct T as [et [ks [-> [E K]]]]. destruct T' as [et' [ks' [-> [E' K']]]].
  rewrite (ag_index _ _ _ A i L), (ag_begin _ _ _ A i L), (ag_content _ _ _ A i L).
  assert (X1 : type_alike (n_type (hget h i)) (n_type (hget h' i))) by (destruct (ag_kind _ _ _ A i L) as [X|[X Y]]; [left; exact X|right; split; [exact X|exact Y]]).
  assert (X2 : n_type (hget h i) = NAbstractRoot \/ n_end_at (hget h i) = n_end_at (hget h' i)) by (destruct (ag_end_at _ _ _ A i L); auto).
  assert (X3 : end_alike et et').
  { destruct (ag_ends _ _ _ A i L) as [[N1 N2]|[[e [Le [E1 [E2 Te]]]]|[e [e' [c [E1 [E2 [F1 F2]]]]]]]].
    - destruct et as [x|]; [destruct E as [y [Y _]]; congruence|]. destruct et' as [x|]; [destruct E' as [y [Y _]]; congruence|]. exact I.
    - destruct et as [x|]; [|congruence]. destruct et' as [x'|]; [|congruence]. destruct E as [y [Y Tx]]. destruct E' as [y' [Y' Tx']].
      rewrite E1 in Y. injection Y as <-. rewrite E2 in Y'. injection Y' as <-.
      destruct f as [|f]; [discriminate|]. destruct f' as [|f']; [discriminate|].
      apply tree_eq in Tx. apply tree_eq in Tx'. destruct Tx as [? [? [-> _]]]. destruct Tx' as [? [? [-> _]]]. cbn.
      split; [exact Te|]. split; [|symmetry; apply (ag_content _ _ _ A e Le)].
      pose proof (ag_kind _ _ _ A e Le) as Kd. rewrite Te in Kd. apply kind_end, Kd.
    - destruct et as [x|]; [|congruence]. destruct et' as [x'|]; [|congruence]. destruct E as [y [Y Tx]]. destruct E' as [y' [Y' Tx']].
      rewrite E1 in Y. injection Y as <-. rewrite E2 in Y'. injection Y' as <-.
      destruct f as [|f]; [discriminate|]. destruct f' as [|f']; [discriminate|].
      apply tree_eq in Tx. apply tree_eq in Tx'. destruct Tx as [? [? [-> _]]]. destruct Tx' as [? [? [-> _]]]. cbn.
      destruct F1 as [F1 [F1' _]]. destruct F2 as [F2 [F2' _]]. split; [exact F1|]. split; [exact F2|]. congruence. }
  pose proof (ag_meta _ _ _ A i L) as X4. pose proof (ag_childs _ _ _ A i L) as Ch.
  destruct ks as [l|]; destruct ks' as [l'|].
  - apply alike_node; auto. destruct K as [ids [K1 K2]]. destruct K' as [ids' [K1' K2']]. rewrite Ch, K1 in K1'. injection K1' as <-.
    assert (Lk : forall k, In k ids -> k < n) by (intros k X; apply (ag_kids _ _ _ A i k L); unfold kids; rewrite K1; exact X).
    clear - IH K2 K2' Lk. revert l' K2'. induction K2 as [|k t ids l T Ts IHl]; intros l' K2'; inversion K2'; subst; constructor.
    + eapply IH; eauto. apply Lk. left. reflexivity.
    + apply IHl; [intros x X; apply Lk; right; exact X|assumption].
  - exfalso. destruct K as [ids [K1 _]]. congruence.
  - exfalso. destruct K' as [ids [K1 _]]. congruence.
  - apply alike_leaf; auto.
Qed.

Lemma rev_tl : forall {A} (l : list A), tl (rev l) = rev (removelast l).
Proof.
  intros A l. induction l as [|x l IH] using rev_ind; [reflexivity|]. rewrite rev_app_distr. cbn. rewrite removelast_last. reflexivity.
Qed.
Lemma in_open : forall st i, In i (open_at_end st) <-> In i (removelast (d_chain_nodes st)).
Proof. intros st i. unfold open_at_end. rewrite rev_tl. symmetry. apply in_rev. Qed.
Lemma text_code : forall st, is_W st \/ is_T st -> (d_code_in st = CTextNode <-> is_T st).
Proof.
  intros st [W|T].
  - destruct W as [H [C _]]. split; [intro X; destruct C; congruence|intros [Y _]; congruence].
  - split; [auto|]. intros [_ [C _]]. exact C.
Qed.

Lemma fixed_agree : forall opts st d st' d', sok opts st -> is_W st \/ is_T st -> eof st = ROk d -> sok opts st' -> is_W st' ->
  length (d_chain_nodes st') <= 1 -> eof st' = ROk d' -> cl (removelast (d_chain_nodes st)) (done_heap st) (d_heap st') ->
  agree (length (d_heap st)) (d_heap d) (d_heap d').
Proof.
  intros opts st d st' d' S R H S' W' L' H' C.
  pose proof (sok_ending _ _ S R) as En. pose proof (finish _ _ _ En H) as F.
  pose proof (sok_ending _ _ S' (or_introl W')) as En'. pose proof (finish _ _ _ En' H') as F'.
  assert (No : open_at_end st' = []).
  { unfold open_at_end. destruct (d_chain_nodes st') as [|x [|y l]]; [reflexivity|reflexivity|cbn in L'; lia]. }
  assert (Cd : match d_code_in st' with CTextNode => true | _ => false end = false) by (destruct W' as [_ [[-> | ->] _]]; reflexivity).
  pose proof (cl_len _ _ _ C) as Ln. rewrite done_len in Ln.
  assert (Cur : d_code_in st = CTextNode -> ty (d_heap st) (d_current_node st) = NText) by apply (e_text _ _ En).
  pose proof (s_cur _ _ S) as Cl.
  assert (Z0 : ty (d_heap st) 0 = NAbstractRoot) by apply (hs_root _ _ (s_hs _ _ S)).
  assert (DC : forall i, i < length (d_heap st) -> n_content (hget (done_heap st) i) =
    if (Nat.eqb i (d_current_node st) && match d_code_in st with CTextNode => true | _ => false end)%bool
    then Some (d_prev_chars st) else n_content (hget (d_heap st) i)).
  { intros i L. unfold done_heap. destruct (d_code_in st); rewrite ?Bool.andb_false_r; try reflexivity. rewrite Bool.andb_true_r.
    rewrite (hupd_keep n_content) by reflexivity. destruct (Nat.eqb_spec i (d_current_node st)) as [->|N].
    - rewrite hget_hupd_same by exact L. reflexivity.
    - rewrite hget_hupd_other by congruence. reflexivity. }
  assert (DE : forall i, i < length (d_heap st) -> n_end_at (hget (done_heap st) i) =
    if (Nat.eqb i (d_current_node st) && match d_code_in st with CTextNode => true | _ => false end)%bool
    then d_position st else n_end_at (hget (d_heap st) i)).
  { intros i L. unfold done_heap. destruct (d_code_in st) eqn:Cc; rewrite ?Bool.andb_false_r; try reflexivity. rewrite Bool.andb_true_r.
    destruct (Nat.eqb_spec i (d_current_node st)) as [->|N].
    - rewrite hget_hupd_same by (rewrite hupd_length; exact L). unfold end_info. cbn [n_end_at nset_end_at].
      rewrite (hupd_keep n_type) by reflexivity. specialize (Cur eq_refl). unfold ty in Cur. rewrite Cur. reflexivity.
    - rewrite !hget_hupd_other by congruence. reflexivity. }
  assert (KD : forall {A} (f : node -> A) i, (forall v x, f (nset_content v x) = f x) -> (forall v x, f (nset_end_at v x) = f x) ->
    f (hget (done_heap st) i) = f (hget (d_heap st) i)) by (intros; apply done_keep; auto).
  constructor.
  - intros i L. rewrite (f_type _ _ _ F i L), (f_type _ _ _ F' i) by lia. rewrite Cd, Bool.andb_false_r.
    pose proof (cl_kind _ _ _ C i) as K. rewrite done_len in K. specialize (K L). unfold ty in K at 1. rewrite (KD _ n_type) in K by reflexivity.
    fold (ty (d_heap st) i) in K. destruct (Nat.eqb_spec i (d_current_node st)) as [->|N]; cbn [andb]; [|exact K].
    destruct (d_code_in st) eqn:Cc; rewrite ?Bool.andb_false_r; try exact K. rewrite Bool.andb_true_r.
    destruct (d_repeat_whitespace st); [|exact K]. rewrite (Cur eq_refl) in K. right. split; [right; reflexivity|].
    eapply kind_textual; [exact K|left; reflexivity].
  - intros i L. rewrite (f_content _ _ _ F i L), (f_content _ _ _ F' i) by lia. rewrite Cd, Bool.andb_false_r.
    rewrite (cl_content _ _ _ C) by (rewrite done_len; exact L). apply DC, L.
  - intros i L. rewrite (f_childs _ _ _ F i L), (f_childs _ _ _ F' i) by lia.
    rewrite (cl_childs _ _ _ C) by (rewrite done_len; exact L). apply (KD _ n_childs); reflexivity.
  - intros i L. rewrite (f_begin _ _ _ F i L), (f_begin _ _ _ F' i) by lia.
    rewrite (cl_begin _ _ _ C) by (rewrite done_len; exact L). apply (KD _ n_begin_at); reflexivity.
  - intros i L. rewrite (fin_index _ _ _ H L), (fin_index st' d' i H') by lia.
    rewrite (cl_index _ _ _ C) by (rewrite done_len; exact L). apply (KD _ n_index); reflexivity.
  - intros i L. destruct (Nat.eq_dec i 0) as [->|N].
    + left. rewrite (f_type _ _ _ F 0 L). destruct (Nat.eqb_spec 0 (d_current_node st)) as [E0|]; cbn [andb]; [|exact Z0].
      destruct (d_code_in st) eqn:Cc; rewrite ?Bool.andb_false_r; try exact Z0. specialize (Cur eq_refl). rewrite <- E0 in Cur. congruence.
    + right. rewrite (f_end_at _ _ _ F i L), (f_end_at _ _ _ F' i) by lia. rewrite Cd, Bool.andb_false_r.
      destruct (Nat.eqb_spec i 0); [congruence|]. cbn [orb]. rewrite (cl_end_at _ _ _ C) by (rewrite done_len; exact L). apply DE, L.
  - intros i L. destruct (f_closed _ _ _ F' i) as [M' _]; [lia|left; rewrite No; intros []|].
    rewrite M'. rewrite (cl_meta _ _ _ C) by (rewrite done_len; exact L). rewrite (KD _ n_meta) by reflexivity.
    destruct (in_dec Nat.eq_dec i (open_at_end st)) as [X|X].
    + destruct (n_meta (hget (d_heap st) i)) as [m|] eqn:M.
      * destruct (f_open _ _ _ F i m L X M) as [-> _]. unfold meta_alike. destruct m; reflexivity.
      * destruct (f_closed _ _ _ F i L (or_intror M)) as [-> _]. rewrite M. reflexivity.
    + destruct (f_closed _ _ _ F i L (or_introl X)) as [-> _]. reflexivity.
  - intros i k L X. unfold kids in X. rewrite (f_childs _ _ _ F i L) in X. apply (hs_kids _ _ (s_hs _ _ S) i k X).
  - intros i L. destruct (f_closed _ _ _ F' i) as [_ E']; [lia|left; rewrite No; intros []|]. rewrite E'.
    destruct (in_dec Nat.eq_dec i (open_at_end st)) as [X|X].
    + right. right. apply in_open in X. destruct (cl_in _ _ _ C i X) as [_ [e' [m [M [Le [E1 Lf]]]]]]. rewrite done_len in Le.
      rewrite (KD _ n_meta) in M by reflexivity. apply in_open in X.
      destruct (f_open _ _ _ F i m L X M) as [_ [e [Le2 [E2 E3]]]]. exists e, e', (m_name m). split; [exact E2|]. split; [exact E1|].
      split; [rewrite E3; repeat split|]. destruct Lf as [L1 [L2 [L3 L4]]].
      split; [|split; [|split]].
      * change (ty (d_heap d') e' = NTagEnd). rewrite (f_type _ _ _ F' e') by lia. rewrite Cd, Bool.andb_false_r. exact L1.
      * rewrite (f_content _ _ _ F' e') by lia. rewrite Cd, Bool.andb_false_r. exact L2.
      * rewrite (f_childs _ _ _ F' e') by lia. exact L3.
      * destruct (f_closed _ _ _ F' e') as [_ ->]; [lia|left; rewrite No; intros []|]. exact L4.
    + destruct (f_closed _ _ _ F i L (or_introl X)) as [_ E]. rewrite E.
      rewrite (cl_out _ _ _ C i) by (rewrite ?done_len; auto; rewrite <- in_open; exact X). rewrite (KD _ n_end_tag) by reflexivity.
      destruct (n_end_tag (hget (d_heap st) i)) as [e|] eqn:Ee; [|left; auto]. right. left. exists e.
      destruct (hs_end _ _ (s_hs _ _ S) i e Ee) as [Q1 [Q2 _]]. split; [lia|]. split; [reflexivity|]. split; [reflexivity|].
      rewrite (f_type _ _ _ F e) by lia. destruct (Nat.eqb_spec e (d_current_node st)) as [E0|]; cbn [andb]; [|exact Q2].
      destruct (d_code_in st) eqn:Cc; rewrite ?Bool.andb_false_r; try exact Q2. specialize (Cur eq_refl). rewrite <- E0 in Cur. congruence.
Qed.

(** ** The names of the elements closed by the parser *)
Lemma pick_sorted : forall {A} (g : nat -> list A) (f : nat -> A) n a L, StronglySorted Nat.lt L -> (forall i, In i L -> a <= i < a + n) ->
  (forall i, a <= i < a + n -> In i L -> g i = [f i]) -> (forall i, a <= i < a + n -> ~ In i L -> g i = []) ->
  flat_map g (seq a n) = map f L.
Proof.
  intros A g f n. induction n as [|n IH]; intros a L Ss B G1 G2.
  - destruct L as [|i L]; [reflexivity|]. specialize (B i (or_introl eq_refl)). lia.
  - cbn [seq flat_map]. destruct (in_dec Nat.eq_dec a L) as [X|X].
    + destruct L as [|i L]; [destruct X|]. inversion Ss as [|? ? Ss' Fa]; subst. rewrite Forall_forall in Fa.
      assert (i = a). { destruct X as [->|X]; [reflexivity|]. apply Fa in X. specialize (B i (or_introl eq_refl)). lia. }
      subst i. rewrite (G1 a) by (auto; lia). cbn [map app]. f_equal. apply IH; [exact Ss'| | |].
      * intros i Y. pose proof (Fa i Y). specialize (B i (or_intror Y)). lia.
      * intros i Hi Y. apply G1; [lia|right; exact Y].
      * intros i Hi Y. apply G2; [lia|]. intros [->|Z]; [lia|auto].
    + rewrite (G2 a) by (auto; lia). cbn [app]. apply IH; [exact Ss| | |].
      * intros i Y. specialize (B i Y). assert (i <> a) by (intros ->; auto). lia.
      * intros i Hi Y. apply G1; [lia|exact Y].
      * intros i Hi Y. apply G2; [lia|exact Y].
Qed.
Lemma heap_seq : forall h : list node, h = map (hget h) (seq 0 (length h)).
Proof.
  intro h. unfold hget. induction h as [|x h IH]; [reflexivity|]. cbn [length seq map nth]. f_equal.
  rewrite <- seq_shift, map_map. exact IH.
Qed.
Lemma open_sorted : forall h l b, chain_ok h l b -> StronglySorted Nat.lt (rev (removelast l)).
Proof.
  intros h l. induction l as [|i l IH]; intros b C; [constructor|]. cbn in C. destruct C as [_ [_ C]].
  destruct l as [|j l]; [constructor|]. change (removelast (i :: j :: l)) with (i :: removelast (j :: l)). cbn [rev].
  apply sorted_snoc; [eapply IH; exact C|]. rewrite Forall_forall. intros x X. apply in_rev in X. apply removelast_in in X.
  eapply chain_in; eauto.
Qed.
Lemma no_fix_before : forall opts s st i m, bsteps (doc_new opts) s st -> n_meta (hget (d_heap st) i) = Some m -> m_auto_fix m = false.
Proof.
  intros opts s st i m B M. pose proof (pre_full _ _ _ B) as P. pose proof (meta_pos _ _ _ _ _ P M) as L.
  pose proof (Static.written _ _ _ _ B L) as W.
  destruct W; try congruence; match goal with X : n_meta _ = Some _ |- _ => rewrite M in X; injection X as ->; reflexivity end.
Qed.
Lemma names_fixed : forall opts s st d, bsteps (doc_new opts) s st -> is_W st \/ is_T st -> eof st = ROk d ->
  fixed_names d = map (name_at (d_heap st)) (open_at_end st).
Proof.
  intros opts s st d B R H. pose proof (bsteps_sok _ _ _ B) as S. pose proof (finish _ _ _ (sok_ending _ _ S R) H) as F.
  pose proof (f_len _ _ _ F) as Ln.
  assert (Lo : forall i, In i (open_at_end st) -> i < length (d_heap st)).
  { intros i X. apply in_open in X. apply removelast_in in X. eapply chain_in; [apply (s_chain _ _ S)|exact X]. }
  unfold fixed_names. rewrite (heap_seq (d_heap d)) at 1. rewrite flat_map_concat_map, map_map, <- flat_map_concat_map.
  apply pick_sorted.
  - unfold open_at_end. rewrite rev_tl. eapply open_sorted. apply (s_chain _ _ S).
  - intros i X. apply Lo in X. lia.
  - intros i _ X. pose proof (Lo i X) as L. pose proof X as X2. apply in_open in X2. destruct (chain_named _ _ _ _ B X2) as [_ [m [M _]]].
    destruct (f_open _ _ _ F i m L X M) as [M' _]. unfold fixed_name, name_at. rewrite M', M. reflexivity.
  - intros i Hi X. destruct (Nat.lt_ge_cases i (length (d_heap st))) as [L|L].
    + destruct (f_closed _ _ _ F i L (or_introl X)) as [M' _]. unfold fixed_name. rewrite M'.
      destruct (n_meta (hget (d_heap st) i)) as [m|] eqn:M; [|reflexivity]. rewrite (no_fix_before _ _ _ _ _ B M). reflexivity.
    + destruct (f_new _ _ _ F i) as [j [m [_ [_ [_ [_ Y]]]]]]; [lia|]. unfold fixed_name. rewrite Y. reflexivity.
Qed.

(** ** Alike trees render alike *)
Lemma mset_same : forall m m', mset_auto_fix false m = mset_auto_fix false m' ->
  m_name m = m_name m' /\ m_attrs m = m_attrs m' /\ m_self_closed m = m_self_closed m' /\ m_is_void m = m_is_void m' /\ m_code_in m = m_code_in m' /\ m_lc_name_map m = m_lc_name_map m'.
Proof. intros [] [] H. injection H as -> -> -> -> -> ->. auto 10. Qed.

Lemma end_build : forall env o t t' s, t_type t = NTagEnd -> t_type t' = NTagEnd -> t_content t = t_content t' ->
  build_node env o t s = build_node env o t' s.
Proof. intros env o t t' s A B C. unfold build_node. rewrite A, B, C. reflexivity. Qed.

Definition blank_ok (t : tree) : Prop := t_type t = NSpacesBetweenTag -> forall c, t_content t = Some c -> Forall is_ws c.
Lemma node_alike : forall env o t t' s, plain_render env o -> alike t t' -> blank_ok t -> blank_ok t' ->
  build_node env o t s = build_node env o t' s.
Proof.
  intros env o t t' s [P1 [P2 P3]] A W W'.
  assert (X : type_alike (t_type t) (t_type t') /\ t_content t = t_content t' /\ meta_alike (t_meta t) (t_meta t'))
    by (destruct A; auto).
  destruct X as [T [C M]]. unfold build_node. rewrite P1, P2, C.
  assert (Ms : forall m, option_map (mset_auto_fix false) (t_meta t) = Some m -> True) by auto.
  unfold meta_alike in M.
  destruct T as [T|[T T']].
  - rewrite <- T. destruct (t_type t); auto;
      (destruct (t_meta t) as [m|]; destruct (t_meta t') as [m'|]; cbn in M; try discriminate; [|reflexivity]);
      apply (f_equal (fun x => match x with Some y => y | None => m end)) in M; destruct (mset_same _ _ M) as [-> [Ea [Es _]]];
      unfold attrs_to_string; rewrite Ea, ?Es, ?Bool.andb_false_r; reflexivity.
  - unfold blank_ok in *. rewrite C in W. rewrite !Bool.andb_false_r.
    destruct T as [T|T]; destruct T' as [T'|T']; rewrite T, T' in *; try reflexivity;
      (destruct (t_content t') as [c|]; [|reflexivity]); (destruct (decode_entity o); [|reflexivity]); rewrite P3; auto.
Qed.
Lemma sub_blank : forall t, spaces_are_ws t -> blank_ok t.
Proof. intros t W T c C. eapply (W t c); [constructor|exact T|exact C]. Qed.
Lemma sub_kid : forall t ks k, spaces_are_ws t -> t_childs t = Some ks -> In k ks -> spaces_are_ws k.
Proof. intros t ks k W E X s c Sb. apply W. eapply sub_child; eauto. Qed.

Lemma build_alike : forall env o, plain_render env o -> forall t t', alike t t' -> spaces_are_ws t -> spaces_are_ws t' -> forall s,
  build_tree env o t s = build_tree env o t' s.
Proof.
  intros env o P t. induction t as [i ty b e et c ks m _ Hks] using tree_ind'. intros t' A W W' s.
  pose proof (node_alike env o _ _ s P A (sub_blank _ W) (sub_blank _ W')) as Nd.
  assert (En : forall et et' s, end_alike et et' ->
    (match et with None => ROk (s, []) | Some x => build_node env o x s end) = (match et' with None => ROk (s, []) | Some x => build_node env o x s end)).
  { intros [x|] [x'|] s0 E; try contradiction; [|reflexivity]. destruct E as [E1 [E2 E3]]. apply end_build; auto. }
  inversion A as [? ? ? ? ? ? ? ? ? ? ? Ty Ea Ee Me|? ? ? ? ? ? ? ? ? l l' ? ? Ty Ea Ee Me Fk]; subst; rewrite !build_tree_eq; cbv zeta; rewrite Nd;
    match goal with |- _ = rbind ?b _ => destruct b as [[s1 o1]| |] end; try reflexivity; cbn [rbind].
  - rewrite (En _ _ s1 Ee). reflexivity.
  - assert (Bl : forall s, build_list env o l s = build_list env o l' s).
    { cbn [optP] in Hks.
      assert (Wl : forall k, In k l -> spaces_are_ws k) by (intros k; eapply (sub_kid _ _ k W); reflexivity).
      assert (Wl' : forall k, In k l' -> spaces_are_ws k) by (intros k; eapply (sub_kid _ _ k W'); reflexivity).
      clear - Fk Hks Wl Wl'. induction Fk as [|k k' l l' A F IH]; intro s; [reflexivity|]. inversion Hks; subst. cbn [build_list].
      rewrite (H1 k' A (Wl k (or_introl eq_refl)) (Wl' k' (or_introl eq_refl))).
      destruct (build_tree env o k' s) as [[s' o']| |]; try reflexivity. cbn [rbind]. rewrite IH; [reflexivity|exact H2| |].
      - intros x X. apply Wl. right. exact X.
      - intros x X. apply Wl'. right. exact X. }
    rewrite !Bl. destruct (if rs_root s1 then _ else _) as [[s2 o2]| |]; try reflexivity. cbn [rbind]. rewrite (En _ _ s2 Ee). reflexivity.
Qed.
Lemma tag_alike : forall k k', alike k k' -> is_tag k = is_tag k'.
Proof. intros k k' Ak. inversion Ak; subst; unfold is_tag; cbn; destruct H as [-> | [[-> | ->] [-> | ->]]]; reflexivity. Qed.
Lemma tags_alike : forall l l', Forall2 alike l l' -> (forall k, In k l -> spaces_are_ws k) -> (forall k, In k l' -> spaces_are_ws k) ->
  Forall2 (fun k k' => alike k k' /\ spaces_are_ws k /\ spaces_are_ws k') (filter is_tag l) (filter is_tag l').
Proof.
  intros l l' F. induction F as [|k k' l l' A F IH]; intros W W'; [constructor|]. cbn [filter]. rewrite <- (tag_alike k k' A).
  assert (IH' : Forall2 (fun k k' => alike k k' /\ spaces_are_ws k /\ spaces_are_ws k') (filter is_tag l) (filter is_tag l')).
  { apply IH; intros x X; [apply W|apply W']; right; exact X. }
  destruct (is_tag k); [|exact IH']. constructor; [|exact IH']. split; [exact A|]. split; [apply W|apply W']; left; reflexivity.
Qed.
Lemma build_top : forall env o t t' x, plain_render env o -> alike t t' -> spaces_are_ws t -> spaces_are_ws t' ->
  build env o t x = build env o t' x.
Proof.
  intros env o t t' x P A W W'. unfold build. destruct (x && inner_html o)%bool; [reflexivity|].
  set (inner := if x then IText else if inner_html o then IHtml else INone).
  pose proof (build_alike env o P t t' A W W') as Bt.
  destruct inner; [rewrite Bt; reflexivity| |].
  all: assert (Ty : type_alike (t_type t) (t_type t')) by (destruct A; assumption).
  all: destruct Ty as [Ty|[Ty Ty']]; [|destruct Ty as [-> | ->]; destruct Ty' as [-> | ->]; reflexivity].
  all: rewrite <- Ty; destruct (t_type t) eqn:T0; try reflexivity; try (rewrite Bt; reflexivity).
  all: assert (Kc : match t_childs t, t_childs t' with None, None => True | Some l, Some l' => Forall2 alike l l' | _, _ => False end) by (clear - A; destruct A; cbn [t_childs]; auto).
  all: destruct (t_childs t) as [l|] eqn:C1; destruct (t_childs t') as [l'|] eqn:C2; try contradiction; try reflexivity.
  all: assert (Wl : forall k, In k l -> spaces_are_ws k) by (intros k; eapply (sub_kid _ _ k W); exact C1).
  all: assert (Wl' : forall k, In k l' -> spaces_are_ws k) by (intros k; eapply (sub_kid _ _ k W'); exact C2).
  all: pose proof (tags_alike l l' Kc Wl Wl') as Fl.
  all: destruct Fl as [|k k' fl fl' [Ak [Wk Wk']] Fl]; [reflexivity|]; destruct Fl; [|reflexivity]; rewrite (build_alike env o P k k' Ak Wk Wk'); reflexivity.
Qed.

(** ** Input that ends inside a tag *)
Lemma cut_case : forall opts s d, parse_res opts s = ROk d ->
  (exists st, bsteps (doc_new opts) s st /\ (is_W st \/ is_T st) /\ eof st = ROk d) \/ cut_short opts s d.
Proof.
  intros opts s d H. destruct (accepted _ _ _ H) as [s1 [s2 [st1 [st [Es [B [R [D He]]]]]]]].
  destruct (accepted_ending _ _ _ H) as [st' [R' [En He']]]. rewrite R in R'. injection R' as <-.
  destruct D as [[-> [-> D]]|[Af [U [_ [p [rest [Ec D]]]]]]]; [left; rewrite app_nil_r in Es; subst; eauto|]. right.
  pose proof (finish _ _ _ En He) as F. pose proof (bsteps_sok _ _ _ B) as S.
  destruct (bsteps_U _ _ _ B U) as [s0 [E0 Mp]].
  pose proof (opened_ok opts st1 p rest NTag S Ec) as Op. destruct Op as [_ [_ [_ Tn]]]; try discriminate.
  assert (X : exists n a, s2 = n ++ a /\ open_name n /\ area_start a /\ ty (d_heap st) (length (d_heap st1)) = NTag /\
     n_begin_at (hget (d_heap st) (length (d_heap st1))) = d_mem_position st1 /\
     (a = [] \/ exists t, ta_run opts false a (ta_start (d_mark_char st1)) = Some t)).
  { pose proof (hget_opened_new opts st1 p rest NTag S Ec) as Nw.
    destruct D as [[On ->]|[n [a [t [-> [On [Na [As [Ru ->]]]]]]]]].
    - exists s2, []. rewrite app_nil_r. split; [reflexivity|]. split; [exact On|]. split; [exact I|]. cbn [st_name d_heap].
      split; [exact Tn|]. split; [|left; reflexivity]. rewrite Nw. reflexivity.
    - exists n, a. split; [reflexivity|]. split; [exact On|]. split; [exact As|]. cbn [st_area d_heap].
      rewrite ty_set_meta. split; [exact Tn|]. split; [|right; eauto]. unfold set_meta. rewrite (hupd_keep n_begin_at) by reflexivity. rewrite Nw. reflexivity. }
  destruct X as [n [a [-> [On [As [Ty [Bg Ru]]]]]]]. exists (length (d_heap st1)), s0, n, a.
  assert (L : length (d_heap st1) < length (d_heap st)) by (apply (ty_lt _ _ _ Ty); discriminate).
  split; [apply (final_ty opts st d _ NTag F En); [apply not_textual; reflexivity|discriminate|discriminate|exact Ty]|].
  split; [rewrite (f_begin _ _ _ F) by exact L; congruence|].
  split; [rewrite Es, E0, <- !app_assoc; reflexivity|]. split; [exact On|]. split; [apply area_start_with, As|].
  intros a1 a2 l sc Ea Ar. destruct Ru as [->|[t Ru]]; [destruct a1; discriminate|].
  destruct (area_run opts false a1 l sc (d_mark_char st1) Ar) as [t1 [R1 [C1 _]]]. subst a.
  assert (Ap : forall a b t0, ta_run opts false (a ++ b) t0 = match ta_run opts false a t0 with Some t => ta_run opts false b t | None => None end).
  { clear. induction a as [|x a IH]; intros b t0; [reflexivity|]. cbn [app ta_run]. destruct (ta_closes x t0); [reflexivity|].
    destruct (ta_step opts false x t0); [apply IH|reflexivity]. }
  rewrite Ap, R1 in Ru. cbn in Ru. unfold ta_closes in Ru. rewrite C1 in Ru. discriminate Ru.
Qed.

Lemma alike_refl : forall t, (forall s e, sub s t -> t_end_tag s = Some e -> t_type e = NTagEnd) -> alike t t.
Proof.
  intro t. induction t as [i ty b e et c ks m _ Hks] using tree_ind'. intro En.
  assert (Ee : end_alike et et).
  { destruct et as [x|]; [|exact I]. pose proof (En _ x (sub_refl _) eq_refl) as T. split; [exact T|]. split; [exact T|reflexivity]. }
  destruct ks as [l|]; [apply alike_node|apply alike_leaf]; auto; try (left; reflexivity); try reflexivity.
  cbn [optP] in Hks.
  assert (K : forall k, In k l -> forall s e, sub s k -> t_end_tag s = Some e -> t_type e = NTagEnd).
  { intros k X s0 e0 Sb. apply En. eapply sub_child; [reflexivity|exact X|exact Sb]. }
  clear - Hks K. induction Hks; constructor; [apply H; apply K; left; reflexivity|]. apply IHHks. intros k X. apply K. right. exact X.
Qed.

Lemma has_tree : forall opts s d, parse opts s = Parsed d -> exists t, doc_tree d = Some t.
Proof.
  intros opts s d H. destruct (graph_tree _ _ _ H) as [_ [_ [_ [_ [_ X]]]]]. destruct (doc_tree d) as [t|]; [eauto|contradiction].
Qed.
Lemma at_parse : forall opts s st d, bsteps (doc_new opts) s st -> eof st = ROk d -> parse opts s = Parsed d.
Proof. intros opts s st d B He. unfold parse, parse_res. destruct (reach _ _ _ B) as [-> _]. cbn [rbind]. rewrite He. reflexivity. Qed.
Lemma closed_source_at : forall opts s st d, bsteps (doc_new opts) s st -> is_W st \/ is_T st -> eof st = ROk d ->
  exists d' t t', parse opts (s ++ closers (rev (fixed_names d))) = Parsed d' /\ fixed_names d' = [] /\
    doc_tree d = Some t /\ doc_tree d' = Some t' /\ alike t t' /\ d_id_tags d' = d_id_tags d.
Proof.
  intros opts s st d B R He. pose proof (at_parse _ _ _ _ B He) as H.
  pose proof (names_fixed _ _ _ _ B R He) as Nm. pose proof (bsteps_sok _ _ _ B) as S.
  destruct (has_tree _ _ _ H) as [t Ht].
  assert (Rv : rev (fixed_names d) = map (name_at (d_heap st)) (removelast (d_chain_nodes st))).
  { rewrite Nm. unfold open_at_end. rewrite rev_tl, <- map_rev, rev_involutive. reflexivity. }
  rewrite Rv. destruct (removelast (d_chain_nodes st)) as [|x l] eqn:Rl.
  - exists d, t, t. cbn. rewrite app_nil_r. split; [exact H|]. split; [|split; [exact Ht|split; [exact Ht|split; [|reflexivity]]]].
    + rewrite <- (rev_involutive (fixed_names d)), Rv. reflexivity.
    + apply alike_refl. intros s0 e Sb E. destruct (doc_tree_in _ _ _ _ H Ht) as [Ti _].
      apply (proj1 (proj1 (tree_ends_placed _ _ _ H t Ti) s0 Sb) e E).
  - rewrite <- Rl. assert (Ne : removelast (d_chain_nodes st) <> []) by (rewrite Rl; discriminate).
    destruct (close_any _ _ _ B R Ne) as [st' [B' [W' [L' [I' C']]]]].
    set (s' := s ++ closers (map (name_at (d_heap st)) (removelast (d_chain_nodes st)))) in *.
    destruct (eof_succeeds st') as [d' He']; [left; exact L'|destruct W' as [_ [[-> | ->] _]]; exact I|].
    assert (H' : parse opts s' = Parsed d').
    { unfold parse, parse_res. destruct (reach _ _ _ B') as [-> _]. cbn [rbind]. rewrite He'. reflexivity. }
    destruct (has_tree _ _ _ H') as [t' Ht']. exists d', t, t'. pose proof (bsteps_sok _ _ _ B') as S'.
    split; [exact H'|]. split; [|split; [exact Ht|split; [exact Ht'|split]]].
    + rewrite (names_fixed _ _ _ _ B' (or_introl W') He'). unfold open_at_end.
      destruct (d_chain_nodes st') as [|y [|z r]]; [reflexivity|reflexivity|cbn in L'; lia].
    + pose proof (fixed_agree opts st d st' d' S R He S' W' L' He' C') as A. unfold doc_tree in *.
      pose proof (finish _ _ _ (sok_ending _ _ S R) He) as F. pose proof (finish _ _ _ (sok_ending _ _ S' (or_introl W')) He') as F'.
      rewrite (f_root _ _ _ F) in Ht. rewrite (f_root _ _ _ F') in Ht'.
      eapply (agree_alike _ _ _ A); [|exact Ht|exact Ht']. apply (hs_root _ _ (s_hs _ _ S)).
    + destruct (eof_inv _ _ He) as [_ [_ [_ [_ [-> _]]]]]. destruct (eof_inv _ _ He') as [_ [_ [_ [_ [-> _]]]]]. exact I'.
Qed.
Theorem closed_source : forall opts s d, parse opts s = Parsed d -> ~ cut_short opts s d ->
  exists d' t t', parse opts (s ++ closers (rev (fixed_names d))) = Parsed d' /\ fixed_names d' = [] /\
    doc_tree d = Some t /\ doc_tree d' = Some t' /\ alike t t' /\ d_id_tags d' = d_id_tags d.
Proof.
  intros opts s d H Nc. destruct (cut_case _ _ _ (parsed_res _ _ _ H)) as [[st [B [R He]]]|X]; [|contradiction]. eapply closed_source_at; eauto.
Qed.
Theorem closed_render : forall opts s d env o x, parse opts s = Parsed d -> ~ cut_short opts s d -> plain_render env o ->
  exists d', parse opts (s ++ closers (rev (fixed_names d))) = Parsed d' /\ fixed_names d' = [] /\
    render_gen env o x d' = render_gen env o x d.
Proof.
  intros opts s d env o x H Nc P. destruct (closed_source _ _ _ H Nc) as [d' [t [t' [H' [N' [Ht [Ht' [A _]]]]]]]].
  exists d'. split; [exact H'|]. split; [exact N'|]. unfold render_gen. rewrite Ht, Ht'. symmetry.
  destruct (doc_tree_in _ _ _ _ H Ht) as [Ti _]. destruct (doc_tree_in _ _ _ _ H' Ht') as [Ti' _].
  apply build_top; [exact P|exact A|exact (tree_spaces _ _ _ H t Ti)|exact (tree_spaces _ _ _ H' t' Ti')].
Qed.

(** The same text is accepted when elements without end tag are errors. *)
Lemma strict_le : forall o, auto_fix_unexpected_endtag o = false -> po_le o (strict_ends o).
Proof. intros o E. unfold po_le, strict_ends. cbn. rewrite E. repeat split; auto; discriminate. Qed.
Lemma strict_steps : forall o s st, auto_fix_unexpected_endtag o = false -> bsteps (doc_new o) s st ->
  is_W st \/ is_T st -> length (d_chain_nodes st) <= 1 ->
  exists d d', parse o s = Parsed d /\ parse (strict_ends o) s = Parsed d' /\ same_doc d d'.
Proof.
  intros o s st E B R L.
  assert (C : match d_code_in st with CTextNode | CUnkown | CAbstractRoot => True | CTag => auto_fix_unclosed_tag (d_parse_options st) = true | _ => False end).
  { destruct R as [[_ [[-> | ->] _]]|[_ [-> _]]]; exact I. }
  destruct (eof_succeeds st (or_introl L) C) as [d He].
  destruct (steps_mono o (strict_ends o) s st (strict_le _ E)) with (2 := B) as [st' [B' Rl]].
  { intros a t b Es n x y Et On Rw. split; auto. }
  destruct (eof_mono st st' d Rl) as [d' [He' [Hp [Ro Id]]]]; [right; split; [exact L|]|exact He|].
  { intro X. rewrite X in C. destruct R as [[_ [[Y|Y] _]]|[_ [Y _]]]; congruence. }
  exists d, d'. split; [|split].
  - unfold parse, parse_res. destruct (reach _ _ _ B) as [-> _]. cbn [rbind]. rewrite He. reflexivity.
  - unfold parse, parse_res. destruct (reach _ _ _ B') as [-> _]. cbn [rbind]. rewrite He'. reflexivity.
  - split; [symmetry; exact Hp|]. split; [exact Ro|]. split; [exact Id|]. unfold doc_tree.
    assert (Ln : length (d_heap d') = length (d_heap d)) by (rewrite <- (np_len (d_heap d')), <- Hp, np_len; reflexivity).
    rewrite Ln, Ro. symmetry. apply np_tree. exact Hp.
Qed.
Lemma closed_strict_at : forall opts s st d, bsteps (doc_new opts) s st -> is_W st \/ is_T st -> eof st = ROk d -> auto_fix_unexpected_endtag opts = false ->
  exists d' t t', parse (strict_ends opts) (s ++ closers (rev (fixed_names d))) = Parsed d' /\
    doc_tree d = Some t /\ doc_tree d' = Some t' /\ alike t t' /\ d_id_tags d' = d_id_tags d.
Proof.
  intros opts s st d B R He E. destruct (closed_source_at _ _ _ _ B R He) as [d1 [t [t' [H1 [N1 [Ht [Ht' [A Id]]]]]]]].
  assert (X : exists st', bsteps (doc_new opts) (s ++ closers (rev (fixed_names d))) st' /\ (is_W st' \/ is_T st') /\ length (d_chain_nodes st') <= 1).
  { rewrite (names_fixed _ _ _ _ B R He). unfold open_at_end. rewrite rev_tl, <- map_rev, rev_involutive.
    destruct (removelast (d_chain_nodes st)) as [|x l] eqn:Rl.
    - exists st. cbn. rewrite app_nil_r. split; [exact B|]. split; [exact R|]. destruct (d_chain_nodes st) as [|y [|z r]]; cbn; try lia. discriminate Rl.
    - rewrite <- Rl. destruct (close_any _ _ _ B R) as [st' [B' [W' [L' _]]]]; [rewrite Rl; discriminate|]. eauto. }
  destruct X as [st' [B' [R' L']]]. destruct (strict_steps _ _ _ E B' R' L') as [d2 [d' [P2 [P' [S1 [S2 [S3 S4]]]]]]].
  rewrite H1 in P2. injection P2 as <-. exists d', t, t'. split; [exact P'|]. split; [exact Ht|]. split; [congruence|]. split; [exact A|congruence].
Qed.
Theorem closed_strict : forall opts s d, parse opts s = Parsed d -> ~ cut_short opts s d -> auto_fix_unexpected_endtag opts = false ->
  exists d' t t', parse (strict_ends opts) (s ++ closers (rev (fixed_names d))) = Parsed d' /\
    doc_tree d = Some t /\ doc_tree d' = Some t' /\ alike t t' /\ d_id_tags d' = d_id_tags d.
Proof.
  intros opts s d H Nc E. destruct (cut_case _ _ _ (parsed_res _ _ _ H)) as [[st [B [R He]]]|X]; [|contradiction]. eapply closed_strict_at; eauto.
Qed.
