(** What a token leaves alone, and the nodes it creates. *)
From Coq Require Import String.
From Verif Require Import Api SpecText SpecParse HeapLemmas InvCtl Big BigSteps Struct.
Local Open Scope string_scope.
Local Open Scope list_scope.

Definition nkids (n : node) : list nid := match n_childs n with Some l => l | None => [] end.

(** [n'] is a later version of node [n]; [b]: identifiers of nodes created since are at least [b]. *)
Record nfr (b : nat) (n n' : node) : Prop := mkNfr {
  nf_kind : same_kind (n_type n) (n_type n');
  nf_meta : n_meta n' = n_meta n;
  nf_begin : n_begin_at n' = n_begin_at n;
  nf_index : n_index n' = n_index n;
  nf_parent : n_parent n' = n_parent n;
  nf_root : n_root n' = n_root n;
  nf_prev : n_prev n' = n_prev n;
  nf_fixed : ~ textual (n_type n) -> n_content n' = n_content n /\ n_end_at n' = n_end_at n;
  nf_end : forall e, n_end_tag n = Some e -> n_end_tag n' = Some e;
  nf_kids : exists l, nkids n' = nkids n ++ l /\ Forall (le b) l
}.
Definition fr (h h' : list node) : Prop :=
  length h <= length h' /\ forall i, i < length h -> nfr (length h) (hget h i) (hget h' i).

Lemma nfr_refl : forall b n, nfr b n n.
Proof. intros. constructor; auto; try apply same_kind_refl. exists []. rewrite app_nil_r. auto. Qed.
Lemma same_kind_textual_iff : forall a b, same_kind a b -> (textual a <-> textual b).
Proof. intros a b [->|[A B]]; tauto. Qed.
Lemma nfr_trans : forall b b' n1 n2 n3, b <= b' -> nfr b n1 n2 -> nfr b' n2 n3 -> nfr b n1 n3.
Proof.
  intros b b' n1 n2 n3 L A B. destruct A as [A1 A2 A3 A4 A5 A6 A7 A8 A9 [la [A10 A11]]].
  destruct B as [B1 B2 B3 B4 B5 B6 B7 B8 B9 [lb [B10 B11]]]. constructor; try congruence.
  - eapply same_kind_trans; eauto.
  - intro T. destruct (A8 T) as [X Y]. assert (T2 : ~ textual (n_type n2)) by (rewrite <- (same_kind_textual_iff _ _ A1); exact T).
    destruct (B8 T2). split; congruence.
  - auto.
  - exists (la ++ lb). rewrite B10, A10, app_assoc. split; [reflexivity|]. apply Forall_app. split; [exact A11|].
    eapply Forall_impl; [|exact B11]. intros; lia.
Qed.
Lemma fr_refl : forall h, fr h h.
Proof. intro h. split; [apply le_n|]. intros. apply nfr_refl. Qed.
Lemma fr_trans : forall a b c, fr a b -> fr b c -> fr a c.
Proof.
  intros a b c [L1 A] [L2 B]. split; [lia|]. intros i Hi. eapply nfr_trans; [exact L1|apply A, Hi|apply B; lia].
Qed.
Lemma fr_len : forall a b, fr a b -> length a <= length b. Proof. intros a b [L _]. exact L. Qed.

(** Building a later heap step by step from [h0]. *)
Lemma fr_app : forall h0 h n, fr h0 h -> fr h0 (h ++ [n]).
Proof.
  intros h0 h n [L F]. split; [rewrite app_length; lia|]. intros i Hi. rewrite hget_app_old by lia. auto.
Qed.
Lemma fr_upd_new : forall h0 h i f, fr h0 h -> length h0 <= i -> fr h0 (hupd h i f).
Proof.
  intros h0 h i f [L F] Hi. split; [rewrite hupd_length; lia|]. intros j Hj. rewrite hget_hupd_other by lia. auto.
Qed.
Lemma fr_upd : forall h0 h i f, fr h0 h -> (i < length h0 -> nfr (length h0) (hget h i) (f (hget h i))) -> fr h0 (hupd h i f).
Proof.
  intros h0 h i f [L F] K. split; [rewrite hupd_length; lia|]. intros j Hj. destruct (Nat.eq_dec i j) as [->|N].
  - rewrite hget_hupd_same by lia. eapply nfr_trans; [apply le_n|apply F, Hj|apply K, Hj].
  - rewrite hget_hupd_other by exact N. auto.
Qed.
Lemma fr_child : forall h p n, fr h (add_child h p n).
Proof.
  intros. unfold add_child. apply fr_upd; [apply fr_app, fr_refl|]. intro Hp. rewrite hget_app_old by exact Hp.
  constructor; auto; try apply same_kind_refl. exists [length h]. split; [reflexivity|]. constructor; [apply le_n|constructor].
Qed.
Lemma fr_orphan : forall h p n, fr h (add_orphan h p n).
Proof.
  intros. unfold add_orphan. apply fr_upd; [apply fr_app, fr_refl|]. intro Hp. rewrite hget_app_old by exact Hp.
  constructor; auto; try apply same_kind_refl. exists [length h]. split; [reflexivity|]. constructor; [apply le_n|constructor].
Qed.
Lemma nfr_type : forall b n t, textual (n_type n) -> textual t -> nfr b n (nset_type t n).
Proof.
  intros b n t T T'. constructor; auto.
  - right. split; assumption.
  - exists []. rewrite app_nil_r. split; [reflexivity|constructor].
Qed.
Lemma fr_flip : forall h0 h ck, fr h0 h -> (forall k, ck = Some k -> textual (ty h0 k)) -> fr h0 (flip ck h).
Proof.
  intros h0 h [k|] F C; [|exact F]. cbn. apply fr_upd; [exact F|]. intro Hk. apply nfr_type; [|right; reflexivity].
  destruct F as [_ F]. apply (proj1 (same_kind_textual_iff _ _ (nf_kind _ _ _ (F k Hk)))). apply (C k eq_refl).
Qed.
Lemma nfr_text : forall b n n', textual (n_type n) -> n_type n' = n_type n -> n_meta n' = n_meta n -> n_begin_at n' = n_begin_at n ->
  n_index n' = n_index n -> n_parent n' = n_parent n -> n_root n' = n_root n -> n_prev n' = n_prev n ->
  n_end_tag n' = n_end_tag n -> n_childs n' = n_childs n -> nfr b n n'.
Proof.
  intros b n n' T E1 E2 E3 E4 E5 E6 E7 E8 E9. constructor; auto.
  - rewrite E1. apply same_kind_refl.
  - intro X. contradiction.
  - intros e E. congruence.
  - exists []. rewrite app_nil_r. unfold nkids. rewrite E9. split; [reflexivity|constructor].
Qed.
Lemma fr_opened : forall opts u p t, sok opts u -> fr (d_heap u) (opened u p t).
Proof.
  intros opts u p t S. unfold opened. apply fr_flip; [apply fr_child|]. apply (s_check _ _ S).
Qed.
Lemma fr_closed : forall opts u tag nm pos, sok opts u -> n_end_tag (hget (d_heap u) tag) = None ->
  fr (d_heap u) (closed_heap u tag nm pos).
Proof.
  intros opts u tag nm pos S E. unfold closed_heap. cbv zeta.
  apply fr_upd_new; [|apply le_n]. apply fr_upd_new; [|apply le_n].
  match goal with |- fr _ (if ?b then ?x else _) => assert (F : fr (d_heap u) x); [|destruct b; [exact F|]] end.
  - apply fr_upd; [apply fr_app, fr_refl|]. intro Ht. rewrite hget_app_old by exact Ht.
    constructor; auto; try apply same_kind_refl.
    + intros e X. congruence.
    + exists []. rewrite app_nil_r. split; [reflexivity|constructor].
  - apply fr_flip; [exact F|]. apply (s_check _ _ S).
Qed.
Lemma fr_lt : forall opts u s, sok opts u -> fr (d_heap u) (d_heap (lt_text u s)).
Proof.
  intros opts u s S. unfold lt_text. cbv zeta. destruct (n_type (cur u)) eqn:T; try apply fr_orphan.
  destruct (n_content (cur u)); [|apply fr_refl]. cbn [d_heap]. apply fr_upd; [apply fr_refl|]. intros _.
  apply nfr_text; auto. left. exact T.
Qed.
Lemma closes_inv : forall u nm tag rest, closes u nm = Some (tag, rest) ->
  d_chain_nodes u = tag :: rest /\ rest <> [] /\
  exists m, n_meta (hget (d_heap u) tag) = Some m /\ same_name (m_name m) (trim_right nm) = true.
Proof.
  intros u nm tag rest E. unfold closes, get_node in E. destruct (d_chain_nodes u) as [|i [|j l]]; try discriminate.
  destruct (n_meta (hget (d_heap u) i)) as [m|] eqn:M; [|discriminate]. destruct (same_name _ _) eqn:Sn; [|discriminate].
  injection E as <- <-. split; [reflexivity|]. split; [discriminate|]. eauto.
Qed.
Lemma bstep_fr : forall opts u s st, bstep u s st -> sok opts u -> fr (d_heap u) (d_heap st).
Proof.
  intros opts u s st B. induction B; intro S; cbn [W_of d_heap set_position].
  - apply fr_refl.
  - destruct ct; [|apply fr_refl]. apply fr_upd; [apply fr_refl|]. intros _. apply nfr_text; auto. left. assumption.
  - apply fr_child.
  - apply fr_refl.
  - pose proof (s_text _ _ S H) as T. rewrite hupd_hupd. apply fr_upd; [apply fr_refl|]. intros _.
    apply nfr_text; auto. left. exact T.
  - apply fr_upd_new; [|apply le_n]. eapply fr_opened; eauto.
  - apply fr_upd_new; [|apply le_n]. eapply fr_opened; eauto.
  - apply fr_upd_new; [|apply le_n]. eapply fr_opened; eauto.
  - apply fr_upd_new; [|apply le_n]. apply fr_app. apply fr_upd_new; [|apply le_n]. eapply fr_opened; eauto.
  - eapply fr_closed; [exact S|]. apply (s_open _ _ S). destruct (closes_inv _ _ _ _ H1) as [-> _]. left. reflexivity.
  - unfold dropped_heap. apply fr_app, fr_refl.
  - apply fr_upd_new; [|apply le_n]. apply fr_upd_new; [|apply le_n]. eapply fr_opened; eauto.
  - apply fr_upd_new; [|apply le_n]. apply fr_upd_new; [|apply le_n]. eapply fr_opened; eauto.
  - apply fr_upd_new; [|apply le_n]. eapply fr_opened; eauto.
  - eapply fr_lt; eauto.
  - eapply fr_trans; [eapply fr_lt; exact S|]. apply IHB, sok_lt; auto. rewrite <- (s_opts _ _ S). assumption.
Qed.

(** ** New nodes *)
Definition child_node (h : list node) (p : nid) (n : node) : node :=
  nset_root (Some 0) (nset_index (length (kids h p)) (nset_parent (Some p) n)).
Lemma hget_add_child : forall h p n i, hget (add_child h p n) i =
  if Nat.eqb i (length h) then (if Nat.eqb p (length h) then nset_childs (Some (kids h p ++ [length h])) (child_node h p n) else child_node h p n)
  else if Nat.eqb i p then (if Nat.ltb p (length h) then nset_childs (Some (kids h p ++ [length h])) (hget h p) else dummy_node) else hget h i.
Proof.
  intros h p n i. unfold add_child. fold (child_node h p n).
  destruct (Nat.eqb_spec i (length h)) as [->|N].
  - destruct (Nat.eqb_spec p (length h)) as [->|N2].
    + rewrite hget_hupd_same by (rewrite app_length; cbn; lia). rewrite hget_app_new. reflexivity.
    + rewrite hget_hupd_other by exact N2. apply hget_app_new.
  - destruct (Nat.eqb_spec i p) as [->|N2].
    + destruct (Nat.ltb_spec p (length h)).
      * rewrite hget_hupd_same by (rewrite app_length; cbn; lia). rewrite hget_app_old by assumption. reflexivity.
      * rewrite hget_default; [reflexivity|]. rewrite hupd_length, app_length. cbn. lia.
    + rewrite hget_hupd_other by congruence. rewrite hget_app_case. destruct (Nat.ltb_spec i (length h)); [reflexivity|].
      destruct (Nat.eqb_spec i (length h)); [contradiction|]. rewrite hget_default by assumption. reflexivity.
Qed.
Lemma hget_child_new : forall h p n, p < length h -> hget (add_child h p n) (length h) = child_node h p n.
Proof. intros. rewrite hget_add_child, Nat.eqb_refl. destruct (Nat.eqb_spec p (length h)); [lia|reflexivity]. Qed.
Lemma hget_orphan_new : forall h p n, p < length h -> hget (add_orphan h p n) (length h) = nset_index (length (kids h p)) n.
Proof. intros. unfold add_orphan. rewrite hget_hupd_other by lia. apply hget_app_new. Qed.
Lemma hget_opened_new : forall opts u p rest t, sok opts u -> d_chain_nodes u = p :: rest ->
  hget (opened u p t) (length (d_heap u)) = child_node (d_heap u) p (node_new t (d_mem_position u)).
Proof.
  intros opts u p rest t S E. pose proof (s_chain _ _ S) as C. rewrite E in C.
  assert (Hp : p < length (d_heap u)) by (cbn in C; tauto).
  unfold opened, flip. destruct (d_check_textnode u) as [k|] eqn:Ek.
  - pose proof (textual_lt _ _ (s_check _ _ S k Ek)). rewrite hget_hupd_other by lia. apply hget_child_new, Hp.
  - apply hget_child_new, Hp.
Qed.

Inductive born (u : doc) : list char -> nid -> node -> Prop :=
  | bn_text : forall c p rest, d_chain_nodes u = p :: rest -> is_W u ->
      born u [c] (length (d_heap u)) (child_node (d_heap u) p (node_new NText (d_position u)))
  | bn_tag : forall n a t p rest, is_U u -> open_name n -> area_start a -> d_chain_nodes u = p :: rest ->
      ta_run (d_parse_options u) false a (ta_start (d_mark_char u)) = Some t -> ta_closable t = true ->
      ta_slash t = false -> is_content_tag (lower n) None = false ->
      born u (n ++ a ++ str ">") (length (d_heap u))
        (nset_meta (Some (ta_meta n false (ta_close t))) (child_node (d_heap u) p (node_new NTag (d_mem_position u))))
  | bn_self : forall n a t p rest, is_U u -> open_name n -> area_start a -> d_chain_nodes u = p :: rest ->
      ta_run (d_parse_options u) false a (ta_start (d_mark_char u)) = Some t -> 
      ta_slash t = true -> self_close_ok u n = true ->
      born u (n ++ a ++ str ">") (length (d_heap u))
        (nset_meta (Some (ta_meta n true t)) (child_node (d_heap u) p (node_new NTag (d_mem_position u))))
  | bn_raw : forall n a t p rest b, is_U u -> open_name n -> area_start a -> d_chain_nodes u = p :: rest ->
      ta_run (d_parse_options u) false a (ta_start (d_mark_char u)) = Some t -> ta_closable t = true ->
      ta_slash t = false -> is_content_tag (lower n) None = true ->
      open_until (raw_end (d_parse_options u) (str "</" ++ n)) b ->
      raw_end (d_parse_options u) (str "</" ++ n) b = true ->
      born u (n ++ a ++ str ">" ++ b ++ str ">") (length (d_heap u))
        (nset_content (Some (firstn (length (chars_trim_end b) - length (str "</" ++ n)) b))
           (nset_end_tag (Some (S (length (d_heap u))))
           (nset_meta (Some (ta_meta n false (ta_close t))) (child_node (d_heap u) p (node_new NTag (d_mem_position u))))))
  | bn_rawend : forall n a b,
      born u (n ++ a ++ str ">" ++ b ++ str ">") (S (length (d_heap u)))
        (nset_parent (Some (length (d_heap u)))
           (nset_content (Some (skipn 2 (skipn (length (chars_trim_end b) - length (str "</" ++ n)) b)))
              (node_new NTagEnd (d_position u + length (n ++ a ++ str ">" ++ b ++ str ">")))))
  | bn_close : forall nm tag rest n0, is_U u -> ~ In TAG_END_CHAR nm -> closes u nm = Some (tag, rest) ->
      n_type n0 = NTagEnd -> n_meta n0 = None -> n_childs n0 = None -> n_end_tag n0 = None ->
      n_begin_at n0 = d_mem_position u ->
      born u (str "/" ++ nm ++ str ">") (length (d_heap u))
        (nset_content (Some nm) (nset_parent (Some tag) (end_info (d_position u + length (str "/" ++ nm)) n0)))
  | bn_drop : forall nm n0, is_U u -> ~ In TAG_END_CHAR nm -> closes u nm = None ->
      n_type n0 = NTagEnd -> n_meta n0 = None -> n_childs n0 = None -> n_end_tag n0 = None ->
      n_begin_at n0 = d_mem_position u -> n_end_at n0 = d_mem_position u -> n_content n0 = None ->
      born u (str "/" ++ nm ++ str ">") (length (d_heap u)) n0
  | bn_comment : forall b p rest, is_U u -> d_chain_nodes u = p :: rest ->
      open_until (cm_end DASH_CHAR) b -> cm_end DASH_CHAR b = true ->
      born u (str "!--" ++ b ++ str ">") (length (d_heap u))
        (end_info (d_position u + length (str "!--" ++ b)) (nset_content (Some (firstn (length b - 2) b))
           (child_node (d_heap u) p (node_new NComment (d_mem_position u)))))
  | bn_cdata : forall kw b p rest, is_U u -> d_chain_nodes u = p :: rest ->
      same_name kw (str "[cdata[") = true -> cdata_here u ->
      open_until (cm_end RIGHT_BRACKET_CHAR) b -> cm_end RIGHT_BRACKET_CHAR b = true ->
      born u (str "!" ++ kw ++ b ++ str ">") (length (d_heap u))
        (end_info (d_position u + length (str "!" ++ kw ++ b)) (nset_content (Some (firstn (length b - 2) b))
           (child_node (d_heap u) p (node_new NXMLCDATA (d_mem_position u)))))
  | bn_doctype : forall n c a t p rest, is_U u -> d_chain_nodes u = p :: rest ->
      same_name n (str "doctype") = true -> is_ws c ->
      ta_run (d_parse_options u) true a (ta_start (d_mark_char u)) = Some t -> ta_closable t = true ->
      born u (str "!" ++ n ++ [c] ++ a ++ str ">") (length (d_heap u))
        (nset_meta (Some (ta_meta n (ta_slash t) (ta_close t)))
           (child_node (d_heap u) p (node_new NHTMLDOCTYPE (d_mem_position u))))
  | bn_lt : forall c p, is_U u -> auto_fix_unescaped_lt (d_parse_options u) = true ->
      born u [c] (length (d_heap u)) (nset_index (length (kids (d_heap u) p)) (node_new NText (d_mem_position u)))
  | bn_lt_lt : forall p, is_U u -> auto_fix_unescaped_lt (d_parse_options u) = true ->
      born u [TAG_BEGIN_CHAR] (length (d_heap u))
        (end_info (d_position u) (nset_content (Some (str "&lt;"))
          (nset_index (length (kids (d_heap u) p)) (node_new NText (d_mem_position u))))).

Lemma chain_hd : forall opts u p rest, sok opts u -> d_chain_nodes u = p :: rest -> p < length (d_heap u).
Proof. intros opts u p rest S E. pose proof (s_chain _ _ S) as C. rewrite E in C. cbn in C. tauto. Qed.

Lemma lt_new : forall opts u s i, sok opts u -> is_U u -> auto_fix_unescaped_lt opts = true ->
  length (d_heap u) <= i < length (d_heap (lt_text u s)) ->
  i = length (d_heap u) /\ d_current_node (lt_text u s) = i /\ d_prev_chars (lt_text u s) = s /\ exists p,
  hget (d_heap (lt_text u s)) i = nset_index (length (kids (d_heap u) p)) (node_new NText (d_mem_position u)).
Proof.
  intros opts u s i S U Hlt Hi. pose proof (sok_lt opts u s S U Hlt) as S2. 
  assert (P : lt_parent u < length (d_heap u)).
  { unfold lt_parent. assert (CP : match d_chain_nodes u with i :: _ => i | [] => d_root u end < length (d_heap u)).
    { destruct (d_chain_nodes u) eqn:E; [rewrite (s_root _ _ S); apply (s_hs _ _ S)|eapply chain_hd; eauto]. }
    destruct (n_type (cur u)); auto. destruct (n_meta (cur u)) as [m|]; [|apply (s_cur _ _ S)].
    destruct (m_self_closed m || m_auto_fix m)%bool; [exact CP|apply (s_cur _ _ S)]. }
  unfold lt_text in Hi |- *. cbv zeta in Hi |- *.
  destruct (n_type (cur u)) eqn:T;
    try (cbn [d_heap d_current_node d_prev_chars] in Hi |- *; rewrite add_orphan_length in Hi; assert (i = length (d_heap u)) by lia; subst i;
         split; [reflexivity|]; split; [reflexivity|]; split; [reflexivity|]; exists (lt_parent u); apply hget_orphan_new; exact P).
  exfalso. destruct (n_content (cur u)); cbn [d_heap] in Hi; rewrite ?hupd_length in Hi; lia.
Qed.

Lemma bstep_born : forall opts u s st i, bstep u s st -> sok opts u ->
  length (d_heap u) <= i < length (d_heap st) -> born u s i (hget (d_heap st) i).
Proof.
  intros opts u s st i B S Hi. inversion B; subst; cbn [W_of d_heap set_position] in Hi |- *;
    try rewrite !hupd_length in Hi; try rewrite !app_length in Hi; try rewrite set_meta_length, opened_length in Hi; 
    try rewrite add_child_length in Hi; try rewrite opened_length in Hi; cbn [length] in Hi; try lia.
  - exfalso. destruct (n_content (cur u)); rewrite ?hupd_length in Hi; lia.
  - assert (i = length (d_heap u)) by lia. subst i. rewrite hget_child_new by (eapply chain_hd; eauto). eapply bn_text; eauto.
  - assert (i = length (d_heap u)) by lia. subst i. unfold set_meta. rewrite hget_hupd_same by (rewrite opened_length; lia).
    rewrite (hget_opened_new opts u p rest) by assumption. eapply bn_tag; eauto.
  - assert (i = length (d_heap u)) by lia. subst i. unfold set_meta. rewrite hget_hupd_same by (rewrite opened_length; lia).
    rewrite (hget_opened_new opts u p rest) by assumption. eapply bn_tag; eauto.
    destruct (is_content_tag (lower n) None) eqn:C; [|reflexivity]. apply content_not_void in C. congruence.
  - assert (i = length (d_heap u)) by lia. subst i. unfold set_meta. rewrite hget_hupd_same by (rewrite opened_length; lia).
    rewrite (hget_opened_new opts u p rest) by assumption. eapply bn_self; eauto.
  - assert (L1 : length (set_meta (opened u p NTag) (length (d_heap u)) (ta_meta n false (ta_close t))) = Datatypes.S (length (d_heap u)))
      by (rewrite set_meta_length, opened_length; reflexivity).
    destruct (Nat.eq_dec i (length (d_heap u))) as [->|N].
    + rewrite hget_hupd_same by (rewrite app_length; cbn; lia). rewrite hget_app_old by lia.
      unfold set_meta. rewrite hget_hupd_same by (rewrite opened_length; lia).
      rewrite (hget_opened_new opts u p rest) by assumption. eapply bn_raw; eauto.
    + assert (i = Datatypes.S (length (d_heap u))) by lia. subst i. rewrite hget_hupd_other by lia.
      rewrite <- L1, hget_app_new, L1. apply bn_rawend.
  - destruct (dropped_eq u) as [n0 [T [E [_ En]]]]. unfold closed_heap in *. unfold dropped_heap in E. cbv zeta in *.
    rewrite E in *.
    match type of Hi with context [length (hupd (hupd ?hx _ _) _ _)] => set (h2 := hx) in * end.
    assert (L2 : length h2 = Datatypes.S (length (d_heap u))).
    { unfold h2. match goal with |- length (if ?b then _ else _) = _ => destruct b end;
        rewrite ?flip_length, hupd_length, app_length; cbn; lia. }
    rewrite !hupd_length, L2 in Hi. assert (i = length (d_heap u)) by lia. subst i.
    rewrite hget_hupd_same by (rewrite hupd_length; lia). rewrite hget_hupd_same by lia.
    assert (Hn : hget h2 (length (d_heap u)) = n0).
    { assert (N1 : tag <> length (d_heap u)).
      { intro X. destruct (closes_inv _ _ _ _ H1) as [Ec _]. pose proof (chain_hd _ _ _ _ S Ec). lia. }
      assert (H0' : hget (hupd (d_heap u ++ [n0]) tag (nset_end_tag (Some (length (d_heap u))))) (length (d_heap u)) = n0).
      { rewrite hget_hupd_other by exact N1. apply hget_app_new. }
      unfold h2. match goal with |- hget (if ?b then _ else _) _ = _ => destruct b end; [exact H0'|].
      unfold flip. destruct (d_check_textnode u) as [k|] eqn:Ek; [|exact H0'].
      pose proof (textual_lt _ _ (s_check _ _ S k Ek)). rewrite hget_hupd_other by lia. exact H0'. }
    rewrite Hn. subst n0. eapply bn_close; eauto; destruct (auto_fix_unclosed_tag (d_parse_options u)); reflexivity.
  - destruct (dropped_eq u) as [n0 [T [E [_ En]]]]. rewrite E in *. rewrite app_length in Hi. cbn in Hi.
    assert (i = length (d_heap u)) by lia. subst i. rewrite hget_app_new. subst n0.
    apply bn_drop; auto; destruct (auto_fix_unclosed_tag (d_parse_options u)); reflexivity.
  - assert (i = length (d_heap u)) by lia. subst i. rewrite hget_hupd_same by (rewrite hupd_length, opened_length; lia).
    rewrite hget_hupd_same by (rewrite opened_length; lia).
    rewrite (hget_opened_new opts u p rest) by assumption. eapply bn_comment; eauto.
  - assert (i = length (d_heap u)) by lia. subst i. rewrite hget_hupd_same by (rewrite hupd_length, opened_length; lia).
    rewrite hget_hupd_same by (rewrite opened_length; lia).
    rewrite (hget_opened_new opts u p rest) by assumption. eapply bn_cdata; eauto.
  - assert (i = length (d_heap u)) by lia. subst i. unfold set_meta. rewrite hget_hupd_same by (rewrite opened_length; lia).
    rewrite (hget_opened_new opts u p rest) by assumption. eapply bn_doctype; eauto.
  - destruct (lt_new opts u (str "&lt;" ++ [c]) i) as [-> [_ [_ [q E]]]]; auto.
    { rewrite <- (s_opts _ _ S). assumption. }
    rewrite E. apply bn_lt; assumption.
  - assert (Hlt : auto_fix_unescaped_lt opts = true) by (rewrite <- (s_opts _ _ S); assumption).
    pose proof (lt_text_T u (str "&lt;")) as T. pose proof (lt_text_pos u (str "&lt;")) as Pos.
    inversion H1; subst; cbn [d_heap] in Hi |- *; try contradiction;
      try (match goal with X : is_U (lt_text _ _) |- _ => destruct X as [X _]; destruct T as [T _]; congruence end).
    + destruct H2 as [X _]. destruct T as [Y _]. congruence.
    + rewrite !hupd_length in Hi. destruct (lt_new opts u (str "&lt;") i) as [-> [Ec [Ep [q E]]]]; auto.
      rewrite Ec, hget_hupd_same by (rewrite hupd_length; lia). rewrite hget_hupd_same by lia. rewrite E, Ep, Pos.
      apply bn_lt_lt; assumption.
Qed.
