(** Proofs about the borrow discipline. *)
From Coq Require Import String Lia.
From Verif Require Import Api SpecText TextProofs SpecParse NameProofs MiscProofs HeapLemmas InvCtl CtlSteps
  CtlHandlers CtlEnd CtlRun RenderProofs StructEnd DocTree SpecTree CloneProofs Borrow.
Local Open Scope string_scope.
Local Open Scope list_scope.

Local Arguments hupd !h !i f : simpl nomatch.
Lemma hupd_old : forall h n i f, i < length h -> hupd (h ++ [n]) i f = hupd h i f ++ [n].
Proof.
  induction h as [|x h IH]; intros n i f L; cbn in L; [lia|]. destruct i; cbn; [reflexivity|].
  rewrite IH; [reflexivity|lia].
Qed.
Lemma hupd_new : forall h n f, hupd (h ++ [n]) (length h) f = h ++ [f n].
Proof. induction h as [|x h IH]; intros n f; cbn; [reflexivity|]. rewrite IH. reflexivity. Qed.
Lemma hupd_new' : forall h n f i, i = length h -> hupd (h ++ [n]) i f = h ++ [f n].
Proof. intros h n f i ->. apply hupd_new. Qed.
Lemma hupd_hupd : forall h i f g, hupd (hupd h i f) i g = hupd h i (fun n => g (f n)).
Proof. induction h as [|x h IH]; intros [|i] f g; cbn; try reflexivity. rewrite IH. reflexivity. Qed.
Lemma hupd_ext : forall h i f g, (forall n, f n = g n) -> hupd h i f = hupd h i g.
Proof. induction h as [|x h IH]; intros [|i] f g E; cbn; try reflexivity; [rewrite E|rewrite (IH _ _ g E)]; reflexivity. Qed.

Lemma bind_ok : forall A B (m : M A) (f : A -> M B) g r f', m g = BRes r ->
  (forall a, r = ROk a -> f a g = BRes (f' a)) -> mbind m f g = BRes (rbind r f').
Proof. intros A B m f g r f' E F. unfold mbind. rewrite E. destruct r; cbn; [apply F; reflexivity|reflexivity|reflexivity]. Qed.
Lemma bind_ret : forall A B (m : M A) (f : A -> M B) g a r, m g = BRes (ROk a) -> f a g = r -> mbind m f g = r.
Proof. intros A B m f g a r E F. unfold mbind. rewrite E. exact F. Qed.

Lemma node_neq : forall i j, i <> j -> Nat.eqb i j = false. Proof. intros. apply Nat.eqb_neq. assumption. Qed.

Ltac cells := cbn [borrowed borrowed_mut existsb cell_eqb fst snd andb orb].
(** One borrow at the head of the computation. *)
Ltac one := unfold wcur, wnode, rnode, wmeta, rmeta, reading, writing, mbind, ret, lift; cells.

Lemma end_info_b : forall st, set_tag_end_info_b st [] = BRes (ROk (set_tag_end_info st)).
Proof. reflexivity. Qed.
Lemma spaces_b : forall st, set_text_spaces_between_b st [] = BRes (ROk (set_text_spaces_between st)).
Proof. intros. unfold set_text_spaces_between_b, set_text_spaces_between. destruct (d_check_textnode st); reflexivity. Qed.
Lemma meta_b : forall st, set_tag_meta_b st [] = BRes (ROk (set_tag_meta st)).
Proof. reflexivity. Qed.
Lemma meta_none : forall f h i, n_meta (hget h i) = None -> hupd h i (nupd_meta f) = h.
Proof.
  induction h as [|x h IH]; intros [|i] E; cbn in *; try reflexivity.
  - unfold nupd_meta. unfold hget in E. cbn in E. rewrite E. reflexivity.
  - rewrite IH; [reflexivity|exact E].
Qed.
Lemma set_heap_same : forall st, set_heap (d_heap st) st = st. Proof. destruct st; reflexivity. Qed.
Lemma upd_meta_none : forall f st, n_meta (cur st) = None -> upd_cur (nupd_meta f) st = st.
Proof. intros f st E. unfold upd_cur, upd_node. rewrite meta_none; [apply set_heap_same|exact E]. Qed.
Lemma code_b : forall c st, set_tag_code_in_b c st [] = BRes (ROk (set_tag_code_in c st)).
Proof.
  intros. unfold set_tag_code_in_b, set_tag_code_in.
  set (u := match c with TKey => _ | _ => _ end). clearbody u.
  unfold writing. cells. destruct (n_meta (cur u)) eqn:E.
  - one. reflexivity.
  - rewrite upd_meta_none by exact E. reflexivity.
Qed.
Lemma codeof_b : forall st, tag_code_of_b st [] = BRes (tag_code_of st).
Proof. intros. unfold tag_code_of_b, tag_code_of, rmeta, reading. cells. fold (cur st). destruct (n_meta (cur st)); reflexivity. Qed.

Lemma nupd_nupd : forall f g n, nupd_meta g (nupd_meta f n) = nupd_meta (fun m => g (f m)) n.
Proof. intros. unfold nupd_meta. destruct (n_meta n) eqn:E; [reflexivity|rewrite E; reflexivity]. Qed.
Lemma upd_meta_meta : forall i f g st, upd_node i (nupd_meta g) (upd_node i (nupd_meta f) st) =
  upd_node i (nupd_meta (fun m => g (f m))) st.
Proof. intros. unfold upd_node. cbn [d_heap set_heap]. rewrite hupd_hupd.
  rewrite (hupd_ext _ _ _ (nupd_meta (fun m => g (f m)))); [reflexivity|]. intro n. apply nupd_nupd.
Qed.
Lemma addkey_b : forall st, add_tag_attr_key_b st [] = BRes (ROk (add_tag_attr_key st)).
Proof.
  intros. unfold add_tag_attr_key_b, add_tag_attr_key, writing. cells. destruct (n_meta (cur st)) eqn:E.
  - one. rewrite Nat.eqb_refl || idtac. rewrite upd_meta_meta. reflexivity.
  - rewrite upd_meta_none by exact E. reflexivity.
Qed.
Lemma addval_b : forall q st, add_tag_attr_value_b q st [] = BRes (add_tag_attr_value q st).
Proof.
  intros. unfold add_tag_attr_value_b, add_tag_attr_value, writing. cells. destruct (n_meta (cur st)) eqn:E.
  - one. rewrite upd_meta_meta. reflexivity.
  - reflexivity.
Qed.
Lemma setkey_b : forall st, set_tag_attr_key_b st [] = BRes (set_tag_attr_key st).
Proof.
  intros. unfold set_tag_attr_key_b, set_tag_attr_key, writing. cells.
  destruct (n_meta (cur (clean_chars st))) eqn:E; [|reflexivity].
  destruct (m_attrs t); reflexivity.
Qed.
Lemma setval_b : forall q st, set_tag_attr_value_b q st [] = BRes (set_tag_attr_value q st).
Proof.
  intros. unfold set_tag_attr_value_b, set_tag_attr_value, writing. cells.
  destruct (n_meta (cur (clean_chars st))) eqn:E; [|reflexivity].
  destruct (last_opt (m_attrs t)); [|reflexivity]. destruct (check_if_id _); reflexivity.
Qed.
Lemma rmeta_b : forall A i (f : tag_meta -> A) st, rmeta i f st [] =
  BRes (match n_meta (get_node st i) with Some m => ROk (f m) | None => RPanic PMetaMissing end).
Proof. intros. unfold rmeta, reading. cells. destruct (n_meta (get_node st i)); reflexivity. Qed.
Lemma check_b : forall st, check_tag_type_do_b st [] = BRes (check_tag_type_do st).
Proof.
  intros. unfold check_tag_type_do_b, check_tag_type_do, mbind. rewrite rmeta_b. fold (cur st).
  destruct (n_meta (cur st)) as [m|] eqn:E; [|reflexivity].
  destruct (is_content_tag (lower (m_name m)) None).
  - rewrite rmeta_b.
    match goal with |- context [n_meta (get_node ?u ?i)] => change (n_meta (get_node u i)) with (n_meta (cur st)) end.
    rewrite E. reflexivity.
  - destruct (d_in_special st); [reflexivity|]. destruct (special_tag_map _); [|reflexivity].
    rewrite rmeta_b. fold (cur st). rewrite E. reflexivity.
Qed.

(** [add_new_node] on a state whose open nodes exist. *)
Definition fits (st : doc) : Prop :=
  match d_chain_nodes st with [] => True | p :: _ => p < length (d_heap st) end.
Lemma alloc_get : forall n st i, i < length (d_heap st) -> get_node (alloc n st) i = get_node st i.
Proof. intros. unfold get_node, alloc. cbn. apply hget_app_old. assumption. Qed.
Lemma alloc_new : forall n st, get_node (alloc n st) (length (d_heap st)) = n.
Proof. intros. unfold get_node, alloc. cbn. apply hget_app_new. Qed.
Lemma new_b : forall n st, fits st -> add_new_node_b n st [] = BRes (add_new_node n st).
Proof.
  intros n st F. unfold add_new_node_b, add_new_node.
  eapply bind_ret; [unfold rnode, reading; cells; rewrite alloc_new; reflexivity|].
  destruct (node_type_eqb (n_type n) NTagEnd) eqn:TE.
  - cbn [negb]. unfold mbind, ret, lift.
    destruct (n_type n) eqn:T; try discriminate TE. reflexivity.
  - cbn [negb]. unfold alloc at 1. cbn [d_chain_nodes set_heap]. unfold fits in F.
    destruct (d_chain_nodes st) as [|p rest] eqn:C; [reflexivity|].
    set (id := length (d_heap st)). assert (N : p <> id) by (unfold id; lia).
    eapply bind_ret.
    + eapply bind_ret; [unfold wnode, writing; cells; reflexivity|].
      unfold writing at 1. cells. eapply bind_ret.
      * assert (G : n_childs (get_node (upd_node id (nset_parent (Some p)) (alloc n st)) p) = n_childs (get_node st p)).
        { unfold get_node, upd_node, alloc. cbn. rewrite hget_hupd_other by congruence.
          rewrite hget_app_old by exact F. reflexivity. }
        rewrite G. instantiate (1 := upd_node p (nset_childs (Some (match n_childs (get_node st p) with Some l => l ++ [id] | None => [id] end)))
          (upd_node id (nset_index (match n_childs (get_node st p) with Some l => length l | None => 0 end))
            (upd_node id (nset_parent (Some p)) (alloc n st)))).
        destruct (n_childs (get_node st p)); (eapply bind_ret; [unfold wnode, writing; cells; rewrite (node_neq p id N); reflexivity|reflexivity]).
      * unfold wnode, writing. cells. rewrite (node_neq p id N). reflexivity.
    + unfold ret, lift. f_equal. f_equal.
      assert (E : forall idx ks, upd_node id (nset_root (Some (d_root st)))
         (upd_node p (nset_childs (Some ks)) (upd_node id (nset_index idx) (upd_node id (nset_parent (Some p)) (alloc n st)))) =
         upd_node p (nset_childs (Some ks)) (alloc (nset_root (Some (d_root st)) (nset_index idx (nset_parent (Some p) n))) st)).
      { intros idx ks. unfold upd_node, alloc, set_heap. cbn. f_equal. unfold id. rewrite !hupd_new.
        rewrite !(hupd_old _ _ _ _ F). apply hupd_new'. rewrite hupd_length. reflexivity. }
      destruct (n_childs (get_node st p)) as [l|]; rewrite E; reflexivity.
Qed.

Lemma wait_b : forall st c, fits st -> parse_wait_b st c [] = BRes (parse_wait st c).
Proof.
  intros st c F. unfold parse_wait_b, parse_wait. destruct (N.eqb c TAG_BEGIN_CHAR); [reflexivity|].
  destruct (auto_fix_unexpected_endtag (d_parse_options st)).
  - eapply bind_ret; [unfold rnode, reading; cells; reflexivity|]. fold (cur st).
    cbn [andb]. destruct (node_type_eqb (n_type (cur st)) NText || node_type_eqb (n_type (cur st)) NSpacesBetweenTag)%bool.
    + eapply bind_ret; [unfold writing; cells; reflexivity|].
      destruct (n_content (cur st)) eqn:E; [|reflexivity].
      cbv zeta. unfold ret, lift. f_equal. f_equal. f_equal. f_equal.
      assert (T : forall u, n_type (cur (upd_cur (nset_content (Some [])) u)) = n_type (cur u)).
      { intro u. unfold cur, upd_cur, get_node, upd_node. cbn [d_heap d_current_node set_heap].
        apply (hupd_keep n_type). reflexivity. }
      rewrite T. reflexivity.
    + unfold mbind, ret, lift. cells. rewrite new_b by exact F. destruct (add_new_node _ _); reflexivity.
  - unfold mbind, ret, lift. cbn [andb]. rewrite new_b by exact F. destruct (add_new_node _ _); reflexivity.
Qed.
Lemma text_b : forall st c, parse_text_b st c [] = BRes (parse_text st c).
Proof. intros. unfold parse_text_b, parse_text. destruct (N.eqb c TAG_BEGIN_CHAR); reflexivity. Qed.
Lemma doctype_b : forall st c, parse_doctype_name_b st c [] = BRes (parse_doctype_name st c).
Proof.
  intros. unfold parse_doctype_name_b, parse_doctype_name. destruct (is_ascii_whitespace c); [|reflexivity].
  unfold mbind. rewrite meta_b, code_b. reflexivity.
Qed.
Lemma name_b : forall st c, parse_tag_name_b st c [] = BRes (parse_tag_name st c).
Proof.
  intros. unfold parse_tag_name_b, parse_tag_name.
  destruct (N.eqb c TAG_END_CHAR).
  { unfold mbind. rewrite meta_b. destruct (set_tag_meta st) as [v u]. destruct v; [reflexivity|apply check_b]. }
  destruct (N.eqb c END_SLASH_CHAR); [reflexivity|].
  destruct (is_ascii_whitespace c); [|reflexivity]. unfold mbind. rewrite meta_b, code_b. reflexivity.
Qed.
Lemma tagwait_b : forall st c, parse_tag_wait_b st c [] = BRes (parse_tag_wait st c).
Proof.
  intros. unfold parse_tag_wait_b, parse_tag_wait.
  destruct (N.eqb c DOUBLE_QUOTE_CHAR || N.eqb c SINGLE_QUOTE_CHAR)%bool.
  { unfold mbind at 1. rewrite codeof_b. destruct (tag_code_of st) as [code|k i|q]; cbn [rbind]; [|reflexivity|reflexivity].
    destruct (tag_code_in_eqb code TWaitValue); [apply code_b|].
    destruct (d_code_in st); try (unfold mbind; rewrite addkey_b, code_b; reflexivity).
    unfold mbind. rewrite addval_b. destruct (add_tag_attr_value (Some c) st); cbn [rbind]; [apply code_b|reflexivity|reflexivity]. }
  destruct (N.eqb c TAG_END_CHAR).
  { unfold mbind. rewrite rmeta_b. fold (cur st). destruct (n_meta (cur st)) as [m|]; [|reflexivity].
    destruct (m_is_void m); [reflexivity|apply check_b]. }
  destruct (N.eqb c END_SLASH_CHAR); [reflexivity|].
  destruct (N.eqb c EQUAL_CHAR).
  { unfold mbind at 1. rewrite codeof_b. destruct (tag_code_of st) as [code|k i|q] eqn:E; cbn [rbind]; [|reflexivity|reflexivity].
    destruct (tag_code_in_eqb code TKeyEnd); [apply code_b|].
    unfold mbind at 1. rewrite codeof_b, E.
    destruct (tag_code_in_eqb code TWait); [|apply code_b].
    destruct (negb _); [reflexivity|]. unfold mbind. rewrite addkey_b, code_b. reflexivity. }
  destruct (is_ascii_whitespace c); [reflexivity|].
  unfold mbind at 1. rewrite codeof_b.
  destruct (tag_code_of (push_char c st)) as [code|k i|q]; cbn [rbind]; [|reflexivity|reflexivity].
  destruct (tag_code_in_eqb code TWaitValue); [apply code_b|].
  unfold mbind. rewrite addkey_b, code_b. reflexivity.
Qed.
Lemma self_b : forall st c, parse_tag_self_closing_b st c [] = BRes (parse_tag_self_closing st c).
Proof.
  intros. unfold parse_tag_self_closing_b, parse_tag_self_closing.
  destruct (N.eqb c TAG_END_CHAR).
  { unfold mbind at 1, writing at 1. cells. destruct (n_meta (cur st)) as [m|]; [|reflexivity].
    destruct (negb (allow_self_closing (d_parse_options st)) && negb match d_code_in st with CHTMLDOCTYPE => true | _ => false end)%bool;
      cbn [andb]; [|one; reflexivity].
    destruct (negb (m_is_void m || match d_in_special st with Some _ => true | None => false end)) eqn:E;
      one; rewrite E; reflexivity. }
  destruct (N.eqb c END_SLASH_CHAR); [reflexivity|]. apply tagwait_b.
Qed.
Lemma key_b : forall st c, parse_tag_attr_key_b st c [] = BRes (parse_tag_attr_key st c).
Proof.
  intros. unfold parse_tag_attr_key_b, parse_tag_attr_key.
  repeat (match goal with |- context [if ?b then _ else _] => destruct b end);
    unfold mbind; rewrite ?setkey_b; try reflexivity;
    destruct (set_tag_attr_key st); cbn [rbind]; try reflexivity; rewrite code_b; try reflexivity. apply tagwait_b.
Qed.
Lemma value_b : forall st c, parse_tag_attr_value_b st c [] = BRes (parse_tag_attr_value st c).
Proof.
  intros. unfold parse_tag_attr_value_b, parse_tag_attr_value.
  destruct (N.eqb (d_mark_char st) WS_CHAR && N.eqb c TAG_END_CHAR)%bool.
  { unfold mbind. rewrite setval_b. destruct (set_tag_attr_value None st); cbn [rbind]; try reflexivity.
    rewrite code_b. apply tagwait_b. }
  destruct (if N.eqb (d_mark_char st) WS_CHAR then _ else _) as [e q]. destruct e; [|reflexivity].
  unfold mbind. rewrite setval_b. destruct (set_tag_attr_value q (set_mark_char EOF_CHAR st)); cbn [rbind]; try reflexivity.
  apply code_b.
Qed.
Lemma tagend_b : forall st c, parse_tagend_b st c [] = BRes (parse_tagend st c).
Proof.
  intros. unfold parse_tagend_b, parse_tagend.
  destruct (N.eqb c TAG_END_CHAR); [|reflexivity].
  eapply bind_ok.
  { destruct (Nat.ltb 1 (length (d_chain_nodes st))); [|reflexivity].
    destruct (d_chain_nodes st) as [|tag rest]; [reflexivity|].
    unfold reading at 1. cells. destruct (n_meta (get_node st tag)) as [m|]; [|reflexivity].
    unfold reading. cells. destruct (is_equal_chars_ignore_case (m_name m) (chars_trim_end (d_prev_chars st))) as [a b].
    destruct a; [|reflexivity]. destruct (case_sensitive_tagname (d_parse_options st) && negb b)%bool; reflexivity. }
  intros ok _. destruct ok.
  - destruct (d_chain_nodes st) as [|tag rest]; [reflexivity|].
    eapply bind_ret; [reflexivity|].
    set (u := upd_node tag _ _).
    eapply bind_ret.
    { unfold reading at 1. cells.
      instantiate (1 := match n_childs (get_node u tag) with Some [k] => node_type_eqb (n_type (get_node u k)) NText | _ => false end).
      destruct (n_childs (get_node u tag)) as [[|k [|k' l]]|]; reflexivity. }
    destruct (match n_childs (get_node u tag) with Some [k] => _ | _ => _ end).
    + eapply bind_ret; [reflexivity|]. reflexivity.
    + eapply bind_ret; [apply spaces_b|]. reflexivity.
  - destruct (negb _); [reflexivity|].
    unfold mbind, reading. cells. destruct (n_prev (cur st)) as [q|]; [|reflexivity].
    destruct (alive st q); reflexivity.
Qed.
Lemma content_b : forall st c, parse_content_tag_b st c [] = BRes (parse_content_tag st c).
Proof.
  intros. unfold parse_content_tag_b, parse_content_tag. destruct (negb _); [reflexivity|].
  destruct (d_detect st) as [e|]; [|reflexivity].
  destruct (_ && _)%bool; [|reflexivity].
  unfold writing. cells. cbv zeta. unfold ret, lift. f_equal. f_equal. f_equal. f_equal.
  unfold upd_cur, upd_node. cbn [d_heap set_heap d_current_node]. rewrite hupd_hupd. reflexivity.
Qed.
Lemma comment_b : forall st c, parse_comment_or_cdata_b st c [] = BRes (parse_comment_or_cdata st c).
Proof. intros. unfold parse_comment_or_cdata_b, parse_comment_or_cdata. cbv zeta. destruct (_ && _)%bool; reflexivity. Qed.

Definition fits_all (st : doc) : Prop :=
  fits st /\ d_current_node st < length (d_heap st) /\ d_root st < length (d_heap st).
Lemma lt_b : forall st c, fits_all st -> fix_unescaped_lt_b st c [] = BRes (fix_unescaped_lt st c).
Proof.
  intros st c [F [C R]]. unfold fix_unescaped_lt_b, fix_unescaped_lt.
  eapply bind_ret; [reflexivity|]. fold (cur st).
  set (ch := str "&lt;" ++ _). set (par := match d_chain_nodes st with [] => _ | _ => _ end).
  assert (P : par < length (d_heap st)).
  { unfold par. unfold fits in F. destruct (d_chain_nodes st); assumption. }
  set (fin := fun v : doc => set_code CTextNode (set_repeat_whitespace false v)).
  assert (Fin : forall v, (if N.eqb c TAG_BEGIN_CHAR then parse_text_b (fin v) c else ret (fin v)) [] =
     BRes (if N.eqb c TAG_BEGIN_CHAR then parse_text (fin v) c else ROk (fin v))).
  { intro v. destruct (N.eqb c TAG_BEGIN_CHAR); [apply text_b|reflexivity]. }
  assert (New : forall p v, p < length (d_heap v) ->
    (let id := length (d_heap v) in
     let st0 := alloc (node_new NText (d_mem_position v)) v in
     writing (KNode p)
       (let childs := match n_childs (get_node st0 p) with Some l => l | None => [] end in
        bdo st <- wnode id (nset_index (length childs)) st0;
        let st1 := upd_node p (nset_childs (Some (childs ++ [id]))) st in
        ret (set_prev_chars ch (set_current_node id st1)))) [] =
    BRes (ROk (let id := length (d_heap v) in
     let childs := match n_childs (get_node v p) with Some l => l | None => [] end in
     let n := nset_index (length childs) (node_new NText (d_mem_position v)) in
     let st := upd_node p (nset_childs (Some (childs ++ [id]))) (alloc n v) in
     set_prev_chars ch (set_current_node id st)))).
  { intros p v L. cbv zeta. unfold writing at 1. cells. rewrite alloc_get by exact L.
    set (ks := match n_childs (get_node v p) with Some l => l | None => [] end).
    assert (N : p <> length (d_heap v)) by lia.
    eapply bind_ret; [unfold wnode, writing; cells; rewrite (node_neq _ _ N); reflexivity|].
    unfold ret, lift. do 4 f_equal. unfold upd_node, alloc, set_heap. cbn. rewrite hupd_new. reflexivity. }
  destruct (n_type (cur st)) eqn:T; cbv zeta.
  all: try (eapply bind_ret; [reflexivity|]; eapply bind_ret; [apply New; exact P|apply Fin]).
  - eapply bind_ret.
    { eapply bind_ret; [unfold writing; cells; instantiate (1 := match n_content (cur st) with
        | Some content => set_prev_chars (content ++ ch) (upd_cur (nset_content (Some [])) st) | None => st end);
        destruct (n_content (cur st)); reflexivity|].
      eapply bind_ret; [reflexivity|]. reflexivity. }
    eapply bind_ret; [reflexivity|]. apply Fin.
  - eapply bind_ret.
    { eapply bind_ret; [unfold writing; cells; instantiate (1 := match n_content (cur st) with
        | Some content => set_prev_chars (content ++ ch) (upd_cur (nset_content (Some [])) st) | None => st end);
        destruct (n_content (cur st)); reflexivity|].
      eapply bind_ret; [reflexivity|]. reflexivity. }
    eapply bind_ret; [reflexivity|]. apply Fin.
  - eapply bind_ret.
    { eapply bind_ret; [unfold reading at 1; cells; instantiate (1 := match n_meta (cur st) with
        Some m => (m_self_closed m || m_auto_fix m)%bool | None => false end); destruct (n_meta (cur st)); reflexivity|].
      reflexivity. }
    set (cl := match n_meta (cur st) with Some _ => _ | None => _ end).
    destruct (negb cl); (eapply bind_ret; [apply New; assumption|apply Fin]).
Qed.
Lemma unkown_b : forall st c, fits_all st -> parse_unkown_tag_b st c [] = BRes (parse_unkown_tag st c).
Proof.
  intros st c F. unfold parse_unkown_tag_b, parse_unkown_tag.
  destruct (is_ascii_alphabetic c).
  { unfold mbind. rewrite new_b by apply F. destruct (add_new_node _ _); cbn [rbind]; try reflexivity.
    rewrite spaces_b. reflexivity. }
  destruct (N.eqb c END_SLASH_CHAR).
  { destruct (negb _); unfold mbind; (rewrite new_b by apply F); (destruct (add_new_node _ _); cbn [rbind]; try reflexivity). }
  destruct (N.eqb c EXCLAM_CHAR); [reflexivity|]. destruct (negb _); [reflexivity|]. apply lt_b. exact F.
Qed.
Lemma exclamation_b : forall st c, fits_all st -> parse_exclamation_begin_b st c [] = BRes (parse_exclamation_begin st c).
Proof.
  intros st c F. unfold parse_exclamation_begin_b, parse_exclamation_begin.
  destruct (d_detect st) as [nc|].
  - cbv zeta. destruct (Nat.ltb (length (d_prev_chars st)) (length nc)); [|reflexivity].
    destruct (N.eqb (nth (length (d_prev_chars st)) nc EOF_CHAR) (to_ascii_uppercase c)); [|reflexivity].
    destruct (Nat.eqb (length (d_prev_chars st)) (length nc - 1)); [|reflexivity].
    destruct (N.eqb c DASH_CHAR || N.eqb c LEFT_BRACKET_CHAR)%bool.
    { destruct (if N.eqb c DASH_CHAR then _ else _) as [[ci mk] nt].
      unfold mbind. rewrite new_b by apply F. destruct (add_new_node _ _); cbn [rbind]; try reflexivity.
      rewrite spaces_b. reflexivity. }
    destruct (N.eqb c 69 || N.eqb c 101)%bool; [|reflexivity].
    unfold mbind. rewrite new_b by apply F. destruct (add_new_node _ _); cbn [rbind]; try reflexivity.
    rewrite spaces_b. reflexivity.
  - eapply bind_ok; [|intros; reflexivity].
    destruct (N.eqb c DASH_CHAR); [reflexivity|]. destruct (N.eqb c 68 || N.eqb c 100)%bool; [reflexivity|].
    destruct (N.eqb c LEFT_BRACKET_CHAR); [|reflexivity].
    destruct (d_in_special st) as [[sp tn]|]; [|reflexivity].
    destruct (d_chain_nodes st) as [|top rest]; [reflexivity|].
    unfold mbind. rewrite rmeta_b. destruct (n_meta (get_node st top)) as [m|]; [|reflexivity].
    destruct (is_equal_chars tn (m_name m) None); reflexivity.
Qed.

Lemma next_bres : forall st c, fits_all st -> next_b st c [] = BRes (next st c).
Proof.
  intros st c F. unfold next_b, next. eapply bind_ok; [|intros; reflexivity].
  unfold run_handle_b, run_handle.
  destruct (d_handle st); [reflexivity|apply wait_b; apply F|apply text_b|apply doctype_b|apply name_b|apply self_b|apply tagwait_b
    |apply key_b|apply value_b|apply tagend_b|apply content_b|apply comment_b|apply unkown_b; exact F|apply exclamation_b; exact F].
Qed.
Lemma ctl_fits : forall opts pre st, ctl opts pre st -> fits_all st.
Proof.
  intros opts pre st [B _]. dbase B. split; [|split].
  - unfold fits. destruct (d_chain_nodes st) as [|p l]; [exact I|]. apply Kchain.
  - exact Kcur.
  - rewrite Kroot. lia.
Qed.
Lemma run_bres : forall s opts pre st, ctl opts pre st -> run_b st s [] = BRes (run st s).
Proof.
  induction s as [|c s IH]; intros opts pre st K; [reflexivity|]. cbn [run_b run].
  pose proof (next_ok _ _ c _ K) as N. eapply bind_ok; [apply next_bres; eapply ctl_fits; exact K|].
  intros st1 E. rewrite E in N. eapply IH. exact N.
Qed.

Lemma fix_one_bres : forall st i, i < length (d_heap st) -> fix_one_unclosed_b st i [] = BRes (ROk (fix_one_unclosed st i)).
Proof.
  intros st i L. unfold fix_one_unclosed_b, fix_one_unclosed.
  unfold mbind at 1, writing at 1. cells. destruct (n_meta (get_node st i)) as [m|] eqn:E; [|reflexivity].
  one. assert (G : n_meta (get_node (upd_node i (nupd_meta (mset_auto_fix true)) st) i) = Some (mset_auto_fix true m)).
  { unfold get_node, upd_node. cbn [d_heap set_heap]. rewrite hget_hupd_same by exact L. rewrite nupd_meta_meta.
    unfold get_node in E. rewrite E. reflexivity. }
  rewrite G. reflexivity.
Qed.
Lemma fix_one_length : forall st i, length (d_heap st) <= length (d_heap (fix_one_unclosed st i)).
Proof.
  intros. unfold fix_one_unclosed. destruct (n_meta (get_node st i)); [|lia].
  unfold upd_node, alloc. cbn [d_heap set_heap]. rewrite !hupd_length, app_length, hupd_length. lia.
Qed.
Lemma fix_bres : forall l st, Forall (fun i => i < length (d_heap st)) l ->
  fix_unclosed_tag_b l st [] = BRes (ROk (fix_unclosed_tag l st)).
Proof.
  induction l as [|i l IH]; intros st F; [reflexivity|]. inversion F as [|? ? L F']; subst.
  cbn [fix_unclosed_tag_b]. eapply bind_ret; [apply fix_one_bres; exact L|].
  apply IH. eapply Forall_impl; [|exact F']. intros k H. cbn in H. pose proof (fix_one_length st i). lia.
Qed.
Lemma in_skipn : forall (l : list nid) i n, In i (skipn n l) -> In i l.
Proof. induction l as [|x l IH]; intros i [|n] H; cbn in *; auto. right. eapply IH. exact H. Qed.
Lemma eof_bres : forall opts pre st, ctl opts pre st -> eof_b st [] = BRes (eof st).
Proof.
  intros opts pre st [B _]. dbase B. unfold eof_b, eof. eapply bind_ok.
  { destruct (Nat.ltb _ _); [|reflexivity]. destruct (negb _).
    - destruct (d_chain_nodes st) as [|last rest]; [reflexivity|]. unfold reading at 1. cells.
      cbv zeta. destruct (n_meta (get_node st last)); reflexivity.
    - apply fix_bres. apply Forall_forall. intros i I. cbn [d_heap set_chain_nodes].
      assert (J : In i (d_chain_nodes st)).
      { apply in_rev. apply (in_skipn _ _ 1). exact I. }
      eapply chain_ok_in; [exact Kchain|exact J]. }
  intros u _. eapply bind_ok; [|intros; reflexivity].
  destruct (d_code_in u); try reflexivity. destruct (negb _); reflexivity.
Qed.
Lemma new_doc_b : forall opts, doc_new_b opts [] = BRes (ROk (doc_new opts)).
Proof. reflexivity. Qed.

Theorem parse_bres : forall opts s, parse_b opts s [] = BRes (parse_res opts s).
Proof.
  intros. unfold parse_b, parse_res. eapply bind_ret; [apply new_doc_b|].
  pose proof (init_ok opts) as K. pose proof (run_ok s _ _ _ K) as R.
  eapply bind_ok; [eapply run_bres; exact K|]. intros st E. rewrite E in R. cbn in R.
  pose proof (eof_bres _ _ _ R) as F. unfold mbind. rewrite F. destruct (eof st); reflexivity.
Qed.

Lemma file_bres : forall lines opts pre st content, ctl opts pre st ->
  exists r, run_file_b st content lines [] = BRes (ROk r) /\ run_file st content lines = outcome_of (fst r) (snd r).
Proof.
  induction lines as [|line rest IH]; intros opts pre st content K.
  - cbn [run_file_b run_file]. exists (content, eof st). split; [|reflexivity].
    unfold with_context, mbind. rewrite (eof_bres _ _ _ K). destruct (eof st); reflexivity.
  - cbn [run_file_b run_file]. pose proof (run_ok line _ _ _ K) as R.
    unfold mbind at 1, with_context, mbind at 1. rewrite (run_bres line _ _ _ K).
    destruct (run st line) as [u|k i|p] eqn:E.
    + rewrite (next_bres u LF_CHAR (ctl_fits _ _ _ R)).
      pose proof (next_ok _ _ LF_CHAR _ R) as N. destruct (next u LF_CHAR) as [v|k i|p].
      * eapply IH. exact N.
      * eexists. split; reflexivity.
      * eexists. split; reflexivity.
    + eexists. split; reflexivity.
    + eexists. split; reflexivity.
Qed.
Theorem parse_file_bres : forall opts text, exists context r,
  parse_file_b opts text [] = BRes (ROk (context, r)) /\ parse_file opts text = outcome_of context r.
Proof.
  intros. unfold parse_file_b, parse_file. destruct (file_bres (file_lines text) opts [] (doc_new opts) [] (init_ok opts)) as [[c r] [E F]].
  exists c, r. split; [|exact F]. eapply bind_ret; [apply new_doc_b|exact E].
Qed.

(** ** Reading only: no exclusive guard is held. *)
Definition shared (g : guards) : Prop := Forall (fun x => snd x = false) g.
Lemma shared_free : forall g c, shared g -> borrowed_mut g c = false.
Proof.
  intros g c S. unfold borrowed_mut. induction S as [|x g H S IH]; [reflexivity|]. cbn. rewrite H. exact IH.
Qed.
Lemma shared_cons : forall g c, shared g -> shared ((c, false) :: g).
Proof. intros. constructor; [reflexivity|assumption]. Qed.
Lemma read_ok : forall A c (m : M A) g r, shared g -> (forall g', shared g' -> m g' = BRes r) -> reading c m g = BRes r.
Proof. intros A c m g r S F. unfold reading. rewrite shared_free by exact S. apply F. apply shared_cons. exact S. Qed.

Lemma build_node_eq : forall env o i ty b e et et' c ks ks' m s,
  build_node env o (TNode i ty b e et c ks m) s = build_node env o (TNode i ty b e et' c ks' m) s.
Proof. reflexivity. Qed.
Lemma tree_node : forall f h i t, tree_of f h i = Some t ->
  exists et ks, t = TNode (n_index (hget h i)) (n_type (hget h i)) (n_begin_at (hget h i)) (n_end_at (hget h i)) et
    (n_content (hget h i)) ks (n_meta (hget h i)).
Proof.
  intros [|f] h i t E; cbn in E; [discriminate|].
  destruct (match n_end_tag (hget h i) with None => _ | Some _ => _ end) as [et|]; [|discriminate].
  destruct (match n_childs (hget h i) with None => _ | Some _ => _ end) as [ks|]; [|discriminate].
  injection E as <-. eexists. eexists. reflexivity.
Qed.
Lemma build_node_bres : forall env o f h i t s g, shared g -> tree_of f h i = Some t ->
  build_node_b env o h i s g = BRes (build_node env o t s).
Proof.
  intros env o f h i t s g S E. destruct (tree_node _ _ _ _ E) as [et [ks ->]].
  rewrite (build_node_eq _ _ _ _ _ _ et None _ ks None). unfold build_node_b.
  destruct (n_type (hget h i)); try reflexivity; destruct (n_meta (hget h i)); try reflexivity;
    (apply read_ok; [exact S|intros; reflexivity]).
Qed.
Definition build_list_b (env : entity_env) (o : render_options) (fuel : nat) (h : list node) :=
  fix build_list (l : list nid) (s : render_status) {struct l} : M (render_status * list char) :=
    match l with
    | [] => ret (s, [])
    | k :: l' =>
        bdo '(s1, o1) <- reading (KNode k) (build_tree_b env o fuel h k s);
        bdo '(s2, o2) <- build_list l' s1;
        ret (s2, o1 ++ o2)
    end.
Lemma build_tree_b_eq : forall env o f h i s, build_tree_b env o (S f) h i s =
      (bdo '(s1, o1) <- build_node_b env o h i s;
      bdo '(s2, o2) <-
        (match n_childs (hget h i) with
         | None => ret (s1, [])
         | Some l =>
             if rs_root s1 then
               bdo '(_, out) <- build_list_b env o f h l (rs_set_root false s1);
               ret (s1, out)
             else build_list_b env o f h l s1
         end);
      bdo '(s3, o3) <-
        (match n_end_tag (hget h i) with
         | None => ret (s2, [])
         | Some e => reading (KNode e) (build_node_b env o h e s2)
         end);
      ret (s3, o1 ++ o2 ++ o3)).
Proof. reflexivity. Qed.
Lemma build_tree_bres : forall env o f h i t s g, shared g -> tree_of f h i = Some t ->
  build_tree_b env o f h i s g = BRes (build_tree env o t s).
Proof.
  induction f as [|f IH]; intros h i t s g S E; [discriminate|].
  assert (L : forall l ts s g, shared g -> map_opt (tree_of f h) l = Some ts ->
     build_list_b env o f h l s g = BRes (build_list env o ts s)).
  { induction l as [|k l IHl]; intros ts s1 g1 S1 F; cbn in F; [injection F as <-; reflexivity|].
    destruct (tree_of f h k) as [tk|] eqn:K; [|discriminate]. destruct (map_opt (tree_of f h) l) as [tl|]; [|discriminate].
    injection F as <-. cbn [build_list_b build_list]. eapply bind_ok; [apply read_ok; [exact S1|intros; eapply IH; eassumption]|].
    intros [s2 o1] _. eapply bind_ok; [apply IHl; [exact S1|reflexivity]|]. intros [s3 o2] _. reflexivity. }
  pose proof (build_node_bres env o _ h i t s g S E) as N.
  rewrite build_tree_b_eq. cbn [tree_of] in E.
  destruct (n_end_tag (hget h i)) as [e|] eqn:ET.
  - destruct (tree_of f h e) as [te|] eqn:TE; [|discriminate].
    destruct (n_childs (hget h i)) as [l|].
    + destruct (map_opt (tree_of f h) l) as [ts|] eqn:TS; [|discriminate]. injection E as <-. rewrite build_tree_eq; cbv zeta.
      eapply bind_ok; [exact N|]. intros [s1 o1] _. eapply bind_ok.
      * destruct (rs_root s1).
        -- eapply bind_ok; [apply L; [exact S|exact TS]|]. intros [s2 o2] _. reflexivity.
        -- apply L; [exact S|exact TS].
      * intros [s2 o2] _. eapply bind_ok; [apply read_ok; [exact S|intros; eapply build_node_bres; eassumption]|].
        intros [s3 o3] _. reflexivity.
    + injection E as <-. rewrite build_tree_eq; cbv zeta.
      eapply bind_ok; [exact N|]. intros [s1 o1] _. eapply bind_ok; [reflexivity|].
      intros [s2 o2] _. eapply bind_ok; [apply read_ok; [exact S|intros; eapply build_node_bres; eassumption]|].
      intros [s3 o3] _. reflexivity.
  - destruct (n_childs (hget h i)) as [l|].
    + destruct (map_opt (tree_of f h) l) as [ts|] eqn:TS; [|discriminate]. injection E as <-. rewrite build_tree_eq; cbv zeta.
      eapply bind_ok; [exact N|]. intros [s1 o1] _. eapply bind_ok.
      * destruct (rs_root s1).
        -- eapply bind_ok; [apply L; [exact S|exact TS]|]. intros [s2 o2] _. reflexivity.
        -- apply L; [exact S|exact TS].
      * intros [s2 o2] _. reflexivity.
    + injection E as <-. rewrite build_tree_eq; cbv zeta.
      eapply bind_ok; [exact N|]. intros [s1 o1] _. eapply bind_ok; [reflexivity|]. intros [s2 o2] _. reflexivity.
Qed.

Lemma root_fuel : forall h i f t k tk, tree_of f h i = Some t -> tree_of (f - 1) h k = Some tk -> tree_of f h k = Some tk.
Proof. intros h i f t k tk _ T. eapply tree_fuel; [exact T|lia]. Qed.
Lemma find_none : forall h f l ts found g, shared g -> map_opt (tree_of f h) l = Some ts ->
  find_tag_b h l found g =
  BRes (match found, filter is_tag ts with
        | None, [] => ROk None
        | Some k, [] => ROk (Some k)
        | None, [_] => ROk (find (fun k => node_type_eqb (n_type (hget h k)) NTag) l)
        | _, _ => RPanic PInnerHtml
        end).
Proof.
  induction l as [|k l IH]; intros ts found g S E; cbn in E.
  - injection E as <-. destruct found; reflexivity.
  - destruct (tree_of f h k) as [t|] eqn:T; [|discriminate]. destruct (map_opt (tree_of f h) l) as [tl|] eqn:L; [|discriminate].
    injection E as <-. destruct (tree_node _ _ _ _ T) as [et [ks E0]].
    assert (K : is_tag t = node_type_eqb (n_type (hget h k)) NTag) by (rewrite E0; reflexivity).
    cbn [find_tag_b find filter]. rewrite K.
    eapply bind_ret; [apply read_ok; [exact S|intros; reflexivity]|].
    destruct (node_type_eqb (n_type (hget h k)) NTag).
    + destruct found as [k0|]; [destruct (filter is_tag tl); reflexivity|].
      rewrite (IH tl (Some k) g S eq_refl). destruct (filter is_tag tl); reflexivity.
    + rewrite (IH tl found g S eq_refl). reflexivity.
Qed.
Lemma find_one : forall h f l ts t, map_opt (tree_of f h) l = Some ts -> filter is_tag ts = [t] ->
  exists k, find (fun k => node_type_eqb (n_type (hget h k)) NTag) l = Some k /\ tree_of f h k = Some t.
Proof.
  induction l as [|k l IH]; intros ts t E F; cbn in E; [injection E as <-; discriminate F|].
  destruct (tree_of f h k) as [t0|] eqn:T; [|discriminate]. destruct (map_opt (tree_of f h) l) as [tl|] eqn:L; [|discriminate].
  injection E as <-. cbn [filter] in F. destruct (tree_node _ _ _ _ T) as [et [ks E0]].
  assert (K : is_tag t0 = node_type_eqb (n_type (hget h k)) NTag) by (rewrite E0; reflexivity).
  rewrite K in F. cbn [find]. destruct (node_type_eqb (n_type (hget h k)) NTag).
  - injection F as -> _. exists k. split; [reflexivity|exact T].
  - eapply IH; [reflexivity|exact F].
Qed.
Theorem build_bres : forall env o h i text t g, shared g -> tree_of (length h) h i = Some t ->
  build_b env o h i text g = BRes (build env o t text).
Proof.
  intros env o h i text t g S T.
  assert (Go : forall k tk g, shared g -> tree_of (length h) h k = Some tk -> forall s,
    (bdo '(_, out) <- build_tree_b env o (length h) h k s; ret out) g = BRes (do '(_, out) <- build_tree env o tk s; ROk out)).
  { intros k tk g1 S1 K s. eapply bind_ok; [eapply build_tree_bres; eassumption|]. intros [s1 o1] _. reflexivity. }
  unfold build_b, build. destruct (text && inner_html o)%bool; [reflexivity|].
  destruct (tree_node _ _ _ _ T) as [et [ks E]].
  assert (Ty : t_type t = n_type (hget h i)) by (rewrite E; reflexivity).
  rewrite Ty. set (inner := if text then IText else if inner_html o then IHtml else INone).
  assert (Root : n_type (hget h i) = NAbstractRoot -> forall s,
    match n_childs (hget h i) with
    | None => ret []
    | Some childs =>
        bdo found <- find_tag_b h childs None;
        match found with
        | Some k => reading (KNode k) (bdo '(_, out) <- build_tree_b env o (length h) h k s; ret out)
        | None =>
            match last_opt childs with
            | Some k => reading (KNode k) (lift (RPanic PInnerHtml))
            | None => lift (RPanic PInnerHtml)
            end
        end
    end g =
    BRes match t_childs t with
      | None => ROk []
      | Some childs =>
          match filter is_tag childs with
          | [] => RPanic PInnerHtml
          | [k] => do '(_, out) <- build_tree env o k s; ROk out
          | _ => RPanic PInnerHtml
          end
      end).
  { intros _ s. destruct (length h) as [|f] eqn:Len; [discriminate|]. cbn [tree_of] in T.
    destruct (match n_end_tag (hget h i) with None => _ | Some _ => _ end); [|discriminate].
    destruct (n_childs (hget h i)) as [l|].
    - destruct (map_opt (tree_of f h) l) as [ts|] eqn:Ks; [|discriminate]. injection T as <-. cbn [t_childs].
      unfold mbind at 1. rewrite (find_none _ _ _ _ None g S Ks).
      destruct (filter is_tag ts) as [|t1 [|t2 r]] eqn:Fi.
      + destruct (last_opt l); [apply read_ok; [exact S|reflexivity]|reflexivity].
      + destruct (find_one _ _ _ _ _ Ks Fi) as (k & Fk & Tk). rewrite Fk.
        apply read_ok; [exact S|]. intros g' S'. apply Go; [exact S'|]. eapply tree_fuel; [exact Tk|lia].
      + reflexivity.
    - injection T as <-. reflexivity. }
  destruct inner eqn:In.
  - apply Go; assumption.
  - destruct (n_type (hget h i)) eqn:N; try reflexivity; [apply (Root eq_refl)|apply Go; assumption].
  - destruct (n_type (hget h i)) eqn:N; try reflexivity; [apply (Root eq_refl)|apply Go; assumption|apply Go; assumption|apply Go; assumption].
Qed.
Theorem render_bres : forall env o text d g, shared g -> doc_tree d <> None ->
  render_gen_b env o text d g = BRes (render_gen env o text d).
Proof.
  intros env o text d g S T. unfold render_gen_b, render_gen. unfold doc_tree in *.
  destruct (tree_of (length (d_heap d)) (d_heap d) (d_root d)) as [t|] eqn:E; [|congruence].
  apply read_ok; [exact S|]. intros g1 S1. apply read_ok; [exact S1|]. intros g2 S2. apply build_bres; assumption.
Qed.

Lemma document_loop_bres : forall h f l ts fh ok g, shared g -> map_opt (tree_of f h) l = Some ts ->
  is_document_loop_b h l fh ok g = BRes (ROk (is_document_loop ts fh ok)).
Proof.
  induction l as [|k l IH]; intros ts fh ok g S E; cbn in E; [injection E as <-; reflexivity|].
  destruct (tree_of f h k) as [t|] eqn:T; [|discriminate]. destruct (map_opt (tree_of f h) l) as [tl|] eqn:L; [|discriminate].
  injection E as <-. destruct (tree_node _ _ _ _ T) as [et [ks ->]].
  cbn [is_document_loop_b is_document_loop t_type t_meta].
  destruct (n_type (hget h k)); try (eapply bind_ret; [apply read_ok; [exact S|intros; reflexivity]|]; apply IH; [exact S|reflexivity]).
  destruct fh; [eapply bind_ret; [apply read_ok; [exact S|intros; reflexivity]|]; reflexivity|].
  destruct (n_meta (hget h k)) as [m|]; [|eapply bind_ret; [apply read_ok; [exact S|intros; reflexivity]|]; apply IH; [exact S|reflexivity]].
  eapply bind_ret.
  - apply read_ok; [exact S|]. intros g' S'. eapply bind_ret; [apply read_ok; [exact S'|intros; reflexivity]|]. reflexivity.
  - destruct (is_equal_chars (m_name m) HTML_TAG_NAME (Some Lower)); apply IH; auto.
Qed.
Theorem document_bres : forall h f i t g, shared g -> tree_of f h i = Some t ->
  is_document_b h i g = BRes (ROk (is_document t)).
Proof.
  intros h f i t g S T. destruct f as [|f]; [discriminate|]. cbn [tree_of] in T.
  destruct (match n_end_tag (hget h i) with None => _ | Some _ => _ end) as [et|]; [|discriminate].
  unfold is_document_b, is_document.
  destruct (n_childs (hget h i)) as [l|].
  - destruct (map_opt (tree_of f h) l) as [ts|] eqn:Ks; [|discriminate]. injection T as <-. cbn [t_type t_childs].
    destruct (n_type (hget h i)); try reflexivity.
    eapply bind_ret; [eapply document_loop_bres; [exact S|exact Ks]|].
    destruct (is_document_loop ts false true) as [a b]. reflexivity.
  - injection T as <-. cbn [t_type t_childs]. destruct (n_type (hget h i)); reflexivity.
Qed.
Theorem element_bres : forall d id g, shared g -> get_element_by_id_b d id g = BRes (ROk (get_element_by_id d id)).
Proof.
  intros. unfold get_element_by_id_b, get_element_by_id. apply read_ok; [assumption|]. intros. apply read_ok; [assumption|]. reflexivity.
Qed.

(** ** Copies: new nodes are not among the borrowed ones. *)
Definition below (n : nat) (g : guards) : Prop :=
  Forall (fun x => snd x = false /\ match fst x with KNode i | KMeta i => i < n | _ => True end) g.
Lemma below_shared : forall n g, below n g -> shared g.
Proof. intros n g B. eapply Forall_impl; [|exact B]. intros x [H _]. exact H. Qed.
Lemma below_new : forall n g k, below n g -> n <= k -> borrowed g (KNode k) = false.
Proof.
  intros n g k B L. unfold borrowed. induction B as [|x g [_ H] B IH]; [reflexivity|]. cbn. rewrite IH.
  destruct x as [[i|i| |] b]; cbn in *; try reflexivity. rewrite (node_neq i k); [reflexivity|lia].
Qed.
Lemma below_node : forall n g k, below n g -> k < n -> below n ((KNode k, false) :: g).
Proof. intros. constructor; [split; [reflexivity|assumption]|assumption]. Qed.
Lemma read_below : forall A n k (m : M A) g r, below n g -> k < n -> (forall g', below n g' -> m g' = BRes r) ->
  reading (KNode k) m g = BRes r.
Proof.
  intros A n k m g r B L F. unfold reading. rewrite shared_free by (eapply below_shared; exact B). apply F. apply below_node; assumption.
Qed.
Lemma write_new : forall A n k (a : A) g, below n g -> n <= k -> writing (KNode k) (ret a) g = BRes (ROk a).
Proof. intros A n k a g B L. unfold writing. rewrite (below_new n) by assumption. reflexivity. Qed.

Definition clone_loop_b fuel pid reduce :=
  fix loop (l : list nid) (h : list node) (ids : list nid) : M (list node * list nid) :=
    match l with
    | [] => ret (h, ids)
    | k :: l' =>
        bdo '(h, k') <- reading (KNode k) (clone_node_with_b fuel h k reduce);
        bdo h <- writing (KNode k') (ret (hupd h k' (nset_parent (Some pid))));
        bdo h <- writing (KNode k') (ret (hupd h k' (nset_prev (last_opt ids))));
        bdo h <- reading (KNode k) (writing (KNode k')
                   (ret (hupd h k' (nset_index (n_index (hget h k))))));
        loop l' h (ids ++ [k'])
    end.
Lemma clone_b_eq : forall fuel h i r, clone_node_with_b (S fuel) h i r =
  (let n := hget h i in
  bdo b <- lift (checked_sub (n_begin_at n) r);
  bdo e <- lift (checked_sub (n_end_at n) r);
  bdo meta <-
    (match n_meta n with
     | Some m => reading (KMeta i) (ret (Some m))
     | None => ret None
     end);
  bdo '(h, et) <-
    (match n_end_tag n with
     | None => ret (h, None)
     | Some et =>
         bdo '(h, et') <- reading (KNode et) (clone_node_with_b fuel h et r);
         ret (h, Some et')
     end);
  let pid := length h in
  let h := h ++ [mkNode 0 (n_type n) b e et None None (n_root n) (n_content n) None meta] in
  match n_childs n with
  | None => ret (h, pid)
  | Some childs =>
      bdo '(h, ids) <- clone_loop_b fuel pid r childs h [];
      bdo h <- writing (KNode pid) (ret (hupd h pid (nset_childs (Some ids))));
      ret (h, pid)
  end).
Proof. reflexivity. Qed.

Lemma clone_bres : forall h0, closed h0 -> forall fuel h i r g, old h0 h -> i < length h0 -> below (length h0) g ->
  clone_node_with_b fuel h i r g = BRes (clone_node_with fuel h i r) /\
  forall h' j, clone_node_with fuel h i r = ROk (h', j) -> old h0 h' /\ length h <= j < length h'.
Proof.
  intros h0 Cl. induction fuel as [|fuel IH]; intros h i r g O I B; [split; [reflexivity|discriminate]|].
  rewrite clone_b_eq, clone_eq. cbv zeta.
  assert (Hi : hget h i = hget h0 i) by (apply O; exact I).
  assert (Ke : forall e, n_end_tag (hget h i) = Some e -> e < length h0).
  { intros e E. rewrite Hi in E. eapply Cl; [exact I|]. apply linked_end. exact E. }
  assert (Kc : forall l k, n_childs (hget h i) = Some l -> In k l -> k < length h0).
  { intros l k E K. rewrite Hi in E. apply In_nth_error in K. destruct K as [x K]. eapply Cl; [exact I|].
    eapply linked_child; [exact E|exact K]. }
  assert (Loop : forall pid l h ids, (forall k, In k l -> k < length h0) -> old h0 h -> length h0 <= pid < length h ->
    clone_loop_b fuel pid r l h ids g = BRes (clone_loop fuel pid r l h ids) /\
    forall h' ids', clone_loop fuel pid r l h ids = ROk (h', ids') -> old h0 h' /\ length h <= length h').
  { intros pid l. induction l as [|k l IHl]; intros h1 ids K O1 P.
    - split; [reflexivity|]. intros h' ids' E. injection E as <- <-. split; [exact O1|lia].
    - assert (Kk : k < length h0) by (apply K; left; reflexivity).
      destruct (IH h1 k r ((KNode k, false) :: g) O1 Kk (below_node _ _ _ B Kk)) as [A C].
      cbn [clone_loop_b clone_loop]. unfold mbind at 1. unfold reading at 1. rewrite shared_free by (eapply below_shared; exact B).
      rewrite A. destruct (clone_node_with fuel h1 k r) as [[h2 k']|e x|p]; cbn [rbind]; [|split; [reflexivity|discriminate]|split; [reflexivity|discriminate]].
      destruct (C _ _ eq_refl) as [O2 R2]. pose proof (proj1 O1) as L1. pose proof (proj1 O2) as L2.
      set (h3 := hupd h2 k' (fun c => nset_index (n_index (hget h2 k)) (nset_prev (last_opt ids) (nset_parent (Some pid) c)))).
      assert (L3 : length h3 = length h2) by apply hupd_length.
      assert (O3 : old h0 h3).
      { split; [lia|]. intros n N. unfold h3. rewrite hget_hupd_other by lia. apply O2. exact N. }
      destruct (IHl h3 (ids ++ [k']) (fun k H => K k (or_intror H)) O3) as [A3 C3]; [lia|].
      split.
      + eapply bind_ret; [eapply write_new; [exact B|lia]|]. eapply bind_ret; [eapply write_new; [exact B|lia]|].
        eapply bind_ret; [eapply (read_below _ (length h0)); [exact B|exact Kk|]; intros g' B'; eapply write_new; [exact B'|lia]|].
        rewrite !hupd_hupd, !hget_hupd_other by lia. exact A3.
      + intros h' ids' E. destruct (C3 _ _ E) as [O4 L4]. split; [exact O4|lia]. }
  destruct (checked_sub (n_begin_at (hget h i)) r) as [b|k x|p]; [|split; [reflexivity|discriminate]|split; [reflexivity|discriminate]].
  destruct (checked_sub (n_end_at (hget h i)) r) as [e|k x|p]; [|split; [reflexivity|discriminate]|split; [reflexivity|discriminate]].
  cbn [rbind]. set (res_et := match n_end_tag (hget h i) with None => ROk _ | Some _ => _ end).
  set (m_et := match n_end_tag (hget h i) with None => _ | Some _ => _ end).
  assert (Et : m_et g = BRes res_et /\ forall h' et, res_et = ROk (h', et) -> old h0 h' /\ length h <= length h').
  { unfold m_et, res_et. destruct (n_end_tag (hget h i)) as [et|] eqn:E.
    - destruct (IH h et r ((KNode et, false) :: g) O (Ke _ eq_refl) (below_node _ _ _ B (Ke _ eq_refl))) as [A C].
      unfold mbind, reading. rewrite shared_free by (eapply below_shared; exact B). rewrite A.
      destruct (clone_node_with fuel h et r) as [[h2 k']|k x|p]; cbn [rbind]; [|split; [reflexivity|discriminate]|split; [reflexivity|discriminate]].
      split; [reflexivity|]. intros h' et' F. injection F as <- <-. destruct (C _ _ eq_refl). split; [assumption|lia].
    - split; [reflexivity|]. intros h' et F. injection F as <- <-. split; [exact O|lia]. }
  clearbody m_et res_et. destruct Et as [Et1 Et2].
  assert (Meta : (match n_meta (hget h i) with Some m => reading (KMeta i) (ret (Some m)) | None => ret None end) g = BRes (ROk (n_meta (hget h i)))).
  { destruct (n_meta (hget h i)); [|reflexivity]. apply read_ok; [eapply below_shared; exact B|reflexivity]. }
  destruct res_et as [[h2 et]|k x|p].
  - destruct (Et2 _ _ eq_refl) as [O2 L2]. cbn [rbind].
    set (n := mkNode 0 _ b e et None None _ _ None _).
    assert (O3 : old h0 (h2 ++ [n])).
    { destruct O2 as [O21 O22]. split; [rewrite app_length; cbn; lia|]. intros x N. rewrite hget_app_old by lia. apply O22. exact N. }
    pose proof (proj1 O2) as Le.
    destruct (n_childs (hget h i)) as [l|] eqn:Ks.
    + destruct (Loop (length h2) l (h2 ++ [n]) []) as [A C]; [intros; eapply Kc; eauto|exact O3|rewrite app_length; cbn; lia|].
      destruct (clone_loop fuel (length h2) r l (h2 ++ [n]) []) as [[h4 ids]|k x|p]; cbn [rbind].
      * destruct (C _ _ eq_refl) as [O4 L4]. rewrite app_length in L4. cbn in L4. split.
        -- unfold mbind at 1. unfold lift at 1. unfold mbind at 1. unfold lift at 1. eapply bind_ret; [exact Meta|].
           eapply bind_ret; [exact Et1|]. eapply bind_ret; [exact A|].
           eapply bind_ret; [eapply write_new; [exact B|exact Le]|]. reflexivity.
        -- intros h' j E. injection E as <- <-. rewrite hupd_length. split; [|lia].
           destruct O4 as [O41 O42]. split; [rewrite hupd_length; exact O41|]. intros x N. rewrite hget_hupd_other by lia. apply O42. exact N.
      * split; [|discriminate]. unfold mbind at 1. unfold lift at 1. unfold mbind at 1. unfold lift at 1. eapply bind_ret; [exact Meta|].
        eapply bind_ret; [exact Et1|]. unfold mbind at 1. fold n. rewrite A. reflexivity.
      * split; [|discriminate]. unfold mbind at 1. unfold lift at 1. unfold mbind at 1. unfold lift at 1. eapply bind_ret; [exact Meta|].
        eapply bind_ret; [exact Et1|]. unfold mbind at 1. fold n. rewrite A. reflexivity.
    + split.
      * unfold mbind at 1. unfold lift at 1. unfold mbind at 1. unfold lift at 1. eapply bind_ret; [exact Meta|].
        eapply bind_ret; [exact Et1|]. reflexivity.
      * intros h' j E. injection E as <- <-. split; [exact O3|]. rewrite app_length. cbn. lia.
  - split; [|discriminate]. unfold mbind at 1. unfold lift at 1. unfold mbind at 1. unfold lift at 1. eapply bind_ret; [exact Meta|].
    unfold mbind at 1. rewrite Et1. reflexivity.
  - split; [|discriminate]. unfold mbind at 1. unfold lift at 1. unfold mbind at 1. unfold lift at 1. eapply bind_ret; [exact Meta|].
    unfold mbind at 1. rewrite Et1. reflexivity.
Qed.
Theorem clone_node_bres : forall opts s d i g, parse opts s = Parsed d -> i < length (d_heap d) -> below (length (d_heap d)) g ->
  clone_node_b (d_heap d) i g = BRes (clone_node (d_heap d) i).
Proof.
  intros opts s d i g P I B. destruct (parsed_hs _ _ _ P) as [H _].
  apply (clone_bres (d_heap d)); auto.
  - intros p x k _ X. eapply linked_up; eauto.
  - split; auto.
Qed.
