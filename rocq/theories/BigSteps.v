(** Every run of the parser decomposes into big steps, possibly followed by one unfinished token. *)
From Coq Require Import String.
From Verif Require Import Api SpecText SpecParse NameProofs MiscProofs HeapLemmas InvCtl CtlSteps
  CtlHandlers CtlEnd CtlRun Big.
Local Open Scope string_scope.
Local Open Scope list_scope.

Lemma set_meta_get : forall h i m, i < length h -> n_meta (hget (set_meta h i m) i) = Some m.
Proof. intros. unfold set_meta. rewrite hget_hupd_same by assumption. reflexivity. Qed.
Lemma set_meta_upd : forall h i m g, hupd (set_meta h i m) i (nupd_meta g) = set_meta h i (g m).
Proof.
  induction h as [|n h IH]; intros [|i] m g; unfold set_meta, hupd in *; cbn; auto.
  f_equal. apply IH.
Qed.
Lemma hupd_hupd : forall h i f g, hupd (hupd h i f) i g = hupd h i (fun n => g (f n)).
Proof. induction h as [|n h IH]; intros [|i] f g; unfold hupd in *; cbn; auto. f_equal. apply IH. Qed.
Lemma hupd_app_old : forall h n i f, i < length h -> hupd (h ++ [n]) i f = hupd h i f ++ [n].
Proof.
  induction h as [|x h IH]; intros n [|i] f H; cbn in *; try lia; unfold hupd in *; cbn; auto.
  f_equal. apply IH. lia.
Qed.
Lemma hupd_app_new : forall h n f, hupd (h ++ [n]) (length h) f = h ++ [f n].
Proof. induction h as [|x h IH]; intros n f; unfold hupd in *; cbn; auto. f_equal. apply IH. Qed.

Lemma add_child_length : forall h p n, length (add_child h p n) = S (length h).
Proof. intros. unfold add_child. rewrite hupd_length, app_length. cbn. lia. Qed.
Lemma add_orphan_length : forall h p n, length (add_orphan h p n) = S (length h).
Proof. intros. unfold add_orphan. rewrite hupd_length, app_length. cbn. lia. Qed.
Lemma flip_length : forall ck h, length (flip ck h) = length h.
Proof. intros [i|] h; cbn; [apply hupd_length|reflexivity]. Qed.
Lemma set_meta_length : forall h i m, length (set_meta h i m) = length h.
Proof. intros. apply hupd_length. Qed.
Lemma opened_length : forall u p t, length (opened u p t) = S (length (d_heap u)).
Proof. intros. unfold opened. rewrite flip_length, add_child_length. reflexivity. Qed.

(** Simplification of heap sizes. *)
Global Hint Rewrite add_child_length add_orphan_length flip_length set_meta_length opened_length hupd_length
  app_length : hlen.

Lemma add_new_child : forall n st p rest, d_chain_nodes st = p :: rest -> d_root st = 0 ->
  n_type n <> NTagEnd ->
  add_new_node n st =
    ROk (set_chain_nodes (if node_type_eqb (n_type n) NTag
                          then length (d_heap st) :: d_chain_nodes st else d_chain_nodes st)
          (set_current_node (length (d_heap st)) (set_heap (add_child (d_heap st) p n) st))).
Proof.
  intros n st p rest E R T. unfold add_new_node.
  assert (X : node_type_eqb (n_type n) NTagEnd = false) by (destruct (n_type n); auto; contradiction).
  rewrite X, E. unfold get_node, add_child, kids.
  destruct (n_childs (hget (d_heap st) p)) as [childs|];
    destruct (node_type_eqb (n_type n) NTag); dst st; nd; cbn in *; subst; reflexivity.
Qed.
Lemma add_new_empty : forall n st, d_chain_nodes st = [] -> n_type n <> NTagEnd ->
  add_new_node n st = RPanic PChainEmpty.
Proof.
  intros n st E T. unfold add_new_node.
  assert (X : node_type_eqb (n_type n) NTagEnd = false) by (destruct (n_type n); auto; contradiction).
  rewrite X, E. reflexivity.
Qed.
Lemma spaces_flip : forall st,
  set_text_spaces_between st = set_check_textnode None (set_heap (flip (d_check_textnode st) (d_heap st)) st).
Proof.
  intro st. unfold set_text_spaces_between, flip. dst st. nd. destruct chk; reflexivity.
Qed.

(** *** Text *)
Lemma wait_big : forall st c st', is_W st -> d_root st = 0 ->
  n_type (cur st) <> NSpacesBetweenTag -> next st c = ROk st' -> bstep st [c] st'.
Proof.
  intros st c st' W R S H. pose proof W as [Wh [Wc [Wd Wp]]].
  unfold next, run_handle in H. rewrite Wh in H. unfold parse_wait in H.
  destruct (N.eqb_spec c TAG_BEGIN_CHAR) as [->|Nc].
  - ndi H. injection H as <-.
    replace (mkDoc _ _ _ _ _ _ _ _ _ _ _ _ _ _ _ _) with
      (mkDoc CUnkownTag (d_position st + 1) (d_position st) None [] (d_mark_char st) (d_chain_nodes st)
           (d_current_node st) (d_in_special st) (d_repeat_whitespace st) (d_check_textnode st) HUnkownTag
           (d_parse_options st) (d_root st) (d_id_tags st) (d_heap st)) by (dst st; cbn in *; subst; reflexivity).
    apply bs_wait_lt. exact W.
  - destruct (auto_fix_unexpected_endtag (d_parse_options st)) eqn:Fx.
    + destruct (node_type_eqb (n_type (cur st)) NText) eqn:Tx.
      * assert (T : n_type (cur st) = NText) by (destruct (n_type (cur st)); try discriminate; reflexivity).
        pose proof (bs_wait_merge st c _ W Nc Fx T eq_refl) as B.
        rewrite T in H. cbn [node_type_eqb andb orb] in H.
        destruct (n_content (cur st)) as [x|]; dst st; ndi H; ndi B; cbn in Wh, Wd, Wp; subst;
          injection H as <-; exact B.
      * replace (node_type_eqb (n_type (cur st)) NSpacesBetweenTag) with false in H
          by (destruct (n_type (cur st)); auto; contradiction).
        rewrite Bool.andb_false_r in H.
        destruct (d_chain_nodes st) as [|p rest] eqn:Ec.
        { rewrite add_new_empty in H by (auto; discriminate). discriminate. }
        assert (Tn : n_type (cur st) <> NText) by (intro E; rewrite E in Tx; discriminate).
        pose proof (bs_wait_text st c p rest W Nc (or_intror Tn) Ec) as B'.
        rewrite (add_new_child _ _ p rest Ec R) in H by discriminate.
        dst st; ndi H; ndi B'; cbn in Wh, Wd, Wp, R; subst. injection H as <-. exact B'.
    + destruct (d_chain_nodes st) as [|p rest] eqn:Ec.
      { rewrite add_new_empty in H by (auto; discriminate). discriminate. }
      pose proof (bs_wait_text st c p rest W Nc (or_introl Fx) Ec) as B'.
      rewrite (add_new_child _ _ p rest Ec R) in H by discriminate.
      dst st; ndi H; ndi B'; cbn in Wh, Wd, Wp, R; subst. injection H as <-. exact B'.
Qed.

Lemma text_big : forall st c st', is_T st -> next st c = ROk st' -> bstep st [c] st'.
Proof.
  intros st c st' W H. pose proof W as [Wh [Wc Wd]].
  unfold next, run_handle in H. rewrite Wh in H. unfold parse_text in H.
  destruct (N.eqb_spec c TAG_BEGIN_CHAR) as [->|Nc].
  - pose proof (bs_text_lt st W) as B.
    dst st; ndi H; ndi B; cbn in Wh, Wd, Wc; subst. injection H as <-. exact B.
  - pose proof (bs_text_char st c W Nc) as B.
    dst st; ndi H; ndi B; cbn in Wh, Wd, Wc; subst. destruct rep; injection H as <-; exact B.
Qed.

(** *** After '<' *)
Lemma alpha_open : forall c, is_ascii_alphabetic c = true -> open_name [c].
Proof. intros c H. exists c, []. repeat split; auto. Qed.

Lemma lt_text_spec : forall u c, is_U u -> n_type (cur u) <> NSpacesBetweenTag ->
  fix_unescaped_lt u c =
    if N.eqb c TAG_BEGIN_CHAR then parse_text (lt_text u (str "&lt;")) c
    else ROk (lt_text u (str "&lt;" ++ [c])).
Proof.
  intros u c [Uh [Uc [Ud Up]]] S. unfold fix_unescaped_lt, lt_text, lt_parent.
  destruct (n_type (cur u)) eqn:T; try contradiction;
  repeat match goal with
    | |- context [match n_content (cur u) with _ => _ end] => destruct (n_content (cur u))
    | |- context [match n_meta (cur u) with _ => _ end] => destruct (n_meta (cur u)) as [m|]
    | |- context [(m_self_closed ?m || m_auto_fix ?m)%bool] => destruct (m_self_closed m || m_auto_fix m)%bool
    end; cbn [negb node_type_eqb];
  destruct (N.eqb c TAG_BEGIN_CHAR); dst u; nd; cbn in Uh, Ud, Up; subst;
  unfold add_orphan, kids; rewrite ?app_nil_r; cbn [str app];
  try (destruct chain); reflexivity.
Qed.
Lemma lt_text_T : forall u s, is_T (lt_text u s).
Proof.
  intros u s. unfold lt_text. destruct (n_type (cur u)); try destruct (n_content (cur u)); repeat split.
Qed.
Lemma lt_text_pos : forall u s, d_position (lt_text u s) = d_position u.
Proof.
  intros u s. unfold lt_text. destruct (n_type (cur u)); try destruct (n_content (cur u)); repeat split.
Qed.

Lemma unkown_big : forall u c st', is_U u -> d_root u = 0 -> n_type (cur u) <> NSpacesBetweenTag ->
  next u c = ROk st' -> bstep u [c] st' \/ inm u [c] st'.
Proof.
  intros u c st' U R S H. pose proof U as [Uh [Uc [Ud Up]]].
  unfold next, run_handle in H. rewrite Uh in H. unfold parse_unkown_tag in H.
  destruct (is_ascii_alphabetic c) eqn:Al.
  - right. destruct (d_chain_nodes u) as [|p rest] eqn:Ec.
    { rewrite add_new_empty in H by (auto; discriminate). discriminate. }
    rewrite (add_new_child _ _ p rest Ec R) in H by discriminate.
    pose proof (in_name u p rest [c] U Ec (alpha_open c Al)) as B.
    cbn [rbind] in H. rewrite spaces_flip in H. unfold st_name, opened in B.
    dst u; ndi H; ndi B; cbn in Uh, Ud, Up, Uc, R; subst. injection H as <-. exact B.
  - destruct (N.eqb_spec c END_SLASH_CHAR) as [->|N1].
    + right. pose proof (in_end u [] U (fun X => X)) as B. unfold st_end, dropped_heap in B.
      change (str "/" ++ []) with [END_SLASH_CHAR] in B.
      destruct (auto_fix_unclosed_tag (d_parse_options u)) eqn:Fx; cbn [negb] in H;
        unfold add_new_node in H; cbn [n_type node_new node_type_eqb] in H.
      * dst u; ndi H; ndi B; cbn in Uh, Ud, Up, Uc, R; subst.
        rewrite hupd_app_new in H. injection H as <-. exact B.
      * dst u; ndi H; ndi B; cbn in Uh, Ud, Up, Uc, R; subst. injection H as <-. exact B.
    + destruct (N.eqb_spec c EXCLAM_CHAR) as [->|N2].
      * right. pose proof (in_excl u U) as B. unfold st_excl in B.
        change (str "!") with [EXCLAM_CHAR] in B.
        dst u; ndi H; ndi B; cbn in Uh, Ud, Up, Uc, R; subst. injection H as <-. exact B.
      * left. destruct (auto_fix_unescaped_lt (d_parse_options u)) eqn:Fx; cbn [negb] in H; [|discriminate].
        rewrite lt_text_spec in H by assumption.
        destruct (N.eqb_spec c TAG_BEGIN_CHAR) as [->|N3].
        -- apply bs_lt_lt; auto. apply text_big; [apply lt_text_T|].
           unfold next, run_handle. destruct (lt_text_T u (str "&lt;")) as [-> _]. exact H.
        -- cbn [rbind] in H. injection H as <-. rewrite lt_text_pos. apply bs_lt_char; auto.
Qed.

(** *** Inside a start tag or doctype *)
Lemma upd_last_cons : forall {A} (f : A -> A) l, l <> [] -> upd_last f l <> [].
Proof. intros A f l H E. apply H. eapply upd_last_nil. exact E. Qed.

Definition ta_ok (t : ta) : Prop :=
  match ta_mode t with
  | AWait _ => ta_prev t = [] /\ (ta_code t = TWait \/ ta_attrs t <> [])
  | _ => ta_attrs t <> []
  end.

Lemma ta_start_ok : forall mk, ta_ok (ta_start mk).
Proof. split; auto. Qed.
Lemma ta_step_ok : forall po dt c t t', ta_ok t -> ta_step po dt c t = Some t' -> ta_ok t'.
Proof.
  intros po dt c t t' O H. unfold ta_step, ta_wait_step in H. unfold ta_ok in *.
  destruct t as [md cd at_ mp pv mk is_]. cbn [ta_mode ta_code ta_attrs ta_map ta_prev ta_mark ta_ids] in *.
  destruct md;
  repeat match type of H with
    | context [if ?b then _ else _] => destruct b eqn:?
    end; try discriminate; injection H as <-; cbn [ta_mode ta_prev ta_attrs ta_key ta_val ta_push ta_set_key ta_set_val]; auto;
  try (intro E; apply app_eq_nil in E; destruct E; discriminate);
  try (destruct O as [O1 [O2|O2]]; [subst cd; discriminate|auto]);
  try (split; [reflexivity|right; apply upd_last_cons; exact O]).
Qed.

Lemma set_key_area : forall u p dt n ps t, ta_attrs t <> [] ->
  set_tag_attr_key (st_area u p dt n ps t) =
    ROk (set_handle (mode_handle (ta_mode t)) (st_area u p dt n ps (ta_set_key (ta_mode t) (ta_code t) t))).
Proof.
  intros u p dt n ps t A. unfold set_tag_attr_key, st_area. dst u. nd.
  rewrite set_meta_get by (rewrite opened_length; cbn; lia). cbn [m_attrs ta_meta].
  destruct (ta_attrs t) eqn:E; [contradiction|]. rewrite set_meta_upd.
  unfold ta_set_key, ta_meta. rewrite E. reflexivity.
Qed.
Lemma last_opt_some : forall {A} (l : list A), l <> [] -> exists x, last_opt l = Some x.
Proof.
  intros A l. induction l as [|x l IH]; [contradiction|]. intros _.
  destruct l; [exists x; reflexivity|]. destruct IH as [y Hy]; [discriminate|]. exists y. exact Hy.
Qed.
Lemma set_val_area : forall u p dt n ps t q mk, ta_attrs t <> [] ->
  set_tag_attr_value q (set_mark_char mk (st_area u p dt n ps t)) =
    ROk (set_handle (mode_handle (ta_mode t)) (st_area u p dt n ps (ta_set_val q (ta_code t) mk t))).
Proof.
  intros u p dt n ps t q mk A. unfold set_tag_attr_value, st_area. dst u. nd.
  rewrite set_meta_get by (rewrite opened_length; cbn; lia). cbn [m_attrs ta_meta].
  destruct (last_opt_some _ A) as [a Ea]. unfold ta_set_val. rewrite Ea.
  rewrite set_meta_upd. unfold val_attr. cbn.
  destruct (check_if_id _); reflexivity.
Qed.
Lemma code_area : forall u p dt n ps t c,
  set_tag_code_in c (st_area u p dt n ps t) =
    set_handle (match c with TWait | TWaitValue | TValueEnd => HTagWait | TKey => HAttrKey
                | TValue => HAttrValue | TKeyEnd => mode_handle (ta_mode t) end)
      (st_area u p dt n ps (mkTa (ta_mode t) c (ta_attrs t) (ta_map t) (ta_prev t) (ta_mark t) (ta_ids t))).
Proof.
  intros. unfold set_tag_code_in, st_area. dst u. destruct c; nd; rewrite set_meta_upd; reflexivity.
Qed.
Lemma code_handle : forall st c hd, match c with TKeyEnd => False | _ => True end ->
  set_tag_code_in c (set_handle hd st) = set_tag_code_in c st.
Proof. intros st c hd H. destruct c; try contradiction; reflexivity. Qed.

(** '=' where no attribute name may start: [ta_step] is [None]. *)
Lemma wait_area : forall u p dt n ps t c b, ta_mode t = AWait b -> N.eqb c TAG_END_CHAR = false ->
  match ta_wait_step (d_parse_options u) dt c t with
  | Some t' => parse_tag_wait (st_area u p dt n ps t) c = ROk (st_area u p dt n ps t')
  | None => forall r, parse_tag_wait (st_area u p dt n ps t) c <> ROk r
  end.
Proof.
  intros u p dt n ps t c b M Nc. unfold ta_wait_step, parse_tag_wait, is_quote.
  assert (Tc : tag_code_of (st_area u p dt n ps t) = ROk (ta_code t)).
  { unfold tag_code_of, st_area. dst u. nd. rewrite set_meta_get by (rewrite opened_length; cbn; lia). reflexivity. }
  rewrite Nc, Tc. cbn [rbind].
  destruct (N.eqb c DOUBLE_QUOTE_CHAR || N.eqb c SINGLE_QUOTE_CHAR)%bool.
  - destruct (tag_code_in_eqb (ta_code t) TWaitValue).
    + unfold st_area. dst u. nd. rewrite set_meta_upd. reflexivity.
    + destruct dt.
      * cbn [d_code_in st_area]. unfold add_tag_attr_value, st_area. dst u. nd.
        rewrite set_meta_get by (rewrite opened_length; cbn; lia).
        rewrite set_meta_upd. rewrite set_meta_upd. reflexivity.
      * cbn [d_code_in st_area]. unfold st_area. dst u. nd. rewrite !set_meta_upd. reflexivity.
  - destruct (N.eqb c END_SLASH_CHAR); [reflexivity|].
    destruct (N.eqb c EQUAL_CHAR).
    + destruct (tag_code_in_eqb (ta_code t) TKeyEnd).
      { unfold st_area. dst u. nd. rewrite set_meta_upd. reflexivity. }
      destruct (tag_code_in_eqb (ta_code t) TWait).
      { change (d_parse_options (st_area u p dt n ps t)) with (d_parse_options u).
        destruct (allow_attr_key_starts_with_equal_sign (d_parse_options u)); cbn [negb].
        - unfold st_area. dst u. nd. rewrite !set_meta_upd. reflexivity.
        - discriminate. }
      { unfold st_area. dst u. nd. rewrite set_meta_upd. reflexivity. }
    + destruct (is_ascii_whitespace c); [reflexivity|].
      assert (Tc' : tag_code_of (push_char c (st_area u p dt n ps t)) = ROk (ta_code t)).
      { exact Tc. }
      cbn zeta. rewrite Tc'. cbn [rbind].
      destruct (tag_code_in_eqb (ta_code t) TWaitValue).
      * unfold st_area. dst u. nd. rewrite set_meta_upd. reflexivity.
      * unfold st_area. dst u. nd. rewrite !set_meta_upd. reflexivity.
Qed.

Lemma area_next : forall u p dt n ps t c, ta_ok t -> ta_closes c t = false ->
  match ta_step (d_parse_options u) dt c t with
  | Some t' => run_handle (st_area u p dt n ps t) c = ROk (st_area u p dt n ps t')
  | None => forall r, run_handle (st_area u p dt n ps t) c <> ROk r
  end.
Proof.
  intros u p dt n ps t c O Cl. unfold ta_step, ta_closes, ta_closable, ta_ok in *. unfold run_handle.
  change (d_handle (st_area u p dt n ps t)) with (mode_handle (ta_mode t)).
  destruct (ta_mode t) as [b| |] eqn:M; cbn [mode_handle].
  - rewrite Bool.andb_true_r in Cl. pose proof (wait_area u p dt n ps t c b M Cl) as Wa.
    destruct b.
    + unfold parse_tag_self_closing. rewrite Cl.
      destruct (N.eqb_spec c END_SLASH_CHAR) as [->|Ns].
      * cbn. destruct t; cbn in *; subst; reflexivity.
      * exact Wa.
    + exact Wa.
  - rewrite Bool.andb_true_r in Cl. unfold parse_tag_attr_key. rewrite Cl.
    rewrite set_key_area by exact O. rewrite M. cbn [rbind].
    destruct (N.eqb c EQUAL_CHAR).
    { rewrite code_handle by exact I. rewrite code_area. reflexivity. }
    destruct (N.eqb c END_SLASH_CHAR).
    { rewrite code_handle by exact I. rewrite code_area. reflexivity. }
    destruct (is_ascii_whitespace c).
    { f_equal. unfold st_area, ta_set_key. dst u. nd. rewrite set_meta_upd. reflexivity. }
    unfold ta_push, st_area. rewrite M. reflexivity.
  - unfold parse_tag_attr_value. change (d_mark_char (st_area u p dt n ps t)) with (ta_mark t).
    destruct (N.eqb (ta_mark t) WS_CHAR) eqn:Mk.
    + rewrite Bool.andb_true_r in Cl. rewrite Cl. cbn [andb].
      destruct (is_ascii_whitespace c).
      * rewrite set_val_area by exact O. cbn [rbind]. rewrite M.
        rewrite code_handle by exact I. rewrite code_area. reflexivity.
      * unfold ta_push, st_area. rewrite M. reflexivity.
    + cbn [andb]. destruct (N.eqb c (ta_mark t)).
      * rewrite set_val_area by exact O. cbn [rbind]. rewrite M.
        rewrite code_handle by exact I. rewrite code_area. reflexivity.
      * unfold ta_push, st_area. rewrite M. reflexivity.
Qed.

Lemma ta_run_snoc : forall po dt a c t, ta_run po dt (a ++ [c]) t =
  match ta_run po dt a t with
  | Some t1 => if ta_closes c t1 then None else ta_step po dt c t1
  | None => None
  end.
Proof.
  intros po dt a. induction a as [|x a IH]; intros c t; cbn.
  - destruct (ta_closes c t); [reflexivity|]. destruct (ta_step po dt c t); reflexivity.
  - destruct (ta_closes x t); [reflexivity|]. destruct (ta_step po dt x t); [apply IH|reflexivity].
Qed.
Lemma ta_run_ok : forall po dt a t t', ta_ok t -> ta_run po dt a t = Some t' -> ta_ok t'.
Proof.
  intros po dt a. induction a as [|x a IH]; intros t t' O H; cbn in H.
  - injection H as <-. exact O.
  - destruct (ta_closes x t); [discriminate|]. destruct (ta_step po dt x t) as [t1|] eqn:E; [|discriminate].
    eapply IH; [|exact H]. eapply ta_step_ok; eauto.
Qed.

(** What '>' does; [t] is already completed by [ta_close]. *)
Definition st_closed (u : doc) (p : nid) (dt : bool) (n : list char) (ps : nat) (sc : bool) (sp : option (special_tag * list char)) (ch : list nid) (t : ta) : doc :=
  mkDoc CUnkown ps (d_mem_position u) None [] (ta_mark t) ch (length (d_heap u))
    sp (d_repeat_whitespace u) None HWait (d_parse_options u) (d_root u)
    (ids_of (length (d_heap u)) t (d_id_tags u))
    (set_meta (opened u p (if dt then NHTMLDOCTYPE else NTag)) (length (d_heap u)) (ta_meta n sc t)).

Lemma wait_close : forall u p (dt : bool) n ps t hx, ta_prev t = [] ->
  let ch := if dt then d_chain_nodes u else length (d_heap u) :: d_chain_nodes u in
  parse_tag_wait (set_handle hx (st_area u p dt n ps t)) TAG_END_CHAR =
    ROk (if is_void_tag (lower n) then st_closed u p dt n ps false (d_in_special u) (tl ch) t
         else if is_content_tag (lower n) None then
           mkDoc (raw_code n) ps ps (Some (str "</" ++ n)) [] (ta_mark t) ch (length (d_heap u))
             (d_in_special u) (d_repeat_whitespace u) None HContent (d_parse_options u) (d_root u)
             (ids_of (length (d_heap u)) t (d_id_tags u))
             (set_meta (opened u p (if dt then NHTMLDOCTYPE else NTag)) (length (d_heap u)) (ta_meta n false t))
         else st_closed u p dt n ps false (special_after (d_in_special u) n) ch t).
Proof.
  intros u p dt n ps t hx Pv ch. subst ch. unfold parse_tag_wait, check_tag_type_do. cbn [N.eqb TAG_END_CHAR DOUBLE_QUOTE_CHAR SINGLE_QUOTE_CHAR orb].
  replace (N.eqb TAG_END_CHAR DOUBLE_QUOTE_CHAR || N.eqb TAG_END_CHAR SINGLE_QUOTE_CHAR)%bool with false by reflexivity.
  replace (N.eqb TAG_END_CHAR TAG_END_CHAR) with true by reflexivity.
  unfold st_area, st_closed. dst u. nd. rewrite set_meta_get by (rewrite opened_length; cbn; lia).
  cbn [m_is_void m_name ta_meta]. rewrite Pv.
  destruct (is_void_tag (lower n)) eqn:V.
  { unfold ta_meta. reflexivity. }
  destruct (is_content_tag (lower n) None) eqn:C.
  - unfold raw_code.
    assert (Q : forall x, lower x = x -> is_equal_chars (lower n) x None = same_name n x).
    { intros x Hx. rewrite is_equal_chars_none_eqb.
      destruct (same_name n x) eqn:E.
      - apply same_name_lower in E. apply chars_eqb_eq. congruence.
      - apply chars_eqb_neq. intro F. apply Bool.not_true_iff_false in E. apply E. apply same_name_lower. congruence. }
    rewrite !Q by reflexivity. unfold SCRIPT_TAG_NAME, STYLE_TAG_NAME.
    destruct (same_name n (str "script")); [reflexivity|].
    destruct (same_name n (str "style")); reflexivity.
  - unfold special_after. destruct spec; [reflexivity|]. reflexivity.
Qed.

Lemma area_close : forall u p (dt : bool) n ps t, ta_ok t -> ta_closable t = true ->
  let ch := if dt then d_chain_nodes u else length (d_heap u) :: d_chain_nodes u in
  run_handle (st_area u p dt n ps t) TAG_END_CHAR =
    if ta_slash t then
      if (dt || self_close_ok u n)%bool
      then ROk (st_closed u p dt n ps true (d_in_special u) (tl ch) (ta_close t))
      else RErr (EWrongSelfClosing n) ps
    else parse_tag_wait (set_handle (d_handle (st_area u p dt n ps t)) (st_area u p dt n ps (ta_close t))) TAG_END_CHAR.
Proof.
  intros u p dt n ps t O Cl ch. subst ch. unfold run_handle.
  change (d_handle (st_area u p dt n ps t)) with (mode_handle (ta_mode t)).
  unfold ta_ok, ta_slash, ta_closable, ta_close in *.
  destruct (ta_mode t) as [[|]| |] eqn:M; cbn [mode_handle].
  - unfold parse_tag_self_closing. replace (N.eqb TAG_END_CHAR TAG_END_CHAR) with true by reflexivity.
    unfold st_area, st_closed, self_close_ok. dst u. nd.
    rewrite set_meta_get by (rewrite opened_length; cbn; lia).
    cbn [m_is_void m_name ta_meta]. destruct O as [-> _]. rewrite set_meta_upd.
    destruct dt.
    + rewrite Bool.andb_false_r. reflexivity.
    + cbn [negb orb]. rewrite Bool.andb_true_r.
      destruct (allow_self_closing po), (is_void_tag (lower n)), spec; reflexivity.
  - f_equal. unfold st_area. rewrite M. reflexivity.
  - unfold parse_tag_attr_key. replace (N.eqb TAG_END_CHAR EQUAL_CHAR) with false by reflexivity.
    replace (N.eqb TAG_END_CHAR TAG_END_CHAR) with true by reflexivity.
    rewrite set_key_area by exact O. rewrite M. cbn [rbind]. f_equal.
    unfold st_area, ta_set_key. dst u. nd. rewrite set_meta_upd. reflexivity.
  - unfold parse_tag_attr_value. change (d_mark_char (st_area u p dt n ps t)) with (ta_mark t).
    replace (N.eqb TAG_END_CHAR TAG_END_CHAR) with true by reflexivity. rewrite Cl. cbn [andb].
    replace (st_area u p dt n ps t) with (set_mark_char (ta_mark t) (st_area u p dt n ps t)) by reflexivity.
    rewrite set_val_area by exact O. rewrite M. cbn [rbind].
    rewrite code_handle by exact I. rewrite code_area.
    rewrite !wait_close by reflexivity. reflexivity.
Qed.

Lemma ws_wait : forall po dt c t b, is_ascii_whitespace c = true -> ta_mode t = AWait b ->
  ta_closes c t = false /\ ta_step po dt c t = Some t.
Proof.
  intros po dt c t b W M. unfold ta_step, ta_closes, ta_wait_step, ta_closable. rewrite M.
  unfold is_ascii_whitespace in W.
  repeat (apply Bool.orb_true_iff in W; destruct W as [W|W]); apply N.eqb_eq in W; subst c; split; reflexivity.
Qed.

Lemma name_meta : forall u p n,
  set_tag_meta (st_name u p n) =
    (is_void_tag (lower n),
     set_handle HTagName (st_area u p false n (d_position u + length n) (ta_start (d_mark_char u)))).
Proof. intros. dst u. reflexivity. Qed.

Lemma name_next : forall u p n c,
  run_handle (st_name u p n) c =
    if N.eqb c TAG_END_CHAR then
      parse_tag_wait (set_handle HTagName (st_area u p false n (d_position u + length n) (ta_start (d_mark_char u)))) c
    else if N.eqb c END_SLASH_CHAR then
      ROk (st_area u p false n (d_position u + length n)
             (mkTa (AWait true) TWait [] [] [] (d_mark_char u) []))
    else if is_ascii_whitespace c then
      ROk (st_area u p false n (d_position u + length n) (ta_start (d_mark_char u)))
    else ROk (push_char c (st_name u p n)).
Proof.
  intros u p n c. change (run_handle (st_name u p n) c) with (parse_tag_name (st_name u p n) c).
  unfold parse_tag_name. rewrite name_meta.
  destruct (N.eqb_spec c TAG_END_CHAR) as [->|Nc].
  - unfold parse_tag_wait.
    replace (N.eqb TAG_END_CHAR DOUBLE_QUOTE_CHAR || N.eqb TAG_END_CHAR SINGLE_QUOTE_CHAR)%bool with false by reflexivity.
    replace (N.eqb TAG_END_CHAR TAG_END_CHAR) with true by reflexivity.
    unfold st_area. dst u. nd. rewrite set_meta_get by (rewrite opened_length; cbn; lia).
    cbn [ta_meta m_is_void]. reflexivity.
  - destruct (N.eqb c END_SLASH_CHAR); [reflexivity|].
    destruct (is_ascii_whitespace c); [|reflexivity].
    cbn [snd]. rewrite code_handle by exact I. rewrite code_area. reflexivity.
Qed.

(** One more character of an unfinished token: it goes on or it is complete. *)
Definition goes_on (u : doc) (s : list char) (r : res doc) : Prop :=
  forall st', r = ROk st' -> inm u s st' \/ bstep u s st'.

Lemma content_not_void : forall n, is_content_tag (lower n) None = true -> is_void_tag (lower n) = false.
Proof.
  intros n H. unfold is_content_tag, is_script_or_style, is_plain_text_tag in H.
  repeat (apply Bool.orb_true_iff in H; destruct H as [H|H]);
    apply is_equal_chars_none in H; rewrite H; reflexivity.
Qed.

Lemma tag_closed_big : forall u p rest n a t c hx, is_U u -> d_chain_nodes u = p :: rest -> open_name n ->
  area_start a -> ta_run (d_parse_options u) false a (ta_start (d_mark_char u)) = Some t ->
  ta_closable t = true -> ta_slash t = false -> c = TAG_END_CHAR ->
  goes_on u (n ++ a ++ [c])
    (do st <- parse_tag_wait (set_handle hx (st_area u p false n (d_position u + length (n ++ a)) (ta_close t))) c;
     ROk (set_position (d_position st + 1) st)).
Proof.
  intros u p rest n a t c hx U Ec On As R Cl Sl -> st' H.
  assert (O : ta_ok t) by (eapply ta_run_ok; [apply ta_start_ok|exact R]).
  rewrite wait_close in H.
  2:{ unfold ta_ok, ta_close in *. destruct (ta_mode t); cbn; [apply O| |]; reflexivity. }
  cbn [rbind] in H. injection H as <-.
  change [TAG_END_CHAR] with (str ">").
  destruct (is_void_tag (lower n)) eqn:V; [|destruct (is_content_tag (lower n) None) eqn:C].
  - right. pose proof (bs_void u n a t p rest U On As Ec R Cl Sl V) as B.
    replace (set_position _ _) with (W_of u (n ++ a ++ str ">") (d_mem_position u) (ta_mark (ta_close t))
           (d_chain_nodes u) (length (d_heap u)) (d_in_special u) None
           (ids_of (length (d_heap u)) (ta_close t) (d_id_tags u))
           (set_meta (opened u p NTag) (length (d_heap u)) (ta_meta n false (ta_close t)))); [exact B|].
    unfold W_of, st_closed. dst u. nd. f_equal. rewrite !app_length. cbn. lia.
  - left. pose proof (in_raw u p rest n a t [] U Ec On As R Cl Sl C) as B.
    assert (Q : open_until (raw_end (d_parse_options u) (str "</" ++ n)) []).
    { intros x y E. destruct x; discriminate. }
    specialize (B Q). rewrite app_nil_r in B.
    replace (set_position _ _) with (st_raw u p n a (ta_close t) []); [exact B|].
    unfold st_raw. dst u. nd. f_equal. rewrite !app_length. cbn. lia.
  - right. pose proof (bs_tag u n a t p rest U On As Ec R Cl Sl V C) as B.
    replace (set_position _ _) with (W_of u (n ++ a ++ str ">") (d_mem_position u) (ta_mark (ta_close t))
           (length (d_heap u) :: d_chain_nodes u) (length (d_heap u)) (special_after (d_in_special u) n) None
           (ids_of (length (d_heap u)) (ta_close t) (d_id_tags u))
           (set_meta (opened u p NTag) (length (d_heap u)) (ta_meta n false (ta_close t)))); [exact B|].
    unfold W_of, st_closed. dst u. nd. f_equal. rewrite !app_length. cbn. lia.
Qed.

Lemma name_big : forall u p rest n c, is_U u -> d_chain_nodes u = p :: rest -> open_name n ->
  goes_on u (n ++ [c]) (next (st_name u p n) c).
Proof.
  intros u p rest n c U Ec On. unfold next. rewrite name_next.
  destruct (N.eqb_spec c TAG_END_CHAR) as [->|N1].
  - pose proof (tag_closed_big u p rest n [] (ta_start (d_mark_char u)) TAG_END_CHAR HTagName U Ec On I
      eq_refl eq_refl eq_refl eq_refl) as B.
    rewrite app_nil_r in B. exact B.
  - destruct (N.eqb_spec c END_SLASH_CHAR) as [->|N2]; [|destruct (is_ascii_whitespace c) eqn:Ws].
    + intros st' H. injection H as <-. left.
      pose proof (in_area u p rest n [END_SLASH_CHAR]
        (mkTa (AWait true) TWait [] [] [] (d_mark_char u) []) U Ec On) as B.
      replace (set_position _ _) with (st_area u p false n (d_position u + length (n ++ [END_SLASH_CHAR]))
        (mkTa (AWait true) TWait [] [] [] (d_mark_char u) [])).
      * apply B; [discriminate|left; reflexivity|reflexivity].
      * unfold st_area. nd. rewrite app_length. cbn. f_equal. lia.
    + intros st' H. injection H as <-. left.
      pose proof (in_area u p rest n [c] (ta_start (d_mark_char u)) U Ec On) as B.
      replace (set_position _ _) with (st_area u p false n (d_position u + length (n ++ [c])) (ta_start (d_mark_char u))).
      * apply B; [discriminate|right; exact Ws|].
        destruct (ws_wait (d_parse_options u) false c (ta_start (d_mark_char u)) false Ws eq_refl) as [A1 A2].
        cbn [ta_run]. rewrite A1, A2. reflexivity.
      * unfold st_area. nd. rewrite app_length. cbn. f_equal. lia.
    + intros st' H. injection H as <-. left.
      pose proof (in_name u p rest (n ++ [c]) U Ec (open_name_push n c On Ws N2 N1)) as B.
      replace (set_position _ _) with (st_name u p (n ++ [c])); [exact B|].
      unfold st_name. nd. rewrite app_length. cbn. f_equal. lia.
Qed.

Lemma ta_closes_inv : forall c t, ta_closes c t = true -> c = TAG_END_CHAR /\ ta_closable t = true.
Proof. intros c t H. apply Bool.andb_true_iff in H. destruct H as [A B]. apply N.eqb_eq in A. auto. Qed.
Lemma area_start_app : forall a b, a <> [] -> area_start a -> area_start (a ++ b).
Proof. intros [|x a] b N H; [contradiction|exact H]. Qed.

Lemma area_big : forall u p rest n a t c, is_U u -> d_chain_nodes u = p :: rest -> open_name n ->
  a <> [] -> area_start a -> ta_run (d_parse_options u) false a (ta_start (d_mark_char u)) = Some t ->
  goes_on u ((n ++ a) ++ [c]) (next (st_area u p false n (d_position u + length (n ++ a)) t) c).
Proof.
  intros u p rest n a t c U Ec On Na As R. rewrite <- app_assoc.
  assert (O : ta_ok t) by (eapply ta_run_ok; [apply ta_start_ok|exact R]).
  destruct (ta_closes c t) eqn:Cl.
  - destruct (ta_closes_inv _ _ Cl) as [-> Cb]. unfold next. rewrite area_close by assumption.
    destruct (ta_slash t) eqn:Sl.
    + intros st' H. right. cbn [orb] in H. destruct (self_close_ok u n) eqn:Sc; [|discriminate].
      cbn [rbind] in H. injection H as <-.
      pose proof (bs_self u n a t p rest U On As Ec R Sl Sc) as B.
      change [TAG_END_CHAR] with (str ">").
      replace (set_position _ _) with (W_of u (n ++ a ++ str ">") (d_mem_position u) (ta_mark t)
           (d_chain_nodes u) (length (d_heap u)) (d_in_special u) None
           (ids_of (length (d_heap u)) t (d_id_tags u))
           (set_meta (opened u p NTag) (length (d_heap u)) (ta_meta n true t))); [exact B|].
      assert (E : ta_close t = t).
      { unfold ta_close, ta_slash in *. destruct (ta_mode t); [reflexivity|discriminate|discriminate]. }
      rewrite E. unfold W_of, st_closed. dst u. nd. f_equal. rewrite !app_length. cbn. lia.
    + apply (tag_closed_big u p rest); auto.
  - intros st' H. left. unfold next in H.
    pose proof (area_next u p false n (d_position u + length (n ++ a)) t c O Cl) as B.
    destruct (ta_step (d_parse_options u) false c t) as [t'|] eqn:E.
    + rewrite B in H. cbn [rbind] in H. injection H as <-.
      replace (set_position _ _) with (st_area u p false n (d_position u + length (n ++ a ++ [c])) t').
      * apply (in_area u p rest n (a ++ [c]) t' U Ec On).
        -- intro X. apply app_eq_nil in X. destruct X. discriminate.
        -- apply area_start_app; assumption.
        -- rewrite ta_run_snoc, R, Cl. exact E.
      * unfold st_area. nd. f_equal. rewrite !app_length. cbn. lia.
    + destruct (run_handle _ c); try discriminate. exfalso. eapply B. reflexivity.
Qed.

Lemma same_doctype : forall n, same_name n (str "doctype") = true ->
  is_void_tag (lower n) = false /\ is_content_tag (lower n) None = false /\ special_tag_map (lower n) = None.
Proof. intros n H. apply same_name_lower in H. rewrite H. repeat split. Qed.

Lemma dt_area_big : forall u p rest n w a t c, is_U u -> d_chain_nodes u = p :: rest ->
  same_name n (str "doctype") = true -> is_ws w ->
  ta_run (d_parse_options u) true a (ta_start (d_mark_char u)) = Some t ->
  goes_on u ((str "!" ++ n ++ [w] ++ a) ++ [c])
    (next (st_area u p true n (d_position u + length (str "!" ++ n ++ [w] ++ a)) t) c).
Proof.
  intros u p rest n w a t c U Ec Dn Ww R.
  replace ((str "!" ++ n ++ [w] ++ a) ++ [c]) with (str "!" ++ n ++ [w] ++ a ++ [c])
    by (rewrite <- !app_assoc; reflexivity).
  assert (O : ta_ok t) by (eapply ta_run_ok; [apply ta_start_ok|exact R]).
  destruct (same_doctype n Dn) as [V [C S]].
  destruct (ta_closes c t) eqn:Cl.
  - destruct (ta_closes_inv _ _ Cl) as [-> Cb]. unfold next. rewrite area_close by assumption.
    intros st' H. right.
    pose proof (bs_doctype u n w a t p rest U Ec Dn Ww R Cb) as B. cbn zeta in B.
    change [TAG_END_CHAR] with (str ">").
    destruct (ta_slash t) eqn:Sl.
    + cbn [orb rbind] in H. injection H as <-.
      match type of B with bstep _ _ ?x => replace (set_position _ _) with x; [exact B|] end.
      unfold W_of, st_closed. dst u. nd. f_equal. rewrite !app_length. cbn. rewrite ?app_length. cbn. lia.
    + rewrite wait_close in H.
      2:{ unfold ta_ok, ta_close in *. destruct (ta_mode t); cbn; [apply O| |]; reflexivity. }
      rewrite V, C in H. cbn [rbind] in H. injection H as <-.
      match type of B with bstep _ _ ?x => replace (set_position _ _) with x; [exact B|] end.
      unfold W_of, st_closed, special_after. dst u. nd. rewrite S. f_equal.
      * rewrite !app_length. cbn. rewrite ?app_length. cbn. lia.
      * destruct spec; reflexivity.
  - intros st' H. left. unfold next in H.
    pose proof (area_next u p true n (d_position u + length (str "!" ++ n ++ [w] ++ a)) t c O Cl) as B.
    destruct (ta_step (d_parse_options u) true c t) as [t'|] eqn:E.
    + rewrite B in H. cbn [rbind] in H. injection H as <-.
      pose proof (in_dt_area u p rest n w (a ++ [c]) t' U Ec Dn Ww) as I'.
      replace (set_position _ _) with (st_area u p true n (d_position u + length (str "!" ++ n ++ [w] ++ a ++ [c])) t').
      * apply I'. rewrite ta_run_snoc, R, Cl. exact E.
      * unfold st_area. nd. f_equal. rewrite !app_length. cbn. lia.
    + destruct (run_handle _ c); try discriminate. exfalso. eapply B. reflexivity.
Qed.

Lemma dt_name_big : forall u p rest n c, is_U u -> d_chain_nodes u = p :: rest ->
  same_name n (str "doctype") = true ->
  goes_on u ((str "!" ++ n) ++ [c]) (next (st_dt_name u p n) c).
Proof.
  intros u p rest n c U Ec Dn st' H. left. unfold next in H.
  change (run_handle (st_dt_name u p n) c) with (parse_doctype_name (st_dt_name u p n) c) in H.
  unfold parse_doctype_name in H. destruct (is_ascii_whitespace c) eqn:W; [|discriminate].
  assert (E : set_tag_meta (st_dt_name u p n) = (is_void_tag (lower n), set_handle HDoctypeName
    (st_area u p true n (d_position u + length (str "!" ++ n)) (ta_start (d_mark_char u))))) by (dst u; reflexivity).
  rewrite E in H. cbn [snd] in H. rewrite code_handle in H by exact I. rewrite code_area in H.
  cbn [rbind] in H. injection H as <-.
  pose proof (in_dt_area u p rest n c [] _ U Ec Dn W eq_refl) as B.
  rewrite <- app_assoc. match type of B with inm _ _ ?x => replace (set_position _ _) with x; [exact B|] end.
  unfold st_area. nd. f_equal. rewrite !app_length. cbn. rewrite ?app_length. cbn. lia.
Qed.

(** *** Raw text, comments, end tags *)
Lemma open_until_snoc : forall f b c, open_until f b ->
  (c = TAG_END_CHAR -> f b = false) -> open_until f (b ++ [c]).
Proof.
  intros f b c H F p q E. destruct (@exists_last _ (TAG_END_CHAR :: q)) as [q' [x Eq]]; [discriminate|].
  rewrite Eq in E. rewrite app_assoc in E. apply app_inj_tail in E. destruct E as [E1 E2].
  destruct q' as [|y q'].
  - cbn in Eq. injection Eq as Ex _. rewrite app_nil_r in E1. subst. auto.
  - cbn in Eq. injection Eq as Ey _. subst y. eapply H. exact E1.
Qed.

Lemma raw_big : forall u p rest n a t b c, is_U u -> d_chain_nodes u = p :: rest -> open_name n ->
  area_start a -> ta_run (d_parse_options u) false a (ta_start (d_mark_char u)) = Some t ->
  ta_closable t = true -> ta_slash t = false -> is_content_tag (lower n) None = true ->
  open_until (raw_end (d_parse_options u) (str "</" ++ n)) b ->
  goes_on u ((n ++ a ++ str ">" ++ b) ++ [c]) (next (st_raw u p n a (ta_close t) b) c).
Proof.
  intros u p rest n a t b c U Ec On As R Cl Sl Ct Op st' H.
  replace ((n ++ a ++ str ">" ++ b) ++ [c]) with (n ++ a ++ str ">" ++ b ++ [c])
    by (rewrite <- !app_assoc; reflexivity).
  unfold next in H.
  change (run_handle (st_raw u p n a (ta_close t) b) c) with (parse_content_tag (st_raw u p n a (ta_close t) b) c) in H.
  unfold parse_content_tag in H.
  change (d_detect (st_raw u p n a (ta_close t) b)) with (Some (str "</" ++ n)) in H.
  change (d_prev_chars (st_raw u p n a (ta_close t) b)) with b in H. cbn match in H. cbn zeta in H.
  change (d_parse_options (st_raw u p n a (ta_close t) b)) with (d_parse_options u) in H.
  assert (Push : inm u (n ++ a ++ str ">" ++ b ++ [c])
     (set_position (d_position (st_raw u p n a (ta_close t) b) + 1) (push_char c (st_raw u p n a (ta_close t) b))) \/
     (c = TAG_END_CHAR /\ raw_end (d_parse_options u) (str "</" ++ n) b = true)).
  { destruct (N.eqb_spec c TAG_END_CHAR) as [->|Nc].
    - destruct (raw_end (d_parse_options u) (str "</" ++ n) b) eqn:E; [right; auto|left].
      pose proof (in_raw u p rest n a t (b ++ [TAG_END_CHAR]) U Ec On As R Cl Sl Ct) as B.
      match goal with |- inm _ _ ?x => replace x with (st_raw u p n a (ta_close t) (b ++ [TAG_END_CHAR])) end.
      + apply B. apply open_until_snoc; auto.
      + unfold st_raw. nd. f_equal. rewrite !app_length. cbn. rewrite ?app_length. cbn. lia.
    - left. pose proof (in_raw u p rest n a t (b ++ [c]) U Ec On As R Cl Sl Ct) as B.
      match goal with |- inm _ _ ?x => replace x with (st_raw u p n a (ta_close t) (b ++ [c])) end.
      + apply B. apply open_until_snoc; auto. intro. contradiction.
      + unfold st_raw. nd. f_equal. rewrite !app_length. cbn. rewrite ?app_length. cbn. lia. }
  destruct (N.eqb_spec c TAG_END_CHAR) as [->|Nc]; cbn [negb] in H.
  - fold (raw_end (d_parse_options u) (str "</" ++ n) b) in H.
    destruct (raw_end (d_parse_options u) (str "</" ++ n) b) eqn:E.
    + right. pose proof (bs_raw u n a t p rest b U On As Ec R Cl Sl Ct Op E) as B. cbn zeta in B.
      cbn [rbind] in H. injection H as <-.
      match type of B with bstep _ _ ?x => match goal with |- bstep _ _ ?y => replace y with x; [exact B|] end end.
      unfold W_of, st_raw. dst u. nd. f_equal.
      * rewrite !app_length. cbn. rewrite ?app_length. cbn. lia.
      * rewrite set_meta_length, opened_length.
        match goal with |- context [node_new NTagEnd (?x + 1)] =>
          replace (x + 1) with (pos + length (n ++ a ++ str ">" ++ b ++ str ">"))
            by (rewrite !app_length; cbn; rewrite ?app_length; cbn; lia) end.
        reflexivity.
    + left. injection H as <-. destruct Push as [B|[_ B]]; [exact B|discriminate].
  - left. cbn [rbind] in H. injection H as <-. destruct Push as [B|[B _]]; [exact B|contradiction].
Qed.

Lemma body_big : forall u p rest (cd : bool) hdr b c, is_U u -> d_chain_nodes u = p :: rest ->
  (if cd then exists kw, hdr = str "!" ++ kw /\ same_name kw (str "[cdata[") = true /\ cdata_here u
   else hdr = str "!--") ->
  open_until (cm_end (if cd then RIGHT_BRACKET_CHAR else DASH_CHAR)) b ->
  goes_on u ((hdr ++ b) ++ [c]) (next (st_body u p cd (hdr ++ b) b) c).
Proof.
  intros u p rest cd hdr b c U Ec Hd Op st' H. rewrite <- app_assoc.
  unfold next in H.
  change (run_handle (st_body u p cd (hdr ++ b) b) c) with (parse_comment_or_cdata (st_body u p cd (hdr ++ b) b) c) in H.
  unfold parse_comment_or_cdata in H.
  change (d_prev_chars (st_body u p cd (hdr ++ b) b)) with b in H.
  change (d_mark_char (st_body u p cd (hdr ++ b) b)) with (if cd then RIGHT_BRACKET_CHAR else DASH_CHAR) in H.
  cbn zeta in H. rewrite <- Bool.andb_assoc in H.
  fold (cm_end (if cd then RIGHT_BRACKET_CHAR else DASH_CHAR) b) in H.
  destruct (N.eqb c TAG_END_CHAR && cm_end (if cd then RIGHT_BRACKET_CHAR else DASH_CHAR) b)%bool eqn:E.
  - right. apply Bool.andb_true_iff in E. destruct E as [E1 E2]. apply N.eqb_eq in E1. subst c.
    change [TAG_END_CHAR] with (str ">"). cbn [rbind] in H. injection H as <-.
    destruct cd.
    + destruct Hd as [kw [-> [K1 K2]]].
      pose proof (bs_cdata u kw b p rest U Ec K1 K2 Op E2) as B. cbn zeta in B.
      rewrite <- app_assoc.
      match type of B with bstep _ _ ?x => match goal with |- bstep _ _ ?y => replace y with x; [exact B|] end end.
      unfold W_of, st_body. dst u. nd. rewrite <- !app_assoc.
      f_equal. rewrite !app_length. cbn. rewrite ?app_length. cbn. lia.
    + subst hdr. pose proof (bs_comment u b p rest U Ec Op E2) as B. cbn zeta in B.
      match type of B with bstep _ _ ?x => match goal with |- bstep _ _ ?y => replace y with x; [exact B|] end end.
      unfold W_of, st_body. dst u. nd.
      f_equal. rewrite !app_length. cbn. rewrite ?app_length. cbn. lia.
  - left. cbn [rbind] in H. injection H as <-.
    assert (Op' : open_until (cm_end (if cd then RIGHT_BRACKET_CHAR else DASH_CHAR)) (b ++ [c])).
    { apply open_until_snoc; [exact Op|]. intros ->. exact E. }
    destruct cd.
    + destruct Hd as [kw [-> [K1 K2]]].
      pose proof (in_cdata u p rest kw (b ++ [c]) U Ec K1 K2 Op') as B.
      rewrite <- app_assoc.
      match type of B with inm _ _ ?x => match goal with |- inm _ _ ?y => replace y with x; [exact B|] end end.
      unfold st_body. nd. f_equal. rewrite !app_length. cbn. rewrite ?app_length. cbn. lia.
    + subst hdr. pose proof (in_comment u p rest (b ++ [c]) U Ec Op') as B.
      match type of B with inm _ _ ?x => match goal with |- inm _ _ ?y => replace y with x; [exact B|] end end.
      unfold st_body. nd. f_equal. rewrite !app_length. cbn. rewrite ?app_length. cbn. lia.
Qed.

Definition only_text (h : list node) (tag : nid) : bool :=
  match n_childs (hget h tag) with
  | Some [k] => node_type_eqb (n_type (hget h k)) NText
  | _ => false
  end.
Lemma only_text_end : forall h n tag e, tag < length h -> n_type n = NTagEnd ->
  only_text (hupd (h ++ [n]) tag (nset_end_tag e)) tag = only_text h tag.
Proof.
  intros h n tag e Ht Hn. unfold only_text.
  rewrite (hupd_keep n_childs) by reflexivity. rewrite hget_app_old by exact Ht.
  destruct (n_childs (hget h tag)) as [[|k [|? ?]]|]; try reflexivity.
  rewrite (hupd_keep n_type) by reflexivity. rewrite hget_app_case.
  destruct (Nat.ltb_spec k (length h)); [reflexivity|].
  rewrite (hget_default h k) by assumption.
  destruct (Nat.eqb k (length h)); [rewrite Hn|]; reflexivity.
Qed.

Lemma dropped_eq : forall u, exists n, n_type n = NTagEnd /\ dropped_heap u = d_heap u ++ [n] /\
  n_prev n = (if auto_fix_unclosed_tag (d_parse_options u) then Some (d_current_node u) else None) /\
  n = (if auto_fix_unclosed_tag (d_parse_options u)
       then nset_prev (Some (d_current_node u)) (node_new NTagEnd (d_mem_position u))
       else node_new NTagEnd (d_mem_position u)).
Proof.
  intro u. unfold dropped_heap. eexists. split; [|split; [reflexivity|split; [|reflexivity]]];
  destruct (auto_fix_unclosed_tag (d_parse_options u)); reflexivity.
Qed.

Lemma end_big : forall u nm c, is_U u -> ~ In TAG_END_CHAR nm ->
  (forall i, In i (d_chain_nodes u) -> i < length (d_heap u)) ->
  goes_on u ((str "/" ++ nm) ++ [c]) (next (st_end u nm) c).
Proof.
  intros u nm c U Nn Hch st' H. rewrite <- app_assoc. unfold next in H.
  change (run_handle (st_end u nm) c) with (parse_tagend (st_end u nm) c) in H.
  unfold parse_tagend in H.
  destruct (N.eqb_spec c TAG_END_CHAR) as [->|Nc].
  2:{ left. cbn [rbind] in H. injection H as <-.
      assert (Nn' : ~ In TAG_END_CHAR (nm ++ [c])).
      { intro X. apply in_app_or in X. destruct X as [X|[X|[]]]; auto. }
      pose proof (in_end u (nm ++ [c]) U Nn') as B.
      match type of B with inm _ _ ?x => match goal with |- inm _ _ ?y => replace y with x; [exact B|] end end.
      unfold st_end. nd. f_equal. cbn. rewrite ?app_length. cbn. lia. }
  right. change [TAG_END_CHAR] with (str ">").
  change (d_chain_nodes (st_end u nm)) with (d_chain_nodes u) in H.
  change (d_prev_chars (st_end u nm)) with nm in H.
  destruct (dropped_eq u) as [e [Te [De [Pe Ee]]]].
  cbn zeta in H. rewrite <- trim_right_eq in H.
  assert (Dropped : closes u nm = None ->
    (do st <- (if negb (auto_fix_unexpected_endtag (d_parse_options (st_end u nm)))
               then doc_error (EWrongEndTag nm) (st_end u nm)
               else do st <- (match n_prev (cur (st_end u nm)) with
                      | Some prev_node =>
                          if alive (st_end u nm) prev_node then ROk (set_current_node prev_node (st_end u nm))
                          else RPanic PUpgrade
                      | None => ROk (st_end u nm)
                      end); ROk (set_code CUnkown (clean_chars st)));
     ROk (set_position (d_position st + 1) st)) = ROk st' -> bstep u (str "/" ++ nm ++ str ">") st').
  { intros Cn G. change (d_parse_options (st_end u nm)) with (d_parse_options u) in G.
    destruct (auto_fix_unexpected_endtag (d_parse_options u)) eqn:Fx; cbn [negb] in G; [|discriminate].
    pose proof (bs_drop u nm U Nn Cn Fx) as B.
    assert (Ec : cur (st_end u nm) = e).
    { unfold cur, get_node, st_end. cbn. rewrite De. apply hget_app_new. }
    rewrite Ec, Pe in G.
    destruct (auto_fix_unclosed_tag (d_parse_options u)) eqn:Fu.
    - destruct (alive _ _); [|discriminate]. cbn [rbind] in G. injection G as <-.
      match type of B with bstep _ _ ?x => match goal with |- bstep _ _ ?y => replace y with x; [exact B|] end end.
      unfold W_of, st_end. nd. f_equal. cbn. rewrite ?app_length. cbn. lia.
    - cbn [rbind] in G. injection G as <-.
      match type of B with bstep _ _ ?x => match goal with |- bstep _ _ ?y => replace y with x; [exact B|] end end.
      unfold W_of, st_end. nd. f_equal. cbn. rewrite ?app_length. cbn. lia. }
  destruct (d_chain_nodes u) as [|tag [|par rest]] eqn:Ec.
  - apply Dropped; [unfold closes; rewrite Ec; reflexivity|exact H].
  - apply Dropped; [unfold closes; rewrite Ec; reflexivity|exact H].
  - cbn [length Nat.ltb Nat.leb] in H.
    assert (Ht : tag < length (d_heap u)) by (apply Hch; left; reflexivity).
    assert (Em : get_node (st_end u nm) tag = get_node u tag).
    { unfold get_node, st_end. cbn. rewrite De. apply hget_app_old. exact Ht. }
    rewrite Em in H.
    destruct (n_meta (get_node u tag)) as [m|] eqn:Mm; [|discriminate].
    rewrite is_equal_chars_ignore_case_spec in H.
    destruct (same_name (m_name m) (trim_right nm)) eqn:Sn.
    2:{ apply Dropped; [unfold closes; rewrite Ec, Mm, Sn; reflexivity|exact H]. }
    change (d_parse_options (st_end u nm)) with (d_parse_options u) in H.
    assert (Cl : closes u nm = Some (tag, par :: rest)) by (unfold closes; rewrite Ec, Mm, Sn; reflexivity).
    destruct (case_sensitive_tagname (d_parse_options u) && negb (chars_eqb (m_name m) (trim_right nm)))%bool eqn:Cs;
      [discriminate|]. cbn [rbind] in H.
    assert (Cs' : case_sensitive_tagname (d_parse_options u) = true ->
       exists m, n_meta (get_node u tag) = Some m /\ m_name m = trim_right nm).
    { intro X. rewrite X in Cs. cbn in Cs. apply Bool.negb_false_iff in Cs. apply chars_eqb_eq in Cs.
      exists m. auto. }
    pose proof (bs_close u nm tag (par :: rest) U Nn Cl Cs') as B.
    clear Dropped Cs Cs' Cl Em Hch Nn U.
    unfold closed_check, closed_heap in B. cbn zeta in B. rewrite <- Ee in B.
    fold (only_text (d_heap u) tag) in B.
    assert (Eck : (match n_childs (hget (d_heap u) tag) with
       | Some [k] => if node_type_eqb (n_type (hget (d_heap u) k)) NText then d_check_textnode u else None
       | _ => None end) = if only_text (d_heap u) tag then d_check_textnode u else None).
    { unfold only_text. destruct (n_childs (hget (d_heap u) tag)) as [[|k [|? ?]]|]; reflexivity. }
    rewrite Eck in B. clear Eck Ee Pe Mm Sn Ec.
    pose proof (only_text_end (d_heap u) e tag (@Some nid (length (d_heap u))) Ht Te) as Eo.
    rewrite <- De in Eo.
    unfold st_end, set_text_spaces_between, W_of, special_closed in *.
    generalize dependent (dropped_heap u). intros h1 H De Eo.
    dst u. ndi H. ndi B. ndi Eo. ndi De. unfold only_text in Eo at 1.
    rewrite Eo in H.
    destruct (only_text h tag); [|destruct chk as [ck|]];
    (destruct spec as [[sp nn]|];
     [rewrite is_equal_chars_none_eqb in H; destruct (chars_eqb nn (trim_right nm))|]);
    ndi H; injection H as <-; subst h1;
    (match type of B with bstep _ _ ?x => match goal with |- bstep _ _ ?y => replace y with x; [exact B|] end end;
     unfold flip, end_info; f_equal; cbn; rewrite ?app_length; cbn; lia).
Qed.

Lemma upper_one : forall c d, to_ascii_uppercase c = d -> map to_ascii_uppercase [c] = [d].
Proof. intros c d <-. reflexivity. Qed.

Lemma excl_big : forall u c, is_U u ->
  goes_on u (str "!" ++ [c]) (next (st_excl u None []) c).
Proof.
  intros u c U st' H. left. unfold next in H.
  change (run_handle (st_excl u None []) c) with (parse_exclamation_begin (st_excl u None []) c) in H.
  unfold parse_exclamation_begin in H.
  change (d_detect (st_excl u None [])) with (@None (list char)) in H. cbn match in H.
  change (d_in_special (st_excl u None [])) with (d_in_special u) in H.
  change (d_chain_nodes (st_excl u None [])) with (d_chain_nodes u) in H.
  assert (Go : forall x, map to_ascii_uppercase [c] = firstn 1 (detect_char_map x) ->
     (x = DXMLCDATA -> cdata_here u) ->
     (do st <- ROk (push_char c (set_detect (Some (detect_char_map x)) (st_excl u None [])));
      ROk (set_position (d_position st + 1) st)) = ROk st' -> inm u (str "!" ++ [c]) st').
  { intros x Hx Hc G. cbn [rbind] in G. injection G as <-.
    assert (L : length [c] < length (detect_char_map x)) by (destruct x; cbn; lia).
    pose proof (in_kw u [c] x U (ltac:(discriminate)) L Hx Hc) as B.
    match type of B with inm _ _ ?x => match goal with |- inm _ _ ?y => replace y with x; [exact B|] end end.
    unfold st_excl. nd. f_equal. cbn. lia. }
  destruct (N.eqb_spec c DASH_CHAR) as [->|N1].
  { apply (Go DComment); [reflexivity|discriminate|exact H]. }
  destruct (N.eqb c 68 || N.eqb c 100)%bool eqn:E2.
  { apply (Go DDOCTYPE); [|discriminate|exact H].
    apply Bool.orb_true_iff in E2. destruct E2 as [E|E]; apply N.eqb_eq in E; subst; reflexivity. }
  destruct (N.eqb_spec c LEFT_BRACKET_CHAR) as [->|N3]; [|discriminate].
  destruct (d_in_special u) as [[sp tn]|] eqn:Es; [|discriminate].
  destruct (d_chain_nodes u) as [|top rest] eqn:Ec; [discriminate|].
  change (get_node (st_excl u None []) top) with (get_node u top) in H.
  destruct (n_meta (get_node u top)) as [m|] eqn:Em; [|discriminate].
  rewrite is_equal_chars_none_eqb in H.
  destruct (chars_eqb tn (m_name m)) eqn:Et; [discriminate|].
  apply (Go DXMLCDATA); [reflexivity| |exact H].
  intros _. exists top, rest, (sp, tn), m. repeat split; auto. cbn.
  apply chars_eqb_neq in Et. congruence.
Qed.

Lemma add_new_push : forall n st p rest (k : res doc -> Prop), d_chain_nodes st = p :: rest -> d_root st = 0 ->
  n_type n <> NTagEnd -> n_type n <> NTag ->
  add_new_node n st = ROk (set_current_node (length (d_heap st)) (set_heap (add_child (d_heap st) p n) st)).
Proof.
  intros n st p rest k E R T T2. rewrite (add_new_child n st p rest E R T).
  replace (node_type_eqb (n_type n) NTag) with false by (destruct (n_type n); auto; contradiction).
  dst st. reflexivity.
Qed.

Lemma kw_big : forall u kw x c, is_U u -> d_root u = 0 -> kw <> [] -> length kw < length (detect_char_map x) ->
  map to_ascii_uppercase kw = firstn (length kw) (detect_char_map x) ->
  (x = DXMLCDATA -> cdata_here u) ->
  goes_on u ((str "!" ++ kw) ++ [c]) (next (st_excl u (Some (detect_char_map x)) kw) c).
Proof.
  intros u kw x c U Ro Nk L Kw Cd st' H. left. rewrite <- app_assoc. unfold next in H.
  change (run_handle (st_excl u (Some (detect_char_map x)) kw) c)
    with (parse_exclamation_begin (st_excl u (Some (detect_char_map x)) kw) c) in H.
  unfold parse_exclamation_begin in H.
  change (d_detect (st_excl u (Some (detect_char_map x)) kw)) with (Some (detect_char_map x)) in H. cbn match in H.
  change (d_prev_chars (st_excl u (Some (detect_char_map x)) kw)) with kw in H.
  destruct (Nat.ltb_spec (length kw) (length (detect_char_map x))) as [_|X]; [|lia]. cbn zeta in H.
  destruct (N.eqb_spec (nth (length kw) (detect_char_map x) EOF_CHAR) (to_ascii_uppercase c)) as [Ec|]; [|discriminate].
  assert (Kw' : map to_ascii_uppercase (kw ++ [c]) = firstn (length (kw ++ [c])) (detect_char_map x)).
  { rewrite map_app, Kw, app_length. cbn [length map].
    rewrite (firstn_snoc _ _ L). rewrite <- Ec. reflexivity. }
  destruct (Nat.eqb_spec (length kw) (length (detect_char_map x) - 1)) as [El|El].
  2:{ cbn [rbind] in H. injection H as <-.
      assert (Nk' : kw ++ [c] <> []) by (intro Y; apply app_eq_nil in Y; destruct Y; discriminate).
      assert (L' : length (kw ++ [c]) < length (detect_char_map x)) by (rewrite app_length; cbn; lia).
      pose proof (in_kw u (kw ++ [c]) x U Nk' L' Kw' Cd) as B.
      match type of B with inm _ _ ?x => match goal with |- inm _ _ ?y => replace y with x; [exact B|] end end.
      unfold st_excl. nd. f_equal. cbn. rewrite app_length. cbn. lia. }
  assert (Kf : map to_ascii_uppercase (kw ++ [c]) = detect_char_map x).
  { rewrite Kw'. apply firstn_all2. rewrite app_length. cbn. lia. }
  assert (Sn : same_name (kw ++ [c]) (detect_char_map x) = true) by (apply upper_name; exact Kf).
  destruct (d_chain_nodes u) as [|p rest] eqn:Ech.
  { exfalso. revert H.
    assert (A : forall n st, d_chain_nodes st = [] -> n_type n <> NTagEnd -> add_new_node n st = RPanic PChainEmpty)
      by (intros; apply add_new_empty; assumption).
    destruct (N.eqb c DASH_CHAR || N.eqb c LEFT_BRACKET_CHAR)%bool;
      [destruct (N.eqb c DASH_CHAR)|destruct (N.eqb c 69 || N.eqb c 101)%bool];
      try (rewrite A; [discriminate|unfold st_excl; nd; exact Ech|discriminate]); discriminate. }
  destruct x.
  - (* comment *)
    assert (Ek : kw = [DASH_CHAR] /\ c = DASH_CHAR).
    { destruct kw as [|k0 [|k1 kw]]; cbn in El; try lia; try contradiction. cbn in Kf. injection Kf as E1 E2.
      split; [f_equal|]; eapply upper_spec; eauto. }
    destruct Ek as [-> ->].
    replace (N.eqb DASH_CHAR DASH_CHAR || N.eqb DASH_CHAR LEFT_BRACKET_CHAR)%bool with true in H by reflexivity.
    replace (N.eqb DASH_CHAR DASH_CHAR) with true in H by reflexivity.
    rewrite (add_new_push _ _ p rest (fun _ => True)) in H;
      [|unfold st_excl; nd; exact Ech|unfold st_excl; nd; exact Ro|discriminate|discriminate].
    cbn [rbind] in H. rewrite spaces_flip in H. injection H as <-.
    assert (Op : open_until (cm_end DASH_CHAR) []) by (intros a b E; destruct a; discriminate).
    pose proof (in_comment u p rest [] U Ech Op) as B.
    match type of B with inm _ _ ?x => match goal with |- inm _ _ ?y => replace y with x; [exact B|] end end.
    unfold st_excl, st_body, opened. dst u. nd. f_equal. cbn. lia.
  - (* doctype *)
    assert (Ee : (N.eqb c DASH_CHAR || N.eqb c LEFT_BRACKET_CHAR)%bool = false /\
                 (N.eqb c 69 || N.eqb c 101)%bool = true).
    { assert (E1 : to_ascii_uppercase c = 69%N).
      { rewrite <- Ec, El. reflexivity. }
      clear - E1. unfold to_ascii_uppercase, is_ascii_lowercase, DASH_CHAR, LEFT_BRACKET_CHAR, char in *.
      destruct (N.leb_spec 97 c); destruct (N.leb_spec c 122); cbn [andb] in E1;
      destruct (N.eqb_spec c 45); destruct (N.eqb_spec c 91); destruct (N.eqb_spec c 69); destruct (N.eqb_spec c 101);
      cbn; try lia; auto. }
    destruct Ee as [E1 E2]. rewrite E1, E2 in H.
    rewrite (add_new_push _ _ p rest (fun _ => True)) in H;
      [|unfold st_excl; nd; exact Ech|unfold st_excl; nd; exact Ro|discriminate|discriminate].
    cbn [rbind] in H. rewrite spaces_flip in H. injection H as <-.
    assert (Sd : same_name (kw ++ [c]) (str "doctype") = true).
    { eapply same_name_trans; [exact Sn|reflexivity]. }
    pose proof (in_dt_name u p rest (kw ++ [c]) U Ech Sd) as B.
    match type of B with inm _ _ ?x => match goal with |- inm _ _ ?y => replace y with x; [exact B|] end end.
    unfold st_excl, st_dt_name, opened. dst u. nd. f_equal. cbn. rewrite app_length. cbn. lia.
  - (* cdata *)
    assert (Ee : c = LEFT_BRACKET_CHAR).
    { apply upper_spec; [|reflexivity]. rewrite <- Ec, El. reflexivity. }
    subst c.
    replace (N.eqb LEFT_BRACKET_CHAR DASH_CHAR || N.eqb LEFT_BRACKET_CHAR LEFT_BRACKET_CHAR)%bool with true in H by reflexivity.
    replace (N.eqb LEFT_BRACKET_CHAR DASH_CHAR) with false in H by reflexivity.
    rewrite (add_new_push _ _ p rest (fun _ => True)) in H;
      [|unfold st_excl; nd; exact Ech|unfold st_excl; nd; exact Ro|discriminate|discriminate].
    cbn [rbind] in H. rewrite spaces_flip in H. injection H as <-.
    assert (Sd : same_name (kw ++ [LEFT_BRACKET_CHAR]) (str "[cdata[") = true).
    { eapply same_name_trans; [exact Sn|reflexivity]. }
    assert (Op : open_until (cm_end RIGHT_BRACKET_CHAR) []) by (intros a b E; destruct a; discriminate).
    pose proof (in_cdata u p rest (kw ++ [LEFT_BRACKET_CHAR]) [] U Ech Sd (Cd eq_refl) Op) as B.
    rewrite app_nil_r in B.
    match type of B with inm _ _ ?x => match goal with |- inm _ _ ?y => replace y with x; [exact B|] end end.
    unfold st_excl, st_body, opened. dst u. nd. f_equal. cbn. rewrite app_length. cbn. lia.
Qed.

Lemma inm_big : forall u s st c, inm u s st -> d_root u = 0 ->
  (forall i, In i (d_chain_nodes u) -> i < length (d_heap u)) ->
  goes_on u (s ++ [c]) (next st c).
Proof.
  intros u s st c I R Hch. destruct I.
  - eapply name_big; eauto.
  - eapply area_big; eauto.
  - eapply raw_big; eauto.
  - apply end_big; assumption.
  - apply excl_big; assumption.
  - apply kw_big; assumption.
  - eapply dt_name_big; eauto.
  - eapply dt_area_big; eauto.
  - eapply (body_big u p rest false); eauto.
  - rewrite (app_assoc (str "!") kw b). eapply (body_big u p rest true); eauto.
Qed.

(** ** Decomposition of runs *)
Definition ready (st : doc) : Prop := is_W st \/ is_T st \/ is_U st.

Lemma W_of_W : forall u src mem mk ch cu sp ck ids h, is_W (W_of u src mem mk ch cu sp ck ids h).
Proof. intros. unfold W_of. repeat split. left. reflexivity. Qed.

Lemma bstep_ready : forall u s st, bstep u s st -> ready st.
Proof.
  intros u s st B.
  induction B; try (left; apply W_of_W); try (right; left; repeat split; fail);
    try (right; right; repeat split; fail).
  - right; left. unfold lt_text. destruct (n_type (cur u)); try destruct (n_content (cur u)); repeat split.
  - exact IHB.
Qed.
Lemma bsteps_ready : forall st s st', bsteps st s st' -> ready st -> ready st'.
Proof. intros st s st' B. induction B; auto. intros. eapply bstep_ready. eassumption. Qed.
Lemma init_W : forall opts, is_W (doc_new opts).
Proof. intro. repeat split. right. reflexivity. Qed.

Lemma inm_U : forall u s st, inm u s st -> is_U u.
Proof. intros u s st I. destruct I; assumption. Qed.

Lemma ctl_chain : forall opts pre st, ctl opts pre st ->
  forall i, In i (d_chain_nodes st) -> i < length (d_heap st).
Proof. intros opts pre st [B _] i Hi. eapply chain_ok_in; [exact (InvCtl.k_chain _ _ _ B)|exact Hi]. Qed.
Lemma ctl_not_spaces : forall opts pre st, ctl opts pre st -> ready st -> is_T st \/
  n_type (cur st) <> NSpacesBetweenTag.
Proof.
  intros opts pre st [_ [_ H]] [W|[T|U]]; [right|left; exact T|right].
  - destruct W as [E _]. unfold handle_inv in H. rewrite E in H. apply H.
  - destruct U as [E _]. unfold handle_inv in H. rewrite E in H. apply H.
Qed.

Lemma run_snoc : forall s c st, run st (s ++ [c]) = do st1 <- run st s; next st1 c.
Proof.
  intros s c st. rewrite run_app. destruct (run st s); cbn; auto. destruct (next a c); reflexivity.
Qed.

Theorem decompose : forall opts s st, run (doc_new opts) s = ROk st ->
  exists s1 s2 st1, s = s1 ++ s2 /\ run (doc_new opts) s1 = ROk st1 /\
    bsteps (doc_new opts) s1 st1 /\ ((s2 = [] /\ st = st1) \/ inm st1 s2 st).
Proof.
  intros opts s. induction s as [|c s IH] using rev_ind; intros st H.
  - exists [], [], st. cbn in H. injection H as <-. repeat split; auto. constructor.
  - rewrite run_snoc in H. destruct (run (doc_new opts) s) as [st0| |] eqn:E; try discriminate.
    cbn [rbind] in H. destruct (IH _ eq_refl) as [s1 [s2 [st1 [-> [R1 [B1 C]]]]]].
    pose proof (run_ok s1 opts [] (doc_new opts) (init_ok opts)) as Ct. rewrite R1 in Ct.
    change ([] ++ s1) with s1 in Ct.
    pose proof (bsteps_ready _ _ _ B1 (or_introl (init_W opts))) as Rd.
    destruct C as [[-> ->]|In].
    + assert (S : bstep st1 [c] st \/ inm st1 [c] st).
      { pose proof (ctl_not_spaces _ _ _ Ct Rd) as Ns. pose proof (InvCtl.k_root _ _ _ (proj1 Ct)) as Ro.
        destruct Rd as [W|[T|U]].
        - left. apply wait_big; auto. destruct Ns as [[Ht _]|Ns]; [|exact Ns].
          destruct W as [Hw _]. congruence.
        - left. apply text_big; auto.
        - apply unkown_big; auto. destruct Ns as [[Ht _]|Ns]; [|exact Ns].
          destruct U as [Hw _]. congruence. }
      rewrite app_nil_r in *. destruct S as [S|S].
      * exists (s1 ++ [c]), [], st. rewrite app_nil_r. repeat split; auto.
        -- rewrite run_snoc, R1. exact H.
        -- eapply bss_snoc; eauto.
      * exists s1, [c], st1. repeat split; auto.
    + pose proof (InvCtl.k_root _ _ _ (proj1 Ct)) as Ro.
      destruct (inm_big st1 s2 st0 c In Ro (ctl_chain _ _ _ Ct) st H) as [S|S].
      * exists s1, (s2 ++ [c]), st1. rewrite app_assoc. repeat split; auto.
      * exists (s1 ++ s2 ++ [c]), [], st. rewrite app_nil_r, app_assoc. repeat split; auto.
        -- rewrite run_snoc, E. exact H.
        -- rewrite <- app_assoc. eapply bss_snoc; eauto.
Qed.
