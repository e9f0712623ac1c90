(** The converse of [BigSteps]: every big step is a run of the parser. *)
From Coq Require Import String ZifyBool ZifyN.
From Verif Require Import Api SpecText SpecParse NameProofs MiscProofs HeapLemmas InvCtl CtlSteps
  CtlHandlers CtlEnd CtlRun Big BigSteps.
Local Open Scope string_scope.
Local Open Scope list_scope.

Ltac lens := rewrite ?app_length; cbn [length]; rewrite ?app_length; cbn [length]; cbn; rewrite ?app_length; cbn; lia.

Lemma run_one : forall st c, run st [c] = next st c.
Proof. intros st c. cbn [run]. destruct (next st c); reflexivity. Qed.

Lemma name_ne : forall c, name_char c -> N.eqb c TAG_END_CHAR = false /\ N.eqb c END_SLASH_CHAR = false /\
  is_ascii_whitespace c = false.
Proof.
  intros c [A [B C]]. unfold is_ws in A. unfold TAG_END_CHAR, END_SLASH_CHAR. repeat split; try lia.
Qed.
Lemma run_name_tail : forall u p n', Forall name_char n' -> forall n,
  run (st_name u p n) n' = ROk (st_name u p (n ++ n')).
Proof.
  intros u p n' F. induction F as [|c n' C F IH]; intro n.
  - rewrite app_nil_r. reflexivity.
  - cbn [run]. unfold next. rewrite name_next. destruct (name_ne c C) as [-> [-> ->]]. cbn [rbind].
    replace (set_position _ _) with (st_name u p (n ++ [c])).
    + rewrite IH, <- app_assoc. reflexivity.
    + unfold st_name. nd. f_equal. lens.
Qed.
Lemma run_name : forall u p rest n, is_U u -> d_root u = 0 -> d_chain_nodes u = p :: rest -> open_name n ->
  run u n = ROk (st_name u p n).
Proof.
  intros u p rest n U R Ec [c [n' [-> [Al F]]]]. pose proof U as [Uh [Uc [Ud Up]]].
  cbn [run]. unfold next, run_handle. rewrite Uh. unfold parse_unkown_tag. rewrite Al.
  rewrite (add_new_child _ _ p rest Ec R) by discriminate. cbn [rbind]. rewrite spaces_flip.
  match goal with |- run ?x n' = _ => replace x with (st_name u p [c]) end.
  - rewrite run_name_tail by exact F. reflexivity.
  - unfold st_name, opened. dst u. cbn in Uh, Ud, Up, Uc, R; subst. nd. reflexivity.
Qed.

Lemma run_area_tail : forall u p dt n a t t' ps, ta_ok t -> ta_run (d_parse_options u) dt a t = Some t' ->
  run (st_area u p dt n ps t) a = ROk (st_area u p dt n (ps + length a) t').
Proof.
  intros u p dt n a. induction a as [|c a IH]; intros t t' ps O R; cbn [ta_run] in R.
  - injection R as <-. cbn. rewrite Nat.add_0_r. reflexivity.
  - destruct (ta_closes c t) eqn:Cl; [discriminate|].
    pose proof (area_next u p dt n ps t c O Cl) as B.
    destruct (ta_step (d_parse_options u) dt c t) as [t1|] eqn:E; [|discriminate].
    cbn [run]. unfold next. rewrite B. cbn [rbind].
    replace (set_position _ _) with (st_area u p dt n (ps + 1) t1) by (unfold st_area; nd; reflexivity).
    rewrite (IH t1 t' (ps + 1)); [|eapply ta_step_ok; eauto|exact R]. cbn [length].
    f_equal. f_equal. lia.
Qed.
(** The state after the name and [a]. *)
Definition st_tag (u : doc) (p : nid) (n a : list char) (t : ta) : doc :=
  match a with [] => st_name u p n | _ => st_area u p false n (d_position u + length (n ++ a)) t end.
Lemma run_area_start : forall u p n a t, area_start a ->
  ta_run (d_parse_options u) false a (ta_start (d_mark_char u)) = Some t ->
  run (st_name u p n) a = ROk (st_tag u p n a t).
Proof.
  intros u p n [|c a] t As R; [reflexivity|]. cbn [run]. unfold next. rewrite name_next.
  assert (G : exists t1, ta_ok t1 /\ ta_run (d_parse_options u) false a t1 = Some t /\
    (if N.eqb c TAG_END_CHAR then
      parse_tag_wait (set_handle HTagName (st_area u p false n (d_position u + length n) (ta_start (d_mark_char u)))) c
    else if N.eqb c END_SLASH_CHAR then
      ROk (st_area u p false n (d_position u + length n)
             (mkTa (AWait true) TWait [] [] [] (d_mark_char u) []))
    else if is_ascii_whitespace c then
      ROk (st_area u p false n (d_position u + length n) (ta_start (d_mark_char u)))
    else ROk (push_char c (st_name u p n))) = ROk (st_area u p false n (d_position u + length n) t1)).
  { cbn [ta_run] in R. destruct As as [->|W].
    - eexists. split; [|split; [exact R|reflexivity]]. split; auto.
    - unfold is_ws in W. destruct (ws_wait (d_parse_options u) false c (ta_start (d_mark_char u)) false W eq_refl) as [A1 A2].
      rewrite A1, A2 in R. exists (ta_start (d_mark_char u)). split; [apply ta_start_ok|]. split; [exact R|].
      assert (X : N.eqb c TAG_END_CHAR = false /\ N.eqb c END_SLASH_CHAR = false)
        by (unfold is_ascii_whitespace in W; unfold TAG_END_CHAR, END_SLASH_CHAR; lia).
      destruct X as [-> ->]. rewrite W. reflexivity. }
  destruct G as [t1 [O [R1 ->]]]. cbn [rbind].
  replace (set_position _ _) with (st_area u p false n (d_position u + length n + 1) t1) by (unfold st_area; nd; reflexivity).
  rewrite (run_area_tail u p false n a t1 t _ O R1). unfold st_tag. f_equal. f_equal. lens.
Qed.

Lemma close_prev : forall t, ta_ok t -> ta_prev (ta_close t) = [].
Proof. intros t O. unfold ta_ok, ta_close in *. destruct (ta_mode t); cbn; [apply O| |]; reflexivity. Qed.

(** '>' after the attributes. *)
Lemma tag_close : forall u p n a t, ta_run (d_parse_options u) false a (ta_start (d_mark_char u)) = Some t ->
  ta_closable t = true ->
  exists hx, next (st_tag u p n a t) TAG_END_CHAR =
    do st <- (if ta_slash t then
      if self_close_ok u n
      then ROk (st_closed u p false n (d_position u + length (n ++ a)) true (d_in_special u) (d_chain_nodes u) (ta_close t))
      else RErr (EWrongSelfClosing n) (d_position u + length (n ++ a))
    else parse_tag_wait (set_handle hx (st_area u p false n (d_position u + length (n ++ a)) (ta_close t))) TAG_END_CHAR);
    ROk (set_position (d_position st + 1) st).
Proof.
  intros u p n a t R C. destruct a as [|c a].
  - cbn in R. injection R as <-. exists HTagName. cbn [st_tag]. unfold next. rewrite name_next.
    rewrite app_nil_r. reflexivity.
  - eexists. cbn [st_tag]. unfold next. rewrite area_close; [|eapply ta_run_ok; [apply ta_start_ok|exact R]|exact C].
    cbn [orb tl]. reflexivity.
Qed.
Lemma run_tag : forall u p rest n a t, is_U u -> d_root u = 0 -> d_chain_nodes u = p :: rest -> open_name n ->
  area_start a -> ta_run (d_parse_options u) false a (ta_start (d_mark_char u)) = Some t ->
  run u (n ++ a ++ str ">") = next (st_tag u p n a t) TAG_END_CHAR.
Proof.
  intros u p rest n a t U Ro Ec On As R. rewrite run_app, (run_name u p rest) by assumption. cbn [rbind].
  rewrite run_app, (run_area_start u p n a t) by assumption. cbn [rbind]. apply run_one.
Qed.

Lemma replay_tag : forall u n a t p rest, is_U u -> d_root u = 0 -> open_name n -> area_start a ->
  d_chain_nodes u = p :: rest ->
  ta_run (d_parse_options u) false a (ta_start (d_mark_char u)) = Some t -> ta_closable t = true ->
  ta_slash t = false ->
  let T ch sp := W_of u (n ++ a ++ str ">") (d_mem_position u) (ta_mark (ta_close t)) ch
       (length (d_heap u)) sp None (ids_of (length (d_heap u)) (ta_close t) (d_id_tags u))
       (set_meta (opened u p NTag) (length (d_heap u)) (ta_meta n false (ta_close t))) in
  run u (n ++ a ++ str ">") = ROk
    (if is_void_tag (lower n) then T (d_chain_nodes u) (d_in_special u)
     else if is_content_tag (lower n) None then st_raw u p n a (ta_close t) []
     else T (length (d_heap u) :: d_chain_nodes u) (special_after (d_in_special u) n)).
Proof.
  intros u n a t p rest U Ro On As Ec R C S T. rewrite (run_tag u p rest n a t) by assumption.
  assert (O : ta_ok t) by (eapply ta_run_ok; [apply ta_start_ok|exact R]).
  destruct (tag_close u p n a t R C) as [hx ->]. rewrite S, wait_close by (apply close_prev; exact O).
  cbn [rbind]. f_equal. unfold T, W_of, st_closed, st_raw.
  destruct (is_void_tag (lower n)); [|destruct (is_content_tag (lower n) None)]; dst u; nd; f_equal; lens.
Qed.
Lemma replay_self : forall u n a t p rest, is_U u -> d_root u = 0 -> open_name n -> area_start a ->
  d_chain_nodes u = p :: rest ->
  ta_run (d_parse_options u) false a (ta_start (d_mark_char u)) = Some t -> ta_slash t = true ->
  self_close_ok u n = true ->
  run u (n ++ a ++ str ">") = ROk (W_of u (n ++ a ++ str ">") (d_mem_position u) (ta_mark t)
           (d_chain_nodes u) (length (d_heap u)) (d_in_special u) None
           (ids_of (length (d_heap u)) t (d_id_tags u))
           (set_meta (opened u p NTag) (length (d_heap u)) (ta_meta n true t))).
Proof.
  intros u n a t p rest U Ro On As Ec R S Sc. rewrite (run_tag u p rest n a t) by assumption.
  assert (C : ta_closable t = true) by (unfold ta_slash, ta_closable in *; destruct (ta_mode t); congruence).
  assert (E : ta_close t = t) by (unfold ta_close, ta_slash in *; destruct (ta_mode t); [reflexivity|discriminate|discriminate]).
  destruct (tag_close u p n a t R C) as [hx ->]. rewrite S, Sc, E. cbn [rbind]. f_equal.
  unfold W_of, st_closed. dst u. nd. f_equal. lens.
Qed.

(** Raw text. *)
Lemma open_until_prefix : forall f a b, open_until f (a ++ b) -> open_until f a.
Proof. intros f a b H p q E. apply (H p (q ++ b)). rewrite E, <- app_assoc. reflexivity. Qed.
Lemma raw_step : forall u p n a t b c,
  next (st_raw u p n a t b) c =
    if (N.eqb c TAG_END_CHAR && raw_end (d_parse_options u) (str "</" ++ n) b)%bool then
      let k := length (chars_trim_end b) - length (str "</" ++ n) in
      let src := n ++ a ++ str ">" ++ b ++ str ">" in
      ROk (W_of u src (d_position u + length (n ++ a)) (ta_mark t)
           (d_chain_nodes u) (length (d_heap u)) (d_in_special u) None
           (ids_of (length (d_heap u)) t (d_id_tags u))
           (hupd (set_meta (opened u p NTag) (length (d_heap u)) (ta_meta n false t)
                  ++ [nset_parent (Some (length (d_heap u)))
                        (nset_content (Some (skipn 2 (skipn k b)))
                           (node_new NTagEnd (d_position u + length src)))])
              (length (d_heap u))
              (fun x => nset_content (Some (firstn k b)) (nset_end_tag (Some (S (length (d_heap u)))) x))))
    else ROk (st_raw u p n a t (b ++ [c])).
Proof.
  intros u p n a t b c. unfold next.
  change (run_handle (st_raw u p n a t b) c) with (parse_content_tag (st_raw u p n a t b) c).
  unfold parse_content_tag.
  change (d_detect (st_raw u p n a t b)) with (Some (str "</" ++ n)).
  change (d_prev_chars (st_raw u p n a t b)) with b. cbn match. cbn zeta.
  change (d_parse_options (st_raw u p n a t b)) with (d_parse_options u).
  assert (Push : ROk (set_position (d_position (push_char c (st_raw u p n a t b)) + 1) (push_char c (st_raw u p n a t b)))
    = ROk (st_raw u p n a t (b ++ [c]))).
  { f_equal. unfold st_raw. nd. f_equal. lens. }
  destruct (N.eqb c TAG_END_CHAR); cbn [negb andb]; [|exact Push].
  fold (raw_end (d_parse_options u) (str "</" ++ n) b).
  destruct (raw_end (d_parse_options u) (str "</" ++ n) b); [|exact Push].
  cbn [rbind]. f_equal. unfold W_of, st_raw. dst u. nd. f_equal.
  - lens.
  - rewrite set_meta_length, opened_length.
    match goal with |- context [node_new NTagEnd (?x + 1)] =>
          replace (x + 1) with (pos + length (n ++ a ++ str ">" ++ b ++ str ">"))
            by lens end.
    reflexivity.
Qed.
Lemma run_raw : forall u p n a t b, open_until (raw_end (d_parse_options u) (str "</" ++ n)) b ->
  run (st_raw u p n a t []) b = ROk (st_raw u p n a t b).
Proof.
  intros u p n a t b. induction b as [|c b IH] using rev_ind; intro O; [reflexivity|].
  rewrite run_snoc, IH by (eapply open_until_prefix; exact O). cbn [rbind]. rewrite raw_step.
  destruct (N.eqb_spec c TAG_END_CHAR) as [->|]; [|reflexivity].
  rewrite (O b []) by reflexivity. reflexivity.
Qed.

(** End tags. *)
Lemma run_end_open : forall u, is_U u -> next u END_SLASH_CHAR = ROk (st_end u []).
Proof.
  intros u U. pose proof U as [Uh [Uc [Ud Up]]]. unfold next, run_handle. rewrite Uh.
  unfold parse_unkown_tag. change (is_ascii_alphabetic END_SLASH_CHAR) with false.
  change (N.eqb END_SLASH_CHAR END_SLASH_CHAR) with true. cbn iota. unfold st_end, dropped_heap.
  destruct (auto_fix_unclosed_tag (d_parse_options u)) eqn:Fx; cbn [negb];
    unfold add_new_node; cbn [n_type node_new node_type_eqb]; dst u; nd; cbn in Uh, Ud, Up, Uc; subst.
  - rewrite hupd_app_new. reflexivity.
  - reflexivity.
Qed.
Lemma run_end : forall u nm, is_U u -> ~ In TAG_END_CHAR nm -> run u (str "/" ++ nm) = ROk (st_end u nm).
Proof.
  intros u nm U. induction nm as [|c nm IH] using rev_ind; intro N.
  - change (str "/" ++ []) with [END_SLASH_CHAR]. rewrite run_one. apply run_end_open. exact U.
  - rewrite app_assoc, run_snoc, IH by (intro X; apply N; apply in_or_app; left; exact X). cbn [rbind].
    unfold next. change (run_handle (st_end u nm) c) with (parse_tagend (st_end u nm) c). unfold parse_tagend.
    replace (N.eqb c TAG_END_CHAR) with false.
    + cbn [rbind]. f_equal. unfold st_end. nd. f_equal. lens.
    + symmetry. apply N.eqb_neq. intros ->. apply N. apply in_or_app. right. left. reflexivity.
Qed.

Lemma replay_close : forall u nm tag rest, is_U u -> ~ In TAG_END_CHAR nm ->
  (forall i, In i (d_chain_nodes u) -> i < length (d_heap u)) ->
  closes u nm = Some (tag, rest) ->
  (case_sensitive_tagname (d_parse_options u) = true ->
         exists m, n_meta (get_node u tag) = Some m /\ m_name m = trim_right nm) ->
  run u (str "/" ++ nm ++ str ">") = ROk
        (W_of u (str "/" ++ nm ++ str ">") (d_mem_position u) (d_mark_char u)
           rest (length (d_heap u)) (special_closed (d_in_special u) (trim_right nm))
           (closed_check u tag) (d_id_tags u)
           (closed_heap u tag nm (d_position u + length (str "/" ++ nm)))).
Proof.
  intros u nm tag rest U Nn Hch Cl Cs. rewrite app_assoc, run_app, run_end by assumption. cbn [rbind].
  change (run (st_end u nm) (str ">")) with (run (st_end u nm) [TAG_END_CHAR]).
  rewrite run_one. rewrite <- app_assoc.
  unfold next. change (run_handle (st_end u nm) TAG_END_CHAR) with (parse_tagend (st_end u nm) TAG_END_CHAR).
  unfold parse_tagend. change (N.eqb TAG_END_CHAR TAG_END_CHAR) with true. cbn iota.
  change (d_chain_nodes (st_end u nm)) with (d_chain_nodes u).
  change (d_prev_chars (st_end u nm)) with nm.
  destruct (dropped_eq u) as [e [Te [De [Pe Ee]]]].
  cbn zeta. rewrite <- trim_right_eq. unfold closes in Cl.
  destruct (d_chain_nodes u) as [|tag' [|par rest']] eqn:Ec; try discriminate.
  cbn [length Nat.ltb Nat.leb].
  assert (Ht : tag' < length (d_heap u)) by (apply Hch; left; reflexivity).
  assert (Em : get_node (st_end u nm) tag' = get_node u tag').
  { unfold get_node, st_end. cbn. rewrite De. apply hget_app_old. exact Ht. }
  rewrite Em. destruct (n_meta (get_node u tag')) as [m|] eqn:Mm; [|discriminate].
  rewrite is_equal_chars_ignore_case_spec.
  destruct (same_name (m_name m) (trim_right nm)) eqn:Sn; [|discriminate]. injection Cl as -> <-.
  change (d_parse_options (st_end u nm)) with (d_parse_options u).
  replace (case_sensitive_tagname (d_parse_options u) && negb (chars_eqb (m_name m) (trim_right nm)))%bool with false.
  2:{ destruct (case_sensitive_tagname (d_parse_options u)); [|reflexivity].
      destruct (Cs eq_refl) as [m' [M1 M2]]. rewrite M1 in Mm. injection Mm as <-. rewrite M2.
      replace (chars_eqb _ _) with true; [reflexivity|]. symmetry. apply chars_eqb_eq. reflexivity. }
  cbn [rbind].
  unfold closed_check, closed_heap. cbn zeta. rewrite <- Ee.
  fold (only_text (d_heap u) tag).
  replace (match n_childs (hget (d_heap u) tag) with
       | Some [k] => if node_type_eqb (n_type (hget (d_heap u) k)) NText then d_check_textnode u else None
       | _ => None end) with (if only_text (d_heap u) tag then d_check_textnode u else None)
    by (unfold only_text; destruct (n_childs (hget (d_heap u) tag)) as [[|k [|? ?]]|]; reflexivity).
  clear Ee Pe Mm Sn Ec Cs Em Hch Nn U.
  pose proof (only_text_end (d_heap u) e tag (@Some nid (length (d_heap u))) Ht Te) as Eo.
  rewrite <- De in Eo. rewrite <- De.
  unfold st_end, set_text_spaces_between, W_of, special_closed in *.
  generalize dependent (dropped_heap u). intros h1 De Eo.
  dst u. ndi Eo. ndi De. unfold only_text in Eo at 1. nd.
  rewrite Eo.
  destruct (only_text h tag); [|destruct chk as [ck|]];
  (destruct spec as [[sp nn]|];
   [rewrite is_equal_chars_none_eqb; destruct (chars_eqb nn (trim_right nm))|]);
  nd; unfold flip, end_info; f_equal; f_equal; lens.
Qed.
Lemma replay_drop : forall u nm, is_U u -> ~ In TAG_END_CHAR nm -> closes u nm = None ->
  (forall i, In i (d_chain_nodes u) -> i < length (d_heap u)) ->
  (forall tag rest, d_chain_nodes u = tag :: rest -> rest <> [] -> n_meta (get_node u tag) <> None) ->
  auto_fix_unexpected_endtag (d_parse_options u) = true ->
  next (st_end u nm) TAG_END_CHAR <> RPanic PUpgrade ->
  run u (str "/" ++ nm ++ str ">") = ROk
        (W_of u (str "/" ++ nm ++ str ">") (d_mem_position u) (d_mark_char u)
           (d_chain_nodes u)
           (if auto_fix_unclosed_tag (d_parse_options u) then d_current_node u else length (d_heap u))
           (d_in_special u) (d_check_textnode u) (d_id_tags u) (dropped_heap u)).
Proof.
  intros u nm U Nn Cl Hch Hm Fx Al. rewrite app_assoc, run_app, run_end by assumption. cbn [rbind].
  change (run (st_end u nm) (str ">")) with (run (st_end u nm) [TAG_END_CHAR]).
  rewrite run_one. rewrite <- app_assoc. revert Al.
  unfold next. change (run_handle (st_end u nm) TAG_END_CHAR) with (parse_tagend (st_end u nm) TAG_END_CHAR).
  unfold parse_tagend. change (N.eqb TAG_END_CHAR TAG_END_CHAR) with true. cbn iota.
  change (d_chain_nodes (st_end u nm)) with (d_chain_nodes u).
  change (d_prev_chars (st_end u nm)) with nm.
  change (d_parse_options (st_end u nm)) with (d_parse_options u).
  destruct (dropped_eq u) as [e [Te [De [Pe Ee]]]].
  cbn zeta. rewrite <- trim_right_eq.
  match goal with |- rbind (rbind ?r _) _ <> _ -> _ => replace r with (@ROk bool false) end.
  2:{ unfold closes in Cl. destruct (d_chain_nodes u) as [|tag [|par rest]] eqn:Ec; try reflexivity.
      cbn [length Nat.ltb Nat.leb].
      replace (get_node (st_end u nm) tag) with (get_node u tag).
      2:{ unfold get_node, st_end. cbn. rewrite De, hget_app_old; [reflexivity|]. apply Hch. left. reflexivity. }
      specialize (Hm _ _ eq_refl (ltac:(discriminate))).
      destruct (n_meta (get_node u tag)) as [m|]; [|congruence].
      rewrite is_equal_chars_ignore_case_spec. destruct (same_name _ _); [discriminate|reflexivity]. }
  cbn [rbind]. rewrite Fx. cbn [negb].
  assert (Ec : cur (st_end u nm) = e).
  { unfold cur, get_node, st_end. cbn. rewrite De. apply hget_app_new. }
  rewrite Ec, Pe. destruct (auto_fix_unclosed_tag (d_parse_options u)) eqn:Fu.
  - destruct (alive _ _); [|intro X; exfalso; apply X; reflexivity]. intros _. cbn [rbind]. f_equal.
    unfold W_of, st_end. nd. f_equal. lens.
  - intros _. cbn [rbind]. f_equal. unfold W_of, st_end. nd. f_equal. lens.
Qed.

(** Declarations. *)
Lemma run_excl : forall u, is_U u -> next u EXCLAM_CHAR = ROk (st_excl u None []).
Proof.
  intros u U. pose proof U as [Uh [Uc [Ud Up]]]. unfold next, run_handle. rewrite Uh.
  unfold parse_unkown_tag, st_excl. dst u. nd. cbn in Uh, Ud, Up, Uc; subst. reflexivity.
Qed.
Lemma excl_next : forall u c x, is_U u -> (x = DXMLCDATA -> cdata_here u) ->
  to_ascii_uppercase c = hd EOF_CHAR (detect_char_map x) ->
  next (st_excl u None []) c = ROk (st_excl u (Some (detect_char_map x)) [c]).
Proof.
  intros u c x U Cd Hc. unfold next.
  change (run_handle (st_excl u None []) c) with (parse_exclamation_begin (st_excl u None []) c).
  unfold parse_exclamation_begin.
  change (d_detect (st_excl u None [])) with (@None (list char)). cbn match.
  change (d_in_special (st_excl u None [])) with (d_in_special u).
  change (d_chain_nodes (st_excl u None [])) with (d_chain_nodes u).
  assert (Fin : (do st <- ROk (push_char c (set_detect (Some (detect_char_map x)) (st_excl u None [])));
      ROk (set_position (d_position st + 1) st)) = ROk (st_excl u (Some (detect_char_map x)) [c])).
  { cbn [rbind]. f_equal. unfold st_excl. nd. f_equal. lens. }
  destruct x.
  - assert (c = DASH_CHAR) by (eapply upper_spec; [exact Hc|reflexivity]). subst c. exact Fin.
  - assert (E : c = 68%N \/ c = 100%N).
    { cbn in Hc. clear - Hc. unfold to_ascii_uppercase, is_ascii_lowercase, char in *.
      destruct (N.leb_spec 97 c); destruct (N.leb_spec c 122); cbn [andb] in Hc; lia. }
    destruct E; subst c; exact Fin.
  - assert (c = LEFT_BRACKET_CHAR) by (eapply upper_spec; [exact Hc|reflexivity]). subst c.
    destruct (Cd eq_refl) as [p [rest [sp [m [E1 [E2 [E3 E4]]]]]]].
    change (N.eqb LEFT_BRACKET_CHAR DASH_CHAR) with false.
    change ((N.eqb LEFT_BRACKET_CHAR 68 || N.eqb LEFT_BRACKET_CHAR 100)%bool) with false.
    change (N.eqb LEFT_BRACKET_CHAR LEFT_BRACKET_CHAR) with true. cbn iota.
    rewrite E2. destruct sp as [sp tn]. rewrite E1.
    change (get_node (st_excl u None []) p) with (get_node u p). rewrite E3.
    rewrite is_equal_chars_none_eqb. replace (chars_eqb tn (m_name m)) with false; [exact Fin|].
    symmetry. apply chars_eqb_neq. cbn in E4. congruence.
Qed.
Lemma kw_next : forall u kw x c, length kw < length (detect_char_map x) ->
  to_ascii_uppercase c = nth (length kw) (detect_char_map x) EOF_CHAR ->
  length kw <> length (detect_char_map x) - 1 ->
  next (st_excl u (Some (detect_char_map x)) kw) c = ROk (st_excl u (Some (detect_char_map x)) (kw ++ [c])).
Proof.
  intros u kw x c L Hc Ne. unfold next.
  change (run_handle (st_excl u (Some (detect_char_map x)) kw) c)
    with (parse_exclamation_begin (st_excl u (Some (detect_char_map x)) kw) c).
  unfold parse_exclamation_begin.
  change (d_detect (st_excl u (Some (detect_char_map x)) kw)) with (Some (detect_char_map x)). cbn match.
  change (d_prev_chars (st_excl u (Some (detect_char_map x)) kw)) with kw.
  destruct (Nat.ltb_spec (length kw) (length (detect_char_map x))) as [_|X]; [|lia]. cbn zeta.
  rewrite Hc, N.eqb_refl. destruct (Nat.eqb_spec (length kw) (length (detect_char_map x) - 1)); [contradiction|].
  cbn [rbind]. f_equal. unfold st_excl. nd. f_equal. lens.
Qed.
Lemma run_kw : forall u x kw, is_U u -> (x = DXMLCDATA -> cdata_here u) -> kw <> [] ->
  length kw < length (detect_char_map x) ->
  map to_ascii_uppercase kw = firstn (length kw) (detect_char_map x) ->
  run u (str "!" ++ kw) = ROk (st_excl u (Some (detect_char_map x)) kw).
Proof.
  intros u x kw U Cd. induction kw as [|c kw IH] using rev_ind; intros Nk L E; [congruence|].
  rewrite app_length in *. cbn [length] in *. rewrite Nat.add_1_r in *.
  assert (E' : map to_ascii_uppercase kw = firstn (length kw) (detect_char_map x) /\
               to_ascii_uppercase c = nth (length kw) (detect_char_map x) EOF_CHAR).
  { rewrite map_app in E. replace (S (length kw)) with (length kw + 1) in E by lia.
    rewrite firstn_snoc in E by lia. apply app_inj_tail in E. destruct E as [E1 E2]. auto. }
  destruct E' as [E1 E2]. rewrite app_assoc, run_snoc.
  destruct kw as [|k kw].
  - rewrite app_nil_r. change (str "!") with [EXCLAM_CHAR]. rewrite run_one, run_excl by exact U. cbn [rbind].
    rewrite (excl_next u c x U Cd); [reflexivity|]. rewrite E2. destruct x; reflexivity.
  - rewrite IH; [|discriminate|lia|exact E1]. cbn [rbind]. apply kw_next; [lia|exact E2|lia].
Qed.
Lemma kw_last : forall u p rest kw x c, d_chain_nodes u = p :: rest -> d_root u = 0 ->
  length kw = length (detect_char_map x) - 1 ->
  to_ascii_uppercase c = nth (length kw) (detect_char_map x) EOF_CHAR ->
  next (st_excl u (Some (detect_char_map x)) kw) c = ROk
    match x with
    | DComment => st_body u p false (str "!" ++ kw ++ [c]) []
    | DDOCTYPE => st_dt_name u p (kw ++ [c])
    | DXMLCDATA => st_body u p true (str "!" ++ kw ++ [c]) []
    end.
Proof.
  intros u p rest kw x c Ech Ro L Hc. unfold next.
  change (run_handle (st_excl u (Some (detect_char_map x)) kw) c)
    with (parse_exclamation_begin (st_excl u (Some (detect_char_map x)) kw) c).
  unfold parse_exclamation_begin.
  change (d_detect (st_excl u (Some (detect_char_map x)) kw)) with (Some (detect_char_map x)). cbn match.
  change (d_prev_chars (st_excl u (Some (detect_char_map x)) kw)) with kw.
  destruct (Nat.ltb_spec (length kw) (length (detect_char_map x))) as [_|X]; [|destruct x; cbn in *; lia]. cbn zeta.
  rewrite Hc, N.eqb_refl. rewrite L, Nat.eqb_refl. rewrite L in Hc.
  destruct x; cbn in Hc.
  - assert (c = DASH_CHAR) by (eapply upper_spec; [exact Hc|reflexivity]). subst c.
    change (N.eqb DASH_CHAR DASH_CHAR || N.eqb DASH_CHAR LEFT_BRACKET_CHAR)%bool with true.
    change (N.eqb DASH_CHAR DASH_CHAR) with true. cbn iota.
    rewrite (add_new_push _ _ p rest (fun _ => True));
      [|unfold st_excl; nd; exact Ech|unfold st_excl; nd; exact Ro|discriminate|discriminate].
    cbn [rbind]. rewrite spaces_flip. f_equal.
    unfold st_excl, st_body, opened. dst u. nd. f_equal. lens.
  - assert (E : c = 69%N \/ c = 101%N).
    { clear - Hc. unfold to_ascii_uppercase, is_ascii_lowercase, char in *.
      destruct (N.leb_spec 97 c); destruct (N.leb_spec c 122); cbn [andb] in Hc; lia. }
    replace ((N.eqb c DASH_CHAR || N.eqb c LEFT_BRACKET_CHAR)%bool) with false by (destruct E; subst c; reflexivity).
    replace ((N.eqb c 69 || N.eqb c 101)%bool) with true by (destruct E; subst c; reflexivity).
    rewrite (add_new_push _ _ p rest (fun _ => True));
      [|unfold st_excl; nd; exact Ech|unfold st_excl; nd; exact Ro|discriminate|discriminate].
    cbn [rbind]. rewrite spaces_flip. f_equal.
    unfold st_excl, st_dt_name, opened. dst u. nd. f_equal. lens.
  - assert (c = LEFT_BRACKET_CHAR) by (eapply upper_spec; [exact Hc|reflexivity]). subst c.
    change (N.eqb LEFT_BRACKET_CHAR DASH_CHAR || N.eqb LEFT_BRACKET_CHAR LEFT_BRACKET_CHAR)%bool with true.
    change (N.eqb LEFT_BRACKET_CHAR DASH_CHAR) with false. cbn iota.
    rewrite (add_new_push _ _ p rest (fun _ => True));
      [|unfold st_excl; nd; exact Ech|unfold st_excl; nd; exact Ro|discriminate|discriminate].
    cbn [rbind]. rewrite spaces_flip. f_equal.
    unfold st_excl, st_body, opened. dst u. nd. f_equal. lens.
Qed.
Lemma upper_lower : forall c d, to_ascii_lowercase c = to_ascii_lowercase d -> is_ascii_lowercase d = false ->
  to_ascii_uppercase c = d.
Proof.
  intros c d. unfold to_ascii_lowercase, to_ascii_uppercase, is_ascii_lowercase, is_ascii_uppercase, char in *.
  destruct (N.leb_spec 65 c); destruct (N.leb_spec c 90); destruct (N.leb_spec 65 d); destruct (N.leb_spec d 90);
  destruct (N.leb_spec 97 c); destruct (N.leb_spec c 122); destruct (N.leb_spec 97 d); destruct (N.leb_spec d 122);
  cbn [andb]; intros; try discriminate; lia.
Qed.
Lemma same_upper : forall s d, same_name s d = true -> Forall (fun c => is_ascii_lowercase c = false) d ->
  map to_ascii_uppercase s = d.
Proof.
  intros s d E. apply same_name_lower in E. revert s E.
  induction d as [|b d IH]; intros [|a s] E F; try discriminate; [reflexivity|].
  inversion F; subst. cbn in E. injection E as E1 E2. cbn. f_equal; [apply upper_lower; assumption|apply IH; assumption].
Qed.
(** The whole keyword. *)
Lemma run_keyword : forall u p rest x kw, is_U u -> d_chain_nodes u = p :: rest -> d_root u = 0 ->
  (x = DXMLCDATA -> cdata_here u) -> same_name kw (detect_char_map x) = true ->
  run u (str "!" ++ kw) = ROk
    match x with
    | DComment => st_body u p false (str "!" ++ kw) []
    | DDOCTYPE => st_dt_name u p kw
    | DXMLCDATA => st_body u p true (str "!" ++ kw) []
    end.
Proof.
  intros u p rest x kw U Ec Ro Cd Sn.
  assert (Up : map to_ascii_uppercase kw = detect_char_map x).
  { apply same_upper; [exact Sn|]. destruct x; repeat constructor. }
  assert (L : length kw = length (detect_char_map x)) by (rewrite <- Up, map_length; reflexivity).
  destruct (rev kw) as [|c kw'] eqn:Er.
  { exfalso. apply (f_equal (@length _)) in Er. rewrite rev_length, L in Er. destruct x; discriminate. }
  apply (f_equal (@rev _)) in Er. rewrite rev_involutive in Er. cbn in Er. subst kw.
  set (kw := rev kw') in *. rewrite app_length in L. cbn [length] in L.
  assert (E' : map to_ascii_uppercase kw = firstn (length kw) (detect_char_map x) /\
               to_ascii_uppercase c = nth (length kw) (detect_char_map x) EOF_CHAR).
  { rewrite <- Up, map_app. rewrite firstn_app, map_length, Nat.sub_diag, firstn_O, app_nil_r.
    rewrite firstn_all2 by (rewrite map_length; lia). rewrite app_nth2; rewrite map_length; [|lia].
    rewrite Nat.sub_diag. auto. }
  destruct E' as [E1 E2].
  rewrite app_assoc, run_snoc, (run_kw u x kw); auto; try lia.
  - cbn [rbind]. rewrite (kw_last u p rest) by (auto; lia). rewrite <- app_assoc. reflexivity.
  - intros K. rewrite K in L. destruct x; cbn in L; lia.
Qed.

Lemma body_step : forall u p (cd : bool) hdr b c,
  next (st_body u p cd (hdr ++ b) b) c =
    if (N.eqb c TAG_END_CHAR && cm_end (if cd then RIGHT_BRACKET_CHAR else DASH_CHAR) b)%bool then
      ROk (W_of u (hdr ++ b ++ [c]) (d_mem_position u) EOF_CHAR (d_chain_nodes u) (length (d_heap u)) (d_in_special u) None
           (d_id_tags u)
           (hupd (hupd (opened u p (if cd then NXMLCDATA else NComment)) (length (d_heap u)) (nset_content (Some (firstn (length b - 2) b))))
              (length (d_heap u)) (end_info (d_position u + length (hdr ++ b)))))
    else ROk (st_body u p cd (hdr ++ b ++ [c]) (b ++ [c])).
Proof.
  intros u p cd hdr b c. unfold next.
  change (run_handle (st_body u p cd (hdr ++ b) b) c) with (parse_comment_or_cdata (st_body u p cd (hdr ++ b) b) c).
  unfold parse_comment_or_cdata.
  change (d_prev_chars (st_body u p cd (hdr ++ b) b)) with b.
  change (d_mark_char (st_body u p cd (hdr ++ b) b)) with (if cd then RIGHT_BRACKET_CHAR else DASH_CHAR).
  cbn zeta. rewrite <- Bool.andb_assoc.
  fold (cm_end (if cd then RIGHT_BRACKET_CHAR else DASH_CHAR) b).
  destruct (N.eqb c TAG_END_CHAR && cm_end (if cd then RIGHT_BRACKET_CHAR else DASH_CHAR) b)%bool eqn:E.
  - cbn [rbind]. f_equal. unfold W_of, st_body. destruct cd; dst u; nd; f_equal; lens.
  - cbn [rbind]. f_equal. unfold st_body. dst u. nd. f_equal; lens.
Qed.
Lemma run_body : forall u p (cd : bool) hdr b,
  open_until (cm_end (if cd then RIGHT_BRACKET_CHAR else DASH_CHAR)) b ->
  run (st_body u p cd hdr []) b = ROk (st_body u p cd (hdr ++ b) b).
Proof.
  intros u p cd hdr b. induction b as [|c b IH] using rev_ind; intro O; [rewrite app_nil_r; reflexivity|].
  rewrite run_snoc, IH by (eapply open_until_prefix; exact O). cbn [rbind]. rewrite body_step.
  destruct (N.eqb_spec c TAG_END_CHAR) as [->|]; [|reflexivity].
  rewrite (O b []) by reflexivity. reflexivity.
Qed.

Lemma dt_name_next : forall u p n c, is_ws c ->
  next (st_dt_name u p n) c = ROk (st_area u p true n (d_position u + length (str "!" ++ n ++ [c])) (ta_start (d_mark_char u))).
Proof.
  intros u p n c W. unfold next.
  change (run_handle (st_dt_name u p n) c) with (parse_doctype_name (st_dt_name u p n) c).
  unfold parse_doctype_name. unfold is_ws in W. rewrite W.
  assert (E : set_tag_meta (st_dt_name u p n) = (is_void_tag (lower n), set_handle HDoctypeName
    (st_area u p true n (d_position u + length (str "!" ++ n)) (ta_start (d_mark_char u))))) by (dst u; reflexivity).
  rewrite E. cbn [snd]. rewrite code_handle by exact I. rewrite code_area.
  cbn [rbind]. f_equal. unfold st_area. nd. f_equal. lens.
Qed.

(** ** Every big step is a run *)
Record replays (u : doc) : Prop := {
  rp_root : d_root u = 0;
  rp_chain : forall i, In i (d_chain_nodes u) -> i < length (d_heap u);
  rp_meta : forall tag rest, d_chain_nodes u = tag :: rest -> rest <> [] -> n_meta (get_node u tag) <> None;
  rp_ty : is_T u \/ n_type (cur u) <> NSpacesBetweenTag;
  rp_up : forall nm, next (st_end u nm) TAG_END_CHAR <> RPanic PUpgrade
}.

Lemma text_run : forall st c, is_T st -> exists st', next st c = ROk st' /\
  (c = TAG_BEGIN_CHAR -> st' = (mkDoc CUnkownTag (d_position st + 1) (d_position st) None [] (d_mark_char st) (d_chain_nodes st)
           (d_current_node st) (d_in_special st) (d_repeat_whitespace st)
           (if d_repeat_whitespace st then Some (d_current_node st) else None) HUnkownTag
           (d_parse_options st) (d_root st) (d_id_tags st)
           (hupd (hupd (d_heap st) (d_current_node st) (nset_content (Some (d_prev_chars st))))
              (d_current_node st) (end_info (d_position st))))) /\
  (c <> TAG_BEGIN_CHAR -> st' = (mkDoc CTextNode (d_position st + 1) (d_mem_position st) None (d_prev_chars st ++ [c]) (d_mark_char st)
           (d_chain_nodes st) (d_current_node st) (d_in_special st)
           (d_repeat_whitespace st && is_ascii_whitespace c)%bool (d_check_textnode st) HText
           (d_parse_options st) (d_root st) (d_id_tags st) (d_heap st))).
Proof.
  intros st c [Wh [Wc Wd]]. unfold next, run_handle. rewrite Wh. unfold parse_text.
  destruct (N.eqb_spec c TAG_BEGIN_CHAR) as [->|Nc]; eexists; (split; [reflexivity|]); split; intro E; try congruence;
  dst st; nd; cbn in Wh, Wd, Wc; subst; [reflexivity|]. destruct rep; reflexivity.
Qed.

Lemma T_lt : forall u s st, bstep u s st -> is_T u -> run u s = ROk st.
Proof.
  intros u s st B T. destruct B; try (match goal with H : is_W _ |- _ => destruct H as [Y _] | H : is_U _ |- _ => destruct H as [Y _] end;
    destruct T as [X _]; congruence).
  - rewrite run_one. destruct (text_run st c H) as [st' [-> [_ E]]]. rewrite (E H0). reflexivity.
  - rewrite run_one. destruct (text_run st TAG_BEGIN_CHAR H) as [st' [-> [E _]]]. rewrite (E eq_refl). reflexivity.
Qed.

Theorem replay : forall u s st, bstep u s st -> replays u -> run u s = ROk st.
Proof.
  intros u s st B. destruct B; intros RP.
  - rename H into W. pose proof W as [Wh [Wc [Wd Wp]]]. rewrite run_one. unfold next, run_handle. rewrite Wh.
    unfold parse_wait. cbn [N.eqb TAG_BEGIN_CHAR Pos.eqb]. dst st. nd. cbn in Wh, Wd, Wp. subst. reflexivity.
  - pose proof H as [Wh [Wc [Wd Wp]]]. rewrite run_one. unfold next, run_handle. rewrite Wh.
    unfold parse_wait. apply N.eqb_neq in H0. rewrite H0, H1, H2. cbn [node_type_eqb andb orb]. rewrite H3.
    destruct ct; dst st; nd; cbn in Wh, Wd, Wp; subst; reflexivity.
  - pose proof H as [Wh [Wc [Wd Wp]]]. rewrite run_one. unfold next, run_handle. rewrite Wh.
    unfold parse_wait. apply N.eqb_neq in H0. rewrite H0.
    replace (auto_fix_unexpected_endtag (d_parse_options st) &&
      (node_type_eqb (n_type (cur st)) NText || node_type_eqb (n_type (cur st)) NSpacesBetweenTag))%bool with false.
    2:{ destruct (rp_ty st RP) as [[X _]|X]; [congruence|]. destruct H1 as [->|Y]; [reflexivity|].
        symmetry. destruct (n_type (cur st)); cbn; auto using Bool.andb_false_r; contradiction. }
    rewrite (add_new_child _ _ p rest H2 (rp_root st RP)) by discriminate.
    pose proof (rp_root st RP) as R. dst st. nd. cbn in Wh, Wd, Wp, R. subst. reflexivity.
  - rewrite run_one. destruct (text_run st c H) as [st' [-> [_ E]]]. rewrite (E H0). reflexivity.
  - rewrite run_one. destruct (text_run st TAG_BEGIN_CHAR H) as [st' [-> [E _]]]. rewrite (E eq_refl). reflexivity.
  - rewrite (replay_tag u n a t p rest) by (auto; apply RP). rewrite H6, H7. reflexivity.
  - rewrite (replay_tag u n a t p rest) by (auto; apply RP). rewrite H6. reflexivity.
  - rewrite (replay_self u n a t p rest) by (auto; apply RP). reflexivity.
  - subst src. replace (n ++ a ++ str ">" ++ b ++ str ">") with (((n ++ a ++ str ">") ++ b) ++ str ">")
      by (rewrite <- !app_assoc; reflexivity).
    rewrite run_app, run_app, (replay_tag u n a t p rest) by (auto; apply RP).
    rewrite content_not_void, H6 by exact H6. cbn [rbind]. rewrite run_raw by exact H7. cbn [rbind].
    change (run ?x (str ">")) with (run x [TAG_END_CHAR]). rewrite run_one, raw_step, H8.
    change (N.eqb TAG_END_CHAR TAG_END_CHAR) with true. cbn [andb]. cbn zeta.
    rewrite <- !app_assoc. reflexivity.
  - eapply replay_close; eauto. apply RP.
  - apply replay_drop; auto; apply RP.
  - subst src. rewrite app_assoc, run_app. change (str "!--") with (str "!" ++ str "--").
    rewrite run_app, (run_keyword u p rest DComment) by (auto; try discriminate; apply RP).
    cbn [rbind]. rewrite (run_body u p false) by assumption. cbn [rbind].
    change (run ?x (str ">")) with (run x [TAG_END_CHAR]). rewrite run_one, body_step, H2. reflexivity.
  - subst src. rewrite !app_assoc. rewrite run_app, run_app.
    rewrite (run_keyword u p rest DXMLCDATA); auto; try apply RP.
    2:{ eapply same_name_trans; [exact H1|reflexivity]. }
    cbn [rbind]. rewrite (run_body u p true) by assumption. cbn [rbind].
    change (run ?x (str ">")) with (run x [TAG_END_CHAR]). rewrite run_one, body_step, H4.
    change (N.eqb TAG_END_CHAR TAG_END_CHAR) with true. cbn [andb]. rewrite <- !app_assoc. reflexivity.
  - subst src t'. replace (str "!" ++ n ++ [c] ++ a ++ str ">") with ((((str "!" ++ n) ++ [c]) ++ a) ++ str ">")
      by (rewrite <- !app_assoc; reflexivity).
    rewrite run_app, run_app, run_app.
    rewrite (run_keyword u p rest DDOCTYPE); auto; try discriminate; try apply RP.
    2:{ eapply same_name_trans; [exact H1|reflexivity]. }
    cbn [rbind]. rewrite run_one, dt_name_next by exact H2. cbn [rbind].
    rewrite (run_area_tail u p true n a _ t _ (ta_start_ok _) H3). cbn [rbind].
    change (run ?x (str ">")) with (run x [TAG_END_CHAR]). rewrite run_one. unfold next.
    assert (O : ta_ok t) by (eapply ta_run_ok; [apply ta_start_ok|exact H3]).
    rewrite area_close by assumption. destruct (same_doctype n H1) as [V [C S]].
    destruct (ta_slash t) eqn:Sl.
    + cbn [orb rbind]. f_equal. unfold W_of, st_closed. dst u. nd. f_equal. lens.
    + rewrite wait_close by (apply close_prev; exact O). rewrite V, C. cbn [rbind]. f_equal.
      unfold W_of, st_closed, special_after. dst u. nd. rewrite S. f_equal; [lens|].
      destruct spec; reflexivity.
  - rewrite run_one. pose proof H as [Uh _]. unfold next, run_handle. rewrite Uh. unfold parse_unkown_tag.
    apply N.eqb_neq in H2, H3. rewrite H1, H2, H3, H0. cbn [negb]. rewrite lt_text_spec.
    + apply N.eqb_neq in H4. rewrite H4. cbn [rbind]. rewrite lt_text_pos. reflexivity.
    + exact H.
    + destruct (rp_ty u RP) as [[X _]|X]; [congruence|exact X].
  - pose proof (T_lt _ _ _ B (lt_text_T _ _)) as R. rewrite run_one in *. pose proof H as [Uh _].
    unfold next, run_handle. rewrite Uh. unfold parse_unkown_tag.
    change (is_ascii_alphabetic TAG_BEGIN_CHAR) with false. change (N.eqb TAG_BEGIN_CHAR END_SLASH_CHAR) with false.
    change (N.eqb TAG_BEGIN_CHAR EXCLAM_CHAR) with false. cbn iota. rewrite H0. cbn [negb].
    rewrite lt_text_spec; [|exact H|destruct (rp_ty u RP) as [[X _]|X]; [congruence|exact X]].
    change (N.eqb TAG_BEGIN_CHAR TAG_BEGIN_CHAR) with true. cbn iota.
    unfold next, run_handle in R. destruct (lt_text_T u (str "&lt;")) as [Th _]. rewrite Th in R. exact R.
Qed.

