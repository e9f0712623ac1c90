(** The node graph of accepted documents, and the weak upgrade of the unexpected-end-tag branch. *)
From Coq Require Import String Sorting.Sorted.
From Verif Require Import Api SpecText SpecParse SpecTree HeapLemmas InvCtl CtlRun Big BigSteps Struct.
Local Open Scope string_scope.
Local Open Scope list_scope.

(** ** Reachability *)
Lemma reach_mono : forall f f' h a b, f <= f' -> reach f h a b = true -> reach f' h a b = true.
Proof.
  induction f as [|f IH]; intros f' h a b L R.
  - cbn in R. rewrite orb_false_r in R. destruct f'; cbn; rewrite R; reflexivity.
  - destruct f' as [|f']; [lia|]. cbn in R |- *.
    destruct (Nat.eqb a b); [reflexivity|]. cbn [orb] in *.
    apply orb_true_iff in R. apply orb_true_iff. destruct R as [R|R].
    + left. rewrite existsb_exists in *. destruct R as [k [A B]]. exists k. split; [exact A|].
      apply (IH f'); [lia|exact B].
    + right. destruct (n_end_tag (hget h a)); [|discriminate]. apply (IH f'); [lia|exact R].
Qed.
Lemma reach_self : forall f h a, reach f h a a = true.
Proof. intros [|f] h a; cbn; rewrite Nat.eqb_refl; reflexivity. Qed.
Lemma reach_step : forall f h a b c, reach f h a b = true -> In c (kids h b) \/ n_end_tag (hget h b) = Some c ->
  reach (S f) h a c = true.
Proof.
  induction f as [|f IH]; intros h a b c R X.
  - cbn in R. rewrite orb_false_r in R. apply Nat.eqb_eq in R. subst b. cbn [reach].
    destruct (Nat.eqb a c); [reflexivity|]. cbn [orb]. apply orb_true_iff. destruct X as [X|X].
    + left. apply existsb_exists. exists c. split; [exact X|]. apply Nat.eqb_refl || (cbn; rewrite Nat.eqb_refl; reflexivity).
    + right. rewrite X. cbn. rewrite Nat.eqb_refl. reflexivity.
  - cbn [reach] in R. destruct (Nat.eqb_spec a b) as [->|N].
    + cbn [reach]. destruct (Nat.eqb b c); [reflexivity|]. cbn [orb].
      apply orb_true_iff. destruct X as [X|X].
      * left. apply existsb_exists. exists c. split; [exact X|]. apply (reach_self (S f)).
      * right. rewrite X. apply (reach_self (S f)).
    + cbn [orb] in R. change (reach (S (S f)) h a c) with
        (Nat.eqb a c || (existsb (fun k => reach (S f) h k c) (match n_childs (hget h a) with Some l => l | None => [] end)
         || match n_end_tag (hget h a) with Some e => reach (S f) h e c | None => false end))%bool.
      apply orb_true_iff. right. apply orb_true_iff. apply orb_true_iff in R. destruct R as [R|R].
      * left. rewrite existsb_exists in *. destruct R as [k [A B]]. exists k. split; [exact A|]. eapply IH; eauto.
      * right. destruct (n_end_tag (hget h a)); [|discriminate]. eapply IH; eauto.
Qed.
Lemma hs_reach : forall lt h k, hs lt h -> k < length h -> ty h k <> NTagEnd -> reach k h 0 k = true.
Proof.
  intros lt h k H. induction k as [k IH] using (well_founded_induction lt_wf). intros L T.
  destruct k as [|k]; [apply reach_self|].
  destruct (hs_att _ _ H (S k)) as [p X]; [lia|exact T|].
  destruct (hs_kids _ _ H p (S k) X) as [A [_ C]].
  apply (reach_mono (S p)); [lia|]. eapply reach_step; [apply (IH p)|left; exact X]; try lia.
  destruct C as [-> | ->]; discriminate.
Qed.

(** ** Only the end tag handler upgrades a weak link *)
Definition nu {A} (r : res A) : Prop := r <> RPanic PUpgrade.
Lemma nu_bind : forall A B (r : res A) (f : A -> res B), nu r -> (forall a, nu (f a)) -> nu (rbind r f).
Proof. intros A B [a|k i|p] f R F; cbn; [apply F| |]; unfold nu in *; congruence. Qed.
Ltac nup := repeat (first
  [ match goal with
    | |- nu (ROk _) => discriminate
    | |- nu (RErr _ _) => discriminate
    | |- nu (RPanic _) => discriminate
    | |- nu (rbind _ _) => apply nu_bind; [|intro]
    end
  | progress cbv zeta
  | match goal with |- nu (match ?x with _ => _ end) => destruct x end ]); auto with nu.
Create HintDb nu.
Lemma nu_add : forall n st, nu (add_new_node n st). Proof. intros. unfold add_new_node. nup. Qed.
Lemma nu_code : forall st, nu (tag_code_of st). Proof. intros. unfold tag_code_of. nup. Qed.
Lemma nu_error : forall k st, nu (doc_error k st). Proof. intros. unfold doc_error. nup. Qed.
Lemma nu_addval : forall q st, nu (add_tag_attr_value q st). Proof. intros. unfold add_tag_attr_value. nup. Qed.
Lemma nu_setkey : forall st, nu (set_tag_attr_key st). Proof. intros. unfold set_tag_attr_key. nup. Qed.
Lemma nu_setval : forall q st, nu (set_tag_attr_value q st). Proof. intros. unfold set_tag_attr_value. nup. Qed.
Lemma nu_check : forall st, nu (check_tag_type_do st). Proof. intros. unfold check_tag_type_do. nup. Qed.
Global Hint Resolve nu_add nu_code nu_error nu_addval nu_setkey nu_setval nu_check : nu.
Lemma nu_wait : forall st c, nu (parse_tag_wait st c). Proof. intros. unfold parse_tag_wait. nup. Qed.
Lemma nu_text : forall st c, nu (parse_text st c). Proof. intros. unfold parse_text. nup. Qed.
Global Hint Resolve nu_wait nu_text : nu.
Lemma nu_lt : forall st c, nu (fix_unescaped_lt st c). Proof. intros. unfold fix_unescaped_lt. nup. Qed.
Global Hint Resolve nu_lt : nu.
Lemma nu_handle : forall st c, d_handle st <> HTagEnd -> nu (run_handle st c).
Proof.
  intros st c H. unfold run_handle. destruct (d_handle st); try congruence;
  unfold parse_wait, parse_text, parse_doctype_name, parse_tag_name, parse_tag_self_closing,
    parse_tag_attr_key, parse_tag_attr_value, parse_content_tag, parse_comment_or_cdata,
    parse_unkown_tag, parse_exclamation_begin; nup.
Qed.

Lemma nu_end : forall opts u nm c, sok opts u -> nu (next (st_end u nm) c).
Proof.
  intros opts u nm c S. unfold next. apply nu_bind; [|intro; discriminate].
  change (run_handle (st_end u nm) c) with (parse_tagend (st_end u nm) c). unfold parse_tagend.
  destruct (N.eqb c TAG_END_CHAR); [|discriminate]. cbv zeta.
  apply nu_bind; [nup|]. intros [|]; [nup|].
  destruct (negb _); [apply nu_error|].
  apply nu_bind; [|intro; discriminate].
  destruct (n_prev (cur (st_end u nm))) as [q|] eqn:Eq; [|discriminate].
  replace (alive (st_end u nm) q) with true; [discriminate|]. symmetry.
  assert (Q : auto_fix_unclosed_tag opts = true /\ q = d_current_node u).
  { unfold cur, get_node, st_end in Eq. cbn [d_current_node d_heap] in Eq. unfold dropped_heap in Eq. cbv zeta in Eq.
    rewrite hget_app_new, (s_opts _ _ S) in Eq. destruct (auto_fix_unclosed_tag opts); [|discriminate].
    injection Eq as <-. auto. }
  destruct Q as [Af ->]. unfold alive. apply existsb_exists. exists 0.
  split; [left; apply (s_root _ _ S)|].
  change (d_heap (st_end u nm)) with (dropped_heap u).
  destruct (dropped_eq u) as [n [Tn [En _]]].
  assert (H' : hs (auto_fix_unescaped_lt opts) (dropped_heap u)).
  { rewrite En. apply hs_alloc_end; auto; [apply (s_hs _ _ S)|..];
    unfold dropped_heap in En; apply app_inj_tail in En; destruct En as [_ <-];
    destruct (auto_fix_unclosed_tag (d_parse_options u)); reflexivity. }
  pose proof (s_cur _ _ S) as Cu.
  assert (L : length (dropped_heap u) = Datatypes.S (length (d_heap u))) by (rewrite En, app_length; cbn; lia).
  assert (Tc : ty (dropped_heap u) (d_current_node u) = ty (d_heap u) (d_current_node u)).
  { rewrite En. unfold ty. rewrite hget_app_old by exact Cu. reflexivity. }
  destruct (node_type_eqb (ty (d_heap u) (d_current_node u)) NTagEnd) eqn:Et.
  - assert (T : ty (d_heap u) (d_current_node u) = NTagEnd) by (clear Tc; destruct (ty (d_heap u) (d_current_node u)); try discriminate; reflexivity).
    destruct (s_last _ _ S Af T) as [p Hp].
    pose proof (hs_end _ _ (s_hs _ _ S) _ _ Hp) as [A [_ [_ B]]].
    assert (Hp' : hget (dropped_heap u) p = hget (d_heap u) p) by (rewrite En; apply hget_app_old; lia).
    apply (reach_mono (Datatypes.S p)); [lia|]. eapply reach_step; [eapply (hs_reach _ _ p H')|right; rewrite Hp'; exact Hp].
    + lia.
    + unfold ty. rewrite Hp'. fold (ty (d_heap u) p). rewrite B. discriminate.
  - apply (reach_mono (d_current_node u)); [lia|]. eapply hs_reach; [exact H'|lia|].
    rewrite Tc. intro X. rewrite X in Et. discriminate.
Qed.

Lemma inm_handle : forall u s st, inm u s st -> d_handle st = HTagEnd -> exists nm, st = st_end u nm.
Proof.
  intros u s st I H. destruct I; try discriminate; eauto.
  - unfold st_area in H. cbn in H. destruct (ta_mode t) as [[]| |]; discriminate.
  - unfold st_area in H. cbn in H. destruct (ta_mode t) as [[]| |]; discriminate.
Qed.
Lemma run_nu : forall opts s, nu (run (doc_new opts) s).
Proof.
  intros opts s. induction s as [|c s IH] using rev_ind; [discriminate|]. rewrite run_snoc.
  destruct (run (doc_new opts) s) as [st|k i|p] eqn:E; [|discriminate|exact IH]. cbn [rbind].
  destruct (decompose opts s st E) as [s1 [s2 [st1 [Es [R1 [B1 D]]]]]].
  pose proof (bsteps_sok _ _ _ B1) as S1.
  destruct (d_handle st) eqn:Hh; try (unfold next; apply nu_bind; [apply nu_handle; rewrite Hh; discriminate|intro; discriminate]).
  destruct D as [[_ ->]|D].
  - pose proof (bsteps_ready _ _ _ B1 (or_introl (init_W opts))) as [[X _]|[[X _]|[X _]]]; congruence.
  - destruct (inm_handle _ _ _ D Hh) as [nm ->]. eapply nu_end. exact S1.
Qed.
Lemma parse_nu : forall opts s, nu (parse_res opts s).
Proof.
  intros opts s. unfold parse_res. apply nu_bind; [apply run_nu|]. intro st. unfold eof. nup.
Qed.

Lemma panic_shapes_full : forall opts s p, parse opts s = Panicked p ->
  (auto_fix_unclosed_tag opts = false /\ ends_in_open_name s) \/
  self_closed_doctype s \/ cdata_after_misspelt_special s.
Proof.
  intros opts s p H. eapply panic_shapes; [exact H|]. intros ->.
  unfold parse, outcome_of in H. pose proof (parse_nu opts s) as X.
  destruct (parse_res opts s); try discriminate. injection H as ->. apply X. reflexivity.
Qed.

(** ** End of input *)
Definition fix1 (pos : nat) (h : list node) (i : nid) : list node :=
  match n_meta (hget h i) with
  | Some m =>
      hupd (hupd h i (nupd_meta (mset_auto_fix true))
            ++ [nset_parent (Some i) (nset_content (Some (m_name m)) (node_new NTagEnd pos))])
        i (nset_end_tag (Some (length h)))
  | None => h
  end.
Definition fix_heap (pos : nat) (l : list nid) (h : list node) : list node := fold_left (fix1 pos) l h.
Definition text_done (st : doc) (n : node) : node :=
  nset_end_at (d_position st)
    ((fun n => if d_repeat_whitespace st then nset_type NSpacesBetweenTag n else n)
       (nset_content (Some (d_prev_chars st)) n)).
Definition fin_heap (st : doc) : list node :=
  let h1 := fix_heap (d_position st) (tl (rev (d_chain_nodes st))) (d_heap st) in
  let h2 := match d_code_in st with CTextNode => hupd h1 (d_current_node st) (text_done st) | _ => h1 end in
  hupd h2 (d_root st) (nset_end_at (d_position st)).

Lemma fix_unclosed_eq : forall l st,
  fix_unclosed_tag l st = set_heap (fix_heap (d_position st) l (d_heap st)) st.
Proof.
  induction l as [|i l IH]; intro st; [destruct st; reflexivity|].
  unfold fix_unclosed_tag, fix_heap. cbn [fold_left].
  change (fold_left fix_one_unclosed l ?x) with (fix_unclosed_tag l x).
  change (fold_left (fix1 ?p) l ?x) with (fix_heap p l x). rewrite IH.
  assert (E : fix_one_unclosed st i = set_heap (fix1 (d_position st) (d_heap st) i) st).
  { destruct st as [code ps mem det prev mark chain cu spec rep chk hd po rt ids h]. unfold fix_one_unclosed, fix1.
    unfold get_node, upd_node, alloc, set_heap. cbn. destruct (n_meta (hget h i)); cbn; [|reflexivity].
    rewrite hupd_length. reflexivity. }
  rewrite E. destruct st; reflexivity.
Qed.

(** What [eof] does when it succeeds. *)
Lemma eof_inv : forall st d, eof st = ROk d ->
  (length (d_chain_nodes st) <= 1 \/ auto_fix_unclosed_tag (d_parse_options st) = true) /\
  (match d_code_in st with
   | CTextNode | CUnkown | CAbstractRoot => True
   | CTag => auto_fix_unclosed_tag (d_parse_options st) = true
   | _ => False end) /\
  d_heap d = fin_heap st /\ d_root d = d_root st /\ d_id_tags d = d_id_tags st /\
  d_parse_options d = d_parse_options st /\ d_position d = d_position st.
Proof.
  intros st d H. unfold eof in H.
  assert (K : (length (d_chain_nodes st) <= 1 \/ auto_fix_unclosed_tag (d_parse_options st) = true) /\
    exists ch, (do st <- (match d_code_in (set_chain_nodes ch (set_heap (fix_heap (d_position st) (tl (rev (d_chain_nodes st))) (d_heap st)) st)) with
     | CTextNode =>
         let st := upd_cur (nset_content (Some (d_prev_chars st))) (set_chain_nodes ch (set_heap (fix_heap (d_position st) (tl (rev (d_chain_nodes st))) (d_heap st)) st)) in
         let st := if d_repeat_whitespace st then upd_cur (nset_type NSpacesBetweenTag) st else st in
         ROk (upd_cur (nset_end_at (d_position st)) st)
     | CUnkown | CAbstractRoot => ROk (set_chain_nodes ch (set_heap (fix_heap (d_position st) (tl (rev (d_chain_nodes st))) (d_heap st)) st))
     | CTag =>
         if negb (auto_fix_unclosed_tag (d_parse_options st)) then
           RErr (EUnclosedCode (d_code_in st)) (n_begin_at (cur (set_chain_nodes ch (set_heap (fix_heap (d_position st) (tl (rev (d_chain_nodes st))) (d_heap st)) st))))
         else ROk (set_chain_nodes ch (set_heap (fix_heap (d_position st) (tl (rev (d_chain_nodes st))) (d_heap st)) st))
     | _ => RErr (EUnclosedCode (d_code_in st)) (n_begin_at (cur (set_chain_nodes ch (set_heap (fix_heap (d_position st) (tl (rev (d_chain_nodes st))) (d_heap st)) st))))
     end);
  ROk (upd_node (d_root st) (nset_end_at (d_position st)) st)) = ROk d).
  { destruct (Nat.ltb_spec 1 (length (d_chain_nodes st))) as [L|L].
    - destruct (auto_fix_unclosed_tag (d_parse_options st)) eqn:Af.
      + split; [right; reflexivity|]. cbn [negb rbind] in H. cbv zeta in H. rewrite fix_unclosed_eq in H.
        exists (firstn 1 (rev (d_chain_nodes st))). dst st. cbn [rbind d_code_in set_chain_nodes set_heap d_position d_heap d_parse_options d_chain_nodes d_prev_chars] in *.
        rewrite ?Af in H |- *. replace (tl (rev chain)) with (skipn 1 (rev chain)) by (destruct (rev chain); reflexivity).
        destruct code; try exact H. cbn in H |- *. revert H. rewrite !Af. auto.
      + cbn [negb rbind] in H. destruct (d_chain_nodes st) as [|i l]; [cbn in L; lia|].
        destruct (n_meta (get_node st i)); discriminate.
    - split; [left; exact L|]. exists (d_chain_nodes st).
      replace (tl (rev (d_chain_nodes st))) with (@nil nid) by (destruct (d_chain_nodes st) as [|i [|j l]]; cbn in *; [reflexivity|reflexivity|lia]).
      cbn [rbind] in H. cbn [fix_heap fold_left]. dst st. exact H. }
  clear H. destruct K as [K1 [ch K2]]. split; [exact K1|]. unfold fin_heap.
  set (h1 := fix_heap (d_position st) (tl (rev (d_chain_nodes st))) (d_heap st)) in *. clearbody h1. clear K1.
  destruct st as [code ps mem det prev mark chain cu spec rep chk hd po rt ids h].
  cbn [d_code_in set_chain_nodes set_heap d_position d_heap d_parse_options d_chain_nodes d_root d_id_tags d_prev_chars d_current_node] in *.
  destruct code; cbn [rbind] in K2; try discriminate K2;
   try (injection K2 as <-; cbn; repeat split; fail).
  - destruct (auto_fix_unclosed_tag po); cbn [negb rbind] in K2; [|discriminate]. injection K2 as <-. cbn. repeat split.
  - injection K2 as <-. split; [exact I|]. cbn. unfold upd_cur, upd_node, text_done. destruct rep; cbn;
      rewrite ?hupd_hupd; repeat split.
Qed.

Lemma accepted : forall opts s d, parse_res opts s = ROk d ->
  exists s1 s2 st1 st, s = s1 ++ s2 /\ bsteps (doc_new opts) s1 st1 /\ run (doc_new opts) s = ROk st /\
    ((s2 = [] /\ st = st1 /\ (is_W st \/ is_T st)) \/
     (auto_fix_unclosed_tag opts = true /\ is_U st1 /\ inm st1 s2 st /\
      exists p rest, d_chain_nodes st1 = p :: rest /\
       ((open_name s2 /\ st = st_name st1 p s2) \/
        (exists n a t, s2 = n ++ a /\ open_name n /\ a <> [] /\ area_start a /\
          ta_run opts false a (ta_start (d_mark_char st1)) = Some t /\
          st = st_area st1 p false n (d_position st1 + length (n ++ a)) t)))) /\
    eof st = ROk d.
Proof.
  intros opts s d H. unfold parse_res in H. destruct (run (doc_new opts) s) as [st| |] eqn:R; try discriminate.
  cbn [rbind] in H. destruct (decompose _ _ _ R) as [s1 [s2 [st1 [Es [R1 [B D]]]]]].
  exists s1, s2, st1, st. split; [exact Es|]. split; [exact B|]. split; [reflexivity|]. split; [|exact H].
  destruct (eof_inv _ _ H) as [_ [C _]].
  pose proof (bsteps_sok _ _ _ B) as S.
  destruct D as [[E1 E2]|D].
  - left. subst. split; [reflexivity|]. split; [reflexivity|].
    destruct (bsteps_ready _ _ _ B (or_introl (init_W opts))) as [X|[X|X]]; auto.
    destruct X as [_ [X _]]. rewrite X in C. contradiction.
  - right. pose proof (inm_U _ _ _ D) as HU.
    assert (Af : auto_fix_unclosed_tag opts = true /\ d_code_in st = CTag).
    { rewrite <- (s_opts _ _ S). destruct D; cbn in C; try contradiction.
      - split; [exact C|reflexivity].
      - split; [exact C|reflexivity].
      - unfold raw_code in C. destruct (same_name n (str "script")); [contradiction|].
        destruct (same_name n (str "style")); contradiction. }
    destruct Af as [Af Cc]. split; [exact Af|]. split; [exact HU|]. split; [exact D|].
    destruct D; cbn in Cc; try discriminate Cc.
    + exists p, rest. split; [assumption|]. left. auto.
    + exists p, rest. split; [assumption|]. right. exists n, a, t. rewrite <- (s_opts _ _ S). auto 10.
    + unfold raw_code in Cc. destruct (same_name n (str "script")); [discriminate|].
        destruct (same_name n (str "style")); discriminate.
Qed.

(** The state in which the end of input is found. *)
Record ending (opts : parse_options) (st : doc) : Prop := mkEnding {
  e_opts : d_parse_options st = opts;
  e_root : d_root st = 0;
  e_hs : hs (auto_fix_unescaped_lt opts) (d_heap st);
  e_cur : d_current_node st < length (d_heap st);
  e_chain : chain_ok (d_heap st) (d_chain_nodes st) (length (d_heap st));
  e_open : forall i, In i (d_chain_nodes st) -> n_end_tag (hget (d_heap st) i) = None;
  e_text : d_code_in st = CTextNode -> ty (d_heap st) (d_current_node st) = NText
}.
Lemma sok_ending : forall opts st, sok opts st -> is_W st \/ is_T st -> ending opts st.
Proof.
  intros opts st S R. destruct S as [S1 S2 S3 S4 S5 S6 S7 S8 S9 S10]. constructor; auto.
  intro C. apply S8. destruct R as [[_ [[X|X] _]]|X]; [congruence|congruence|exact X].
Qed.
Lemma ending_tag : forall opts u p rest st h, sok opts u -> d_chain_nodes u = p :: rest ->
  sim (opened u p NTag) h -> (forall i, ty h i = ty (opened u p NTag) i) ->
  d_parse_options st = opts -> d_root st = 0 -> d_heap st = h -> d_current_node st = length (d_heap u) ->
  d_chain_nodes st = length (d_heap u) :: d_chain_nodes u -> d_code_in st = CTag -> ending opts st.
Proof.
  intros opts u p rest st h S E F Ty Eo Er Eh Ec Ech Ecode.
  destruct (opened_ok opts u p rest NTag S E) as [H [X [Et Tn]]]; try discriminate.
  assert (X' : ext (d_heap u) h) by (eapply ext_trans; [exact X|apply sim_ext, F]).
  assert (L : length h = Datatypes.S (length (d_heap u))) by (rewrite (sim_len _ _ F), opened_length; lia).
  constructor; rewrite ?Eh, ?Ec, ?Ech; auto.
  - eapply hs_sim; eauto.
  - lia.
  - cbn. split; [lia|]. split; [rewrite E, Ty; exact Tn|].
    apply (chain_le (d_heap u)); [apply (s_chain _ _ S)|]. intros i Hi T. destruct X' as [_ K].
    exact (proj1 (kind_neq _ _ NTag (K i Hi) not_text_tag) T).
  - intros i Hi. rewrite (sim_et _ _ _ F), Et. destruct Hi as [<-|Hi]; [|apply (s_open _ _ S); exact Hi].
    rewrite hget_default by lia. reflexivity.
  - rewrite Ecode. discriminate.
Qed.
Lemma accepted_ending : forall opts s d, parse_res opts s = ROk d ->
  exists st, run (doc_new opts) s = ROk st /\ ending opts st /\ eof st = ROk d.
Proof.
  intros opts s d H. destruct (accepted _ _ _ H) as [s1 [s2 [st1 [st [Es [B [R [D He]]]]]]]].
  exists st. split; [exact R|]. split; [|exact He]. pose proof (bsteps_sok _ _ _ B) as S.
  destruct D as [[_ [-> D]]|[Af [HU [_ [p [rest [E [[On ->]|[n [a [t [-> [On [Ha [As [Tr ->]]]]]]]]]]]]]]]].
  - apply sok_ending; assumption.
  - eapply ending_tag; eauto; try reflexivity.
    + apply sim_refl.
    + apply (s_opts _ _ S).
    + apply (s_root _ _ S).
  - eapply (ending_tag opts st1 p rest _ (d_heap (st_area st1 p false n (d_position st1 + length (n ++ a)) t)));
      eauto; try reflexivity.
    + apply sim_set_meta.
    + intro i. unfold st_area. cbn [d_heap]. apply ty_set_meta.
    + apply (s_opts _ _ S).
    + apply (s_root _ _ S).
Qed.

(** The chain, outermost first, without the root. *)
Lemma fix1_hs : forall lt h i pos, hs lt h -> i < length h -> ty h i = NTag -> hs lt (fix1 pos h i).
Proof.
  intros lt h i pos H L T. unfold fix1. destruct (n_meta (hget h i)) as [m|]; [|exact H].
  assert (F : sim h (hupd h i (nupd_meta (mset_auto_fix true)))) by (apply sim_hupd; auto with quiet).
  apply hs_set_end.
  - apply hs_alloc_end; try reflexivity. eapply hs_sim; eauto.
  - rewrite app_length, hupd_length. cbn. lia.
  - unfold ty. rewrite hget_app_old by (rewrite hupd_length; exact L).
    change (ty (hupd h i (nupd_meta (mset_auto_fix true))) i = NTag). rewrite ty_hupd_quiet by auto with quiet. exact T.
  - rewrite <- (hupd_length h i (nupd_meta (mset_auto_fix true))). unfold ty. rewrite hget_app_new. reflexivity.
  - rewrite <- (hupd_length h i (nupd_meta (mset_auto_fix true))). rewrite hget_app_new. reflexivity.
Qed.
Lemma fix1_ty : forall pos h i j, j < length h -> ty (fix1 pos h i) j = ty h j.
Proof.
  intros pos h i j L. unfold fix1. destruct (n_meta (hget h i)); [|reflexivity].
  unfold ty. rewrite (hupd_keep n_type) by reflexivity. rewrite hget_app_old by (rewrite hupd_length; exact L).
  apply (hupd_keep n_type). intro n. apply quiet_nupd.
Qed.
Lemma fix1_length : forall pos h i, length h <= length (fix1 pos h i).
Proof. intros. unfold fix1. destruct (n_meta _); [|lia]. rewrite hupd_length, app_length, hupd_length. lia. Qed.
Lemma fix_heap_hs : forall lt pos l h, hs lt h -> (forall i, In i l -> i < length h /\ ty h i = NTag) ->
  hs lt (fix_heap pos l h) /\ length h <= length (fix_heap pos l h) /\
  (forall j, j < length h -> ty (fix_heap pos l h) j = ty h j).
Proof.
  intros lt pos l. induction l as [|i l IH]; intros h H K; [split; [exact H|split; [apply le_n|reflexivity]]|].
  cbn [fix_heap fold_left]. change (fold_left (fix1 pos) l (fix1 pos h i)) with (fix_heap pos l (fix1 pos h i)).
  destruct (K i (or_introl eq_refl)) as [L T].
  pose proof (fix1_length pos h i) as L1.
  destruct (IH (fix1 pos h i)) as [A [B C]].
  - apply fix1_hs; assumption.
  - intros j Hj. destruct (K j (or_intror Hj)) as [Lj Tj]. split; [lia|]. rewrite fix1_ty by exact Lj. exact Tj.
  - split; [exact A|]. split; [lia|]. intros j Hj. rewrite C by lia. apply fix1_ty. exact Hj.
Qed.
Lemma chain_unclosed : forall lt h l i, hs lt h -> chain_ok h l (length h) -> In i (tl (rev l)) -> i < length h /\ ty h i = NTag.
Proof.
  intros lt h l i H C X.
  assert (Y : In i l) by (apply in_rev; destruct (rev l); [destruct X|right; exact X]).
  split; [eapply chain_in; eauto|]. eapply chain_zero; eauto. intros ->.
  (* 0 occurs only at the end *)
  assert (Z : forall l b, chain_ok h l b -> ~ In 0 (tl (rev l))).
  { clear - H. induction l as [|j l IH]; intros b C X; [destruct X|]. cbn in C. destruct C as [A [B C]]. cbn in X.
    destruct l as [|k l].
    - destruct X.
    - assert (N : rev (k :: l) <> []) by (cbn; intro E; apply app_eq_nil in E; destruct E; discriminate).
      destruct (rev (k :: l)) as [|r rs] eqn:Er; [congruence|]. cbn in X. apply in_app_or in X. destruct X as [X|[X|[]]].
      + apply (IH j C). exact X.
      + subst j. cbn in C. lia. }
  eapply Z; eauto.
Qed.

Lemma fin_hs : forall opts st, ending opts st -> hs (auto_fix_unescaped_lt opts) (fin_heap st).
Proof.
  intros opts st E. unfold fin_heap.
  destruct (fix_heap_hs (auto_fix_unescaped_lt opts) (d_position st) (tl (rev (d_chain_nodes st))) (d_heap st)) as [H [L T]].
  - apply (e_hs _ _ E).
  - intros i Hi. eapply chain_unclosed; [apply (e_hs _ _ E)|apply (e_chain _ _ E)|exact Hi].
  - cbv zeta. eapply hs_sim; [|apply sim_hupd; auto with quiet].
    destruct (d_code_in st) eqn:Ec; try exact H.
    eapply hs_sim; [exact H|]. pose proof (e_cur _ _ E) as Cu.
    unfold text_done. eapply sim_trans; [|eapply sim_trans].
    + apply (sim_hupd _ (d_current_node st)). apply (quiet_content (Some (d_prev_chars st))).
    + apply (sim_hupd _ (d_current_node st)). apply (quiet_end_at (d_position st)).
    + rewrite hupd_hupd. destruct (d_repeat_whitespace st).
      * set (h0 := fix_heap _ _ _) in *.
        assert (E2 : hupd h0 (d_current_node st) (fun n => nset_end_at (d_position st) (nset_type NSpacesBetweenTag (nset_content (Some (d_prev_chars st)) n))) =
                hupd (hupd h0 (d_current_node st) (fun n => nset_end_at (d_position st) (nset_content (Some (d_prev_chars st)) n)))
                  (d_current_node st) (nset_type NSpacesBetweenTag)).
        { rewrite hupd_hupd. reflexivity. }
        rewrite E2. apply sim_set_type; [right; reflexivity|]. unfold ty. rewrite (hupd_keep n_type) by reflexivity.
        left. change (ty h0 (d_current_node st) = NText). rewrite T by exact Cu. apply (e_text _ _ E Ec).
      * apply sim_refl.
Qed.
Theorem parsed_hs : forall opts s d, parse opts s = Parsed d ->
  hs (auto_fix_unescaped_lt opts) (d_heap d) /\ d_root d = 0.
Proof.
  intros opts s d H. unfold parse, outcome_of in H. destruct (parse_res opts s) as [d'| |] eqn:R; try discriminate.
  injection H as ->. destruct (accepted_ending _ _ _ R) as [st [_ [E He]]].
  destruct (eof_inv _ _ He) as [_ [_ [A [B _]]]]. rewrite A, B. split; [apply fin_hs; exact E|apply (e_root _ _ E)].
Qed.

(** ** The graph *)
Lemma linked_up : forall lt h p x k, hs lt h -> linked h p x k -> p < k < length h.
Proof.
  intros lt h p x k H L. destruct L as [p l i k E N|p e E].
  - apply (hs_kids _ _ H). unfold kids. rewrite E. eapply nth_error_In; eauto.
  - apply (hs_end _ _ H) in E. tauto.
Qed.
Lemma path_up : forall lt h a w k, hs lt h -> path h a w k -> a <= k /\ (w <> [] -> a < k).
Proof.
  intros lt h a w k H P. induction P as [|w p x k P [IH1 IH2] L].
  - split; [apply le_n|congruence].
  - pose proof (linked_up _ _ _ _ _ H L). split; [lia|]. intros _. lia.
Qed.
Lemma linked_kids : forall h p i k, linked h p (LChild i) k -> nth_error (kids h p) i = Some k.
Proof. intros h p i k L. inversion L; subst. unfold kids. rewrite H0. assumption. Qed.
Lemma linked_unique : forall lt h p q x y k, hs lt h -> linked h p x k -> linked h q y k -> p = q /\ x = y.
Proof.
  intros lt h p q x y k H A B. destruct x as [i|], y as [j|].
  - apply linked_kids in A. apply linked_kids in B.
    assert (E : p = q) by (eapply (hs_own _ _ H); eapply nth_error_In; eauto). subst q. split; [reflexivity|].
    rewrite <- (hs_index _ _ H p i k A), <- (hs_index _ _ H p j k B). reflexivity.
  - apply linked_kids in A. apply nth_error_In in A. apply (hs_kids _ _ H) in A. inversion B; subst.
    apply (hs_end _ _ H) in H0. tauto.
  - apply linked_kids in B. apply nth_error_In in B. apply (hs_kids _ _ H) in B. inversion A; subst.
    apply (hs_end _ _ H) in H0. tauto.
  - inversion A; inversion B; subst.
    match goal with H1 : n_end_tag (hget h p) = Some k, H2 : n_end_tag (hget h q) = Some k |- _ =>
      apply (hs_end _ _ H) in H1; apply (hs_end _ _ H) in H2;
      destruct H1 as [_ [_ [H1 _]]]; destruct H2 as [_ [_ [H2 _]]] end.
    split; [congruence|reflexivity].
Qed.
Lemma path_unique : forall lt h k w w', hs lt h -> path h 0 w k -> path h 0 w' k -> w = w'.
Proof.
  intros lt h k. induction k as [k IH] using (well_founded_induction lt_wf). intros w w' H P Q.
  inversion P as [A B|v p x k' P1 L1]; inversion Q as [C D|v' p' x' k'' Q1 L2]; subst; auto.
  - pose proof (linked_up _ _ _ _ _ H L2). lia.
  - pose proof (linked_up _ _ _ _ _ H L1). lia.
  - destruct (linked_unique _ _ _ _ _ _ _ H L1 L2) as [<- <-]. f_equal.
    eapply (IH p); eauto. apply (linked_up _ _ _ _ _ H L1).
Qed.
Lemma path_all : forall lt h k, hs lt h -> k < length h -> ty h k <> NTagEnd -> in_doc h 0 k.
Proof.
  intros lt h k H. induction k as [k IH] using (well_founded_induction lt_wf). intros L T.
  destruct k as [|k]; [exists []; constructor|].
  destruct (hs_att _ _ H (S k)) as [p X]; [lia|exact T|].
  destruct (hs_kids _ _ H p (S k) X) as [A [_ C]].
  destruct (IH p) as [w P]; [lia|lia|destruct C as [-> | ->]; discriminate|].
  apply In_nth_error in X. destruct X as [i X]. unfold kids in X.
  destruct (n_childs (hget h p)) as [l|] eqn:E; [|destruct i; discriminate].
  exists (w ++ [LChild i]). eapply path_step; [exact P|]. eapply linked_child; eauto.
Qed.

Lemma map_opt_some : forall A B (f : A -> option B) l, (forall x, In x l -> f x <> None) -> map_opt f l <> None.
Proof.
  intros A B f l. induction l as [|x l IH]; intro H; cbn; [discriminate|].
  destruct (f x) eqn:E; [|exfalso; apply (H x); [left; reflexivity|exact E]].
  destruct (map_opt f l) eqn:E2; [discriminate|]. exfalso. apply IH; [|reflexivity]. intros y Hy. apply H. right. exact Hy.
Qed.
Lemma tree_exists : forall lt h f i, hs lt h -> i < length h -> length h - i <= f -> tree_of f h i <> None.
Proof.
  intros lt h f. induction f as [|f IH]; intros i H L F; [lia|]. cbn [tree_of].
  assert (A : match n_end_tag (hget h i) with
              | None => Some None
              | Some e => match tree_of f h e with Some t => Some (Some t) | None => None end
              end <> None).
  { destruct (n_end_tag (hget h i)) as [e|] eqn:E; [|discriminate].
    apply (hs_end _ _ H) in E. specialize (IH e H). destruct (tree_of f h e); [discriminate|]. exfalso. apply IH; [lia|lia|reflexivity]. }
  assert (B : match n_childs (hget h i) with
              | None => Some None
              | Some l => match map_opt (tree_of f h) l with Some l' => Some (Some l') | None => None end
              end <> None).
  { destruct (n_childs (hget h i)) as [l|] eqn:E; [|discriminate].
    assert (X : map_opt (tree_of f h) l <> None).
    { apply map_opt_some. intros k Hk. assert (K : In k (kids h i)) by (unfold kids; rewrite E; exact Hk).
      apply (hs_kids _ _ H) in K. apply IH; auto; lia. }
    destruct (map_opt (tree_of f h) l); [discriminate|congruence]. }
  destruct (match n_end_tag (hget h i) with None => _ | Some e => _ end); [|congruence].
  destruct (match n_childs (hget h i) with None => _ | Some l => _ end); [discriminate|congruence].
Qed.

Lemma graph_tree : forall opts s d, parse opts s = Parsed d ->
  let h := d_heap d in let r := d_root d in
  (forall k w w', path h r w k -> path h r w' k -> w = w') /\
  (forall k w, path h k w k -> w = []) /\
  (forall k, k < length h -> n_type (hget h k) <> NTagEnd -> in_doc h r k) /\
  (forall k w, path h r w k -> k < length h) /\
  (forall p i k, linked h p (LChild i) k -> n_index (hget h k) = i) /\
  doc_tree d <> None.
Proof.
  intros opts s d P. destruct (parsed_hs _ _ _ P) as [H R]. cbv zeta. unfold doc_tree. rewrite R.
  split; [|split; [|split; [|split; [|split]]]].
  - intros. eapply path_unique; eauto.
  - intros k w X. destruct w as [|x w]; [reflexivity|]. destruct (path_up _ _ _ _ _ H X) as [_ Y].
    assert (k < k) by (apply Y; discriminate). lia.
  - intros. eapply path_all; eauto.
  - intros k w X. inversion X; subst; [apply H|]. eapply linked_up; eauto.
  - intros p i k X. apply linked_kids in X. eapply (hs_index _ _ H); eauto.
  - eapply tree_exists; [exact H|apply H|lia].
Qed.
Lemma graph_links : forall opts s d, parse opts s = Parsed d ->
  let h := d_heap d in let r := d_root d in
  (forall p i k, linked h p (LChild i) k ->
     (n_parent (hget h k) = Some p /\ n_root (hget h k) = Some r) \/
     (auto_fix_unescaped_lt opts = true /\ (n_type (hget h k) = NText \/ n_type (hget h k) = NSpacesBetweenTag) /\
      n_parent (hget h k) = None /\ n_root (hget h k) = None)) /\
  (forall p e, linked h p LEnd e -> n_parent (hget h e) = Some p) /\
  n_parent (hget h r) = None /\ n_root (hget h r) = Some r.
Proof.
  intros opts s d P. destruct (parsed_hs _ _ _ P) as [H R]. cbv zeta. rewrite R.
  split; [|split; [|split]]; try apply H.
  - intros p i k X. apply linked_kids in X. apply nth_error_In in X. apply (hs_links _ _ H). exact X.
  - intros p e X. inversion X; subst. apply (hs_end _ _ H) in H0. tauto.
Qed.
