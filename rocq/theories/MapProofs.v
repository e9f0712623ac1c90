(** Where the nodes of a document lie in its source. *)
From Coq Require Import String Sorting.Sorted.
From Verif Require Import Api SpecText SpecRender SpecParse SpecMisc SpecTree TextProofs NameProofs MiscProofs SpecDoc SpecMap HeapLemmas
  InvCtl CtlEnd CtlRun Big BigSteps Replay RawText Area Struct Frame Birth CloseInv Shape Real Sim Tok StructEnd Final DocEnd DocTree DocSound Print
  SpecFix SpecStream Stream StreamEnd StreamParse StreamProofs.
Local Open Scope string_scope.
Local Open Scope list_scope.

(** ** Rows of a heap *)
Definition nrow (n : node) : row := mkRow (kind (n_type n)) (n_content n) (n_begin_at n) (n_end_at n).
Definition rows (h : list node) : list row := map nrow h.

Lemma map_upd_keep : forall {B} (g : node -> B) f (h : list node) i, (forall n, nth_error h i = Some n -> g (f n) = g n) -> map g (hupd h i f) = map g h.
Proof.
  intros B g f. induction h as [|n h IH]; intros i K; [destruct i; reflexivity|]. destruct i as [|i].
  - change (hupd (n :: h) 0 f) with (f n :: h). cbn. rewrite K by reflexivity. reflexivity.
  - change (hupd (n :: h) (S i) f) with (n :: hupd h i f). cbn. rewrite IH; [reflexivity|]. intros m Hm. apply K. exact Hm.
Qed.
Lemma rows_keep : forall f h i, (forall n, nrow (f n) = nrow n) -> rows (hupd h i f) = rows h.
Proof. intros. apply map_upd_keep. auto. Qed.
Lemma rows_app : forall h n, rows (h ++ [n]) = rows h ++ [nrow n].
Proof. intros. apply map_app. Qed.
Lemma rows_child : forall h p n, rows (add_child h p n) = rows h ++ [nrow n].
Proof. intros. unfold add_child. rewrite rows_keep by reflexivity. rewrite rows_app. reflexivity. Qed.
Lemma nth_hget : forall h i n, nth_error h i = Some n -> hget h i = n.
Proof. intros h i n H. unfold hget. apply nth_error_nth. exact H. Qed.
Lemma rows_flip : forall ck h, (forall i, ck = Some i -> textual (ty h i)) -> rows (flip ck h) = rows h.
Proof.
  intros [i|] h K; [|reflexivity]. cbn. apply map_upd_keep. intros n Hn. specialize (K i eq_refl). unfold ty in K.
  rewrite (nth_hget _ _ _ Hn) in K. unfold nrow. destruct n as [? [] ? ? ? ? ? ? ? ? ?]; cbn in *; destruct K as [K|K]; try discriminate K; reflexivity.
Qed.
Lemma rows_length : forall h, length (rows h) = length h.
Proof. intro. apply map_length. Qed.
(** The last node is changed. *)
Lemma upd_last_app : forall f h n, hupd (h ++ [n]) (length h) f = h ++ [f n].
Proof. intros f. induction h as [|x h IH]; intro n; [reflexivity|]. change (hupd ((x :: h) ++ [n]) (length (x :: h)) f) with (x :: hupd (h ++ [n]) (length h) f). rewrite IH. reflexivity. Qed.
Lemma rows_last : forall h f R r r', rows h = R ++ [r] -> (forall n, nrow n = r -> nrow (f n) = r') -> rows (hupd h (length R) f) = R ++ [r'].
Proof.
  intros h f R r r' E K. destruct (exists_last (l := h)) as [h0 [n ->]]; [intros ->; destruct R; discriminate|].
  rewrite rows_app in E. apply app_inj_tail in E. destruct E as [<- E]. rewrite rows_length, upd_last_app, rows_app, (K n E). reflexivity.
Qed.

Lemma rows_at : forall h f R r r' R2, rows h = R ++ r :: R2 -> (forall n, nrow n = r -> nrow (f n) = r') -> rows (hupd h (length R) f) = R ++ r' :: R2.
Proof.
  induction h as [|n h IH]; intros f R r r' R2 E K; [destruct R; discriminate|]. destruct R as [|x R]; cbn [length app] in *; injection E as E1 E2.
  - change (hupd (n :: h) 0 f) with (f n :: h). cbn [rows map]. rewrite (K n E1). f_equal. exact E2.
  - change (hupd (n :: h) (S (length R)) f) with (n :: hupd h (length R) f). cbn [rows map]. f_equal; [exact E1|]. eapply IH; eauto.
Qed.
Ltac lens := rewrite ?app_length; cbn [length]; rewrite ?app_length; cbn [length]; rewrite ?app_length;
  repeat match goal with |- context[length (str ?x)] => let n := eval vm_compute in (length (str x)) in change (length (str x)) with n end; lia.

Lemma rows_opened : forall opts u p t, sok opts u -> p < length (d_heap u) ->
  rows (opened u p t) = rows (d_heap u) ++ [nrow (node_new t (d_mem_position u))].
Proof.
  intros opts u p t S L. unfold opened. rewrite rows_flip; [apply rows_child|].
  intros i E. pose proof (s_check _ _ S i E) as T. rewrite ty_add_child by exact L.
  pose proof (textual_lt _ _ T). destruct (Nat.eqb_spec i (length (d_heap u))); [lia|exact T].
Qed.
Lemma rows_meta : forall h i m, rows (set_meta h i m) = rows h.
Proof. intros. apply rows_keep. reflexivity. Qed.
Lemma chain_lt : forall opts u p rest, sok opts u -> d_chain_nodes u = p :: rest -> p < length (d_heap u).
Proof. intros opts u p rest S E. eapply chain_ok_in; [apply (s_chain _ _ S)|]. rewrite E. left. reflexivity. Qed.

Lemma rows_closed : forall opts u tag rest nm pos, sok opts u -> closes u nm = Some (tag, rest) ->
  rows (closed_heap u tag nm pos) = rows (d_heap u) ++ [mkRow NTagEnd (Some nm) (d_mem_position u) (pos + 1)].
Proof.
  intros opts u tag rest nm pos S C. unfold closed_heap. cbv zeta. set (n := if auto_fix_unclosed_tag _ then _ else _).
  assert (En : nrow n = mkRow NTagEnd None (d_mem_position u) (d_mem_position u)) by (unfold n; destruct (auto_fix_unclosed_tag _); reflexivity).
  assert (It : tag < length (d_heap u)).
  { unfold closes in C. destruct (d_chain_nodes u) as [|a [|b c]] eqn:Ec; try discriminate. destruct (n_meta (get_node u a)); [|discriminate].
    destruct (same_name (m_name t) (trim_right nm)); [|discriminate]. injection C as -> <-. eapply chain_lt; eauto. }
  set (h1 := hupd (d_heap u ++ [n]) tag (nset_end_tag (Some (length (d_heap u))))).
  assert (R1 : rows h1 = rows (d_heap u) ++ [nrow n]) by (unfold h1; rewrite rows_keep by reflexivity; apply rows_app).
  match goal with |- rows (hupd (hupd ?x _ _) _ _) = _ => assert (R2 : rows x = rows (d_heap u) ++ [nrow n]) end.
  { match goal with |- rows (if ?b then _ else _) = _ => destruct b end; [exact R1|]. rewrite rows_flip; [exact R1|].
    intros i E. pose proof (s_check _ _ S i E) as T. pose proof (textual_lt _ _ T). unfold ty, h1 in *.
    rewrite (hupd_keep n_type), hget_app_old by (try reflexivity; assumption). exact T. }
  rewrite En in R2. rewrite <- (rows_length (d_heap u)).
  eapply rows_last.
  - eapply rows_last; [exact R2|]. intros m Hm. instantiate (1 := mkRow NTagEnd None (d_mem_position u) (pos + 1)).
    unfold nrow in *. injection Hm as A B C1 D. destruct m as [? [] ? ? ? ? ? ? ? ? ?]; cbn in *; try discriminate A; subst; reflexivity.
  - intros m Hm. unfold nrow in *. injection Hm as A B C1 D. cbn. rewrite A, C1, D. reflexivity.
Qed.

Lemma cm_len : forall m b, cm_end m b = true -> exists c, b = c ++ [m; m].
Proof. intros m b H. apply cm_end_iff in H. destruct H as [c [_ ->]]. eauto. Qed.
Lemma firstn_two : forall (c : list char) a b, firstn (length (c ++ [a; b]) - 2) (c ++ [a; b]) = c.
Proof. intros. rewrite app_length. cbn [length]. replace (length c + 2 - 2) with (length c) by lia. rewrite firstn_app, Nat.sub_diag, firstn_all. cbn. apply app_nil_r. Qed.

Lemma rows_body : forall opts u p rest t x pos, sok opts u -> d_chain_nodes u = p :: rest -> kind t = t -> t <> NText ->
  rows (hupd (hupd (opened u p t) (length (d_heap u)) (nset_content (Some x))) (length (d_heap u)) (end_info pos)) =
  rows (d_heap u) ++ [mkRow t (Some x) (d_mem_position u) (pos + 1)].
Proof.
  intros opts u p rest t x pos S E Kt Nt. rewrite <- (rows_length (d_heap u)). eapply rows_last.
  - eapply rows_last; [apply (rows_opened opts); eauto using chain_lt|]. intros m Hm.
    instantiate (1 := mkRow t (Some x) (d_mem_position u) (d_mem_position u)). unfold nrow in *. injection Hm as A B C D. cbn. rewrite A, C, D.
    cbn. rewrite Kt. reflexivity.
  - intros m Hm. unfold nrow in *. injection Hm as A B C D. unfold end_info. destruct m as [? ty0 ? ? ? ? ? ? ? ? ?]; cbn in *.
    subst. f_equal. destruct ty0; cbn in *; try reflexivity; congruence.
Qed.

(** ** One token *)
Lemma takes_place : forall opts u t st, bstep u t st -> is_U u -> sok opts u -> replays u -> strict opts ->
  d_position u = d_mem_position u + 1 ->
  (exists k, takes opts u t k st /\ rows (d_heap st) = rows (d_heap u) ++ place k (d_mem_position u) (60%N :: t)) \/ popping (d_heap st).
Proof.
  intros opts u t st B U S R St Mp. pose proof St as [St1 St2].
  assert (Fin : forall k, (exists st', takes opts u t k st') -> rows (d_heap st) = rows (d_heap u) ++ place k (d_mem_position u) (60%N :: t) ->
    exists k, takes opts u t k st /\ rows (d_heap st) = rows (d_heap u) ++ place k (d_mem_position u) (60%N :: t)).
  { intros k [st' T] E. exists k. split; [|exact E]. rewrite (bstep_det u t st st' R B); [exact T|]. apply T. }
  destruct B; try (exfalso; solve [apply (U_not_W _ U); assumption|apply (U_not_T _ U); assumption]);
    try (rewrite (s_opts _ _ S) in *; congruence); try rewrite (s_opts _ _ S) in *; try congruence.
  - left. eapply Fin; [eapply takes_open; eauto; [unfold void_name; rewrite <- is_void_spec|unfold raw_name; rewrite <- is_content_spec]; assumption|].
    cbn [W_of d_heap]. rewrite rows_meta, (rows_opened opts) by eauto using chain_lt. reflexivity.
  - left. eapply Fin; [eapply takes_void; eauto; unfold void_name; rewrite <- is_void_spec; assumption|].
    cbn [W_of d_heap]. rewrite rows_meta, (rows_opened opts) by eauto using chain_lt. reflexivity.
  - left. eapply Fin; [eapply takes_self; eauto|].
    cbn [W_of d_heap]. rewrite rows_meta, (rows_opened opts) by eauto using chain_lt. reflexivity.
  - left. assert (Eb : ends_in_end_tag (case_sensitive_tagname opts) n b) by (apply raw_end_spec; auto).
    destruct Eb as [body [nm [w [Eb [Ww Nf]]]]]. subst src b.
    pose proof (proj1 (name_fits_iff _ _ _) Nf) as Ft.
    eapply Fin; [eapply takes_raw; eauto|].
    + unfold raw_name. rewrite <- is_content_spec. assumption.
    + pose proof (trim_fits _ n nm [] w H0 Ft Ww) as X. cbn [app] in X. rewrite X. exact Nf.
    + apply (proj1 (open_first _ _ _ (fun q => raw_end_spec opts n q H0))). auto.
    + destruct (raw_split opts n _ body nm w H0 eq_refl Ww Ft) as [Hk1 Hk2]. fold k in Hk1, Hk2.
      cbn [W_of d_heap]. rewrite Hk1, Hk2, <- (rows_length (d_heap u)). cbn [place].
      replace (d_position u + length (n ++ a ++ str ">" ++ (body ++ str "</" ++ nm ++ w) ++ str ">")) with
        (d_mem_position u + length (60%N :: n ++ a ++ str ">" ++ (body ++ str "</" ++ nm ++ w) ++ str ">")) by (rewrite Mp, <- Nat.add_assoc; reflexivity).
      eapply rows_at; [rewrite rows_app, rows_meta, (rows_opened opts), <- app_assoc by eauto using chain_lt; reflexivity|].
      intros m Hm. unfold nrow in *. injection Hm as A B C D. cbn. rewrite A, C, D. reflexivity.
  - left. eapply Fin; [eapply takes_close; eauto|].
    cbn [W_of d_heap]. erewrite rows_closed by eauto. cbn [place]. f_equal. f_equal. f_equal. lens.
  - left. subst src. destruct (proj1 (cm_end_iff _ _) H2) as [c [Nc ->]]. 
    eapply Fin; [eapply takes_comment; eauto; apply (proj1 (open_first _ _ _ (cm_end_spec 45%N))); auto|].
    cbn [W_of d_heap]. erewrite rows_body, firstn_two by (eauto; discriminate). cbn [place]. f_equal. f_equal. f_equal. lens.
  - left. subst src. destruct (proj1 (cm_end_iff _ _) H4) as [c [Nc ->]]. 
    eapply Fin; [eapply takes_cdata; eauto; apply (proj1 (open_first _ _ _ (cm_end_spec 93%N))); auto|].
    cbn [W_of d_heap]. erewrite rows_body, firstn_two by (eauto; discriminate). cbn [place]. f_equal. f_equal. f_equal. lens.
  - subst src t'. destruct (ta_slash t) eqn:Sl; [right|left].
    + exists (length (d_heap u)), (ta_meta n true (ta_close t)).
      cbn [W_of d_heap]. rewrite ty_set_meta. unfold set_meta. rewrite hget_hupd_same by (rewrite opened_length; lia).
      unfold ty. rewrite (hget_opened_new _ _ _ _ _ S H0). repeat split.
    + eapply Fin; [eapply takes_doctype; eauto|].
      cbn [W_of d_heap]. rewrite rows_meta, (rows_opened opts) by eauto using chain_lt. reflexivity.
Qed.

(** ** All tokens *)
Lemma words_app : forall a b, words (a ++ b) = words a ++ words b.
Proof. intros. apply flat_map_app. Qed.
Lemma places_app : forall l off l', places off (l ++ l') = places off l ++ places (off + length (words l)) l'.
Proof.
  induction l as [|[k w] l IH]; intros off l'; cbn [app places words flat_map snd].
  - rewrite Nat.add_0_r. reflexivity.
  - rewrite IH, <- app_assoc. fold (words l). rewrite app_length, Nat.add_assoc. reflexivity.
Qed.
Lemma places_one : forall l k w, places 0 (l ++ [(k, w)]) = places 0 l ++ place k (length (words l)) w.
Proof. intros. rewrite places_app. cbn [places]. rewrite app_nil_r. reflexivity. Qed.

Definition root_row (e : nat) : row := mkRow NAbstractRoot None 0 e.
Definition wr (opts : parse_options) (p : token * list char) : Prop := written opts (fst p) (snd p).
Record mreads (opts : parse_options) (s0 : list char) (st : doc) (l : list (token * list char)) (P : list pframe) : Prop := mkMr {
  m_words : words l = s0;
  m_wr : Forall (wr opts) l;
  m_src : source opts (map fst l) s0;
  m_toks : map fst l = ftoks P;
  m_nest : nest_all opts (map fst l) (mkNest [] None) = Some (nst st P)
}.
Definition mapped (opts : parse_options) (s : list char) (st : doc) : Prop :=
  (is_W st /\ exists l f frs, mreads opts s st l (sh (f :: frs)) /\ simW st f frs /\ last_text (map fst l) = false /\
     rows (d_heap st) = root_row 0 :: places 0 l) \/
  (is_T st /\ exists l s0 f frs, mreads opts s0 st l (sh (f :: frs)) /\ simT st f frs /\ last_text (map fst l) = false /\
     s = s0 ++ d_prev_chars st /\ d_prev_chars st <> [] /\ ~ In 60%N (d_prev_chars st) /\
     d_current_node st = length (root_row 0 :: places 0 l) /\
     rows (d_heap st) = (root_row 0 :: places 0 l) ++ [mkRow NText None (length s0) (length s0)]) \/
  (is_U st /\ exists l s0 f frs, mreads opts s0 st l (sh (f :: frs)) /\ simU st f frs /\
     s = s0 ++ [60%N] /\ rows (d_heap st) = root_row 0 :: places 0 l).

Lemma mreads_snoc : forall opts s st st' l P k w, mreads opts s st l P -> framed P -> written opts k w ->
  (last_text (map fst l) = true -> is_ktext k = false) ->
  nest opts k (nst st P) = Some (nst st' (Shape.grow k P)) -> mreads opts (s ++ w) st' (l ++ [(k, w)]) (Shape.grow k P).
Proof.
  intros opts s st st' l P k w [M1 M2 M3 M4 M5] F W Lt N. constructor.
  - rewrite words_app, M1. cbn. rewrite app_nil_r. reflexivity.
  - apply Forall_app. split; [exact M2|]. constructor; [exact W|constructor].
  - rewrite map_app. apply source_snoc; auto.
  - rewrite map_app, M4. symmetry. eapply DocSound.ftoks_grow; [exact F|exact N].
  - rewrite map_app, nest_all_app, M5. cbn [nest_all map]. cbn [fst]. rewrite N. reflexivity.
Qed.
Lemma mreads_st : forall opts s st st' l P, mreads opts s st l P -> d_in_special st' = d_in_special st -> mreads opts s st' l P.
Proof. intros opts s st st' l P [M1 M2 M3 M4 M5] E. constructor; auto. rewrite M5. unfold nst. rewrite E. reflexivity. Qed.

Lemma text_rows : forall (s0 c : list char) h pos R, n_type (hget h (length R)) = NText -> pos = length s0 + length c ->
  rows h = R ++ [mkRow NText None (length s0) (length s0)] ->
  rows (hupd (hupd h (length R) (nset_content (Some c))) (length R) (end_info pos)) = R ++ place (KText c) (length s0) c.
Proof.
  intros s0 c h pos R T E Rh. destruct (exists_last (l := h)) as [h0 [n ->]]; [intros ->; destruct R; discriminate|].
  rewrite rows_app in Rh. apply app_inj_tail in Rh. destruct Rh as [<- E1]. rewrite rows_length in *. rewrite hget_app_new in T.
  rewrite !upd_last_app, rows_app. f_equal. unfold nrow in E1. injection E1 as A B C D. unfold nrow, end_info. cbn. rewrite T, C, E. reflexivity.
Qed.
Lemma text_rows_end : forall (s0 c : list char) h st R, n_type (hget h (length R)) = NText -> d_position st = length s0 + length c -> d_prev_chars st = c ->
  rows h = R ++ [mkRow NText None (length s0) (length s0)] ->
  rows (hupd h (length R) (text_done st)) = R ++ place (KText c) (length s0) c.
Proof.
  intros s0 c h st R T E Ec Rh. destruct (exists_last (l := h)) as [h0 [n ->]]; [intros ->; destruct R; discriminate|].
  rewrite rows_app in Rh. apply app_inj_tail in Rh. destruct Rh as [<- E1]. rewrite rows_length in *. rewrite hget_app_new in T.
  rewrite !upd_last_app, rows_app. f_equal. unfold nrow in E1. injection E1 as A B C D. unfold nrow, text_done. destruct (d_repeat_whitespace st); cbn; rewrite ?T, C, Ec, E; reflexivity.
Qed.

Lemma mapped_all : forall opts s st, bsteps (doc_new opts) s st -> strict opts -> ~ popping (d_heap st) -> mapped opts s st.
Proof.
  intros opts s st B St. remember (doc_new opts) as st0 eqn:E.
  induction B as [st|st s st' t st'' B IH Bs]; intro Ns.
  - subst st. left. split; [apply init_W|]. exists [], (mkFr None []), [].
    split; [constructor; constructor|]. split; [apply init_sim|]. split; reflexivity.
  - specialize (IH E). subst st. pose proof (bsteps_sok _ _ _ B) as S. destruct (reach _ _ _ B) as [_ Rp].
    pose proof (bsteps_pos0 _ _ _ B) as Ps.
    assert (Ns' : ~ popping (d_heap st')).
    { intro X. apply Ns. eapply popping_fr; [eapply bstep_fr; eauto|exact X]. }
    specialize (IH Ns'). destruct IH as [[W R]|[[Ti R]|[U R]]].
    + destruct R as [l [f [frs [M [Si [Lt Rw]]]]]].
      destruct Bs; try (exfalso; solve [destruct W as [X _]; match goal with H : is_T _ |- _ => destruct H as [Y _] | H : is_U _ |- _ => destruct H as [Y _] end; congruence]).
      * right. right. split; [repeat split|]. exists l, s, f, frs.
        split; [eapply mreads_st; [exact M|reflexivity]|]. split; [eapply sim_wait_lt; eauto|]. split; [reflexivity|exact Rw].
      * exfalso. rewrite (s_opts _ _ S) in *. destruct St. congruence.
      * right. left. split; [repeat split|]. exists l, s, f, frs. cbn [d_prev_chars d_heap d_current_node].
        split; [eapply mreads_st; [exact M|reflexivity]|].
        split; [eapply sim_text_start with (p := p) (rest := rest); eauto; reflexivity|]. split; [exact Lt|].
        split; [reflexivity|]. split; [discriminate|]. split; [intros [X|[]]; apply H0; exact X|].
        split; [rewrite <- Rw, rows_length; reflexivity|]. rewrite rows_child, Rw, Ps. reflexivity.
    + destruct R as [l [s0 [f [frs [M [Si [Lt [-> [Nn [Nl [Cu Rw]]]]]]]]]]].
      destruct Bs; try (exfalso; solve [destruct Ti as [X _]; match goal with H : is_W _ |- _ => destruct H as [Y _] | H : is_U _ |- _ => destruct H as [Y _] end; congruence]).
      * right. left. split; [repeat split|]. exists l, s0, f, frs. cbn [d_prev_chars d_heap d_current_node].
        split; [eapply mreads_st; [exact M|reflexivity]|].
        split; [eapply sim_text_char; eauto; reflexivity|]. split; [exact Lt|].
        split; [symmetry; apply app_assoc|]. split; [destruct (d_prev_chars st); discriminate|].
        split; [intro X; apply in_app_or in X; destruct X as [X|[X|[]]]; [exact (Nl X)|apply H0; exact X]|].
        split; [exact Cu|exact Rw].
      * right. right. split; [repeat split|]. pose proof (text_sim _ _ _ Si) as Si2.
        eexists (l ++ [(KText (d_prev_chars st), d_prev_chars st)]), _, _, frs.
        split; [|split; [exact Si2|split; [reflexivity|]]].
        -- rewrite text_shape. eapply mreads_snoc; [exact M|eapply framed_sh, (t_opens _ _ _ Si)|apply w_text; assumption|rewrite Lt; discriminate|].
           cbn. reflexivity.
        -- cbn [d_heap]. rewrite places_one, (m_words _ _ _ _ _ M), app_comm_cons, Cu.
           apply text_rows; [|rewrite Ps, app_length; reflexivity|exact Rw]. rewrite <- Cu. exact (s_text _ _ S Ti).
    + destruct R as [l [s0 [f [frs [M [Si [-> Rw]]]]]]].
      destruct (bsteps_U _ _ _ B U) as [s1 [E1 Mp]]. apply app_inj_tail in E1. destruct E1 as [<- _].
      destruct (takes_place opts st' t st'' Bs U S Rp St) as [[k [T Rk]]|X]; [rewrite Ps, Mp, app_length; reflexivity| |exfalso; exact (Ns X)].
      destruct T as [_ [W [Wr [Kt T]]]]. destruct (T f frs Si) as [f' [frs' [Si' [Sh Nk]]]].
      left. split; [exact W|]. exists (l ++ [(k, 60%N :: t)]), f', frs'. rewrite <- app_assoc. cbn [app].
      split; [|split; [exact Si'|split]].
      * rewrite Sh in *. eapply mreads_snoc; [exact M|eapply framed_sh, (u_opens _ _ _ Si)|exact Wr|intros; exact Kt|exact Nk].
      * rewrite map_app. apply written_last, Kt.
      * rewrite places_one, (m_words _ _ _ _ _ M), Rk, Rw, Mp. reflexivity.
Qed.

(** ** The tree *)
Lemma nodes_unfold : forall t, nodes t = t :: flat_map nodes (child_list t) ++ match t_end_tag t with Some e => nodes e | None => [] end.
Proof. intros [i ty b e et c ks m]. unfold child_list. cbn. destruct ks, et; reflexivity. Qed.

(** The nodes of the tree are those of the heap, in increasing order. *)
Definition listed (h : list node) (a b : nat) (l : list tree) (L : list nid) : Prop :=
  map row_of l = map (fun i => nrow (hget h i)) L /\ StronglySorted lt L /\ Forall (fun i => a <= i < b) L.
Lemma listed_app : forall h a b c l L l' L', listed h a b l L -> listed h b c l' L' -> a <= b -> b <= c -> listed h a c (l ++ l') (L ++ L').
Proof.
  intros h a b c l L l' L' [A1 [A2 A3]] [B1 [B2 B3]] Ha Hb. split; [|split].
  - rewrite !map_app, A1, B1. reflexivity.
  - clear A1 B1. induction L as [|x L IH]; [exact B2|]. inversion A2; subst. inversion A3; subst. cbn. constructor; [auto|].
    apply Forall_app. split; [assumption|]. eapply Forall_impl; [|exact B3]. cbn. intros. lia.
  - apply Forall_app. split; [eapply Forall_impl; [|exact A3]|eapply Forall_impl; [|exact B3]]; cbn; intros; lia.
Qed.
Lemma listed_cons : forall h a b t i l L, listed h (S i) b l L -> row_of t = nrow (hget h i) -> a <= i < b -> listed h a b (t :: l) (i :: L).
Proof.
  intros h a b t i l L [A1 [A2 A3]] R Ha. split; [|split].
  - cbn. rewrite R, A1. reflexivity.
  - constructor; [exact A2|]. eapply Forall_impl; [|exact A3]. cbn. intros. lia.
  - constructor; [exact Ha|]. eapply Forall_impl; [|exact A3]. cbn. intros. lia.
Qed.
Lemma listed_nil : forall h a b, listed h a b [] [].
Proof. intros. split; [reflexivity|]. split; constructor. Qed.
Lemma listed_mono : forall h a b c l L, listed h a b l L -> b <= c -> listed h a c l L.
Proof. intros h a b c l L [A1 [A2 A3]] Hc. split; [exact A1|]. split; [exact A2|]. eapply Forall_impl; [|exact A3]. cbn. intros. lia. Qed.

(** Nothing is put into an element that has its end tag. *)
Record iv (h : list node) (ch : list nid) : Prop := mkIv {
  iv_open : forall i j p, n_end_tag (hget h i) = Some j -> In p ch -> i <= p < j -> False;
  iv_kids : forall i j p k, n_end_tag (hget h i) = Some j -> i <= p < j -> In k (kids h p) -> k < j;
  iv_end : forall i j p q, n_end_tag (hget h i) = Some j -> i < p < j -> n_end_tag (hget h p) = Some q -> q < j
}.
Lemma end_none_out : forall h i, length h <= i -> n_end_tag (hget h i) = None.
Proof. intros. rewrite hget_default by assumption. reflexivity. Qed.
Lemma iv_add : forall opts h h' ck p ch ch', hs opts h -> iv h ch -> (forall q, In q ch -> q < length h) -> In p ch -> ev ck None (Some p) None h h' ->
  (forall q, length h <= q -> kids h' q = [] /\ forall j, n_end_tag (hget h' q) = Some j -> q = length h /\ j = S q) ->
  (forall q, In q ch' -> In q ch \/ (q = length h /\ n_end_tag (hget h' q) = None)) -> iv h' ch'.
Proof.
  intros opts h h' ck p ch ch' H [I1 I2 I3] Lc Ip E N C.
  assert (Old : forall i j, n_end_tag (hget h' i) = Some j -> (i < length h /\ j < length h /\ n_end_tag (hget h i) = Some j) \/ (i = length h /\ j = S i)).
  { intros i j X. destruct (Nat.lt_ge_cases i (length h)) as [L|L].
    - left. rewrite (ev_end _ _ _ _ _ _ E i L) in X by discriminate. split; [exact L|]. split; [|exact X]. pose proof (hs_end _ _ H _ _ X). lia.
    - right. destruct (N i L) as [_ Y]. destruct (Y j X) as [A B]. auto. }
  constructor.
  - intros i j q X Iq Hq. destruct (Old _ _ X) as [[Li [Lj X']]|[-> ->]].
    + destruct (C q Iq) as [Y|[-> _]]; [eapply I1; eauto|lia].
    + assert (q = length h) by lia. subst q. destruct (C _ Iq) as [Y|[_ Y]]; [|congruence]. specialize (Lc _ Y). lia.
  - intros i j q k X Hq Ik. destruct (Old _ _ X) as [[Li [Lj X']]|[-> ->]].
    + unfold kids in Ik. rewrite (ev_childs _ _ _ _ _ _ E q) in Ik; [|lia|].
      * eapply I2; eauto.
      * intros [= ->]. eapply I1; eauto.
    + assert (q = length h) by lia. subst q. destruct (N (length h) (le_n _)) as [Y _]. rewrite Y in Ik. destruct Ik.
  - intros i j q r X Hq Y. destruct (Old _ _ X) as [[Li [Lj X']]|[-> ->]]; [|lia].
    destruct (Old _ _ Y) as [[Lq [Lr Y']]|[-> ->]]; [|lia]. eapply I3; eauto.
Qed.
Lemma iv_close : forall opts h h' ck tag rest, hs opts h -> iv h (tag :: rest) -> chain_ok h (tag :: rest) (length h) -> ev ck None None (Some tag) h h' ->
  (forall i, n_end_tag (hget h' i) = if Nat.eqb i tag then Some (length h) else n_end_tag (hget h i)) -> kids h' (length h) = [] -> iv h' rest.
Proof.
  intros opts h h' ck tag rest H [I1 I2 I3] Ch E N K.
  assert (Lt : forall q, In q rest -> q < tag) by (intros q Iq; cbn in Ch; eapply chain_ok_in; [apply Ch|exact Iq]).
  assert (Lg : tag < length h) by (cbn in Ch; tauto).
  assert (Kd : forall q k, q < length h -> In k (kids h' q) -> In k (kids h q)).
  { intros q k Lq. unfold kids. rewrite (ev_childs _ _ _ _ _ _ E q Lq) by discriminate. auto. }
  constructor.
  - intros i j q X Iq Hq. rewrite N in X. destruct (Nat.eqb_spec i tag) as [->|Ni].
    + specialize (Lt q Iq). lia.
    + eapply I1; [exact X|right; exact Iq|exact Hq].
  - intros i j q k X Hq Ik. rewrite N in X. destruct (Nat.eqb_spec i tag) as [->|Ni].
    + injection X as <-. apply Kd in Ik; [|lia]. apply (hs_kids _ _ H) in Ik. lia.
    + pose proof (hs_end _ _ H _ _ X). apply Kd in Ik; [|lia]. eapply I2; eauto.
  - intros i j q r X Hq Y. rewrite N in X, Y. destruct (Nat.eqb_spec i tag) as [->|Ni].
    + injection X as <-. destruct (Nat.eqb_spec q tag); [lia|]. pose proof (hs_end _ _ H _ _ Y). lia.
    + destruct (Nat.eqb_spec q tag) as [->|Nq]; [exfalso; eapply I1; [exact X|left; reflexivity|lia]|]. eapply I3; eauto.
Qed.
Lemma iv_same : forall h h' ch ch', iv h ch -> (forall i, n_end_tag (hget h' i) = n_end_tag (hget h i)) -> (forall i, kids h' i = kids h i) ->
  (forall q, In q ch' -> In q ch) -> iv h' ch'.
Proof.
  intros h h' ch ch' [I1 I2 I3] E K C. constructor; intros *; rewrite ?E, ?K; eauto.
Qed.
Lemma iv_step : forall opts u t st, bstep u t st -> sok opts u -> strict opts -> iv (d_heap u) (d_chain_nodes u) -> iv (d_heap st) (d_chain_nodes st).
Proof.
  intros opts u t st B S [St1 St2] I. pose proof (s_hs _ _ S) as H.
  assert (Lc : forall q, In q (d_chain_nodes u) -> q < length (d_heap u)) by (intros q Hq; exact (chain_ok_in _ _ _ q (s_chain _ _ S) Hq)).
  assert (Op : forall p rest ty, d_chain_nodes u = p :: rest -> forall q, length (d_heap u) <= q ->
    kids (opened u p ty) q = [] /\ n_end_tag (hget (opened u p ty) q) = None).
  { intros p rest ty E q Lq. pose proof (chain_lt _ _ _ _ S E) as Lp. destruct (Nat.eq_dec q (length (d_heap u))) as [->|Nq].
    - unfold kids. rewrite (hget_opened_new opts u p rest ty S E). split; reflexivity.
    - unfold kids. rewrite hget_default by (rewrite opened_length; lia). split; reflexivity. }
  destruct B; try (rewrite (s_opts _ _ S) in *; congruence); cbn [W_of d_heap d_chain_nodes].
  - exact I.
  - pose proof (chain_lt _ _ _ _ S H3) as Lp. eapply iv_add; [exact H|exact I|exact Lc| |apply ev_child| |auto].
    + rewrite H3. left. reflexivity.
    + intros q Lq. unfold add_child, kids. destruct (Nat.eq_dec q (length (d_heap st))) as [->|Nq].
      * rewrite !hget_hupd_other by lia. rewrite hget_app_new. split; [reflexivity|discriminate].
      * rewrite hget_default by (rewrite hupd_length, app_length; cbn [length]; lia). split; [reflexivity|discriminate].
  - exact I.
  - eapply iv_same; [exact I| | |auto]; intro i.
    + rewrite !(hupd_keep n_end_tag) by reflexivity. reflexivity.
    + unfold kids. rewrite !(hupd_keep n_childs) by reflexivity. reflexivity.
  - eapply iv_add; [exact H|exact I|exact Lc|rewrite H3; left; reflexivity|apply (proj1 (new_set_meta opts u p rest _ _ S H3))| |].
    + intros q Lq. destruct (Op p rest NTag H3 q Lq) as [A B]. unfold kids, set_meta in *. rewrite !(hupd_keep n_childs), !(hupd_keep n_end_tag) by reflexivity.
      split; [exact A|rewrite B; discriminate].
    + intros q [<-|Hq]; [right|auto]. split; [reflexivity|]. destruct (Op p rest NTag H3 _ (le_n _)) as [_ B].
      unfold set_meta. rewrite (hupd_keep n_end_tag) by reflexivity. exact B.
  - eapply iv_add; [exact H|exact I|exact Lc|rewrite H3; left; reflexivity|apply (proj1 (new_set_meta opts u p rest _ _ S H3))| |].
    + intros q Lq. destruct (Op p rest NTag H3 q Lq) as [A B]. unfold kids, set_meta in *. rewrite !(hupd_keep n_childs), !(hupd_keep n_end_tag) by reflexivity.
      split; [exact A|rewrite B; discriminate].
    + auto.
  - eapply iv_add; [exact H|exact I|exact Lc|rewrite H3; left; reflexivity|apply (proj1 (new_set_meta opts u p rest _ _ S H3))| |].
    + intros q Lq. destruct (Op p rest NTag H3 q Lq) as [A B]. unfold kids, set_meta in *. rewrite !(hupd_keep n_childs), !(hupd_keep n_end_tag) by reflexivity.
      split; [exact A|rewrite B; discriminate].
    + auto.
  - eapply iv_add; [exact H|exact I|exact Lc|rewrite H3; left; reflexivity| | |auto].
    + apply ev_new; [|apply le_n]. apply ev_app. apply (proj1 (new_set_meta opts u p rest _ _ S H3)).
    + destruct (new_set_meta opts u p rest NTag (ta_meta n false (ta_close t)) S H3) as [_ [_ [L [K0 X]]]].
      set (h1 := set_meta (opened u p NTag) (length (d_heap u)) (ta_meta n false (ta_close t))) in *.
      intros q Lq. unfold kids in *. destruct (Nat.eq_dec q (length (d_heap u))) as [->|Nq].
      * rewrite !hget_hupd_same, !hget_app_old by (rewrite ?app_length; lia). split; [exact K0|]. intros j [= <-]. auto.
      * rewrite !hget_hupd_other by lia. destruct (Nat.eq_dec q (length h1)) as [->|Nq2].
        -- rewrite hget_app_new. split; [reflexivity|discriminate].
        -- rewrite hget_default by (rewrite app_length; cbn [length]; lia). split; [reflexivity|discriminate].
  - assert (Ec : d_chain_nodes u = tag :: rest).
    { unfold closes in H2. destruct (d_chain_nodes u) as [|a [|b c]]; try discriminate. destruct (n_meta (get_node u a)); [|discriminate].
      destruct (same_name (m_name t) (trim_right nm)); [|discriminate]. injection H2 as -> <-. reflexivity. }
    pose proof (chain_lt _ _ _ _ S Ec) as Lt.
    eapply iv_close; [exact H|rewrite <- Ec; exact I|rewrite <- Ec; apply (s_chain _ _ S)|apply ev_closed|intro i; apply et_closed; exact Lt|].
    destruct (closed_end_node u tag nm (d_position u + length (str "/" ++ nm)) Lt) as [_ [_ [_ [_ K]]]].
    { intros i X. apply textual_lt, (s_check _ _ S i X). }
    unfold kids. rewrite K. reflexivity.
  - eapply iv_add; [exact H|exact I|exact Lc|rewrite H1; left; reflexivity|apply (proj1 (new_content opts u p rest _ _ _ S H1))| |auto].
    intros q Lq. destruct (Op p rest NComment H1 q Lq) as [A B]. unfold kids in *. rewrite !(hupd_keep n_childs), !(hupd_keep n_end_tag) by reflexivity.
    split; [exact A|rewrite B; discriminate].
  - eapply iv_add; [exact H|exact I|exact Lc|rewrite H1; left; reflexivity|apply (proj1 (new_content opts u p rest _ _ _ S H1))| |auto].
    intros q Lq. destruct (Op p rest NXMLCDATA H1 q Lq) as [A B]. unfold kids in *. rewrite !(hupd_keep n_childs), !(hupd_keep n_end_tag) by reflexivity.
    split; [exact A|rewrite B; discriminate].
  - eapply iv_add; [exact H|exact I|exact Lc|rewrite H1; left; reflexivity|apply (proj1 (new_set_meta opts u p rest _ _ S H1))| |].
    + intros q Lq. destruct (Op p rest NHTMLDOCTYPE H1 q Lq) as [A B]. unfold kids, set_meta in *. rewrite !(hupd_keep n_childs), !(hupd_keep n_end_tag) by reflexivity.
      split; [exact A|rewrite B; discriminate].
    + intros q Hq. left. destruct (ta_slash t); [|exact Hq]. destruct (d_chain_nodes u); [destruct Hq|right; exact Hq].
Qed.
Lemma iv_all : forall opts s st, bsteps (doc_new opts) s st -> strict opts -> iv (d_heap st) (d_chain_nodes st).
Proof.
  intros opts s st B St. remember (doc_new opts) as st0 eqn:E. induction B as [st|st s st' t st'' B IH Bs].
  - subst st. constructor; cbn.
    + intros [|i] j p X; [discriminate|]. destruct i; discriminate.
    + intros [|i] j p k X; [discriminate|]. destruct i; discriminate.
    + intros [|i] j p q X; [discriminate|]. destruct i; discriminate.
  - specialize (IH E). subst st. eapply iv_step; eauto. apply (bsteps_sok _ _ _ B).
Qed.

(** ** The listing is tight *)
Lemma ls_tight : forall h,
  (forall b i P, ls h b i P -> forall j, i < j -> j <= length h ->
     (forall p, i <= p < j -> (forall k, In k (kids h p) -> k < j) /\ (forall q, n_end_tag (hget h p) = Some q -> q < j)) -> ls h j i P) /\
  (forall a b l Q, lss h a b l Q -> forall j, a < j -> j <= length h -> (forall k, In k l -> k < j) ->
     (forall p, a < p < j -> (forall k, In k (kids h p) -> k < j) /\ (forall q, n_end_tag (hget h p) = Some q -> q < j)) -> lss h a j l Q).
Proof.
  intro h. apply ls_both.
  - intros b i Q e Li Lb Ls IH En j Hj Hl C. constructor; [exact Hj|exact Hl| |].
    + apply IH; auto; [apply (C i); lia|]. intros p Hp. apply C. lia.
    + unfold ends in *. destruct (n_end_tag (hget h i)) as [q|] eqn:Eq; [|exact En]. destruct En as [A B]. split; [|exact B].
      destruct (C i) as [_ D]; [lia|]. specialize (D q Eq). lia.
  - intros a b j Hj Hl K C. constructor.
  - intros a b l k Q P Ls IH Lk Lp IHp j Hj Hl K C. assert (Hk : k < j) by (apply K, in_or_app; right; left; reflexivity).
    constructor; [exact Ls|exact Lk|]. apply IHp; auto. intros p Hp. apply C. lia.
Qed.

Lemma tree_row : forall f h i t, tree_of f h i = Some t -> row_of t = nrow (hget h i).
Proof.
  intros [|f] h i t H; [discriminate|]. cbn [tree_of] in H.
  destruct (match n_end_tag (hget h i) with Some e => _ | None => _ end) as [x|]; [|discriminate].
  destruct (match n_childs (hget h i) with Some l => _ | None => _ end) as [y|]; [|discriminate]. injection H as <-. reflexivity.
Qed.
Lemma lss_listed : forall f h, (forall b i P t, ls h b i P -> tree_of f h i = Some t -> exists L, listed h i b (nodes t) L) ->
  forall l a b Q ts, lss h a b l Q -> a < b -> map_opt (tree_of f h) l = Some ts -> exists L, listed h (S a) b (flat_map nodes ts) L.
Proof.
  intros f h IH l. induction l as [|k l IHl] using rev_ind; intros a b Q ts L Hab M.
  - injection M as <-. exists []. apply listed_nil.
  - destruct (lss_inv _ _ _ _ _ _ L) as [Q1 [P [-> [L1 [Hk L2]]]]]. destruct (map_opt_app _ _ _ _ M) as [u [v [-> [M1 M2]]]].
    cbn [map_opt] in M2. destruct (tree_of f h k) as [t|] eqn:Et; [|discriminate]. injection M2 as <-.
    destruct (IHl _ _ _ _ L1 Hk M1) as [A1 X1]. destruct (IH _ _ _ _ L2 Et) as [A2 X2]. destruct (ls_lt _ _ _ _ L2) as [Hb _].
    exists (A1 ++ A2). rewrite flat_map_app. cbn [flat_map]. rewrite app_nil_r. eapply listed_app; eauto; lia.
Qed.
Lemma ls_listed : forall o f h ch, hs o h -> iv h ch -> forall b i P t, ls h b i P -> tree_of f h i = Some t -> exists L, listed h i b (nodes t) L.
Proof.
  intros o f h ch H I. induction f as [|f IH]; intros b i P t L T; [discriminate|]. destruct (ls_inv _ _ _ _ L) as [Q [-> [Lb [Ll [Lq He]]]]].
  pose proof (tree_row _ _ _ _ T) as Rt. 
  rewrite nodes_unfold. cbn [tree_of] in T. unfold ends_at, ends in He.
  assert (Ck : forall b' , i < b' -> lss h i b' (kids h i) Q -> forall y, match n_childs (hget h i) with Some l => match map_opt (tree_of f h) l with Some l' => Some (Some l') | None => None end | None => Some None end = Some y ->
     exists L, listed h (S i) b' (flat_map nodes (match y with Some l => l | None => [] end)) L).
  { intros b' Hb Ls y E. unfold kids in Ls. destruct (n_childs (hget h i)) as [l|].
    - destruct (map_opt (tree_of f h) l) as [ts|] eqn:Em; [|discriminate]. injection E as <-. eapply lss_listed; eauto.
    - injection E as <-. exists []. apply listed_nil. }
  destruct (n_end_tag (hget h i)) as [j|] eqn:Ej.
  - destruct He as [Hj [_ Tj]]. destruct (tree_of f h j) as [te|] eqn:Te; [|discriminate].
    destruct (match n_childs (hget h i) with Some l => _ | None => _ end) as [y|] eqn:Ey; [|discriminate]. injection T as <-.
    cbn [child_list t_childs t_end_tag]. unfold child_list. cbn [t_childs].
    assert (Ls' : lss h i j (kids h i) Q).
    { apply (proj2 (ls_tight h) _ _ _ _ Lq); [lia|lia| |].
      - intros k Hk. eapply (iv_kids _ _ I); [exact Ej| |exact Hk]. lia.
      - intros p Hp. split; [intros k Hk; eapply (iv_kids _ _ I); [exact Ej| |exact Hk]; lia|]. intros q Hq. eapply (iv_end _ _ I); eauto. }
    destruct (Ck j ltac:(lia) Ls' y eq_refl) as [A X].
    assert (Ne : nodes te = [te]).
    { destruct (tree_inv2 _ _ _ _ Te) as [f' [_ [_ [_ [C1 [C2 _]]]]]]. rewrite nodes_unfold. unfold child_list. rewrite C1, C2; [reflexivity| |].
      - destruct (n_end_tag (hget h j)) as [q|] eqn:Eq; [|reflexivity]. apply (hs_end _ _ H) in Eq. unfold ty in Eq. destruct Eq as [_ [_ [_ Eq]]]. congruence.
      - destruct (n_childs (hget h j)) as [l|] eqn:El; [|reflexivity]. pose proof (hs_some _ _ H _ _ El) as Nl. destruct l as [|k l]; [congruence|].
        destruct (hs_kids _ _ H j k) as [_ [_ X2]]; [unfold kids; rewrite El; left; reflexivity|]. unfold ty in X2. rewrite Tj in X2. destruct X2; congruence. }
    rewrite Ne. exists (i :: A ++ [j]). apply listed_cons; [|exact Rt|lia].
    eapply listed_app; [exact X| |lia|lia]. apply listed_cons; [apply listed_nil|eapply tree_row; exact Te|lia].
  - destruct (match n_childs (hget h i) with Some l => _ | None => _ end) as [y|] eqn:Ey; [|discriminate]. injection T as <-.
    unfold child_list. cbn [t_childs t_end_tag]. rewrite app_nil_r.
    destruct (Ck b Lb Lq y eq_refl) as [A X]. exists (i :: A). apply listed_cons; [exact X|exact Rt|lia].
Qed.

(** ** Counting *)
Definition width (k : token) : nat := match k with KRaw _ _ _ _ => 2 | _ => 1 end.
Definition widths (ks : list token) : nat := list_sum (map width ks).
Lemma widths_app : forall a b, widths (a ++ b) = widths a + widths b.
Proof. intros. unfold widths. rewrite map_app, list_sum_app. reflexivity. Qed.
Lemma places_width : forall l off, length (places off l) = widths (map fst l).
Proof.
  induction l as [|[k w] l IH]; intro off; [reflexivity|]. cbn [places map fst]. rewrite app_length, IH. unfold widths. cbn [map list_sum fold_right].
  destruct k; reflexivity.
Qed.
Lemma end_count : forall e t, end_is e t -> match t_end_tag t with Some x => length (nodes x) | None => 0 end = 1.
Proof.
  intros e t [te [E [_ [_ [A [_ B]]]]]]. rewrite E, nodes_unfold. unfold child_list. rewrite A, B. reflexivity.
Qed.
Lemma count_list : forall f ts, Forall2 depicts f ts -> Forall (fun x => forall t, depicts x t -> length (nodes t) = widths (tokens x)) f ->
  length (flat_map nodes ts) = widths (flat_map tokens f).
Proof.
  intros f ts F. induction F as [|x t f ts D F IH]; intro A; [reflexivity|]. inversion A; subst. cbn [flat_map].
  rewrite app_length, widths_app, IH by assumption. f_equal. auto.
Qed.
Lemma depicts_count : forall x t, depicts x t -> length (nodes t) = widths (tokens x).
Proof.
  intro x. induction x as [c b|c|c|n a|n a s|n a c e|n a ks e IH] using item_ind2; intros t D; rewrite nodes_unfold; cbn [length]; rewrite app_length;
    inversion D; subst.
  1-3: match goal with H : plain_node _ |- _ => destruct H as [A [_ B]] end; unfold child_list; rewrite A, B; reflexivity.
  1-2: unfold child_list; repeat match goal with H : t_end_tag _ = None |- _ => rewrite H | H : t_childs _ = None |- _ => rewrite H end; reflexivity.
  - unfold child_list. match goal with H : t_childs _ = None |- _ => rewrite H end. match goal with H : end_is _ _ |- _ => apply end_count in H; rename H into Q end. destruct (t_end_tag t); [|discriminate].
    cbn. rewrite Q. reflexivity.
  - match goal with H : end_is _ _ |- _ => apply end_count in H end. match goal with H : Forall2 depicts _ _ |- _ => rewrite (count_list _ _ H IH) end.
    cbn [tokens]. change (KOpen n a :: flat_map tokens ks ++ [KClose e]) with ([KOpen n a] ++ flat_map tokens ks ++ [KClose e]).
    rewrite !widths_app. cbn [widths map width list_sum fold_right]. destruct (t_end_tag t); [|discriminate]. unfold widths in *. cbn. lia.
Qed.
Lemma sorted_seq : forall n L a, StronglySorted lt L -> Forall (fun i => a <= i < a + n) L -> length L = n -> L = seq a n.
Proof.
  induction n as [|n IH]; intros L a So F E; [destruct L; [reflexivity|discriminate]|]. destruct L as [|x L]; [discriminate|].
  inversion So as [|? ? S1 S2]; subst. inversion F as [|? ? F1 F2]; subst. cbn in E. injection E as E.
  assert (F3 : Forall (fun i => S a <= i < S a + n) L).
  { apply Forall_forall. intros i Hi. pose proof (proj1 (Forall_forall _ _) S2 i Hi). pose proof (proj1 (Forall_forall _ _) F2 i Hi). cbn in *. lia. }
  rewrite (IH L (S a) S1 F3 E) in *. cbn [seq]. f_equal. destruct n as [|n]; [lia|].
  cbn [seq] in S2. inversion S2 as [|? ? G _]; subst. lia.
Qed.
Lemma map_seq_hget : forall {B} (g : node -> B) h, map (fun i => g (hget h i)) (seq 0 (length h)) = map g h.
Proof.
  intros B g h. induction h as [|n h IH] using rev_ind; [reflexivity|]. rewrite app_length, seq_app, !map_app. cbn [length seq map Nat.add].
  rewrite hget_app_new. f_equal. rewrite <- IH. apply map_ext_in. intros i Hi. apply in_seq in Hi. rewrite hget_app_old by lia. reflexivity.
Qed.

(** ** The whole document *)
Theorem source_map : forall opts s d, parse opts s = Parsed d -> no_repair opts -> open_doctypes d ->
  exists l f t, words l = s /\ Forall (wr opts) l /\ source opts (map fst l) s /\ nests opts (map fst l) /\ map fst l = flat_map tokens f /\
    marked f /\ doc_content d f /\ doc_tree d = Some t /\
    map row_of (nodes t) = mkRow NAbstractRoot None 0 (length s) :: places 0 l.
Proof.
  intros opts s d P [N1 [N2 N3]] Ns.
  assert (Pr : parse_res opts s = ROk d) by (unfold parse, outcome_of in P; destruct (parse_res opts s); inversion P; subst; reflexivity).
  destruct (accepted _ _ _ Pr) as [s1 [s2 [st1 [st [Es [B [R [D He]]]]]]]].
  destruct D as [[-> [-> D]]|[Af _]]; [|congruence]. rewrite app_nil_r in Es. subst s1.
  pose proof (bsteps_sok _ _ _ B) as So. pose proof (bsteps_pos0 _ _ _ B) as Ps.
  assert (Sx : strict opts) by (split; assumption).
  assert (Np : ~ popping (d_heap st1)).
  { intro X. apply (proj1 (open_doctypes_spec _) Ns).
    eapply final_popping; [apply sok_ending; [exact So|exact D]|apply finish; [apply sok_ending; [exact So|exact D]|exact He]|exact X]. }
  assert (Ch : length (d_chain_nodes st1) <= 1).
  { destruct (eof_inv _ _ He) as [[X|X] _]; [exact X|]. rewrite (s_opts _ _ So) in X. congruence. }
  pose proof (iv_all _ _ _ B Sx) as Iv.
  destruct (parsed_hs _ _ _ P) as [Hh Hr]. destruct (eof_inv _ _ He) as [_ [_ [Eh _]]].
  assert (C0 : tl (rev (d_chain_nodes st1)) = []) by (destruct (d_chain_nodes st1) as [|a [|b c]]; [reflexivity|reflexivity|cbn in Ch; lia]).
  unfold fin_heap in Eh. rewrite C0 in Eh. cbn [fix_heap fold_left] in Eh. rewrite (s_root _ _ So) in Eh.
  (* the rows of the final heap *)
  assert (Main : exists l Pf, bnd st1 Pf /\ mreads opts s st1 l Pf /\ rows (d_heap d) = root_row (length s) :: places 0 l).
  { destruct (mapped_all _ _ _ B Sx Np) as [[W X]|[[T X]|[U _]]].
    - destruct X as [l [f [frs [M [Si [Lt Rw]]]]]]. exists l, (sh (f :: frs)). split; [left; eauto|]. split; [exact M|].
      rewrite Eh. destruct W as [_ [W _]]. replace (match d_code_in st1 with CTextNode => _ | _ => d_heap st1 end) with (d_heap st1) by (destruct W as [-> | ->]; reflexivity).
      apply (rows_at _ _ [] _ _ _ Rw). intros m Hm. unfold nrow, root_row in *. injection Hm as A B1 C E. cbn. rewrite A, B1, C, Ps. reflexivity.
    - destruct X as [l [s0 [f [frs [M [Si [Lt [E [Nn [Nl [Cu Rw]]]]]]]]]]].
      exists (l ++ [(KText (d_prev_chars st1), d_prev_chars st1)]), (Shape.grow (KText (d_prev_chars st1)) (sh (f :: frs))).
      split; [right; eauto|]. split.
      + rewrite E. eapply mreads_snoc; [exact M|eapply framed_sh, (t_opens _ _ _ Si)|apply w_text; assumption|rewrite Lt; discriminate|]. reflexivity.
      + rewrite Eh, (proj1 (proj2 T)).
        assert (X : rows (hupd (d_heap st1) (d_current_node st1) (text_done st1)) =
          (root_row 0 :: places 0 l) ++ place (KText (d_prev_chars st1)) (length s0) (d_prev_chars st1)).
        { rewrite Cu. apply text_rows_end; [|rewrite Ps, E, app_length; reflexivity|reflexivity|exact Rw].
          rewrite <- Cu. exact (s_text _ _ So T). }
        rewrite places_one, (m_words _ _ _ _ _ M).
        apply (rows_at _ _ [] _ _ _ X). intros m Hm. unfold nrow, root_row in *. injection Hm as A B1 C E1. cbn. rewrite A, B1, C, Ps. reflexivity.
    - exfalso. destruct D as [X|X]; [exact (U_not_W _ U X)|exact (U_not_T _ U X)]. }
  destruct Main as [l [Pf [Bn [M Rw]]]].
  destruct (bnd_single _ _ Bn Ch) as [L ->].
  destruct (final_core _ _ _ _ _ B Bn He) as [f [Pl [Mk Dc]]].
  assert (Ek : flat_map tokens f = ftoks [(None, L)]) by (cbn [ftoks head_toks app]; rewrite <- Pl, tokens_list_plain; reflexivity).
  destruct Dc as [t [Et Dt]]. exists l, f, t. destruct M as [M1 M2 M3 M4 M5].
  split; [exact M1|]. split; [exact M2|]. split; [exact M3|]. split; [eexists; rewrite M5; reflexivity|]. split; [congruence|].
  split; [exact Mk|]. split; [exists t; auto|]. split; [exact Et|].
  (* the nodes of the tree are those of the heap *)
  destruct (reached_view _ _ _ B) as [vl [vz V]]. destruct (end_WT _ _ _ _ _ B D V) as [E1 E2 E3 _].
  pose proof (end_ls _ _ _ _ E1 E2 E3 He) as Ls.
  assert (Iv' : iv (d_heap d) (d_chain_nodes st1)).
  { rewrite Eh. eapply iv_same; [exact Iv| | |auto]; intro i.
    - rewrite (hupd_keep n_end_tag) by reflexivity. destruct (d_code_in st1); try reflexivity. apply (hupd_keep n_end_tag).
      intro n. unfold text_done. destruct (d_repeat_whitespace st1); reflexivity.
    - unfold kids. rewrite (hupd_keep n_childs) by reflexivity. destruct (d_code_in st1); try reflexivity. rewrite (hupd_keep n_childs); [reflexivity|].
      intro n. unfold text_done. destruct (d_repeat_whitespace st1); reflexivity. }
  unfold doc_tree in Et. rewrite Hr in Et.
  destruct (ls_listed _ _ _ _ Hh Iv' _ _ _ _ Ls Et) as [I [L1 [L2 L3]]].
  assert (Len : length I = length (d_heap d)).
  { assert (X : length (nodes t) = length I) by (rewrite <- (map_length row_of), L1, map_length; reflexivity).
    rewrite <- X, <- (rows_length (d_heap d)), Rw, nodes_unfold. cbn [length]. rewrite places_width, M4, <- Ek.
    destruct Dt as [_ [_ [Q1 [_ Q2]]]]. rewrite Q1, app_nil_r. f_equal. apply count_list; [exact Q2|]. apply Forall_forall. intros x _. apply depicts_count. }
  rewrite L1, (sorted_seq (length (d_heap d)) I 0 L2), map_seq_hget; [exact Rw| |exact Len].
  eapply Forall_impl; [|exact L3]. cbn. intros. lia.
Qed.

(** ** What lies between the two positions of a node *)
Lemma places_in : forall l off r, In r (places off l) ->
  exists l1 k w l2, l = l1 ++ (k, w) :: l2 /\ In r (place k (off + length (words l1)) w).
Proof.
  induction l as [|[k w] l IH]; intros off r H; [destruct H|]. cbn [places] in H. apply in_app_or in H. destruct H as [H|H].
  - exists [], k, w, l. split; [reflexivity|]. cbn. rewrite Nat.add_0_r. exact H.
  - destruct (IH _ _ H) as [l1 [k' [w' [l2 [-> X]]]]]. exists ((k, w) :: l1), k', w', l2. split; [reflexivity|].
    cbn [words flat_map snd]. fold (words l1). rewrite app_length, Nat.add_assoc. exact X.
Qed.
Lemma slice_at : forall a w b, slice (a ++ w ++ b) (length a) (length a + length w) = w.
Proof.
  intros. unfold slice. replace (length a + length w - length a) with (length w) by lia.
  rewrite skipn_app, skipn_all, Nat.sub_diag. cbn [skipn app]. rewrite firstn_app, Nat.sub_diag, firstn_all. cbn. apply app_nil_r.
Qed.
Theorem node_slices : forall opts s d t x, parse opts s = Parsed d -> no_repair opts -> open_doctypes d -> doc_tree d = Some t ->
  In x (nodes t) -> lies s x.
Proof.
  intros opts s d t x P N O E I. destruct (source_map _ _ _ P N O) as [l [f [t' [Wl [Fw [_ [_ [_ [_ [_ [E' R]]]]]]]]]]].
  assert (t' = t) by congruence. subst t'.
  assert (Ir : In (row_of x) (mkRow NAbstractRoot None 0 (length s) :: places 0 l)) by (rewrite <- R; apply in_map; exact I).
  unfold lies. destruct Ir as [Ir|Ir].
  - unfold row_of in Ir. injection Ir as A B C D. destruct (t_type x); cbn in *; try discriminate A. rewrite <- C, <- D.
    unfold slice. rewrite Nat.sub_0_r. cbn [skipn]. apply firstn_all.
  - destruct (places_in _ _ _ Ir) as [l1 [k [w [l2 [El X]]]]]. cbn [Nat.add] in X.
    rewrite El in Fw, Wl. apply Forall_app in Fw. destruct Fw as [_ Fw]. inversion Fw as [|? ? Wr _]; subst. unfold wr in Wr. cbn [fst snd] in Wr.
    rewrite words_app. cbn [words flat_map snd]. fold (words l2). set (a := words l1) in *. set (b := words l2) in *.
    assert (Sl : slice (a ++ w ++ b) (length a) (length a + length w) = w) by apply slice_at.
    destruct Wr; cbn [place In] in X; unfold row_of in X.
    all: repeat match type of X with _ \/ _ => destruct X as [X|X] | False => destruct X end.
    all: injection X as A B C D; symmetry in A, B, C, D.
    all: destruct (t_type x); cbn [kind] in A; try discriminate A.
    all: rewrite ?B, ?C, ?D, ?Sl; auto.
    all: try (split; [reflexivity|]; eexists a, _; split; [|reflexivity]; rewrite <- ?app_assoc; reflexivity).
    + eexists. split; [reflexivity|exact Sl].
    + exists kw, c. split; [reflexivity|]. split; [assumption|exact Sl].
    + exists e. split; [reflexivity|]. right. split; [reflexivity|].
      exists (a ++ str "<" ++ n ++ a0 ++ str ">" ++ c), b. rewrite <- !app_assoc. split; [reflexivity|].
      rewrite (app_length a). reflexivity.
    + exists e. split; [reflexivity|]. left. exact Sl.
Qed.
