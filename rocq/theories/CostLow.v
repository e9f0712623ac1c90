(** Inputs on which the repairs do quadratic work; documents of any depth; freeing. *)
From Coq Require Import String Lia.
From Verif Require Import Api ErrorText Cost SpecCost SpecText SpecParse SpecDoc HeapLemmas SpecTree Big Struct StructEnd Final DocFacts DocTree Mono CostProofs CostWork.
Local Open Scope string_scope.
Local Open Scope list_scope.

Lemma w_run_app : forall src a st st' s, run st a = ROk st' -> w_run src st (a ++ s) = w_run src st a + w_run src st' s.
Proof.
  intros src. induction a as [|c a IH]; intros st st' s R; cbn [run app w_run] in *.
  - injection R as ->. reflexivity.
  - destruct (next st c) as [s1| |]; cbn [rbind] in R; try discriminate. rewrite (IH _ _ _ R). lia.
Qed.
Lemma run_app2 : forall a st s, run st (a ++ s) = do st' <- run st a; run st' s.
Proof.
  induction a as [|c a IH]; intros st s; [reflexivity|]. cbn [run app]. destruct (next st c); cbn [rbind]; [apply IH|reflexivity|reflexivity].
Qed.
Lemma times_S : forall n s, times (S n) s = s ++ times n s. Proof. reflexivity. Qed.
Lemma w_run_first : forall src st c s, w_next st c <= w_run src st (c :: s).
Proof. intros. cbn [w_run]. lia. Qed.

(** ** A text with many stray '<' *)
Definition TS (o : parse_options) (pos mp : nat) (mk : char) (ck : option nid) (h : list node) (p : list char) : doc :=
  mkDoc CTextNode pos mp None p mk [0] 1 None false ck HText o 0 [] h.
Definition US (o : parse_options) (pos mp : nat) (mk : char) (ck : option nid) (h : list node) : doc :=
  mkDoc CUnkownTag pos mp None [] mk [0] 1 None false ck HUnkownTag o 0 [] h.
Definition texty (h : list node) : Prop := n_type (hget h 1) = NText /\ 2 <= length h.
Lemma lt_round : forall o pos mp mk ck h p, auto_fix_unescaped_lt o = true -> texty h ->
  exists h' ck', texty h' /\
    run (TS o pos mp mk ck h p) (str "<1") = ROk (TS o (pos + 1 + 1) pos mk ck' h' (p ++ str "&lt;1")) /\
    forall src, length p <= w_run src (TS o pos mp mk ck h p) (str "<1").
Proof.
  intros o pos mp mk ck h p L [T1 T2].
  set (h1 := hupd (hupd h 1 (nset_content (Some p))) 1 (fun n => nset_end_at (if node_type_eqb (n_type n) NText then pos else pos + 1) n)).
  assert (A : next (TS o pos mp mk ck h p) 60%N = ROk (US o (pos + 1) pos mk None h1)) by reflexivity.
  assert (G : hget h1 1 = nset_end_at pos (nset_content (Some p) (hget h 1))).
  { unfold h1. rewrite !hget_hupd_same by (rewrite ?hupd_length; lia). cbn [n_type nset_content]. rewrite T1. reflexivity. }
  assert (B : next (US o (pos + 1) pos mk None h1) 49%N = ROk (TS o (pos + 1 + 1) pos mk None (hupd h1 1 (nset_content (Some []))) (p ++ str "&lt;1"))).
  { unfold next, run_handle. cbn [d_handle US]. unfold parse_unkown_tag.
    change (is_ascii_alphabetic 49%N) with false. change (N.eqb 49%N END_SLASH_CHAR) with false. change (N.eqb 49%N EXCLAM_CHAR) with false.
    cbn [d_parse_options US]. rewrite L. cbn [negb]. unfold fix_unescaped_lt. change (cur (US o (pos + 1) pos mk None h1)) with (hget h1 1). rewrite G.
    cbn [n_type n_content nset_end_at nset_content]. rewrite T1. reflexivity. }
  exists (hupd h1 1 (nset_content (Some []))), None. split; [|split].
  - split; [|unfold h1; rewrite !hupd_length; exact T2]. rewrite hget_hupd_same by (unfold h1; rewrite !hupd_length; lia). rewrite G. exact T1.
  - change (run (TS o pos mp mk ck h p) (str "<1")) with (do s1 <- next (TS o pos mp mk ck h p) 60%N; do s2 <- next s1 49%N; ROk s2).
    rewrite A. cbn [rbind]. rewrite B. reflexivity.
  - intro src. etransitivity; [|apply w_run_first]. reflexivity.
Qed.
Lemma lt_rounds : forall n o pos mp mk ck h p, auto_fix_unescaped_lt o = true -> texty h ->
  exists pos' mp' ck' h' p', texty h' /\
    run (TS o pos mp mk ck h p) (times n (str "<1")) = ROk (TS o pos' mp' mk ck' h' p') /\
    forall src, n * length p + 2 * n * (n - 1) <= w_run src (TS o pos mp mk ck h p) (times n (str "<1")).
Proof.
  induction n as [|n IH]; intros o pos mp mk ck h p L T.
  - exists pos, mp, ck, h, p. split; [exact T|split; [reflexivity|]]. intro. cbn. lia.
  - destruct (lt_round o pos mp mk ck h p L T) as (h1 & ck1 & T1 & R1 & W1).
    destruct (IH o (pos + 1 + 1) pos mk ck1 h1 (p ++ str "&lt;1") L T1) as (pos' & mp' & ck' & h' & p' & T' & R' & W').
    exists pos', mp', ck', h', p'. split; [exact T'|]. rewrite times_S. split.
    + rewrite run_app2, R1. exact R'.
    + intro src. rewrite (w_run_app src _ _ _ _ R1). specialize (W1 src). specialize (W' src). rewrite app_length in W'. change (length (str "&lt;1")) with 5 in W'. nia.
Qed.
Theorem lt_slow : forall o n, auto_fix_unescaped_lt o = true ->
  (exists d, parse o (str "1" ++ times n (str "<1")) = Parsed d) /\ n * n <= parse_work o (str "1" ++ times n (str "<1")).
Proof.
  intros o n L.
  set (h0 := [nset_childs (Some [1]) (nset_root (Some 0) (node_new NAbstractRoot 0)); nset_root (Some 0) (nset_index 0 (nset_parent (Some 0) (node_new NText 0)))]).
  assert (R0 : run (doc_new o) (str "1") = ROk (TS o 1 0 EOF_CHAR None h0 (str "1"))).
  { unfold TS, h0. destruct o as [a b c d e f]. destruct e; reflexivity. }
  assert (T0 : texty h0) by (split; [reflexivity|cbn; lia]).
  destruct (lt_rounds n o 1 0 EOF_CHAR None h0 (str "1") L T0) as (pos' & mp' & ck' & h' & p' & T' & R' & W').
  assert (R : run (doc_new o) (str "1" ++ times n (str "<1")) = ROk (TS o pos' mp' EOF_CHAR ck' h' p')) by (rewrite run_app2, R0; exact R').
  split.
  - unfold parse, parse_res. rewrite R. eexists. reflexivity.
  - unfold parse_work. rewrite (w_run_app _ _ _ _ _ R0). specialize (W' (str "1" ++ times n (str "<1"))). change (length (str "1")) with 1 in W'. nia.
Qed.

(** ** A text with many unexpected end tags *)
Definition WS (o : parse_options) (pos mp : nat) (mk : char) (ck : option nid) (h : list node) : doc :=
  mkDoc CUnkown pos mp None [] mk [0] 1 None false ck HWait o 0 [] h.
Definition held (h : list node) (x : list char) : Prop :=
  n_type (hget h 1) = NText /\ n_content (hget h 1) = Some x /\ n_childs (hget h 0) = Some [1] /\ 2 <= length h.
Lemma drop_round : forall o pos mp mk ck h1 p, auto_fix_unexpected_endtag o = true -> auto_fix_unclosed_tag o = true ->
  n_type (hget h1 1) = NText -> n_childs (hget h1 0) = Some [1] -> 2 <= length h1 ->
  exists h', held h' p /\
    run (TS o pos mp mk ck h1 p) (str "</b>") = ROk (WS o (pos + 1 + 1 + 1 + 1) pos mk None h').
Proof.
  intros o pos mp mk ck h1 p U C T1 T3 T4.
  set (h2 := hupd (hupd h1 1 (nset_content (Some p))) 1 (fun n => nset_end_at (if node_type_eqb (n_type n) NText then pos else pos + 1) n)).
  assert (B : next (TS o pos mp mk ck h1 p) 60%N = ROk (US o (pos + 1) pos mk None h2)) by reflexivity.
  set (e := length h2). set (h3 := hupd (h2 ++ [node_new NTagEnd pos]) e (nset_prev (Some 1))).
  assert (L2 : length h2 = length h1) by (unfold h2; rewrite !hupd_length; reflexivity).
  assert (L3 : length h3 = S (length h1)) by (unfold h3; rewrite hupd_length, app_length, L2; cbn; lia).
  pose (ES := fun p l => mkDoc CTagEnd p pos None l mk [0] e None false None HTagEnd o 0 [] h3).
  assert (D : next (US o (pos + 1) pos mk None h2) 47%N = ROk (ES (pos + 1 + 1) [])).
  { unfold next, run_handle. cbn [d_handle US]. unfold parse_unkown_tag. change (is_ascii_alphabetic 47%N) with false. change (N.eqb 47%N END_SLASH_CHAR) with true.
    cbn [d_parse_options US]. rewrite C. reflexivity. }
  assert (F : next (ES (pos + 1 + 1) []) 98%N = ROk (ES (pos + 1 + 1 + 1) (str "b"))) by reflexivity.
  assert (G2 : hget h2 1 = nset_end_at pos (nset_content (Some p) (hget h1 1))).
  { unfold h2. rewrite !hget_hupd_same by (rewrite ?hupd_length; lia). cbn [n_type nset_content]. rewrite T1. reflexivity. }
  assert (G31 : hget h3 1 = hget h2 1).
  { unfold h3. rewrite hget_hupd_other by (unfold e; lia). apply hget_app_old. lia. }
  assert (G30 : hget h3 0 = hget h1 0).
  { unfold h3. rewrite hget_hupd_other by (unfold e; lia). rewrite hget_app_old by lia. unfold h2. rewrite !hget_hupd_other by lia. reflexivity. }
  assert (Ge : n_prev (hget h3 e) = Some 1).
  { unfold h3. rewrite hget_hupd_same by (rewrite app_length; unfold e; cbn; lia). reflexivity. }
  assert (Al : alive (ES (pos + 1 + 1 + 1) (str "b")) 1 = true).
  { unfold alive. cbn [d_heap ES existsb d_root]. apply Bool.orb_true_iff. left. rewrite L3. cbn [reach]. rewrite G30, T3. cbn [existsb].
    destruct (length h1); [lia|]. reflexivity. }
  assert (I : next (ES (pos + 1 + 1 + 1) (str "b")) 62%N = ROk (WS o (pos + 1 + 1 + 1 + 1) pos mk None h3)).
  { unfold next, run_handle. cbn [d_handle ES]. unfold parse_tagend. change (N.eqb 62%N TAG_END_CHAR) with true. cbv iota. cbn [d_chain_nodes ES length Nat.ltb Nat.leb rbind d_parse_options].
    rewrite U. cbn [negb]. change (cur (ES (pos + 1 + 1 + 1) (str "b"))) with (hget h3 e). rewrite Ge, Al. reflexivity. }
  exists h3. split.
  - unfold held. rewrite G31, G30, G2. repeat split; [exact T1|exact T3|lia].
  - change (run (TS o pos mp mk ck h1 p) (str "</b>")) with (do s2 <- next (TS o pos mp mk ck h1 p) 60%N; do s3 <- next s2 47%N; do s4 <- next s3 98%N; do s5 <- next s4 62%N; ROk s5).
    rewrite B. cbn [rbind]. rewrite D. cbn [rbind]. rewrite F. cbn [rbind]. rewrite I. reflexivity.
Qed.
Lemma end_round : forall o pos mp mk ck h x, auto_fix_unexpected_endtag o = true -> auto_fix_unclosed_tag o = true -> held h x ->
  exists h', held h' (x ++ str "x") /\
    run (WS o pos mp mk ck h) (str "x</b>") = ROk (WS o (pos + 1 + 1 + 1 + 1 + 1) (pos + 1) mk None h') /\
    forall src, length x <= w_run src (WS o pos mp mk ck h) (str "x</b>").
Proof.
  intros o pos mp mk ck h x U C (T1 & T2 & T3 & T4).
  set (h1 := hupd h 1 (nset_content (Some []))).
  assert (A : next (WS o pos mp mk ck h) 120%N = ROk (TS o (pos + 1) mp mk ck h1 (x ++ str "x"))).
  { unfold next, run_handle. cbn [d_handle WS]. unfold parse_wait. change (N.eqb 120%N TAG_BEGIN_CHAR) with false. cbn [d_parse_options WS].
    change (cur (WS o pos mp mk ck h)) with (hget h 1). rewrite U, T1, T2. reflexivity. }
  destruct (drop_round o (pos + 1) mp mk ck h1 (x ++ str "x") U C) as (h3 & H3 & R3).
  - unfold h1. rewrite hget_hupd_same by lia. exact T1.
  - unfold h1. rewrite hget_hupd_other by lia. exact T3.
  - unfold h1. rewrite hupd_length. exact T4.
  - exists h3. split; [exact H3|]. split.
    + change (run (WS o pos mp mk ck h) (str "x</b>")) with (do s1 <- next (WS o pos mp mk ck h) 120%N; run s1 (str "</b>")). rewrite A. exact R3.
    + intro src. etransitivity; [|apply w_run_first]. unfold w_next. cbn [d_handle WS]. unfold w_parse_wait. change (N.eqb 120%N TAG_BEGIN_CHAR) with false. cbn [d_parse_options WS].
      change (cur (WS o pos mp mk ck h)) with (hget h 1). rewrite U, T1, T2. cbn. lia.
Qed.
Lemma end_rounds : forall n o pos mp mk ck h x, auto_fix_unexpected_endtag o = true -> auto_fix_unclosed_tag o = true -> held h x ->
  exists pos' mp' ck' h' x', held h' x' /\
    run (WS o pos mp mk ck h) (times n (str "x</b>")) = ROk (WS o pos' mp' mk ck' h') /\
    forall src, 2 * n * length x + n * (n - 1) <= 2 * w_run src (WS o pos mp mk ck h) (times n (str "x</b>")).
Proof.
  induction n as [|n IH]; intros o pos mp mk ck h x U C T.
  - exists pos, mp, ck, h, x. split; [exact T|split; [reflexivity|]]. intro. cbn. lia.
  - destruct (end_round o pos mp mk ck h x U C T) as (h1 & T1 & R1 & W1).
    destruct (IH o (pos + 1 + 1 + 1 + 1 + 1) (pos + 1) mk None h1 _ U C T1) as (pos' & mp' & ck' & h' & x' & T' & R' & W').
    exists pos', mp', ck', h', x'. split; [exact T'|]. rewrite times_S. split.
    + rewrite run_app2, R1. exact R'.
    + intro src. rewrite (w_run_app src _ _ _ _ R1). specialize (W1 src). specialize (W' src). rewrite app_length in W'. change (length (str "x")) with 1 in W'. nia.
Qed.
Theorem end_slow : forall o n, auto_fix_unexpected_endtag o = true -> auto_fix_unclosed_tag o = true ->
  (exists d, parse o (times n (str "x</b>")) = Parsed d) /\ n * (n - 1) <= 2 * parse_work o (times n (str "x</b>")).
Proof.
  intros o n U C. destruct n as [|n]; [split; [eexists; reflexivity|lia]|].
  assert (R0 : exists pos mp h, run (doc_new o) (str "x</b>") = ROk (WS o pos mp EOF_CHAR None h) /\ held h (str "x")).
  { set (h0 := [nset_childs (Some [1]) (nset_root (Some 0) (node_new NAbstractRoot 0)); nset_root (Some 0) (nset_index 0 (nset_parent (Some 0) (node_new NText 0)))]).
    assert (R1 : run (doc_new o) (str "x") = ROk (TS o 1 0 EOF_CHAR None h0 (str "x"))).
    { unfold TS, h0. destruct o as [a b c d e f]. destruct e; reflexivity. }
    destruct (drop_round o 1 0 EOF_CHAR None h0 (str "x") U C eq_refl eq_refl (le_n 2)) as (h & H & R).
    do 3 eexists. split; [|exact H]. change (str "x</b>") with (str "x" ++ str "</b>"). rewrite run_app2, R1. exact R. }
  destruct R0 as (pos & mp & h & R0 & H0).
  destruct (end_rounds n o pos mp EOF_CHAR None h _ U C H0) as (pos' & mp' & ck' & h' & x' & T' & R' & W').
  assert (R : run (doc_new o) (times (S n) (str "x</b>")) = ROk (WS o pos' mp' EOF_CHAR ck' h')) by (rewrite times_S, run_app2, R0; exact R').
  split.
  - unfold parse, parse_res. rewrite R. eexists. reflexivity.
  - unfold parse_work. remember (times (S n) (str "x</b>")) as src eqn:Es. rewrite Es at 2. rewrite times_S.
    rewrite (w_run_app _ _ _ _ _ R0). specialize (W' src). change (length (str "x")) with 1 in W'. nia.
Qed.

(** ** Nothing is kept alive by a cycle *)
Theorem all_freed : forall o s d k, parse o s = Parsed d -> freed (d_heap d) k.
Proof.
  intros o s d k P. destruct (parsed_hs _ _ _ P) as [H _]. induction k as [k IH] using (well_founded_induction lt_wf).
  constructor. intros p [(l & E & I)|E]; apply IH.
  - apply (hs_kids _ _ H p k). unfold kids. rewrite E. exact I.
  - apply (hs_end _ _ H p k E).
Qed.

(** ** Depth *)
Lemma depth_eq : forall a b c d e f ks m, depth (TNode a b c d e f ks m) =
  S (Nat.max (match e with Some x => depth x | None => 0 end) (match ks with Some l => list_max (map depth l) | None => 0 end)).
Proof.
  intros. cbn [depth]. do 2 f_equal. destruct ks as [l|]; [|reflexivity].
  induction l as [|x l IH]; [reflexivity|]. cbn [map]. change (list_max (depth x :: map depth l)) with (Nat.max (depth x) (list_max (map depth l))). rewrite <- IH. reflexivity.
Qed.
Lemma depth_child : forall t x, In x (child_list t) -> depth x < depth t.
Proof.
  intros [a b c d e f ks m] x I. rewrite depth_eq. unfold child_list in I. cbn in I. destruct ks as [l|]; [|contradiction].
  assert (M : depth x <= list_max (map depth l)); [|lia].
  assert (A : Forall (fun k => k <= list_max (map depth l)) (map depth l)) by (apply list_max_le; reflexivity).
  rewrite Forall_forall in A. apply A. apply in_map. exact I.
Qed.
Lemma map_opt_in : forall {A B} (f : A -> option B) l l', map_opt f l = Some l' -> forall y, In y l' -> exists x, f x = Some y.
Proof.
  induction l as [|x l IH]; intros l' E y I; cbn in E; [injection E as <-; contradiction|].
  destruct (f x) as [b|] eqn:F; [|discriminate]. destruct (map_opt f l) as [bs|]; [|discriminate]. injection E as <-. destruct I as [<-|I]; [eauto|].
  eapply IH; eauto.
Qed.
Lemma tree_depth : forall fuel h i t, tree_of fuel h i = Some t -> depth t <= fuel.
Proof.
  induction fuel as [|fuel IH]; intros h i t E; cbn [tree_of] in E; [discriminate|].
  destruct (match n_end_tag (hget h i) with None => _ | Some _ => _ end) as [et|] eqn:Et; [|discriminate].
  destruct (match n_childs (hget h i) with None => _ | Some _ => _ end) as [ks|] eqn:Ek; [|discriminate]. injection E as <-. rewrite depth_eq.
  assert (A : match et with Some x => depth x | None => 0 end <= fuel).
  { destruct (n_end_tag (hget h i)) as [e|]; [|injection Et as <-; lia]. destruct (tree_of fuel h e) as [te|] eqn:Te; [|discriminate]. injection Et as <-. eapply IH; eauto. }
  assert (B : match ks with Some l => list_max (map depth l) | None => 0 end <= fuel).
  { destruct (n_childs (hget h i)) as [l|]; [|injection Ek as <-; lia]. destruct (map_opt _ l) as [l'|] eqn:Ml; [|discriminate]. injection Ek as <-.
    apply list_max_le. apply Forall_forall. intros k I. apply in_map_iff in I. destruct I as (y & <- & I). destruct (map_opt_in _ _ _ Ml y I) as [x X]. eapply IH; eauto. }
  lia.
Qed.
Theorem depth_bound : forall o s d t, parse o s = Parsed d -> doc_tree d = Some t -> depth t <= length s + 1.
Proof. intros o s d t P T. pose proof (parse_memory _ _ _ P) as [L _]. unfold doc_tree in T. apply tree_depth in T. lia. Qed.

Fixpoint nested (n : nat) : list item :=
  match n with O => [] | S n' => [XElem (str "a") [] (nested n') (str "a")] end.
Lemma nested_tokens : forall n ks, flat_map tokens (nested n) ++ ks = repeat (KOpen (str "a") []) n ++ repeat (KClose (str "a")) n ++ ks.
Proof.
  induction n as [|n IH]; intro ks; [reflexivity|]. cbn [nested flat_map tokens repeat app]. rewrite app_nil_r, <- !app_assoc. f_equal. rewrite IH. f_equal.
  change (KClose (str "a") :: repeat (KClose (str "a")) n ++ ks) with ((KClose (str "a") :: repeat (KClose (str "a")) n) ++ ks).
  rewrite repeat_cons, <- app_assoc. reflexivity.
Qed.
Lemma nested_close : forall o n, source o (repeat (KClose (str "a")) n) (times n (str "</a>")).
Proof.
  intros o. induction n as [|n IH]; [constructor|]. cbn [repeat]. rewrite times_S. constructor; [|exact IH|discriminate].
  apply (w_close o (str "a")). intros [E|[]]. discriminate E.
Qed.
Lemma nested_source : forall o n ks r, source o ks r -> source o (repeat (KOpen (str "a") []) n ++ ks) (times n (str "<a>") ++ r).
Proof.
  intros o n ks r S. induction n as [|n IH]; [exact S|]. cbn [repeat app]. rewrite times_S, <- app_assoc. constructor; [|exact IH|discriminate].
  apply (w_open o (str "a") [] []); try reflexivity.
  - exists 97%N, []. repeat split. constructor.
  - apply (ar_end _ _ []). constructor.
Qed.
Lemma nested_open : forall o n l ks, nest_all o (repeat (KOpen (str "a") []) n ++ ks) (mkNest l None) = nest_all o ks (mkNest (repeat (str "a") n ++ l) None).
Proof.
  intros o. induction n as [|n IH]; intros l ks; [reflexivity|]. cbn [repeat app nest_all nest open_names foreign]. change (special_elem (str "a")) with false. cbv iota.
  rewrite IH. f_equal. f_equal. change (str "a" :: repeat (str "a") n ++ l) with ((str "a" :: repeat (str "a") n) ++ l). rewrite repeat_cons, <- app_assoc. reflexivity.
Qed.
Lemma nested_nests : forall o n, nests o (repeat (KOpen (str "a") []) n ++ repeat (KClose (str "a")) n).
Proof.
  intros o n. exists None. rewrite nested_open, app_nil_r. induction n as [|n IH]; [reflexivity|]. cbn [repeat nest_all nest open_names foreign].
  assert (E : name_fits (case_sensitive_tagname o) (str "a") (trim_right (str "a")) = true) by (destruct (case_sensitive_tagname o); reflexivity).
  rewrite E. exact IH.
Qed.
Lemma nested_mark : forall n x, In x (nested n) -> forall a b, mark a b x = x.
Proof.
  induction n as [|n IH]; intros x I a b; [contradiction|]. destruct I as [<-|[]]. cbn [mark]. f_equal.
  destruct n as [|n]; [reflexivity|]. cbn [nested]. rewrite (IH _ (or_introl eq_refl)). reflexivity.
Qed.
Lemma nested_marked : forall n, marked (nested n).
Proof. intros [|n]; [reflexivity|]. unfold marked. cbn [mark_all nested]. rewrite (nested_mark (S n)); [reflexivity|left; reflexivity]. Qed.
Lemma nested_depth : forall n l, Forall2 depicts (nested n) l -> forall t, (child_list t = l -> n < depth t).
Proof.
  induction n as [|n IH]; intros l F t C. { destruct t. rewrite depth_eq. lia. }
  cbn [nested] in F. destruct l as [|x y]; [inversion F|]. assert (D : depicts (XElem (str "a") [] (nested n) (str "a")) x) by (inversion F; assumption). inversion D as [| | | | | |nm at_ ks e m t0 A1 A2 A3 A4 A5 K]; subst ks.
  specialize (IH _ K x eq_refl). assert (I : In x (child_list t)) by (rewrite C; left; reflexivity). apply depth_child in I. lia.
Qed.
Theorem deep : forall o n, exists d t, parse o (times n (str "<a>") ++ times n (str "</a>")) = Parsed d /\ doc_tree d = Some t /\ n < depth t.
Proof.
  intros o n. destruct (source_parses_all o (nested n) (times n (str "<a>") ++ times n (str "</a>"))) as (d & P & t & T & _ & _ & _ & _ & F).
  - rewrite <- (app_nil_r (flat_map tokens (nested n))), nested_tokens, app_nil_r. apply nested_source. apply nested_close.
  - rewrite <- (app_nil_r (flat_map tokens (nested n))), nested_tokens, app_nil_r. apply nested_nests.
  - apply nested_marked.
  - exists d, t. split; [exact P|split; [exact T|]]. eapply nested_depth; eauto.
Qed.
