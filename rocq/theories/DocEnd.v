(** The finished document: facts about its nodes. *)
From Coq Require Import String Sorting.Sorted.
From Verif Require Import Api SpecText SpecParse SpecTree SpecMisc NameProofs TextProofs MiscProofs HeapLemmas InvCtl Big BigSteps RawText Attrs Struct
  Frame Birth TextInv CloseInv PosInv Static StructEnd Final DocFacts.
Local Open Scope string_scope.
Local Open Scope list_scope.

Lemma parsed_res : forall opts s d, parse opts s = Parsed d -> parse_res opts s = ROk d.
Proof. intros opts s d H. unfold parse, outcome_of in H. destruct (parse_res opts s); congruence. Qed.
Lemma parsed_final : forall opts s d, parse opts s = Parsed d ->
  exists st, ending opts st /\ pre opts s st /\ finished opts st d /\ eof st = ROk d /\
   ((bsteps (doc_new opts) s st /\ (is_W st \/ is_T st)) \/ (auto_fix_unclosed_tag opts = true /\ d_code_in st = CTag)).
Proof.
  intros opts s d H. destruct (accepted_pre _ _ _ (parsed_res _ _ _ H)) as [st [_ [A [B [C [D E]]]]]]. exists st. auto.
Qed.

(** Meta data of the finished document. *)
Lemma final_meta : forall opts s st d i m', pre opts s st -> finished opts st d -> n_meta (hget (d_heap d) i) = Some m' ->
  exists m, i < length (d_heap st) /\ n_meta (hget (d_heap st) i) = Some m /\
   ((m' = m /\ (~ In i (open_at_end st))) \/ (m' = mset_auto_fix true m /\ In i (open_at_end st))).
Proof.
  intros opts s st d i m' P F M.
  destruct (Nat.lt_ge_cases i (length (d_heap st))) as [L|L].
  - destruct (in_dec Nat.eq_dec i (open_at_end st)) as [X|X].
    + destruct (n_meta (hget (d_heap st) i)) as [m|] eqn:Em.
      * exists m. split; [exact L|]. split; [reflexivity|]. right. destruct (f_open _ _ _ F i m L X Em) as [A _]. split; [congruence|exact X].
      * destruct (f_closed _ _ _ F i L (or_intror Em)) as [A _]. congruence.
    + destruct (f_closed _ _ _ F i L (or_introl X)) as [A _]. exists m'. split; [exact L|]. split; [congruence|]. left. auto.
  - destruct (Nat.lt_ge_cases i (length (d_heap d))) as [L2|L2]; [|rewrite hget_default in M by exact L2; discriminate].
    destruct (f_new _ _ _ F i (conj L L2)) as [j [m [_ [_ [_ [_ X]]]]]]. rewrite X in M. discriminate.
Qed.
Lemma final_ty : forall opts st d i t, finished opts st d -> ending opts st -> ~ textual t -> t <> NTagEnd -> t <> NAbstractRoot ->
  (ty (d_heap d) i = t <-> ty (d_heap st) i = t).
Proof.
  intros opts st d i t F E T1 T2 T3. destruct (Nat.lt_ge_cases i (length (d_heap st))) as [L|L].
  - rewrite (f_type _ _ _ F i L). destruct (Nat.eqb_spec i (d_current_node st)) as [->|]; cbn [andb]; [|tauto].
    destruct (d_code_in st) eqn:C; rewrite ?Bool.andb_false_r; try tauto. rewrite Bool.andb_true_r.
    pose proof (e_text _ _ E C) as X. destruct (d_repeat_whitespace st); [|tauto]. rewrite X.
    split; intro Y; exfalso; apply T1; rewrite <- Y; [right|left]; reflexivity.
  - split; intro X.
    + exfalso. pose proof (ty_lt _ _ _ X T3). destruct (f_new _ _ _ F i (conj L H)) as [j [m [_ [_ [_ [_ Y]]]]]].
      unfold ty in X. rewrite Y in X. apply T2. symmetry. exact X.
    + exfalso. pose proof (ty_lt _ _ _ X T3). lia.
Qed.
Lemma final_old : forall opts st d i t, finished opts st d -> ty (d_heap d) i = t -> t <> NTagEnd -> t <> NAbstractRoot ->
  i < length (d_heap st).
Proof.
  intros opts st d i t F T A B. destruct (Nat.lt_ge_cases i (length (d_heap st))) as [L|L]; [exact L|].
  pose proof (ty_lt _ _ _ T B). destruct (f_new _ _ _ F i (conj L H)) as [j [m [_ [_ [_ [_ Y]]]]]].
  unfold ty in T. rewrite Y in T. exfalso. apply A. symmetry. exact T.
Qed.

(** ** Text *)
Theorem text_content : forall opts s d i, parse opts s = Parsed d ->
  (n_type (hget (d_heap d) i) = NSpacesBetweenTag -> exists c, n_content (hget (d_heap d) i) = Some c /\ c <> [] /\ Forall is_ws c) /\
  (n_type (hget (d_heap d) i) = NText -> exists c, n_content (hget (d_heap d) i) = Some c /\ c <> []).
Proof.
  intros opts s d i H. destruct (parsed_final _ _ _ H) as [st [E [P [F [_ Sh]]]]].
  pose proof (z_tok _ _ _ P) as [T1 T2 T3 T4].
  assert (HT : d_code_in st = CTextNode -> is_T st).
  { intro C. destruct Sh as [[_ [[_ [[X|X] _]]|X]]|[_ X]]; [congruence|congruence|exact X|congruence]. }
  change (n_type (hget (d_heap d) i)) with (ty (d_heap d) i).
  assert (Key : textual (ty (d_heap d) i) ->
    (i = d_current_node st /\ is_T st /\ n_content (hget (d_heap d) i) = Some (d_prev_chars st) /\
       (ty (d_heap d) i = NSpacesBetweenTag -> d_repeat_whitespace st = true \/ has_ws (hget (d_heap st) i))) \/
    (ty (d_heap d) i = ty (d_heap st) i /\ n_content (hget (d_heap d) i) = n_content (hget (d_heap st) i) /\ (is_T st -> i <> d_current_node st))).
  { intro T. assert (L : i < length (d_heap st)) by (eapply final_old; [exact F|reflexivity| |]; destruct T as [-> | ->]; discriminate).
    rewrite (f_type _ _ _ F i L), (f_content _ _ _ F i L). destruct (Nat.eqb_spec i (d_current_node st)) as [->|N]; cbn [andb].
    - destruct (d_code_in st) eqn:C;
        try (right; rewrite Bool.andb_false_r; split; [reflexivity|]; split; [reflexivity|]; intros [_ [X _]]; congruence).
      left. rewrite Bool.andb_true_r. split; [reflexivity|]. split; [apply HT; reflexivity|]. split; [reflexivity|].
      destruct (d_repeat_whitespace st); [auto|]. intro X. right. apply T2, X.
    - right. auto. }
  split; intro T.
  - destruct (Key (or_intror T)) as [[-> [It [C R]]]|[A [B N]]].
    + destruct (T4 It) as [Q1 Q2]. destruct (R T) as [X|[c [X1 [X2 X3]]]]; [eauto|].
      (* the pending node cannot be a whitespace node already *)
      pose proof (e_text _ _ E) as Et. destruct It as [_ [It _]]. specialize (Et It).
      destruct (d_repeat_whitespace st) eqn:Rw; [exists (d_prev_chars st); auto|].
      assert (L : d_current_node st < length (d_heap st)) by apply (e_cur _ _ E).
      rewrite (f_type _ _ _ F _ L), Rw, Bool.andb_false_r in T. cbn [andb] in T. congruence.
    + rewrite A in T. destruct (T2 i T) as [c X]. exists c. rewrite B. exact X.
  - destruct (Key (or_introl T)) as [[-> [It [C R]]]|[A [B N]]].
    + destruct (T4 It) as [Q1 Q2]. eauto.
    + rewrite A in T. destruct (T1 i T) as [[X Y]|[c X]]; [exfalso; apply N; auto|]. exists c. rewrite B. exact X.
Qed.

(** ** Attributes *)
Lemma wr_attrs : forall opts s x m, wr opts s x -> n_meta x = Some m ->
  m_code_in m <> TKey /\ m_auto_fix m = false /\ map_right (m_attrs m) (m_lc_name_map m).
Proof.
  intros opts s x m W M.
  assert (G : forall dt a mk t n sc, ta_run opts dt a (ta_start mk) = Some t -> ta_meta n sc (ta_close t) = m ->
     m_code_in m <> TKey /\ m_auto_fix m = false /\ map_right (m_attrs m) (m_lc_name_map m)).
  { intros dt a mk t n sc R <-. pose proof (ta_run_good _ _ _ _ _ (good_start mk) R) as G0.
    destruct (close_attrs _ G0) as [[A _] B]. split; [exact B|]. split; [reflexivity|]. apply A, B. }
  destruct W; try congruence; (match goal with X : n_meta x = Some (ta_meta ?n ?sc (ta_close ?t)) |- _ =>
    eapply (G _ _ _ t n sc); [eassumption|congruence] end).
Qed.
Lemma un_attrs : forall opts s x m, un opts s x -> n_meta x = Some m ->
  m_auto_fix m = false /\ m_self_closed m = false /\ (m_code_in m <> TKey -> map_right (m_attrs m) (m_lc_name_map m)).
Proof.
  intros opts s x m [_ [_ [_ [s1 [n [a [_ [_ [_ [[_ X]|[_ [_ [mk [t [R X]]]]]]]]]]]]]]] M; [congruence|].
  assert (m = ta_meta n false t) by congruence. subst m. split; [reflexivity|]. split; [reflexivity|].
  pose proof (ta_run_good _ _ _ _ _ (good_start mk) R) as G0. apply (good_attrs _ G0).
Qed.

Lemma meta_pos : forall opts s st i m, pre opts s st -> n_meta (hget (d_heap st) i) = Some m -> 0 < i < length (d_heap st).
Proof.
  intros opts s st i m P M. split.
  - destruct i; [|lia]. rewrite (z_root _ _ _ P) in M. discriminate.
  - destruct (Nat.lt_ge_cases i (length (d_heap st))) as [L|L]; [exact L|]. rewrite hget_default in M by exact L. discriminate.
Qed.
Theorem attr_maps : forall opts s d i m, parse opts s = Parsed d -> n_meta (hget (d_heap d) i) = Some m ->
  (m_code_in m <> TKey -> map_right (m_attrs m) (m_lc_name_map m)) /\
  (m_code_in m = TKey -> auto_fix_unclosed_tag opts = true) /\
  (m_auto_fix m = true -> auto_fix_unclosed_tag opts = true).
Proof.
  intros opts s d i m' H M. destruct (parsed_final _ _ _ H) as [st [E [P [F [_ Sh]]]]].
  destruct (final_meta _ _ _ _ _ _ P F M) as [m [L [Em Hm]]].
  assert (X : (m_code_in m <> TKey -> map_right (m_attrs m) (m_lc_name_map m)) /\ (m_code_in m = TKey -> auto_fix_unclosed_tag opts = true) /\ m_auto_fix m = false).
  { destruct (z_src _ _ _ P i (meta_pos _ _ _ _ _ P Em)) as [W|U].
    - destruct (wr_attrs _ _ _ _ W Em) as [A [B C]]. split; [auto|]. split; [contradiction|exact B].
    - destruct (un_attrs _ _ _ _ U Em) as [A [B C]]. split; [exact C|]. split; [intros _; apply U|exact A]. }
  destruct X as [X1 [X2 X3]]. destruct Hm as [[-> N]|[-> I]].
  - split; [exact X1|]. split; [exact X2|]. congruence.
  - split; [exact X1|]. split; [exact X2|]. intros _. apply (f_auto _ _ _ F). intro X. rewrite X in I. destruct I.
Qed.

(** ** Ids *)
Lemma map_get_in : forall {V} (l : list (list char * V)) k v, map_get l k = Some v -> In (k, v) l.
Proof.
  intros V l k v. induction l as [|[k' v'] l IH]; cbn; [discriminate|]. destruct (chars_eqb k' k) eqn:E; intro X.
  - apply chars_eqb_eq in E. injection X as ->. left. congruence.
  - right. auto.
Qed.
Lemma map_get_none : forall {V} (l : list (list char * V)) k v, map_get l k = None -> ~ In (k, v) l.
Proof.
  intros V l k v. induction l as [|[k' v'] l IH]; cbn; [auto|]. destruct (chars_eqb k' k) eqn:E; [discriminate|].
  intros X [Y|Y]; [|exact (IH X Y)]. injection Y as -> ->. rewrite chars_eqb_refl in E. discriminate.
Qed.
Lemma map_get_first : forall (l : list (list char * nid)) k i j, StronglySorted (fun p q => snd q <= snd p) l ->
  map_get l k = Some i -> In (k, j) l -> j <= i.
Proof.
  intros l k i j. induction l as [|[k' v'] l IH]; cbn; [contradiction|]. intros So X Y. inversion So as [|? ? So' Fa]; subst.
  destruct (chars_eqb k' k) eqn:E.
  - injection X as ->. destruct Y as [Y|Y]; [injection Y as -> ->; lia|]. rewrite Forall_forall in Fa. apply (Fa _ Y).
  - destruct Y as [Y|Y]; [injection Y as -> ->; rewrite chars_eqb_refl in E; discriminate|]. auto.
Qed.
Lemma final_id : forall opts s st d i x, pre opts s st -> finished opts st d ->
  node_id (hget (d_heap d) i) x <-> node_id (hget (d_heap st) i) x.
Proof.
  intros opts s st d i x P F. split; intros [m [a [M [A V]]]].
  - destruct (final_meta _ _ _ _ _ _ P F M) as [m0 [L [Em Hm]]]. exists m0, a. split; [exact Em|]. split; [|exact V].
    destruct Hm as [[-> _]|[-> _]]; exact A.
  - pose proof (meta_pos _ _ _ _ _ P M) as L. destruct (in_dec Nat.eq_dec i (open_at_end st)) as [X|X].
    + destruct (f_open _ _ _ F i m (proj2 L) X M) as [B _]. exists (mset_auto_fix true m), a. auto.
    + destruct (f_closed _ _ _ F i (proj2 L) (or_introl X)) as [B _]. exists m, a. rewrite B. auto.
Qed.
Lemma meta_type : forall opts s st i m, pre opts s st -> n_meta (hget (d_heap st) i) = Some m ->
  ty (d_heap st) i = NTag \/ ty (d_heap st) i = NHTMLDOCTYPE.
Proof.
  intros opts s st i m P M. unfold ty. destruct (z_src _ _ _ P i (meta_pos _ _ _ _ _ P M)) as [W|U]; [|left; apply U].
  destruct W; auto; congruence.
Qed.
Lemma id_in_doc : forall opts s d i x, parse opts s = Parsed d -> node_id (hget (d_heap d) i) x -> in_doc (d_heap d) (d_root d) i.
Proof.
  intros opts s d i x H N. destruct (parsed_final _ _ _ H) as [st [E [P [F [_ _]]]]].
  destruct (graph_tree _ _ _ H) as [_ [_ [G _]]].
  pose proof (proj1 (final_id _ _ _ _ _ _ P F) N) as N0. destruct N0 as [m [a [M _]]]. pose proof (meta_pos _ _ _ _ _ P M) as L.
  apply G; [pose proof (f_len _ _ _ F); lia|].
  intro T. pose proof (f_type _ _ _ F i (proj2 L)) as X. unfold ty at 1 in X. rewrite T in X. destruct (_ && _)%bool; [discriminate|].
  destruct (meta_type _ _ _ _ _ P M) as [Y|Y]; congruence.
Qed.
Theorem find_id : forall opts s d x, parse opts s = Parsed d ->
  match get_element_by_id d x with
  | Some i => in_doc (d_heap d) (d_root d) i /\ node_id (hget (d_heap d) i) x /\
      forall j, node_id (hget (d_heap d) j) x -> j <> i ->
        n_begin_at (hget (d_heap d) j) < n_begin_at (hget (d_heap d) i)
  | None => forall j, ~ node_id (hget (d_heap d) j) x
  end.
Proof.
  intros opts s d x H. destruct (parsed_final _ _ _ H) as [st [E [P [F [_ _]]]]]. pose proof (z_ids _ _ _ P) as [I1 I2].
  unfold get_element_by_id. rewrite (f_ids _ _ _ F). destruct (map_get (d_id_tags st) x) as [i|] eqn:G.
  - pose proof (map_get_in _ _ _ G) as I. apply I1 in I. fold (node_id (hget (d_heap st) i) x) in I.
    pose proof (proj2 (final_id _ _ _ _ _ _ P F) I) as I'. split; [eapply id_in_doc; eauto|]. split; [exact I'|].
    intros j J N. apply (final_id _ _ _ _ _ _ P F) in J. pose proof (map_get_first _ _ _ j I2 G) as B.
    destruct I as [mi [ai [Mi _]]]. pose proof (meta_pos _ _ _ _ _ P Mi) as Li.
    assert (Bj : j <= i) by (apply B, I1; exact J). destruct J as [mj [aj [Mj _]]]. pose proof (meta_pos _ _ _ _ _ P Mj) as Lj.
    rewrite !(f_begin _ _ _ F) by lia. apply (z_order _ _ _ P); [lia|congruence|congruence].
  - intros j J. apply (final_id _ _ _ _ _ _ P F) in J. apply I1 in J. eapply map_get_none; eauto.
Qed.

(** ** Positions *)
Lemma nth_app_mid : forall {A} (a b : list A) x, nth_error (a ++ x :: b) (length a) = Some x.
Proof. intros. rewrite nth_error_app2, Nat.sub_diag by lia. reflexivity. Qed.
Lemma at_lt : forall s s1 b n, s = s1 ++ str "<" ++ b -> n = length s1 -> nth_error s n = Some TAG_BEGIN_CHAR.
Proof. intros s s1 b n -> ->. apply nth_app_mid. Qed.
Lemma wr_at : forall opts s x, wr opts s x -> ~ textual (n_type x) -> n_type x <> NTagEnd -> nth_error s (n_begin_at x) = Some TAG_BEGIN_CHAR.
Proof.
  intros opts s x W T1 T2. destruct W; try contradiction; subst s; (match goal with X : n_begin_at x = _ |- _ => rewrite X; apply nth_app_mid end).
Qed.
Lemma final_pos : forall opts s d, parse opts s = Parsed d -> let h := d_heap d in
  (forall i, i < length h -> n_begin_at (hget h i) <= n_end_at (hget h i) <= length s) /\
  (forall i j, i < j < length h -> n_begin_at (hget h i) <= n_begin_at (hget h j)).
Proof.
  intros opts s d H. destruct (parsed_final _ _ _ H) as [st [E [P [F [_ _]]]]]. cbv zeta. pose proof (z_pos _ _ _ P) as Ps.
  assert (New : forall i, length (d_heap st) <= i < length (d_heap d) -> n_begin_at (hget (d_heap d) i) = length s /\ n_end_at (hget (d_heap d) i) = length s).
  { intros i L. destruct (f_new _ _ _ F i L) as [j [m [_ [_ [_ [_ X]]]]]]. rewrite X, <- Ps. auto. }
  assert (At : forall i, i < length (d_heap d) -> n_begin_at (hget (d_heap d) i) <= n_end_at (hget (d_heap d) i) <= length s).
  { intros i L. destruct (Nat.lt_ge_cases i (length (d_heap st))) as [Li|Li].
    - rewrite (f_begin _ _ _ F i Li), (f_end_at _ _ _ F i Li). pose proof (z_at _ _ _ P i Li) as Z. destruct (_ || _)%bool; lia.
    - destruct (New i (conj Li L)) as [-> ->]. lia. }
  split; [exact At|]. intros i j L. destruct (Nat.lt_ge_cases j (length (d_heap st))) as [Lj|Lj].
  - rewrite !(f_begin _ _ _ F) by lia. apply (z_order _ _ _ P). lia.
  - destruct (New j (conj Lj (proj2 L))) as [-> _]. pose proof (At i ltac:(lia)). lia.
Qed.
Lemma sorted_nth : forall l i j (k m : nat), StronglySorted Nat.lt l -> i < j -> nth_error l i = Some k -> nth_error l j = Some m -> k < m.
Proof.
  induction l as [|x l IH]; intros i j k m S L A B; [destruct i; discriminate|]. inversion S as [|? ? S1 F]; subst.
  destruct j; [lia|]. destruct i; cbn in A, B.
  - injection A as <-. rewrite Forall_forall in F. apply F. eapply nth_error_In; eauto.
  - apply (IH i j); auto. lia.
Qed.
Theorem positions : forall opts s d, parse opts s = Parsed d ->
  let h := d_heap d in
  (forall i, i < length h -> n_begin_at (hget h i) <= n_end_at (hget h i) <= length s) /\
  (forall p x k, linked h p x k -> n_begin_at (hget h p) <= n_begin_at (hget h k)) /\
  (forall p i j k l, linked h p (LChild i) k -> linked h p (LChild j) l -> i < j ->
     n_begin_at (hget h k) <= n_begin_at (hget h l)) /\
  (forall i, i < length h -> In (n_type (hget h i)) [NTag; NComment; NHTMLDOCTYPE; NXMLCDATA] ->
     nth_error s (n_begin_at (hget h i)) = Some 60%N) /\
  (forall i, i < length h -> n_type (hget h i) = NTagEnd ->
     nth_error s (n_begin_at (hget h i)) = Some 60%N \/
     (exists k, n_begin_at (hget h i) = S k /\ nth_error s k = Some 62%N) \/
     (auto_fix_unclosed_tag opts = true /\ n_begin_at (hget h i) = length s)) /\
  n_begin_at (hget h (d_root d)) = 0 /\ n_end_at (hget h (d_root d)) = length s.
Proof.
  intros opts s d H. pose proof (final_pos _ _ _ H) as [Q1 Q2]. pose proof (parsed_hs _ _ _ H) as [HS R0].
  destruct (parsed_final _ _ _ H) as [st [E [P [F [_ Sh]]]]]. cbv zeta. pose proof (z_pos _ _ _ P) as Ps.
  split; [exact Q1|]. split; [|split; [|split; [|split; [|split]]]].
  - intros p x k L. apply Q2. eapply linked_up; eauto.
  - intros p i j k l L1 L2 Lt. apply Q2. apply linked_kids in L1, L2. split.
    + eapply sorted_nth; [apply (hs_sorted _ _ HS p)|exact Lt|exact L1|exact L2].
    + apply (hs_kids _ _ HS p). eapply nth_error_In; eauto.
  - intros i L T.
    assert (T1 : ~ textual (ty (d_heap d) i)) by (unfold textual, ty; intros [X|X]; rewrite X in T; cbn in T; intuition discriminate).
    assert (T2 : ty (d_heap d) i <> NTagEnd) by (unfold ty; intro X; rewrite X in T; cbn in T; intuition discriminate).
    assert (T3 : ty (d_heap d) i <> NAbstractRoot) by (unfold ty; intro X; rewrite X in T; cbn in T; intuition discriminate).
    assert (Li : i < length (d_heap st)) by (eapply final_old; eauto).
    assert (Ty : ty (d_heap st) i = ty (d_heap d) i) by (apply (final_ty opts st d i _ F E T1 T2 T3); reflexivity).
    assert (I0 : 0 < i). { destruct i; [|lia]. exfalso. apply T3. rewrite <- Ty. apply (hs_root _ _ (e_hs _ _ E)). }
    rewrite (f_begin _ _ _ F i Li). destruct (z_src _ _ _ P i (conj I0 Li)) as [W|U].
    + apply (wr_at _ _ _ W); fold (ty (d_heap st) i); congruence.
    + destruct U as [_ [_ [_ [s1 [n [a [Es [Eb _]]]]]]]]. rewrite Eb, Es. apply nth_app_mid.
  - intros i L T. destruct (Nat.lt_ge_cases i (length (d_heap st))) as [Li|Li].
    + rewrite (f_begin _ _ _ F i Li). assert (Ty : ty (d_heap st) i = NTagEnd).
      { pose proof (f_type _ _ _ F i Li) as X. unfold ty at 1 in X. rewrite T in X. destruct (_ && _)%bool; [discriminate|]. congruence. }
      assert (I0 : 0 < i). { destruct i; [|lia]. destruct (hs_root _ _ (e_hs _ _ E)) as [_ [X _]]. congruence. }
      unfold ty in Ty. destruct (z_src _ _ _ P i (conj I0 Li)) as [W|U]; [|destruct U as [_ [U _]]; congruence].
      destruct W; try congruence.
      * destruct H0 as [X|X]; congruence.
      * left. subst s. rewrite H1. apply nth_app_mid.
      * right. left. exists (length s1). split; [rewrite H1, app_length; cbn; lia|]. subst s. apply nth_app_mid.
    + right. right. destruct (f_new _ _ _ F i (conj Li L)) as [j [m [J [_ [_ [_ X]]]]]]. split.
      * apply (f_auto _ _ _ F). intro Y. rewrite Y in J. destruct J.
      * rewrite X, <- Ps. reflexivity.
  - rewrite R0. destruct (hs_root _ _ (e_hs _ _ E)) as [L0 _]. rewrite (f_begin _ _ _ F 0 L0).
    rewrite (z_rootat _ _ _ P). reflexivity.
  - rewrite R0. destruct (hs_root _ _ (e_hs _ _ E)) as [L0 _]. rewrite (f_end_at _ _ _ F 0 L0). exact Ps.
Qed.

(** ** Closing *)
Lemma slash_tail : forall po dt a t0 t, ta_run po dt a t0 = Some t -> ta_slash t0 = false -> ta_slash t = true ->
  exists b w, a = b ++ str "/" ++ w /\ Forall slash_filler w.
Proof.
  intros po dt a t0. induction a as [|c a IH] using rev_ind; intros t R S0 S1.
  - cbn in R. congruence.
  - rewrite ta_run_snoc in R. destruct (ta_run po dt a t0) as [t1|] eqn:R1; [|discriminate].
    destruct (ta_closes c t1); [discriminate|].
    destruct (N.eqb_spec c END_SLASH_CHAR) as [->|Nc]; [exists a, []; split; [reflexivity|constructor]|].
    assert (X : ta_slash t1 = true /\ is_ws c).
    { unfold ta_step, ta_wait_step, is_ws in *. apply N.eqb_neq in Nc. rewrite Nc in R. unfold ta_slash in S1.
      repeat match type of R with
      | context [match ta_mode t1 with _ => _ end] => destruct (ta_mode t1) eqn:?
      | context [if ?b then _ else _] => destruct b eqn:?
      end; try discriminate; injection R as <-; cbn in S1; try discriminate;
      match goal with M : ta_mode t1 = _ |- _ => rewrite ?M in S1 end; try discriminate.
      unfold ta_slash. rewrite Heqa0. auto. }
    destruct X as [X1 X2]. destruct (IH t1 eq_refl S0 X1) as [b [w [-> Fw]]]. exists b, (w ++ [c]).
    split; [rewrite <- !app_assoc; reflexivity|]. apply Forall_app. split; [exact Fw|]. constructor; [left; exact X2|constructor].
Qed.
Lemma popping_source : forall opts s st, pre opts s st -> popping (d_heap st) -> self_closed_doctype s.
Proof.
  intros opts s st P [j [m [T [M Sc]]]]. unfold ty in T.
  destruct (z_src _ _ _ P j (meta_pos _ _ _ _ _ P M)) as [W|U]; [|destruct U as [_ [U _]]; congruence].
  destruct W; try congruence.
  rewrite M in H6. injection H6 as ->. cbn [m_self_closed ta_meta] in Sc.
    destruct (slash_tail _ _ _ _ _ H3 eq_refl Sc) as [b [w [-> Fw]]]. subst s.
    exists s1, n, ([c] ++ b), w, s2. split; [rewrite <- !app_assoc; reflexivity|]. auto.
Qed.

(** How the tag with this meta data was written. *)
Lemma tag_name_open : forall opts s st i m, pre opts s st -> ty (d_heap st) i = NTag -> n_meta (hget (d_heap st) i) = Some m ->
  open_name (m_name m) /\ m_is_void m = is_void_tag (lower (m_name m)).
Proof.
  intros opts s st i m P T M. unfold ty in T.
  destruct (z_src _ _ _ P i (meta_pos _ _ _ _ _ P M)) as [W|U].
  - destruct W; try congruence; match goal with X : n_meta _ = Some (ta_meta _ _ _) |- _ => rewrite M in X; injection X as -> end; auto.
  - destruct U as [_ [_ [_ [s1 [n [a [_ [_ [O [[_ X]|[_ [_ [mk [t [_ X]]]]]]]]]]]]]]]; [congruence|].
    rewrite M in X. injection X as ->. auto.
Qed.
Lemma open_trim : forall n, open_name n -> trim_right n = n.
Proof.
  intros n O. destruct (open_last n O) as [n' [c [-> W]]]. apply trim_right_app_nonws. exact W.
Qed.
Lemma same_name_refl : forall n, same_name n n = true.
Proof. induction n as [|c n IH]; [reflexivity|]. cbn. rewrite N.eqb_refl. exact IH. Qed.

Lemma open_tag : forall opts st i, ending opts st -> In i (d_chain_nodes st) -> ty (d_heap st) i = NTag -> In i (open_at_end st).
Proof.
  intros opts st i E I T. apply (open_iff _ _ _ _ (e_hs _ _ E) (e_chain _ _ E)). split; [exact I|].
  intros ->. destruct (hs_root _ _ (e_hs _ _ E)) as [_ [X _]]. congruence.
Qed.
Lemma is_tag_ty : forall opts st d i, finished opts st d -> ending opts st -> n_type (hget (d_heap d) i) = NTag -> ty (d_heap st) i = NTag.
Proof.
  intros opts st d i F E T. apply (final_ty opts st d i NTag F E); [apply not_textual; reflexivity|discriminate|discriminate|exact T].
Qed.
Lemma open_doctypes_spec : forall d, open_doctypes d <-> ~ popping (d_heap d).
Proof.
  intro d. split.
  - intros O [i [m [T [M Sc]]]]. rewrite (O i m T M) in Sc. discriminate.
  - intros N i m T M. destruct (m_self_closed m) eqn:Sc; [|reflexivity]. destruct N. exists i, m. auto.
Qed.
Lemma final_popping : forall opts st d, ending opts st -> finished opts st d -> popping (d_heap st) -> popping (d_heap d).
Proof.
  intros opts st d E F [i [m [T [M Sc]]]].
  assert (L : i < length (d_heap st)).
  { destruct (Nat.lt_ge_cases i (length (d_heap st))) as [X|X]; [exact X|]. rewrite hget_default in M by exact X. discriminate. }
  assert (T' : ty (d_heap d) i = NHTMLDOCTYPE) by (apply (final_ty opts st d i _ F E); [apply not_textual; reflexivity|discriminate|discriminate|exact T]).
  destruct (in_dec Nat.eq_dec i (open_at_end st)) as [X|X].
  - destruct (f_open _ _ _ F i m L X M) as [M' _]. exists i, (mset_auto_fix true m). auto.
  - destruct (f_closed _ _ _ F i L (or_introl X)) as [M' _]. exists i, m. rewrite M'. auto.
Qed.
Theorem no_slash_open : forall opts s d, parse opts s = Parsed d -> ~ self_closed_doctype s -> open_doctypes d.
Proof.
  intros opts s d H N i m' T M. destruct (parsed_final _ _ _ H) as [st [E [P [F _]]]].
  destruct (final_meta _ _ _ _ _ _ P F M) as [m [L [Em Hm]]]. destruct (m_self_closed m') eqn:Sc; [|reflexivity].
  destruct N. apply (popping_source _ _ _ P). exists i, m. split; [|split; [exact Em|]].
  - apply (final_ty opts st d i _ F E); [apply not_textual; reflexivity|discriminate|discriminate|exact T].
  - destruct Hm as [[-> _]|[-> _]]; exact Sc.
Qed.
Theorem all_closed : forall opts s d i m, parse opts s = Parsed d -> open_doctypes d ->
  n_type (hget (d_heap d) i) = NTag -> n_meta (hget (d_heap d) i) = Some m ->
  m_is_void m = true \/ m_self_closed m = true \/ exists e, n_end_tag (hget (d_heap d) i) = Some e.
Proof.
  intros opts s d i m' H Nd T M. destruct (parsed_final _ _ _ H) as [st [E [P [F [_ _]]]]].
  pose proof (is_tag_ty _ _ _ _ F E T) as Ts.
  destruct (final_meta _ _ _ _ _ _ P F M) as [m [L [Em Hm]]].
  destruct (z_closed _ _ _ P) as [X|X]; [destruct (proj1 (open_doctypes_spec _) Nd); eapply final_popping; eauto|].
  destruct Hm as [[-> N]|[-> I]].
  - destruct (X i m Ts Em) as [Y|[Y|Y]].
    + destruct N. eapply open_tag; eauto.
    + right. right. destruct (f_closed _ _ _ F i L (or_introl N)) as [_ ->]. destruct (n_end_tag (hget (d_heap st) i)) as [e|]; [eauto|congruence].
    + unfold vs in Y. apply Bool.orb_true_iff in Y. tauto.
  - right. right. destruct (f_open _ _ _ F i m L I Em) as [_ [e [_ [Ee _]]]]. eauto.
Qed.
Theorem end_tag_names : forall opts s d p e, parse opts s = Parsed d -> n_end_tag (hget (d_heap d) p) = Some e ->
  n_type (hget (d_heap d) p) = NTag /\ n_type (hget (d_heap d) e) = NTagEnd /\
  exists m nm, n_meta (hget (d_heap d) p) = Some m /\ n_content (hget (d_heap d) e) = Some nm /\
    same_name (m_name m) (trim_right nm) = true /\ (case_sensitive_tagname opts = true -> trim_right nm = m_name m).
Proof.
  intros opts s d p e H Ep. destruct (parsed_hs _ _ _ H) as [HS _]. destruct (parsed_final _ _ _ H) as [st [E [P [F [_ _]]]]].
  destruct (hs_end _ _ HS p e Ep) as [Lp [Te [_ Tp]]]. split; [exact Tp|]. split; [exact Te|].
  pose proof (is_tag_ty _ _ _ _ F E Tp) as Ts.
  assert (Lp' : p < length (d_heap st)) by (apply (ty_lt _ _ _ Ts); discriminate).
  destruct (in_dec Nat.eq_dec p (open_at_end st)) as [I|I].
  - destruct (n_meta (hget (d_heap st) p)) as [m|] eqn:Em.
    + destruct (f_open _ _ _ F p m Lp' I Em) as [A [e' [_ [Ee' X]]]]. rewrite Ep in Ee'. injection Ee' as <-.
      exists (mset_auto_fix true m), (m_name m). split; [exact A|]. split; [rewrite X; reflexivity|].
      destruct (tag_name_open _ _ _ _ _ P Ts Em) as [O _]. rewrite (open_trim _ O). split; [apply same_name_refl|]. intros _. reflexivity.
    + destruct (f_closed _ _ _ F p Lp' (or_intror Em)) as [_ X]. rewrite Ep in X. symmetry in X.
      destruct (z_end _ _ _ P p e X) as [m [nm [Y _]]]. congruence.
  - destruct (f_closed _ _ _ F p Lp' (or_introl I)) as [X Y]. rewrite Ep in Y. symmetry in Y.
    destruct (z_end _ _ _ P p e Y) as [m [nm [A [B [C D]]]]]. exists m, nm. rewrite X. split; [exact A|].
    split; [|split; [exact C|intro Z; symmetry; auto]].
    destruct (hs_end _ _ (e_hs _ _ E) p e Y) as [Le [Te' _]]. rewrite (f_content _ _ _ F e) by lia.
    destruct (Nat.eqb_spec e (d_current_node st)) as [->|]; [|exact B].
    destruct (d_code_in st) eqn:Cd; cbn [andb]; try exact B. pose proof (e_text _ _ E Cd). congruence.
Qed.
Theorem leaf_tags : forall opts s d i m, parse opts s = Parsed d ->
  n_type (hget (d_heap d) i) = NTag -> n_meta (hget (d_heap d) i) = Some m ->
  ((m_is_void m = true \/ m_self_closed m = true) -> m_auto_fix m = false -> n_end_tag (hget (d_heap d) i) = None) /\
  ((m_is_void m = true \/ m_self_closed m = true \/ one_of raw_text_names (m_name m) = true) ->
    auto_fix_unescaped_lt opts = false -> n_childs (hget (d_heap d) i) = None).
Proof.
  intros opts s d i m' H T M. destruct (parsed_final _ _ _ H) as [st [E [P [F [_ _]]]]].
  pose proof (is_tag_ty _ _ _ _ F E T) as Ts. destruct (final_meta _ _ _ _ _ _ P F M) as [m [L [Em Hm]]].
  split.
  - intros V A. destruct Hm as [[-> N]|[-> I]]; [|discriminate].
    destruct (f_closed _ _ _ F i L (or_introl N)) as [_ ->]. apply (z_leafend _ _ _ P i m Ts Em).
    unfold vs. apply Bool.orb_true_iff. exact V.
  - intros V A. rewrite (f_childs _ _ _ F i L).
    assert (K : kids (d_heap st) i = []).
    { apply (z_kids _ _ _ P A i m Ts Em). unfold leaf. rewrite is_content_spec.
      assert (V' : m_is_void m = true \/ m_self_closed m = true \/ one_of raw_text_names (m_name m) = true)
        by (destruct Hm as [[-> _]|[-> _]]; exact V).
      destruct V' as [->|[->| ->]]; rewrite ?Bool.orb_true_r; reflexivity. }
    unfold kids in K. destruct (n_childs (hget (d_heap st) i)) as [l|] eqn:C; [|reflexivity]. subst l.
    exfalso. apply (hs_some _ _ (e_hs _ _ E) _ _ C). reflexivity.
Qed.
Theorem self_closed_tags : forall opts s d i m, parse opts s = Parsed d ->
  n_type (hget (d_heap d) i) = NTag -> n_meta (hget (d_heap d) i) = Some m -> m_self_closed m = true ->
  allow_self_closing opts = true \/ one_of void_names (m_name m) = true \/
  exists j mj, n_type (hget (d_heap d) j) = NTag /\ n_meta (hget (d_heap d) j) = Some mj /\ special_name (m_name mj) /\
    n_begin_at (hget (d_heap d) j) < n_begin_at (hget (d_heap d) i).
Proof.
  intros opts s d i m' H T M Sc. destruct (parsed_final _ _ _ H) as [st [E [P [F [_ _]]]]].
  pose proof (is_tag_ty _ _ _ _ F E T) as Ts. destruct (final_meta _ _ _ _ _ _ P F M) as [m [L [Em Hm]]].
  assert (Q : m_self_closed m = true /\ m_name m' = m_name m) by (destruct Hm as [[-> _]|[-> _]]; auto).
  destruct Q as [Q1 Q2]. rewrite Q2. destruct (z_self _ _ _ P i m Ts Em Q1) as [X|[X|[j [k [nm [J [A [B [mj [Mj Nm]]]]]]]]]].
  - left. exact X.
  - right. left. destruct (tag_name_open _ _ _ _ _ P Ts Em) as [_ Y]. rewrite <- is_void_spec. congruence.
  - right. right. assert (Lj : j < length (d_heap st)) by lia.
    assert (Sp : special_name nm).
    { unfold special_name. rewrite special_spec in B. destruct (same_name nm (str "svg")); [auto|].
      destruct (same_name nm (str "math")); [auto|discriminate]. }
    assert (R : exists mj', n_meta (hget (d_heap d) j) = Some mj' /\ m_name mj' = nm).
    { destruct (in_dec Nat.eq_dec j (open_at_end st)) as [I|I].
      - destruct (f_open _ _ _ F j mj Lj I Mj) as [Y _]. eexists. split; [exact Y|exact Nm].
      - destruct (f_closed _ _ _ F j Lj (or_introl I)) as [Y _]. exists mj. split; [congruence|exact Nm]. }
    destruct R as [mj' [R1 R2]]. exists j, mj'. split; [|split; [exact R1|split; [rewrite R2; exact Sp|]]].
    + apply (final_ty opts st d j NTag F E); [apply not_textual; reflexivity|discriminate|discriminate|exact A].
    + rewrite !(f_begin _ _ _ F) by lia. apply (z_order _ _ _ P); [lia|congruence|congruence].
Qed.

(** ** Meta data is there *)
Theorem tags_have_meta : forall opts s d i, parse opts s = Parsed d ->
  n_type (hget (d_heap d) i) = NTag \/ n_type (hget (d_heap d) i) = NHTMLDOCTYPE ->
  ~ (auto_fix_unclosed_tag opts = true /\ ends_in_open_name s) -> n_meta (hget (d_heap d) i) <> None.
Proof.
  intros opts s d i H T N X. destruct (parsed_final _ _ _ H) as [st [E [P [F [_ _]]]]].
  assert (Ts : ty (d_heap st) i = NTag \/ ty (d_heap st) i = NHTMLDOCTYPE).
  { destruct T as [T|T]; [left|right];
      (apply (final_ty opts st d i _ F E); [apply not_textual; reflexivity|discriminate|discriminate|exact T]). }
  assert (L : 0 < i < length (d_heap st)).
  { split; [|destruct Ts as [Ts|Ts]; apply (ty_lt _ _ _ Ts); discriminate]. destruct i; [|lia].
    destruct (hs_root _ _ (e_hs _ _ E)) as [_ [Y _]]. destruct Ts; congruence. }
  destruct (n_meta (hget (d_heap st) i)) as [m|] eqn:Em.
  - destruct (in_dec Nat.eq_dec i (open_at_end st)) as [I|I].
    + destruct (f_open _ _ _ F i m (proj2 L) I Em) as [Y _]. congruence.
    + destruct (f_closed _ _ _ F i (proj2 L) (or_introl I)) as [Y _]. congruence.
  - unfold ty in Ts. destruct (z_src _ _ _ P i L) as [W|U].
    + destruct W; try congruence.
      * destruct H0 as [Y|Y]; destruct Ts; congruence.
      * destruct Ts; congruence.
      * destruct Ts; congruence.
      * destruct Ts; congruence.
      * destruct Ts; congruence.
    + destruct U as [Au [_ [_ [s1 [n [a [Es [_ [O [[-> _]|[_ [_ [mk [t [_ Y]]]]]]]]]]]]]]]; [|congruence].
      apply N. split; [exact Au|]. exists s1, n. rewrite app_nil_r in Es. auto.
Qed.
Theorem end_spelling : forall opts s d p e m nm, parse opts s = Parsed d ->
  n_end_tag (hget (d_heap d) p) = Some e -> n_meta (hget (d_heap d) p) = Some m -> n_content (hget (d_heap d) e) = Some nm ->
  if case_sensitive_tagname opts then trim_right nm = m_name m else same_name (m_name m) (trim_right nm) = true.
Proof.
  intros opts s d p e m nm H E M C. destruct (end_tag_names _ _ _ _ _ H E) as [_ [_ [m' [nm' [A [B [D F]]]]]]].
  rewrite M in A. rewrite C in B. injection A as ->. injection B as ->. destruct (case_sensitive_tagname opts); auto.
Qed.
