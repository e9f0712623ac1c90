(** Sizes of the renderings of parsed documents. *)
From Coq Require Import String.
From Verif Require Import Api SpecText SpecRender SpecParse SpecMisc SpecTree SpecDoc SpecShown SpecCost SpecSize Cost RenderCost RenderProofs CostProofs CostWork Struct StructEnd SizeProofs DocSound Print Shown ShownDoc.
Local Open Scope string_scope.
Local Open Scope list_scope.

(** ** The nodes of a subtree are different nodes of the heap *)
Fixpoint ids (fuel : nat) (h : list node) (i : nid) : list nid :=
  match fuel with
  | O => []
  | S fuel' =>
      i :: (match n_childs (hget h i) with Some l => flat_map (ids fuel' h) l | None => [] end)
      ++ match n_end_tag (hget h i) with Some e => [e] | None => [] end
  end.
Lemma path_app : forall h a u b v c, path h a u b -> path h b v c -> path h a (u ++ v) c.
Proof.
  intros h a u b v c P Q. induction Q as [|v p x k Q IH L]; [rewrite app_nil_r; exact P|]. rewrite app_assoc. eapply path_step; eauto.
Qed.
Lemma path_one : forall h p x k, linked h p x k -> path h p [x] k.
Proof. intros. change [x] with ([] ++ [x]). eapply path_step; [constructor|eassumption]. Qed.
Lemma ids_path : forall f h i k, In k (ids f h i) -> exists u, path h i u k.
Proof.
  induction f as [|f IH]; intros h i k I; [destruct I|]. cbn [ids] in I. destruct I as [<-|I]; [exists []; constructor|].
  apply in_app_or in I. destruct I as [I|I].
  - destruct (n_childs (hget h i)) as [l|] eqn:E; [|destruct I]. apply in_flat_map in I. destruct I as (x & X & I).
    apply IH in I. destruct I as [u P]. apply In_nth_error in X. destruct X as [j X].
    exists ([LChild j] ++ u). eapply path_app; [apply path_one; econstructor; eauto|exact P].
  - destruct (n_end_tag (hget h i)) as [e|] eqn:E; [|destruct I]. destruct I as [<-|[]]. exists [LEnd]. apply path_one. constructor. exact E.
Qed.
Lemma nodup_app : forall A (a b : list A), NoDup a -> NoDup b -> (forall x, In x a -> ~ In x b) -> NoDup (a ++ b).
Proof.
  intros A a b Na Nb D. induction Na as [|x a X Na IH]; [exact Nb|]. cbn. constructor.
  - intro I. apply in_app_or in I. destruct I as [I|I]; [contradiction|]. exact (D x (or_introl eq_refl) I).
  - apply IH. intros y Y. apply D. right. exact Y.
Qed.
Lemma ids_nodup : forall lt h, hs lt h -> forall f i w, path h 0 w i -> NoDup (ids f h i).
Proof.
  intros lt h H. induction f as [|f IH]; intros i w P; [constructor|]. cbn [ids].
  assert (Dj : forall x y k a b, linked h i x a -> linked h i y b -> (exists u, path h a u k) -> (exists u, path h b u k) -> x = y).
  { intros x y k a b La Lb [u Pa] [v Pb].
    assert (A : path h 0 ((w ++ [x]) ++ u) k) by (eapply path_app; [eapply path_step; eauto|exact Pa]).
    assert (B : path h 0 ((w ++ [y]) ++ v) k) by (eapply path_app; [eapply path_step; eauto|exact Pb]).
    pose proof (path_unique _ _ _ _ _ H A B) as E. rewrite <- !app_assoc in E. apply app_inv_head in E. cbn in E. congruence. }
  assert (Up : forall x a k, linked h i x a -> (exists u, path h a u k) -> k <> i).
  { intros x a k L [u Pa] ->. apply linked_up with (lt := lt) in L; [|exact H]. apply path_up with (lt := lt) in Pa; [|exact H]. lia. }
  constructor.
  - intro I. apply in_app_or in I. destruct I as [I|I].
    + destruct (n_childs (hget h i)) as [l|] eqn:E; [|destruct I]. apply in_flat_map in I. destruct I as (x & X & I). apply ids_path in I.
      apply In_nth_error in X. destruct X as [j X]. eapply Up; [econstructor; eauto|exact I|reflexivity].
    + destruct (n_end_tag (hget h i)) as [e|] eqn:E; [|destruct I]. destruct I as [<-|[]].
      eapply Up; [eapply linked_end; exact E|exists []; constructor|reflexivity].
  - apply nodup_app.
    + destruct (n_childs (hget h i)) as [l|] eqn:E; [|constructor].
      assert (Q : forall l1 l2, l = l1 ++ l2 -> NoDup (flat_map (ids f h) l2)).
      { intros l1 l2. revert l1. induction l2 as [|x l2 IHl]; intros l1 El; [constructor|]. cbn [flat_map].
        assert (Nx : nth_error l (length l1) = Some x) by (rewrite El, nth_error_app2, Nat.sub_diag by lia; reflexivity).
        assert (Lx : linked h i (LChild (length l1)) x) by (econstructor; eauto).
        apply nodup_app.
        - eapply IH. eapply path_step; [exact P|exact Lx].
        - apply (IHl (l1 ++ [x])). rewrite <- app_assoc. exact El.
        - intros k A B. apply ids_path in A. apply in_flat_map in B. destruct B as (y & Y & B). apply ids_path in B.
          apply In_nth_error in Y. destruct Y as [j Y].
          assert (Ly : linked h i (LChild (length l1 + S j)) y).
          { econstructor; [exact E|]. rewrite El, nth_error_app2 by lia. replace (length l1 + S j - length l1) with (S j) by lia. exact Y. }
          pose proof (Dj _ _ _ _ _ Lx Ly A B) as Z. injection Z. lia. }
      apply (Q []). reflexivity.
    + destruct (n_end_tag (hget h i)); repeat constructor. intros [].
    + intros k A B. destruct (n_childs (hget h i)) as [l|] eqn:E; [|destruct A]. apply in_flat_map in A. destruct A as (x & X & A). apply ids_path in A.
      apply In_nth_error in X. destruct X as [j X].
      destruct (n_end_tag (hget h i)) as [e|] eqn:E2; [|destruct B]. destruct B as [<-|[]].
      assert (Z : LChild j = LEnd); [|discriminate Z]. eapply Dj; [econstructor; eauto|eapply linked_end; exact E2|exact A|exists []; constructor].
Qed.
Definition nsize (n : node) : nat := size_of (n_type n) (n_content n) (n_meta n).
Lemma map_opt_sum : forall A B (f : A -> option B) (w : B -> nat) (v : A -> nat) l l', map_opt f l = Some l' ->
  (forall a b, In a l -> f a = Some b -> w b = v a) -> list_sum (map w l') = list_sum (map v l).
Proof.
  intros A B f w v l. induction l as [|a l IH]; intros l' E H; cbn in E; [injection E as <-; reflexivity|].
  destruct (f a) as [b|] eqn:Ea; [|discriminate]. destruct (map_opt f l) as [m|] eqn:Em; [|discriminate]. injection E as <-.
  cbn [map]. rewrite !list_sum_cons, (IH m eq_refl), (H a b (or_introl eq_refl) Ea); [reflexivity|]. intros x y X. apply H. right. exact X.
Qed.
Lemma sum_flat : forall A B (w : B -> nat) (g : A -> list B) l, list_sum (map w (flat_map g l)) = list_sum (map (fun a => list_sum (map w (g a))) l).
Proof. intros A B w g l. induction l as [|a l IH]; [reflexivity|]. cbn [flat_map map]. rewrite map_app, list_sum_app2, list_sum_cons, IH. reflexivity. Qed.
Lemma tree_of_node : forall f h i t, tree_of f h i = Some t -> node_size t = nsize (hget h i).
Proof.
  intros [|f] h i t E; [discriminate|]. cbn [tree_of] in E.
  destruct (match n_end_tag (hget h i) with None => _ | Some e => _ end); [|discriminate].
  destruct (match n_childs (hget h i) with None => _ | Some l => _ end); [|discriminate]. injection E as <-. reflexivity.
Qed.
Lemma tree_ids : forall f h i t, tree_of f h i = Some t ->
  tree_size t = list_sum (map (fun k => nsize (hget h k)) (ids f h i)) /\ count t = length (ids f h i).
Proof.
  induction f as [|f IH]; intros h i t E; [discriminate|]. cbn [tree_of] in E. cbn [ids].
  destruct (match n_end_tag (hget h i) with None => _ | Some e => _ end) as [et|] eqn:Ee; [|discriminate].
  destruct (match n_childs (hget h i) with None => _ | Some l => _ end) as [ks|] eqn:Ek; [|discriminate]. injection E as <-.
  rewrite tree_size_eq, count_eq. cbn [map length]. rewrite list_sum_cons, map_app, list_sum_app2, app_length.
  assert (A : match et with Some x => node_size x | None => 0 end = list_sum (map (fun k => nsize (hget h k)) match n_end_tag (hget h i) with Some e => [e] | None => [] end)
     /\ match et with Some _ => 1 | None => 0 end = length match n_end_tag (hget h i) with Some e => [e] | None => [] end).
  { destruct (n_end_tag (hget h i)) as [e|]; [|injection Ee as <-; split; reflexivity].
    destruct (tree_of f h e) as [x|] eqn:Ex; [|discriminate]. injection Ee as <-. split; [|reflexivity]. cbn [map]. rewrite list_sum_cons, (tree_of_node _ _ _ _ Ex). change (list_sum []) with 0. lia. }
  assert (B : match ks with Some l => list_size l | None => 0 end = list_sum (map (fun k => nsize (hget h k)) match n_childs (hget h i) with Some l => flat_map (ids f h) l | None => [] end)
     /\ match ks with Some l => list_count l | None => 0 end = length match n_childs (hget h i) with Some l => flat_map (ids f h) l | None => [] end).
  { destruct (n_childs (hget h i)) as [l|]; [|injection Ek as <-; split; reflexivity].
    destruct (map_opt (tree_of f h) l) as [m|] eqn:Em; [|discriminate]. injection Ek as <-. split.
    - rewrite sum_flat. unfold list_size. eapply map_opt_sum; [exact Em|]. intros a b _ X. apply (IH _ _ _ X).
    - unfold list_count. rewrite (map_opt_sum _ _ _ count (fun a => length (ids f h a)) _ _ Em); [|intros a b _ X; apply (IH _ _ _ X)].
      clear. induction l as [|x l IHl]; [reflexivity|]. cbn [map flat_map]. rewrite list_sum_cons, app_length, IHl. reflexivity. }
  destruct A as [-> ->], B as [-> ->]. change (size_of (n_type (hget h i)) (n_content (hget h i)) (n_meta (hget h i))) with (nsize (hget h i)). split; lia.
Qed.
Lemma nsize_chars : forall n, nsize n <= node_chars n + 12.
Proof.
  assert (At : forall l, attrs_size l <= list_sum (map attr_chars l)).
  { intro l. apply sum_le. intros [k v q nq] _. unfold attr_size, attr_chars, attr_build. cbn [a_key a_value a_quote a_need_quote].
    rewrite orb_true_r. destruct k, v, q; cbn [opt_length]; rewrite ?app_length; cbn [length]; rewrite ?app_length; cbn [length]; lia. }
  intro n. unfold nsize, size_of, node_chars, meta_chars. destruct (n_type n); try lia; destruct (n_meta n) as [m|]; try lia; pose proof (At (m_attrs m)); try lia.
  destruct (_ || _)%bool; lia.
Qed.
Lemma parsed_size : forall opts s d t, parse opts s = Parsed d -> tree_in d t -> tree_size t <= 22 * length s + 12 /\ count t <= length s + 1.
Proof.
  intros opts s d t P (f & i & (w & Q) & T). destruct (parsed_hs _ _ _ P) as [H R]. rewrite R in Q.
  destruct (parse_memory _ _ _ P) as [L M]. destruct (tree_ids _ _ _ _ T) as [A B].
  pose proof (ids_nodup _ _ H f i w Q) as N.
  assert (C : length (ids f (d_heap d) i) <= length (d_heap d)).
  { rewrite <- (seq_length (length (d_heap d)) 0). apply NoDup_incl_length; [exact N|]. intros k I. apply in_seq. split; [lia|]. cbn.
    apply ids_path in I. destruct I as [u U]. pose proof (path_app _ _ _ _ _ _ Q U) as Z. rewrite <- R in Z.
    destruct (graph_tree _ _ _ P) as (_ & _ & _ & X & _). eapply X. exact Z. }
  split; [|lia]. rewrite A.
  assert (D : list_sum (map (fun k => nsize (hget (d_heap d) k)) (ids f (d_heap d) i)) <= list_sum (map (fun k => node_chars (hget (d_heap d) k)) (ids f (d_heap d) i)) + 12 * length (ids f (d_heap d) i)).
  { clear. induction (ids f (d_heap d) i) as [|k l IH]; [cbn; lia|]. cbn [map length]. rewrite !list_sum_cons. pose proof (nsize_chars (hget (d_heap d) k)). lia. }
  pose proof (hsum_list node_chars (d_heap d) (ids f (d_heap d) i) eq_refl N) as S. unfold stored, hsum in *. lia.
Qed.
Theorem general_size : forall K env o opts s d t text out, growth K env o -> parse opts s = Parsed d -> tree_in d t ->
  build env o t text = ROk out -> length out <= K * (22 * length s + 12).
Proof.
  intros K env o opts s d t text out G P T E. apply (build_le _ _ _ _ _ _ G) in E. destruct (parsed_size _ _ _ _ P T) as [A _].
  etransitivity; [exact E|]. apply Nat.mul_le_mono_l. exact A.
Qed.
Theorem general_work : forall K env o opts s d t text, growth K env o -> parse opts s = Parsed d -> tree_in d t ->
  w_build env o t text <= K * (88 * length s + 48) + 18 * (length s + 1).
Proof.
  intros K env o opts s d t text G P T. pose proof (w_build_le _ _ _ G t text) as W. destruct (parsed_size _ _ _ _ P T) as [A B].
  assert (K * tree_size t <= K * (22 * length s + 12)) by (apply Nat.mul_le_mono_l; exact A).
  replace (K * (88 * length s + 48)) with (4 * (K * (22 * length s + 12))) by lia. lia.
Qed.

(** ** Strictly read documents *)
Definition close_to (s : list char) : nat := match s with c :: _ => if (is_ascii_whitespace c || N.eqb c 47)%bool then 0 else 1 | [] => 0 end.
Definition b2n (b : bool) : nat := if b then 1 else 0.
Lemma area_size : forall eq dt s l sc, SpecDoc.area eq dt s l sc ->
  2 * length (print_attrs l) + 3 * b2n sc <= 3 * length s + 2 * close_to s /\
  (dt = false -> 4 * length (print_attrs l) + 5 * b2n sc <= 5 * length s + 4 * close_to s).
Proof.
  assert (FI : forall c, slash_filler c -> (is_ascii_whitespace c || N.eqb c 47)%bool = true).
  { intros c [H|H]; [rewrite H; reflexivity|]. subst c. reflexivity. }
  assert (HW : forall w k (s : list char), filler w -> length k >= 1 -> 1 <= length w + close_to (w ++ k ++ s) \/ exists c k', w = [] /\ k = c :: k' /\ slash_filler c).
  { unfold close_to. intros [|x w] [|c k] s F L; cbn [length app] in *; try lia; try (left; lia).
    destruct (is_ascii_whitespace c || N.eqb c 47)%bool eqn:E; [right|left; lia]. exists c, k. split; [reflexivity|]. split; [reflexivity|].
    apply Bool.orb_true_iff in E. destruct E as [E|E]; [left; exact E|right; apply N.eqb_eq; exact E]. }
  assert (SF : forall r, starts_with slash_filler r -> close_to r = 0).
  { unfold close_to. intros [|c r] H; [reflexivity|]. cbn in H. rewrite (FI c H). reflexivity. }
  assert (C1 : forall r, close_to r <= 1) by (intros [|c r]; cbn; [lia|destruct (_ || _)%bool; lia]).
  assert (KY : forall eq dt k, attr_key eq dt k -> length k >= 1 /\ forall c k', k = c :: k' -> ~ slash_filler c).
  { intros eq dt k (c & k' & -> & _ & B & _). split; [cbn; lia|]. intros c2 k2 E. injection E as -> ->. intros H.
    destruct B as [(B1 & B2 & B3 & B4)|[-> _]]; [|destruct H; discriminate]. destruct H as [H|H]; [unfold not_ws in B1; unfold is_ws in H; congruence|congruence]. }
  assert (EQ : forall e, equals_sign e -> length e >= 1).
  { intros e [->|(c & w & _ & _ & ->)]; cbn; lia. }
  assert (HS : forall w, b2n (has_slash w) <= length w).
  { intros [|c w]; [cbn; lia|]. destruct (has_slash (c :: w)); cbn; lia. }
  assert (PL : forall a l, length (print_attrs (a :: l)) = 1 + length (print_attr a) + length (print_attrs l)).
  { intros a l. unfold print_attrs. cbn [flat_map]. rewrite !app_length. reflexivity. }
  intros eq dt s l sc A. induction A as [w W|w k r l sc W K AB A IH|w k e w2 W K E W2|w k e w2 v r l sc W K E W2 V SW A IH|w k e w2 q v r l sc W K E W2 Q N A IH|w q v r l sc W Dt Q N A IH].
  - specialize (HS w). cbn [print_attrs flat_map length]. lia.
  - destruct AB as [AB _]. rewrite (SF r AB) in IH. rewrite PL. cbn [bare print_attr a_key a_value].
    destruct (KY _ _ _ K) as [K1 K2]. rewrite !app_length. destruct (HW w k r W K1) as [H|(c & k' & _ & Ek & Sc)]; [|destruct (K2 _ _ Ek Sc)]. destruct IH as [I1 I2].
    split; [lia|]. intro D. specialize (I2 D). lia.
  - rewrite PL. cbn [bare print_attr a_key a_value print_attrs flat_map length]. specialize (HS w2). specialize (EQ e E).
    destruct (KY _ _ _ K) as [K1 K2]. rewrite !app_length. destruct (HW w k (e ++ w2) W K1) as [H|(c & k' & _ & Ek & Sc)]; [|destruct (K2 _ _ Ek Sc)]. split; lia.
  - assert (SW' : starts_with slash_filler r) by (destruct r; [exact I|left; exact SW]). rewrite (SF r SW') in IH.
    rewrite PL. cbn [SpecDoc.unquoted print_attr a_key a_value a_quote].
    destruct (KY _ _ _ K) as [K1 K2]. specialize (EQ e E). rewrite !app_length. change (length (str "=")) with 1. destruct (HW w k (e ++ w2 ++ v ++ r) W K1) as [H|(c & k' & _ & Ek & Sc)]; [|destruct (K2 _ _ Ek Sc)].
    destruct IH as [I1 I2]. split; [lia|]. intro D. specialize (I2 D). lia.
  - rewrite PL. cbn [quoted print_attr a_key a_value a_quote]. specialize (C1 r).
    destruct (KY _ _ _ K) as [K1 K2]. specialize (EQ e E). rewrite !app_length. change (length (str "=")) with 1. cbn [length].
    destruct (HW w k (e ++ w2 ++ [q] ++ v ++ [q] ++ r) W K1) as [H|(c & k' & _ & Ek & Sc)]; [|destruct (K2 _ _ Ek Sc)].
    destruct IH as [I1 I2]. split; [lia|]. intro D. specialize (I2 D). lia.
  - rewrite PL. cbn [keyless print_attr a_key a_value a_quote]. specialize (C1 r).
    rewrite !app_length. cbn [length]. destruct (HW w [q] (v ++ [q] ++ r) W) as [H|(c & k' & _ & Ek & Sc)]; [cbn; lia| |].
    + destruct IH as [I1 I2]. split; [lia|]. intro D. congruence.
    + injection Ek as <- _. destruct Q as [->|Q]; [destruct Sc; discriminate|subst q; destruct Sc; discriminate].
Qed.
Lemma written_size : forall opts k s, written opts k s ->
  2 * length (print_token k) <= 3 * length s /\ ((forall n l, k <> KDoctype n l) -> 4 * length (print_token k) <= 5 * length s).
Proof.
  assert (SF : forall r, starts_with slash_filler r -> close_to r = 0).
  { unfold close_to. intros [|c r] H; [reflexivity|]. cbn in H. destruct H as [H| ->]; [rewrite H; reflexivity|reflexivity]. }
  assert (C1 : forall r, close_to r <= 1) by (intros [|c r]; cbn; [lia|destruct (_ || _)%bool; lia]).
  assert (O1 : forall n, open_name n -> 1 <= length n).
  { intros [|c n] H; [|cbn; lia]. destruct H as (c & r & E & _). discriminate. }
  assert (SN : forall a b, same_name a b = true -> length a = length b).
  { induction a as [|x a IH]; intros [|y b] H; cbn in *; try discriminate; [reflexivity|]. apply andb_prop in H as [_ H]. f_equal. apply IH. exact H. }
  intros opts k s W. destruct W as [c C N|c F|kw c Kw F|n b a l Sn B A|n a l sc O S A V|n a l c e O S A R F1 F2|n a l O S A V R|e E];
    cbn [print_token]; rewrite ?app_length.
  - split; lia.
  - split; lia.
  - apply SN in Kw. change (length (str "[cdata[")) with 7 in Kw. cbn [length str]. change (length (str "<![CDATA[")) with 9. change (length (str "<!")) with 2. split; lia.
  - apply area_size in A. cbn [length b2n] in *. change (length (str ">")) with 1. change (length (str "<!")) with 2. specialize (C1 a). split; [lia|]. intro H. destruct (H n l eq_refl).
  - apply area_size in A. rewrite (SF _ S) in A. specialize (O1 n O). change (length (str ">")) with 1. change (length (str "<")) with 1.
    destruct A as [A1 A2]. specialize (A2 eq_refl). destruct sc; cbn [b2n] in *; [change (length (str " /")) with 2|change (length (@nil char)) with 0]; split; lia.
  - apply area_size in A. rewrite (SF _ S) in A. destruct A as [A1 A2]. specialize (A2 eq_refl). cbn [b2n] in *. split; lia.
  - apply area_size in A. rewrite (SF _ S) in A. destruct A as [A1 A2]. specialize (A2 eq_refl). cbn [b2n] in *. split; lia.
  - split; [|intros _]; apply Nat.mul_le_mono_r; lia.
Qed.
Lemma source_size : forall opts ks s, source opts ks s ->
  2 * length (print ks) <= 3 * length s /\ ((forall n l, ~ In (KDoctype n l) ks) -> 4 * length (print ks) <= 5 * length s).
Proof.
  intros opts ks s S. induction S as [|k s ks r W S IH _]; [cbn; split; lia|].
  unfold print in *. cbn [flat_map]. rewrite !app_length. apply written_size in W. destruct W as [W1 W2], IH as [I1 I2]. split; [lia|].
  intro H. assert (A : forall n l, k <> KDoctype n l) by (intros n l E; apply (H n l); left; exact E).
  assert (B : forall n l, ~ In (KDoctype n l) ks) by (intros n l E; apply (H n l); right; exact E). specialize (W2 A). specialize (I2 B). lia.
Qed.
Lemma full_shown : forall env f, flat_map (shown env full false) f = flat_map tokens f.
Proof.
  intros env f. rewrite shown_tokens_all by reflexivity. induction (flat_map tokens f) as [|k ks IH]; [reflexivity|]. cbn [flat_map]. rewrite IH. destruct k; reflexivity.
Qed.
Lemma full_source : forall opts s d f env u, parse opts s = Parsed d -> auto_fix_unclosed_tag opts = false -> source opts (flat_map tokens f) u -> doc_content d f ->
  render env full d = ROk (print (flat_map tokens f)).
Proof. intros opts s d f env u P A S D. rewrite (shown_source _ _ _ _ env full _ P A S D eq_refl); [|discriminate]. rewrite full_shown. reflexivity. Qed.
Theorem strict_size : forall K env o opts s d f text out, growth K env o -> parse opts s = Parsed d -> no_repair opts -> open_doctypes d -> doc_content d f ->
  render_gen env o text d = ROk out ->
  2 * length out <= 3 * K * length s /\ ((forall n l, ~ In (KDoctype n l) (flat_map tokens f)) -> 4 * length out <= 5 * K * length s).
Proof.
  intros K env o opts s d f text out G P NR SD D E. destruct (parsed_source _ _ _ P NR SD) as (f0 & S & _ & _ & D0). rewrite (content_unique _ _ _ D0 D) in S. clear f0 D0.
  pose proof (full_source _ _ _ _ env _ P (proj1 NR) S D) as F. unfold render, render_gen in *. destruct (doc_tree d) as [t|]; [|discriminate].
  pose proof (options_shorten _ _ _ _ _ _ _ G E F) as L. apply source_size in S. destruct S as [S1 S2]. split; [nia|]. intro H. specialize (S2 H). nia.
Qed.

(** ** Texts that reach the bounds *)
Lemma sharp_doctype : forall opts env n, auto_fix_unclosed_tag opts = false ->
  let s := str "<!doctype " ++ times n (str """""") ++ str ">" in
  exists d out, parse opts s = Parsed d /\ render env full d = ROk out /\ length s = 11 + 2 * n /\ length out = 10 + 3 * n.
Proof.
  intros opts env n A s. set (l := repeat (keyless [] 34%N) n).
  assert (Ar : SpecDoc.area (allow_attr_key_starts_with_equal_sign opts) true (times n (str """""")) l false).
  { unfold l, times. clear. induction n as [|n IH]; [apply (ar_end _ _ []); constructor|]. cbn [repeat concat].
    apply (ar_keyless _ _ [] 34%N []); [constructor|reflexivity|left; reflexivity|intros []|exact IH]. }
  assert (S : source opts [KDoctype (str "doctype") l] s).
  { replace s with ((str "<!" ++ str "doctype" ++ [32%N] ++ times n (str """""") ++ str ">") ++ []) by (rewrite app_nil_r; reflexivity).
    constructor; [|constructor|discriminate]. apply w_doctype; [reflexivity|reflexivity|exact Ar]. }
  destruct (source_accepted opts [KDoctype (str "doctype") l] s S) as (d & f & P & T & _ & D); [eexists; reflexivity|].
  rewrite <- T in S. pose proof (full_source _ _ _ _ env _ P A S D) as F. rewrite T in F. exists d. eexists. split; [exact P|]. split; [exact F|].
  unfold s, l, times, print. cbn [flat_map print_token]. rewrite !app_length. split.
  - assert (X : length (concat (repeat (str """""") n)) = 2 * n) by (clear; induction n as [|n IH]; [reflexivity|]; cbn [repeat concat]; rewrite app_length, IH; change (length (str """""")) with 2; lia).
    rewrite X. change (length (str "<!doctype ")) with 10. change (length (str ">")) with 1. lia.
  - assert (X : length (print_attrs (repeat (keyless [] 34%N) n)) = 3 * n) by (clear; unfold print_attrs; induction n as [|n IH]; [reflexivity|]; cbn [repeat flat_map]; rewrite app_length, IH; change (length (str " " ++ print_attr (keyless [] 34%N))) with 3; lia).
    rewrite X. change (length (str "<!")) with 2. change (length (str "doctype")) with 7. change (length (str ">")) with 1. cbn [length]. lia.
Qed.
Lemma sharp_element : forall opts env n, auto_fix_unclosed_tag opts = false ->
  let s := str "<a " ++ times n (str "b=""""") ++ str "></a>" in
  exists d out, parse opts s = Parsed d /\ render env full d = ROk out /\ length s = 8 + 4 * n /\ length out = 7 + 5 * n.
Proof.
  intros opts env n A s. set (l := repeat (quoted (str "b") [] 34%N) n).
  assert (Kb : attr_key (allow_attr_key_starts_with_equal_sign opts) false (str "b")).
  { exists 98%N, []. repeat split; try discriminate; try constructor. repeat split; discriminate. }
  assert (Ar : forall w, filler w -> has_slash w = false -> SpecDoc.area (allow_attr_key_starts_with_equal_sign opts) false (w ++ times n (str "b=""""")) l false).
  { unfold l, times. clear - Kb. induction n as [|n IH]; intros w W H.
    - cbn [repeat concat]. rewrite app_nil_r, <- H. constructor. exact W.
    - cbn [repeat concat]. change (w ++ str "b=""""" ++ ?r) with (w ++ str "b" ++ str "=" ++ [] ++ [34%N] ++ [] ++ [34%N] ++ r).
      apply ar_quoted; [exact W|exact Kb|left; reflexivity|constructor|left; reflexivity|intros []|]. apply (IH []); [constructor|reflexivity]. }
  specialize (Ar [32%N] ltac:(constructor; [left; reflexivity|constructor]) eq_refl).
  assert (S : source opts [KOpen (str "a") l; KClose (str "a")] s).
  { replace s with ((str "<" ++ str "a" ++ ([32%N] ++ times n (str "b=""""")) ++ str ">") ++ (str "</" ++ str "a" ++ str ">") ++ []) by (unfold s; rewrite app_nil_r, <- !app_assoc; reflexivity).
    constructor; [|constructor; [|constructor|discriminate]|discriminate].
    - apply w_open; [exists 97%N, []; repeat split; try constructor; intros []|left; reflexivity|exact Ar|reflexivity|reflexivity].
    - apply w_close. intros [H|[]]; discriminate H. }
  assert (N : nests opts [KOpen (str "a") l; KClose (str "a")]).
  { eexists. unfold nest_all. cbn [nest open_names]. unfold name_fits. destruct (case_sensitive_tagname opts); reflexivity. }
  destruct (source_accepted opts _ s S N) as (d & f & P & T & _ & D).
  rewrite <- T in S. pose proof (full_source _ _ _ _ env _ P A S D) as F. rewrite T in F. exists d. eexists. split; [exact P|]. split; [exact F|].
  unfold s, l, times, print. cbn [flat_map print_token]. rewrite !app_length. split.
  - assert (X : length (concat (repeat (str "b=""""") n)) = 4 * n) by (clear; induction n as [|n IH]; [reflexivity|]; cbn [repeat concat]; rewrite app_length, IH; change (length (str "b=""""")) with 4; lia).
    rewrite X. change (length (str "<a ")) with 3. change (length (str "></a>")) with 5. lia.
  - assert (X : length (print_attrs (repeat (quoted (str "b") [] 34%N) n)) = 5 * n) by (clear; unfold print_attrs; induction n as [|n IH]; [reflexivity|]; cbn [repeat flat_map]; rewrite app_length, IH; change (length (str " " ++ print_attr (quoted (str "b") [] 34%N))) with 5; lia).
    rewrite X. cbn. lia.
Qed.
Theorem tree_work : forall K env o t text out0, growth K env o -> build env full t false = ROk out0 ->
  w_build env o t text <= 4 * K * length out0 + 18 * count t.
Proof. intros K env o t text out0 G F. apply full_build in F. rewrite F, <- Nat.mul_assoc. exact (w_build_le _ _ _ G t text). Qed.
