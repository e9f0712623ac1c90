(** Reference counts of parsed documents and of copies. *)
From Coq Require Import String.
From Verif Require Import Api SpecText SpecRender SpecParse SpecTree SpecClone SpecCost SpecHandles Handles HeapLemmas InvCtl Big BigSteps
  Struct StructEnd CloneProofs SizeDoc CostLow HandleProofs HandleDoc.
Local Open Scope string_scope.
Local Open Scope list_scope.

(** ** The field root *)
Definition rooted (n : node) : Prop := (n_root n = None \/ n_root n = Some 0) /\ (n_type n = NTagEnd -> n_root n = None).
Lemma rooted_upd : forall h i f, (forall n, rooted n -> rooted (f n)) -> Forall rooted h -> Forall rooted (hupd h i f).
Proof.
  intros h i f F. revert i. induction h as [|n h IH]; intros i H; [destruct i; exact H|]. inversion H; subst. destruct i; cbn; constructor; auto.
Qed.
Lemma rooted_app : forall h n, rooted n -> Forall rooted h -> Forall rooted (h ++ [n]).
Proof. intros. apply Forall_app. split; [assumption|constructor; auto]. Qed.
Ltac rt := let n := fresh in let A := fresh in let B := fresh in intros n [A B]; split; cbn in *; auto; try (intro; discriminate).
Lemma rooted_flip : forall ck h, Forall rooted h -> Forall rooted (flip ck h).
Proof. intros [k|] h H; [|exact H]. apply rooted_upd; [rt|exact H]. Qed.
Lemma rooted_child : forall h p t b, t <> NTagEnd -> Forall rooted h -> Forall rooted (add_child h p (node_new t b)).
Proof. intros h p t b T H. apply rooted_upd; [rt|]. apply rooted_app; [|exact H]. split; cbn; [right; reflexivity|intro; contradiction]. Qed.
Lemma rooted_orphan : forall h p t b, Forall rooted h -> Forall rooted (add_orphan h p (node_new t b)).
Proof. intros h p t b H. apply rooted_upd; [rt|]. apply rooted_app; [|exact H]. split; cbn; auto. Qed.
Lemma rooted_opened : forall u p t, t <> NTagEnd -> Forall rooted (d_heap u) -> Forall rooted (opened u p t).
Proof. intros. apply rooted_flip, rooted_child; assumption. Qed.
Lemma rooted_end : forall u, rooted (if auto_fix_unclosed_tag (d_parse_options u)
  then nset_prev (Some (d_current_node u)) (node_new NTagEnd (d_mem_position u)) else node_new NTagEnd (d_mem_position u)).
Proof. intro u. destruct (auto_fix_unclosed_tag _); split; cbn; auto. Qed.
Lemma rooted_closed : forall u tag nm pos, Forall rooted (d_heap u) -> Forall rooted (closed_heap u tag nm pos).
Proof.
  intros u tag nm pos H. unfold closed_heap. cbv zeta. apply rooted_upd; [rt|]. apply rooted_upd; [rt|].
  match goal with |- Forall _ (if _ then ?x else _) => assert (E : Forall rooted x) end.
  { apply rooted_upd; [rt|]. apply rooted_app; [apply rooted_end|exact H]. }
  match goal with |- Forall _ (if ?b then _ else _) => destruct b end; [exact E|apply rooted_flip, E].
Qed.
Lemma rooted_lt : forall u s, Forall rooted (d_heap u) -> Forall rooted (d_heap (lt_text u s)).
Proof.
  intros u s H. unfold lt_text. cbv zeta. destruct (n_type (cur u)); try (cbn [d_heap]; apply rooted_orphan; exact H).
  destruct (n_content (cur u)); cbn [d_heap]; repeat (apply rooted_upd; [rt|]); exact H.
Qed.
Lemma bstep_rooted : forall u s st, bstep u s st -> Forall rooted (d_heap u) -> Forall rooted (d_heap st).
Proof.
  intros u s st B. induction B; intros Hr.
  all: lazymatch goal with
    | |- Forall _ (d_heap (set_position _ (lt_text _ _))) => apply rooted_lt; exact Hr
    | IH : _ -> Forall _ (d_heap ?x) |- Forall _ (d_heap ?x) => apply IH, rooted_lt; exact Hr
    | |- _ => cbn [W_of d_heap] end.
  all: unfold dropped_heap, set_meta; try exact Hr.
  all: repeat first [apply rooted_closed | apply rooted_opened; [discriminate|] | apply rooted_child; [discriminate|]
     | apply rooted_upd; [solve [rt]|] | apply rooted_app; [first [apply rooted_end | split; cbn; auto; fail]|] | exact Hr ].
  destruct ct; [apply rooted_upd; [rt|]|]; exact Hr.
Qed.
Lemma bsteps_rooted : forall opts s st, bsteps (doc_new opts) s st -> Forall rooted (d_heap st).
Proof.
  intros opts s st B. remember (doc_new opts) as u eqn:E. induction B as [st|u s st1 t st2 B IH H].
  - subst. constructor; [split; cbn; [right; reflexivity|discriminate]|constructor].
  - eapply bstep_rooted; eauto.
Qed.
Lemma fin_rooted : forall st, Forall rooted (d_heap st) -> Forall rooted (fin_heap st).
Proof.
  intros st H. unfold fin_heap. cbv zeta. apply rooted_upd; [rt|].
  assert (E : Forall rooted (fix_heap (d_position st) (tl (rev (d_chain_nodes st))) (d_heap st))).
  { revert H. generalize (tl (rev (d_chain_nodes st))) as l. generalize (d_heap st) as h. intros h l. revert h.
    induction l as [|k l IH]; intros h H; [exact H|]. cbn [fix_heap fold_left]. apply IH. unfold fix1. destruct (n_meta (hget h k)); [|exact H].
    apply rooted_upd; [rt|]. apply rooted_app; [split; cbn; auto|]. apply rooted_upd; [|exact H].
    intros n X. unfold nupd_meta. destruct (n_meta n); exact X. }
  destruct (d_code_in st); try exact E. apply rooted_upd; [|exact E]. intros n [A B]. unfold text_done.
  destruct (d_repeat_whitespace st); split; cbn; auto. discriminate.
Qed.
Theorem parsed_rooted : forall opts s d, parse opts s = Parsed d -> Forall rooted (d_heap d).
Proof.
  intros opts s d H. unfold parse, outcome_of in H. destruct (parse_res opts s) as [d'| |] eqn:R; try discriminate. injection H as ->.
  destruct (accepted _ _ _ R) as [s1 [s2 [st1 [st [Es [B [Rn [D He]]]]]]]]. apply bsteps_rooted in B.
  destruct (eof_inv _ _ He) as (_ & _ & -> & _). apply fin_rooted.
  destruct D as [[_ [-> D]]|[Af [HU [_ [p [rest [Ec [[On ->]|[n [a [t [_ [On [Ha [As [Tr ->]]]]]]]]]]]]]]]]; [exact B| |].
  - cbn [st_name d_heap]. apply rooted_opened; [discriminate|exact B].
  - cbn [st_area d_heap]. apply rooted_upd; [rt|]. apply rooted_opened; [discriminate|exact B].
Qed.

(** ** Documents *)
Definition in_range (h : list node) (l : list nid) : Prop := Forall (fun r => r < length h) l.
Lemma parsed_in : forall opts s d p k, parse opts s = Parsed d -> In k (strong (hget (d_heap d) p)) -> p < k < length (d_heap d).
Proof.
  intros opts s d p k P I. destruct (parsed_hs _ _ _ P) as [H _]. apply strong_owns, owns_linked in I. destruct I as [x L]. eapply linked_up; eauto.
Qed.
Lemma refs_range : forall opts s d, parse opts s = Parsed d -> in_range (d_heap d) (doc_refs d).
Proof. intros opts s d P. apply Forall_forall. intros r I. apply (proj2 (parsed_refs _ _ _ P) r I). Qed.

Theorem doc_counts : forall opts s d held, parse opts s = Parsed d -> in_range (d_heap d) held ->
  exact (d_heap d) held (counts (d_heap d) held) /\ forall cs, exact (d_heap d) held cs -> cs = counts (d_heap d) held.
Proof.
  intros opts s d held P F.
  assert (Hin : forall p k, In k (strong (hget (d_heap d) p)) -> k < length (d_heap d)) by (intros p k I; eapply parsed_in; eauto).
  assert (Hac : forall k, freed (d_heap d) k) by (intro; eapply all_freed; eauto).
  split; [apply counts_exact; auto|intros; apply exact_unique; auto].
Qed.
Theorem doc_drop : forall opts s d todo held, parse opts s = Parsed d -> in_range (d_heap d) todo -> in_range (d_heap d) held ->
  release (list_sum (counts (d_heap d) (todo ++ held))) (d_heap d) (counts (d_heap d) (todo ++ held)) todo = Some (counts (d_heap d) held).
Proof.
  intros opts s d todo held P F G. apply release_counts; auto; intros; [eapply parsed_in; eauto|eapply all_freed; eauto].
Qed.
Theorem doc_upgrade : forall opts s d held k, parse opts s = Parsed d -> in_range (d_heap d) held ->
  upgrade (counts (d_heap d) held) k = Some k <-> kept (d_heap d) held k.
Proof.
  intros opts s d held k P F.
  assert (Hin : forall p k, In k (strong (hget (d_heap d) p)) -> k < length (d_heap d)) by (intros p x I; eapply parsed_in; eauto).
  pose proof (counts_pos _ Hin (fun x => all_freed _ _ _ x P) held k F) as C. unfold upgrade.
  destruct (Nat.ltb_spec 0 (nth k (counts (d_heap d) held) 0)) as [L|L]; split; intro X; try tauto; [discriminate|]. apply C in X. lia.
Qed.
Lemma upgrade_none : forall cs k, upgrade cs k = None <-> upgrade cs k <> Some k.
Proof. intros. unfold upgrade. destruct (Nat.ltb 0 _); split; intro H; congruence. Qed.

Lemma counts_nil : forall h, counts h [] = repeat 0 (length h).
Proof.
  intro h. unfold counts. generalize (seq_length (length h) 0). generalize (seq 0 (length h)) as l. generalize (length h) as n. intros n l <-.
  induction l as [|k l IH]; [reflexivity|]. cbn [map length repeat]. rewrite IH. f_equal. unfold strong_count. cbn [occ count_occ plus]. clear.
  generalize (seq 0 (length h)) as m. induction m as [|p m IH]; [reflexivity|]. cbn [map]. change (list_sum (?a :: ?b)) with (a + list_sum b). rewrite IH. reflexivity.
Qed.
Theorem drop_all : forall opts s d, parse opts s = Parsed d ->
  release (list_sum (counts (d_heap d) (doc_refs d))) (d_heap d) (counts (d_heap d) (doc_refs d)) (doc_refs d) = Some (repeat 0 (length (d_heap d))).
Proof.
  intros opts s d P. pose proof (doc_drop _ _ _ (doc_refs d) [] P (refs_range _ _ _ P) (Forall_nil _)) as E. rewrite app_nil_r, counts_nil in E. exact E.
Qed.
Lemma leaf_path : forall h r w k, path h r w k -> (forall y, ~ In y (strong (hget h r))) -> k = r.
Proof.
  intros h r w k P Z. induction P as [|w p x k P IH L]; [reflexivity|]. subst p. destruct (Z k). apply strong_owns, owns_linked. eauto.
Qed.
Theorem doc_alive : forall opts s d k, parse opts s = Parsed d ->
  upgrade (counts (d_heap d) (doc_refs d)) k = Some k <->
  in_doc (d_heap d) (d_root d) k \/
  (k = d_current_node d /\ auto_fix_unexpected_endtag opts = true /\ auto_fix_unclosed_tag opts = false /\ n_type (hget (d_heap d) k) = NTagEnd).
Proof.
  intros opts s d k P. rewrite (doc_upgrade _ _ _ _ _ P (refs_range _ _ _ P)). destruct (parsed_hs _ _ _ P) as [H R].
  destruct (parsed_refs _ _ _ P) as [_ Q]. rewrite R. split.
  - intros (r & I & D). destruct (Q r I) as [_ [X|X]].
    + left. apply (doc_node_in _ _ _ H) in X. eapply in_doc_trans; eauto.
    + right. destruct X as (E1 & E2 & E3 & T). assert (k = r); [|subst; auto]. destruct D as [w D].
      assert (Z : forall y, ~ In y (strong (hget (d_heap d) r))).
      { intros y Y. apply strong_kids in Y. destruct Y as [Y|Y].
        - apply (hs_kids _ _ H) in Y. destruct Y as (_ & _ & [C|C]); congruence.
        - apply (hs_end _ _ H) in Y. destruct Y as (_ & _ & _ & C). congruence. }
      eapply leaf_path; eauto.
  - assert (Ic : In (d_current_node d) (doc_refs d)) by (unfold doc_refs; rewrite !in_app_iff; right; left; left; reflexivity).
    assert (Ir : In 0 (doc_refs d)) by (unfold doc_refs; rewrite !in_app_iff, R; right; right; right; left; left; reflexivity).
    intros [D|(-> & _)]; [exists 0; auto|]. exists (d_current_node d). split; [exact Ic|apply in_doc_self].
Qed.
Theorem doc_weak : forall opts s d k p, parse opts s = Parsed d -> in_doc (d_heap d) (d_root d) k -> In p (weak (hget (d_heap d) k)) ->
  in_doc (d_heap d) (d_root d) p /\ upgrade (counts (d_heap d) (doc_refs d)) p = Some p.
Proof.
  intros opts s d k p P D I. assert (G : in_doc (d_heap d) (d_root d) p); [|split; [exact G|apply (doc_alive _ _ _ _ P); left; exact G]].
  destruct (parsed_hs _ _ _ P) as [H R]. destruct (parsed_refs _ _ _ P) as [V _]. destruct (graph_links _ _ _ P) as (G1 & G2 & G3 & G4).
  rewrite R in *. unfold weak in I. rewrite !in_app_iff in I. destruct I as [I|[I|I]].
  - destruct (n_prev (hget (d_heap d) k)) as [q|] eqn:E; [|destruct I]. destruct I as [<-|[]]. apply (doc_node_in _ _ _ H). eapply V; eauto.
  - destruct D as [w D]. destruct D as [|w q x k D L]; [rewrite G3 in I; destruct I|].
    assert (Pa : n_parent (hget (d_heap d) k) = Some q \/ n_parent (hget (d_heap d) k) = None).
    { destruct x as [i|]; [|left; eapply G2; exact L]. destruct (G1 _ _ _ L) as [(X & _)|(_ & _ & X & _)]; auto. }
    destruct Pa as [X|X]; rewrite X in I; [|destruct I]. destruct I as [<-|[]]. exists w. exact D.
  - destruct (n_root (hget (d_heap d) k)) as [q|] eqn:E; [|destruct I]. destruct I as [<-|[]].
    assert (q = 0); [|subst; apply in_doc_self]. pose proof (parsed_rooted _ _ _ P) as Ro. rewrite Forall_forall in Ro.
    destruct (Nat.lt_ge_cases k (length (d_heap d))) as [L|L]; [|rewrite hget_default in E by exact L; discriminate].
    destruct (Ro (hget (d_heap d) k)) as [[X|X] _]; [apply nth_In; exact L| |]; rewrite E in X; congruence.
Qed.
Theorem end_root : forall opts s d k, parse opts s = Parsed d -> n_type (hget (d_heap d) k) = NTagEnd -> n_root (hget (d_heap d) k) = None.
Proof.
  intros opts s d k P T. pose proof (parsed_rooted _ _ _ P) as Ro. rewrite Forall_forall in Ro.
  destruct (Nat.lt_ge_cases k (length (d_heap d))) as [L|L]; [|rewrite hget_default by exact L; reflexivity].
  apply (Ro (hget (d_heap d) k)); [apply nth_In; exact L|exact T].
Qed.

(** ** A node held without its document *)
Lemma in_doc_up : forall opts s d a k, parse opts s = Parsed d -> in_doc (d_heap d) a k -> k = a \/ a < k.
Proof.
  intros opts s d a k P [w D]. destruct (parsed_hs _ _ _ P) as [H _]. destruct (path_up _ _ _ _ _ H D) as [_ Y].
  destruct w as [|x w]; [inversion D; [left; reflexivity|destruct w; discriminate]|right; apply Y; discriminate].
Qed.
Lemma parent_above : forall opts s d a w k p, parse opts s = Parsed d -> path (d_heap d) a w k -> w <> [] -> n_parent (hget (d_heap d) k) = Some p ->
  in_doc (d_heap d) a p /\ p < k.
Proof.
  intros opts s d a w k p P D N E. destruct (graph_links _ _ _ P) as (G1 & G2 & _). destruct (parsed_hs _ _ _ P) as [H _].
  destruct D as [|w q x k D L]; [congruence|].
  assert (Pa : n_parent (hget (d_heap d) k) = Some q \/ n_parent (hget (d_heap d) k) = None).
  { destruct x as [j|]; [|left; eapply G2; exact L]. destruct (G1 _ _ _ L) as [(X & _)|(_ & _ & X & _)]; auto. }
  destruct Pa as [X|X]; rewrite E in X; [|discriminate]. injection X as ->. split; [exists w; exact D|]. eapply linked_up; eauto.
Qed.
Lemma in_doc_range : forall opts s d k, parse opts s = Parsed d -> in_doc (d_heap d) (d_root d) k -> k < length (d_heap d).
Proof.
  intros opts s d k P D. destruct (parsed_hs _ _ _ P) as [H R]. rewrite R in D.
  eapply in_doc_lt; [intros; eapply parsed_in; eauto|apply H|exact D].
Qed.
Theorem part_drop : forall opts s d i, parse opts s = Parsed d -> in_doc (d_heap d) (d_root d) i ->
  let h := d_heap d in
  exists cs, release (list_sum (counts h (doc_refs d ++ [i]))) h (counts h (doc_refs d ++ [i])) (doc_refs d) = Some cs /\
  (forall k, upgrade cs k = Some k <-> in_doc h i k) /\
  (forall p, n_parent (hget h i) = Some p -> upgrade cs p = None) /\
  (forall r, n_root (hget h i) = Some r -> i <> r -> upgrade cs r = None) /\
  (forall k p, in_doc h i k -> k <> i -> n_parent (hget h k) = Some p -> upgrade cs p = Some p).
Proof.
  intros opts s d i P Di. pose proof (in_doc_range _ _ _ _ P Di) as I. cbv zeta. exists (counts (d_heap d) [i]).
  assert (Fi : in_range (d_heap d) [i]) by (constructor; [exact I|constructor]).
  split; [apply (doc_drop _ _ _ _ _ P (refs_range _ _ _ P) Fi)|].
  assert (U : forall k, upgrade (counts (d_heap d) [i]) k = Some k <-> in_doc (d_heap d) i k).
  { intro k. rewrite (doc_upgrade _ _ _ _ _ P Fi). split; [intros (r & [<-|[]] & D); exact D|intro D; exists i; split; [left; reflexivity|exact D]]. }
  split; [exact U|]. destruct (graph_links _ _ _ P) as (_ & _ & G3 & _).
  split; [|split].
  - intros p E. apply upgrade_none. rewrite U. intro D. apply (in_doc_up _ _ _ _ _ P) in D. destruct Di as [w Di].
    destruct w as [|x w]; [inversion Di; [congruence|destruct w; discriminate]|].
    destruct (parent_above _ _ _ _ _ _ _ P Di ltac:(discriminate) E) as [_ L]. lia.
  - intros r E N. apply upgrade_none. rewrite U. intro D. apply (in_doc_up _ _ _ _ _ P) in D.
    pose proof (parsed_rooted _ _ _ P) as Ro. rewrite Forall_forall in Ro.
    destruct (Ro (hget (d_heap d) i)) as [[X|X] _]; [apply nth_In; exact I| |]; rewrite E in X; [discriminate|].
    injection X as ->. destruct D as [D|D]; [congruence|lia].
  - intros k p [w D] N E. apply U. eapply parent_above; eauto. intros ->. inversion D; [congruence|destruct w; discriminate].
Qed.

(** ** The copy of a node *)
(** All nodes made by a copy belong to it. *)
Definition keeps (h h' : list node) : Prop := forall n, n < length h ->
  (forall l, n_childs (hget h n) = Some l -> n_childs (hget h' n) = Some l) /\
  (forall e, n_end_tag (hget h n) = Some e -> n_end_tag (hget h' n) = Some e).
Lemma keeps_in : forall h h' a k, keeps h h' -> in_doc h a k -> in_doc h' a k.
Proof.
  intros h h' a k K [w P]. exists w. induction P as [|w p x k P IH L]; [constructor|]. econstructor; [exact IH|].
  assert (Lp : p < length h).
  { destruct (Nat.lt_ge_cases p (length h)) as [Y|Y]; [exact Y|]. destruct L as [p l i k E N|p e E]; rewrite hget_default in E by exact Y; discriminate. }
  destruct (K p Lp) as [K1 K2]. destruct L as [p l i k E N|p e E]; [eapply linked_child; eauto|apply linked_end; auto].
Qed.
Lemma keeps_trans : forall a b c, length a <= length b -> keeps a b -> keeps b c -> keeps a c.
Proof. intros a b c L A B n Ln. destruct (A n Ln), (B n ltac:(lia)). auto. Qed.
Lemma keeps_eq : forall h h', (forall n, n < length h -> hget h' n = hget h n) -> keeps h h'.
Proof. intros h h' E n L. rewrite (E n L). auto. Qed.
Lemma keeps_upd : forall h i f, (forall n, n_childs (f n) = n_childs n) -> (forall n, n_end_tag (f n) = n_end_tag n) -> keeps h (hupd h i f).
Proof. intros h i f A B n L. rewrite (hupd_keep n_childs), (hupd_keep n_end_tag) by assumption. auto. Qed.

Definition same (h h' : list node) : Prop := forall n, n < length h -> hget h' n = hget h n.
Definition full (h h' : list node) (j : nid) : Prop :=
  length h <= j < length h' /\ same h h' /\ forall k, length h <= k < length h' -> in_doc h' j k.
Lemma loop_full : forall fuel pid r, (forall h i h' j, clone_node_with fuel h i r = ROk (h', j) -> full h h' j) ->
  forall l h acc h' ids, clone_loop fuel pid r l h acc = ROk (h', ids) ->
  length h <= length h' /\ same h h' /\ (exists ids', ids = acc ++ ids' /\ forall k, length h <= k < length h' -> exists j, In j ids' /\ in_doc h' j k).
Proof.
  intros fuel pid r Cf. induction l as [|x l IH]; intros h acc h' ids E; cbn [clone_loop] in E.
  - injection E as <- <-. split; [lia|]. split; [intros n _; reflexivity|]. exists []. rewrite app_nil_r. split; [reflexivity|]. intros; lia.
  - destruct (clone_node_with fuel h x r) as [[h1 k']| |] eqn:C; try discriminate. cbn [rbind] in E. apply Cf in C. destruct C as (C1 & C2 & C3).
    fold (clone_loop fuel pid r) in E. apply IH in E. destruct E as (L & K & ids' & Ei & S). rewrite hupd_length in *.
    assert (Ku : keeps h1 h') by (eapply keeps_trans; [|apply (keeps_upd h1 k')|apply keeps_eq, K]; [rewrite hupd_length; lia| |]; reflexivity).
    split; [lia|]. split; [|exists (k' :: ids')].
    + intros n Ln. rewrite (K n) by (rewrite hupd_length; lia). rewrite hget_hupd_other by lia. apply C2, Ln.
    + rewrite Ei, <- app_assoc. split; [reflexivity|]. intros k Lk. destruct (Nat.lt_ge_cases k (length h1)) as [Y|Y].
      * exists k'. split; [left; reflexivity|]. eapply keeps_in; [exact Ku|]. apply C3. lia.
      * destruct (S k ltac:(lia)) as (j & J & D). exists j. split; [right; exact J|exact D].
Qed.
Lemma clone_full : forall fuel r h i h' j, clone_node_with fuel h i r = ROk (h', j) -> full h h' j.
Proof.
  induction fuel as [|fuel IH]; intros r h i h' j E; [discriminate|]. rewrite clone_eq in E. cbv zeta in E.
  destruct (checked_sub (n_begin_at (hget h i)) r) as [b| |]; try discriminate. cbn [rbind] in E.
  destruct (checked_sub (n_end_at (hget h i)) r) as [e| |]; try discriminate. cbn [rbind] in E.
  match type of E with (do '(h0, et) <- ?x; _) = _ => destruct x as [[h1 et]| |] eqn:X; try discriminate end. cbn [rbind] in E.
  assert (A : length h <= length h1 /\ same h h1 /\ (forall k, length h <= k < length h1 -> exists e', et = Some e' /\ in_doc h1 e' k)).
  { destruct (n_end_tag (hget h i)) as [e0|].
    - destruct (clone_node_with fuel h e0 r) as [[h2 e']| |] eqn:C; try discriminate. injection X as <- <-. apply IH in C. destruct C as (C1 & C2 & C3).
      split; [lia|]. split; [exact C2|]. intros k L. exists e'. auto.
    - injection X as <- <-. split; [lia|]. split; [intros n _; reflexivity|]. intros; lia. }
  destruct A as (L1 & K1 & S1). set (nn := mkNode 0 _ _ _ _ _ _ _ _ _ _) in E. set (h2 := h1 ++ [nn]) in E.
  assert (L2 : length h2 = S (length h1)) by (unfold h2; rewrite app_length; cbn; lia).
  assert (K2 : same h1 h2) by (intros n Ln; unfold h2, hget; apply app_nth1; exact Ln).
  assert (Nn : hget h2 (length h1) = nn) by (unfold h2, hget; rewrite app_nth2, Nat.sub_diag by lia; reflexivity).
  assert (Fin : forall h3, keeps h2 h3 -> forall k, length h <= k < length h2 -> in_doc h3 (length h1) k).
  { intros h3 K3 k Lk. destruct (Nat.eq_dec k (length h1)) as [->|N]; [apply in_doc_self|]. destruct (S1 k ltac:(lia)) as (e' & -> & D).
    eapply in_doc_trans; [|eapply keeps_in; [exact K3|eapply keeps_in; [apply keeps_eq; exact K2|exact D]]].
    exists ([] ++ [LEnd]). econstructor; [constructor|]. apply linked_end. apply (K3 (length h1)); [lia|]. rewrite Nn. reflexivity. }
  destruct (n_childs (hget h i)) as [childs|].
  - destruct (clone_loop fuel (length h1) r childs h2 []) as [[h3 ids]| |] eqn:C; try discriminate. cbn [rbind] in E. injection E as <- <-.
    apply loop_full in C; [|intros; eapply IH; eauto]. destruct C as (L3 & K3 & ids' & -> & S3). cbn [app].
    set (h4 := hupd h3 (length h1) _). assert (L4 : length h4 = length h3) by apply hupd_length.
    assert (K4 : keeps h3 h4).
    { intros n Ln. destruct (Nat.eq_dec n (length h1)) as [->|N].
      - rewrite (K3 (length h1)), Nn by lia. split; [discriminate|]. intros e1 E1. unfold h4. rewrite (hupd_keep n_end_tag) by reflexivity.
        rewrite (K3 (length h1)), Nn by lia. exact E1.
      - unfold h4. rewrite hget_hupd_other by auto. auto. }
    split; [lia|]. split.
    + intros n Ln. unfold h4. rewrite hget_hupd_other by lia. rewrite (K3 n), (K2 n) by lia. apply K1, Ln.
    + intros k Lk. destruct (Nat.lt_ge_cases k (length h2)) as [Y|Y].
      * apply Fin; [|lia]. eapply keeps_trans; [|apply keeps_eq, K3|exact K4]. lia.
      * destruct (S3 k ltac:(lia)) as (j & J & D). eapply in_doc_trans; [|eapply keeps_in; [exact K4|exact D]].
        apply In_nth_error in J. destruct J as [x J]. exists ([] ++ [LChild x]). econstructor; [constructor|]. eapply linked_child; [|exact J].
        unfold h4. rewrite hget_hupd_same by lia. reflexivity.
  - injection E as <- <-. split; [lia|]. split; [intros n Ln; rewrite (K2 n) by lia; apply K1, Ln|].
    apply Fin. apply keeps_eq. intros n _. reflexivity.
Qed.

(** The heap after a copy. *)
Lemma clone_heap : forall opts s d i h' j, parse opts s = Parsed d -> clone_node (d_heap d) i = ROk (h', j) -> deep_copy (d_heap d) i h' j ->
  (forall p k, In k (strong (hget h' p)) -> k < length h') /\ (forall k, freed h' k) /\ (forall p, ~ In j (strong (hget h' p))) /\
  (forall k, in_doc h' j k <-> length (d_heap d) <= k < length h').
Proof.
  intros opts s d i h' j P C D. apply clone_full in C. destruct C as (C1 & C2 & C3). set (h := d_heap d) in *.
  assert (Re : forall k, in_doc h' j k <-> length h <= k < length h') by (intro k; split; [intros [w W]; eapply dc_new; eauto|apply C3]).
  assert (Old : forall p k, p < length h -> In k (strong (hget h' p)) -> k < length h).
  { intros p k L I. rewrite (C2 p L) in I. eapply parsed_in; eauto. }
  assert (New : forall p k, length h <= p -> In k (strong (hget h' p)) -> length h <= p < length h' /\ length h <= k < length h').
  { intros p k L I. destruct (Nat.lt_ge_cases p (length h')) as [Y|Y]; [|rewrite hget_default in I by exact Y; destruct I].
    split; [lia|]. apply Re. eapply in_doc_step; [apply C3; split; [exact L|exact Y]|exact I]. }
  split; [|split; [|split]]; auto.
  - intros p k I. destruct (Nat.lt_ge_cases p (length h)) as [L|L]; [apply (Old p k L) in I; lia|apply (New p k L) in I; lia].
  - assert (Fo : forall k, freed h k -> k < length h -> freed h' k).
    { intros k F. induction F as [k _ IH]. intro L. constructor. intros p O. pose proof O as O'. apply strong_owns in O'.
      destruct (Nat.lt_ge_cases p (length h)) as [Y|Y]; [|apply (New p k Y) in O'; lia]. apply IH; [|exact Y].
      rewrite (C2 p Y) in O'. apply strong_owns. exact O'. }
    assert (Fn : forall n w k, length w < n -> path h' j w k -> freed h' k).
    { induction n as [|n IH]; intros w k L W; [lia|]. constructor. intros p O. apply owns_linked in O. destruct O as [x O].
      pose proof (dc_new _ _ _ _ D _ _ W) as Lk.
      destruct (Nat.lt_ge_cases p (length h)) as [Y|Y].
      - exfalso. assert (k < length h); [|lia]. apply (Old p k Y). apply strong_owns, owns_linked. eauto.
      - assert (I : In k (strong (hget h' p))) by (apply strong_owns, owns_linked; eauto). apply (New p k Y) in I. destruct I as [I _].
        apply Re in I. destruct I as [v V]. apply (IH v); [|exact V]. 
        assert (E : w = v ++ [x]) by (eapply dc_unshared; [exact D|exact W|econstructor; eauto]). rewrite E, app_length in L. cbn in L. lia. }
    intro k. destruct (Nat.lt_ge_cases k (length h)) as [L|L]; [apply Fo; [eapply all_freed; eauto|exact L]|].
    destruct (Nat.lt_ge_cases k (length h')) as [Y|Y].
    + destruct (proj2 (Re k) (conj L Y)) as [w W]. eapply Fn; [apply Nat.lt_succ_diag_r|exact W].
    + constructor. intros p O. exfalso. apply strong_owns in O. destruct (Nat.lt_ge_cases p (length h)) as [Z|Z]; [apply (Old p k Z) in O; lia|apply (New p k Z) in O; lia].
  - intros p I. destruct (Nat.lt_ge_cases p (length h)) as [L|L]; [apply (Old p j L) in I; lia|]. pose proof (New p j L I) as [X _].
    apply Re in X. destruct X as [w W]. apply strong_owns, owns_linked in I. destruct I as [x O].
    assert (E : [] = w ++ [x]) by (eapply dc_unshared; [exact D|constructor|econstructor; eauto]). destruct w; discriminate.
Qed.

Lemma in_doc_first : forall h j k, in_doc h j k -> k = j \/ exists c, In c (strong (hget h j)) /\ in_doc h c k.
Proof.
  intros h j k [w P]. induction P as [|w p x k P IH L]; [left; reflexivity|]. right.
  assert (I : In k (strong (hget h p))) by (apply strong_owns, owns_linked; eauto). destruct IH as [->|(c & C & D)].
  - exists k. split; [exact I|apply in_doc_self].
  - exists c. split; [exact C|]. eapply in_doc_step; eauto.
Qed.
Lemma upgrade_same : forall cs cs' k, (upgrade cs k = Some k <-> upgrade cs' k = Some k) -> upgrade cs k = upgrade cs' k.
Proof.
  intros cs cs' k. unfold upgrade. destruct (Nat.ltb 0 (nth k cs 0)), (Nat.ltb 0 (nth k cs' 0)); intros [A B]; auto; symmetry; auto.
Qed.
Theorem copy_node : forall opts s d i held, parse opts s = Parsed d -> i < length (d_heap d) -> in_range (d_heap d) held ->
  let h := d_heap d in
  exists h' j, node_clone h held i = ROk (h', j, Some (hget h' j)) /\ deep_copy h i h' j /\
  let cs := counts h' (strong (hget h' j) ++ held) in
  exact h' (strong (hget h' j) ++ held) cs /\
  (forall k, in_doc h' j k -> upgrade cs k = if Nat.eqb k j then None else Some k) /\
  (forall k, k < length h -> upgrade cs k = upgrade (counts h held) k).
Proof.
  intros opts s d i held P I F. pose proof F as F0. unfold in_range in F. cbv zeta. destruct (clone_copies _ _ _ _ P I) as (h' & j & C & D). set (h := d_heap d) in *.
  destruct (clone_heap _ _ _ _ _ _ P C D) as (Hin & Hac & Nj & Re). fold h in Re.
  assert (Jn : length h <= j < length h') by (apply Re, in_doc_self). destruct (dc_old _ _ _ _ D) as [Ll Eq].
  assert (F' : Forall (fun r => r < length h') held) by (eapply Forall_impl; [|exact F]; intros a La; unfold nid in *; cbn in La; fold h in La; lia).
  assert (Fs : Forall (fun r => r < length h') (strong (hget h' j) ++ held)).
  { apply Forall_app. split; [|exact F']. apply Forall_forall. intros r. apply Hin. }
  exists h', j. split; [|split; [exact D|split; [|split]]].
  - unfold node_clone. rewrite C. cbn [rbind]. f_equal. f_equal. unfold try_unwrap. replace (strong_count h' (j :: held) j) with 1; [reflexivity|].
    unfold strong_count. replace (occ j (j :: held)) with 1.
    + replace (list_sum _) with 0; [reflexivity|]. symmetry. generalize (seq 0 (length h')) as l. induction l as [|p l IH]; [reflexivity|].
      cbn [map]. change (list_sum (?a :: ?b)) with (a + list_sum b). rewrite IH. destruct (lives h' (j :: held) p); [|reflexivity].
      unfold occ. rewrite (proj1 (count_occ_not_In _ _ _) (Nj p)). reflexivity.
    + unfold occ. cbn. destruct (Nat.eq_dec j j); [|congruence]. f_equal. symmetry. apply count_occ_not_In. intro X.
      rewrite Forall_forall in F. apply F in X. unfold h in *. lia.
  - apply counts_exact; auto.
  - intros k K. destruct (upgrade_kept h' Hin Hac (strong (hget h' j) ++ held) k Fs) as [U V]. destruct (Nat.eqb_spec k j) as [->|N].
    + apply V. intros (r & Ir & Dr). apply in_doc_inv in Dr. destruct Dr as [->|(p & _ & X)]; [|exact (Nj _ X)].
      apply in_app_iff in Ir. destruct Ir as [X|X]; [exact (Nj _ X)|]. rewrite Forall_forall in F. apply F in X. unfold nid in *. lia.
    + apply U. destruct (in_doc_first _ _ _ K) as [->|(c & X & Y)]; [congruence|]. exists c. split; [apply in_app_iff; left; exact X|exact Y].
  - intros k Lk. apply upgrade_same. pose proof (doc_upgrade _ _ _ _ k P F0) as W0. fold h in W0. rewrite W0. clear W0.
    destruct (upgrade_kept h' Hin Hac (strong (hget h' j) ++ held) k Fs) as [U V]. split.
    + intro X. assert (K : ~ ~ kept h' (strong (hget h' j) ++ held) k) by (intro Y; apply V in Y; congruence).
      assert (K' : kept h' (strong (hget h' j) ++ held) k).
      { apply (counts_pos h' Hin Hac _ _ Fs). unfold upgrade in X. destruct (Nat.ltb_spec 0 (nth k (counts h' (strong (hget h' j) ++ held)) 0)); [assumption|discriminate]. }
      destruct K' as (r & Ir & Dr). apply in_app_iff in Ir. destruct Ir as [Y|Y].
      * exfalso. assert (Z : in_doc h' j k) by (eapply in_doc_trans; [eapply in_doc_step; [apply in_doc_self|exact Y]|exact Dr]). apply Re in Z. lia.
      * exists r. split; [exact Y|]. rewrite Forall_forall in F. apply F in Y. destruct Dr as [w W]. exists w.
        assert (G : path h r w k /\ k < length h); [|apply G]. clear - W Y Eq P. induction W as [|w p x k W IH L]; [split; [constructor|exact Y]|].
        destruct IH as [A B]. assert (L' : linked h p x k) by (destruct L; [eapply linked_child; eauto|eapply linked_end; eauto]; rewrite <- (Eq _ B); assumption).
        split; [econstructor; eauto|]. assert (In k (strong (hget h p))) by (apply strong_owns, owns_linked; eauto). eapply parsed_in; eauto.
    + intros (r & Y & Dr). apply U. exists r. split; [apply in_app_iff; right; exact Y|]. eapply keeps_in; [apply keeps_eq, Eq|exact Dr].
Qed.
