(** Every handler preserves the control invariant. *)
From Coq Require Import String.
From Verif Require Import Api SpecText SpecParse NameProofs MiscProofs HeapLemmas InvCtl.
Local Open Scope string_scope.
Local Open Scope list_scope.

Lemma base_to : forall opts pre st st', base opts pre st ->
  d_parse_options st' = d_parse_options st -> d_mem_position st' <= length pre ->
  d_root st' = d_root st -> d_current_node st' < length (d_heap st) -> d_heap st' = d_heap st ->
  d_chain_nodes st' = d_chain_nodes st -> d_in_special st' = d_in_special st ->
  incl (open_chain st) (open_chain st') ->
  (d_handle st = HTagName -> name_of (d_heap st) (d_current_node st) <> None \/
     (d_handle st' = HTagName /\ d_current_node st' = d_current_node st)) ->
  (forall i, d_check_textnode st' = Some i -> textual (ty (d_heap st) i)) ->
  base opts pre st'.
Proof.
  intros opts pre st st' B Ho Hm Hr Hc Hh Hch Hs Hinc Hn Hck. dbase B.
  constructor; rewrite ?Ho, ?Hr, ?Hh, ?Hch; auto.
  - intros i Hi H0. destruct (Kcmeta i Hi H0) as [A|[A B]]; [left; exact A|].
    subst i. destruct (Hn A) as [C|[C D]]; [left; exact C|right]. split; congruence.
  - unfold special_inv in *. rewrite Hs, Hh. destruct (d_in_special st) as [[sp n]|]; [|trivial].
    destruct Kspecial as [A [B C]]. split; [exact A|]. split; [exact B|].
    destruct C as [[k [C1 C2]]|C]; [left|right; exact C]. exists k. split; auto.
Qed.

(** The usual case: only the handler, the scratch fields and possibly the heap change. *)
Lemma base_step : forall opts pre c st st', base opts pre st ->
  d_parse_options st' = d_parse_options st -> d_mem_position st' <= length pre ->
  d_root st' = d_root st -> d_current_node st' < length (d_heap st') ->
  heap_le (length pre) (d_heap st) (d_heap st') ->
  d_chain_nodes st' = d_chain_nodes st -> d_in_special st' = d_in_special st ->
  (d_code_in st' = d_code_in st \/ open_chain st' = d_chain_nodes st) ->
  (d_handle st = HTagName -> d_handle st' = HTagName /\ d_current_node st' = d_current_node st) ->
  (forall i, d_check_textnode st' = Some i -> textual (ty (d_heap st') i)) ->
  base opts (pre ++ [c]) st'.
Proof.
  intros opts pre c st st' B Ho Hm Hr Hc Hh Hch Hs Hop Hn Hck.
  apply base_app. apply (base_to opts pre (set_heap (d_heap st') st)); cbn; auto.
  - apply base_heap; assumption.
  - destruct Hop as [Hop|Hop].
    + unfold open_chain. cbn. rewrite Hop, Hch. apply incl_refl.
    + rewrite Hop. unfold open_chain. cbn.
      destruct (d_code_in st); try apply incl_refl; destruct (d_chain_nodes st); cbn;
        try apply incl_refl; apply incl_tl, incl_refl.
Qed.

Lemma add_new_node_spec : forall n st, n_type n <> NTagEnd ->
  (d_chain_nodes st = [] /\ add_new_node n st = RPanic PChainEmpty) \/
  (exists parent chain' idx ks,
     d_chain_nodes st = parent :: chain' /\
     (idx, ks) = (match n_childs (hget (d_heap st) parent) with
                  | Some childs => (length childs, childs ++ [length (d_heap st)])
                  | None => (0, [length (d_heap st)])
                  end) /\
     add_new_node n st =
       ROk (set_chain_nodes (if node_type_eqb (n_type n) NTag
                             then length (d_heap st) :: d_chain_nodes st else d_chain_nodes st)
             (set_current_node (length (d_heap st))
               (set_heap (hupd (d_heap st ++ [nset_root (Some (d_root st)) (nset_index idx (nset_parent (Some parent) n))])
                            parent (nset_childs (Some ks))) st)))).
Proof.
  intros n st Ht. unfold add_new_node.
  assert (E : node_type_eqb (n_type n) NTagEnd = false) by (destruct (n_type n); auto; contradiction).
  rewrite E. destruct (d_chain_nodes st) as [|parent chain'] eqn:Ec; [left; auto|right].
  unfold get_node. exists parent, chain'.
  destruct (n_childs (hget (d_heap st) parent)) as [childs|].
  - exists (length childs), (childs ++ [length (d_heap st)]). split; [reflexivity|]. split; [reflexivity|].
    destruct (node_type_eqb (n_type n) NTag); unfold set_chain_nodes, set_current_node, upd_node, alloc, set_heap; cbn; rewrite ?Ec; reflexivity.
  - exists 0, [length (d_heap st)]. split; [reflexivity|]. split; [reflexivity|].
    destruct (node_type_eqb (n_type n) NTag); unfold set_chain_nodes, set_current_node, upd_node, alloc, set_heap; cbn; rewrite ?Ec; reflexivity.
Qed.

Lemma heap_le_add : forall p h n i ks idx par root,
  n_begin_at n <= p -> n_meta n = None ->
  heap_le p h (hupd (h ++ [nset_root root (nset_index idx (nset_parent par n))]) i (nset_childs ks)).
Proof.
  intros. eapply heap_le_trans; [apply heap_le_alloc|apply heap_le_hupd, tame_childs]; assumption.
Qed.
Lemma add_ty : forall h n i ks idx par root, i < length h ->
  hget (hupd (h ++ [nset_root root (nset_index idx (nset_parent par n))]) i (nset_childs ks)) (length h)
  = nset_root root (nset_index idx (nset_parent par n)).
Proof. intros. rewrite hget_hupd_other by lia. apply hget_app_new. Qed.

(** New node other than a tag or end tag. *)
Lemma add_plain : forall opts pre n st, base opts pre st -> d_handle st <> HTagName ->
  n_type n <> NTagEnd -> n_type n <> NTag -> n_begin_at n <= length pre -> n_meta n = None ->
  match add_new_node n st with
  | ROk st' => exists h',
      st' = set_current_node (length (d_heap st)) (set_heap h' st) /\
      heap_le (length pre) (d_heap st) h' /\ length h' = S (length (d_heap st)) /\
      ty h' (length (d_heap st)) = n_type n
  | RErr _ _ => False
  | RPanic _ => self_closed_doctype pre
  end.
Proof.
  intros opts pre n st B Hh H1 H2 H3 H4.
  destruct (add_new_node_spec n st H1) as [[A ->]|[parent [chain' [idx [ks [A [K ->]]]]]]].
  - apply (k_empty _ _ _ B A).
  - assert (Hp : parent < length (d_heap st)).
    { pose proof (k_chain _ _ _ B) as C. rewrite A in C. apply C. }
    replace (node_type_eqb (n_type n) NTag) with false by (destruct (n_type n); auto; contradiction).
    eexists. split; [reflexivity|]. split; [apply heap_le_add; assumption|]. split.
    + rewrite hupd_length, app_length. cbn. lia.
    + unfold ty. rewrite add_ty by assumption. reflexivity.
Qed.

(** New tag. *)
Lemma add_tag : forall opts pre n st, base opts pre st -> d_handle st <> HTagName ->
  d_code_in st = CUnkownTag ->
  n_type n = NTag -> n_begin_at n <= length pre -> n_meta n = None ->
  match add_new_node n st with
  | ROk st' => exists h',
      st' = set_chain_nodes (length (d_heap st) :: d_chain_nodes st)
              (set_current_node (length (d_heap st)) (set_heap h' st)) /\
      heap_le (length pre) (d_heap st) h' /\ length h' = S (length (d_heap st)) /\
      ty h' (length (d_heap st)) = NTag /\ n_meta (hget h' (length (d_heap st))) = None /\
      base opts pre (set_code CTag st')
  | RErr _ _ => False
  | RPanic _ => self_closed_doctype pre
  end.
Proof.
  intros opts pre n st B Hh Hcode H1 H3 H4.
  destruct (add_new_node_spec n st) as [[A ->]|[parent [chain' [idx [ks [A [K ->]]]]]]]; [congruence| |].
  - apply (k_empty _ _ _ B A).
  - assert (Hp : parent < length (d_heap st)).
    { pose proof (k_chain _ _ _ B) as C. rewrite A in C. apply C. }
    replace (node_type_eqb (n_type n) NTag) with true by (rewrite H1; reflexivity).
    set (h' := hupd (d_heap st ++ [nset_root (Some (d_root st)) (nset_index idx (nset_parent (Some parent) n))])
                 parent (nset_childs (Some ks))).
    assert (L : heap_le (length pre) (d_heap st) h') by (apply heap_le_add; assumption).
    assert (Len : length h' = S (length (d_heap st))).
    { unfold h'. rewrite hupd_length, app_length. cbn. lia. }
    assert (T : ty h' (length (d_heap st)) = NTag).
    { unfold ty, h'. rewrite add_ty by assumption. exact H1. }
    assert (M : n_meta (hget h' (length (d_heap st))) = None).
    { unfold h'. rewrite add_ty by assumption. exact H4. }
    exists h'. split; [reflexivity|]. split; [exact L|]. split; [exact Len|].
    split; [exact T|]. split; [exact M|].
    pose proof (base_heap _ _ _ _ B L) as B'.
    dbase B'. cbn in *. constructor; cbn; auto.
    + lia.
    + split; [lia|]. split; [rewrite A; exact T|].
      pose proof (k_chain _ _ _ B) as C. eapply chain_ok_le; [exact L|exact C|lia].
    + intros i [<-|Hi] H0; [right; auto|]. left.
      destruct (Kcmeta i Hi H0) as [X|[X _]]; [exact X|contradiction].
    + discriminate.
    + unfold special_inv, open_chain in *. cbn in *. rewrite Hcode in Kspecial.
      destruct (d_in_special st) as [[sp m]|]; [|trivial]. exact Kspecial.
Qed.

(** New end tag. *)
Lemma add_end : forall opts pre n st, base opts pre st ->
  n_type n = NTagEnd -> n_begin_at n <= length pre -> n_meta n = None ->
  add_new_node n st = ROk (set_current_node (length (d_heap st)) (set_heap (d_heap st ++ [n]) st)) /\
  heap_le (length pre) (d_heap st) (d_heap st ++ [n]).
Proof.
  intros opts pre n st B H1 H2 H3. split; [|apply heap_le_alloc; assumption].
  unfold add_new_node. rewrite H1. reflexivity.
Qed.

(** Flipping a pending whitespace text. *)
Lemma spaces_between_spec : forall st, exists h',
  set_text_spaces_between st = set_check_textnode None (set_heap h' st) /\
  length h' = length (d_heap st) /\
  (h' = d_heap st \/ exists i, d_check_textnode st = Some i /\ h' = hupd (d_heap st) i (nset_type NSpacesBetweenTag)).
Proof.
  intro st. unfold set_text_spaces_between. destruct (d_check_textnode st) as [i|] eqn:E.
  - eexists. split; [reflexivity|]. split; [apply hupd_length|]. right. exists i. auto.
  - exists (d_heap st). split; [|auto]. destruct st. cbn in *. subst. reflexivity.
Qed.

Lemma spaces_between_ok : forall p st,
  (forall i, d_check_textnode st = Some i -> textual (ty (d_heap st) i)) ->
  exists h', set_text_spaces_between st = set_check_textnode None (set_heap h' st) /\
    length h' = length (d_heap st) /\ heap_le p (d_heap st) h' /\
    (forall i, n_meta (hget h' i) = n_meta (hget (d_heap st) i)) /\
    (forall i, ~ textual (ty (d_heap st) i) -> ty h' i = ty (d_heap st) i).
Proof.
  intros p st H. destruct (spaces_between_spec st) as [h' [E [L [->|[i [Hi ->]]]]]].
  - exists (d_heap st). split; [exact E|]. repeat split; auto; try lia.
    + apply same_kind_refl.
    + unfold name_of, mt. rewrite hget_default by assumption. cbn. lia.
    + unfold name_of, mt. rewrite hget_default by assumption. reflexivity.
  - specialize (H i Hi). eexists. split; [exact E|]. split; [exact L|]. split; [|split].
    + split; [rewrite hupd_length; lia|]. split.
      * intros j Hj. unfold name_of, mt, ty in *. destruct (Nat.eq_dec i j) as [->|N].
        -- rewrite hget_hupd_same by assumption. repeat split. right. split; [exact H|right; reflexivity].
        -- rewrite hget_hupd_other by assumption. repeat split. apply same_kind_refl.
      * intros j Hj. unfold name_of, mt. rewrite hget_hupd_out by assumption. cbn. split; [lia|reflexivity].
    + intro j. apply hupd_keep. reflexivity.
    + intros j Hj. unfold ty in *. destruct (Nat.eq_dec i j) as [->|N]; [contradiction|].
      rewrite hget_hupd_other by assumption. reflexivity.
Qed.
