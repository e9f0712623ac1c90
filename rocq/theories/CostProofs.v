(** Bounds on the memory and the work of the parser. *)
From Coq Require Import String.
From Verif Require Import Api Cost SpecCost HeapLemmas.
Local Open Scope string_scope.
Local Open Scope list_scope.

(** ** Sums over the heap *)
Definition hsum (w : node -> nat) (h : list node) : nat := list_sum (map w h).
Lemma list_sum_app2 : forall a b, list_sum (a ++ b) = list_sum a + list_sum b.
Proof. intros. apply list_sum_app. Qed.
Lemma list_sum_cons : forall x l, list_sum (x :: l) = x + list_sum l.
Proof. reflexivity. Qed.
Arguments list_sum : simpl never.
Lemma hsum_app : forall w a b, hsum w (a ++ b) = hsum w a + hsum w b.
Proof. intros. unfold hsum. rewrite map_app. apply list_sum_app2. Qed.
Lemma hsum_upd : forall w h i f, w dummy_node = 0 ->
  hsum w (hupd h i f) + w (hget h i) <= hsum w h + w (f (hget h i)).
Proof.
  intros w h i f D. revert i. induction h as [|n h IH]; intros [|i]; unfold hget in *.
  - change (hupd [] 0 f) with (@nil node). cbn [nth]. rewrite D. lia.
  - change (hupd [] (S i) f) with (@nil node). cbn [nth]. rewrite D. lia.
  - change (hupd (n :: h) 0 f) with (f n :: h). unfold hsum. cbn [map nth]. rewrite !list_sum_cons. lia.
  - change (hupd (n :: h) (S i) f) with (n :: hupd h i f). unfold hsum in *. cbn [map nth]. rewrite !list_sum_cons. specialize (IH i). lia.
Qed.
Lemma hsum_upd_le : forall w h i f k, w dummy_node = 0 -> (forall n, w (f n) <= w n + k) ->
  hsum w (hupd h i f) <= hsum w h + k.
Proof. intros w h i f k D F. pose proof (hsum_upd w h i f D). specialize (F (hget h i)). lia. Qed.
Lemma hsum_in : forall w h i, w dummy_node = 0 -> w (hget h i) <= hsum w h.
Proof.
  intros w h i D. revert i. induction h as [|n h IH]; intros [|i]; unfold hget, hsum in *; cbn [map nth]; rewrite ?D, ?list_sum_cons; try lia.
  specialize (IH i). lia.
Qed.
Lemma hsum_list : forall w h l, w dummy_node = 0 -> NoDup l -> list_sum (map (fun i => w (hget h i)) l) <= hsum w h.
Proof.
  intros w h l D. revert h. induction l as [|i l IH]; intros h N; [unfold list_sum; cbn; lia|]. inversion N as [|x y N1 N2]; subst.
  specialize (IH (hupd h i (fun _ => dummy_node)) N2).
  pose proof (hsum_upd w h i (fun _ => dummy_node) D) as U. cbv beta in U. rewrite D in U.
  cbn [map]. rewrite list_sum_cons. replace (map (fun i => w (hget h i)) l) with (map (fun j => w (hget (hupd h i (fun _ => dummy_node)) j)) l); [lia|].
  apply map_ext_in. intros j J. rewrite hget_hupd_other; [reflexivity|]. intros ->. contradiction.
Qed.

(** ** Measures *)
Definition meta_mem (m : tag_meta) : nat :=
  2 * length (m_name m) + list_sum (map attr_chars (m_attrs m)) + key_chars (m_lc_name_map m).
Definition node_mem (n : node) : nat :=
  2 * opt_length (n_content n) + match n_meta n with Some m => meta_mem m | None => 0 end.
Definition mem (st : doc) : nat :=
  hsum node_mem (d_heap st) + key_chars (d_id_tags st) + 2 * length (d_prev_chars st).
Arguments hsum : simpl never.
Arguments node_mem : simpl never.
Arguments meta_mem : simpl never.
Arguments key_chars : simpl never.
Arguments mem : simpl never.
Lemma node_mem_dummy : node_mem dummy_node = 0. Proof. reflexivity. Qed.

(** What one operation changes: [grow k st st'] for memory, nothing else. *)
Definition mem_le (k : nat) (st st' : doc) : Prop := mem st' <= mem st + k.

Lemma mem_upd : forall i f st, mem (upd_node i f st) + node_mem (get_node st i) <= mem st + node_mem (f (get_node st i)).
Proof. intros. unfold mem, get_node. cbn. pose proof (hsum_upd node_mem (d_heap st) i f node_mem_dummy). lia. Qed.
Lemma mem_upd_le : forall i f st k, (forall n, node_mem (f n) <= node_mem n + k) -> mem (upd_node i f st) <= mem st + k.
Proof. intros i f st k F. pose proof (mem_upd i f st). specialize (F (get_node st i)). lia. Qed.
Lemma mem_cur : forall st, node_mem (cur st) <= mem st.
Proof. intros. unfold mem, cur, get_node. pose proof (hsum_in node_mem (d_heap st) (d_current_node st) node_mem_dummy). lia. Qed.
Lemma mem_cur2 : forall st i, node_mem (hget (d_heap st) i) + key_chars (d_id_tags st) + 2 * length (d_prev_chars st) <= mem st.
Proof. intros. unfold mem. pose proof (hsum_in node_mem (d_heap st) i node_mem_dummy). lia. Qed.

Lemma node_meta_le : forall f n k, (forall m, meta_mem (f m) <= meta_mem m + k) -> node_mem (nupd_meta f n) <= node_mem n + k.
Proof. intros f n k F. unfold nupd_meta. destruct (n_meta n) as [m|] eqn:E; [|lia]. unfold node_mem. cbn. rewrite E. specialize (F m). lia. Qed.
Lemma mem_tag_code_in : forall c st, mem (set_tag_code_in c st) <= mem st.
Proof.
  intros. unfold set_tag_code_in, upd_cur.
  match goal with |- mem (upd_node ?i ?f ?s) <= _ => pose proof (mem_upd_le i f s 0) as H; assert (E : mem s = mem st) by (destruct c; reflexivity) end.
  rewrite E in H. rewrite Nat.add_0_r in H. apply H. intro n. apply node_meta_le. intro m. unfold meta_mem. cbn. lia.
Qed.
Lemma sum_upd_last : forall {A} (w : A -> nat) f l k, (forall a, w (f a) <= w a + k) -> list_sum (map w (upd_last f l)) <= list_sum (map w l) + k.
Proof.
  intros A w f l k F. induction l as [|x l IH]; [unfold list_sum; cbn; lia|]. destruct l as [|y l]; [cbn [map upd_last]; rewrite !list_sum_cons; specialize (F x); lia|].
  change (upd_last f (x :: y :: l)) with (x :: upd_last f (y :: l)). cbn [map] in *. rewrite !list_sum_cons in *. lia.
Qed.
Lemma mem_add_key : forall st, mem (add_tag_attr_key st) <= mem st + 4.
Proof.
  intros. unfold add_tag_attr_key, upd_cur. pose proof (mem_upd_le (d_current_node st) (nupd_meta (fun m =>
    mset_code_in TKey (mset_attrs (m_attrs m ++ [mkAttr (Some []) None None false]) m))) st 4) as H. apply H.
  intro n. apply node_meta_le. intro m. unfold meta_mem. cbn. rewrite map_app, list_sum_app2. cbn. rewrite list_sum_cons. change (list_sum []) with 0. lia.
Qed.
Lemma mem_add_value : forall q st st', add_tag_attr_value q st = ROk st' -> mem st' <= mem st + 4.
Proof.
  intros q st st' E. unfold add_tag_attr_value in E. destruct (n_meta (cur st)) as [m|]; [|discriminate]. injection E as <-.
  pose proof (mem_upd_le (d_current_node st) (nupd_meta (fun m =>
        mset_code_in TValue (mset_attrs (m_attrs m ++ [mkAttr None (Some []) q false]) m))) st 4) as H. apply H.
  intro n. apply node_meta_le. intro x. unfold meta_mem. cbn. rewrite map_app, list_sum_app2. cbn. rewrite list_sum_cons. change (list_sum []) with 0. lia.
Qed.
Lemma lower_length : forall s, length (lower s) = length s.
Proof. intro. apply map_length. Qed.
Lemma key_chars_cons : forall {A} k (v : A) m, key_chars ((k, v) :: m) = length k + key_chars m.
Proof. reflexivity. Qed.
Lemma key_or_insert : forall {A} m k (v : A), key_chars (map_or_insert m k v) <= key_chars m + length k.
Proof. intros. unfold map_or_insert. destruct (map_get m k); [lia|]. unfold key_chars. cbn. rewrite list_sum_cons. cbn. lia. Qed.
Lemma mem_set_key : forall st st', set_tag_attr_key st = ROk st' -> mem st' <= mem st.
Proof.
  intros st st' E. unfold set_tag_attr_key in E.
  assert (M : mem (clean_chars st) + 2 * length (d_prev_chars st) = mem st) by (unfold mem; cbn; lia).
  destruct (n_meta (cur (clean_chars st))) as [m|] eqn:Em; [|injection E as <-; lia].
  destruct (m_attrs m) as [|a l] eqn:Ea; [discriminate|]. injection E as <-. unfold upd_cur.
  match goal with |- mem (upd_node ?i ?f ?s) <= _ => pose proof (mem_upd_le i f s (2 * length (d_prev_chars st))) as H end.
  etransitivity; [apply H|lia]. intro n. apply node_meta_le. intro x. unfold meta_mem. cbn.
  pose proof (key_or_insert (m_lc_name_map x) (lower (d_prev_chars st)) (length l - 0)) as K. rewrite lower_length in K.
  pose proof (sum_upd_last attr_chars (fun a => mkAttr (Some (d_prev_chars st)) (a_value a) (a_quote a) (a_need_quote a)) (m_attrs x) (length (d_prev_chars st))) as U.
  assert (U' := U ltac:(intro b; unfold attr_chars; cbn; lia)). lia.
Qed.
Lemma mem_set_value : forall q st st', set_tag_attr_value q st = ROk st' -> mem st' <= mem st.
Proof.
  intros q st st' E. unfold set_tag_attr_value in E.
  assert (M : mem (clean_chars st) + 2 * length (d_prev_chars st) = mem st) by (unfold mem; cbn; lia).
  destruct (n_meta (cur (clean_chars st))) as [m|] eqn:Em; [|injection E as <-; lia].
  destruct (last_opt (m_attrs m)) as [a|] eqn:Ea; [|discriminate]. injection E as <-.
  set (P := d_prev_chars st) in *.
  set (s1 := upd_cur (nupd_meta (fun m0 => mset_attrs (upd_last (fun a0 => mkAttr (a_key a0) (Some P) q (a_need_quote a0)) (m_attrs m0)) m0)) (clean_chars st)).
  assert (H : mem s1 <= mem (clean_chars st) + length P).
  { apply mem_upd_le. intro n. apply node_meta_le. intro x. unfold meta_mem. cbn.
    pose proof (sum_upd_last attr_chars (fun a0 => mkAttr (a_key a0) (Some P) q (a_need_quote a0)) (m_attrs x) (length P)) as U.
    assert (U' := U ltac:(intro b; unfold attr_chars; cbn; lia)). lia. }
  destruct (check_if_id _) as [id|] eqn:Ei; [|lia].
  assert (id = P).
  { unfold check_if_id in Ei. cbn [a_key a_value] in Ei. destruct (a_key a) as [l|]; [|discriminate]. destruct (is_equal_chars l (str "id") (Some Lower)); [|discriminate]. congruence. }
  subst id. assert (X : mem (set_id_tags (map_insert (d_id_tags st) P (d_current_node st)) s1) = mem s1 + length P).
  { change (hsum node_mem (d_heap s1) + (length P + key_chars (d_id_tags st)) + 2 * length (d_prev_chars s1) =
      hsum node_mem (d_heap s1) + key_chars (d_id_tags st) + 2 * length (d_prev_chars s1) + length P). lia. }
  lia.
Qed.
Lemma mem_eq : forall a b, d_heap a = d_heap b -> d_id_tags a = d_id_tags b -> d_prev_chars a = d_prev_chars b -> mem a = mem b.
Proof. intros a b A B C. unfold mem. rewrite A, B, C. reflexivity. Qed.
Lemma mem_push : forall c st, mem (push_char c st) = mem st + 2.
Proof. intros. unfold mem. cbn. rewrite app_length. cbn. lia. Qed.
Lemma mem_clean : forall st, mem (clean_chars st) + 2 * length (d_prev_chars st) = mem st.
Proof. intros. unfold mem. cbn. lia. Qed.
Lemma mem_code : forall c st, mem (set_code c st) = mem st.
Proof. reflexivity. Qed.
Lemma mem_free : forall i f st, (forall n, node_mem (f n) = node_mem n) -> mem (upd_node i f st) <= mem st.
Proof. intros i f st F. pose proof (mem_upd_le i f st 0) as H. rewrite Nat.add_0_r in H. apply H. intro n. rewrite F. lia. Qed.
Lemma mem_content : forall i x st, mem (upd_node i (nset_content (Some x)) st) <= mem st + 2 * length x.
Proof. intros. apply mem_upd_le. intro n. unfold node_mem. cbn. lia. Qed.
Lemma mem_alloc : forall n st, mem (alloc n st) = mem st + node_mem n.
Proof. intros. unfold mem. cbn. rewrite hsum_app. unfold hsum at 2. cbn. rewrite list_sum_cons. change (list_sum []) with 0. lia. Qed.
Lemma mem_add : forall n st st', add_new_node n st = ROk st' -> mem st' <= mem st + node_mem n.
Proof.
  intros n st st' E. unfold add_new_node in E. destruct (node_type_eqb (n_type n) NTagEnd).
  - injection E as <-. rewrite <- mem_alloc. apply Nat.eq_le_incl. reflexivity.
  - destruct (d_chain_nodes st) as [|p ch]; [discriminate|].
    destruct (match n_childs (get_node st p) with Some childs => _ | None => _ end) as [idx cs]. injection E as <-.
    match goal with |- context [upd_node p ?f ?s] => pose proof (mem_free p f s ltac:(reflexivity)) as H; rewrite mem_alloc in H;
      etransitivity; [|exact H] end.
    apply Nat.eq_le_incl. destruct (node_type_eqb (n_type n) NTag); reflexivity.
Qed.
Lemma mem_end_info : forall st, mem (set_tag_end_info st) <= mem st.
Proof. intros. apply mem_free. reflexivity. Qed.
Lemma mem_spaces : forall st, mem (set_text_spaces_between st) <= mem st.
Proof.
  intros. unfold set_text_spaces_between. destruct (d_check_textnode st) as [i|]; [|lia].
  etransitivity; [|apply (mem_free i (nset_type NSpacesBetweenTag) st); reflexivity]. apply Nat.eq_le_incl. reflexivity.
Qed.
Lemma mem_tag_meta : forall st b st', set_tag_meta st = (b, st') -> mem st' <= mem st.
Proof.
  intros st b st' E. unfold set_tag_meta in E. injection E as <- <-. pose proof (mem_clean st) as C.
  pose proof (mem_upd_le (d_current_node (clean_chars st)) (nset_meta (Some (mkMeta TWait (is_void_tag (lower (d_prev_chars st))) false false (d_prev_chars st) [] [])))
    (clean_chars st) (2 * length (d_prev_chars st))) as H.
  etransitivity; [apply H|lia]. intro n. unfold node_mem, meta_mem. cbn. change (key_chars []) with 0. change (list_sum []) with 0. lia.
Qed.
Lemma mem_type_do : forall st st', check_tag_type_do st = ROk st' -> mem st' = mem st.
Proof.
  intros st st' E. unfold check_tag_type_do in E. destruct (n_meta (cur st)) as [m|]; [|discriminate].
  destruct (is_content_tag _ _); injection E as <-; [reflexivity|]. destruct (d_in_special st); reflexivity.
Qed.
Lemma mem_parse_wait : forall st c st', parse_wait st c = ROk st' -> mem st' <= mem st + 2.
Proof.
  intros st c st' E. unfold parse_wait in E. destruct (N.eqb c TAG_BEGIN_CHAR).
  { injection E as <-. assert (X : mem (set_code CUnkownTag (set_mem_position (d_position st) st)) = mem st) by reflexivity. lia. }
  destruct (_ && _)%bool.
  - injection E as <-. rewrite mem_code, mem_push.
    match goal with |- mem (set_repeat_whitespace _ ?s) + 2 <= _ => change (mem s + 2 <= mem st + 2) end.
    destruct (n_content (cur st)) as [x|] eqn:Ex; [|lia].
    pose proof (mem_upd (d_current_node st) (nset_content (Some [])) (set_prev_chars (d_prev_chars st ++ x) st)) as H.
    change (get_node (set_prev_chars (d_prev_chars st ++ x) st) (d_current_node st)) with (cur st) in H.
    assert (A : node_mem (cur st) = node_mem (nset_content (Some []) (cur st)) + 2 * length x) by (unfold node_mem; cbn; rewrite Ex; cbn; lia).
    assert (B : mem (set_prev_chars (d_prev_chars st ++ x) st) = mem st + 2 * length x) by (unfold mem; cbn; rewrite app_length; lia).
    unfold upd_cur. cbn [d_current_node set_prev_chars]. lia.
  - destruct (add_new_node (node_new NText (d_position st)) st) as [s1| |] eqn:Ea; cbn in E; try discriminate. injection E as <-.
    apply mem_add in Ea. rewrite mem_code, mem_push. change (node_mem (node_new NText (d_position st))) with 0 in Ea.
    match goal with |- mem (set_repeat_whitespace _ ?s) + 2 <= _ => change (mem s + 2 <= mem st + 2) end. lia.
Qed.
Lemma mem_parse_text : forall st c st', parse_text st c = ROk st' -> mem st' <= mem st + 2.
Proof.
  intros st c st' E. unfold parse_text in E. destruct (N.eqb c TAG_BEGIN_CHAR).
  - injection E as <-. rewrite mem_code. etransitivity; [apply mem_end_info|].
    match goal with |- mem (set_mem_position _ (set_check_textnode _ ?s)) <= _ => change (mem s <= mem st + 2) end.
    pose proof (mem_content (d_current_node st) (d_prev_chars st) (clean_chars st)) as H. pose proof (mem_clean st).
    unfold upd_cur. cbn [d_current_node clean_chars set_prev_chars]. unfold clean_chars in *. lia.
  - injection E as <-. rewrite mem_push. destruct (d_repeat_whitespace st); [|lia].
    match goal with |- mem (set_repeat_whitespace _ ?s) + 2 <= _ => change (mem s + 2 <= mem st + 2) end. lia.
Qed.
Lemma mem_doctype_name : forall st c st', parse_doctype_name st c = ROk st' -> mem st' <= mem st.
Proof.
  intros st c st' E. unfold parse_doctype_name, doc_error in E. destruct (is_ascii_whitespace c); [|discriminate]. injection E as <-.
  etransitivity; [apply mem_tag_code_in|]. apply (mem_tag_meta _ (fst (set_tag_meta st))). apply surjective_pairing.
Qed.
Lemma mem_tag_name : forall st c st', parse_tag_name st c = ROk st' -> mem st' <= mem st + 2.
Proof.
  intros st c st' E. unfold parse_tag_name in E. destruct (set_tag_meta st) as [b s1] eqn:Em. pose proof (mem_tag_meta _ _ _ Em) as M.
  destruct (N.eqb c TAG_END_CHAR).
  - destruct b.
    + injection E as <-. assert (X : mem (set_code CUnkown (chain_pop s1)) = mem s1) by reflexivity. lia.
    + apply mem_type_do in E. lia.
  - destruct (N.eqb c END_SLASH_CHAR).
    + injection E as <-. cbn [snd]. assert (X : mem (set_handle HSelfClosing s1) = mem s1) by reflexivity. lia.
    + destruct (is_ascii_whitespace c); injection E as <-; cbn [snd].
      * etransitivity; [apply mem_tag_code_in|]. lia.
      * rewrite mem_push. lia.
Qed.
Lemma mem_tag_wait : forall st c st', parse_tag_wait st c = ROk st' -> mem st' <= mem st + 6.
Proof.
  intros st c st' E. unfold parse_tag_wait in E. destruct (_ || _)%bool.
  - destruct (tag_code_of st) as [code| |]; cbn in E; try discriminate. destruct (tag_code_in_eqb code TWaitValue).
    + injection E as <-. etransitivity; [apply mem_tag_code_in|]. change (mem st <= mem st + 6). lia.
    + assert (G : mem (set_tag_code_in TKey (push_char c (add_tag_attr_key st))) <= mem st + 6).
      { etransitivity; [apply mem_tag_code_in|]. rewrite mem_push. pose proof (mem_add_key st). lia. }
      destruct (d_code_in st); try (injection E as <-; exact G).
      destruct (add_tag_attr_value (Some c) st) as [s1| |] eqn:Ea; cbn in E; try discriminate. injection E as <-.
      etransitivity; [apply mem_tag_code_in|]. change (mem s1 <= mem st + 6). apply mem_add_value in Ea. lia.
  - destruct (N.eqb c TAG_END_CHAR).
    { destruct (n_meta (cur st)) as [m|]; [|discriminate]. destruct (m_is_void m).
      - injection E as <-. change (mem st <= mem st + 6). lia.
      - apply mem_type_do in E. lia. }
    destruct (N.eqb c END_SLASH_CHAR). { injection E as <-. change (mem st <= mem st + 6). lia. }
    destruct (N.eqb c EQUAL_CHAR).
    { destruct (tag_code_of st) as [code| |]; cbn in E; try discriminate. destruct (tag_code_in_eqb code TKeyEnd).
      { injection E as <-. etransitivity; [apply mem_tag_code_in|]. lia. }
      destruct (tag_code_in_eqb code TWait).
      - destruct (negb _); [discriminate|]. injection E as <-. etransitivity; [apply mem_tag_code_in|].
        etransitivity; [apply mem_add_key|]. rewrite mem_push. lia.
      - injection E as <-. etransitivity; [apply mem_tag_code_in|]. change (mem (push_char c st) <= mem st + 6). rewrite mem_push. lia. }
    destruct (is_ascii_whitespace c). { injection E as <-. lia. }
    destruct (tag_code_of (push_char c st)) as [code| |]; cbn in E; try discriminate. destruct (tag_code_in_eqb code TWaitValue); injection E as <-.
    + etransitivity; [apply mem_tag_code_in|]. change (mem (push_char c st) <= mem st + 6). rewrite mem_push. lia.
    + etransitivity; [apply mem_tag_code_in|]. etransitivity; [apply mem_add_key|]. rewrite mem_push. lia.
Qed.
Lemma mem_self_closing : forall st c st', parse_tag_self_closing st c = ROk st' -> mem st' <= mem st + 6.
Proof.
  intros st c st' E. unfold parse_tag_self_closing, doc_error in E. destruct (N.eqb c TAG_END_CHAR).
  - destruct (n_meta (cur st)) as [m|]; [|discriminate]. destruct (_ && _)%bool; [discriminate|]. injection E as <-.
    match goal with |- mem (set_code _ (chain_pop ?s)) <= _ => change (mem s <= mem st + 6) end.
    etransitivity; [apply mem_free|lia]. intro n. unfold nupd_meta. destruct (n_meta n) as [m'|] eqn:Em; [|reflexivity].
    unfold node_mem. cbn. rewrite Em. reflexivity.
  - destruct (N.eqb c END_SLASH_CHAR); [injection E as <-; lia|]. eapply mem_tag_wait; eauto.
Qed.
Lemma mem_attr_key : forall st c st', parse_tag_attr_key st c = ROk st' -> mem st' <= mem st + 6.
Proof.
  intros st c st' E. unfold parse_tag_attr_key in E.
  destruct (set_tag_attr_key st) as [s1| |] eqn:Es; cbn [rbind] in E.
  2,3: destruct (N.eqb c EQUAL_CHAR); [discriminate|]; destruct (N.eqb c TAG_END_CHAR); [discriminate|];
       destruct (N.eqb c END_SLASH_CHAR); [discriminate|]; destruct (is_ascii_whitespace c); [discriminate|];
       injection E as <-; rewrite mem_push; lia.
  apply mem_set_key in Es. destruct (N.eqb c EQUAL_CHAR). { injection E as <-. etransitivity; [apply mem_tag_code_in|]. lia. }
  destruct (N.eqb c TAG_END_CHAR). { apply mem_tag_wait in E. pose proof (mem_tag_code_in TKeyEnd s1). lia. }
  destruct (N.eqb c END_SLASH_CHAR). { injection E as <-. change (mem (set_tag_code_in TWait s1) <= mem st + 6). etransitivity; [apply mem_tag_code_in|]. lia. }
  destruct (is_ascii_whitespace c). { injection E as <-. change (mem (set_tag_code_in TKeyEnd s1) <= mem st + 6). etransitivity; [apply mem_tag_code_in|]. lia. }
  injection E as <-. rewrite mem_push. lia.
Qed.
Lemma mem_attr_value : forall st c st', parse_tag_attr_value st c = ROk st' -> mem st' <= mem st + 6.
Proof.
  intros st c st' E. unfold parse_tag_attr_value in E. destruct (_ && _)%bool.
  - destruct (set_tag_attr_value None st) as [s1| |] eqn:Es; cbn [rbind] in E; try discriminate. apply mem_set_value in Es.
    apply mem_tag_wait in E. pose proof (mem_tag_code_in TValueEnd s1). lia.
  - destruct (if N.eqb (d_mark_char st) WS_CHAR then _ else _) as [b q]. destruct b.
    + destruct (set_tag_attr_value q (set_mark_char EOF_CHAR st)) as [s1| |] eqn:Es; cbn [rbind] in E; try discriminate.
      apply mem_set_value in Es. injection E as <-. etransitivity; [apply mem_tag_code_in|].
      change (mem (set_mark_char EOF_CHAR st)) with (mem st) in Es. lia.
    + injection E as <-. rewrite mem_push. lia.
Qed.
Lemma ok_inj : forall {A} (a b : A), ROk a = ROk b -> a = b.
Proof. intros A a b E. congruence. Qed.
Lemma mem_tagend : forall st c st', parse_tagend st c = ROk st' -> mem st' <= mem st + 2.
Proof.
  intros st c st' E. unfold parse_tagend in E. destruct (N.eqb c TAG_END_CHAR); [|injection E as <-; rewrite mem_push; lia].
  destruct (if Nat.ltb 1 (length (d_chain_nodes st)) then _ else _) as [ok| |]; cbn [rbind] in E; try discriminate. destruct ok.
  - destruct (d_chain_nodes st) as [|t ch]; [discriminate|]. apply ok_inj in E. subst st'.
    set (s1 := upd_node t (nset_end_tag (Some (d_current_node (set_chain_nodes ch st)))) (set_chain_nodes ch st)).
    assert (M1 : mem s1 <= mem st) by (apply (mem_free t (nset_end_tag (Some (d_current_node (set_chain_nodes ch st)))) (set_chain_nodes ch st)); reflexivity).
    assert (P1 : d_prev_chars s1 = d_prev_chars st) by reflexivity.
    set (b := match n_childs (get_node s1 t) with Some [k] => node_type_eqb (n_type (get_node s1 k)) NText | _ => false end).
    set (s2 := if b then s1 else set_text_spaces_between s1).
    assert (M2 : mem s2 <= mem s1) by (unfold s2; destruct b; [lia|apply mem_spaces]).
    assert (P2 : d_prev_chars s2 = d_prev_chars s1) by (unfold s2; destruct b; [reflexivity|]; unfold set_text_spaces_between; destruct (d_check_textnode s1); reflexivity).
    set (s3 := set_code CUnkown (set_tag_end_info s2)).
    assert (M3 : mem s3 <= mem s2) by (apply (mem_end_info s2)).
    assert (P3 : d_prev_chars s3 = d_prev_chars s2) by reflexivity.
    match goal with |- context [clean_chars ?s] => set (s4 := s) end.
    assert (M4 : mem s4 = mem s3) by (unfold s4; destruct (d_in_special s3) as [[sp nm]|]; [destruct (is_equal_chars nm _ None)|]; reflexivity).
    assert (P4 : d_prev_chars s4 = d_prev_chars s3) by (unfold s4; destruct (d_in_special s3) as [[sp nm]|]; [destruct (is_equal_chars nm _ None)|]; reflexivity).
    pose proof (mem_clean s4) as C. unfold upd_cur.
    match goal with |- mem (upd_node ?i ?f ?s) <= _ => pose proof (mem_upd_le i f s (2 * length (d_prev_chars s4))) as H end.
    etransitivity; [apply H|lia]. intro n. unfold node_mem. cbn. lia.
  - destruct (negb _); [unfold doc_error in E; discriminate|].
    match type of E with rbind ?r _ = _ => destruct r as [s1| |] eqn:Es end; cbn [rbind] in E; try discriminate. injection E as <-.
    assert (M : mem s1 = mem st /\ d_prev_chars s1 = d_prev_chars st).
    { destruct (n_prev (cur st)) as [p|]; [destruct (alive st p); [|discriminate]|]; injection Es as <-; split; reflexivity. }
    rewrite mem_code. pose proof (mem_clean s1). lia.
Qed.
Lemma trim_firstn : forall l, exists w, l = chars_trim_end l ++ w.
Proof.
  intro l. unfold chars_trim_end. assert (L : l = rev (rev l)) by (symmetry; apply rev_involutive). revert L. generalize (rev l) as r. intros r L. subst l.
  assert (H : exists w, r = w ++ drop_ws r).
  { induction r as [|c r IH]; [exists []; reflexivity|]. cbn. destruct (is_ascii_whitespace c); [|exists []; reflexivity].
    destruct IH as [w W]. exists (c :: w). cbn. congruence. }
  destruct H as [w W]. exists (rev w). rewrite W at 1. apply rev_app_distr.
Qed.
Lemma trim_length : forall l, length (chars_trim_end l) <= length l.
Proof. intro l. destruct (trim_firstn l) as [w W]. rewrite W at 2. rewrite app_length. lia. Qed.
Lemma mem_content_tag : forall st c st', parse_content_tag st c = ROk st' -> mem st' <= mem st + 2.
Proof.
  intros st c st' E. unfold parse_content_tag in E. destruct (negb _); [injection E as <-; rewrite mem_push; lia|].
  destruct (d_detect st) as [e|]; [|discriminate]. destruct (_ && _)%bool; [|injection E as <-; rewrite mem_push; lia]. apply ok_inj in E. subst st'.
  set (k := length (chars_trim_end (d_prev_chars st)) - length e).
  match goal with |- context [alloc ?n ?s] => set (en := n); set (s0 := s) end.
  assert (A : mem (alloc en s0) = mem st + node_mem en) by (rewrite mem_alloc; reflexivity).
  assert (B : node_mem en = 2 * length (skipn 2 (skipn k (d_prev_chars st)))) by (unfold node_mem, en; cbn [n_content n_meta opt_length nset_parent nset_content node_new]; lia).
  clearbody en. set (s1 := clean_chars (alloc en s0)).
  assert (C : mem s1 + 2 * length (d_prev_chars st) = mem (alloc en s0)) by (apply (mem_clean (alloc en s0))).
  match goal with |- mem (set_detect None (chain_pop ?s)) <= _ => change (mem s <= mem st + 2) end.
  match goal with |- mem (upd_cur ?f s1) <= _ => pose proof (mem_upd_le (d_current_node s1) f s1 (2 * length (firstn k (d_prev_chars st)))) as H end.
  etransitivity; [apply H|].
  - intro n. unfold node_mem. cbn. lia.
  - pose proof (firstn_skipn k (d_prev_chars st)) as F. apply (f_equal (@length _)) in F. rewrite app_length in F.
    pose proof (skipn_length 2 (skipn k (d_prev_chars st))). lia.
Qed.
Lemma mem_comment : forall st c st', parse_comment_or_cdata st c = ROk st' -> mem st' <= mem st + 2.
Proof.
  intros st c st' E. unfold parse_comment_or_cdata in E. destruct (_ && _)%bool; [|injection E as <-; rewrite mem_push; lia].
  injection E as <-. rewrite mem_code. etransitivity; [apply mem_end_info|].
  match goal with |- mem (set_mark_char _ ?s) <= _ => change (mem s <= mem st + 2) end.
  pose proof (mem_clean st). pose proof (mem_content (d_current_node st) (firstn (length (d_prev_chars st) - 2) (d_prev_chars st)) (clean_chars st)) as H0.
  pose proof (firstn_le_length (length (d_prev_chars st) - 2) (d_prev_chars st)). unfold upd_cur.
  change (d_current_node (clean_chars st)) with (d_current_node st). lia.
Qed.
Lemma mem_prev : forall x st, mem (set_prev_chars x st) + 2 * length (d_prev_chars st) = mem st + 2 * length x.
Proof. intros. unfold mem. cbn. lia. Qed.
Lemma mem_fix_lt : forall st c st', fix_unescaped_lt st c = ROk st' -> mem st' <= mem st + 10.
Proof.
  intros st c st' E. unfold fix_unescaped_lt in E.
  set (b := N.eqb c TAG_BEGIN_CHAR) in *. set (chars := str "&lt;" ++ (if b then [] else [c])) in *.
  assert (LC : length chars <= if b then 4 else 5) by (unfold chars; destruct b; cbn; lia). clearbody chars.
  match type of E with context [let '(x, y) := ?p in _] => remember p as q eqn:Q; destruct q as [s1 parent] end.
  match type of E with context [set_code CTextNode (set_repeat_whitespace false ?s)] => set (s2 := s) in * end.
  assert (M : mem s2 <= mem st + (if b then 8 else 10)).
  { assert (P : (parent = None /\ mem s1 <= mem st + 2 * length chars) \/ (s1 = st)).
    { assert (T : (s1, parent) = match n_content (cur st) with
          | Some content => (let s := set_prev_chars (content ++ chars) (upd_cur (nset_content (Some [])) st) in
              if node_type_eqb (n_type (cur st)) NSpacesBetweenTag then upd_cur (nset_type NText) s else s, None)
          | None => (if node_type_eqb (n_type (cur st)) NSpacesBetweenTag then upd_cur (nset_type NText) st else st, None) end \/ s1 = st).
      { destruct (n_type (cur st)); try (right; congruence); try (left; rewrite Q; destruct (n_content (cur st)); reflexivity).
        right. destruct (negb _); congruence. }
      destruct T as [T|T]; [|right; exact T]. left.
      destruct (n_content (cur st)) as [x|] eqn:Ex; injection T as -> ->; (split; [reflexivity|]).
      - assert (A : mem (set_prev_chars (x ++ chars) (upd_cur (nset_content (Some [])) st)) <= mem st + 2 * length chars).
        { pose proof (mem_prev (x ++ chars) (upd_cur (nset_content (Some [])) st)) as H. rewrite app_length in H.
          pose proof (mem_upd (d_current_node st) (nset_content (Some [])) st) as U. change (get_node st (d_current_node st)) with (cur st) in U.
          assert (B : node_mem (cur st) = node_mem (nset_content (Some []) (cur st)) + 2 * length x) by (unfold node_mem; cbn; rewrite Ex; cbn; lia).
          unfold upd_cur in *. lia. }
        destruct (node_type_eqb _ _); [|exact A]. etransitivity; [apply mem_free; reflexivity|exact A].
      - destruct (node_type_eqb _ _); [|lia]. etransitivity; [apply mem_free; reflexivity|lia]. }
    unfold s2. destruct P as [[-> P]| ->]; [destruct b; lia|].
    destruct parent as [p|]; [|destruct b; lia].
    match goal with |- mem (set_prev_chars chars ?s) <= _ => pose proof (mem_prev chars s) as H end.
    match type of H with context [set_prev_chars chars (set_current_node ?i ?s)] => assert (K : mem (set_current_node i s) <= mem st) end.
    { match goal with |- mem (set_current_node _ ?s) <= _ => change (mem s <= mem st) end.
      etransitivity; [apply mem_free; reflexivity|]. rewrite mem_alloc.
      match goal with |- mem st + node_mem ?n <= _ => change (node_mem n) with 0 end. lia. }
    destruct b; lia. }
  clearbody s2. destruct b.
  - apply mem_parse_text in E. change (mem (set_code CTextNode (set_repeat_whitespace false s2))) with (mem s2) in E. lia.
  - injection E as <-. change (mem s2 <= mem st + 10). lia.
Qed.
Lemma mem_unkown : forall st c st', parse_unkown_tag st c = ROk st' -> mem st' <= mem st + 10.
Proof.
  intros st c st' E. unfold parse_unkown_tag in E. destruct (is_ascii_alphabetic c).
  - destruct (add_new_node _ st) as [s1| |] eqn:Ea; cbn in E; try discriminate. injection E as <-. apply mem_add in Ea.
    change (node_mem (node_new NTag (d_mem_position st))) with 0 in Ea. rewrite mem_push.
    pose proof (mem_spaces (set_code CTag s1)) as H. rewrite mem_code in H. lia.
  - destruct (N.eqb c END_SLASH_CHAR).
    + destruct (add_new_node _ st) as [s1| |] eqn:Ea; cbn in E; destruct (negb _); try discriminate.
      all: injection E as <-; apply mem_add in Ea; change (node_mem (node_new NTagEnd (d_mem_position st))) with 0 in Ea.
      * rewrite mem_code. lia.
      * match goal with |- mem ?s <= _ => change (mem (upd_cur (nset_prev (Some (d_current_node st))) s1) <= mem st + 10) end.
        etransitivity; [apply mem_free; reflexivity|]. lia.
    + destruct (N.eqb c EXCLAM_CHAR). { injection E as <-. rewrite mem_code. lia. }
      destruct (negb _); [discriminate|]. eapply mem_fix_lt; eauto.
Qed.
Lemma mem_exclamation : forall st c st', parse_exclamation_begin st c = ROk st' -> mem st' <= mem st + 2.
Proof.
  intros st c st' E. unfold parse_exclamation_begin in E. destruct (d_detect st) as [nx|].
  - destruct (Nat.ltb _ _); [|injection E as <-; rewrite mem_push; lia]. destruct (N.eqb _ _); [|discriminate].
    destruct (Nat.eqb _ _); [|injection E as <-; rewrite mem_push; lia].
    destruct (N.eqb c DASH_CHAR || N.eqb c LEFT_BRACKET_CHAR)%bool.
    + destruct (if N.eqb c DASH_CHAR then _ else _) as [[ci mk] nt].
      destruct (add_new_node _ _) as [s1| |] eqn:Ea; cbn [rbind] in E; try discriminate. injection E as <-. apply mem_add in Ea.
      change (node_mem (node_new nt (d_mem_position st))) with 0 in Ea.
      change (mem (set_code ci (set_mark_char mk st))) with (mem st) in Ea.
      match goal with |- mem (set_detect None ?s) <= _ => change (mem s <= mem st + 2) end.
      etransitivity; [apply mem_spaces|]. pose proof (mem_prev [] s1) as H. cbn in H. lia.
    + destruct (N.eqb c 69 || N.eqb c 101)%bool; [|discriminate].
      destruct (add_new_node _ _) as [s1| |] eqn:Ea; cbn [rbind] in E; try discriminate. injection E as <-. apply mem_add in Ea.
      change (node_mem (node_new NHTMLDOCTYPE (d_mem_position st))) with 0 in Ea. rewrite mem_code in Ea. rewrite mem_push.
      match goal with |- mem (set_detect None ?s) + 2 <= _ => change (mem s + 2 <= mem st + 2) end.
      pose proof (mem_spaces s1). lia.
  - destruct (if N.eqb c DASH_CHAR then _ else _) as [dt| |]; cbn [rbind] in E; try discriminate. injection E as <-. rewrite mem_push.
    match goal with |- mem (set_detect ?x ?s) + 2 <= _ => change (mem s + 2 <= mem st + 2) end. lia.
Qed.
Lemma mem_next : forall st c st', next st c = ROk st' -> mem st' <= mem st + 10.
Proof.
  intros st c st' E. unfold next in E. destruct (run_handle st c) as [s1| |] eqn:Er; cbn in E; try discriminate. injection E as <-.
  match goal with |- mem (set_position _ ?s) <= _ => change (mem s <= mem st + 10) end. unfold run_handle in Er.
  destruct (d_handle st).
  - injection Er as <-. lia.
  - apply mem_parse_wait in Er. lia.
  - apply mem_parse_text in Er. lia.
  - apply mem_doctype_name in Er. lia.
  - apply mem_tag_name in Er. lia.
  - apply mem_self_closing in Er. lia.
  - apply mem_tag_wait in Er. lia.
  - apply mem_attr_key in Er. lia.
  - apply mem_attr_value in Er. lia.
  - apply mem_tagend in Er. lia.
  - apply mem_content_tag in Er. lia.
  - apply mem_comment in Er. lia.
  - apply mem_unkown in Er. lia.
  - apply mem_exclamation in Er. lia.
Qed.
Lemma mem_run : forall s st st', run st s = ROk st' -> mem st' <= mem st + 10 * length s.
Proof.
  induction s as [|c s IH]; intros st st' E; cbn in E.
  - injection E as <-. lia.
  - destruct (next st c) as [s1| |] eqn:En; cbn in E; try discriminate. apply mem_next in En. apply IH in E. cbn [length]. lia.
Qed.

(** ** Number of nodes *)
Definition opt_special (x : option (special_tag * list char)) : nat := match x with Some (_, n) => length n | None => 0 end.
Definition kept (st st' : doc) : Prop :=
  (d_detect st' = d_detect st \/ opt_length (d_detect st') <= 10) /\
  (d_in_special st' = d_in_special st \/ opt_special (d_in_special st') <= 4).
Definition shrunk (st st' : doc) : Prop := d_chain_nodes st' = d_chain_nodes st \/ d_chain_nodes st' = tl (d_chain_nodes st).
Inductive grown (st st' : doc) : Prop :=
  | gr_same : length (d_heap st') = length (d_heap st) -> shrunk st st' -> kept st st' -> grown st st'
  | gr_new : length (d_heap st') = S (length (d_heap st)) -> shrunk st st' -> kept st st' -> d_handle st' <> HUnkownTag \/ d_handle st = HUnkownTag -> grown st st'
  | gr_tag : d_handle st = HUnkownTag -> length (d_heap st') = S (length (d_heap st)) -> d_chain_nodes st' = length (d_heap st) :: d_chain_nodes st ->
      kept st st' -> d_handle st' <> HUnkownTag -> grown st st'.

Lemma kept_refl : forall st st', d_detect st' = d_detect st -> d_in_special st' = d_in_special st -> kept st st'.
Proof. intros. split; left; assumption. Qed.
Ltac keep := apply kept_refl; reflexivity.
Ltac same := apply gr_same; [cbn; rewrite ?hupd_length; reflexivity|left; reflexivity|keep].

(** Operations that leave the four components alone. *)
Definition sig (st : doc) := (length (d_heap st), d_chain_nodes st, d_detect st, d_in_special st).
Lemma sig_upd : forall i f st, sig (upd_node i f st) = sig st.
Proof. intros. unfold sig. cbn. rewrite hupd_length. reflexivity. Qed.
Lemma sig_code_in : forall c st, sig (set_tag_code_in c st) = sig st.
Proof. intros. unfold set_tag_code_in, upd_cur. rewrite sig_upd. destruct c; reflexivity. Qed.
Lemma sig_spaces : forall st, sig (set_text_spaces_between st) = sig st.
Proof. intros. unfold set_text_spaces_between. destruct (d_check_textnode st) as [i|]; [|reflexivity]. rewrite <- (sig_upd i (nset_type NSpacesBetweenTag) st). reflexivity. Qed.
Lemma sig_set_key : forall st st', set_tag_attr_key st = ROk st' -> sig st' = sig st.
Proof.
  intros st st' E. unfold set_tag_attr_key in E. destruct (n_meta _) as [m|]; [|injection E as <-; reflexivity].
  destruct (m_attrs m); [discriminate|]. apply ok_inj in E. subst st'. unfold upd_cur. rewrite sig_upd. reflexivity.
Qed.
Lemma sig_set_value : forall q st st', set_tag_attr_value q st = ROk st' -> sig st' = sig st.
Proof.
  intros q st st' E. unfold set_tag_attr_value in E. destruct (n_meta _) as [m|]; [|injection E as <-; reflexivity].
  destruct (last_opt _); [|discriminate]. apply ok_inj in E. subst st'.
  assert (X : forall (f : node -> node) (s : doc) x, sig (set_id_tags x (upd_cur f s)) = sig s) by (intros; unfold sig; cbn; rewrite hupd_length; reflexivity).
  destruct (check_if_id _).
  - rewrite X. reflexivity.
  - unfold upd_cur. rewrite sig_upd. reflexivity.
Qed.
Lemma sig_add_value : forall q st st', add_tag_attr_value q st = ROk st' -> sig st' = sig st.
Proof. intros q st st' E. unfold add_tag_attr_value in E. destruct (n_meta _); [|discriminate]. apply ok_inj in E. subst st'. unfold upd_cur. rewrite sig_upd. reflexivity. Qed.
Lemma sig_same : forall st st', sig st' = sig st -> grown st st'.
Proof. intros st st' E. unfold sig in E. injection E as A B C D. apply gr_same; [exact A|left; exact B|apply kept_refl; assumption]. Qed.

Lemma is_equal_length : forall a b k, is_equal_chars a b k = true -> length a = length b.
Proof. induction a as [|x a IH]; intros [|y b] k H; cbn in *; try discriminate; [reflexivity|]. apply andb_prop in H as [_ H]. f_equal. eauto. Qed.
Lemma content_name_length : forall n, is_content_tag n None = true -> length n <= 8.
Proof.
  intros n H. unfold is_content_tag, is_script_or_style, is_plain_text_tag in H.
  apply orb_prop in H as [H|H]; apply orb_prop in H as [H|H]; apply is_equal_length in H; rewrite H; cbn; lia.
Qed.
Lemma chars_eqb_length : forall a b, chars_eqb a b = true -> length a = length b.
Proof. induction a as [|x a IH]; intros [|y b] H; cbn in *; try discriminate; [reflexivity|]. apply andb_prop in H as [_ H]. f_equal. eauto. Qed.
Lemma special_length : forall n x, special_tag_map n = Some x -> length n <= 4.
Proof.
  intros n x H. unfold special_tag_map in H. destruct (chars_eqb n (str "svg")) eqn:A; [apply chars_eqb_length in A; rewrite A; cbn; lia|].
  destruct (chars_eqb n (str "math")) eqn:B; [apply chars_eqb_length in B; rewrite B; cbn; lia|discriminate].
Qed.
Lemma grown_type_do : forall st st', check_tag_type_do st = ROk st' ->
  length (d_heap st') = length (d_heap st) /\ d_chain_nodes st' = d_chain_nodes st /\ kept st st'.
Proof.
  intros st st' E. unfold check_tag_type_do in E. destruct (n_meta (cur st)) as [m|]; [|discriminate].
  destruct (is_content_tag _ _) eqn:C; apply ok_inj in E; subst st'.
  - apply content_name_length in C. rewrite lower_length in C. repeat split; try reflexivity.
    + right. cbn [d_detect set_detect opt_length]. rewrite app_length. cbn. lia.
    + left. destruct (is_equal_chars _ SCRIPT_TAG_NAME None); [reflexivity|]. destruct (is_equal_chars _ STYLE_TAG_NAME None); reflexivity.
  - destruct (d_in_special st) as [x|] eqn:Es.
    + repeat split; try reflexivity; try discriminate; left; reflexivity.
    + repeat split; try reflexivity; try discriminate; [left; reflexivity|]. right. cbn.
      destruct (special_tag_map (lower (m_name m))) eqn:X; cbn; [|lia]. apply special_length in X. rewrite lower_length in X. exact X.
Qed.
Lemma grown_sig : forall a b c, sig a = sig b -> length (d_heap c) = length (d_heap a) /\ shrunk a c /\ kept a c -> grown b c.
Proof.
  intros a b c E (A & B & C). unfold sig in E. injection E as E1 E2 E3 E4. unfold shrunk, kept in *. rewrite E1 in A. rewrite E2 in B. rewrite E3, E4 in C.
  apply gr_same; assumption.
Qed.
Lemma grown_type_do2 : forall a b c, sig a = sig b -> check_tag_type_do a = ROk c -> grown b c.
Proof.
  intros a b c E H. apply grown_type_do in H as (A & B & C). eapply grown_sig; eauto. split; [exact A|]. split; [left; exact B|exact C].
Qed.
Lemma add_spec : forall n st st', add_new_node n st = ROk st' -> length (d_heap st') = S (length (d_heap st)) /\
  d_chain_nodes st' = (if node_type_eqb (n_type n) NTag then [length (d_heap st)] else []) ++ d_chain_nodes st /\
  d_detect st' = d_detect st /\ d_in_special st' = d_in_special st /\ d_handle st' = d_handle st.
Proof.
  intros n st st' E. unfold add_new_node in E. destruct (node_type_eqb (n_type n) NTagEnd) eqn:T.
  - apply ok_inj in E. subst st'. destruct (n_type n); try discriminate T. cbn. rewrite app_length. cbn. repeat split; lia.
  - destruct (d_chain_nodes st) as [|p ch] eqn:Ec; [discriminate|].
    destruct (match n_childs (get_node st p) with Some childs => _ | None => _ end) as [idx cs]. apply ok_inj in E. subst st'.
    destruct (node_type_eqb (n_type n) NTag); cbn; rewrite hupd_length, app_length, Ec; cbn; repeat split; lia.
Qed.

Lemma gr_wait : forall st c st', parse_wait st c = ROk st' -> grown st st'.
Proof.
  intros st c st' E. unfold parse_wait in E. destruct (N.eqb c TAG_BEGIN_CHAR).
  { injection E as <-. apply gr_same; [reflexivity|left; reflexivity|keep]. }
  destruct (_ && _)%bool.
  - apply ok_inj in E. subst st'. destruct (n_content (cur st)); same.
  - destruct (add_new_node _ st) as [s1| |] eqn:Ea; cbn [rbind] in E; try discriminate. apply ok_inj in E. subst st'.
    apply add_spec in Ea as (A & B & C & D & F). cbn in B. apply gr_new; [exact A|left; exact B|apply kept_refl; assumption|left; discriminate].
Qed.
Lemma gr_text : forall st c st', parse_text st c = ROk st' -> grown st st'.
Proof.
  intros st c st' E. unfold parse_text in E. destruct (N.eqb c TAG_BEGIN_CHAR); apply ok_inj in E; subst st'.
  - apply gr_same; [cbn; rewrite !hupd_length; reflexivity|left; reflexivity|keep].
  - destruct (d_repeat_whitespace st); (apply gr_same; [reflexivity|left; reflexivity|keep]).
Qed.
Lemma sig_meta : forall st, sig (snd (set_tag_meta st)) = sig st.
Proof. intros. unfold set_tag_meta. cbn [snd]. unfold upd_cur. rewrite sig_upd. reflexivity. Qed.
Lemma gr_doctype : forall st c st', parse_doctype_name st c = ROk st' -> grown st st'.
Proof.
  intros st c st' E. unfold parse_doctype_name, doc_error in E. destruct (is_ascii_whitespace c); [|discriminate]. apply ok_inj in E. subst st'.
  apply sig_same; [rewrite sig_code_in; apply sig_meta].
Qed.
Lemma gr_tag_name : forall st c st', parse_tag_name st c = ROk st' -> grown st st'.
Proof.
  intros st c st' E. unfold parse_tag_name in E. pose proof (sig_meta st) as M. destruct (set_tag_meta st) as [b s1] eqn:Em. cbn [snd] in *.
  destruct (N.eqb c TAG_END_CHAR).
  - destruct b.
    + apply ok_inj in E. subst st'. unfold sig in M. injection M as A B C D. apply gr_same; [exact A|right; cbn; rewrite B; reflexivity|apply kept_refl; assumption].
    + eapply grown_type_do2; eauto.
  - destruct (N.eqb c END_SLASH_CHAR); [|destruct (is_ascii_whitespace c)]; apply ok_inj in E; subst st'.
    + apply sig_same; [exact M].
    + apply sig_same; [rewrite sig_code_in; exact M].
    + apply sig_same; reflexivity.
Qed.
Lemma gr_tag_wait : forall a b c, sig a = sig b -> forall ch, parse_tag_wait a ch = ROk c -> grown b c.
Proof.
  intros st b st' S0 c E. unfold parse_tag_wait in E. destruct (_ || _)%bool.
  - destruct (tag_code_of st) as [code| |]; cbn [rbind] in E; try discriminate. destruct (tag_code_in_eqb code TWaitValue).
    + apply ok_inj in E. subst st'. apply sig_same; [rewrite sig_code_in; exact S0].
    + assert (G : grown b (set_tag_code_in TKey (push_char c (add_tag_attr_key st)))).
      { apply sig_same; [rewrite sig_code_in]. rewrite <- S0.
        rewrite <- (sig_upd (d_current_node st) (nupd_meta (fun m => mset_code_in TKey (mset_attrs (m_attrs m ++ [mkAttr (Some []) None None false]) m))) st). reflexivity. }
      destruct (d_code_in st); try (apply ok_inj in E; subst st'; exact G).
      destruct (add_tag_attr_value (Some c) st) as [s1| |] eqn:Ea; cbn [rbind] in E; try discriminate. apply ok_inj in E. subst st'.
      apply sig_add_value in Ea. apply sig_same; [rewrite sig_code_in; rewrite <- S0, <- Ea; reflexivity].
  - destruct (N.eqb c TAG_END_CHAR).
    { destruct (n_meta (cur st)) as [m|]; [|discriminate]. destruct (m_is_void m).
      - apply ok_inj in E. subst st'. unfold sig in S0. injection S0 as A B C D. apply gr_same; [exact A|right; cbn; rewrite B; reflexivity|apply kept_refl; assumption].
      - eapply grown_type_do2; eauto. }
    destruct (N.eqb c END_SLASH_CHAR). { apply ok_inj in E. subst st'. apply sig_same; [exact S0]. }
    assert (K : forall s, sig (add_tag_attr_key s) = sig s) by (intro; unfold add_tag_attr_key, upd_cur; apply sig_upd).
    destruct (N.eqb c EQUAL_CHAR).
    { destruct (tag_code_of st) as [code| |]; cbn [rbind] in E; try discriminate. destruct (tag_code_in_eqb code TKeyEnd).
      { apply ok_inj in E. subst st'. apply sig_same; [rewrite sig_code_in; exact S0]. }
      destruct (tag_code_in_eqb code TWait).
      - destruct (negb _); [discriminate|]. apply ok_inj in E. subst st'. apply sig_same; [rewrite sig_code_in, K; exact S0].
      - apply ok_inj in E. subst st'. apply sig_same; [rewrite sig_code_in; exact S0]. }
    destruct (is_ascii_whitespace c). { apply ok_inj in E. subst st'. apply sig_same; exact S0. }
    destruct (tag_code_of (push_char c st)) as [code| |]; cbn [rbind] in E; try discriminate.
    destruct (tag_code_in_eqb code TWaitValue); apply ok_inj in E; subst st'.
    + apply sig_same; [rewrite sig_code_in; exact S0].
    + apply sig_same; [rewrite sig_code_in, K; exact S0].
Qed.
Lemma gr_self : forall st c st', parse_tag_self_closing st c = ROk st' -> grown st st'.
Proof.
  intros st c st' E. unfold parse_tag_self_closing, doc_error in E. destruct (N.eqb c TAG_END_CHAR).
  - destruct (n_meta (cur st)) as [m|]; [|discriminate]. destruct (_ && _)%bool; [discriminate|]. apply ok_inj in E. subst st'.
    apply gr_same; [cbn; apply hupd_length|right; reflexivity|keep].
  - destruct (N.eqb c END_SLASH_CHAR); [apply ok_inj in E; subst st'; apply sig_same; reflexivity|].
    eapply gr_tag_wait; eauto.
Qed.
Lemma gr_key : forall st c st', parse_tag_attr_key st c = ROk st' -> grown st st'.
Proof.
  intros st c st' E. unfold parse_tag_attr_key in E.
  destruct (set_tag_attr_key st) as [s1| |] eqn:Es; cbn [rbind] in E.
  2,3: destruct (N.eqb c EQUAL_CHAR); [discriminate|]; destruct (N.eqb c TAG_END_CHAR); [discriminate|];
       destruct (N.eqb c END_SLASH_CHAR); [discriminate|]; destruct (is_ascii_whitespace c); [discriminate|];
       apply ok_inj in E; subst st'; apply sig_same; reflexivity.
  apply sig_set_key in Es. destruct (N.eqb c EQUAL_CHAR). { apply ok_inj in E. subst st'. apply sig_same; [rewrite sig_code_in; exact Es]. }
  destruct (N.eqb c TAG_END_CHAR). { eapply gr_tag_wait; [rewrite sig_code_in; exact Es|exact E]. }
  destruct (N.eqb c END_SLASH_CHAR). { apply ok_inj in E. subst st'. apply sig_same; [change (sig (set_tag_code_in TWait s1) = sig st); rewrite sig_code_in; exact Es]. }
  destruct (is_ascii_whitespace c). { apply ok_inj in E. subst st'. apply sig_same; [change (sig (set_tag_code_in TKeyEnd s1) = sig st); rewrite sig_code_in; exact Es]. }
  apply ok_inj in E. subst st'. apply sig_same; reflexivity.
Qed.
Lemma gr_value : forall st c st', parse_tag_attr_value st c = ROk st' -> grown st st'.
Proof.
  intros st c st' E. unfold parse_tag_attr_value in E. destruct (_ && _)%bool.
  - destruct (set_tag_attr_value None st) as [s1| |] eqn:Es; cbn [rbind] in E; try discriminate. apply sig_set_value in Es.
    eapply gr_tag_wait; [rewrite sig_code_in; exact Es|exact E].
  - destruct (if N.eqb (d_mark_char st) WS_CHAR then _ else _) as [b q]. destruct b.
    + destruct (set_tag_attr_value q (set_mark_char EOF_CHAR st)) as [s1| |] eqn:Es; cbn [rbind] in E; try discriminate.
      apply sig_set_value in Es. apply ok_inj in E. subst st'. apply sig_same; [rewrite sig_code_in; exact Es].
    + apply ok_inj in E. subst st'. apply sig_same; reflexivity.
Qed.
Lemma gr_tagend : forall st c st', parse_tagend st c = ROk st' -> grown st st'.
Proof.
  intros st c st' E. unfold parse_tagend in E. destruct (N.eqb c TAG_END_CHAR); [|apply ok_inj in E; subst st'; apply sig_same; reflexivity].
  destruct (if Nat.ltb 1 (length (d_chain_nodes st)) then _ else _) as [ok| |]; cbn [rbind] in E; try discriminate. destruct ok.
  - destruct (d_chain_nodes st) as [|t ch] eqn:Ec; [discriminate|]. apply ok_inj in E. subst st'.
    set (s1 := upd_node t (nset_end_tag (Some (d_current_node (set_chain_nodes ch st)))) (set_chain_nodes ch st)).
    set (b := match n_childs (get_node s1 t) with Some [k] => node_type_eqb (n_type (get_node s1 k)) NText | _ => false end).
    set (s2 := if b then s1 else set_text_spaces_between s1).
    assert (M2 : sig s2 = sig (set_chain_nodes ch st)).
    { transitivity (sig s1); [unfold s2; destruct b; [reflexivity|apply sig_spaces]|unfold s1; apply sig_upd]. }
    set (s3 := set_code CUnkown (set_tag_end_info s2)).
    assert (M3 : sig s3 = sig (set_chain_nodes ch st)).
    { rewrite <- M2. unfold s3. change (sig (set_tag_end_info s2) = sig s2). unfold set_tag_end_info, upd_cur. apply sig_upd. }
    match goal with |- context [clean_chars ?s] => set (s4 := s) end.
    assert (M4 : length (d_heap s4) = length (d_heap st) /\ d_chain_nodes s4 = ch /\ d_detect s4 = d_detect st /\
      (d_in_special s4 = d_in_special st \/ d_in_special s4 = None)).
    { unfold sig in M3. injection M3 as A B C D. change (d_in_special s3 = d_in_special st) in D. unfold s4.
      destruct (d_in_special s3) as [[sp nm]|] eqn:Q.
      - destruct (is_equal_chars nm _ None).
        + repeat split; try assumption. right. reflexivity.
        + repeat split; try assumption. left. rewrite Q. exact D.
      - repeat split; try assumption. left. rewrite Q. exact D. }
    destruct M4 as (A & B & C & D). clearbody s4. unfold upd_cur. apply gr_same.
    + cbn. rewrite hupd_length. exact A.
    + right. cbn. rewrite B, Ec. reflexivity.
    + split; [left; exact C|]. destruct D as [D|D]; [left; exact D|right; cbn; rewrite D; cbn; lia].
  - destruct (negb _); [unfold doc_error in E; discriminate|].
    match type of E with rbind ?r _ = _ => destruct r as [s1| |] eqn:Es end; cbn [rbind] in E; try discriminate. apply ok_inj in E. subst st'.
    assert (M : sig s1 = sig st).
    { destruct (n_prev (cur st)) as [p|]; [destruct (alive st p); [|discriminate]|]; injection Es as <-; reflexivity. }
    apply sig_same; [exact M].
Qed.
Lemma gr_content : forall st c st', parse_content_tag st c = ROk st' -> grown st st'.
Proof.
  intros st c st' E. unfold parse_content_tag in E. destruct (negb _); [apply ok_inj in E; subst st'; apply sig_same; reflexivity|].
  destruct (d_detect st) as [e|]; [|discriminate]. destruct (_ && _)%bool; [|apply ok_inj in E; subst st'; apply sig_same; reflexivity].
  apply ok_inj in E. subst st'. apply gr_new.
  - cbn. rewrite hupd_length, app_length. cbn. lia.
  - right. reflexivity.
  - split; [right; cbn; lia|left; reflexivity].
  - left. discriminate.
Qed.
Lemma gr_comment : forall st c st', parse_comment_or_cdata st c = ROk st' -> grown st st'.
Proof.
  intros st c st' E. unfold parse_comment_or_cdata in E. destruct (_ && _)%bool; apply ok_inj in E; subst st'.
  - apply gr_same; [cbn; rewrite !hupd_length; reflexivity|left; reflexivity|keep].
  - apply sig_same; reflexivity.
Qed.
Lemma gr_fix_lt : forall st c st', d_handle st = HUnkownTag -> fix_unescaped_lt st c = ROk st' -> grown st st'.
Proof.
  intros st c st' Hd E. unfold fix_unescaped_lt in E.
  set (b := N.eqb c TAG_BEGIN_CHAR) in *. set (chars := str "&lt;" ++ (if b then [] else [c])) in *. clearbody chars.
  match type of E with context [let '(x, y) := ?p in _] => remember p as q eqn:Q; destruct q as [s1 parent] end.
  match type of E with context [set_code CTextNode (set_repeat_whitespace false ?s)] => set (s2 := s) in * end.
  assert (M : sig s2 = sig st \/ (length (d_heap s2) = S (length (d_heap st)) /\ d_chain_nodes s2 = d_chain_nodes st /\ kept st s2)).
  { assert (P : (parent = None /\ sig s1 = sig st) \/ (s1 = st)).
    { assert (X : forall s, sig (upd_cur (nset_type NText) s) = sig s) by (intro; apply sig_upd).
      assert (Y : forall x, sig (set_prev_chars x (upd_cur (nset_content (Some [])) st)) = sig st)
        by (intro; transitivity (sig (upd_cur (nset_content (Some [])) st)); [reflexivity|apply sig_upd]).
      destruct (n_type (cur st)); try (right; congruence).
      - left. injection Q as -> ->. split; [reflexivity|]. destruct (n_content (cur st)); cbn [node_type_eqb]; [apply Y|reflexivity].
      - left. injection Q as -> ->. split; [reflexivity|].
        rewrite X.
        destruct (n_content (cur st)); [apply Y|reflexivity].
      - right. destruct (negb _); congruence. }
    unfold s2. destruct P as [[-> P]| ->]; [left; exact P|].
    destruct parent as [p|]; [|left; reflexivity]. right. repeat split; try reflexivity; [|left; reflexivity|left; reflexivity].
    cbn. rewrite hupd_length, app_length. cbn. lia. }
  clearbody s2.
  assert (G : forall s', sig s' = sig s2 -> grown st s').
  { intros s' S2. destruct M as [M|(A & B & C)].
    - apply sig_same. congruence.
    - unfold sig in S2. injection S2 as S1 S3 S4 S5. apply gr_new; [congruence|left; congruence| |right; exact Hd].
      unfold kept in *. rewrite S4, S5. exact C. }
  destruct b.
  - unfold parse_text in E. destruct (N.eqb c TAG_BEGIN_CHAR); apply ok_inj in E; subst st'; apply G.
    + unfold sig. cbn. rewrite !hupd_length. reflexivity.
    + cbn. reflexivity.
  - apply ok_inj in E. subst st'. apply G. reflexivity.
Qed.
Lemma gr_unkown : forall st c st', d_handle st = HUnkownTag -> parse_unkown_tag st c = ROk st' -> grown st st'.
Proof.
  intros st c st' Hd E. unfold parse_unkown_tag in E. destruct (is_ascii_alphabetic c).
  - destruct (add_new_node _ st) as [s1| |] eqn:Ea; cbn [rbind] in E; try discriminate. apply ok_inj in E. subst st'.
    apply add_spec in Ea as (A & B & C & D & F). cbn in B. pose proof (sig_spaces (set_code CTag s1)) as S.
    unfold sig in S. injection S as S1 S2 S3 S4. cbn in S1, S2, S3, S4.
    apply gr_tag; [exact Hd|cbn; congruence|cbn; congruence|apply kept_refl; cbn; congruence|].
    cbn. unfold set_text_spaces_between. destruct (d_check_textnode _); discriminate.
  - destruct (N.eqb c END_SLASH_CHAR).
    + destruct (add_new_node _ st) as [s1| |] eqn:Ea; cbn [rbind] in E; destruct (negb _); try discriminate; apply ok_inj in E; subst st';
        apply add_spec in Ea as (A & B & C & D & F); cbn in B.
      all: apply gr_new; [cbn; rewrite ?hupd_length; exact A|left; exact B|apply kept_refl; assumption|left; discriminate].
    + destruct (N.eqb c EXCLAM_CHAR). { apply ok_inj in E. subst st'. apply sig_same. reflexivity. }
      destruct (negb _); [discriminate|]. eapply gr_fix_lt; eauto.
Qed.
Lemma gr_exclamation : forall st c st', d_handle st = HExclamation -> parse_exclamation_begin st c = ROk st' -> grown st st'.
Proof.
  intros st c st' Hd E. unfold parse_exclamation_begin in E. destruct (d_detect st) as [nx|] eqn:De.
  - destruct (Nat.ltb _ _); [|apply ok_inj in E; subst st'; apply sig_same; reflexivity]. destruct (N.eqb _ _); [|discriminate].
    destruct (Nat.eqb _ _); [|apply ok_inj in E; subst st'; apply sig_same; reflexivity].
    destruct (N.eqb c DASH_CHAR || N.eqb c LEFT_BRACKET_CHAR)%bool.
    + destruct (if N.eqb c DASH_CHAR then _ else _) as [[ci mk] nt] eqn:Q.
      assert (T : (nt = NComment /\ ci = CComment) \/ (nt = NXMLCDATA /\ ci = CXMLCDATA)) by (destruct (N.eqb c DASH_CHAR); injection Q as <- <- <-; auto).
      destruct (add_new_node _ _) as [s1| |] eqn:Ea; cbn [rbind] in E; try discriminate. apply ok_inj in E. subst st'.
      apply add_spec in Ea as (A & B & C & D & F). pose proof (sig_spaces (set_prev_chars [] s1)) as S.
      unfold sig in S. injection S as S1 S2 S3 S4. cbn in S1, S2, S3, S4. apply gr_new.
      * cbn. rewrite S1. exact A.
      * left. cbn. rewrite S2, B. destruct T as [[-> _]|[-> _]]; reflexivity.
      * split; [right; cbn; lia|left; cbn; rewrite S4; exact D].
      * left. cbn. unfold set_text_spaces_between. destruct (d_check_textnode _); cbn; rewrite F; destruct T as [[_ ->]|[_ ->]]; discriminate.
    + destruct (N.eqb c 69 || N.eqb c 101)%bool; [|discriminate].
      destruct (add_new_node _ _) as [s1| |] eqn:Ea; cbn [rbind] in E; try discriminate. apply ok_inj in E. subst st'.
      apply add_spec in Ea as (A & B & C & D & F). cbn in A, B, D, F. pose proof (sig_spaces s1) as S.
      unfold sig in S. injection S as S1 S2 S3 S4. apply gr_new.
      * cbn. rewrite S1. exact A.
      * left. cbn. rewrite S2, B. reflexivity.
      * split; [right; cbn; lia|left; cbn; rewrite S4; exact D].
      * left. cbn. unfold set_text_spaces_between. destruct (d_check_textnode _); cbn; rewrite F; discriminate.
  - destruct (if N.eqb c DASH_CHAR then _ else _) as [dt| |]; cbn [rbind] in E; try discriminate. apply ok_inj in E. subst st'.
    apply gr_same; [reflexivity|left; reflexivity|]. split; [right; destruct dt; cbn; lia|left; reflexivity].
Qed.
Lemma gr_next : forall st c st', next st c = ROk st' -> grown st st'.
Proof.
  intros st c st' E. unfold next in E. destruct (run_handle st c) as [s1| |] eqn:Er; cbn [rbind] in E; try discriminate. apply ok_inj in E. subst st'.
  assert (G : grown st s1).
  { unfold run_handle in Er. destruct (d_handle st) eqn:Hd.
    - injection Er as <-. apply sig_same. reflexivity.
    - eapply gr_wait; eauto.
    - eapply gr_text; eauto.
    - eapply gr_doctype; eauto.
    - eapply gr_tag_name; eauto.
    - eapply gr_self; eauto.
    - eapply gr_tag_wait; [reflexivity|eauto].
    - eapply gr_key; eauto.
    - eapply gr_value; eauto.
    - eapply gr_tagend; eauto.
    - eapply gr_content; eauto.
    - eapply gr_comment; eauto.
    - eapply gr_unkown; eauto.
    - eapply gr_exclamation; eauto. }
  destruct G as [A B C|A B C D|A B C D F]; [apply gr_same|apply gr_new|apply gr_tag]; assumption.
Qed.

Record shape (n : nat) (st : doc) : Prop := mkShape {
  sh_nodes : length (d_heap st) <= n + 1;
  sh_chain : length (d_heap st) + length (d_chain_nodes st) + (match d_handle st with HUnkownTag => 1 | _ => 0 end) <= n + 2;
  sh_lt : Forall (fun i => i < length (d_heap st)) (d_chain_nodes st);
  sh_nd : NoDup (d_chain_nodes st);
  sh_det : opt_length (d_detect st) <= 10;
  sh_sp : opt_special (d_in_special st) <= 4
}.
Lemma shape_new : forall o, shape 0 (doc_new o).
Proof. intro. constructor; cbn; try lia; repeat constructor; cbn; auto. Qed.
Lemma shrunk_forall : forall P st st', shrunk st st' -> Forall P (d_chain_nodes st) -> Forall P (d_chain_nodes st').
Proof. intros P st st' [E|E] F; rewrite E; [exact F|]. destruct F; cbn; auto. Qed.
Lemma shrunk_nodup : forall st st', shrunk st st' -> NoDup (d_chain_nodes st) -> NoDup (d_chain_nodes st').
Proof. intros st st' [E|E] F; rewrite E; [exact F|]. destruct F; cbn; auto. constructor. Qed.
Lemma shrunk_length : forall st st', shrunk st st' -> length (d_chain_nodes st') <= length (d_chain_nodes st).
Proof. intros st st' [E|E]; rewrite E; [lia|]. destruct (d_chain_nodes st); cbn; lia. Qed.
Lemma shape_next : forall n st c st', shape n st -> next st c = ROk st' -> shape (S n) st'.
Proof.
  intros n st c st' [A B C D E F] H. apply gr_next in H.
  assert (K : kept st st' -> opt_length (d_detect st') <= 10 /\ opt_special (d_in_special st') <= 4).
  { intros [[X|X] [Y|Y]]; rewrite ?X, ?Y; auto. }
  destruct H as [G S1 K1|G S1 K1 U|U G S1 K1 V]; destruct (K K1) as [K2 K3].
  - pose proof (shrunk_length _ _ S1). constructor; try assumption.
    + lia.
    + destruct (d_handle st'), (d_handle st); lia.
    + rewrite G. eapply shrunk_forall; eauto.
    + eapply shrunk_nodup; eauto.
  - pose proof (shrunk_length _ _ S1). constructor; try assumption.
    + lia.
    + destruct U as [U|U]; [|rewrite U in B]; destruct (d_handle st'); try contradiction; destruct (d_handle st); lia.
    + rewrite G. eapply shrunk_forall; [eauto|]. eapply Forall_impl; [|exact C]. cbv beta. intros; lia.
    + eapply shrunk_nodup; eauto.
  - constructor; try assumption.
    + lia.
    + rewrite S1. cbn. rewrite U in B. destruct (d_handle st'); try contradiction; lia.
    + rewrite S1, G. constructor; [lia|]. eapply Forall_impl; [|exact C]. cbv beta. intros; lia.
    + rewrite S1. constructor; [|exact D]. intro I. rewrite Forall_forall in C. specialize (C _ I). lia.
Qed.
Lemma shape_run : forall s n st st', shape n st -> run st s = ROk st' -> shape (n + length s) st'.
Proof.
  induction s as [|c s IH]; intros n st st' H E; cbn in E.
  - injection E as <-. rewrite Nat.add_0_r. exact H.
  - destruct (next st c) as [s1| |] eqn:En; cbn in E; try discriminate. cbn [length]. replace (n + S (length s)) with (S n + length s) by lia.
    eapply IH; [|exact E]. eapply shape_next; eauto.
Qed.

(** ** The end of the input *)
Lemma stored_upd : forall i f st, stored (upd_node i f st) + node_chars (get_node st i) <= stored st + node_chars (f (get_node st i)).
Proof. intros. unfold stored, get_node. cbn. pose proof (hsum_upd node_chars (d_heap st) i f eq_refl) as H. unfold hsum in H. lia. Qed.
Lemma stored_free : forall i f st, (forall n, node_chars (f n) = node_chars n) -> stored (upd_node i f st) <= stored st.
Proof. intros i f st F. pose proof (stored_upd i f st). rewrite F in H. lia. Qed.
Lemma stored_alloc : forall n st, stored (alloc n st) = stored st + node_chars n.
Proof. intros. unfold stored. cbn. rewrite map_app, list_sum_app2. cbn. rewrite list_sum_cons. change (list_sum []) with 0. lia. Qed.
Lemma stored_mem : forall st, stored st + hsum name_length (d_heap st) + length (d_prev_chars st) <= mem st.
Proof.
  intro st. unfold stored, mem. assert (H : list_sum (map node_chars (d_heap st)) + hsum name_length (d_heap st) <= hsum node_mem (d_heap st)).
  { unfold hsum. induction (d_heap st) as [|n h IH]; [unfold list_sum; cbn; lia|]. cbn [map]. rewrite !list_sum_cons.
    assert (node_chars n + name_length n <= node_mem n); [|lia].
    unfold node_chars, name_length, node_mem, meta_chars, meta_mem. destruct (n_meta n); lia. }
  lia.
Qed.
Lemma fix_one_names : forall st i j, i < length (d_heap st) -> j < length (d_heap st) ->
  name_length (get_node (fix_one_unclosed st i) j) = name_length (get_node st j).
Proof.
  intros st i j I J. unfold fix_one_unclosed. destruct (n_meta (get_node st i)) as [m|] eqn:E; [|reflexivity]. unfold get_node in *. cbn.
  destruct (Nat.eq_dec i j) as [<-|N].
  - rewrite hget_hupd_same by (rewrite app_length, hupd_length; cbn; lia). rewrite hget_app_old by (rewrite hupd_length; exact I).
    rewrite hget_hupd_same by exact I. unfold name_length, nupd_meta. cbn. rewrite E. cbn. reflexivity.
  - rewrite hget_hupd_other by exact N. rewrite hget_app_old by (rewrite hupd_length; exact J). rewrite hget_hupd_other by exact N. reflexivity.
Qed.
Lemma fix_one_length : forall st i, length (d_heap st) <= length (d_heap (fix_one_unclosed st i)) <= S (length (d_heap st)).
Proof. intros. unfold fix_one_unclosed. destruct (n_meta _); cbn; [|lia]. rewrite hupd_length, app_length, hupd_length. cbn. lia. Qed.
Lemma fix_one_stored : forall st i, stored (fix_one_unclosed st i) <= stored st + name_length (get_node st i).
Proof.
  intros. unfold fix_one_unclosed. unfold name_length. destruct (n_meta (get_node st i)) as [m|] eqn:E; [|lia].
  etransitivity; [apply stored_free; reflexivity|]. rewrite stored_alloc.
  match goal with |- _ + node_chars ?n <= _ => assert (N : node_chars n = length (m_name m)) by (unfold node_chars; cbn; lia); rewrite N end.
  pose proof (stored_free i (nupd_meta (mset_auto_fix true)) st) as F. assert (X := F ltac:(intro n; unfold nupd_meta, node_chars; destruct (n_meta n) eqn:Y; cbn; rewrite ?Y; reflexivity)). lia.
Qed.
Lemma fix_stored : forall l st, Forall (fun i => i < length (d_heap st)) l ->
  stored (fix_unclosed_tag l st) <= stored st + list_sum (map (fun i => name_length (get_node st i)) l) /\
  length (d_heap (fix_unclosed_tag l st)) <= length (d_heap st) + length l /\ d_prev_chars (fix_unclosed_tag l st) = d_prev_chars st.
Proof.
  unfold fix_unclosed_tag. induction l as [|i l IH]; intros st F; cbn [fold_left].
  - repeat split; cbn; lia.
  - inversion F as [|x y F1 F2]; subst. pose proof (fix_one_length st i) as L. pose proof (fix_one_stored st i) as S.
    destruct (IH (fix_one_unclosed st i)) as (A & B & C).
    { eapply Forall_impl; [|exact F2]. cbv beta. intros. lia. }
    cbn [map length]. rewrite list_sum_cons. repeat split.
    + etransitivity; [exact A|]. rewrite (map_ext_in _ (fun j => name_length (get_node st j))); [lia|].
      intros j J. apply fix_one_names; [exact F1|]. rewrite Forall_forall in F2. apply F2. exact J.
    + lia.
    + rewrite C. unfold fix_one_unclosed. destruct (n_meta _); reflexivity.
Qed.
Lemma eof_stored : forall n st d, shape n st -> eof st = ROk d ->
  length (d_heap d) <= n + 1 /\ stored d <= mem st.
Proof.
  intros n st d [A B C D _ _] E. unfold eof in E.
  assert (R : forall l, NoDup l -> list_sum (map (fun i => name_length (get_node st i)) l) <= hsum name_length (d_heap st)).
  { intros l N. apply (hsum_list name_length (d_heap st) l eq_refl N). }
  match type of E with rbind ?r _ = _ => destruct r as [s1| |] eqn:E1 end; cbn [rbind] in E; try discriminate.
  assert (H1 : length (d_heap s1) <= n + 1 /\ stored s1 + length (d_prev_chars st) <= mem st /\ d_prev_chars s1 = d_prev_chars st).
  { pose proof (stored_mem st) as SM. destruct (Nat.ltb 1 (length (d_chain_nodes st))) eqn:Lt.
    - apply Nat.ltb_lt in Lt. destruct (negb _).
      { destruct (d_chain_nodes st) as [|l ch]; [cbn in Lt; lia|]. destruct (n_meta _); discriminate. }
      apply ok_inj in E1. subst s1. set (l := skipn 1 (rev (d_chain_nodes st))).
      assert (Fl : Forall (fun i => i < length (d_heap st)) l).
      { apply Forall_forall. intros i I. rewrite Forall_forall in C. apply C. apply (proj2 (in_rev (d_chain_nodes st) i)). unfold l in I.
        rewrite <- (firstn_skipn 1 (rev (d_chain_nodes st))). apply in_or_app. right. exact I. }
      assert (Nl : NoDup l).
      { apply NoDup_rev in D. rewrite <- (firstn_skipn 1 (rev (d_chain_nodes st))) in D. clear -D. unfold l.
        induction (firstn 1 (rev (d_chain_nodes st))) as [|x f IH]; [exact D|]. inversion D. auto. }
      assert (Ll : length l = length (d_chain_nodes st) - 1) by (unfold l; rewrite skipn_length, rev_length; reflexivity).
      destruct (fix_stored l (set_chain_nodes (firstn 1 (rev (d_chain_nodes st))) st) Fl) as (X & Y & Z).
      specialize (R _ Nl). rewrite Z. split; [|split; [|reflexivity]].
      + etransitivity; [exact Y|]. cbn [d_heap set_chain_nodes]. clear - Ll B Lt. clearbody l. unfold nid in *. destruct (d_handle st); lia.
      + assert (X1 : stored (fix_unclosed_tag l (set_chain_nodes (firstn 1 (rev (d_chain_nodes st))) st)) <= stored st + list_sum (map (fun i => name_length (get_node st i)) l)) by exact X.
        lia.
    - apply ok_inj in E1. subst s1. repeat split; lia. }
  destruct H1 as (H1 & H2 & H3).
  match type of E with rbind ?r _ = _ => destruct r as [s2| |] eqn:E2 end; cbn [rbind] in E; try discriminate. apply ok_inj in E. subst d.
  assert (G : length (d_heap s2) <= n + 1 /\ stored s2 <= mem st).
  { destruct (d_code_in s1); try discriminate E2; try (apply ok_inj in E2; subst s2; split; lia).
    - destruct (negb (auto_fix_unclosed_tag (d_parse_options s1))); [discriminate E2|]. apply ok_inj in E2. subst s2. split; lia.
    - apply ok_inj in E2. subst s2. split.
      + destruct (d_repeat_whitespace _); cbn; rewrite ?hupd_length; exact H1.
      + etransitivity; [apply stored_free; reflexivity|].
        assert (T : stored (upd_cur (nset_content (Some (d_prev_chars s1))) s1) <= mem st).
        { pose proof (stored_upd (d_current_node s1) (nset_content (Some (d_prev_chars s1))) s1) as U. unfold upd_cur.
          assert (V : forall x, node_chars (nset_content (Some (d_prev_chars s1)) x) <= node_chars x + length (d_prev_chars s1)) by (intro x; unfold node_chars; cbn; lia).
          specialize (V (get_node s1 (d_current_node s1))). rewrite H3 in *. lia. }
        destruct (d_repeat_whitespace _); [|exact T]. etransitivity; [apply stored_free; reflexivity|exact T]. }
  destruct G as [G1 G2]. split.
  - cbn. rewrite hupd_length. exact G1.
  - etransitivity; [apply stored_free; reflexivity|exact G2].
Qed.
Lemma mem_new : forall o, mem (doc_new o) = 0.
Proof. reflexivity. Qed.
Theorem run_memory : forall o s st, run (doc_new o) s = ROk st -> length (d_heap st) <= length s + 1 /\ stored st <= 10 * length s.
Proof.
  intros o s st E. pose proof (shape_run _ _ _ _ (shape_new o) E) as H. apply mem_run in E. rewrite mem_new in E.
  split; [exact (sh_nodes _ _ H)|]. pose proof (stored_mem st). lia.
Qed.
Theorem parse_memory : forall o s d, parse o s = Parsed d -> length (d_heap d) <= length s + 1 /\ stored d <= 10 * length s.
Proof.
  intros o s d E. unfold parse, parse_res, outcome_of in E. destruct (run (doc_new o) s) as [st| |] eqn:Er; cbn [rbind] in E; try discriminate.
  destruct (eof st) as [d'| |] eqn:Ee; try discriminate. injection E as <-.
  pose proof (shape_run _ _ _ _ (shape_new o) Er) as H. apply mem_run in Er. rewrite mem_new in Er. destruct (eof_stored _ _ _ H Ee). split; [assumption|lia].
Qed.
