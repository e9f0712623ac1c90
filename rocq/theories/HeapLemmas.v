(** Reading and updating the heap. *)
From Verif Require Import Api.

Lemma hupd_length : forall h i f, length (hupd h i f) = length h.
Proof. induction h as [|n h IH]; intros [|i] f; cbn; auto. Qed.

Lemma hget_hupd_same : forall h i f, i < length h -> hget (hupd h i f) i = f (hget h i).
Proof.
  induction h as [|n h IH]; intros [|i] f H; cbn in *; try lia; auto.
  unfold hget in *. cbn. apply IH. lia.
Qed.
Lemma hget_hupd_other : forall h i j f, i <> j -> hget (hupd h i f) j = hget h j.
Proof.
  induction h as [|n h IH]; intros [|i] [|j] f H; cbn; auto; try contradiction.
  unfold hget in *. cbn. apply IH. lia.
Qed.
Lemma hget_default : forall h i, length h <= i -> hget h i = dummy_node.
Proof. intros h i H. apply nth_overflow. exact H. Qed.
Lemma hget_hupd_out : forall h i j f, length h <= j -> hget (hupd h i f) j = dummy_node.
Proof. intros. apply hget_default. rewrite hupd_length. assumption. Qed.

Lemma hget_app_old : forall h n i, i < length h -> hget (h ++ [n]) i = hget h i.
Proof. intros. unfold hget. apply app_nth1. assumption. Qed.
Lemma hget_app_new : forall h n, hget (h ++ [n]) (length h) = n.
Proof. intros. unfold hget. rewrite app_nth2, Nat.sub_diag by lia. reflexivity. Qed.
Lemma hget_app_case : forall h n i,
  hget (h ++ [n]) i = if Nat.ltb i (length h) then hget h i
                      else if Nat.eqb i (length h) then n else dummy_node.
Proof.
  intros. destruct (Nat.ltb_spec i (length h)).
  - apply hget_app_old. assumption.
  - destruct (Nat.eqb_spec i (length h)).
    + subst. apply hget_app_new.
    + apply hget_default. rewrite app_length. cbn. lia.
Qed.

(** A projection that an update leaves alone. *)
Lemma hupd_keep : forall {A} (p : node -> A) h i j f,
  (forall n, p (f n) = p n) -> p (hget (hupd h i f) j) = p (hget h j).
Proof.
  intros A p h i j f H. destruct (Nat.eq_dec i j) as [->|N].
  - destruct (Nat.lt_ge_cases j (length h)).
    + rewrite hget_hupd_same by assumption. apply H.
    + rewrite hget_hupd_out, hget_default by assumption. reflexivity.
  - rewrite hget_hupd_other by assumption. reflexivity.
Qed.

Global Arguments hget : simpl never.
Global Arguments hupd : simpl never.
Definition ty (h : list node) (i : nid) : node_type := n_type (hget h i).
Definition mt (h : list node) (i : nid) : option tag_meta := n_meta (hget h i).

Global Arguments ty : simpl never.
Global Arguments mt : simpl never.

Lemma nupd_meta_other : forall g n,
  n_index (nupd_meta g n) = n_index n /\ n_type (nupd_meta g n) = n_type n /\
  n_begin_at (nupd_meta g n) = n_begin_at n /\ n_end_at (nupd_meta g n) = n_end_at n /\
  n_end_tag (nupd_meta g n) = n_end_tag n /\ n_prev (nupd_meta g n) = n_prev n /\
  n_parent (nupd_meta g n) = n_parent n /\ n_root (nupd_meta g n) = n_root n /\
  n_content (nupd_meta g n) = n_content n /\ n_childs (nupd_meta g n) = n_childs n.
Proof. intros g n. unfold nupd_meta. destruct (n_meta n); cbn; repeat split. Qed.
Lemma nupd_meta_meta : forall g n, n_meta (nupd_meta g n) = option_map g (n_meta n).
Proof. intros g n. unfold nupd_meta. destruct (n_meta n) eqn:E; cbn; auto. Qed.

(** Solves [forall n, p (f n) = p n] goals. *)
Ltac keeps :=
  let n := fresh "n" in
  intro n;
  first [ reflexivity
        | apply (nupd_meta_other _ n)
        | (etransitivity; [apply nupd_meta_other|]; reflexivity) ].

(** Work with explicit states: split the state into its fields, then compute field updates. *)
Ltac dst st := destruct st as [code pos mem det prev mark chain cu spec rep chk hd po rt ids h].
Ltac nd := cbv beta iota zeta delta [ set_code push_char clean_chars chain_pop alloc upd_cur upd_node cur get_node doc_error
    set_tag_end_info set_tag_code_in set_tag_meta add_tag_attr_key set_code_in set_position set_mem_position set_detect set_prev_chars set_mark_char set_chain_nodes set_current_node set_in_special set_repeat_whitespace set_check_textnode set_handle set_parse_options set_root set_id_tags set_heap d_code_in d_position d_mem_position d_detect d_prev_chars d_mark_char d_chain_nodes d_current_node d_in_special d_repeat_whitespace d_check_textnode d_handle d_parse_options d_root d_id_tags d_heap handle_of_code_in fst snd rbind ].
Ltac ndi H := cbv beta iota zeta delta [ set_code push_char clean_chars chain_pop alloc upd_cur upd_node cur get_node doc_error
    set_tag_end_info set_tag_code_in set_tag_meta add_tag_attr_key set_code_in set_position set_mem_position set_detect set_prev_chars set_mark_char set_chain_nodes set_current_node set_in_special set_repeat_whitespace set_check_textnode set_handle set_parse_options set_root set_id_tags set_heap d_code_in d_position d_mem_position d_detect d_prev_chars d_mark_char d_chain_nodes d_current_node d_in_special d_repeat_whitespace d_check_textnode d_handle d_parse_options d_root d_id_tags d_heap handle_of_code_in fst snd rbind ] in H.
