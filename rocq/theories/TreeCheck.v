(** Boolean checks of "for all nodes of the tree" hypotheses, for concrete examples. *)
From Coq Require Import String.
From Verif Require Import Api SpecText SpecRender RenderProofs MinifyProofs.
Local Open Scope string_scope.
Local Open Scope list_scope.

Fixpoint all_sub (p : tree -> bool) (t : tree) : bool :=
  (p t &&
   match t with
   | TNode _ _ _ _ et _ ks _ =>
       (match et with Some x => all_sub p x | None => true end) &&
       (match ks with Some l => forallb (all_sub p) l | None => true end)
   end)%bool.

Lemma all_sub_spec : forall p t, all_sub p t = true -> forall s, sub s t -> p s = true.
Proof.
  intros p t H s Hs. revert H. induction Hs as [t|s t ks k Hk Hin Hs IH|s t e He Hs IH]; intro H.
  - destruct t. cbn in H. apply andb_true_iff in H as [H _]. exact H.
  - destruct t as [i ty b e et c ks' m]. cbn in Hk. subst ks'. cbn in H.
    apply andb_true_iff in H as [_ H]. apply andb_true_iff in H as [_ H].
    rewrite forallb_forall in H. apply IH. apply H. exact Hin.
  - destruct t as [i ty b e' et c ks m]. cbn in He. subst et. cbn in H.
    apply andb_true_iff in H as [_ H]. apply andb_true_iff in H as [H _]. apply IH. exact H.
Qed.

Lemma check_complete : forall t,
  all_sub (fun s => match t_type s with
                    | NTag | NHTMLDOCTYPE => match t_meta s with Some _ => true | None => false end
                    | NText | NSpacesBetweenTag | NTagEnd => match t_content s with Some _ => true | None => false end
                    | _ => true end) t = true -> complete t.
Proof.
  intros t H s Hs. pose proof (all_sub_spec _ _ H s Hs) as E. cbn in E. unfold node_complete.
  destruct (t_type s); try exact I; try (destruct (t_meta s); discriminate);
    destruct (t_content s); discriminate.
Qed.

Lemma check_comments : forall t,
  all_sub (fun s => match t_type s, t_childs s, t_end_tag s with
                    | NComment, None, None => true
                    | NComment, _, _ => false
                    | _, _, _ => true end) t = true -> comments_are_leaves t.
Proof.
  intros t H s Hs Ht. pose proof (all_sub_spec _ _ H s Hs) as E. cbn in E. rewrite Ht in E.
  destruct (t_childs s), (t_end_tag s); try discriminate. auto.
Qed.

Lemma check_end_not_comment : forall t,
  all_sub (fun s => match t_end_tag s with
                    | Some e => negb (node_type_eqb (t_type e) NComment) | None => true end) t = true ->
  end_tags_not_comments t.
Proof.
  intros t H s e Hs He. pose proof (all_sub_spec _ _ H s Hs) as E. cbn in E. rewrite He in E.
  intro X. rewrite X in E. discriminate.
Qed.

Definition end_matches (s : tree) : bool :=
  ((match t_end_tag s with
    | Some e =>
        node_type_eqb (t_type s) NTag && node_type_eqb (t_type e) NTagEnd &&
        match t_meta s, t_content e with
        | Some m, Some c => same_name (m_name m) (trim_right c)
        | _, _ => false
        end
    | None => true
    end) &&
   match t_childs s with
   | Some ks => forallb (fun k => negb (node_type_eqb (t_type k) NTagEnd)) ks
   | None => true
   end)%bool.
Lemma check_end_tags_match : forall t, all_sub end_matches t = true -> end_tags_match t.
Proof.
  intros t H s Hs. pose proof (all_sub_spec _ _ H s Hs) as E. unfold end_matches in E.
  apply andb_true_iff in E as [E1 E2]. split.
  - intros e He. rewrite He in E1. apply andb_true_iff in E1 as [E1 E3].
    apply andb_true_iff in E1 as [E1 E4].
    destruct (t_type s); try discriminate. destruct (t_type e); try discriminate.
    destruct (t_meta s) as [m|]; [|discriminate]. destruct (t_content e) as [c|]; [|discriminate].
    repeat split. exists m, c. auto.
  - intros ks k Hk Hin. rewrite Hk, forallb_forall in E2. specialize (E2 k Hin).
    intro X. rewrite X in E2. discriminate.
Qed.

Lemma check_pre_has_end : forall t,
  all_sub (fun s => if is_pre s then match t_end_tag s with Some _ => true | None => false end else true) t = true ->
  pre_has_end t.
Proof.
  intros t H s Hs Hp. pose proof (all_sub_spec _ _ H s Hs) as E. cbn in E. rewrite Hp in E.
  destruct (t_end_tag s); [discriminate|discriminate E].
Qed.

Lemma check_pre_not_nested : forall t,
  all_sub (fun s => if is_pre s then
     match t_childs s with Some ks => forallb (all_sub (fun u => negb (is_pre u))) ks | None => true end
     else true) t = true -> pre_not_nested t.
Proof.
  intros t H s ks k u Hs Hp Hk Hin Hu. pose proof (all_sub_spec _ _ H s Hs) as E. cbn in E.
  rewrite Hp, Hk, forallb_forall in E. specialize (E k Hin).
  pose proof (all_sub_spec _ _ E u Hu) as E2. cbn in E2. destruct (is_pre u); [discriminate|reflexivity].
Qed.

Lemma check_spaces : forall t,
  all_sub (fun s => match t_type s, t_content s with
                    | NSpacesBetweenTag, Some c => forallb is_ascii_whitespace c
                    | _, _ => true end) t = true -> spaces_are_ws t.
Proof.
  intros t H s c Hs Ht Hc. pose proof (all_sub_spec _ _ H s Hs) as E. cbn in E. rewrite Ht, Hc in E.
  rewrite forallb_forall in E. apply Forall_forall. exact E.
Qed.

Lemma check_no_markup : forall t,
  all_sub (fun s => negb (node_type_eqb (t_type s) NHTMLDOCTYPE || node_type_eqb (t_type s) NXMLCDATA)) t = true ->
  no_markup t.
Proof.
  intros t H s Hs. pose proof (all_sub_spec _ _ H s Hs) as E. cbn in E.
  split; intro X; rewrite X in E; discriminate.
Qed.

Lemma check_end_placed : forall t,
  all_sub (fun s => (match t_end_tag s with Some e => node_type_eqb (t_type e) NTagEnd | None => true end &&
     match t_childs s with
     | Some ks => forallb (fun k => negb (node_type_eqb (t_type k) NTagEnd)) ks
     | None => true end)%bool) t = true -> end_tags_placed t.
Proof.
  intros t H s Hs. pose proof (all_sub_spec _ _ H s Hs) as E. cbn in E.
  apply andb_true_iff in E as [E1 E2]. split.
  - intros e He. rewrite He in E1. destruct (t_type e); try discriminate. reflexivity.
  - intros ks k Hk Hin. rewrite Hk, forallb_forall in E2. specialize (E2 k Hin).
    intro X. rewrite X in E2. discriminate.
Qed.

(** The tree of a source text (an empty root when parsing fails). *)
Definition tree_of_source (o : parse_options) (s : string) : tree :=
  match parse o (str s) with
  | Parsed d => match doc_tree d with Some t => t | None => create_text_node [] None end
  | _ => create_text_node [] None
  end.
(** Its n-th top-level node. *)
Definition nth_child (n : nat) (t : tree) : tree :=
  match t_childs t with Some l => nth n l t | None => t end.
