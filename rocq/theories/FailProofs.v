(** Proofs about early rejection. *)
From Coq Require Import String ZifyBool ZifyN Lia.
From Verif Require Import Api SpecText SpecParse TextProofs InvCtl CtlEnd CtlRun SpecFail.
Local Open Scope string_scope.
Local Open Scope list_scope.

Definition early {A} (r : res A) : Prop := match r with RErr k _ => ~ at_end k | _ => True end.
Lemma early_bind : forall A B (r : res A) (f : A -> res B), early r -> (forall a, early (f a)) -> early (rbind r f).
Proof. intros A B [a|k i|p] f E F; cbn in *; auto. Qed.
Create HintDb early discriminated.
Lemma early_let : forall A B (v : A) (f : A -> res B), (forall x, early (f x)) -> early (f v).
Proof. auto. Qed.
Ltac er := repeat first
  [ exact I
  | match goal with
    | |- early (let x := ?v in @?b x) => apply (early_let _ _ v b); intro
    | |- early (RErr _ _) => exact (fun x : False => x)
    | |- early (doc_error _ _) => exact (fun x : False => x)
    | |- early (rbind _ _) => apply early_bind; [|intro]
    | |- early (match ?x with _ => _ end) => destruct x
    end
  | solve [auto with early nocore]
  | progress cbv beta ].
Lemma add_new_node_early : forall n st, early (add_new_node n st).
Proof. intros. unfold add_new_node. er. Qed.
#[local] Hint Resolve add_new_node_early : early.
Lemma tag_code_of_early : forall st, early (tag_code_of st).
Proof. intros. unfold tag_code_of. er. Qed.
#[local] Hint Resolve tag_code_of_early : early.
Lemma add_tag_attr_value_early : forall q st, early (add_tag_attr_value q st).
Proof. intros. unfold add_tag_attr_value. er. Qed.
#[local] Hint Resolve add_tag_attr_value_early : early.
Lemma set_tag_attr_key_early : forall st, early (set_tag_attr_key st).
Proof. intros. unfold set_tag_attr_key. er. Qed.
#[local] Hint Resolve set_tag_attr_key_early : early.
Lemma set_tag_attr_value_early : forall q st, early (set_tag_attr_value q st).
Proof. intros. unfold set_tag_attr_value. er. Qed.
#[local] Hint Resolve set_tag_attr_value_early : early.
Lemma check_tag_type_do_early : forall st, early (check_tag_type_do st).
Proof. intros. unfold check_tag_type_do. er. Qed.
#[local] Hint Resolve check_tag_type_do_early : early.
Lemma parse_wait_early : forall st c, early (parse_wait st c).
Proof. intros. unfold parse_wait. er. Qed.
#[local] Hint Resolve parse_wait_early : early.
Lemma parse_text_early : forall st c, early (parse_text st c).
Proof. intros. unfold parse_text. er. Qed.
#[local] Hint Resolve parse_text_early : early.
Lemma parse_doctype_name_early : forall st c, early (parse_doctype_name st c).
Proof. intros. unfold parse_doctype_name. er. Qed.
#[local] Hint Resolve parse_doctype_name_early : early.
Lemma parse_tag_name_early : forall st c, early (parse_tag_name st c).
Proof. intros. unfold parse_tag_name. er. Qed.
#[local] Hint Resolve parse_tag_name_early : early.
Lemma parse_tag_wait_early : forall st c, early (parse_tag_wait st c).
Proof. intros. unfold parse_tag_wait. er. Qed.
#[local] Hint Resolve parse_tag_wait_early : early.
Lemma parse_tag_self_closing_early : forall st c, early (parse_tag_self_closing st c).
Proof. intros. unfold parse_tag_self_closing. er. Qed.
#[local] Hint Resolve parse_tag_self_closing_early : early.
Lemma parse_tag_attr_key_early : forall st c, early (parse_tag_attr_key st c).
Proof. intros. unfold parse_tag_attr_key. er. Qed.
#[local] Hint Resolve parse_tag_attr_key_early : early.
Lemma parse_tag_attr_value_early : forall st c, early (parse_tag_attr_value st c).
Proof. intros. unfold parse_tag_attr_value. er. Qed.
#[local] Hint Resolve parse_tag_attr_value_early : early.
Lemma parse_tagend_early : forall st c, early (parse_tagend st c).
Proof. intros. unfold parse_tagend. er. Qed.
#[local] Hint Resolve parse_tagend_early : early.
Lemma parse_content_tag_early : forall st c, early (parse_content_tag st c).
Proof. intros. unfold parse_content_tag. er. Qed.
#[local] Hint Resolve parse_content_tag_early : early.
Lemma parse_comment_or_cdata_early : forall st c, early (parse_comment_or_cdata st c).
Proof. intros. unfold parse_comment_or_cdata. er. Qed.
#[local] Hint Resolve parse_comment_or_cdata_early : early.
Lemma fix_unescaped_lt_early : forall st c, early (fix_unescaped_lt st c).
Proof. intros. unfold fix_unescaped_lt. er. Qed.
#[local] Hint Resolve fix_unescaped_lt_early : early.
Lemma parse_unkown_tag_early : forall st c, early (parse_unkown_tag st c).
Proof. intros. unfold parse_unkown_tag. er. Qed.
#[local] Hint Resolve parse_unkown_tag_early : early.
Lemma parse_exclamation_begin_early : forall st c, early (parse_exclamation_begin st c).
Proof. intros. unfold parse_exclamation_begin. er. Qed.
#[local] Hint Resolve parse_exclamation_begin_early : early.
Lemma run_handle_early : forall st c, early (run_handle st c).
Proof. intros. unfold run_handle. er. Qed.
#[local] Hint Resolve run_handle_early : early.
Lemma next_early : forall st c, early (next st c).
Proof. intros. unfold next. er. Qed.
#[local] Hint Resolve next_early : early.

Definition late {A} (r : res A) : Prop := match r with RErr k _ => at_end k | _ => True end.
Lemma late_bind : forall A B (r : res A) (f : A -> res B), late r -> (forall a, late (f a)) -> late (rbind r f).
Proof. intros A B [a|k i|p] f E F; cbn in *; auto. Qed.
Lemma eof_late_res : forall st, late (eof st).
Proof.
  intro st. unfold eof. apply late_bind.
  - destruct (Nat.ltb 1 _); [|exact I]. destruct (negb _); [|exact I]. destruct (d_chain_nodes st); [exact I|].
    destruct (n_meta _); exact I.
  - intro st1. apply late_bind; [|intro; exact I]. destruct (d_code_in st1); try exact I. destruct (negb _); exact I.
Qed.
Lemma eof_late : forall st k i, eof st = RErr k i -> at_end k.
Proof. intros st k i H. pose proof (eof_late_res st) as L. rewrite H in L. exact L. Qed.
Lemma run_err : forall s st k i, run st s = RErr k i -> exists a c b st1, s = a ++ c :: b /\ run st a = ROk st1 /\ next st1 c = RErr k i.
Proof.
  intro s. induction s as [|c s IH]; intros st k i H; [discriminate|]. cbn [run] in H. destruct (next st c) as [st1|k0 i0|p] eqn:N; cbn [rbind] in H.
  - destruct (IH _ _ _ H) as (a & c0 & b & st2 & -> & R & E). exists (c :: a), c0, b, st2. cbn [run app]. rewrite N. auto.
  - injection H as -> ->. exists [], c, s, st. auto.
  - discriminate.
Qed.
Lemma run_app : forall a b st, run st (a ++ b) = rbind (run st a) (fun st => run st b).
Proof.
  intro a. induction a as [|c a IH]; intros b st; [reflexivity|]. cbn [app run]. destruct (next st c); cbn [rbind]; auto.
Qed.
Lemma region_same : forall a b b' i, i < length a -> from_context_index (a ++ b) i = from_context_index (a ++ b') i.
Proof.
  intros a b b' i L. unfold from_context_index. rewrite (region_loop_prefix (a ++ b)), (region_loop_prefix (a ++ b')) by lia. rewrite Nat.sub_0_r, !firstn_app.
  replace (S i - length a) with 0 by lia. reflexivity.
Qed.

Theorem fail_fast : forall opts s k r, parse opts s = Failed k r -> ~ at_end k ->
  exists a c b, s = a ++ c :: b /\ r_index r <= length a /\
    (forall p, begins p a -> no_error_yet (parse opts p) \/ exists x, parse opts p = Panicked x) /\
    (forall b', parse opts (a ++ c :: b') = Failed k r).
Proof.
  intros opts s k r P N. unfold parse, parse_res in P. destruct (run (doc_new opts) s) as [st|k0 i|x] eqn:R; cbn [rbind] in P.
  - destruct (eof st) as [d|k0 i|x] eqn:E; cbn in P; try discriminate. injection P as <- _. apply eof_late in E. contradiction.
  - cbn in P. injection P as <- <-. destruct (run_err _ _ _ _ R) as (a & c & b & st1 & -> & Ra & Nx).
    exists a, c, b. split; [reflexivity|].
    pose proof (run_ok a opts [] _ (init_ok opts)) as K. rewrite Ra in K. cbn [app] in K.
    pose proof (CtlEnd.next_ok _ _ c _ K) as K2. rewrite Nx in K2. destruct K2 as [Li _].
    split; [rewrite (proj1 (region_correct (a ++ c :: b) i)); exact Li|]. split.
    + intros p [q ->]. rewrite run_app in Ra. destruct (run (doc_new opts) p) as [st2|? ?|?] eqn:R2; cbn [rbind] in Ra; try discriminate.
      unfold parse, parse_res. rewrite R2. cbn [rbind]. destruct (eof st2) as [d|k2 i2|x] eqn:E; cbn; eauto.
      left. eapply eof_late; eauto.
    + intro b'. unfold parse, parse_res. rewrite run_app, Ra. cbn [rbind run]. rewrite Nx. cbn. f_equal.
      change (c :: b') with ([c] ++ b'). change (c :: b) with ([c] ++ b). rewrite !app_assoc. apply region_same. rewrite app_length. cbn. lia.
  - discriminate.
Qed.

Lemma run_panic : forall s st x, run st s = RPanic x -> exists a c b st1, s = a ++ c :: b /\ run st a = ROk st1 /\ next st1 c = RPanic x.
Proof.
  intro s. induction s as [|c s IH]; intros st x H; [discriminate|]. cbn [run] in H. destruct (next st c) as [st1|k0 i0|p] eqn:N; cbn [rbind] in H.
  - destruct (IH _ _ H) as (a & c0 & b & st2 & -> & R & E). exists (c :: a), c0, b, st2. cbn [run app]. rewrite N. auto.
  - discriminate.
  - injection H as ->. exists [], c, s, st. auto.
Qed.
Theorem panic_fast : forall opts s x, parse opts s = Panicked x ->
  (auto_fix_unclosed_tag opts = false /\ ends_in_open_name s) \/
  exists a c b, s = a ++ c :: b /\ forall b', parse opts (a ++ c :: b') = Panicked x.
Proof.
  intros opts s x P. unfold parse, parse_res in P. destruct (run (doc_new opts) s) as [st|k0 i|y] eqn:R; cbn [rbind] in P.
  - left. pose proof (run_ok s opts [] _ (init_ok opts)) as K. rewrite R in K. pose proof (eof_ok _ _ _ K) as E.
    destruct (eof st) as [d|k i|y]; cbn in P; try discriminate. exact E.
  - discriminate.
  - right. cbn in P. injection P as <-. destruct (run_panic _ _ _ R) as (a & c & b & st1 & -> & Ra & Nx).
    exists a, c, b. split; [reflexivity|]. intro b'. unfold parse, parse_res. rewrite run_app, Ra. cbn [rbind run]. rewrite Nx. reflexivity.
Qed.
