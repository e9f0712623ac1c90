(** Attribute lists, the attribute index map and ids of a start tag being read. *)
From Coq Require Import String.
From Verif Require Import Api SpecText SpecParse SpecTree NameProofs MiscProofs HeapLemmas InvCtl Big BigSteps.
Local Open Scope string_scope.
Local Open Scope list_scope.

Lemma upd_last_snoc : forall {A} (f : A -> A) l x, upd_last f (l ++ [x]) = l ++ [f x].
Proof.
  intros A f l x. induction l as [|y l IH]; [reflexivity|]. cbn [app upd_last]. destruct l; [reflexivity|].
  cbn [app] in *. rewrite IH. reflexivity.
Qed.
Lemma last_opt_snoc : forall {A} (l : list A) x, last_opt (l ++ [x]) = Some x.
Proof.
  intros A l x. induction l as [|y l IH]; [reflexivity|]. cbn [app last_opt]. destruct l; [reflexivity|].
  cbn [app] in *. exact IH.
Qed.
Lemma snoc_of : forall {A} (l : list A), l <> [] -> exists l' x, l = l' ++ [x].
Proof. intros A l H. destruct l as [|x l] using rev_ind; [congruence|]. eauto. Qed.

Lemma check_id_spec : forall a x, check_if_id a = Some x <-> id_value a x.
Proof.
  intros a x. unfold check_if_id, id_value. destruct (a_key a) as [key|].
  - rewrite is_equal_chars_lower by reflexivity. destruct (same_name key (str "id")) eqn:E.
    + split; [intro H; exists key; auto|]. intros [k [K1 [K2 K3]]]. exact K3.
    + split; [discriminate|]. intros [k [K1 [K2 K3]]]. injection K1 as <-. congruence.
  - split; [discriminate|]. intros [k [K1 _]]. discriminate.
Qed.
Lemma check_id_none : forall a, check_if_id a = None <-> forall x, ~ id_value a x.
Proof.
  intro a. split.
  - intros H x V. apply check_id_spec in V. congruence.
  - intro H. destruct (check_if_id a) as [x|] eqn:E; [|reflexivity]. exfalso. apply (H x), check_id_spec, E.
Qed.

Definition same_key (a b : attr) : Prop := a_key a = a_key b.
Lemma map_right_keys : forall l l' m, map_right l m -> Forall2 same_key l l' -> map_right l' m.
Proof.
  intros l l' m H F k. specialize (H k).
  assert (N : forall i b, nth_error l' i = Some b -> exists a, nth_error l i = Some a /\ same_key a b).
  { clear H. induction F as [|x y l l' XY F IH]; intros i b E; [destruct i; discriminate|].
    destruct i; cbn in *; [injection E as <-; eauto|eauto]. }
  assert (N' : forall i a, nth_error l i = Some a -> exists b, nth_error l' i = Some b /\ same_key a b).
  { clear H N. induction F as [|x y l l' XY F IH]; intros i b E; [destruct i; discriminate|].
    destruct i; cbn in *; [injection E as <-; eauto|eauto]. }
  assert (K : forall a b, same_key a b -> has_key k a <-> has_key k b).
  { intros a b S. unfold has_key. rewrite S. tauto. }
  destruct (map_get m k) as [i|].
  - destruct H as [a [A1 [A2 A3]]]. destruct (N' i a A1) as [b [B1 B2]]. exists b. split; [exact B1|].
    split; [apply (K a b B2), A2|]. intros j c Hj Ec Hc. destruct (N j c Ec) as [d [D1 D2]].
    apply (A3 j d Hj D1). apply (K d c D2), Hc.
  - intros b Hb Hk. apply In_nth_error in Hb. destruct Hb as [i Hi]. destruct (N i b Hi) as [a [A1 A2]].
    apply (H a); [eapply nth_error_In; eauto|]. apply (K a b A2), Hk.
Qed.
Lemma Forall2_same : forall l, Forall2 same_key l l.
Proof. induction l; constructor; [reflexivity|assumption]. Qed.

Lemma map_right_add : forall l m a key, map_right l m -> a_key a = Some key ->
  map_right (l ++ [a]) (map_or_insert m (lower key) (length l)).
Proof.
  intros l m a key H Ea k. unfold map_or_insert.
  assert (L : forall i, nth_error (l ++ [a]) i = Some a \/ nth_error (l ++ [a]) i = nth_error l i).
  { intro i. destruct (Nat.lt_ge_cases i (length l)) as [X|X]; [right; apply nth_error_app1; exact X|].
    rewrite nth_error_app2 by exact X. destruct (i - length l) as [|j]; [left; reflexivity|right].
    rewrite (proj2 (nth_error_None l i)) by exact X. destruct j; reflexivity. }
  assert (Old : forall i, first_attr l k i -> first_attr (l ++ [a]) k i).
  { intros i [b [B1 [B2 B3]]]. assert (i < length l) by (apply nth_error_Some; congruence).
    exists b. rewrite nth_error_app1 by assumption. split; [exact B1|]. split; [exact B2|].
    intros j c Hj. rewrite nth_error_app1 by lia. apply B3. exact Hj. }
  destruct (map_get m (lower key)) as [i0|] eqn:E0.
  - specialize (H k) as Hk. destruct (map_get m k) as [i|] eqn:E; [apply Old, Hk|].
    intros b Hb. apply in_app_or in Hb. destruct Hb as [Hb|[<-|[]]]; [apply Hk, Hb|].
    intros [key' [K1 K2]]. rewrite Ea in K1. injection K1 as <-. rewrite ascii_lower_lower in K2. subst k. congruence.
  - cbn [map_get]. destruct (chars_eqb (lower key) k) eqn:Ek.
    + apply chars_eqb_eq in Ek. subst k. specialize (H (lower key)). rewrite E0 in H.
      exists a. rewrite nth_error_app2, Nat.sub_diag by lia. split; [reflexivity|]. split.
      * exists key. split; [exact Ea|]. apply ascii_lower_lower.
      * intros j b Hj. rewrite nth_error_app1 by exact Hj. intro Hb. apply H. eapply nth_error_In; eauto.
    + specialize (H k) as Hk. destruct (map_get m k) as [i|] eqn:E; [apply Old, Hk|].
      intros b Hb. apply in_app_or in Hb. destruct Hb as [Hb|[<-|[]]]; [apply Hk, Hb|].
      intros [key' [K1 K2]]. rewrite Ea in K1. injection K1 as <-. rewrite ascii_lower_lower in K2.
      apply chars_eqb_neq in Ek. congruence.
Qed.
Lemma map_right_keyless : forall l m a, map_right l m -> a_key a = None -> map_right (l ++ [a]) m.
Proof.
  intros l m a H Ea k. specialize (H k). destruct (map_get m k) as [i|].
  - destruct H as [b [B1 [B2 B3]]]. assert (i < length l) by (apply nth_error_Some; congruence).
    exists b. rewrite nth_error_app1 by assumption. split; [exact B1|]. split; [exact B2|].
    intros j c Hj. rewrite nth_error_app1 by lia. apply B3. exact Hj.
  - intros b Hb. apply in_app_or in Hb. destruct Hb as [Hb|[<-|[]]]; [apply H, Hb|].
    intros [key [K _]]. congruence.
Qed.

Definition ids_right (l : list attr) (ids : list (list char)) : Prop :=
  forall x, In x ids <-> exists a, In a l /\ id_value a x.
Lemma ids_right_add : forall l ids a, ids_right l ids -> (forall x, ~ id_value a x) -> ids_right (l ++ [a]) ids.
Proof.
  intros l ids a H N x. rewrite (H x). split.
  - intros [b [B1 B2]]. exists b. split; [apply in_or_app; left; exact B1|exact B2].
  - intros [b [B1 B2]]. apply in_app_or in B1. destruct B1 as [B1|[<-|[]]]; [eauto|]. exfalso. apply (N x B2).
Qed.
Lemma ids_right_change : forall l ids a b, ids_right (l ++ [a]) ids -> (forall x, ~ id_value a x) ->
  ids_right (l ++ [b]) (match check_if_id b with Some x => x :: ids | None => ids end).
Proof.
  intros l ids a b H N.
  assert (H0 : ids_right l ids).
  { intro x. rewrite (H x). split.
    - intros [c [C1 C2]]. apply in_app_or in C1. destruct C1 as [C1|[<-|[]]]; [eauto|]. exfalso. apply (N x C2).
    - intros [c [C1 C2]]. exists c. split; [apply in_or_app; left; exact C1|exact C2]. }
  destruct (check_if_id b) as [y|] eqn:E.
  - intro x. split.
    + intros [<-|X].
      * exists b. split; [apply in_or_app; right; left; reflexivity|apply check_id_spec, E].
      * apply H0 in X. destruct X as [c [C1 C2]]. exists c. split; [apply in_or_app; left; exact C1|exact C2].
    + intros [c [C1 C2]]. apply in_app_or in C1. destruct C1 as [C1|[<-|[]]].
      * right. apply H0. eauto.
      * left. apply check_id_spec in C2. congruence.
  - apply ids_right_add; [exact H0|]. apply check_id_none, E.
Qed.

Definition code_for (m : amode) (c : tag_code_in) : Prop :=
  match m with
  | AWait _ => c = TWait \/ c = TKeyEnd \/ c = TWaitValue
  | AKey => c = TKey
  | AVal => c = TValue
  end.
Record ta_good (t : ta) : Prop := mkGood {
  g_ok : ta_ok t;
  g_code : code_for (ta_mode t) (ta_code t);
  g_map : match ta_mode t with
          | AKey => ta_prev t <> [] /\ exists l, ta_attrs t = l ++ [new_key] /\ map_right l (ta_map t)
          | _ => map_right (ta_attrs t) (ta_map t)
          end;
  g_ids : ids_right (ta_attrs t) (ta_ids t);
  g_fresh : ta_code t <> TWait -> forall a, last_opt (ta_attrs t) = Some a -> forall x, ~ id_value a x
}.

Lemma new_key_no_id : forall x, ~ id_value new_key x.
Proof. intros x [k [K1 [K2 _]]]. injection K1 as <-. discriminate. Qed.
Lemma good_start : forall mark, ta_good (ta_start mark).
Proof.
  intro mark. constructor; cbn.
  - apply (ta_start_ok mark).
  - auto.
  - intros k a X. destruct X.
  - intro x. split; [intros []|]. intros [a [[] _]].
  - intro X. congruence.
Qed.

Lemma ta_key_good : forall prev t, ta_good t -> (exists b, ta_mode t = AWait b) -> prev <> [] -> ta_good (ta_key prev t).
Proof.
  intros prev t G [b M] P. destruct G as [Go Gc Gm Gi Gf]. rewrite M in *. constructor; cbn.
  - intro E. apply app_eq_nil in E. destruct E; discriminate.
  - reflexivity.
  - split; [exact P|]. exists (ta_attrs t). split; [reflexivity|exact Gm].
  - apply ids_right_add; [exact Gi|apply new_key_no_id].
  - intros _ a E. rewrite last_opt_snoc in E. injection E as <-. apply new_key_no_id.
Qed.
Lemma ta_val_good : forall prev mark t, ta_good t -> (exists b, ta_mode t = AWait b) -> ta_code t = TWaitValue -> ta_good (ta_val prev mark t).
Proof.
  intros prev mark t G [b M] C. destruct G as [Go Gc Gm Gi Gf]. unfold ta_ok in Go. rewrite M in *. constructor; cbn; auto.
  - destruct Go as [_ [Go|Go]]; [congruence|exact Go].
  - intros _. apply Gf. rewrite C. discriminate.
Qed.
Lemma set_key_good : forall md cd t, ta_good t -> ta_mode t = AKey -> (exists b, md = AWait b) ->
  (cd = TWait \/ cd = TKeyEnd \/ cd = TWaitValue) -> ta_good (ta_set_key md cd t).
Proof.
  intros md cd t G M [b ->] C. destruct G as [Go Gc Gm Gi Gf]. rewrite M in *. destruct Gm as [P [l [El Gm]]].
  unfold ta_set_key. rewrite El in *. rewrite upd_last_snoc. cbn [a_value a_quote a_need_quote new_key].
  rewrite app_length. cbn [length]. replace (length l + 1 - 1) with (length l) by lia.
  constructor; cbn.
  - split; [reflexivity|]. right. intro E. apply app_eq_nil in E. destruct E; discriminate.
  - exact C.
  - eapply map_right_add; [exact Gm|reflexivity].
  - intro x. rewrite (Gi x). split; intros [a [A1 A2]].
    + apply in_app_or in A1. destruct A1 as [A1|[<-|[]]]; [|exfalso; apply (new_key_no_id _ A2)].
      exists a. split; [apply in_or_app; left; exact A1|exact A2].
    + apply in_app_or in A1. destruct A1 as [A1|[<-|[]]].
      * exists a. split; [apply in_or_app; left; exact A1|exact A2].
      * destruct A2 as [k [_ [_ A2]]]. discriminate.
  - intros _ a E. rewrite last_opt_snoc in E. injection E as <-. intros x [k [_ [_ X]]]. discriminate.
Qed.
Lemma set_val_good : forall q mark t, ta_good t -> ta_mode t = AVal -> ta_good (ta_set_val q TWait mark t).
Proof.
  intros q mark t G M. destruct G as [Go Gc Gm Gi Gf]. unfold ta_ok in Go. rewrite M in *. cbn in Gc.
  destruct (snoc_of _ Go) as [l [a El]]. unfold ta_set_val. rewrite El in *. rewrite upd_last_snoc, last_opt_snoc in *.
  constructor; cbn.
  - split; [reflexivity|]. left. reflexivity.
  - auto.
  - eapply map_right_keys; [exact Gm|]. apply Forall2_app; [apply Forall2_same|]. constructor; [reflexivity|constructor].
  - apply (ids_right_change l _ a); [exact Gi|]. intro x. apply Gf; [rewrite Gc; discriminate|reflexivity].
  - intro X. congruence.
Qed.

Lemma ta_step_good : forall po dt c t t', ta_good t -> ta_step po dt c t = Some t' -> ta_good t'.
Proof.
  intros po dt c t t' G H. pose proof (ta_step_ok _ _ _ _ _ (g_ok _ G) H) as Ok'.
  unfold ta_step in H. destruct (ta_mode t) as [b| |] eqn:M.
  - assert (W : exists b, ta_mode t = AWait b) by eauto.
    assert (S : forall p, ta_prev t ++ [p] <> []) by (intros p E; apply app_eq_nil in E; destruct E; discriminate).
    unfold ta_wait_step in H. destruct (is_quote c).
    + destruct (tag_code_in_eqb (ta_code t) TWaitValue) eqn:C.
      * injection H as <-. apply ta_val_good; auto. destruct (ta_code t); try discriminate; reflexivity.
      * destruct dt.
        -- injection H as <-. destruct G as [Go Gc Gm Gi Gf]. rewrite M in *. constructor; cbn; auto.
           ++ apply map_right_keyless; [exact Gm|reflexivity].
           ++ apply ids_right_add; [exact Gi|]. intros x [k [K _]]. discriminate.
           ++ intros _ a E. rewrite last_opt_snoc in E. injection E as <-. intros x [k [K _]]. discriminate.
        -- injection H as <-. apply ta_key_good; auto.
    + destruct (N.eqb c END_SLASH_CHAR).
      * injection H as <-. destruct G as [Go Gc Gm Gi Gf]. rewrite M in *. constructor; cbn; auto.
      * destruct (N.eqb c EQUAL_CHAR).
        -- destruct (tag_code_in_eqb (ta_code t) TKeyEnd) eqn:C1; [|destruct (tag_code_in_eqb (ta_code t) TWait) eqn:C2].
           ++ injection H as <-. destruct G as [Go Gc Gm Gi Gf]. rewrite M in *. constructor; cbn; auto.
              intros _. apply Gf. destruct (ta_code t); discriminate.
           ++ destruct (allow_attr_key_starts_with_equal_sign po); [|discriminate]. injection H as <-.
              apply ta_key_good; auto.
           ++ injection H as <-. apply ta_val_good; auto. pose proof (g_code _ G) as Gc. rewrite M in Gc. cbn in Gc.
              destruct (ta_code t); try discriminate; try reflexivity; destruct Gc as [Gc|[Gc|Gc]]; discriminate.
        -- destruct (is_ascii_whitespace c).
           ++ injection H as <-. exact G.
           ++ destruct (tag_code_in_eqb (ta_code t) TWaitValue) eqn:C.
              ** injection H as <-. apply ta_val_good; auto. destruct (ta_code t); try discriminate; reflexivity.
              ** injection H as <-. apply ta_key_good; auto.
  - destruct (N.eqb c EQUAL_CHAR); [injection H as <-; apply set_key_good; eauto|].
    destruct (N.eqb c END_SLASH_CHAR); [injection H as <-; apply set_key_good; eauto|].
    destruct (is_ascii_whitespace c); [injection H as <-; apply set_key_good; eauto|].
    injection H as <-. destruct G as [Go Gc Gm Gi Gf]. rewrite M in *. constructor; cbn; rewrite ?M; auto.
    destruct Gm as [P Gm]. split; [|exact Gm]. intro E. apply app_eq_nil in E. destruct E; discriminate.
  - destruct (N.eqb (ta_mark t) WS_CHAR); [destruct (is_ascii_whitespace c)|destruct (N.eqb c (ta_mark t))];
      injection H as <-; try (apply set_val_good; assumption);
      destruct G as [Go Gc Gm Gi Gf]; rewrite M in *; constructor; cbn; rewrite ?M; auto.
Qed.
Lemma ta_run_good : forall po dt s t t', ta_good t -> ta_run po dt s t = Some t' -> ta_good t'.
Proof.
  intros po dt s. induction s as [|c s IH]; intros t t' G H; cbn in H; [injection H as <-; exact G|].
  destruct (ta_closes c t); [discriminate|]. destruct (ta_step po dt c t) as [t1|] eqn:E; [|discriminate].
  eapply IH; [|exact H]. eapply ta_step_good; eauto.
Qed.

(** What a completed or unfinished tag carries. *)
Definition tag_attrs_ok (t : ta) : Prop :=
  (ta_code t <> TKey -> map_right (ta_attrs t) (ta_map t)) /\ ids_right (ta_attrs t) (ta_ids t).
Lemma good_attrs : forall t, ta_good t -> tag_attrs_ok t.
Proof.
  intros t [Go Gc Gm Gi Gf]. split; [|exact Gi]. intro N. destruct (ta_mode t); [exact Gm|cbn in Gc; congruence|exact Gm].
Qed.
Lemma close_attrs : forall t, ta_good t -> tag_attrs_ok (ta_close t) /\ ta_code (ta_close t) <> TKey.
Proof.
  intros t G. unfold ta_close. destruct (ta_mode t) as [b| |] eqn:M.
  - split; [apply good_attrs, G|]. pose proof (g_code _ G) as C. rewrite M in C. destruct C as [->|[->| ->]]; discriminate.
  - pose proof (set_key_good (AWait false) TKeyEnd t G M) as X.
    split; [|discriminate]. destruct X as [_ _ Xm Xi _]; eauto. split; [intros _; exact Xm|exact Xi].
  - pose proof (set_val_good None (ta_mark t) t G M) as X.
    split; [|discriminate]. destruct X as [_ _ Xm Xi _]. split; [intros _; exact Xm|exact Xi].
Qed.
