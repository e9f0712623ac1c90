(** Facts about the name tests and small string helpers. *)
From Coq Require Import String ZifyBool ZifyN.
From Verif Require Import Api SpecText SpecRender TextProofs.
Local Open Scope string_scope.
Local Open Scope list_scope.

Lemma chars_eqb_eq : forall a b, chars_eqb a b = true <-> a = b.
Proof.
  induction a as [|x a IH]; destruct b as [|y b]; cbn; try (split; congruence).
  rewrite andb_true_iff, IH, N.eqb_eq. split; [intros [-> ->]; reflexivity|].
  intro H. injection H as -> ->. auto.
Qed.
Lemma chars_eqb_refl : forall a, chars_eqb a a = true.
Proof. intro a. apply chars_eqb_eq. reflexivity. Qed.
Lemma chars_eqb_neq : forall a b, chars_eqb a b = false <-> a <> b.
Proof.
  intros a b. rewrite <- chars_eqb_eq. destruct (chars_eqb a b); split; congruence.
Qed.
Lemma chars_eq_dec : forall a b : list char, {a = b} + {a <> b}.
Proof.
  intros a b. destruct (chars_eqb a b) eqn:E; [left; apply chars_eqb_eq; exact E|].
  right. apply chars_eqb_neq. exact E.
Qed.

Lemma lower_char_eq : forall c, ascii_lower_char c = to_ascii_lowercase c.
Proof. reflexivity. Qed.
Lemma ascii_lower_lower : forall s, ascii_lower s = lower s.
Proof. reflexivity. Qed.

Lemma same_name_lower : forall a b, same_name a b = true <-> lower a = lower b.
Proof.
  induction a as [|x a IH]; destruct b as [|y b]; cbn [same_name]; try (split; discriminate || reflexivity).
  rewrite andb_true_iff, IH, N.eqb_eq. change ascii_lower_char with to_ascii_lowercase.
  change (lower (x :: a)) with (to_ascii_lowercase x :: lower a).
  change (lower (y :: b)) with (to_ascii_lowercase y :: lower b).
  split; [intros [-> ->]; reflexivity|]. intro H. injection H as -> ->. auto.
Qed.
Lemma same_name_refl : forall a, same_name a a = true.
Proof. intro. apply same_name_lower. reflexivity. Qed.
Lemma same_name_sym : forall a b, same_name a b = same_name b a.
Proof.
  intros a b. apply eq_true_iff_eq. rewrite !same_name_lower. split; congruence.
Qed.
Lemma same_name_trans : forall a b c, same_name a b = true -> same_name b c = true -> same_name a c = true.
Proof. intros a b c. rewrite !same_name_lower. congruence. Qed.
Lemma same_name_length : forall a b, same_name a b = true -> length a = length b.
Proof.
  intros a b H. apply same_name_lower in H. unfold lower in H.
  rewrite <- (map_length to_ascii_lowercase a), H, map_length. reflexivity.
Qed.
Lemma to_lower_idem : forall c, to_ascii_lowercase (to_ascii_lowercase c) = to_ascii_lowercase c.
Proof.
  intro c. unfold to_ascii_lowercase, is_ascii_uppercase.
  destruct (N.leb 65 c && N.leb c 90)%bool eqn:E.
  - destruct (N.leb 65 (c + 32) && N.leb (c + 32) 90)%bool eqn:E2; lia.
  - rewrite E. reflexivity.
Qed.
Lemma lower_idem : forall s, lower (lower s) = lower s.
Proof. intro s. unfold lower. rewrite map_map. apply map_ext. apply to_lower_idem. Qed.
Lemma same_name_lower_l : forall a b, same_name (lower a) b = same_name a b.
Proof.
  intros. apply eq_true_iff_eq. rewrite !same_name_lower, lower_idem. reflexivity.
Qed.

Lemma is_equal_chars_none : forall a b, is_equal_chars a b None = true <-> a = b.
Proof.
  induction a as [|x a IH]; destruct b as [|y b]; cbn; try (split; congruence).
  rewrite andb_true_iff, IH, N.eqb_eq. split; [intros [-> ->]; reflexivity|].
  intro H. injection H as -> ->. auto.
Qed.
Lemma is_equal_chars_none_eqb : forall a b, is_equal_chars a b None = chars_eqb a b.
Proof. intros. apply eq_true_iff_eq. rewrite is_equal_chars_none, chars_eqb_eq. reflexivity. Qed.

Lemma is_equal_chars_lower : forall a b, lower b = b ->
  is_equal_chars a b (Some Lower) = same_name a b.
Proof.
  induction a as [|x a IH]; destruct b as [|y b]; intro Hb; cbn; try reflexivity.
  change (to_ascii_lowercase y :: lower b = y :: b) in Hb.
  injection Hb as Hy Hb. rewrite IH by exact Hb. f_equal.
  change ascii_lower_char with to_ascii_lowercase. rewrite Hy.
  destruct (N.eqb_spec x y) as [->|Hne]; [|reflexivity].
  rewrite Hy. rewrite N.eqb_refl. reflexivity.
Qed.

Lemma eq_case_char : forall a b : char,
  (if N.eqb b a then true
   else if is_ascii_lowercase b then N.eqb (to_ascii_uppercase b) a
   else if is_ascii_uppercase b then N.eqb (to_ascii_lowercase b) a
   else false) = N.eqb (to_ascii_lowercase a) (to_ascii_lowercase b).
Proof.
  intros a b. unfold to_ascii_lowercase, to_ascii_uppercase, is_ascii_lowercase, is_ascii_uppercase.
  destruct (N.eqb_spec b a) as [->|Hne].
  - rewrite N.eqb_refl. reflexivity.
  - destruct (N.leb 97 b && N.leb b 122)%bool eqn:E1.
    + replace (N.leb 65 b && N.leb b 90)%bool with false by lia.
      destruct (N.leb 65 a && N.leb a 90)%bool eqn:E2; lia.
    + destruct (N.leb 65 b && N.leb b 90)%bool eqn:E2;
      destruct (N.leb 65 a && N.leb a 90)%bool eqn:E3; lia.
Qed.

Lemma eq_ignore_case_loop_spec : forall a b same, length a = length b ->
  eq_ignore_case_loop a b same =
  if same_name a b then (true, (same && chars_eqb a b)%bool) else (false, false).
Proof.
  induction a as [|x a IH]; destruct b as [|y b]; intros same Hl; try discriminate.
  - cbn. rewrite andb_true_r. reflexivity.
  - cbn in Hl. injection Hl as Hl. cbn [eq_ignore_case_loop same_name chars_eqb].
    change ascii_lower_char with to_ascii_lowercase. rewrite <- (eq_case_char x y).
    destruct (N.eqb_spec y x) as [->|Hne].
    + rewrite IH by exact Hl. rewrite N.eqb_refl. reflexivity.
    + replace (N.eqb x y) with false by (symmetry; apply N.eqb_neq; congruence).
      destruct (is_ascii_lowercase y).
      * destruct (N.eqb (to_ascii_uppercase y) x); cbn; [|reflexivity].
        rewrite IH by exact Hl. rewrite andb_false_r. reflexivity.
      * destruct (is_ascii_uppercase y); [|reflexivity].
        destruct (N.eqb (to_ascii_lowercase y) x); cbn; [|reflexivity].
        rewrite IH by exact Hl. rewrite andb_false_r. reflexivity.
Qed.

Lemma is_equal_chars_ignore_case_spec : forall a b,
  is_equal_chars_ignore_case a b = (same_name a b, chars_eqb a b).
Proof.
  intros a b. unfold is_equal_chars_ignore_case.
  destruct (Nat.eqb_spec (length a) (length b)) as [Hl|Hl].
  - rewrite eq_ignore_case_loop_spec by exact Hl.
    destruct (same_name a b) eqn:E; [reflexivity|].
    destruct (chars_eqb a b) eqn:E2; [|reflexivity].
    apply chars_eqb_eq in E2. subst b. rewrite same_name_refl in E. discriminate.
  - destruct (same_name a b) eqn:E; [apply same_name_length in E; contradiction|].
    destruct (chars_eqb a b) eqn:E2; [apply chars_eqb_eq in E2; subst; contradiction|reflexivity].
Qed.

(** * Trimming *)

Lemma drop_ws_app_ws : forall w s, Forall is_ws w -> drop_ws (w ++ s) = drop_ws s.
Proof. induction 1 as [|c w Hc Hw IH]; [reflexivity|]. cbn. unfold is_ws in Hc. rewrite Hc. exact IH. Qed.

Lemma trim_right_app_nonws : forall s c, not_ws c -> trim_right (s ++ [c]) = s ++ [c].
Proof.
  induction s as [|x s IH]; intros c Hc; cbn.
  - rewrite Hc. reflexivity.
  - rewrite IH by exact Hc. destruct (s ++ [c]) eqn:E; [destruct s; discriminate|reflexivity].
Qed.
Lemma trim_right_app_ws : forall s c, is_ws c -> trim_right (s ++ [c]) = trim_right s.
Proof.
  induction s as [|x s IH]; intros c Hc; cbn.
  - unfold is_ws in Hc. rewrite Hc. reflexivity.
  - rewrite IH by exact Hc. reflexivity.
Qed.
Lemma trim_right_eq : forall s, trim_right s = chars_trim_end s.
Proof.
  induction s as [|c s IH] using rev_ind; [reflexivity|].
  unfold chars_trim_end in *. rewrite rev_app_distr. cbn [rev app].
  destruct (is_ascii_whitespace c) eqn:E.
  - rewrite trim_right_app_ws by exact E. cbn [drop_ws]. rewrite E. exact IH.
  - rewrite trim_right_app_nonws by exact E. cbn [drop_ws]. rewrite E. cbn [rev].
    rewrite rev_involutive. reflexivity.
Qed.

Lemma trim_right_split : forall s, exists w, s = trim_right s ++ w /\ Forall is_ws w.
Proof.
  induction s as [|c s IH] using rev_ind.
  - exists []. split; [reflexivity|constructor].
  - destruct (is_ascii_whitespace c) eqn:E.
    + rewrite trim_right_app_ws by exact E. destruct IH as (w & E1 & Hw).
      exists (w ++ [c]). split.
      * rewrite app_assoc. rewrite <- E1. reflexivity.
      * apply Forall_app. split; [exact Hw|]. constructor; [exact E|constructor].
    + rewrite trim_right_app_nonws by exact E. exists []. rewrite app_nil_r. split; [reflexivity|constructor].
Qed.
Lemma trim_right_ws : forall s w, Forall is_ws w -> trim_right (s ++ w) = trim_right s.
Proof.
  intros s w. revert s. induction w as [|c w IH]; intros s H.
  - rewrite app_nil_r. reflexivity.
  - inversion H as [|? ? Hc Hw]; subst.
    replace (s ++ c :: w) with ((s ++ [c]) ++ w) by (rewrite <- app_assoc; reflexivity).
    rewrite IH by exact Hw. apply trim_right_app_ws. exact Hc.
Qed.
Lemma trim_right_idem : forall s, trim_right (trim_right s) = trim_right s.
Proof.
  intro s. destruct (trim_right_split s) as (w & E & Hw).
  rewrite E at 2. rewrite trim_right_ws by exact Hw. reflexivity.
Qed.
Lemma lower_ws : forall c, is_ascii_whitespace (to_ascii_lowercase c) = is_ascii_whitespace c.
Proof.
  intro c. unfold to_ascii_lowercase, is_ascii_uppercase, is_ascii_whitespace.
  destruct (N.leb 65 c && N.leb c 90)%bool eqn:E; lia.
Qed.
Lemma lower_trim : forall s, lower (trim_right s) = trim_right (lower s).
Proof.
  induction s as [|c s IH]; [reflexivity|].
  change (lower (c :: s)) with (to_ascii_lowercase c :: lower s). cbn [trim_right].
  rewrite <- IH. destruct (trim_right s) eqn:E; cbn.
  - rewrite lower_ws. destruct (is_ascii_whitespace c); reflexivity.
  - reflexivity.
Qed.
