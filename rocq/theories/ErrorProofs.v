(** Proofs about error messages. *)
From Coq Require Import String ZifyBool ZifyN Lia.
From Verif Require Import Api SpecText SpecParse TextProofs CtlRun ErrorText SpecError MiscProofs.
Local Open Scope string_scope.
Local Open Scope list_scope.

Lemma digits_ok : forall f n, n < f -> numeral (digits_fuel f n) n /\ (0 < n -> hd_error (digits_fuel f n) <> Some 48%N).
Proof.
  intro f. induction f as [|f IH]; intros n L; [lia|]. cbn [digits_fuel]. destruct (Nat.ltb n 10) eqn:E.
  - apply Nat.ltb_lt in E. remember (48 + N.of_nat n)%N as x eqn:X. split.
    + split; [constructor; [unfold digit; lia|constructor]|]. split; [discriminate|]. split.
      * cbn [hd_error]. intro H. injection H as ->. reflexivity.
      * cbn. unfold read_digit. lia.
    + cbn [hd_error]. intros P H. injection H as H. lia.
  - apply Nat.ltb_ge in E. assert (D : 0 < n / 10 < n) by (split; [apply Nat.div_str_pos; lia|apply Nat.div_lt; lia]).
    destruct (IH (n / 10)) as [(A & B & C & V) Z]; [lia|]. specialize (Z ltac:(lia)).
    assert (M : n mod 10 < 10) by (apply Nat.mod_upper_bound; lia). pose proof (Nat.div_mod n 10 ltac:(lia)) as DM.
    set (m := n mod 10) in *. set (q := n / 10) in *.
    assert (H : hd_error (digits_fuel f q ++ [(48 + N.of_nat m)%N]) = hd_error (digits_fuel f q)).
    { destruct (digits_fuel f q); [congruence|reflexivity]. }
    split.
    + split; [apply Forall_app; split; [exact A|constructor; [unfold digit; lia|constructor]]|].
      split; [intro X; apply app_eq_nil in X; destruct X; discriminate|]. split; [rewrite H; tauto|].
      rewrite fold_left_app, V. cbn [fold_left]. unfold read_digit. lia.
    + intros _. rewrite H. exact Z.
Qed.
Lemma digits_numeral : forall n, numeral (digits n) n.
Proof. intro n. apply digits_ok. unfold digits. lia. Qed.

(** Reading a numeral up to a character that is no digit. *)
Lemma digits_split : forall a b c d x y, Forall digit a -> Forall digit b -> ~ digit c -> ~ digit d ->
  a ++ c :: x = b ++ d :: y -> a = b /\ c = d /\ x = y.
Proof.
  intro a. induction a as [|u a IH]; intros b c d x y A B C D E; destruct b as [|v b]; cbn [app] in E.
  - injection E as <- <-. auto.
  - injection E as E _. subst v. inversion B; contradiction.
  - injection E as E _. subst u. inversion A; contradiction.
  - injection E as <- E. inversion A; subst. inversion B; subst. destruct (IH _ _ _ _ _ H2 H4 C D E) as (-> & -> & ->). auto.
Qed.
Lemma digits_all : forall n, Forall digit (digits n).
Proof. intro n. apply digits_numeral. Qed.
Lemma digits_inj : forall n m, digits n = digits m -> n = m.
Proof.
  intros n m E. destruct (digits_numeral n) as (_ & _ & _ & A). destruct (digits_numeral m) as (_ & _ & _ & B). congruence.
Qed.
Lemma numeral_unique : forall a b n, numeral a n -> numeral b n -> a = b.
Proof.
  intros a. induction a as [|c a IH] using rev_ind; intros b n A B.
  - destruct A as (_ & X & _). congruence.
  - destruct A as (A1 & A2 & A3 & A4). destruct B as (B1 & B2 & B3 & B4).
    destruct (exists_last B2) as (b' & d & ->). rewrite fold_left_app in A4, B4. cbn [fold_left] in A4, B4.
    apply Forall_app in A1. destruct A1 as [A1 A5]. apply Forall_app in B1. destruct B1 as [B1 B5].
    inversion A5 as [|? ? A6 _]; subst. inversion B5 as [|? ? B6 _]; subst.
    unfold read_digit in B4. unfold digit in A6, B6.
    assert (E : fold_left read_digit a 0 = fold_left read_digit b' 0 /\ c = d).
    { unfold read_digit in *. split; lia. }
    destruct E as [E ->]. f_equal.
    assert (Z : forall l, Forall digit l -> (hd_error (l ++ [d]) = Some 48%N -> l ++ [d] = [48%N]) -> l = [] \/ numeral l (fold_left read_digit l 0) /\ 0 < fold_left read_digit l 0).
    { clear. intros l F H. destruct l as [|x l]; [left; reflexivity|right]. cbn [app hd_error] in H.
      assert (X : x <> 48%N) by (intros ->; specialize (H eq_refl); destruct l; discriminate).
      split; [split; [exact F|]; split; [discriminate|]; split; [cbn; congruence|reflexivity]|].
      cbn [fold_left]. inversion F as [|? ? D _]; subst. unfold digit in D.
      assert (G : forall l n, 0 < n -> 0 < fold_left read_digit l n).
      { clear. induction l as [|y l IH]; intros n P; cbn [fold_left]; [exact P|]. apply IH. unfold read_digit. lia. }
      apply G. unfold read_digit. lia. }
    destruct (Z a A1 A3) as [->|[Za Pa]]; destruct (Z b' B1 B3) as [->|[Zb Pb]].
    + reflexivity.
    + cbn in E. lia.
    + cbn in E. lia.
    + eapply IH; [exact Za|]. rewrite E. exact Zb.
Qed.

Lemma nodigit : forall c, (c < 48 \/ 57 < c)%N -> ~ digit c.
Proof. unfold digit. intros. lia. Qed.
Lemma text_inj : forall k k' r r', error_text k r = error_text k' r' -> r = r' /\ kind_text k = kind_text k'.
Proof.
  intros k k' [i l c] [i' l' c'] E. unfold error_text, region_text in E. cbn [r_line r_col r_index] in E. rewrite <- !app_assoc in E.
  apply app_inv_head in E.
  change (str ",col:") with (44%N :: str "col:") in E. change (str ",index:") with (44%N :: str "index:") in E. change (str "]") with [93%N] in E.
  cbn [app] in E.
  apply digits_split in E; try apply digits_all; try (apply nodigit; lia). destruct E as (El & _ & E).
  apply app_inv_head in E.
  apply digits_split in E; try apply digits_all; try (apply nodigit; lia). destruct E as (Ec & _ & E).
  apply app_inv_head in E.
  apply digits_split in E; try apply digits_all; try (apply nodigit; lia). destruct E as (Ei & _ & E).
  apply digits_inj in El. apply digits_inj in Ec. apply digits_inj in Ei. subst. auto.
Qed.
Lemma kind_inj : forall k k', kind_text k = kind_text k' -> k = k' \/
  (exists a b a' b', k = EUnrecognizedTag a b /\ k' = EUnrecognizedTag a' b') \/
  (exists c, k = EUnclosedTag (code_text c) /\ k' = EUnclosedCode c) \/ (exists c, k = EUnclosedCode c /\ k' = EUnclosedTag (code_text c)).
Proof.
  intros k k' E. destruct k; destruct k'; cbn [kind_text] in E; try (cbn in E; discriminate); auto;
    try (apply app_inv_head in E; try apply app_inv_tail in E; subst; auto).
  - right. right. left. eauto.
  - right. right. right. eauto.
  - left. f_equal. destruct c, c0; try reflexivity; discriminate E.
  - left. injection E as E. subst. reflexivity.
  - right. left. eauto 6.
Qed.
Lemma message : forall opts s k r, parse opts s = Failed k r -> exists l c i ln,
  numeral l (1 + line_breaks (firstn (S (r_index r)) s)) /\
  last_line (firstn (S (r_index r)) s) ln /\ numeral c (length ln) /\ numeral i (r_index r) /\
  error_text k r = str "[line:" ++ l ++ str ",col:" ++ c ++ str ",index:" ++ i ++ str "]" ++ kind_text k.
Proof.
  intros opts s k r P. destruct (failed_region _ _ _ _ P) as [_ R].
  destruct (region_correct s (r_index r)) as (A & B & ln & C & D). rewrite <- R in *.
  exists (digits (r_line r)), (digits (r_col r)), (digits (r_index r)), ln. rewrite <- B, <- D.
  repeat (split; [solve [apply digits_numeral|exact C]|]).
  unfold error_text, region_text. rewrite <- !app_assoc. reflexivity.
Qed.
