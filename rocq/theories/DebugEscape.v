(** Proofs for C65: escapes. *)
From Coq Require Import String NArith Lia.
From Verif Require Import SpecDebug.
Local Open Scope string_scope.
Local Open Scope list_scope.

Lemma hex_place_digit : forall m, (m < 16)%N -> hex_place (hex_digit m) = Some m.
Proof.
  intros m L. unfold hex_digit, hex_place. destruct (N.ltb_spec m 10).
  - destruct (N.leb_spec 48 (48 + m)); [|lia]. destruct (N.leb_spec (48 + m) 57); [|lia]. cbn [andb]. f_equal. lia.
  - destruct (N.leb_spec (87 + m) 57); [lia|]. rewrite Bool.andb_false_r. destruct (N.leb_spec 97 (87 + m)); [|lia].
    destruct (N.leb_spec (87 + m) 102); [|lia]. cbn [andb]. f_equal. lia.
Qed.
Lemma hex_number_app : forall l l' a, hex_number a (l ++ l') = match hex_number a l with Some b => hex_number b l' | None => None end.
Proof. induction l as [|c l IH]; intros l' a; cbn; [reflexivity|]. destruct (hex_place c); [apply IH|reflexivity]. Qed.
Lemma hex_number_fuel : forall f n, (n < 16 ^ N.of_nat f)%N -> hex_number 0 (hex_fuel f n) = Some n.
Proof.
  induction f as [|f IH]; intros n L.
  - cbn in L. assert (n = 0%N) by lia. subst. reflexivity.
  - cbn [hex_fuel]. destruct (N.ltb_spec n 16) as [S|S].
    + cbn -[N.mul]. rewrite hex_place_digit by exact S. f_equal. 
    + rewrite hex_number_app, IH.
      * cbn -[N.mul]. rewrite hex_place_digit by (apply N.mod_lt; discriminate). f_equal. symmetry. apply N.div_mod. discriminate.
      * apply N.div_lt_upper_bound; [discriminate|]. rewrite Nnat.Nat2N.inj_succ, N.pow_succ_r' in L. exact L.
Qed.
Lemma hex_number_hex : forall n, hex_number 0 (hex n) = Some n.
Proof.
  intro n. apply hex_number_fuel. rewrite Nnat.Nat2N.inj_succ, Nnat.N2Nat.id.
  apply N.lt_le_trans with (2 ^ N.size n)%N; [apply N.size_gt|].
  apply N.le_trans with (2 ^ N.succ (N.size n))%N; [apply N.pow_le_mono_r; [discriminate|lia]|]. apply N.pow_le_mono_l. lia.
Qed.
Lemma hex_ne : forall f n, hex_fuel (S f) n <> [].
Proof. intros f n. cbn. destruct (N.ltb n 16); [discriminate|]. intro E. apply app_eq_nil in E as [_ E]. discriminate E. Qed.
Lemma hex_lead : forall f n r, (n < 16 ^ N.of_nat f)%N -> hex_fuel f n = 48%N :: r -> r = [].
Proof.
  induction f as [|f IH]; intros n r L E; [discriminate E|]. cbn [hex_fuel] in E. destruct (N.ltb_spec n 16) as [S|S].
  - injection E as _ <-. reflexivity.
  - exfalso. assert (L' : (N.div n 16 < 16 ^ N.of_nat f)%N).
    { apply N.div_lt_upper_bound; [discriminate|]. rewrite Nnat.Nat2N.inj_succ, N.pow_succ_r' in L. exact L. }
    pose proof (hex_number_fuel f _ L') as V. assert (P : (1 <= N.div n 16)%N) by (apply N.div_le_lower_bound; [discriminate|lia]).
    destruct (hex_fuel f (N.div n 16)) as [|c l] eqn:H.
    + cbn in V. injection V as V. lia.
    + injection E as -> E. pose proof (IH _ _ L' H) as ->. cbn in V. injection V as V. lia.
Qed.
Lemma escapes : forall plain q c, shown_as plain q c (escaped plain q c).
Proof.
  intros plain q c. unfold escaped.
  destruct (N.eqb_spec c 0); [subst; constructor|]. destruct (N.eqb_spec c 9); [subst; constructor|].
  destruct (N.eqb_spec c 13); [subst; constructor|]. destruct (N.eqb_spec c 10); [subst; constructor|].
  destruct (N.eqb_spec c 92); [apply sa_escape; left; assumption|]. destruct (N.eqb_spec c q); [apply sa_escape; right; assumption|]. cbn [orb].
  assert (A : ~ In c [0; 9; 10; 13; 92; q]%N) by (cbn; intuition congruence).
  destruct (plain c) eqn:P; [apply sa_plain; assumption|]. apply sa_hex; [assumption|assumption|apply hex_ne|apply hex_number_hex|].
  intro r. apply hex_lead. rewrite Nnat.Nat2N.inj_succ, Nnat.N2Nat.id.
  apply N.lt_le_trans with (2 ^ N.size c)%N; [apply N.size_gt|].
  apply N.le_trans with (2 ^ N.succ (N.size c))%N; [apply N.pow_le_mono_r; [discriminate|lia]|]. apply N.pow_le_mono_l. lia.
Qed.
