(** Where raw-text elements, comments and CDATA sections end. *)
From Coq Require Import String ZifyBool ZifyN.
From Verif Require Import Api SpecText SpecParse NameProofs MiscProofs Big.
Local Open Scope string_scope.
Local Open Scope list_scope.

(** The end tag name fits the start tag name. *)
Definition fits (cs : bool) (n nm : list char) : Prop :=
  same_name n nm = true /\ (cs = true -> n = nm).

Lemma char_match : forall cs d p, content_char_match cs d p =
  (N.eqb (ascii_lower_char d) (ascii_lower_char p) && (negb cs || N.eqb d p))%bool.
Proof.
  intros cs d p. unfold content_char_match, is_ascii_uppercase, is_ascii_lowercase, to_ascii_lowercase,
    to_ascii_uppercase, is_ascii_uppercase, is_ascii_lowercase, ascii_lower_char.
  destruct cs; repeat match goal with |- context [if ?b then _ else _] => destruct b eqn:? end; lia.
Qed.

Lemma backward : forall cs rd rp, match_backward cs rd rp = true <->
  exists x y, rp = x ++ y /\ fits cs rd x.
Proof.
  intros cs rd. induction rd as [|d rd IH]; intro rp; cbn [match_backward].
  - split; [|reflexivity]. intros _. exists [], rp. split; [reflexivity|]. split; reflexivity.
  - destruct rp as [|p rp].
    + split; [discriminate|]. intros [x [y [E [F _]]]]. destruct x; [discriminate|discriminate].
    + rewrite char_match. destruct (N.eqb (ascii_lower_char d) (ascii_lower_char p) && (negb cs || N.eqb d p))%bool eqn:M.
      * rewrite IH. apply andb_true_iff in M. destruct M as [M1 M2]. split.
        -- intros [x [y [-> [F1 F2]]]]. exists (p :: x), y. split; [reflexivity|]. split.
           ++ cbn. rewrite M1. exact F1.
           ++ intro C. rewrite C in M2. cbn in M2. apply N.eqb_eq in M2. rewrite M2, (F2 C). reflexivity.
        -- intros [x [y [E [F1 F2]]]]. destruct x as [|p' x]; [discriminate|]. injection E as <- ->.
           exists x, y. split; [reflexivity|]. cbn in F1. rewrite M1 in F1. split; [exact F1|].
           intro C. specialize (F2 C). congruence.
      * split; [discriminate|]. intros [x [y [E [F1 F2]]]]. destruct x as [|p' x]; [discriminate|].
        injection E as <- ->. cbn in F1. apply andb_true_iff in F1. destruct F1 as [F1 _]. rewrite F1 in M. cbn in M.
        destruct cs; cbn in M; [|discriminate]. specialize (F2 eq_refl). injection F2 as -> _.
        rewrite N.eqb_refl in M. discriminate.
Qed.

Lemma same_name_app : forall a b a' b', length a = length a' ->
  same_name (a ++ b) (a' ++ b') = (same_name a a' && same_name b b')%bool.
Proof.
  induction a as [|x a IH]; intros b [|y a'] b' L; try discriminate; cbn; [reflexivity|].
  rewrite IH by (cbn in L; lia). rewrite andb_assoc. reflexivity.
Qed.
Lemma same_name_rev : forall a b, same_name (rev a) (rev b) = same_name a b.
Proof.
  induction a as [|x a IH]; intros [|y b].
  - reflexivity.
  - cbn. destruct (rev b); reflexivity.
  - cbn. destruct (rev a); reflexivity.
  - cbn [rev]. destruct (Nat.eq_dec (length a) (length b)) as [L|L].
    + rewrite same_name_app by (rewrite !rev_length; exact L). rewrite IH. cbn. rewrite andb_true_r, andb_comm. reflexivity.
    + destruct (same_name (rev a ++ [x]) (rev b ++ [y])) eqn:E.
      * apply same_name_length in E. rewrite !app_length, !rev_length in E. cbn in E. lia.
      * symmetry. destruct (same_name (x :: a) (y :: b)) eqn:E2; [|reflexivity].
        apply same_name_length in E2. cbn in E2. lia.
Qed.
Lemma fits_rev : forall cs a b, fits cs (rev a) (rev b) <-> fits cs a b.
Proof.
  intros cs a b. unfold fits. rewrite same_name_rev. split; intros [A B]; (split; [exact A|]); intro C; specialize (B C).
  - rewrite <- (rev_involutive a), B, rev_involutive. reflexivity.
  - congruence.
Qed.

Lemma lower_ws : forall c d, ascii_lower_char c = ascii_lower_char d -> is_ascii_whitespace c = is_ascii_whitespace d.
Proof. intros c d. unfold ascii_lower_char, is_ascii_whitespace.
  repeat match goal with |- context [if ?b then _ else _] => destruct b eqn:? end; lia. Qed.
Lemma fits_slash : forall cs n y, fits cs (str "</" ++ n) y -> exists nm, y = str "</" ++ nm /\ fits cs n nm.
Proof.
  intros cs n y [A B]. change (str "</" ++ n) with (60%N :: 47%N :: n) in *.
  destruct y as [|a [|b y]]; cbn [same_name] in A; try discriminate.
  - apply andb_true_iff in A as [_ A]. discriminate.
  - apply andb_true_iff in A as [A1 A]. apply andb_true_iff in A as [A2 A].
    assert (a = 60%N) by (clear - A1; unfold ascii_lower_char in A1; repeat match type of A1 with context [if ?b then _ else _] => destruct b eqn:? end; lia).
    assert (b = 47%N) by (clear - A2; unfold ascii_lower_char in A2; repeat match type of A2 with context [if ?b then _ else _] => destruct b eqn:? end; lia). subst.
    exists y. split; [reflexivity|]. split; [exact A|]. intro C. specialize (B C). injection B as ->. reflexivity.
Qed.
Lemma fits_slash_intro : forall cs n nm, fits cs n nm -> fits cs (str "</" ++ n) (str "</" ++ nm).
Proof. intros cs n nm [A B]. split; [exact A|]. intro C. rewrite (B C). reflexivity. Qed.

Lemma open_last : forall n, open_name n -> exists n' c, n = n' ++ [c] /\ not_ws c.
Proof.
  intros n [c [n' [-> [A F]]]].
  assert (Wc : not_ws c) by (unfold not_ws; clear - A; unfold is_ascii_alphabetic, is_ascii_lowercase, is_ascii_uppercase, is_ascii_whitespace in *; lia).
  destruct n' as [|d n'] using rev_ind; [exists [], c; auto|]. clear IHn'.
  exists (c :: n'), d. split; [reflexivity|]. apply Forall_app in F. destruct F as [_ F]. inversion F; subst.
  destruct H1 as [H _]. unfold is_ws in H. unfold not_ws. destruct (is_ascii_whitespace d); congruence.
Qed.
Lemma fits_last : forall cs n nm, open_name n -> fits cs n nm -> exists n' c, nm = n' ++ [c] /\ not_ws c.
Proof.
  intros cs n nm O [F _]. destruct (open_last n O) as [n' [c [-> Wc]]].
  rewrite <- same_name_rev in F. rewrite rev_app_distr in F. cbn in F.
  destruct (rev nm) as [|d r] eqn:E; [discriminate|]. apply andb_true_iff in F as [F _].
  exists (rev r), d. split; [rewrite <- (rev_involutive nm), E; reflexivity|].
  unfold not_ws in *. rewrite <- Wc. symmetry. apply lower_ws. apply N.eqb_eq. exact F.
Qed.
Lemma trim_fits : forall cs n nm pre w, open_name n -> fits cs n nm -> Forall is_ws w -> trim_right (pre ++ nm ++ w) = pre ++ nm.
Proof.
  intros cs n nm pre w O F W. rewrite app_assoc, trim_right_ws by exact W.
  destruct (fits_last _ _ _ O F) as [n' [c [-> Wc]]]. rewrite app_assoc. apply trim_right_app_nonws. exact Wc.
Qed.

(** The test made at each '>' of a raw-text element. *)
Lemma raw_end_iff : forall po n b, open_name n ->
  (raw_end po (str "</" ++ n) b = true <->
   exists body nm w, b = body ++ str "</" ++ nm ++ w /\ Forall is_ws w /\ fits (case_sensitive_tagname po) n nm).
Proof.
  intros po n b O. unfold raw_end. rewrite <- trim_right_eq. split.
  - intro H. apply andb_true_iff in H as [_ H]. apply backward in H. destruct H as [x [y [E F]]].
    rewrite <- (rev_involutive x) in F. apply (proj1 (fits_rev _ _ _)) in F.
    destruct (fits_slash _ _ _ F) as [nm [Ex F2]].
    destruct (trim_right_split b) as [w [Eb W]].
    exists (rev y), nm, w. split; [|split; [exact W|exact F2]].
    rewrite Eb. rewrite app_assoc, app_assoc. f_equal.
    rewrite <- (rev_involutive (trim_right b)), E, rev_app_distr, Ex, <- ?app_assoc. reflexivity.
  - intros [body [nm [w [-> [W F]]]]].
    assert (Et : trim_right (body ++ str "</" ++ nm ++ w) = (body ++ str "</") ++ nm).
    { rewrite app_assoc. eapply trim_fits; eauto. }
    rewrite Et.
    assert (Ln : length nm = length n) by (symmetry; apply same_name_length, F).
    apply andb_true_iff. split; [apply andb_true_iff; split; apply Nat.leb_le; rewrite !app_length; cbn; lia|].
    apply backward. exists (rev (str "</" ++ nm)), (rev body). split.
    + rewrite <- rev_app_distr, app_assoc. reflexivity.
    + apply (proj2 (fits_rev _ _ _)). apply fits_slash_intro. exact F.
Qed.
(** How the text is split there. *)
Lemma raw_split : forall po n b body nm w, open_name n -> b = body ++ str "</" ++ nm ++ w -> Forall is_ws w ->
  fits (case_sensitive_tagname po) n nm ->
  let k := length (chars_trim_end b) - length (str "</" ++ n) in
  firstn k b = body /\ skipn 2 (skipn k b) = nm ++ w.
Proof.
  intros po n b body nm w O -> W F. cbv zeta. rewrite <- trim_right_eq.
  replace (trim_right (body ++ str "</" ++ nm ++ w)) with ((body ++ str "</") ++ nm)
    by (rewrite app_assoc; symmetry; eapply trim_fits; eauto).
  assert (Ln : length nm = length n) by (symmetry; apply same_name_length, F).
  replace (length ((body ++ str "</") ++ nm) - length (str "</" ++ n)) with (length body) by (rewrite !app_length; cbn; lia).
  split.
  - rewrite firstn_app, Nat.sub_diag, firstn_all. cbn. apply app_nil_r.
  - rewrite skipn_app, Nat.sub_diag, skipn_all. reflexivity.
Qed.

(** The test made at each '>' of a comment ([mark] is '-') or CDATA section ([mark] is ']'). *)
Lemma cm_end_iff : forall mark b, cm_end mark b = true <-> exists c, c <> [] /\ b = c ++ [mark; mark].
Proof.
  intros mark b. unfold cm_end. split.
  - intro H. apply andb_true_iff in H as [L H]. apply andb_true_iff in H as [H1 H2]. apply Nat.ltb_lt in L.
    destruct b as [|y b] using rev_ind; [cbn in L; lia|]. clear IHb.
    destruct b as [|x b] using rev_ind; [cbn in L; lia|]. clear IHb.
    rewrite <- app_assoc in H1, H2. rewrite !app_length in H1, H2. cbn [length] in H1, H2. rewrite !app_length in L. cbn in L.
    replace (length b + (1 + 1) - 1) with (length b + 1) in H1 by lia.
    replace (length b + (1 + 1) - 2) with (length b + 0) in H2 by lia.
    rewrite app_nth2_plus in H1, H2. cbn in H1, H2. apply N.eqb_eq in H1, H2. subst.
    exists b. split; [intros ->; cbn in L; lia|]. rewrite <- app_assoc. reflexivity.
  - intros [c [N ->]]. rewrite app_length. cbn [length].
    replace (length c + 2 - 1) with (length c + 1) by lia. replace (length c + 2 - 2) with (length c + 0) by lia.
    rewrite !app_nth2_plus. cbn [nth]. rewrite N.eqb_refl. apply andb_true_iff. split; [|reflexivity].
    apply Nat.ltb_lt. destruct c; [congruence|cbn; lia].
Qed.
Lemma cm_split : forall (mark : char) c, firstn (length (c ++ [mark; mark]) - 2) (c ++ [mark; mark]) = c.
Proof.
  intros. rewrite app_length. cbn [length]. replace (length c + 2 - 2) with (length c) by lia.
  rewrite firstn_app, Nat.sub_diag, firstn_all. cbn. apply app_nil_r.
Qed.
