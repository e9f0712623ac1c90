(** Proofs for C61: UTF-8, lines of bytes, and parse_file. *)
From Coq Require Import String ZArith Zify ZifyBool ZifyN Lia.
From Verif Require Import SpecFile MiscProofs.
Local Open Scope list_scope.
Local Arguments second2 _%N_scope. Local Arguments second3 _%N_scope _%N_scope. Local Arguments second4 _%N_scope _%N_scope. Local Arguments cont_byte _%N_scope.

(** A number and its base-64 digits. *)
Lemma digits : forall c : N, exists m0 m1 m2 q1 q2 q3 : N,
  (c mod 64 = m0 /\ c / 64 = q1 /\ q1 mod 64 = m1 /\ c / 4096 = q2 /\ q2 mod 64 = m2 /\ c / 262144 = q3 /\
   c = 64 * q1 + m0 /\ q1 = 64 * q2 + m1 /\ q2 = 64 * q3 + m2 /\ m0 < 64 /\ m1 < 64 /\ m2 < 64)%N.
Proof.
  intro c. exists (c mod 64)%N, (c / 64 mod 64)%N, (c / 4096 mod 64)%N, (c / 64)%N, (c / 4096)%N, (c / 262144)%N.
  assert (E2 : (c / 4096 = c / 64 / 64)%N) by (rewrite N.div_div by discriminate; reflexivity).
  assert (E3 : (c / 262144 = c / 4096 / 64)%N) by (rewrite N.div_div by discriminate; reflexivity).
  repeat split; try (apply N.mod_lt; discriminate).
  - apply N.div_mod; discriminate.
  - rewrite E2. apply N.div_mod; discriminate.
  - rewrite E3. apply N.div_mod; discriminate.
Qed.
Ltac dig c := destruct (digits c) as (m0 & m1 & m2 & q1 & q2 & q3 & E0 & E1 & E2 & E3 & E4 & E5 & D0 & D1 & D2 & L0 & L1 & L2);
  rewrite ?E0, ?E1, ?E2, ?E3, ?E4, ?E5; clear E0 E1 E2 E3 E4 E5.

(** ** UTF-8 *)
Lemma lt_true : forall a b : N, (a < b)%N -> N.ltb a b = true.
Proof. intros. lia. Qed.
Lemma lt_false : forall a b : N, (b <= a)%N -> N.ltb a b = false.
Proof. intros. lia. Qed.

Lemma decode_char : forall c r, scalar c -> from_utf8 (utf8_char c ++ r) = ocons c (from_utf8 r).
Proof.
  intros c r Hs. unfold scalar in Hs. unfold utf8_char. dig c.
  destruct (N.ltb_spec c 128) as [H1|H1].
  { cbn [app from_utf8]. rewrite lt_true by exact H1. reflexivity. }
  destruct (N.ltb_spec c 2048) as [H2|H2].
  { cbn [app from_utf8].
    rewrite lt_false by lia.
    replace (second2 (192 + q1))%N with true by (unfold second2, between_b; symmetry; lia).
    replace (cont_byte (128 + m0))%N with true by (unfold cont_byte, between_b; symmetry; lia).
    f_equal. lia. }
  destruct (N.ltb_spec c 65536) as [H3|H3].
  { cbn [app from_utf8].
    rewrite lt_false by lia.
    replace (second2 (224 + q2))%N with false by (unfold second2, between_b; symmetry; lia).
    replace (second3 (224 + q2) (128 + m1))%N with true
      by (unfold second3, cont_byte, between_b; symmetry; lia).
    replace (cont_byte (128 + m0))%N with true by (unfold cont_byte, between_b; symmetry; lia).
    f_equal. lia. }
  cbn [app from_utf8].
  rewrite lt_false by lia.
  replace (second2 (240 + q3))%N with false by (unfold second2, between_b; symmetry; lia).
  replace (second3 (240 + q3) (128 + m2))%N with false
    by (unfold second3, cont_byte, between_b; symmetry; lia).
  replace (second4 (240 + q3) (128 + m2))%N with true
    by (unfold second4, cont_byte, between_b; symmetry; lia).
  replace (cont_byte (128 + m1))%N with true by (unfold cont_byte, between_b; symmetry; lia).
  replace (cont_byte (128 + m0))%N with true by (unfold cont_byte, between_b; symmetry; lia).
  cbn [andb]. f_equal. lia.
Qed.

Lemma decode_app : forall s r, Forall scalar s -> from_utf8 (utf8 s ++ r) = option_map (app s) (from_utf8 r).
Proof.
  induction s as [|c s IH]; intros r H.
  - cbn. destruct (from_utf8 r); reflexivity.
  - inversion_clear H. unfold utf8. cbn [flat_map]. rewrite <- app_assoc. rewrite decode_char by assumption.
    fold (utf8 s). rewrite IH by assumption. destruct (from_utf8 r); reflexivity.
Qed.
Lemma decode_complete : forall bs s, encodes bs s -> from_utf8 bs = Some s.
Proof.
  intros bs s [H <-]. rewrite <- (app_nil_r (utf8 s)). rewrite decode_app by exact H. cbn. rewrite app_nil_r.
  reflexivity.
Qed.

Lemma encode2 : forall b1 b2, second2 b1 = true -> cont_byte b2 = true ->
  let c := ((b1 - 192) * 64 + (b2 - 128))%N in scalar c /\ utf8_char c = [b1; b2].
Proof.
  intros b1 b2 H1 H2. unfold second2, cont_byte, between_b in *. cbv zeta.
  split; [unfold scalar; lia|]. unfold utf8_char. match goal with |- context [(?c / 64)%N] => set (c0 := c); assert (Hc : c0 = c) by reflexivity; clearbody c0; dig c0 end.
  rewrite lt_false by lia. rewrite lt_true by lia.
  f_equal; [|f_equal]; lia.
Qed.
Lemma encode3 : forall b1 b2 b3, second3 b1 b2 = true -> cont_byte b3 = true ->
  let c := ((b1 - 224) * 4096 + (b2 - 128) * 64 + (b3 - 128))%N in scalar c /\ utf8_char c = [b1; b2; b3].
Proof.
  intros b1 b2 b3 H1 H2. unfold second3, cont_byte, between_b in *. cbv zeta.
  split; [unfold scalar; lia|]. unfold utf8_char. match goal with |- context [(?c / 64)%N] => set (c0 := c); assert (Hc : c0 = c) by reflexivity; clearbody c0; dig c0 end.
  rewrite lt_false by lia. rewrite lt_false by lia. rewrite lt_true by lia.
  f_equal; [|f_equal; [|f_equal]]; lia.
Qed.
Lemma encode4 : forall b1 b2 b3 b4, second4 b1 b2 = true -> cont_byte b3 = true -> cont_byte b4 = true ->
  let c := ((b1 - 240) * 262144 + (b2 - 128) * 4096 + (b3 - 128) * 64 + (b4 - 128))%N in
  scalar c /\ utf8_char c = [b1; b2; b3; b4].
Proof.
  intros b1 b2 b3 b4 H1 H2 H3. unfold second4, cont_byte, between_b in *. cbv zeta.
  split; [unfold scalar; lia|]. unfold utf8_char. match goal with |- context [(?c / 64)%N] => set (c0 := c); assert (Hc : c0 = c) by reflexivity; clearbody c0; dig c0 end.
  rewrite lt_false by lia. rewrite lt_false by lia. rewrite lt_false by lia.
  f_equal; [|f_equal; [|f_equal; [|f_equal]]]; lia.
Qed.

Lemma encodes_cons : forall c bs s, scalar c -> encodes bs s -> encodes (utf8_char c ++ bs) (c :: s).
Proof. intros c bs s H [F E]. split; [constructor; assumption|]. unfold utf8 in *. cbn. rewrite E. reflexivity. Qed.

Lemma decode_sound_aux : forall n bs s, length bs <= n -> from_utf8 bs = Some s -> encodes bs s.
Proof.
  induction n as [|n IH]; intros bs s Hn H.
  - destruct bs; [|cbn in Hn; lia]. cbn in H. injection H as <-. split; [constructor|reflexivity].
  - destruct bs as [|b1 r1]; [cbn in H; injection H as <-; split; [constructor|reflexivity]|].
    cbn [from_utf8] in H. cbn [length] in Hn.
    destruct (N.ltb_spec b1 128) as [H1|H1].
    { destruct (from_utf8 r1) as [s'|] eqn:E; [|discriminate]. injection H as <-.
      assert (U : utf8_char b1 = [b1]) by (unfold utf8_char; rewrite lt_true by exact H1; reflexivity).
      change (b1 :: r1) with ([b1] ++ r1). rewrite <- U. apply encodes_cons; [unfold scalar; lia|].
      apply IH; [lia|exact E]. }
    destruct r1 as [|b2 r2]; [discriminate|]. cbn [length] in Hn.
    destruct (second2 b1) eqn:S2.
    { destruct (cont_byte b2) eqn:C2; [|discriminate].
      destruct (from_utf8 r2) as [s'|] eqn:E; [|discriminate]. injection H as <-.
      destruct (encode2 b1 b2 S2 C2) as [Sc U].
      change (b1 :: b2 :: r2) with ([b1; b2] ++ r2). rewrite <- U. apply encodes_cons; [exact Sc|].
      apply IH; [lia|exact E]. }
    destruct r2 as [|b3 r3]; [discriminate|]. cbn [length] in Hn.
    destruct (second3 b1 b2) eqn:S3.
    { destruct (cont_byte b3) eqn:C2; [|discriminate].
      destruct (from_utf8 r3) as [s'|] eqn:E; [|discriminate]. injection H as <-.
      destruct (encode3 b1 b2 b3 S3 C2) as [Sc U].
      change (b1 :: b2 :: b3 :: r3) with ([b1; b2; b3] ++ r3). rewrite <- U. apply encodes_cons; [exact Sc|].
      apply IH; [lia|exact E]. }
    destruct r3 as [|b4 r4]; [discriminate|]. cbn [length] in Hn.
    destruct (second4 b1 b2) eqn:S4; [|discriminate]. destruct (cont_byte b3) eqn:C3; [|discriminate].
    destruct (cont_byte b4) eqn:C4; [|discriminate]. cbn [andb] in H.
    destruct (from_utf8 r4) as [s'|] eqn:E; [|discriminate]. injection H as <-.
    destruct (encode4 b1 b2 b3 b4 S4 C3 C4) as [Sc U].
    change (b1 :: b2 :: b3 :: b4 :: r4) with ([b1; b2; b3; b4] ++ r4). rewrite <- U. apply encodes_cons; [exact Sc|].
    apply IH; [lia|exact E].
Qed.
Lemma utf8_decoded : forall bs s, from_utf8 bs = Some s <-> encodes bs s.
Proof. intros bs s. split; [apply (decode_sound_aux (length bs)); lia|apply decode_complete]. Qed.
Lemma utf8_none : forall bs, from_utf8 bs = None <-> ~ is_utf8 bs.
Proof.
  intro bs. split.
  - intros H [s E]. apply utf8_decoded in E. congruence.
  - intro H. destruct (from_utf8 bs) as [s|] eqn:E; [|reflexivity]. exfalso. apply H. exists s. apply utf8_decoded. exact E.
Qed.
Lemma encodes_unique : forall bs s s', encodes bs s -> encodes bs s' -> s = s'.
Proof. intros bs s s' H H'. apply utf8_decoded in H, H'. congruence. Qed.

(** ** Line feeds in encoded text *)
Lemma char_no_lf : forall c, c <> 10%N -> ~ In 10%N (utf8_char c).
Proof.
  intros c H. unfold utf8_char. dig c.
  destruct (N.ltb_spec c 128); [intros [X|[]]; congruence|].
  destruct (N.ltb_spec c 2048); [unfold In; lia|]. destruct (N.ltb_spec c 65536); unfold In; lia.
Qed.
Lemma char_last : forall c bs, utf8_char c = bs ++ [10%N] -> c = 10%N /\ bs = [].
Proof.
  intros c bs H. destruct (N.eq_dec c 10) as [->|Hc].
  - split; [reflexivity|]. change (utf8_char 10%N) with [10%N] in H.
    destruct bs as [|b bs]; [reflexivity|]. destruct bs; discriminate.
  - exfalso. apply (char_no_lf c Hc). rewrite H. apply in_or_app. right. left. reflexivity.
Qed.
Lemma text_no_lf : forall s, ~ In 10%N s -> ~ In 10%N (utf8 s).
Proof.
  intros s H X. apply in_flat_map in X as (c & Hc & Hi). apply (char_no_lf c); [|exact Hi]. intros ->. exact (H Hc).
Qed.
Lemma no_lf_text : forall s, ~ In 10%N (utf8 s) -> ~ In 10%N s.
Proof. intros s H X. apply H. apply in_flat_map. exists 10%N. split; [exact X|left; reflexivity]. Qed.
Lemma utf8_app : forall a b, utf8 (a ++ b) = utf8 a ++ utf8 b.
Proof. intros. apply flat_map_app. Qed.
Lemma encodes_app : forall a b s t, encodes a s -> encodes b t -> encodes (a ++ b) (s ++ t).
Proof. intros a b s t [F E] [F' E']. split; [apply Forall_app; split; assumption|]. rewrite utf8_app. congruence. Qed.
Lemma encodes_lf : encodes [10%N] [10%N].
Proof. split; [repeat constructor; unfold scalar; lia|reflexivity]. Qed.

Lemma encodes_snoc_lf : forall bs t, encodes (bs ++ [10%N]) t -> exists s, t = s ++ [10%N] /\ encodes bs s.
Proof.
  intros bs t [F E]. destruct (rev t) as [|c r] eqn:R.
  - assert (t = []) as -> by (rewrite <- (rev_involutive t), R; reflexivity). destruct bs; discriminate.
  - assert (T : t = rev r ++ [c]) by (rewrite <- (rev_involutive t), R; reflexivity).
    rewrite T, utf8_app in E. unfold utf8 in E at 2. cbn [flat_map] in E. rewrite app_nil_r in E.
    destruct (rev (utf8_char c)) as [|x w] eqn:W.
    + exfalso. assert (Z : utf8_char c = []) by (rewrite <- (rev_involutive (utf8_char c)), W; reflexivity).
      unfold utf8_char in Z. destruct (N.ltb c 128), (N.ltb c 2048), (N.ltb c 65536); discriminate.
    + assert (U : utf8_char c = rev w ++ [x]) by (rewrite <- (rev_involutive (utf8_char c)), W; reflexivity).
      rewrite U, app_assoc in E. apply app_inj_tail in E as [E ->].
      destruct (char_last c _ U) as [-> Hw]. rewrite Hw, app_nil_r in E.
      exists (rev r). split; [exact T|]. split; [|exact E]. rewrite T in F. apply Forall_app in F. apply F.
Qed.
Lemma utf8_snoc_lf : forall bs, is_utf8 (bs ++ [10%N]) <-> is_utf8 bs.
Proof.
  intro bs. split.
  - intros [t E]. apply encodes_snoc_lf in E as (s & _ & E). exists s. exact E.
  - intros [s E]. exists (s ++ [10%N]). apply encodes_app; [exact E|exact encodes_lf].
Qed.

(** ** Lines *)
Lemma chop_plain : forall s, ~ In 10%N s -> chop_line s = s.
Proof.
  intros s H. unfold chop_line, char in *. destruct (rev s) as [|l r] eqn:R; [reflexivity|].
  change LF_CHAR with 10%N. destruct (N.eqb_spec l 10) as [->|Hl]; [|reflexivity].
  exfalso. apply H. apply (proj2 (in_rev s 10%N)). rewrite R. left. reflexivity.
Qed.
Lemma chop_lf : forall cur, chop_line (cur ++ [10%N]) =
  match rev cur with r :: rcur => if N.eqb r CR_CHAR then rev rcur else cur | [] => cur end.
Proof.
  intro cur. unfold chop_line, char in *. rewrite rev_app_distr. cbn [rev app].
  change (N.eqb 10%N LF_CHAR) with true. cbn [negb].
  destruct (rev cur) as [|c r'] eqn:R.
  - rewrite <- (rev_involutive cur), R. reflexivity.
  - destruct (N.eqb c CR_CHAR); [reflexivity|]. rewrite <- R. apply rev_involutive.
Qed.
Lemma split_line : forall l s cur, ~ In 10%N l ->
  split_lines (l ++ 10%N :: s) cur = chop_line (cur ++ l ++ [10%N]) :: file_lines s.
Proof.
  induction l as [|c l IH]; intros s cur H.
  - cbn [app split_lines]. change (N.eqb 10%N LF_CHAR) with true. cbv iota. rewrite chop_lf. reflexivity.
  - cbn [app split_lines]. change LF_CHAR with 10%N.
    destruct (N.eqb_spec c 10) as [->|Hc]; [exfalso; apply H; left; reflexivity|].
    rewrite IH by (intro X; apply H; right; exact X). rewrite <- app_assoc. reflexivity.
Qed.
Lemma read_plain : forall l bs fails cur, ~ In 10%N l ->
  read_lines (l ++ bs) fails cur = read_lines bs fails (cur ++ l).
Proof.
  induction l as [|c l IH]; intros bs fails cur H; [rewrite app_nil_r; reflexivity|].
  cbn [app read_lines]. destruct (N.eqb_spec c 10) as [->|Hc]; [exfalso; apply H; left; reflexivity|].
  rewrite IH by (intro X; apply H; right; exact X). rewrite <- app_assoc. reflexivity.
Qed.

Lemma read_text : forall s cur, Forall scalar s -> Forall scalar cur -> ~ In 10%N cur ->
  read_lines (utf8 s) false (utf8 cur) = map Some (split_lines s cur).
Proof.
  induction s as [|c s IH]; intros cur Fs Fc Hc.
  - cbn [utf8 flat_map read_lines split_lines]. destruct cur as [|x cur]; [reflexivity|].
    assert (E : from_utf8 (utf8 (x :: cur)) = Some (x :: cur)) by (apply utf8_decoded; split; [exact Fc|reflexivity]).
    rewrite E. cbn [option_map]. rewrite chop_plain by exact Hc.
    destruct (utf8 (x :: cur)) eqn:U; [|reflexivity]. cbn in E. discriminate.
  - inversion_clear Fs. destruct (N.eq_dec c 10) as [->|Hn].
    + cbn [split_lines]. change (N.eqb 10%N LF_CHAR) with true. cbv iota.
      change (utf8 (10%N :: s)) with (10%N :: utf8 s). cbn [read_lines]. change (N.eqb 10%N 10%N) with true. cbv iota.
      assert (E : from_utf8 (utf8 cur ++ [10%N]) = Some (cur ++ [10%N])).
      { apply utf8_decoded. apply encodes_app; [split; [exact Fc|reflexivity]|exact encodes_lf]. }
      unfold byte, char in *. rewrite E. cbn [option_map map]. rewrite chop_lf. f_equal. apply (IH []); [assumption|constructor|intros []].
    + cbn [split_lines]. change LF_CHAR with 10%N. destruct (N.eqb_spec c 10) as [->|_]; [congruence|].
      unfold utf8 at 1. cbn [flat_map]. fold (utf8 s). rewrite read_plain by (apply char_no_lf; exact Hn).
      replace (utf8 cur ++ utf8_char c) with (utf8 (cur ++ [c]))
        by (rewrite utf8_app; unfold utf8 at 2; cbn [flat_map]; rewrite app_nil_r; reflexivity).
      apply IH; [assumption|apply Forall_app; split; [exact Fc|constructor; [assumption|constructor]]|].
      intro X. apply in_app_or in X as [X|[X|[]]]; [exact (Hc X)|congruence].
Qed.

Lemma read_bad : forall bs fails cur, ~ In 10%N cur -> fails = true \/ ~ is_utf8 (cur ++ bs) ->
  exists s good rest tl, cur ++ bs = good ++ rest /\ encodes good s /\ whole_lines s /\ bad_line rest fails /\
    read_lines bs fails cur = map Some (file_lines s) ++ None :: tl.
Proof.
  induction bs as [|b bs IH]; intros fails cur Hcur Hbad.
  - exists [], [], cur, []. rewrite app_nil_r in *. split; [reflexivity|]. split; [split; [constructor|reflexivity]|].
    split; [left; reflexivity|]. split.
    + exists cur, []. split; [right; split; reflexivity|]. split; [exact Hcur|].
      destruct Hbad as [-> |Hbad]; [right; split; reflexivity|left; exact Hbad].
    + cbn. destruct fails; [reflexivity|]. destruct Hbad as [Hbad|Hbad]; [discriminate|].
      destruct cur as [|x cur]; [exfalso; apply Hbad; exists []; split; [constructor|reflexivity]|].
      apply utf8_none in Hbad. rewrite Hbad. reflexivity.
  - cbn [read_lines]. unfold byte, char in *. destruct (N.eqb_spec b 10) as [->|Hb].
    + destruct (from_utf8 (cur ++ [10%N])) as [t|] eqn:E.
      * apply utf8_decoded in E. apply encodes_snoc_lf in E as (c & -> & Ec).
        assert (Hc : ~ In 10%N c) by (apply no_lf_text; destruct Ec as [_ ->]; exact Hcur).
        assert (Hbad' : fails = true \/ ~ is_utf8 ([] ++ bs)).
        { destruct Hbad as [Hbad|Hbad]; [left; exact Hbad|right]. intros [u Eu]. apply Hbad.
          exists (c ++ [10%N] ++ u). apply encodes_app; [exact Ec|]. apply (encodes_app [10%N]); [exact encodes_lf|exact Eu]. }
        destruct (IH fails [] (fun X => X) Hbad') as (s & good & rest & tl & E1 & E2 & E3 & E4 & E5).
        cbn [app] in E1. exists (c ++ 10%N :: s), (cur ++ 10%N :: good), rest, tl.
        split; [rewrite <- app_assoc; cbn [app]; rewrite E1; reflexivity|].
        split; [apply encodes_app; [exact Ec|]; apply (encodes_app [10%N] good [10%N] s); [exact encodes_lf|exact E2]|].
        split.
        { destruct E3 as [->|[s' ->]]; right; [exists c; reflexivity|]. exists (c ++ 10%N :: s').
          rewrite <- app_assoc. reflexivity. }
        split; [exact E4|]. unfold file_lines. rewrite split_line by exact Hc. cbn [app map option_map].
        unfold byte, char in *. rewrite E5. reflexivity.
      * exists [], [], (cur ++ 10%N :: bs), (read_lines bs fails []). split; [reflexivity|].
        split; [split; [constructor|reflexivity]|]. split; [left; reflexivity|]. split.
        -- exists cur, bs. split; [left; reflexivity|]. split; [exact Hcur|]. left.
           apply utf8_none in E. rewrite utf8_snoc_lf in E. exact E.
        -- reflexivity.
    + assert (Hcur' : ~ In 10%N (cur ++ [b])).
      { intro X. apply in_app_or in X as [X|[X|[]]]; [exact (Hcur X)|congruence]. }
      assert (Hbad' : fails = true \/ ~ is_utf8 ((cur ++ [b]) ++ bs)) by (rewrite <- app_assoc; exact Hbad).
      destruct (IH fails (cur ++ [b]) Hcur' Hbad') as (s & good & rest & tl & E1 & R).
      exists s, good, rest, tl. split; [rewrite <- E1, <- app_assoc; reflexivity|exact R].
Qed.

(** The readable part is determined by the file. *)
Lemma bad_line_first : forall l l1 r1 rest fails, ~ In 10%N l -> is_utf8 l -> l ++ 10%N :: r1 = rest -> l1 = l ->
  ~ bad_line rest fails.
Proof.
  intros l l1 r1 rest fails Hl Hu <- -> (k & k' & Hk & Hn & Hb).
  assert (X : k = l).
  { destruct Hk as [Hk|[Hk _]].
    - clear Hu Hb. revert k Hk Hn. induction l as [|x l IH]; intros [|y k] Hk Hn; cbn in Hk.
      + reflexivity.
      + injection Hk as <- _. exfalso. apply Hn. left. reflexivity.
      + injection Hk as -> _. exfalso. apply Hl. left. reflexivity.
      + injection Hk as -> Hk. f_equal. apply IH; [intro X; apply Hl; right; exact X|exact Hk|intro X; apply Hn; right; exact X].
    - exfalso. apply Hn. rewrite <- Hk. apply in_or_app. right. left. reflexivity. }
  subst k. destruct Hb as [Hb|[_ Hb]]; [exact (Hb Hu)|].
  apply (f_equal (@length N)) in Hb. rewrite app_length in Hb. cbn in Hb. lia.
Qed.
Lemma first_line : forall s, whole_lines s -> s <> [] -> exists l s', s = l ++ 10%N :: s' /\ ~ In 10%N l /\ whole_lines s'.
Proof.
  induction s as [|c s IH]; intros W N0; [congruence|].
  destruct (N.eq_dec c 10) as [->|Hc].
  - exists [], s. split; [reflexivity|]. split; [intros []|]. destruct W as [W|[s' W]]; [discriminate|].
    destruct s' as [|x s']; cbn in W; injection W; intros; subst; [left; reflexivity|right; exists s'; reflexivity].
  - destruct W as [W|[s' W]]; [discriminate|]. destruct s' as [|x s']; cbn in W; injection W; intros W1 W2.
    + subst. congruence.
    + subst x. assert (Ws : whole_lines s) by (right; exists s'; exact W1).
      assert (Ns : s <> []) by (rewrite W1; destruct s'; discriminate).
      destruct (IH Ws Ns) as (l & t & -> & Hl & Wt). exists (c :: l), t. split; [reflexivity|].
      split; [|exact Wt]. intros [X|X]; [congruence|exact (Hl X)].
Qed.
Lemma good_unique : forall r s s', good_part r s -> good_part r s' -> s = s'.
Proof.
  intros [bs fails] s s' (g & rest & E & Eg & W & B) (g' & rest' & E' & Eg' & W' & B'). cbn in *.
  remember (length s) as n eqn:Hn. assert (Hle : length s <= n) by lia. clear Hn.
  revert bs s s' g g' Hle E Eg W E' Eg' W'. induction n as [|n IH]; intros bs s s' g g' Hle E Eg W E' Eg' W'.
  - destruct s; [|cbn in Hle; lia]. destruct s' as [|c' s']; [reflexivity|]. exfalso.
    destruct (first_line (c' :: s') W' ltac:(discriminate)) as (l & t & Es & Hl & _). rewrite Es in Eg'.
    destruct Eg as [_ <-]. destruct Eg' as [F <-]. rewrite utf8_app in E'. cbn [app] in E.
    assert (Fl : is_utf8 (utf8 l)) by (exists l; split; [apply Forall_app in F; apply F|reflexivity]).
    apply (bad_line_first (utf8 l) (utf8 l) (utf8 t ++ rest') rest fails (text_no_lf l Hl) Fl); [|reflexivity|exact B].
    unfold utf8 in E at 1. cbn [flat_map app] in E. rewrite <- E, E'. rewrite <- app_assoc. reflexivity.
  - destruct s as [|c s].
    { destruct s' as [|c' s']; [reflexivity|]. exfalso.
      destruct (first_line (c' :: s') W' ltac:(discriminate)) as (l & t & Es & Hl & _). rewrite Es in Eg'.
      destruct Eg as [_ <-]. destruct Eg' as [F <-]. rewrite utf8_app in E'. cbn [app] in E.
      assert (Fl : is_utf8 (utf8 l)) by (exists l; split; [apply Forall_app in F; apply F|reflexivity]).
      apply (bad_line_first (utf8 l) (utf8 l) (utf8 t ++ rest') rest fails (text_no_lf l Hl) Fl); [|reflexivity|exact B].
      unfold utf8 in E at 1. cbn [flat_map app] in E. rewrite <- E, E'. rewrite <- app_assoc. reflexivity. }
    destruct (first_line (c :: s) W ltac:(discriminate)) as (l & t & Es & Hl & Wt). rewrite Es in *. clear Es.
    destruct Eg as [F <-]. rewrite utf8_app in E. change (utf8 (10%N :: t)) with (10%N :: utf8 t) in E.
    apply Forall_app in F as [Fl Ft]. inversion Ft as [|? ? _ Ft']; subst.
    destruct s' as [|c' s'].
    { exfalso. destruct Eg' as [_ <-].
      apply (bad_line_first (utf8 l) (utf8 l) (utf8 t ++ rest) rest' fails (text_no_lf l Hl));
        [exists l; split; [exact Fl|reflexivity]| |reflexivity|exact B'].
      unfold utf8 in E' at 3. cbn [flat_map app] in E'. rewrite <- E'. rewrite <- app_assoc. reflexivity. }
    destruct (first_line (c' :: s') W' ltac:(discriminate)) as (l' & t' & Es' & Hl' & Wt'). rewrite Es' in *. clear Es'.
    destruct Eg' as [F' <-]. rewrite utf8_app in E'. change (utf8 (10%N :: t')) with (10%N :: utf8 t') in E'.
    apply Forall_app in F' as [Fl' Ft2]. inversion Ft2 as [|? ? _ Ft2']; subst.
    assert (S : forall (a a' b b' : list N), ~ In 10%N a -> ~ In 10%N a' -> a ++ 10%N :: b = a' ++ 10%N :: b' -> a = a' /\ b = b').
    { clear. induction a as [|x a IH]; intros [|y a'] b b' H H' X; cbn in X; injection X; intros.
      - split; [reflexivity|assumption].
      - subst. exfalso. apply H'. left. reflexivity.
      - subst. exfalso. apply H. left. reflexivity.
      - subst. destruct (IH a' b b') as [-> ->]; [intro; apply H; right; assumption|intro; apply H'; right; assumption|assumption|].
        split; reflexivity. }
    rewrite <- !app_assoc in E'. cbn [app] in E'.
    apply S in E' as [X1 X2]; [|apply text_no_lf; assumption|apply text_no_lf; assumption].
    assert (l = l') as <-.
    { apply (encodes_unique (utf8 l)); [split; [exact Fl|reflexivity]|split; [exact Fl'|congruence]]. }
    f_equal. f_equal. apply (IH (utf8 t ++ rest) t t' (utf8 t) (utf8 t')).
    + rewrite app_length in Hle. cbn in Hle. unfold char in *. lia.
    + reflexivity.
    + split; [exact Ft'|reflexivity].
    + exact Wt.
    + exact X2.
    + split; [exact Ft2'|reflexivity].
    + exact Wt'.
Qed.

(** ** parse_file *)
Lemma run_lines_text : forall ls st content, run_lines st content (map Some ls) = FDone (run_file st content ls).
Proof.
  induction ls as [|l ls IH]; intros st content; [reflexivity|]. cbn [map run_lines run_file].
  destruct (run st l) as [st1|k i|p]; [|reflexivity|reflexivity].
  destruct (next st1 LF_CHAR); [apply IH|reflexivity|reflexivity].
Qed.
Lemma region_index : forall ctx i, r_index (from_context_index ctx i) = i.
Proof. intros. unfold from_context_index. destruct (region_loop ctx 0 i 0%N 1 0). reflexivity. Qed.
Lemma run_lines_bad : forall ls st content tl,
  match run st (flat_map (fun l => l ++ [LF_CHAR]) ls) with
  | ROk _ => run_lines st content (map Some ls ++ None :: tl) = FLinePanic
  | RErr k i => exists rg, run_lines st content (map Some ls ++ None :: tl) = FDone (Failed k rg) /\ r_index rg = i
  | RPanic p => run_lines st content (map Some ls ++ None :: tl) = FDone (Panicked p)
  end.
Proof.
  induction ls as [|l ls IH]; intros st content tl; [reflexivity|].
  cbn [flat_map map app run_lines]. rewrite <- app_assoc, run_app.
  destruct (run st l) as [st1|k i|p]; cbn [rbind].
  - cbn [app run]. destruct (next st1 LF_CHAR) as [st2|k i|p]; cbn [rbind].
    + apply IH.
    + eexists. split; [reflexivity|apply region_index].
    + reflexivity.
  - eexists. split; [reflexivity|apply region_index].
  - reflexivity.
Qed.
Lemma whole_file_text : forall s, flat_map (fun l => l ++ [LF_CHAR]) (file_lines s) = file_text s.
Proof. intro s. apply (split_lines_spec s []). intros []. Qed.

Lemma at_reader : forall sys opts p r, reads sys p r ->
  parse_file_at sys opts p = run_lines (doc_new opts) [] (lines r).
Proof.
  intros sys opts p r (p' & L & O). unfold parse_file_at, open_and_run.
  destruct L as [A|dir p' A D C]; rewrite A; [rewrite O; reflexivity|]. rewrite D, C, O. reflexivity.
Qed.
Lemma readable_file : forall sys opts p r s, reads sys p r -> rd_fails r = false -> encodes (rd_bytes r) s ->
  exists o, parse_file_at sys opts p = FDone o /\ same_outcome o (parse opts (file_text s)).
Proof.
  intros sys opts p [bs fails] s R F E. cbn in F, E. subst fails. rewrite (at_reader sys opts p _ R).
  exists (parse_file opts s). split; [|apply parse_file_spec].
  unfold lines. cbn. destruct E as [Fs <-]. change (@nil byte) with (utf8 []).
  rewrite read_text by (exact Fs || constructor || (intros [])). apply run_lines_text.
Qed.
Lemma unreadable_file : forall sys opts p r, reads sys p r -> rd_fails r = true \/ ~ is_utf8 (rd_bytes r) ->
  exists s, good_part r s /\
    match run (doc_new opts) (file_text s) with
    | ROk _ => parse_file_at sys opts p = FLinePanic
    | RErr k i => exists rg, parse_file_at sys opts p = FDone (Failed k rg) /\ r_index rg = i
    | RPanic q => parse_file_at sys opts p = FDone (Panicked q)
    end.
Proof.
  intros sys opts p [bs fails] R H. cbn in H. rewrite (at_reader sys opts p _ R).
  destruct (read_bad bs fails [] (fun X => X) H) as (s & good & rest & tl & E1 & E2 & E3 & E4 & E5).
  exists s. split; [exists good, rest; repeat split; try assumption; apply E2|].
  unfold lines. cbn [rd_bytes rd_fails]. unfold byte, char in *. rewrite E5. rewrite <- whole_file_text. apply run_lines_bad.
Qed.
Lemma path_outcomes : forall sys opts p,
  (parse_file_at sys opts p = FPathPanic <->
     os_is_absolute sys p = false /\ exists dir, os_current_dir sys = Some dir /\ os_canonicalize sys (os_join sys dir p) = None) /\
  (parse_file_at sys opts p = FIoError <->
     (os_is_absolute sys p = false /\ os_current_dir sys = None) \/
     exists p', leads_to sys p p' /\ os_open sys p' = None).
Proof.
  intros sys opts p.
  assert (NR : forall ls st c, run_lines st c ls <> FPathPanic /\ run_lines st c ls <> FIoError).
  { induction ls as [|[l|] ls IH]; intros st c; [split; discriminate| |split; discriminate]. cbn [run_lines].
    destruct (run st l); [|split; discriminate|split; discriminate].
    destruct (next a LF_CHAR); [apply IH|split; discriminate|split; discriminate]. }
  unfold parse_file_at, open_and_run. destruct (os_is_absolute sys p) eqn:A.
  - destruct (os_open sys p) as [r|] eqn:O.
    + split; split.
      * intro H. exfalso. apply (proj1 (NR _ _ _) H).
      * intros [X _]. discriminate.
      * intro H. exfalso. apply (proj2 (NR _ _ _) H).
      * intros [[X _]|(p' & L & X)]; [discriminate|]. inversion L; subst; congruence.
    + split; split.
      * discriminate.
      * intros [X _]. discriminate.
      * intros _. right. exists p. split; [constructor; exact A|exact O].
      * reflexivity.
  - destruct (os_current_dir sys) as [dir|] eqn:D.
    + destruct (os_canonicalize sys (os_join sys dir p)) as [p'|] eqn:C.
      * assert (LT : leads_to sys p p') by (econstructor; eassumption).
        destruct (os_open sys p') as [r|] eqn:O.
        -- split; split.
           ++ intro H. exfalso. apply (proj1 (NR _ _ _) H).
           ++ intros (_ & dir' & X & Y). injection X as <-. congruence.
           ++ intro H. exfalso. apply (proj2 (NR _ _ _) H).
           ++ intros [[_ X]|(q & L & X)]; [discriminate|]. inversion L; subst; congruence.
        -- split; split.
           ++ discriminate.
           ++ intros (_ & dir' & X & Y). injection X as <-. congruence.
           ++ intros _. right. exists p'. split; [exact LT|exact O].
           ++ reflexivity.
      * split; split.
        -- intros _. split; [reflexivity|]. exists dir. split; [reflexivity|exact C].
        -- reflexivity.
        -- discriminate.
        -- intros [[_ X]|(q & L & X)]; [discriminate|]. inversion L; subst; congruence.
    + split; split.
      * discriminate.
      * intros (_ & dir & X & _). discriminate.
      * intros _. left. split; reflexivity.
      * reflexivity.
Qed.
(** Every path ends in one of the cases above. *)
Lemma path_cases : forall sys opts p,
  (exists r, reads sys p r) \/ parse_file_at sys opts p = FPathPanic \/ parse_file_at sys opts p = FIoError.
Proof.
  intros sys opts p. unfold parse_file_at, open_and_run. destruct (os_is_absolute sys p) eqn:A.
  - destruct (os_open sys p) as [r|] eqn:O; [|right; right; reflexivity].
    left. exists r, p. split; [constructor; exact A|exact O].
  - destruct (os_current_dir sys) as [dir|] eqn:D; [|right; right; reflexivity].
    destruct (os_canonicalize sys (os_join sys dir p)) as [p'|] eqn:C; [|right; left; reflexivity].
    destruct (os_open sys p') as [r|] eqn:O; [|right; right; reflexivity].
    left. exists r, p'. split; [econstructor; eassumption|exact O].
Qed.
