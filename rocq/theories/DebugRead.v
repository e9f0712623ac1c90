(** Reading the Debug output, for C65. *)
From Coq Require Import String Lia.
From Verif Require Import ErrorProofs SpecError SpecDebug DebugProofs.
Local Open Scope string_scope.
Local Open Scope list_scope.

Lemma span : forall (P : char -> Prop) a b x y, Forall P a -> Forall P b -> (forall c z, x = c :: z -> ~ P c) -> (forall c z, y = c :: z -> ~ P c) ->
  a ++ x = b ++ y -> a = b /\ x = y.
Proof.
  intros P a b x y Fa. revert b. induction Fa as [|c a Pc Fa IH]; intros [|d b] Fb Hx Hy E.
  - split; [reflexivity|exact E].
  - inversion Fb. subst. destruct (Hx d (b ++ y)); assumption.
  - inversion Fb. subst. cbn in E. destruct (Hy c (a ++ x)); [symmetry; exact E|assumption].
  - inversion Fb. subst. injection E as <- E. destruct (IH b) as [-> ->]; auto.
Qed.

Definition hex_read (a : N) (c : char) : N := (16 * a + (if N.ltb c 58 then c - 48 else c - 87))%N.
Lemma hex_value : forall f n, (n < 16 ^ N.of_nat f)%N -> fold_left hex_read (hex_fuel f n) 0%N = n.
Proof.
  assert (D : forall a m, (m < 16)%N -> hex_read a (hex_digit m) = (16 * a + m)%N).
  { intros a m L. unfold hex_read, hex_digit. destruct (N.ltb_spec m 10).
    - destruct (N.ltb_spec (48 + m) 58); lia.
    - destruct (N.ltb_spec (87 + m) 58); lia. }
  induction f as [|f IH]; intros n L.
  - cbn in L. cbn. lia.
  - cbn [hex_fuel]. destruct (N.ltb_spec n 16) as [S|S].
    + cbn [fold_left]. rewrite D by exact S. lia.
    + rewrite fold_left_app, IH. cbn [fold_left].
      * rewrite D by (apply N.mod_lt; lia). symmetry. apply N.div_mod. lia.
      * rewrite Nnat.Nat2N.inj_succ, N.pow_succ_r' in L. apply N.div_lt_upper_bound; lia.
Qed.
Lemma hex_inj : forall n m, hex n = hex m -> n = m.
Proof.
  assert (V : forall n, fold_left hex_read (hex n) 0%N = n).
  { intro n. apply hex_value. rewrite Nnat.Nat2N.inj_succ, Nnat.N2Nat.id.
    eapply N.lt_le_trans; [apply N.size_gt|]. transitivity (16 ^ N.size n)%N.
    - apply N.pow_le_mono_l. lia.
    - apply N.pow_le_mono_r; lia. }
  intros n m E. rewrite <- (V n), <- (V m), E. reflexivity.
Qed.
Lemma hex_split : forall n m r r', hex n ++ 125%N :: r = hex m ++ 125%N :: r' -> n = m /\ r = r'.
Proof.
  intros n m r r' E. apply (span _ _ _ _ _ (hex_digits _ n) (hex_digits _ m)) in E.
  - destruct E as [E1 E2]. injection E2 as ->. split; [exact (hex_inj _ _ E1)|reflexivity].
  - intros c z X. injection X as <- _. lia.
  - intros c z X. injection X as <- _. lia.
Qed.

Section quote.
Variables (plain : char -> bool) (q : char).
Hypothesis Q : q = 34%N \/ q = 39%N.
Inductive esc_case (c : char) : list char -> Prop :=
  | ec_0 : c = 0%N -> esc_case c [92%N; 48%N]
  | ec_t : c = 9%N -> esc_case c [92%N; 116%N]
  | ec_r : c = 13%N -> esc_case c [92%N; 114%N]
  | ec_n : c = 10%N -> esc_case c [92%N; 110%N]
  | ec_b : c = 92%N -> esc_case c [92%N; 92%N]
  | ec_q : c = q -> esc_case c [92%N; q]
  | ec_c : c <> 92%N -> c <> q -> esc_case c [c]
  | ec_u : esc_case c (92%N :: 117%N :: 123%N :: hex c ++ [125%N]).
Lemma esc_cases : forall c, esc_case c (escaped plain q c).
Proof.
  intro c. unfold escaped.
  destruct (N.eqb_spec c 0); [apply ec_0; assumption|]. destruct (N.eqb_spec c 9); [apply ec_t; assumption|].
  destruct (N.eqb_spec c 13); [apply ec_r; assumption|]. destruct (N.eqb_spec c 10); [apply ec_n; assumption|].
  destruct (N.eqb_spec c 92) as [->|Nb]; [apply ec_b; reflexivity|]. cbn [orb].
  destruct (N.eqb_spec c q) as [->|Nq]; [apply ec_q; reflexivity|].
  destruct (plain c); [apply ec_c; assumption|apply ec_u].
Qed.
Lemma escaped_inj : forall c c' r r', escaped plain q c ++ r = escaped plain q c' ++ r' -> c = c' /\ r = r'.
Proof.
  intros c c' r r' E. destruct (esc_cases c); destruct (esc_cases c'); cbn [app] in E; try (injection E as E); subst;
    try (split; reflexivity); try congruence; try (destruct Q; subst; discriminate); try (exfalso; destruct Q; congruence).
  rewrite <- !app_assoc in E. cbn [app] in E. exact (hex_split _ _ _ _ E).
Qed.
Lemma escaped_quote : forall c r r', q :: r <> escaped plain q c ++ r'.
Proof.
  intros c r r' E. destruct (esc_cases c); cbn [app] in E; injection E as E; destruct Q; subst; try discriminate; try congruence.
Qed.
Lemma string_inj : forall s s' r r', flat_map (escaped plain q) s ++ q :: r = flat_map (escaped plain q) s' ++ q :: r' -> s = s' /\ r = r'.
Proof.
  induction s as [|c s IH]; intros [|c' s'] r r' E.
  - injection E as ->. auto.
  - cbn [flat_map] in E. rewrite <- app_assoc in E. destruct (escaped_quote _ _ _ E).
  - cbn [flat_map] in E. rewrite <- app_assoc in E. symmetry in E. destruct (escaped_quote _ _ _ E).
  - cbn [flat_map] in E. rewrite <- !app_assoc in E. destruct (escaped_inj _ _ _ _ E) as [-> E']. destruct (IH _ _ _ E') as [-> ->]. auto.
Qed.
End quote.

(** What may follow a value. *)
Definition stop (r : list char) : Prop :=
  (forall c z, r = c :: z -> ~ ident_char c) /\ (forall z, r <> 40%N :: z) /\ (forall z, r <> 32%N :: 123%N :: z).
Lemma stop_char : forall c z, ~ ident_char c -> c <> 40%N -> (c <> 32%N \/ hd_error z <> Some 123%N) -> stop (c :: z).
Proof.
  intros c z N1 N2 N3. split; [|split].
  - intros d y E. injection E as <- _. exact N1.
  - intros y E. injection E as E _. congruence.
  - intros y E. injection E as E1 E2. subst. destruct N3 as [X|X]; [congruence|]. apply X. reflexivity.
Qed.
Lemma not_ident : forall c, (c < 48 \/ 57 < c < 65 \/ 90 < c < 95 \/ c = 96 \/ 122 < c)%N -> ~ ident_char c.
Proof. unfold ident_char, letter. intros c H. lia. Qed.
Ltac nid := apply not_ident; lia.
Lemma stop_comma : forall z, stop (44%N :: z).
Proof. intro z. apply stop_char; [nid|discriminate|left; discriminate]. Qed.
Lemma stop_colon : forall z, stop (58%N :: z).
Proof. intro z. apply stop_char; [nid|discriminate|left; discriminate]. Qed.
Lemma stop_nil : stop [].
Proof. repeat split; discriminate. Qed.

(** Closings. *)
Definition ending (p : option nat) (e : list char) : Prop := e = [93%N] \/ e = [41%N] \/ e = [125%N] \/ (p = None /\ e = [32%N; 125%N]).
Lemma stop_ending : forall p e z, ending p e -> stop (e ++ z).
Proof.
  intros p e z [->|[->|[->|[_ ->]]]]; cbn [app].
  1-3: apply stop_char; [nid|discriminate|left; discriminate].
  apply stop_char; [nid|discriminate|right; cbn; congruence].
Qed.

Lemma joined_flat : forall x l, joined (x :: l) = x ++ flat_map (fun y => str ", " ++ y) l.
Proof.
  intros x l. revert x. induction l as [|y l IH]; intro x; [cbn; rewrite app_nil_r; reflexivity|].
  change (joined (x :: y :: l)) with (x ++ str ", " ++ joined (y :: l)). rewrite IH. cbn [flat_map]. rewrite <- app_assoc. reflexivity.
Qed.

Section items.
Context {A : Type}.
Variables (f : A -> list char) (ok : A -> Prop).
Definition good (x : A) : Prop := forall x' r r', ok x' -> stop r -> stop r' -> f x ++ r = f x' ++ r' -> x = x' /\ r = r'.
Hypothesis heads : forall x, ok x -> exists c t, f x = c :: t /\ (c <> 93 /\ c <> 41 /\ c <> 125 /\ c <> 32 /\ c <> 10)%N.
Lemma commas : forall p e z z' l l', ending p e -> Forall good l -> Forall ok l' ->
  flat_map (fun y => str ", " ++ y) (map f l) ++ e ++ z = flat_map (fun y => str ", " ++ y) (map f l') ++ e ++ z' -> l = l' /\ z = z'.
Proof.
  intros p e z z' l l' En Fg. revert l'. induction Fg as [|x l G Fg IH]; intros [|x' l'] Fo E.
  - split; [reflexivity|]. exact (app_inv_head e _ _ E).
  - exfalso. cbn in E. destruct En as [->|[->|[->|[_ ->]]]]; discriminate E.
  - exfalso. cbn in E. destruct En as [->|[->|[->|[_ ->]]]]; discriminate E.
  - inversion Fo as [|? ? O Fo']. subst. cbn [map flat_map] in E. rewrite <- !app_assoc in E. apply app_inv_head in E.
    assert (S : forall k w, stop (flat_map (fun y => str ", " ++ y) (map f k) ++ e ++ w)).
    { intros [|y k] w; [exact (stop_ending _ _ _ En)|]. apply stop_comma. }
    destruct (G x' _ _ O (S l z) (S l' z') E) as [-> E']. destruct (IH _ Fo' E') as [-> ->]. auto.
Qed.
Lemma lines_inj : forall w e z z' l l', ending (Some w) e -> Forall good l -> Forall ok l' ->
  flat_map (fun x => sp (4 + w) ++ x ++ str "," ++ newline) (map f l) ++ sp w ++ e ++ z =
  flat_map (fun x => sp (4 + w) ++ x ++ str "," ++ newline) (map f l') ++ sp w ++ e ++ z' -> l = l' /\ z = z'.
Proof.
  assert (W : forall w, sp (4 + w) = sp w ++ sp 4) by (intro w; unfold sp; rewrite Nat.add_comm; apply repeat_app).
  intros w e z z' l l' En Fg. revert l'. induction Fg as [|x l G Fg IH]; intros [|x' l'] Fo E.
  - split; [reflexivity|]. cbn [map flat_map app] in E. apply app_inv_head in E. exact (app_inv_head e _ _ E).
  - exfalso. cbn [map flat_map] in E. rewrite W, <- !app_assoc in E. cbn [flat_map map app] in E. apply app_inv_head in E.
    destruct En as [->|[->|[->|[X _]]]]; discriminate.
  - exfalso. cbn [map flat_map] in E. rewrite W, <- !app_assoc in E. cbn [flat_map map app] in E. apply app_inv_head in E.
    destruct En as [->|[->|[->|[X _]]]]; discriminate.
  - inversion Fo as [|? ? O Fo']. subst. cbn [map flat_map] in E. rewrite <- !app_assoc in E. apply app_inv_head in E.
    destruct (G x' _ _ O (stop_comma _) (stop_comma _) E) as [-> E']. injection E' as E'.
    destruct (IH _ Fo' E') as [-> ->]. auto.
Qed.
Lemma ents_inj : forall p e z z' l l', ending p e -> Forall good l -> Forall ok l -> Forall ok l' ->
  ents p (map f l) ++ e ++ z = ents p (map f l') ++ e ++ z' -> l = l' /\ z = z'.
Proof.
  intros p e z z' l l' En Fg Fk Fo E.
  assert (H : forall x k w w', ok x -> e ++ w <> ents p (map f (x :: k)) ++ e ++ w').
  { intros x k w w' O X. destruct (heads x O) as (c & t & Ef & N1 & N2 & N3 & N4 & N5). destruct p as [v|].
    - cbn in X. destruct En as [->|[->|[->|[Y _]]]]; discriminate.
    - cbn [map ents] in X. rewrite joined_flat, Ef in X. destruct En as [->|[->|[->|[_ ->]]]]; injection X as X; congruence. }
  destruct l as [|x l]; destruct l' as [|x' l'].
  - split; [reflexivity|]. exact (app_inv_head e _ _ E).
  - inversion Fo. subst. destruct (H x' l' z z'); assumption.
  - inversion Fk. subst. symmetry in E. destruct (H x l z' z); assumption.
  - destruct p as [w|].
    + cbn [map ents] in E. rewrite <- !app_assoc in E. apply app_inv_head in E.
      exact (lines_inj w e z z' (x :: l) (x' :: l') En Fg Fo E).
    + cbn [map ents] in E. rewrite !joined_flat, <- !app_assoc in E.
      inversion Fg as [|? ? G Fg']. inversion Fo as [|? ? O Fo']. subst.
      assert (S : forall k w, stop (flat_map (fun y => str ", " ++ y) (map f k) ++ e ++ w)).
      { intros [|y k] w; [exact (stop_ending _ _ _ En)|]. apply stop_comma. }
      destruct (G x' _ _ O (S l z) (S l' z') E) as [-> E']. destruct (commas None e z z' l l' En Fg' Fo' E') as [-> ->]. auto.
Qed.
End items.

(** ** Values *)
Definition kind (v : dval) : nat :=
  match v with DNum _ => 0 | DName _ | DTuple _ _ | DStruct _ _ => 1 | DChar _ => 2 | DStr _ => 3 | DList _ => 4 | DMap _ => 5 end.
Definition begins_as (k : nat) (c : char) : Prop :=
  match k with
  | 0 => digit c | 1 => letter c | 2 => c = 39%N | 3 => c = 34%N | 4 => c = 91%N | _ => c = 123%N
  end.
Lemma head : forall plain p v, named v -> exists c t, show plain p v = c :: t /\ begins_as (kind v) c.
Proof.
  intros plain p v N. destruct N as [n|s (c & r & -> & L & _)|c|s|n l (c & r & -> & L & _) Ne _|n l (c & r & -> & L & _) Ne _ _|l _|l _ _].
  - cbn [show]. destruct (digits_numeral n) as (F & Nn & _). destruct (digits n) as [|d ds]; [congruence|]. inversion F. subst.
    eexists _, _. split; [reflexivity|assumption].
  - eexists _, _. split; [reflexivity|exact L].
  - eexists _, _. split; reflexivity.
  - eexists _, _. split; reflexivity.
  - destruct l; [congruence|]. eexists _, _. split; [reflexivity|exact L].
  - destruct l; [congruence|]. eexists _, _. split; [reflexivity|exact L].
  - eexists _, _. split; reflexivity.
  - eexists _, _. split; reflexivity.
Qed.
Lemma same_kind : forall plain p v v' r r', named v -> named v' -> show plain p v ++ r = show plain p v' ++ r' -> kind v = kind v'.
Proof.
  intros plain p v v' r r' N N' E. destruct (head plain p v N) as (c & t & H & B). destruct (head plain p v' N') as (c' & t' & H' & B').
  rewrite H, H' in E. injection E as <- _. clear - B B'. unfold digit, letter in *.
  destruct v; destruct v'; cbn in *; try reflexivity; unfold digit, letter in *; exfalso; lia.
Qed.
Lemma ident_chars : forall n, ident n -> Forall ident_char n.
Proof. intros n (c & r & -> & L & F). constructor; [left; exact L|exact F]. Qed.
(** The name of a value and what follows it. *)
Definition name_of (v : dval) : list char := match v with DName n | DTuple n _ | DStruct n _ => n | _ => [] end.
Definition body_of plain p (v : dval) : list char :=
  match v with
  | DTuple _ l => str "(" ++ ents p (map (show plain (deeper p)) l) ++ str ")"
  | DStruct _ l => str " {" ++ gap p ++ ents p (map (fun x => fst x ++ str ": " ++ show plain (deeper p) (snd x)) l) ++ gap p ++ str "}"
  | _ => []
  end.
Lemma body_split : forall plain p v, named v -> kind v = 1 -> show plain p v = name_of v ++ body_of plain p v /\ ident (name_of v).
Proof.
  intros plain p v N K. destruct N; try discriminate K; cbn [name_of body_of].
  - rewrite app_nil_r. auto.
  - destruct l; [congruence|]. auto.
  - destruct l; [congruence|]. auto.
Qed.

Section read.
Variable plain : char -> bool.
Definition reads (v : dval) : Prop := named v -> forall p v' r r', named v' -> stop r -> stop r' -> show plain p v ++ r = show plain p v' ++ r' -> v = v' /\ r = r'.
Lemma names : forall v v' p r r', named v -> named v' -> kind v = 1 -> kind v' = 1 -> stop r -> stop r' -> show plain p v ++ r = show plain p v' ++ r' ->
  name_of v = name_of v' /\ body_of plain p v ++ r = body_of plain p v' ++ r'.
Proof.
  intros v v' p r r' N N' K K' S S' E. destruct (body_split plain p v N K) as [E1 I1]. destruct (body_split plain p v' N' K') as [E2 I2].
  rewrite E1, E2, <- !app_assoc in E. assert (B : forall v r, stop r -> forall c z, body_of plain p v ++ r = c :: z -> ~ ident_char c).
  { intros u x Sx c z X. destruct u; cbn in X; try (destruct Sx as [Y _]; exact (Y _ _ X)); injection X as <- _; nid. }
  apply (span ident_char) in E; [exact E|apply ident_chars; assumption|apply ident_chars; assumption|apply B; assumption|apply B; assumption].
Qed.
Definition not_close (c : char) : Prop := (c <> 93 /\ c <> 41 /\ c <> 125 /\ c <> 32 /\ c <> 10)%N.
Lemma head_close : forall p v, named v -> exists c t, show plain p v = c :: t /\ not_close c.
Proof.
  intros p v N. destruct (head plain p v N) as (c & t & E & B). exists c, t. split; [exact E|]. unfold not_close.
  destruct v; cbn in B; unfold digit, letter in B; lia.
Qed.
Lemma field_good : forall p (x : list char * dval), ident (fst x) -> reads (snd x) -> named (snd x) ->
  good (fun x => fst x ++ str ": " ++ show plain p (snd x)) (fun x => ident (fst x) /\ named (snd x)) x.
Proof.
  intros p [a v] I R N [a' v'] r r' [I' N'] S S' E. cbn [fst snd] in *. rewrite <- !app_assoc in E.
  apply (span ident_char) in E; [|apply ident_chars; assumption|apply ident_chars; assumption|intros c z X; injection X as <- _; nid|intros c z X; injection X as <- _; nid].
  destruct E as [-> E]. apply app_inv_head in E. destruct (R N p v' r r' N' S S' E) as [-> ->]. auto.
Qed.
Lemma pair_good : forall p (x : dval * dval), reads (fst x) -> reads (snd x) -> named (fst x) -> named (snd x) ->
  good (fun x => show plain p (fst x) ++ str ": " ++ show plain p (snd x)) (fun x => named (fst x) /\ named (snd x)) x.
Proof.
  intros p [a v] Ra R Na N [a' v'] r r' [I' N'] S S' E. cbn [fst snd] in *. rewrite <- !app_assoc in E.
  destruct (Ra Na p a' _ _ I' (stop_colon _) (stop_colon _) E) as [-> E']. injection E' as E'.
  destruct (R N p v' r r' N' S S' E') as [-> ->]. auto.
Qed.
Lemma all_read : forall v, reads v.
Proof.
  apply (dval_rec' reads); unfold reads.
  - intros n N p v' r r' N' S S' E. assert (K := same_kind _ _ _ _ _ _ N N' E). destruct v'; try discriminate K. cbn [show] in E.
    apply (span ident_char) in E.
    + destruct E as [E ->]. apply digits_inj in E. subst. auto.
    + eapply Forall_impl; [|apply digits_all]. intros a D. right. left. exact D.
    + eapply Forall_impl; [|apply digits_all]. intros a D. right. left. exact D.
    + apply S.
    + apply S'.
  - intros n N p v' r r' N' S S' E. assert (K := same_kind _ _ _ _ _ _ N N' E). destruct (names _ _ _ _ _ N N' eq_refl (eq_sym K) S S' E) as [En Eb].
    destruct v' as [|n'| | |n' l'|n' l'| |]; try discriminate K; cbn [name_of body_of] in *; subst n'; cbn [app] in Eb.
    + auto.
    + destruct S as (_ & X & _). destruct (X _ Eb).
    + destruct S as (_ & _ & X). destruct (X _ Eb).
  - intros c N p v' r r' N' S S' E. assert (K := same_kind _ _ _ _ _ _ N N' E). destruct v' as [| |c'| | | | |]; try discriminate K.
    cbn [show] in E. unfold quoted in E. cbn [app] in E. injection E as E. rewrite <- !app_assoc in E.
    destruct (escaped_inj plain 39%N (or_intror eq_refl) _ _ _ _ E) as [-> X]. injection X as ->. auto.
  - intros s N p v' r r' N' S S' E. assert (K := same_kind _ _ _ _ _ _ N N' E). destruct v' as [| | |s'| | | |]; try discriminate K.
    cbn [show] in E. unfold quoted in E. cbn [app] in E. injection E as E. rewrite <- !app_assoc in E.
    destruct (string_inj plain 34%N (or_introl eq_refl) _ _ _ _ E) as [-> ->]. auto.
  - intros n l IH N p v' r r' N' S S' E. assert (K := same_kind _ _ _ _ _ _ N N' E). destruct (names _ _ _ _ _ N N' eq_refl (eq_sym K) S S' E) as [En Eb].
    inversion N as [| | | |? ? _ _ Fn| | |]. subst.
    destruct v' as [|n'| | |n' l'|n' l'| |]; try discriminate K; cbn [name_of body_of] in *; subst n'.
    + cbn [app] in Eb. destruct S' as (_ & X & _). destruct (X _ (eq_sym Eb)).
    + inversion N' as [| | | |? ? _ _ Fn'| | |]. subst. rewrite <- !app_assoc in Eb. apply app_inv_head in Eb.
      apply (ents_inj (show plain (deeper p)) named) in Eb; [destruct Eb as [-> ->]; auto|apply head_close|right; left; reflexivity| |exact Fn|exact Fn'].
      rewrite Forall_forall in *. intros x I x' y y' Ox Sy Sy' Ex. exact (IH x I (Fn x I) _ _ _ _ Ox Sy Sy' Ex).
    + discriminate Eb.
  - intros n l IH N p v' r r' N' S S' E. assert (K := same_kind _ _ _ _ _ _ N N' E). destruct (names _ _ _ _ _ N N' eq_refl (eq_sym K) S S' E) as [En Eb].
    inversion N as [| | | | |? ? _ _ Fi Fn| |]. subst.
    destruct v' as [|n'| | |n' l'|n' l'| |]; try discriminate K; cbn [name_of body_of] in *; subst n'.
    + cbn [app] in Eb. destruct S' as (_ & _ & X). destruct (X _ (eq_sym Eb)).
    + discriminate Eb.
    + inversion N' as [| | | | |? ? _ _ Fi' Fn'| |]. subst. rewrite <- !app_assoc in Eb. apply app_inv_head, app_inv_head in Eb.
      rewrite !(app_assoc (gap p) (str "}")) in Eb.
      apply (ents_inj (fun x => fst x ++ str ": " ++ show plain (deeper p) (snd x)) (fun x => ident (fst x) /\ named (snd x))) in Eb; [destruct Eb as [-> ->]; auto| | | | |].
      * intros [a v] [(c & t & Ea & L & _) _]. cbn [fst snd] in *. subst a. eexists _, _. split; [reflexivity|]. unfold letter in L. lia.
      * destruct p; [right; right; left; reflexivity|right; right; right; split; reflexivity].
      * rewrite Forall_forall in *. intros x I. apply field_good; auto. unfold reads. exact (IH x I).
      * rewrite Forall_forall in *. auto.
      * rewrite Forall_forall in *. auto.
  - intros l IH N p v' r r' N' S S' E. assert (K := same_kind _ _ _ _ _ _ N N' E). destruct v' as [| | | | | |l'|]; try discriminate K.
    inversion N as [| | | | | |? Fn|]. inversion N' as [| | | | | |? Fn'|]. subst. cbn [show] in E. rewrite <- !app_assoc in E. apply app_inv_head in E.
    apply (ents_inj (show plain (deeper p)) named) in E; [destruct E as [-> ->]; auto|apply head_close|left; reflexivity| |exact Fn|exact Fn'].
    rewrite Forall_forall in *. intros x I x' y y' Ox Sy Sy' Ex. exact (IH x I (Fn x I) _ _ _ _ Ox Sy Sy' Ex).
  - intros l IH N p v' r r' N' S S' E. assert (K := same_kind _ _ _ _ _ _ N N' E). destruct v' as [| | | | | | |l']; try discriminate K.
    inversion N as [| | | | | | |? Fk Fn]. inversion N' as [| | | | | | |? Fk' Fn']. subst. cbn [show] in E. rewrite <- !app_assoc in E. apply app_inv_head in E.
    apply (ents_inj (fun x => show plain (deeper p) (fst x) ++ str ": " ++ show plain (deeper p) (snd x)) (fun x => named (fst x) /\ named (snd x))) in E; [destruct E as [-> ->]; auto| | | | |].
    + intros [a v] [Na _]. cbn [fst snd]. destruct (head_close (deeper p) a Na) as (c & t & Ec & X). cbn [fst] in *. rewrite Ec. eexists _, _. split; [reflexivity|exact X].
    + right. right. left. reflexivity.
    + rewrite Forall_forall in *. intros x I. destruct (IH x I). apply pair_good; auto.
    + rewrite Forall_forall in *. auto.
    + rewrite Forall_forall in *. auto.
Qed.
End read.

Lemma debug_inj : forall plain pretty v v', named v -> named v' -> debug plain pretty v = debug plain pretty v' -> v = v'.
Proof.
  intros plain pretty v v' N N' E. rewrite (show_is plain v N), (show_is plain v' N') in E.
  apply (all_read plain v N (if pretty then Some 0 else None) v' [] [] N' stop_nil stop_nil). rewrite !app_nil_r. exact E.
Qed.
