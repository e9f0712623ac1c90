(** The attribute grammar of [SpecDoc] describes exactly what the attribute machine of [Big]
    accepts, and what it makes of it. *)
From Coq Require Import String ZifyBool ZifyN.
From Verif Require Import Api SpecText SpecParse SpecDoc Big HeapLemmas.
Local Open Scope string_scope.
Local Open Scope list_scope.

Definition fin (t : ta) : list attr := ta_attrs (ta_close t).

Lemma upd_last_snoc : forall {A} (f : A -> A) l x, upd_last f (l ++ [x]) = l ++ [f x].
Proof.
  intros A f l x. induction l as [|y l IH]; [reflexivity|]. cbn [app upd_last]. rewrite IH.
  destruct l; reflexivity.
Qed.

Lemma has_slash_app : forall a b, has_slash (a ++ b) = (has_slash a || has_slash b)%bool.
Proof. intros a b. apply existsb_app. Qed.
Lemma has_slash_snoc : forall w c, has_slash (w ++ [c]) = (has_slash w || N.eqb c 47)%bool.
Proof. intros w c. rewrite has_slash_app. unfold has_slash at 2. cbn [existsb]. rewrite orb_false_r, N.eqb_sym. reflexivity. Qed.
Lemma filler_app : forall a b, filler a -> filler b -> filler (a ++ b).
Proof. intros a b A B. apply Forall_app. auto. Qed.

(** Character classes. *)
Ltac chars := unfold slash_filler, quote_char, key_char, val_char, not_ws, is_ws, is_quote,
  TAG_END_CHAR, END_SLASH_CHAR, EQUAL_CHAR, DOUBLE_QUOTE_CHAR, SINGLE_QUOTE_CHAR, WS_CHAR in *.

(** ** The machine follows the grammar *)
(** [t]: between attributes, with [w] (blanks and slashes) just read; after [k] (a key that may still
    get a value) etc.  [pre] is what of the current attribute has been read. *)
Inductive mid (eq dt : bool) (l0 : list attr) : ta -> list char -> Prop :=
  | mid_wait : forall b m mk ids w, filler w -> has_slash w = b ->
      mid eq dt l0 (mkTa (AWait b) TWait l0 m [] mk ids) w
  | mid_key : forall m k mk ids w, filler w -> attr_key eq dt k ->
      mid eq dt l0 (mkTa AKey TKey (l0 ++ [new_key]) m k mk ids) (w ++ k)
  | mid_keyend : forall b m k mk ids w c v, filler w -> attr_key eq dt k -> is_ws c -> filler v ->
      has_slash v = b ->
      mid eq dt l0 (mkTa (AWait b) TKeyEnd (l0 ++ [bare k]) m [] mk ids) (w ++ k ++ c :: v)
  | mid_waitvalue : forall b m k mk ids w e v, filler w -> attr_key eq dt k -> equals_sign e -> filler v ->
      has_slash v = b ->
      mid eq dt l0 (mkTa (AWait b) TWaitValue (l0 ++ [bare k]) m [] mk ids) (w ++ k ++ e ++ v)
  | mid_val : forall m k ids w e v x, filler w -> attr_key eq dt k -> equals_sign e -> filler v -> attr_val x ->
      mid eq dt l0 (mkTa AVal TValue (l0 ++ [bare k]) m x 32%N ids) (w ++ k ++ e ++ v ++ x)
  | mid_quoted : forall m k q ids w e v x, filler w -> attr_key eq dt k -> equals_sign e -> filler v ->
      quote_char q -> ~ In q x ->
      mid eq dt l0 (mkTa AVal TValue (l0 ++ [bare k]) m x q ids) (w ++ k ++ e ++ v ++ q :: x)
  | mid_keyless : forall m q ids w x y, dt = true -> filler w -> quote_char q -> ~ In q x ->
      mid eq dt l0 (mkTa AVal TValue (l0 ++ [mkAttr None (Some y) (Some q) false]) m x q ids) (w ++ q :: x).


Lemma key_snoc : forall eq dt k c, attr_key eq dt k -> key_char c -> attr_key eq dt (k ++ [c]).
Proof.
  intros eq dt k c [d [k' [-> [F [D Q]]]]] C. exists d, (k' ++ [c]). split; [reflexivity|].
  split; [apply Forall_app; auto|]. auto.
Qed.
Lemma val_snoc : forall v c, attr_val v -> val_char c -> attr_val (v ++ [c]).
Proof.
  intros v c [d [v' [-> [F [D Q]]]]] C. exists d, (v' ++ [c]). split; [reflexivity|].
  split; [|auto]. change (d :: v' ++ [c]) with ((d :: v') ++ [c]). apply Forall_app. auto.
Qed.
Lemma filler_snoc : forall w c, filler w -> slash_filler c -> filler (w ++ [c]).
Proof. intros w c W C. apply filler_app; [exact W|]. constructor; [exact C|constructor]. Qed.

(** A text of fillers and then a character that is neither filler nor '=' has no '=' in reach. *)
Lemma not_equals : forall w c r, filler w -> ~ slash_filler c -> c <> 61%N ->
  forall e r', w ++ c :: r = e ++ r' -> ~ equals_sign e.
Proof.
  intros w c r W C N e r' E Q.
  assert (H : forall v, filler v -> forall s, w ++ c :: r <> v ++ 61%N :: s).
  { clear - W C N. induction W as [|x w X W IH]; intros v V s E.
    - destruct V as [|y v Y V]; cbn in E; injection E as E1 E2; [congruence|subst; contradiction].
    - destruct V as [|y v Y V]; cbn in E; injection E as E1 E2.
      + subst x. destruct X as [X|X]; discriminate.
      + exact (IH v V s E2). }
  destruct Q as [->|[b [v [B [V ->]]]]].
  - exact (H [] (Forall_nil _) r' E).
  - apply (H (b :: v)) with (s := r'); [constructor; [left; exact B|exact V]|].
    rewrite E. cbn. rewrite <- app_assoc. reflexivity.
Qed.
Lemma filler_not_equals : forall w, filler w -> forall e r', w = e ++ r' -> ~ equals_sign e.
Proof.
  intros w W e r' -> Q. apply Forall_app in W as [W _].
  assert (In 61%N e) by (destruct Q as [->|[b [v [B [V ->]]]]]; cbn; [auto|right; apply in_or_app; right; left; reflexivity]).
  rewrite Forall_forall in W. apply W in H. destruct H; discriminate.
Qed.

(** A description of texts that can be extended by an attribute in front. *)
Record grows (eq dt : bool) (P : list char -> list attr -> bool -> Prop) : Prop := mkGrows {
  gr_bare : forall w k r l sc, filler w -> attr_key eq dt k -> after_bare r -> r <> [] -> P r l sc ->
    P (w ++ k ++ r) (bare k :: l) sc;
  gr_unquoted : forall w k e w2 v r l sc, filler w -> attr_key eq dt k -> equals_sign e -> filler w2 ->
    attr_val v -> starts_with is_ws r -> r <> [] -> P r l sc -> P (w ++ k ++ e ++ w2 ++ v ++ r) (unquoted k v :: l) sc;
  gr_quoted : forall w k e w2 q v r l sc, filler w -> attr_key eq dt k -> equals_sign e -> filler w2 ->
    quote_char q -> ~ In q v -> P r l sc -> P (w ++ k ++ e ++ w2 ++ [q] ++ v ++ [q] ++ r) (quoted k v q :: l) sc;
  gr_keyless : forall w q v r l sc, filler w -> dt = true -> quote_char q -> ~ In q v -> P r l sc ->
    P (w ++ [q] ++ v ++ [q] ++ r) (keyless v q :: l) sc
}.
Lemma area_grows : forall eq dt, grows eq dt (area eq dt).
Proof. intros eq dt. constructor; intros; [apply ar_bare|apply ar_unquoted|apply ar_quoted|apply ar_keyless]; assumption. Qed.

Definition wraps (eq dt : bool) (x : attr) (pre pre' : list char) : Prop :=
  forall P, grows eq dt P -> forall r l sc, P (pre' ++ r) l sc -> P (pre ++ r) (x :: l) sc.

Lemma mid_step : forall po dt l0 t pre c t', mid (allow_attr_key_starts_with_equal_sign po) dt l0 t pre ->
  ta_closes c t = false -> ta_step po dt c t = Some t' ->
  mid (allow_attr_key_starts_with_equal_sign po) dt l0 t' (pre ++ [c]) \/
  exists x pre', mid (allow_attr_key_starts_with_equal_sign po) dt (l0 ++ [x]) t' pre' /\
    wraps (allow_attr_key_starts_with_equal_sign po) dt x (pre ++ [c]) pre'.
Proof.
  intros po dt l0 t pre c t' M NC ST. set (eq := allow_attr_key_starts_with_equal_sign po) in *.
  destruct M as [b m mk ids w W B|m k mk ids w W K|b m k mk ids w b0 v W K B0 V B|b m k mk ids w e v W K E V B
    |m k ids w e v x W K E V X|m k q ids w e v x W K E V Q X|m q ids w x y D W Q X];
    unfold ta_step in ST; cbn [ta_mode] in ST; unfold ta_closes, ta_closable in NC; cbn [ta_mode ta_mark] in NC.
  - (* waiting *)
    unfold ta_wait_step in ST; cbn [ta_code ta_prev ta_attrs ta_map ta_mark ta_ids tag_code_in_eqb app] in ST.
    destruct (is_quote c) eqn:Qc.
    { left. destruct dt; injection ST as <-.
      - replace (w ++ [c]) with (w ++ c :: []) by reflexivity. apply mid_keyless; auto. chars. lia.
      - unfold ta_key. cbn [ta_prev ta_attrs ta_map ta_mark ta_ids app]. apply mid_key; [exact W|].
        exists c, []. split; [reflexivity|]. split; [constructor|]. split; [left|discriminate]. chars. unfold is_ascii_whitespace. lia. }
    destruct (N.eqb c END_SLASH_CHAR) eqn:Sc.
    { left. injection ST as <-. apply mid_wait; [apply filler_snoc; [exact W|right; chars; lia]|].
      rewrite has_slash_snoc. chars. rewrite Sc, orb_comm. reflexivity. }
    destruct (N.eqb c EQUAL_CHAR) eqn:Ec.
    { fold eq in ST. destruct eq eqn:EQ; [|discriminate]. left. injection ST as <-. unfold ta_key. cbn [ta_prev ta_attrs ta_map ta_mark ta_ids app].
      apply mid_key; [exact W|]. exists c, []. split; [reflexivity|]. split; [constructor|].
      split; [right; split; [chars; lia|reflexivity]|]. intros _. chars. lia. }
    destruct (is_ascii_whitespace c) eqn:Wc.
    { left. injection ST as <-. apply mid_wait; [apply filler_snoc; [exact W|left; exact Wc]|].
      rewrite has_slash_snoc. chars. rewrite Sc, orb_false_r. exact B. }
    left. injection ST as <-. unfold ta_key. cbn [ta_prev ta_attrs ta_map ta_mark ta_ids app].
    apply mid_key; [exact W|]. exists c, []. split; [reflexivity|]. split; [constructor|].
    split; [left; chars; repeat split; lia|]. intros _. chars. lia.
  - (* in a key *)
    destruct (N.eqb c EQUAL_CHAR) eqn:Ec.
    { left. injection ST as <-. unfold ta_set_key. cbn [ta_prev ta_attrs ta_map ta_mark ta_ids app].
      rewrite upd_last_snoc. cbn [a_value a_quote a_need_quote new_key]. rewrite <- app_assoc.
      replace (k ++ [c]) with (k ++ (str "=") ++ []) by (chars; rewrite app_nil_r; replace c with 61%N by lia; reflexivity).
      apply mid_waitvalue; auto; [left; reflexivity|constructor]. }
    destruct (N.eqb c END_SLASH_CHAR) eqn:Sc.
    { right. injection ST as <-. unfold ta_set_key. cbn [ta_prev ta_attrs ta_map ta_mark ta_ids app].
      rewrite upd_last_snoc. cbn [a_value a_quote a_need_quote new_key]. exists (bare k), [c].
      assert (c = 47%N) by (chars; lia). subst c. split.
      - apply mid_wait; [repeat constructor; right; reflexivity|reflexivity].
      - intros P G r l sc A. rewrite <- !app_assoc. apply (gr_bare _ _ _ G); auto; [|discriminate]. split; [right; reflexivity|].
        intros e r' E Q. destruct Q as [->|[b [v [B [V ->]]]]]; [discriminate|].
        cbn in E. injection E as E _. subst b. discriminate. }
    destruct (is_ascii_whitespace c) eqn:Wc.
    { left. injection ST as <-. unfold ta_set_key. cbn [ta_prev ta_attrs ta_map ta_mark ta_ids app].
      rewrite upd_last_snoc. cbn [a_value a_quote a_need_quote new_key]. rewrite <- app_assoc.
      apply mid_keyend; auto. constructor. }
    left. injection ST as <-. unfold ta_push. cbn [ta_mode ta_code ta_prev ta_attrs ta_map ta_mark ta_ids app].
    rewrite <- app_assoc. apply mid_key; [exact W|]. apply key_snoc; [exact K|]. chars. repeat split; lia.
  - (* after a key and a blank *)
    unfold ta_wait_step in ST; cbn [ta_code ta_prev ta_attrs ta_map ta_mark ta_ids tag_code_in_eqb app] in ST.
    assert (WR : forall c', ~ slash_filler c' -> c' <> 61%N ->
      wraps eq dt (bare k) ((w ++ k ++ b0 :: v) ++ [c']) ((b0 :: v) ++ [c'])).
    { intros c' N1 N2 P G r l sc A. rewrite <- !app_assoc in *. apply (gr_bare _ _ _ G); auto; [|discriminate].
      split; [left; exact B0|]. apply (not_equals (b0 :: v)); auto. constructor; [left; exact B0|exact V]. }
    destruct (is_quote c) eqn:Qc.
    { right. exists (bare k), ((b0 :: v) ++ [c]). split.
      - destruct dt; injection ST as <-.
        + apply (mid_keyless eq true (l0 ++ [bare k]) _ c _ (b0 :: v) []); auto; [constructor; [left; exact B0|exact V]|chars; lia].
        + unfold ta_key. cbn [ta_prev ta_attrs ta_map ta_mark ta_ids app]. apply (mid_key eq false (l0 ++ [bare k]) _ [c] _ _ (b0 :: v)); [constructor; [left; exact B0|exact V]|].
          exists c, []. split; [reflexivity|]. split; [constructor|]. split; [left|discriminate]. chars. unfold is_ascii_whitespace. lia.
      - apply WR; chars; unfold is_ascii_whitespace; lia. }
    destruct (N.eqb c END_SLASH_CHAR) eqn:Sc.
    { left. injection ST as <-. rewrite <- app_assoc. cbn [app]. rewrite <- app_assoc. cbn [app].
      apply mid_keyend; auto; [apply filler_snoc; [exact V|right; chars; lia]|].
      rewrite has_slash_snoc. chars. rewrite Sc, orb_comm. reflexivity. }
    destruct (N.eqb c EQUAL_CHAR) eqn:Ec.
    { left. injection ST as <-. rewrite <- app_assoc. cbn [app]. rewrite <- app_assoc. cbn [app].
      replace (k ++ b0 :: v ++ [c]) with (k ++ (b0 :: v ++ str "=") ++ [])
        by (rewrite app_nil_r; chars; replace c with 61%N by lia; reflexivity).
      apply mid_waitvalue; auto; [right; exists b0, v; auto|constructor]. }
    destruct (is_ascii_whitespace c) eqn:Wc.
    { left. injection ST as <-. rewrite <- app_assoc. cbn [app]. rewrite <- app_assoc. cbn [app].
      apply mid_keyend; auto; [apply filler_snoc; [exact V|left; exact Wc]|].
      rewrite has_slash_snoc. chars. rewrite Sc, orb_false_r. exact B. }
    right. exists (bare k), ((b0 :: v) ++ [c]). injection ST as <-. unfold ta_key. cbn [ta_prev ta_attrs ta_map ta_mark ta_ids].
    split.
    + apply (mid_key eq dt (l0 ++ [bare k]) _ [c] _ _ (b0 :: v)); [constructor; [left; exact B0|exact V]|].
      exists c, []. split; [reflexivity|]. split; [constructor|]. split; [left; chars; repeat split; lia|]. intros _. chars. lia.
    + apply WR; chars; lia.
  - (* after '=' *)
    unfold ta_wait_step in ST; cbn [ta_code ta_prev ta_attrs ta_map ta_mark ta_ids tag_code_in_eqb app] in ST.
    assert (VAL : is_ascii_whitespace c = false -> is_quote c = false -> N.eqb c END_SLASH_CHAR = false ->
       mid eq dt l0 (ta_val ([] ++ [c]) WS_CHAR (mkTa (AWait b) TWaitValue (l0 ++ [bare k]) m [] mk ids)) ((w ++ k ++ e ++ v) ++ [c])).
    { intros N1 N2 N3. unfold ta_val. cbn [ta_prev ta_attrs ta_map ta_mark ta_ids app]. rewrite <- !app_assoc.
      apply mid_val; auto. exists c, []. split; [reflexivity|]. unfold TAG_END_CHAR in NC. split; [repeat constructor; chars; lia|]. chars; lia. }
    destruct (is_quote c) eqn:Qc.
    { left. injection ST as <-. unfold ta_val. cbn [ta_prev ta_attrs ta_map ta_mark ta_ids app]. rewrite <- !app_assoc.
      apply mid_quoted; auto. chars; lia. }
    destruct (N.eqb c END_SLASH_CHAR) eqn:Sc.
    { left. injection ST as <-. rewrite <- !app_assoc.
      apply mid_waitvalue; auto; [apply filler_snoc; [exact V|right; chars; lia]|].
      rewrite has_slash_snoc. chars. rewrite Sc, orb_comm. reflexivity. }
    destruct (N.eqb c EQUAL_CHAR) eqn:Ec.
    { left. injection ST as <-. apply VAL; auto. chars. unfold is_ascii_whitespace. lia. }
    destruct (is_ascii_whitespace c) eqn:Wc.
    { left. injection ST as <-. rewrite <- !app_assoc.
      apply mid_waitvalue; auto; [apply filler_snoc; [exact V|left; exact Wc]|].
      rewrite has_slash_snoc. chars. rewrite Sc, orb_false_r. exact B. }
    left. injection ST as <-. apply VAL; auto.
  - (* in an unquoted value *)
    cbn [ta_mark] in ST. change (N.eqb 32 WS_CHAR) with true in *. cbn iota in ST.
    destruct (is_ascii_whitespace c) eqn:Wc.
    { right. injection ST as <-. unfold ta_set_val. cbn [ta_prev ta_attrs ta_map ta_mark ta_ids app]. rewrite upd_last_snoc.
      exists (unquoted k x), [c]. split.
      - apply mid_wait; [repeat constructor; exact Wc|]. change [c] with ([] ++ [c]). rewrite has_slash_snoc. cbn [has_slash existsb orb]. clear - Wc. unfold is_ascii_whitespace in Wc. lia.
      - intros P G r l sc A. rewrite <- !app_assoc. apply (gr_unquoted _ _ _ G); auto. discriminate. }
    left. injection ST as <-. unfold ta_push. cbn [ta_mode ta_code ta_prev ta_attrs ta_map ta_mark ta_ids app].
    rewrite <- !app_assoc. apply mid_val; auto. apply val_snoc; [exact X|]. chars. lia.
  - (* in a quoted value *)
    cbn [ta_mark] in ST. assert (NW : N.eqb q WS_CHAR = false) by (chars; lia). rewrite NW in *.
    destruct (N.eqb c q) eqn:Cq.
    { right. apply N.eqb_eq in Cq. subst c. injection ST as <-. unfold ta_set_val. cbn [ta_prev ta_attrs ta_map ta_mark ta_ids app]. rewrite upd_last_snoc.
      exists (quoted k x q), []. split.
      - apply mid_wait; [constructor|reflexivity].
      - intros P G r l sc A. rewrite <- !app_assoc. cbn [app]. apply (gr_quoted _ _ _ G w k e v q x r); auto. }
    left. injection ST as <-. unfold ta_push. cbn [ta_mode ta_code ta_prev ta_attrs ta_map ta_mark ta_ids app].
    rewrite <- !app_assoc. cbn [app]. apply mid_quoted; auto. intro I. apply in_app_or in I as [I|[->|[]]]; [auto|lia].
  - cbn [ta_mark] in ST. assert (NW : N.eqb q WS_CHAR = false) by (chars; lia). rewrite NW in *.
    destruct (N.eqb c q) eqn:Cq.
    { right. apply N.eqb_eq in Cq. subst c. injection ST as <-. unfold ta_set_val. cbn [ta_prev ta_attrs ta_map ta_mark ta_ids app]. rewrite upd_last_snoc.
      exists (keyless x q), []. split.
      - apply mid_wait; [constructor|reflexivity].
      - intros P G r l sc A. rewrite <- !app_assoc. cbn [app]. apply (gr_keyless _ _ _ G w q x r); auto. }
    left. injection ST as <-. unfold ta_push. cbn [ta_mode ta_code ta_prev ta_attrs ta_map ta_mark ta_ids app].
    rewrite <- !app_assoc. cbn [app]. apply mid_keyless; auto. intro I. apply in_app_or in I as [I|[->|[]]]; [auto|lia].
Qed.

Lemma mid_end : forall eq dt l0 t pre, mid eq dt l0 t pre -> ta_closable t = true ->
  exists l, area eq dt pre l (ta_slash t) /\ fin t = l0 ++ l.
Proof.
  intros eq dt l0 t pre M C. unfold fin, ta_close, ta_slash.
  assert (AN : area eq dt [] [] false) by (apply (ar_end eq dt []); constructor).
  destruct M as [b m mk ids w W B|m k mk ids w W K|b m k mk ids w b0 v W K B0 V B|b m k mk ids w e v W K E V B
    |m k ids w e v x W K E V X|m k q ids w e v x W K E V Q X|m q ids w x y D W Q X];
    cbn [ta_mode]; unfold ta_closable in C; cbn [ta_mode ta_mark] in C.
  - exists []. rewrite app_nil_r. subst b. split; [constructor; exact W|reflexivity].
  - exists [bare k]. unfold ta_set_key. cbn [ta_attrs ta_prev]. rewrite upd_last_snoc. split; [|reflexivity].
    replace (w ++ k) with (w ++ k ++ []) by (rewrite app_nil_r; reflexivity). apply ar_bare; auto.
    split; [exact I|]. apply filler_not_equals. constructor.
  - exists [bare k]. split; [|reflexivity]. apply ar_bare; auto.
    + split; [left; exact B0|]. apply filler_not_equals. constructor; [left; exact B0|exact V].
    + replace b with (has_slash (b0 :: v)); [apply ar_end; constructor; [left; exact B0|exact V]|].
      unfold has_slash in *. cbn [existsb]. rewrite B. chars. unfold is_ascii_whitespace in B0. replace (N.eqb 47 b0) with false by lia. reflexivity.
  - exists [bare k]. split; [|reflexivity]. subst b. apply ar_empty; auto.
  - exists [unquoted k x]. unfold ta_set_val. cbn [ta_attrs ta_prev]. rewrite upd_last_snoc. split; [|reflexivity].
    replace (w ++ k ++ e ++ v ++ x) with (w ++ k ++ e ++ v ++ x ++ []) by (rewrite app_nil_r; reflexivity). apply ar_unquoted; auto. exact I.
  - exfalso. chars. lia.
  - exfalso. chars. lia.
Qed.

Lemma run_area_gen : forall po dt a t t' l0 pre, mid (allow_attr_key_starts_with_equal_sign po) dt l0 t pre ->
  ta_run po dt a t = Some t' -> ta_closable t' = true ->
  exists l, area (allow_attr_key_starts_with_equal_sign po) dt (pre ++ a) l (ta_slash t') /\ fin t' = l0 ++ l.
Proof.
  intros po dt a. induction a as [|c a IH]; intros t t' l0 pre M R C; cbn [ta_run] in R.
  - injection R as <-. rewrite app_nil_r. apply mid_end; assumption.
  - destruct (ta_closes c t) eqn:NC; [discriminate|]. destruct (ta_step po dt c t) as [t1|] eqn:ST; [|discriminate].
    destruct (mid_step _ _ _ _ _ _ _ M NC ST) as [M'|[x [pre' [M' WR]]]].
    + destruct (IH _ _ _ _ M' R C) as [l [A F]]. exists l. rewrite <- app_assoc in A. auto.
    + destruct (IH _ _ _ _ M' R C) as [l [A F]]. exists (x :: l). rewrite F, <- app_assoc. split; [|reflexivity].
      apply (WR _ (area_grows _ _)) in A. rewrite <- app_assoc in A. exact A.
Qed.
(** What the machine accepts is an attribute area. *)
Lemma run_area : forall po dt a mk t, ta_run po dt a (ta_start mk) = Some t -> ta_closable t = true ->
  area (allow_attr_key_starts_with_equal_sign po) dt a (ta_attrs (ta_close t)) (ta_slash t).
Proof.
  intros po dt a mk t R C.
  destruct (run_area_gen po dt a (ta_start mk) t [] [] (mid_wait _ _ [] false _ _ _ [] (Forall_nil _) eq_refl) R C) as [l [A F]].
  unfold fin in F. rewrite F. exact A.
Qed.

(** ** The grammar drives the machine *)
Lemma ta_run_app : forall po dt a b t, ta_run po dt (a ++ b) t =
  match ta_run po dt a t with Some t' => ta_run po dt b t' | None => None end.
Proof.
  intros po dt a. induction a as [|c a IH]; intros b t; cbn [app ta_run]; [reflexivity|].
  destruct (ta_closes c t); [reflexivity|]. destruct (ta_step po dt c t); [apply IH|reflexivity].
Qed.

Lemma run_filler : forall po dt w, filler w -> forall b code l m mk ids,
  ta_run po dt w (mkTa (AWait b) code l m [] mk ids) = Some (mkTa (AWait (b || has_slash w)) code l m [] mk ids).
Proof.
  intros po dt w W. induction W as [|c w C W IH]; intros b code l m mk ids; cbn [ta_run].
  - cbn. rewrite orb_false_r. reflexivity.
  - replace (ta_closes c _) with false by (unfold ta_closes; cbn; chars; unfold is_ascii_whitespace in C; lia).
    unfold ta_step. cbn [ta_mode]. unfold ta_wait_step.
    replace (is_quote c) with false by (chars; unfold is_ascii_whitespace in C; lia).
    destruct (N.eqb c END_SLASH_CHAR) eqn:S.
    + cbn [ta_code ta_attrs ta_map ta_prev ta_mark ta_ids]. rewrite IH. cbn [has_slash existsb].
      rewrite (N.eqb_sym 47 c). chars. rewrite S. cbn. rewrite orb_true_r. reflexivity.
    + replace (N.eqb c EQUAL_CHAR) with false by (chars; unfold is_ascii_whitespace in C; lia).
      replace (is_ascii_whitespace c) with true by (chars; lia). rewrite IH. cbn [has_slash existsb].
      rewrite (N.eqb_sym 47 c). chars. rewrite S. reflexivity.
Qed.

Lemma run_key_tail : forall po dt k, Forall key_char k -> forall l m p mk ids,
  ta_run po dt k (mkTa AKey TKey l m p mk ids) = Some (mkTa AKey TKey l m (p ++ k) mk ids).
Proof.
  intros po dt k F. induction F as [|c k C F IH]; intros l m p mk ids; cbn [ta_run].
  - rewrite app_nil_r. reflexivity.
  - replace (ta_closes c _) with false by (unfold ta_closes; cbn; chars; lia).
    unfold ta_step. cbn [ta_mode].
    replace (N.eqb c EQUAL_CHAR) with false by (chars; lia).
    replace (N.eqb c END_SLASH_CHAR) with false by (chars; lia).
    replace (is_ascii_whitespace c) with false by (chars; lia).
    unfold ta_push. cbn [ta_mode ta_code ta_attrs ta_map ta_prev ta_mark ta_ids]. rewrite IH, <- app_assoc. reflexivity.
Qed.
Lemma run_key : forall po dt k b code l m mk ids,
  attr_key (allow_attr_key_starts_with_equal_sign po) dt k ->
  code = TWait \/ (code = TKeyEnd /\ match k with c :: _ => c <> 61%N | [] => True end) ->
  ta_run po dt k (mkTa (AWait b) code l m [] mk ids) = Some (mkTa AKey TKey (l ++ [new_key]) m k mk ids).
Proof.
  intros po dt k b code l m mk ids [c [k' [-> [F [C Q]]]]] CO. cbn [ta_run].
  replace (ta_closes c _) with false by (unfold ta_closes; cbn; chars; destruct C as [C|[C _]]; lia).
  unfold ta_step. cbn [ta_mode]. unfold ta_wait_step.
  assert (CW : tag_code_in_eqb code TWaitValue = false) by (destruct CO as [->|[-> _]]; reflexivity).
  cbn [ta_code ta_attrs ta_map ta_prev ta_mark ta_ids]. rewrite CW.
  assert (G : ta_run po dt k' (ta_key ([] ++ [c]) (mkTa (AWait b) code l m [] mk ids)) =
    Some (mkTa AKey TKey (l ++ [new_key]) m (c :: k') mk ids)).
  { unfold ta_key. cbn [ta_code ta_attrs ta_map ta_prev ta_mark ta_ids app]. rewrite run_key_tail by exact F. reflexivity. }
  destruct (is_quote c) eqn:Qc.
  { destruct dt; [|exact G]. exfalso. apply Q; [reflexivity|]. chars. lia. }
  destruct (N.eqb c END_SLASH_CHAR) eqn:Sc; [exfalso; chars; destruct C as [C|[C _]]; lia|].
  destruct (N.eqb c EQUAL_CHAR) eqn:Ec.
  { assert (c = 61%N) by (chars; lia). destruct CO as [->|[-> CO]]; [|contradiction].
    cbn [tag_code_in_eqb]. destruct C as [C|[_ C]]; [exfalso; chars; lia|]. rewrite C. exact G. }
  replace (is_ascii_whitespace c) with false by (chars; destruct C as [C|[C _]]; lia). exact G.
Qed.
Lemma run_equals : forall po dt e, equals_sign e -> forall l m k mk ids, exists m',
  ta_run po dt e (mkTa AKey TKey (l ++ [new_key]) m k mk ids) =
  Some (mkTa (AWait false) TWaitValue (l ++ [bare k]) m' [] mk ids).
Proof.
  intros po dt e [->|[c [w [C [W ->]]]]] l m k mk ids.
  - eexists. cbn. unfold ta_set_key. cbn [ta_attrs ta_map ta_prev ta_mark ta_ids]. rewrite upd_last_snoc. reflexivity.
  - eexists. cbn [ta_run].
    replace (ta_closes c _) with false by (unfold ta_closes; cbn; chars; unfold is_ascii_whitespace in C; lia).
    unfold ta_step. cbn [ta_mode].
    replace (N.eqb c EQUAL_CHAR) with false by (chars; unfold is_ascii_whitespace in C; lia).
    replace (N.eqb c END_SLASH_CHAR) with false by (chars; unfold is_ascii_whitespace in C; lia).
    replace (is_ascii_whitespace c) with true by (symmetry; exact C).
    unfold ta_set_key. cbn [ta_attrs ta_map ta_prev ta_mark ta_ids]. rewrite upd_last_snoc, ta_run_app, run_filler by exact W.
    reflexivity.
Qed.
Lemma run_val_tail : forall po dt v, Forall val_char v -> forall code l m p ids,
  ta_run po dt v (mkTa AVal code l m p 32%N ids) = Some (mkTa AVal code l m (p ++ v) 32%N ids).
Proof.
  intros po dt v F. induction F as [|c v C F IH]; intros code l m p ids; cbn [ta_run].
  - rewrite app_nil_r. reflexivity.
  - replace (ta_closes c _) with false by (unfold ta_closes; cbn; chars; lia).
    unfold ta_step. cbn [ta_mode ta_mark]. change (N.eqb 32 WS_CHAR) with true. cbn iota.
    replace (is_ascii_whitespace c) with false by (chars; lia).
    unfold ta_push. cbn [ta_mode ta_code ta_attrs ta_map ta_prev ta_mark ta_ids]. rewrite IH, <- app_assoc. reflexivity.
Qed.
Lemma run_val : forall po dt v b l m mk ids, attr_val v ->
  ta_run po dt v (mkTa (AWait b) TWaitValue l m [] mk ids) = Some (mkTa AVal TValue l m v 32%N ids).
Proof.
  intros po dt v b l m mk ids [c [v' [-> [F [Q S]]]]]. inversion F as [|? ? C F']; subst. cbn [ta_run].
  replace (ta_closes c _) with false by (unfold ta_closes; cbn; chars; lia).
  unfold ta_step. cbn [ta_mode]. unfold ta_wait_step. cbn [ta_code ta_attrs ta_map ta_prev ta_mark ta_ids tag_code_in_eqb].
  replace (is_quote c) with false by (chars; lia).
  replace (N.eqb c END_SLASH_CHAR) with false by (chars; lia).
  replace (is_ascii_whitespace c) with false by (chars; lia).
  assert (G : ta_run po dt v' (ta_val ([] ++ [c]) WS_CHAR (mkTa (AWait b) TWaitValue l m [] mk ids)) =
    Some (mkTa AVal TValue l m (c :: v') 32%N ids)).
  { unfold ta_val. cbn [ta_code ta_attrs ta_map ta_prev ta_mark ta_ids app]. unfold WS_CHAR. rewrite run_val_tail by exact F'. reflexivity. }
  destruct (N.eqb c EQUAL_CHAR); exact G.
Qed.
Lemma run_quoted_tail : forall po dt q v, quote_char q -> ~ In q v -> forall code l m p ids,
  ta_run po dt v (mkTa AVal code l m p q ids) = Some (mkTa AVal code l m (p ++ v) q ids).
Proof.
  intros po dt q v Q. induction v as [|c v IH]; intros I code l m p ids; cbn [ta_run].
  - rewrite app_nil_r. reflexivity.
  - replace (ta_closes c _) with false by (unfold ta_closes; cbn; chars; lia).
    unfold ta_step. cbn [ta_mode ta_mark]. replace (N.eqb q WS_CHAR) with false by (chars; lia).
    assert (c <> q) by (intro; subst; apply I; left; reflexivity).
    replace (N.eqb c q) with false by lia.
    unfold ta_push. cbn [ta_mode ta_code ta_attrs ta_map ta_prev ta_mark ta_ids].
    rewrite IH, <- app_assoc by (intro X; apply I; right; exact X). reflexivity.
Qed.
Lemma run_quoted : forall po dt q v, quote_char q -> ~ In q v -> forall l x m p ids, exists ids',
  ta_run po dt (v ++ [q]) (mkTa AVal TValue (l ++ [x]) m p q ids) =
  Some (mkTa (AWait false) TWait (l ++ [val_attr (p ++ v) (Some q) x]) m [] EOF_CHAR ids').
Proof.
  intros po dt q v Q I l x m p ids. eexists. rewrite ta_run_app, run_quoted_tail by assumption. cbn [ta_run].
  replace (ta_closes q _) with false by (unfold ta_closes; cbn; chars; lia).
  unfold ta_step. cbn [ta_mode ta_mark]. replace (N.eqb q WS_CHAR) with false by (chars; lia).
  rewrite N.eqb_refl. unfold ta_set_val. cbn [ta_mode ta_code ta_attrs ta_map ta_prev ta_mark ta_ids].
  rewrite upd_last_snoc. reflexivity.
Qed.
Lemma run_open_quote : forall po dt q b l m mk ids, quote_char q ->
  ta_run po dt [q] (mkTa (AWait b) TWaitValue l m [] mk ids) = Some (mkTa AVal TValue l m [] q ids).
Proof.
  intros po dt q b l m mk ids Q. cbn [ta_run].
  replace (ta_closes q _) with false by (unfold ta_closes; cbn; chars; lia).
  unfold ta_step. cbn [ta_mode]. unfold ta_wait_step.
  replace (is_quote q) with true by (chars; lia). reflexivity.
Qed.
Lemma run_open_keyless : forall po q b code l m mk ids, quote_char q -> code <> TWaitValue ->
  ta_run po true [q] (mkTa (AWait b) code l m [] mk ids) =
  Some (mkTa AVal TValue (l ++ [mkAttr None (Some []) (Some q) false]) m [] q ids).
Proof.
  intros po q b code l m mk ids Q C. cbn [ta_run].
  replace (ta_closes q _) with false by (unfold ta_closes; cbn; chars; lia).
  unfold ta_step. cbn [ta_mode]. unfold ta_wait_step.
  replace (is_quote q) with true by (chars; lia). cbn [ta_code].
  replace (tag_code_in_eqb code TWaitValue) with false by (destruct code; try reflexivity; contradiction). reflexivity.
Qed.

(** States from which an area can be read on. *)
Inductive ready (l : list attr) : bool -> list char -> ta -> Prop :=
  | rd_wait : forall b code m mk ids a,
      code = TWait \/ (code = TKeyEnd /\ forall w r, filler w -> a <> w ++ 61%N :: r) ->
      ready l b a (mkTa (AWait b) code l m [] mk ids)
  | rd_key : forall m k mk ids a l1, l = l1 ++ [bare k] -> after_bare a ->
      ready l false a (mkTa AKey TKey (l1 ++ [new_key]) m k mk ids)
  | rd_val : forall m k v ids a l1, l = l1 ++ [unquoted k v] -> starts_with is_ws a ->
      ready l false a (mkTa AVal TValue (l1 ++ [bare k]) m v 32%N ids).

Lemma area_drop : forall eq dt c a l sc, slash_filler c -> area eq dt (c :: a) l sc ->
  exists sc', area eq dt a l sc' /\ sc = match l with [] => (N.eqb c 47 || sc')%bool | _ => sc' end.
Proof.
  intros eq dt c a l sc C A.
  assert (NK : forall k x y, attr_key eq dt k -> c :: a <> [] ++ k ++ x /\ (forall d, y = d :: x -> True)).
  { intros k x y [d [k' [-> [F [D _]]]]]. split; [|auto]. intro E. cbn in E. injection E as E _. subst d.
    chars. destruct D as [D|[-> _]]; destruct C as [C|C]; try lia. discriminate. }
  inversion A; subst.
  - exists (has_slash a). inversion H; subst. split; [constructor; assumption|]. cbn. rewrite N.eqb_sym. reflexivity.
  - destruct w as [|d w]; [exfalso; eapply (proj1 (NK k r [] H1)); symmetry; exact H|].
    cbn in H. injection H as -> <-. inversion H0; subst. exists sc. split; [constructor; auto|reflexivity].
  - destruct w as [|d w]; [exfalso; eapply (proj1 (NK k _ [] H1)); symmetry; exact H|].
    cbn in H. injection H as -> <-. inversion H0; subst. eexists. split; [apply ar_empty; auto|reflexivity].
  - destruct w as [|d w]; [exfalso; eapply (proj1 (NK k _ [] H1)); symmetry; exact H|].
    cbn in H. injection H as -> <-. inversion H0; subst. eexists. split; [apply ar_unquoted; eauto|reflexivity].
  - destruct w as [|d w]; [exfalso; eapply (proj1 (NK k _ [] H1)); symmetry; exact H|].
    cbn in H. injection H as -> <-. inversion H0; subst. eexists. split; [apply ar_quoted; eauto|reflexivity].
  - destruct w as [|d w].
    + exfalso. cbn in H. injection H as -> _. chars. unfold is_ascii_whitespace in C. lia.
    + cbn in H. injection H as -> <-. inversion H0; subst. eexists. split; [apply ar_keyless; eauto|reflexivity].
Qed.

Lemma area_nil : forall eq dt l sc, area eq dt [] l sc -> l = [] /\ sc = false.
Proof.
  intros eq dt l sc A.
  assert (NK : forall w k x, attr_key eq dt k -> [] <> w ++ k ++ x).
  { intros w k x [d [k' [-> _]]] E. destruct w; discriminate. }
  inversion A; subst; try (exfalso; eapply NK; [eassumption|symmetry; eassumption]); auto.
  exfalso. destruct w; discriminate.
Qed.

Lemma area_run_gen : forall po dt n a l sc, length a <= n ->
  area (allow_attr_key_starts_with_equal_sign po) dt a l sc ->
  forall l0 b t, ready l0 b a t ->
  exists t', ta_run po dt a t = Some t' /\ ta_closable t' = true /\ fin t' = l0 ++ l /\
    ta_slash t' = match l with [] => (b || sc)%bool | _ => sc end.
Proof.
  intros po dt n. induction n as [|n IH]; intros a l sc LN A l0 b t R.
  { destruct a; [|cbn in LN; lia]. destruct (area_nil _ _ _ _ A) as [-> ->]. exists t. cbn [ta_run].
    split; [reflexivity|]. rewrite app_nil_r, orb_false_r. destruct R; subst; cbn.
    - split; [reflexivity|]. split; reflexivity.
    - split; [reflexivity|]. unfold fin. cbn. rewrite upd_last_snoc. split; reflexivity.
    - split; [reflexivity|]. unfold fin. cbn. rewrite upd_last_snoc. split; reflexivity. }
  destruct R as [b code m mk ids a CO|m k mk ids a l1 -> AB|m k v ids a l1 -> SW].
  - (* between attributes *)
    assert (CO' : forall w k r, a = w ++ k ++ r -> filler w -> attr_key (allow_attr_key_starts_with_equal_sign po) dt k ->
      code = TWait \/ code = TKeyEnd /\ match k with c :: _ => c <> 61%N | [] => True end).
    { intros w k r E W K. destruct CO as [CO|[-> CO]]; [left; exact CO|]. right. split; [reflexivity|].
      destruct k as [|c k]; [exact I|]. intros ->. exact (CO w (k ++ r) W E). }
    assert (CV : code <> TWaitValue) by (destruct CO as [->|[-> _]]; discriminate).
    inversion A as [w W E1 E2 E3|w k r l' sc' W K AB A' E1 E2 E3|w k e w2 W K EQ W2 E1 E2 E3
      |w k e w2 v r l' sc' W K EQ W2 V SW A' E1 E2 E3|w k e w2 q v r l' sc' W K EQ W2 Q V A' E1 E2 E3
      |w q v r l' sc' W D Q V A' E1 E2 E3]; subst a.
    + rewrite run_filler by exact W. eexists. split; [reflexivity|]. split; [reflexivity|].
      rewrite app_nil_r. split; reflexivity.
    + rewrite ta_run_app, run_filler by exact W. rewrite ta_run_app, run_key by (exact K || exact (CO' _ _ _ eq_refl W K)).
      assert (LK : length r <= n) by (destruct K as [? [? [-> _]]]; clear - LN; rewrite !app_length in LN; cbn in LN; lia).
      destruct (IH r l' sc LK A' (l0 ++ [bare k]) false (mkTa AKey TKey (l0 ++ [new_key]) m k mk ids)) as [t' [R [C [F S]]]].
      { apply rd_key; [reflexivity|exact AB]. }
      rewrite R. exists t'. split; [reflexivity|]. split; [exact C|]. rewrite F, <- app_assoc. split; [reflexivity|].
      rewrite S. destruct l'; reflexivity.
    + rewrite ta_run_app, run_filler by exact W. rewrite ta_run_app, run_key by (exact K || exact (CO' _ _ _ eq_refl W K)). rewrite ta_run_app.
      destruct (run_equals po dt e EQ l0 m k mk ids) as [m' ->]. rewrite run_filler by exact W2.
      eexists. split; [reflexivity|]. split; [reflexivity|]. split; reflexivity.
    + rewrite ta_run_app, run_filler by exact W. rewrite ta_run_app, run_key by (exact K || exact (CO' _ _ _ eq_refl W K)). rewrite ta_run_app.
      destruct (run_equals po dt e EQ l0 m k mk ids) as [m' ->]. rewrite ta_run_app, run_filler by exact W2.
      rewrite ta_run_app, run_val by exact V.
      assert (LK : length r <= n) by (destruct K as [? [? [-> _]]]; clear - LN; rewrite !app_length in LN; cbn in LN; lia).
      destruct (IH r l' sc LK A' (l0 ++ [unquoted k v]) false (mkTa AVal TValue (l0 ++ [bare k]) m' v 32%N ids)) as [t' [R [C [F S]]]].
      { apply (rd_val _ _ k); [reflexivity|exact SW]. }
      rewrite R. exists t'. split; [reflexivity|]. split; [exact C|]. rewrite F, <- app_assoc. split; [reflexivity|].
      rewrite S. destruct l'; reflexivity.
    + rewrite ta_run_app, run_filler by exact W. rewrite ta_run_app, run_key by (exact K || exact (CO' _ _ _ eq_refl W K)). rewrite ta_run_app.
      destruct (run_equals po dt e EQ l0 m k mk ids) as [m' ->]. rewrite ta_run_app, run_filler by exact W2.
      rewrite ta_run_app, run_open_quote by exact Q. rewrite (app_assoc v), ta_run_app.
      destruct (run_quoted po dt q v Q V l0 (bare k) m' [] ids) as [ids' ->].
      assert (LK : length r <= n) by (destruct K as [? [? [-> _]]]; clear - LN; rewrite !app_length in LN; cbn in LN; lia).
      destruct (IH r l' sc LK A' (l0 ++ [quoted k v q]) false (mkTa (AWait false) TWait (l0 ++ [quoted k v q]) m' [] EOF_CHAR ids')) as [t' [R [C [F S]]]].
      { apply rd_wait. left. reflexivity. }
      change (val_attr ([] ++ v) (Some q) (bare k)) with (quoted k v q).
      rewrite R. exists t'. split; [reflexivity|]. split; [exact C|]. rewrite F, <- app_assoc. split; [reflexivity|].
      rewrite S. destruct l'; reflexivity.
    + subst dt. rewrite ta_run_app, run_filler by exact W. rewrite ta_run_app, run_open_keyless by assumption.
      rewrite (app_assoc v), ta_run_app.
      destruct (run_quoted po true q v Q V l0 (mkAttr None (Some []) (Some q) false) m [] ids) as [ids' ->].
      assert (LK : length r <= n) by (clear - LN; rewrite !app_length in LN; cbn in LN; lia).
      destruct (IH r l' sc LK A' (l0 ++ [keyless v q]) false (mkTa (AWait false) TWait (l0 ++ [keyless v q]) m [] EOF_CHAR ids')) as [t' [R [C [F S]]]].
      { apply rd_wait. left. reflexivity. }
      change (val_attr ([] ++ v) (Some q) (mkAttr None (Some []) (Some q) false)) with (keyless v q).
      rewrite R. exists t'. split; [reflexivity|]. split; [exact C|]. rewrite F, <- app_assoc. split; [reflexivity|].
      rewrite S. destruct l'; reflexivity.
  - (* in a key without value *)
    destruct a as [|c a].
    { destruct (area_nil _ _ _ _ A) as [-> ->]. eexists. split; [reflexivity|]. split; [reflexivity|].
      unfold fin. cbn. rewrite upd_last_snoc, app_nil_r. split; reflexivity. }
    destruct AB as [SF NE]. cbn in SF.
    destruct (area_drop _ _ _ _ _ _ SF A) as [sc' [A' ->]]. cbn [ta_run].
    replace (ta_closes c _) with false by (unfold ta_closes; cbn; chars; unfold is_ascii_whitespace in SF; lia).
    unfold ta_step. cbn [ta_mode].
    replace (N.eqb c EQUAL_CHAR) with false by (chars; unfold is_ascii_whitespace in SF; lia).
    unfold ta_set_key. cbn [ta_attrs ta_map ta_prev ta_mark ta_ids]. rewrite upd_last_snoc.
    destruct (N.eqb c END_SLASH_CHAR) eqn:SC.
    + edestruct (IH a l sc') as [t' [R [C [F S]]]]; [cbn in LN; lia|exact A'|apply (rd_wait (l1 ++ [bare k]) true TWait); left; reflexivity|].
      cbn [a_value a_quote a_need_quote new_key bare] in *. rewrite R. exists t'. split; [reflexivity|].
      split; [exact C|]. split; [exact F|]. rewrite S. chars. rewrite SC. destruct l; reflexivity.
    + replace (is_ascii_whitespace c) with true by (chars; lia).
      edestruct (IH a l sc') as [t' [R [C [F S]]]]; [cbn in LN; lia|exact A'|apply (rd_wait (l1 ++ [bare k]) false TKeyEnd); right; split; [reflexivity|]|].
      { intros w r W E. apply (NE (c :: w ++ str "=") r); [rewrite E; cbn; rewrite <- app_assoc; reflexivity|].
        right. exists c, w. split; [chars; lia|]. split; [exact W|reflexivity]. }
      cbn [a_value a_quote a_need_quote new_key bare] in *. rewrite R. exists t'. split; [reflexivity|].
      split; [exact C|]. split; [exact F|]. rewrite S. chars. rewrite SC. destruct l; reflexivity.
  - (* in an unquoted value *)
    destruct a as [|c a].
    { destruct (area_nil _ _ _ _ A) as [-> ->]. eexists. split; [reflexivity|]. split; [reflexivity|].
      unfold fin. cbn. rewrite upd_last_snoc, app_nil_r. split; reflexivity. }
    cbn in SW. destruct (area_drop _ _ _ _ _ _ (or_introl SW) A) as [sc' [A' ->]]. cbn [ta_run].
    replace (ta_closes c _) with false by (unfold ta_closes; cbn; chars; unfold is_ascii_whitespace in SW; lia).
    unfold ta_step. cbn [ta_mode ta_mark]. change (N.eqb 32 WS_CHAR) with true. cbn iota.
    replace (is_ascii_whitespace c) with true by (chars; lia).
    unfold ta_set_val. cbn [ta_attrs ta_map ta_prev ta_mark ta_ids]. rewrite upd_last_snoc.
    edestruct (IH a l sc') as [t' [R [C [F S]]]]; [cbn in LN; lia|exact A'|apply (rd_wait (l1 ++ [unquoted k v]) false TWait); left; reflexivity|].
    change (val_attr v None (bare k)) with (unquoted k v). rewrite R. exists t'. split; [reflexivity|].
    split; [exact C|]. split; [exact F|]. rewrite S. replace (N.eqb c 47) with false by (chars; unfold is_ascii_whitespace in SW; lia). destruct l; reflexivity.
Qed.
(** Every attribute area is accepted, with the attributes it consists of. *)
Lemma area_run : forall po dt a l sc mk, area (allow_attr_key_starts_with_equal_sign po) dt a l sc ->
  exists t, ta_run po dt a (ta_start mk) = Some t /\ ta_closable t = true /\
    ta_attrs (ta_close t) = l /\ ta_slash t = sc.
Proof.
  intros po dt a l sc mk A.
  destruct (area_run_gen po dt (length a) a l sc (le_n _) A [] false (ta_start mk)) as [t [R [C [F S]]]].
  { apply rd_wait. left. reflexivity. }
  exists t. split; [exact R|]. split; [exact C|]. split; [exact F|]. rewrite S. destruct l; reflexivity.
Qed.
