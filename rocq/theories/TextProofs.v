(** Proofs about position.rs and whitespace minification. *)
From Verif Require Import Api SpecText.

(** * Line and column *)

Lemma region_loop_beyond : forall ctx cur index p line col,
  index < cur -> region_loop ctx cur index p line col = (line, col).
Proof.
  induction ctx as [|c ctx IH]; intros cur index p line col H; cbn [region_loop]; [reflexivity|].
  destruct (Nat.leb_spec cur index); [lia|]. apply IH. lia.
Qed.

Lemma region_loop_prefix : forall ctx cur index p line col,
  cur <= index ->
  region_loop ctx cur index p line col =
  region_loop (firstn (S (index - cur)) ctx) cur index p line col.
Proof.
  induction ctx as [|c ctx IH]; intros cur index p line col H; [reflexivity|].
  cbn [firstn]. cbn [region_loop].
  destruct (Nat.leb_spec cur index); [|lia].
  assert (E : forall q l k, region_loop ctx (S cur) index q l k =
     region_loop (firstn (index - cur) ctx) (S cur) index q l k).
  { intros q l k. destruct (Nat.eq_dec cur index) as [->|Hne].
    - rewrite Nat.sub_diag. cbn [firstn]. cbn [region_loop].
      apply region_loop_beyond. lia.
    - rewrite IH by lia. replace (S (index - S cur)) with (index - cur) by lia. reflexivity. }
  rewrite !E. reflexivity.
Qed.

(** State of the loop without index bookkeeping. *)
Fixpoint scan (s : list char) (p : char) (line col : nat) : nat * nat :=
  match s with
  | [] => (line, col)
  | c :: r =>
      if N.eqb c CR_CHAR then scan r c (S line) 0
      else if N.eqb c LF_CHAR then
        if N.eqb p CR_CHAR then scan r c line col else scan r c (S line) 0
      else scan r c line (S col)
  end.

Lemma region_loop_scan : forall s cur index p line col,
  cur + length s <= S index -> region_loop s cur index p line col = scan s p line col.
Proof.
  induction s as [|c s IH]; intros cur index p line col H; [reflexivity|].
  cbn [length] in H. cbn [region_loop scan].
  destruct (Nat.leb_spec cur index); [|lia].
  rewrite !IH by lia. reflexivity.
Qed.

Lemma scan_line : forall s p line col,
  fst (scan s p line col) =
  line + (if N.eqb p 13 then match s with d :: r => if N.eqb d 10 then line_breaks r else line_breaks s
                                      | [] => 0 end
          else line_breaks s).
Proof.
  induction s as [|c s IH]; intros p line col.
  - cbn. destruct (N.eqb p 13); lia.
  - cbn [scan]. change CR_CHAR with 13%N. change LF_CHAR with 10%N.
    destruct (N.eqb_spec c 13) as [->|Hc].
    + rewrite IH. cbn [N.eqb Pos.eqb]. cbn [line_breaks N.eqb Pos.eqb].
      destruct (N.eqb p 13); lia.
    + destruct (N.eqb_spec c 10) as [->|Hc2].
      * destruct (N.eqb p 13) eqn:Hp; rewrite IH; cbn [N.eqb Pos.eqb line_breaks]; lia.
      * rewrite IH. replace (N.eqb c 13) with false by (symmetry; apply N.eqb_neq; exact Hc).
        assert (E : line_breaks (c :: s) = line_breaks s).
        { cbn [line_breaks]. replace (N.eqb c 13) with false by (symmetry; apply N.eqb_neq; exact Hc).
          replace (N.eqb c 10) with false by (symmetry; apply N.eqb_neq; exact Hc2). reflexivity. }
        rewrite E. destruct (N.eqb p 13); reflexivity.
Qed.

(** Column: relation between the scanned text and the text since the last line break. *)
Lemma scan_col : forall s p line col pre l,
  col = length l -> last_line pre l ->
  (p = 13%N -> l = []) ->
  exists l', last_line (pre ++ s) l' /\ snd (scan s p line col) = length l'.
Proof.
  induction s as [|c s IH]; intros p line col pre l Hcol Hl Hp.
  - rewrite app_nil_r. exists l. cbn. auto.
  - cbn [scan]. replace (pre ++ c :: s) with ((pre ++ [c]) ++ s) by (rewrite <- app_assoc; reflexivity).
    change CR_CHAR with 13%N. change LF_CHAR with 10%N.
    assert (Hnl : is_newline_char c = true -> last_line (pre ++ [c]) []).
    { intro Hc. split; [constructor|]. right. exists pre, c. auto. }
    destruct (N.eqb_spec c 13) as [->|Hc].
    + apply IH with (l := []); auto.
    + destruct (N.eqb_spec c 10) as [->|Hc2].
      * destruct (N.eqb_spec p 13) as [->|Hp'].
        -- apply IH with (l := []); auto. rewrite Hcol, (Hp eq_refl). reflexivity.
        -- apply IH with (l := []); auto.
      * apply IH with (l := l ++ [c]).
        -- rewrite app_length. cbn. lia.
        -- assert (Hn : is_newline_char c = false).
           { unfold is_newline_char. apply orb_false_intro; apply N.eqb_neq; assumption. }
           destruct Hl as [Hf Hl]. split.
           ++ apply Forall_app. split; [exact Hf|]. constructor; [exact Hn|constructor].
           ++ destruct Hl as [->|(q & d & Hd & ->)].
              ** left. reflexivity.
              ** right. exists q, d. split; [exact Hd|]. rewrite <- app_assoc. reflexivity.
        -- intros ->. congruence.
Qed.

Lemma region_correct : forall ctx i,
  let r := from_context_index ctx i in
  let upto := firstn (S i) ctx in
  r_index r = i /\
  r_line r = 1 + line_breaks upto /\
  exists l, last_line upto l /\ r_col r = length l.
Proof.
  intros ctx i. cbn zeta. unfold from_context_index.
  rewrite region_loop_prefix by lia. rewrite Nat.sub_0_r.
  rewrite region_loop_scan by (pose proof (firstn_le_length (S i) ctx); lia).
  set (u := firstn (S i) ctx).
  destruct (scan u 0%N 1 0) as [line col] eqn:E. cbn [r_index r_line r_col].
  split; [reflexivity|]. split.
  - pose proof (scan_line u 0%N 1 0) as H. rewrite E in H. cbn [fst N.eqb] in H. exact H.
  - destruct (scan_col u 0%N 1 0 [] []) as (l' & Hl & Hc).
    + reflexivity.
    + split; [constructor|left; reflexivity].
    + discriminate.
    + rewrite E in Hc. cbn in Hc. exists l'. auto.
Qed.

Lemma last_line_unique : forall s l1 l2, last_line s l1 -> last_line s l2 -> l1 = l2.
Proof.
  assert (A : forall p c l q, Forall (fun c => is_newline_char c = false) q ->
     is_newline_char c = true -> q <> p ++ c :: l).
  { intros p c l q Hq Hc ->. apply Forall_app in Hq as [_ Hq]. inversion Hq; congruence. }
  assert (B : forall p1 c1 l1 p2 c2 l2,
     Forall (fun c => is_newline_char c = false) l1 -> Forall (fun c => is_newline_char c = false) l2 ->
     is_newline_char c1 = true -> is_newline_char c2 = true ->
     p1 ++ c1 :: l1 = p2 ++ c2 :: l2 -> l1 = l2).
  { induction p1 as [|x p1 IH]; intros c1 l1 p2 c2 l2 F1 F2 N1 N2 E;
      destruct p2 as [|y p2]; cbn in E; injection E; intros E1 E2.
    - exact E1.
    - exfalso. exact (A p2 c2 l2 l1 F1 N2 E1).
    - exfalso. exact (A p1 c1 l1 l2 F2 N1 (eq_sym E1)).
    - exact (IH _ _ _ _ _ F1 F2 N1 N2 E1). }
  intros s l1 l2 [F1 [E1|(p1 & c1 & N1 & E1)]] [F2 [E2|(p2 & c2 & N2 & E2)]].
  - congruence.
  - exfalso. apply (A p2 c2 l2 l1 F1 N2). congruence.
  - exfalso. apply (A p1 c1 l1 l2 F2 N1). congruence.
  - subst s. exact (B _ _ _ _ _ _ F1 F2 N1 N2 E2).
Qed.

(** * Whitespace minification *)


Lemma minify_true_ws : forall w s, Forall is_ws w -> minify_text (w ++ s) true = minify_text s true.
Proof.
  induction 1 as [|c w Hc Hw IH]; [reflexivity|]. cbn. unfold is_ws in Hc. rewrite Hc. exact IH.
Qed.

Lemma ws_span : forall s, exists w r, s = w ++ r /\ Forall is_ws w /\ (forall d s', r = d :: s' -> not_ws d).
Proof.
  induction s as [|c s IH].
  - exists [], []. repeat split; [constructor|discriminate].
  - destruct (is_ascii_whitespace c) eqn:E.
    + destruct IH as (w & r & -> & Hw & Hr). exists (c :: w), r. repeat split; auto.
    + exists [], (c :: s). repeat split; [constructor|]. intros d s' H. injection H as <- <-. exact E.
Qed.

Lemma minify_start : forall s, (forall d s', s = d :: s' -> not_ws d) ->
  minify_text s true = minify_text s false.
Proof.
  intros [|c s] H; [reflexivity|]. cbn. rewrite (H c s eq_refl). reflexivity.
Qed.

Lemma minify_collapsed : forall s, collapsed s (minify_text s false).
Proof.
  intro s. remember (length s) as n eqn:Hn. revert s Hn.
  induction n as [n IH] using (well_founded_induction lt_wf). intros s ->.
  destruct s as [|c s]; [constructor|]. cbn.
  destruct (is_ascii_whitespace c) eqn:E.
  - destruct (ws_span s) as (w & r & -> & Hw & Hr).
    rewrite minify_true_ws by exact Hw. rewrite minify_start by exact Hr.
    apply coll_run; auto. apply (IH (length r)); [|reflexivity]. cbn. rewrite app_length. lia.
  - apply coll_char; [exact E|]. apply (IH (length s)); cbn; auto.
Qed.

Lemma collapsed_unique : forall s t, collapsed s t -> t = minify_text s false.
Proof.
  induction 1 as [|c s t Hc Hs IH|c w s t Hc Hw Hr Hs IH].
  - reflexivity.
  - cbn. rewrite Hc. congruence.
  - cbn. rewrite Hc. rewrite minify_true_ws by exact Hw. rewrite minify_start by exact Hr. congruence.
Qed.

Lemma minify_idem_gen : forall s b, minify_text (minify_text s b) b = minify_text s b.
Proof.
  induction s as [|c s IH]; intro b; [reflexivity|]. cbn.
  destruct (is_ascii_whitespace c) eqn:E.
  - destruct b; [apply IH|]. cbn. rewrite E. f_equal. apply IH.
  - cbn. rewrite E. f_equal. apply IH.
Qed.

Lemma visible_minify : forall s b, visible (minify_text s b) = visible s.
Proof.
  induction s as [|c s IH]; intro b; [reflexivity|]. cbn.
  destruct (is_ascii_whitespace c) eqn:E.
  - destruct b; cbn; rewrite ?E; cbn; apply IH.
  - cbn. rewrite E. cbn. f_equal. apply IH.
Qed.

Lemma visible_app : forall a b, visible (a ++ b) = visible a ++ visible b.
Proof. intros. apply filter_app. Qed.

Lemma visible_ws : forall s, Forall is_ws s -> visible s = [].
Proof. induction 1 as [|c s Hc Hs IH]; [reflexivity|]. cbn. unfold is_ws in Hc. rewrite Hc. exact IH. Qed.

Lemma collapse_minify : forall s, collapse s = minify_text s false.
Proof.
  assert (A : forall s p, map snd (filter (fun q => negb (is_ascii_whitespace (fst q) && is_ascii_whitespace (snd q)))
                                     (combine (p :: s) s)) = minify_text s (is_ascii_whitespace p)).
  { induction s as [|c s IH]; intro p; [reflexivity|].
    cbn [combine filter fst snd minify_text].
    specialize (IH c). destruct (is_ascii_whitespace c) eqn:E.
    - destruct (is_ascii_whitespace p); cbn [andb negb]; [exact IH|].
      cbn [map snd]. f_equal. exact IH.
    - rewrite andb_false_r. cbn [negb map snd]. f_equal. exact IH. }
  intros [|c s]; [reflexivity|]. unfold collapse. rewrite A. cbn.
  destruct (is_ascii_whitespace c); reflexivity.
Qed.
