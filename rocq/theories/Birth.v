(** Every node of a document was created by one token of the source. *)
From Coq Require Import String.
From Verif Require Import Api SpecText SpecParse HeapLemmas InvCtl Big BigSteps Struct Frame.
Local Open Scope string_scope.
Local Open Scope list_scope.

Lemma bstep_pos : forall u s st, bstep u s st -> d_position st = d_position u + length s.
Proof.
  intros u s st B. induction B; try reflexivity; cbn [set_position d_position].
  rewrite IHB, lt_text_pos. reflexivity.
Qed.
Lemma bsteps_pos : forall u s st, bsteps u s st -> d_position st = d_position u + length s.
Proof.
  intros u s st B. induction B; [cbn; lia|]. rewrite (bstep_pos _ _ _ H), app_length. lia.
Qed.
Lemma bsteps_pos0 : forall opts s st, bsteps (doc_new opts) s st -> d_position st = length s.
Proof. intros opts s st B. rewrite (bsteps_pos _ _ _ B). reflexivity. Qed.

Lemma bstep_U : forall u s st, bstep u s st -> is_U st -> s = str "<" /\ d_mem_position st = d_position u.
Proof.
  intros u s st B. induction B; intro U; try (destruct U as [X _]; discriminate X).
  - split; reflexivity.
  - split; reflexivity.
  - exfalso. destruct U as [X _]. destruct (lt_text_T u (str "&lt;" ++ [c])) as [Y _].
    destruct (lt_text u (str "&lt;" ++ [c])); cbn in *; congruence.
  - destruct (IHB U) as [_ E]. rewrite lt_text_pos in E. auto.
Qed.
Lemma bsteps_U : forall opts s st, bsteps (doc_new opts) s st -> is_U st ->
  exists s0, s = s0 ++ str "<" /\ d_mem_position st = length s0.
Proof.
  intros opts s st B U. inversion B as [|? s1 u t st2 B1 B2]; subst.
  - destruct U as [X _]. discriminate.
  - destruct (bstep_U _ _ _ B2 U) as [-> E]. exists s1. split; [reflexivity|].
    rewrite E. apply (bsteps_pos0 _ _ _ B1).
Qed.

Lemma bsteps_app : forall u s st t st', bsteps u s st -> bsteps st t st' -> bsteps u (s ++ t) st'.
Proof.
  intros u s st t st' A B. induction B as [|st t st1 t2 st2 B IH C]; [rewrite app_nil_r; exact A|].
  rewrite app_assoc. eapply bss_snoc; [apply IH; exact A|exact C].
Qed.
Lemma bsteps_sok_from : forall opts u s st, bsteps u s st -> sok opts u -> sok opts st.
Proof. intros opts u s st B S. induction B; [exact S|]. eapply bstep_sok; eauto. Qed.
Lemma bsteps_fr : forall opts u s st, bsteps u s st -> sok opts u -> fr (d_heap u) (d_heap st).
Proof.
  intros opts u s st B S. induction B; [apply fr_refl|]. eapply fr_trans; [apply IHB; exact S|].
  eapply bstep_fr; [exact H|]. eapply bsteps_sok_from; eauto.
Qed.

Theorem birth : forall opts s st i, bsteps (doc_new opts) s st -> 0 < i < length (d_heap st) ->
  exists s1 tok s2 u st1, s = s1 ++ tok ++ s2 /\ bsteps (doc_new opts) s1 u /\ sok opts u /\
    bstep u tok st1 /\ sok opts st1 /\ bsteps st1 s2 st /\
    length (d_heap u) <= i < length (d_heap st1) /\ born u tok i (hget (d_heap st1) i) /\
    nfr (length (d_heap st1)) (hget (d_heap st1) i) (hget (d_heap st) i).
Proof.
  intros opts s st i B. remember (doc_new opts) as s0 eqn:E0. induction B as [|st0 s st1 t st2 B IH C]; intro Hi.
  - subst. cbn in Hi. lia.
  - subst st0. pose proof (bsteps_sok _ _ _ B) as S.
    pose proof (bstep_sok _ _ _ _ C S) as S2. pose proof (bstep_fr _ _ _ _ C S) as [L F].
    destruct (Nat.lt_ge_cases i (length (d_heap st1))) as [X|X].
    + destruct (IH eq_refl) as [s1 [tok [s2 [u [v [E [B1 [Su [B2 [Sv [B3 [Hv [Bn Nf]]]]]]]]]]]]]; [lia|].
      exists s1, tok, (s2 ++ t), u, v. split; [rewrite E, <- !app_assoc; reflexivity|].
      split; [exact B1|]. split; [exact Su|]. split; [exact B2|]. split; [exact Sv|].
      split; [eapply bss_snoc; eauto|]. split; [exact Hv|]. split; [exact Bn|].
      eapply nfr_trans; [|exact Nf|apply F; exact X]. pose proof (bsteps_fr _ _ _ _ B3 Sv) as [L3 _]. exact L3.
    + exists s, t, [], st1, st2. split; [rewrite app_nil_r; reflexivity|].
      split; [exact B|]. split; [exact S|]. split; [exact C|]. split; [exact S2|].
      split; [constructor|]. split; [lia|]. split; [eapply bstep_born; eauto; lia|apply nfr_refl].
Qed.
