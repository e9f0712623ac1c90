(** Reference counts: counting, dropping, and what stays alive. *)
From Coq Require Import String.
From Verif Require Import Api SpecText SpecRender SpecParse SpecTree SpecCost SpecHandles Handles HeapLemmas InvCtl Big BigSteps Struct StructEnd SizeDoc.
Local Open Scope string_scope.
Local Open Scope list_scope.

(** ** Lists of numbers *)
Lemma set_nth_length : forall l k v, length (set_nth k v l) = length l.
Proof. induction l as [|x l IH]; intros [|k] v; cbn; auto. Qed.
Lemma nth_set_same : forall l k v, k < length l -> nth k (set_nth k v l) 0 = v.
Proof. induction l as [|x l IH]; intros [|k] v L; cbn in *; try lia; auto. apply IH. lia. Qed.
Lemma nth_set_other : forall l k v j, j <> k -> nth j (set_nth k v l) 0 = nth j l 0.
Proof. induction l as [|x l IH]; intros [|k] v [|j] N; cbn; try lia; auto. Qed.
Lemma sum_set : forall l k v, k < length l -> list_sum (set_nth k v l) + nth k l 0 = list_sum l + v.
Proof.
  induction l as [|x l IH]; intros [|k] v L; cbn [length] in L; [lia|lia| |].
  - change (v + list_sum l + x = x + list_sum l + v). lia.
  - specialize (IH k v). change (x + list_sum (set_nth k v l) + nth k l 0 = x + list_sum l + v). lia.
Qed.
Lemma sum_ext : forall (f g : nat -> nat) l, (forall x, In x l -> f x = g x) -> list_sum (map f l) = list_sum (map g l).
Proof.
  intros f g l. induction l as [|x l IH]; intro H; [reflexivity|]. cbn [map].
  change (f x + list_sum (map f l) = g x + list_sum (map g l)). rewrite IH by (intros; apply H; right; assumption).
  rewrite (H x) by (left; reflexivity). reflexivity.
Qed.
(** One summand is taken out. *)
Lemma sum_out : forall (f g : nat -> nat) l k c, NoDup l -> In k l -> (forall x, x <> k -> f x = g x) -> f k = g k + c ->
  list_sum (map f l) = list_sum (map g l) + c.
Proof.
  intros f g l k c N. induction N as [|x l X N IH]; intros I E K; [destruct I|]. cbn [map].
  change (f x + list_sum (map f l) = g x + list_sum (map g l) + c). destruct I as [->|I].
  - rewrite (sum_ext f g l); [lia|]. intros y Y. apply E. intros ->. contradiction.
  - rewrite (E x) by (intros ->; contradiction). rewrite IH by assumption. lia.
Qed.
Lemma sum_pos : forall (f : nat -> nat) l, 0 < list_sum (map f l) -> exists x, In x l /\ 0 < f x.
Proof.
  intros f l. induction l as [|x l IH]; cbn [map]; intro H; [cbn in H; unfold list_sum in H; cbn in H; lia|].
  change (0 < f x + list_sum (map f l)) in H. destruct (f x) as [|c] eqn:E.
  - destruct IH as (y & Y & P); [lia|]. exists y. split; [right; exact Y|exact P].
  - exists x. split; [left; reflexivity|lia].
Qed.
Lemma sum_le : forall (f : nat -> nat) l x, In x l -> f x <= list_sum (map f l).
Proof.
  intros f l x. induction l as [|y l IH]; intro I; [destruct I|]. cbn [map].
  change (f x <= f y + list_sum (map f l)). destruct I as [->|I]; [lia|]. specialize (IH I). lia.
Qed.
Lemma occ_app : forall k a b, occ k (a ++ b) = occ k a + occ k b.
Proof. intros. unfold occ. apply count_occ_app. Qed.
Lemma occ_in : forall k l, In k l <-> 0 < occ k l.
Proof. intros. unfold occ. rewrite (count_occ_In Nat.eq_dec). lia. Qed.
Lemma occ_cons : forall k x l, occ k (x :: l) = (if Nat.eq_dec x k then 1 else 0) + occ k l.
Proof. intros. unfold occ. cbn. destruct (Nat.eq_dec x k); reflexivity. Qed.

(** ** Owners *)
Lemma strong_owns : forall h p k, In k (strong (hget h p)) <-> owns h p k.
Proof.
  intros h p k. unfold strong, owns. rewrite in_app_iff. destruct (n_end_tag (hget h p)) as [e|], (n_childs (hget h p)) as [l|]; cbn [In]; split.
  all: intro H; repeat match goal with
    | X : _ \/ _ |- _ => destruct X
    | X : False |- _ => destruct X
    | X : exists _, _ |- _ => destruct X
    | X : _ /\ _ |- _ => destruct X
    | X : Some _ = Some _ |- _ => injection X as X
    | X : None = Some _ |- _ => discriminate X
    end; subst; eauto; try (right; reflexivity).
Qed.
Lemma owns_linked : forall h p k, owns h p k <-> exists x, linked h p x k.
Proof.
  intros h p k. split.
  - intros [(l & E & I)|E]; [|exists LEnd; constructor; exact E]. apply In_nth_error in I. destruct I as [i I]. exists (LChild i). econstructor; eauto.
  - intros [x L]. destruct L as [p l i k E N|p e E]; [left; exists l; split; [exact E|eapply nth_error_In; eauto]|right; exact E].
Qed.
Lemma strong_kids : forall h p k, In k (strong (hget h p)) <-> In k (kids h p) \/ n_end_tag (hget h p) = Some k.
Proof.
  intros. rewrite strong_owns. unfold owns, kids. destruct (n_childs (hget h p)) as [l|]; split; intros [H|H]; auto.
  - destruct H as (l' & E & I). injection E as ->. auto.
  - left. eauto.
  - destruct H as (l' & E & I). discriminate.
  - destruct H.
Qed.
Lemma strong_out : forall h p, length h <= p -> strong (hget h p) = [].
Proof. intros h p L. rewrite hget_default by exact L. reflexivity. Qed.

(** ** A heap without cycles, all of whose links lead to nodes *)
Section Heap.
  Variable h : list node.
  Hypothesis Hin : forall p k, In k (strong (hget h p)) -> k < length h.
  Hypothesis Hac : forall k, freed h k.

  Lemma owner_lt : forall p k, In k (strong (hget h p)) -> p < length h.
  Proof.
    intros p k I. destruct (Nat.lt_ge_cases p (length h)) as [L|L]; [exact L|]. rewrite strong_out in I by exact L. destruct I.
  Qed.
  Lemma in_doc_self : forall k, in_doc h k k. Proof. intro k. exists []. constructor. Qed.
  Lemma in_doc_step : forall a p k, in_doc h a p -> In k (strong (hget h p)) -> in_doc h a k.
  Proof. intros a p k [w P] I. apply strong_owns, owns_linked in I. destruct I as [x L]. exists (w ++ [x]). econstructor; eauto. Qed.
  Lemma in_doc_trans : forall a b c, in_doc h a b -> in_doc h b c -> in_doc h a c.
  Proof. intros a b c [u P] [v Q]. exists (u ++ v). eapply path_app; eauto. Qed.
  Lemma in_doc_inv : forall a k, in_doc h a k -> k = a \/ exists p, in_doc h a p /\ In k (strong (hget h p)).
  Proof.
    intros a k [w P]. destruct P as [|w p x k P L]; [left; reflexivity|]. right. exists p. split; [exists w; exact P|].
    apply strong_owns, owns_linked. exists x. exact L.
  Qed.
  Lemma in_doc_lt : forall a k, a < length h -> in_doc h a k -> k < length h.
  Proof. intros a k L I. apply in_doc_inv in I. destruct I as [->|(p & _ & I)]; [exact L|]. eapply Hin; eauto. Qed.

  (** No node is below itself. *)
  Lemma no_cycle : forall k p, In k (strong (hget h p)) -> in_doc h k p -> False.
  Proof.
    intros k p I D. revert p I D. pose proof (Hac k) as F. induction F as [x F IH]. intros p I D.
    assert (O : owns h p x) by (apply strong_owns; exact I).
    destruct (in_doc_inv _ _ D) as [->|(q & Q & J)].
    - exact (IH x O x I (in_doc_self x)).
    - apply (IH p O q J). eapply in_doc_trans; [eapply in_doc_step; [apply in_doc_self|exact I]|exact Q].
  Qed.
  Lemma path_list : forall a w k, a < length h -> path h a w k ->
    exists l, length l = S (length w) /\ NoDup l /\ (forall x, In x l -> x < length h /\ in_doc h x k).
  Proof.
    intros a w k La P. induction P as [|w p x k P IH L].
    - exists [a]. split; [reflexivity|]. split; [constructor; [intros []|constructor]|]. intros x [<-|[]]. split; [exact La|apply in_doc_self].
    - destruct IH as (l & Ll & N & A). assert (I : In k (strong (hget h p))) by (apply strong_owns, owns_linked; eauto).
      exists (k :: l). split; [cbn [length]; rewrite Ll, app_length; cbn; lia|]. split.
      + constructor; [|exact N]. intro X. apply A in X. destruct X as [_ X]. exact (no_cycle _ _ I X).
      + intros y [<-|Y]; [split; [eapply Hin; eauto|apply in_doc_self]|]. apply A in Y. destruct Y as [Y1 Y2]. split; [exact Y1|].
        eapply in_doc_step; eauto.
  Qed.
  Lemma path_short : forall a w k, a < length h -> path h a w k -> length w < length h.
  Proof.
    intros a w k La P. destruct (path_list a w k La P) as (l & Ll & N & A).
    assert (length l <= length (seq 0 (length h))).
    { apply NoDup_incl_length; [exact N|]. intros x X. apply in_seq. apply A in X. lia. }
    rewrite seq_length in H. lia.
  Qed.
  Lemma reach_sound : forall f a b, reach f h a b = true -> in_doc h a b.
  Proof.
    induction f as [|f IH]; intros a b R; cbn [reach] in R; apply orb_true_iff in R; destruct R as [R|R];
      try (apply Nat.eqb_eq in R; subst; apply in_doc_self); [discriminate|].
    apply orb_true_iff in R. destruct R as [R|R].
    - apply existsb_exists in R. destruct R as (x & X & R). apply IH in R.
      eapply in_doc_trans; [|exact R]. eapply in_doc_step; [apply in_doc_self|]. apply strong_kids. left. exact X.
    - destruct (n_end_tag (hget h a)) as [e|] eqn:E; [|discriminate]. apply IH in R.
      eapply in_doc_trans; [|exact R]. eapply in_doc_step; [apply in_doc_self|]. apply strong_kids. right. exact E.
  Qed.
  Lemma reach_path : forall a w k, path h a w k -> reach (length w) h a k = true.
  Proof.
    intros a w k P. induction P as [|w p x k P IH L]; [apply reach_self|]. rewrite app_length, Nat.add_1_r.
    eapply reach_step; [exact IH|]. apply strong_kids, strong_owns, owns_linked. eauto.
  Qed.
  Lemma lives_kept : forall held k, Forall (fun r => r < length h) held -> (lives h held k = true <-> kept h held k).
  Proof.
    intros held k Fh. unfold lives, kept. rewrite existsb_exists. split; intros (r & I & R); exists r; split; auto.
    - eapply reach_sound; eauto.
    - destruct R as [w P]. rewrite Forall_forall in Fh. eapply reach_mono; [|apply reach_path; exact P].
      pose proof (path_short _ _ _ (Fh r I) P). lia.
  Qed.

  (** ** Counts *)
  Lemma counts_nth : forall held k, k < length h -> nth k (counts h held) 0 = strong_count h held k.
  Proof.
    intros held k L. unfold counts. rewrite nth_indep with (d' := strong_count h held 0) by (rewrite map_length, seq_length; exact L).
    rewrite map_nth. rewrite seq_nth by exact L. reflexivity.
  Qed.
  Lemma counts_length : forall held, length (counts h held) = length h.
  Proof. intro. unfold counts. rewrite map_length. apply seq_length. Qed.
  Lemma nth_out : forall (cs : list nat) k, length cs <= k -> nth k cs 0 = 0.
  Proof. intros. apply nth_overflow. assumption. Qed.

  (** A count is above 0 exactly for the nodes that are kept. *)
  Lemma exact_kept : forall held cs k, Forall (fun r => r < length h) held -> exact h held cs -> (0 < nth k cs 0 <-> kept h held k).
  Proof.
    intros held cs k Fh [Lc E]. rewrite Forall_forall in Fh. split.
    - pose proof (Hac k) as F. induction F as [k F IH]. intro P.
      assert (Lk : k < length h). { destruct (Nat.lt_ge_cases k (length h)) as [L|L]; [exact L|]. rewrite nth_out in P by lia. lia. }
      rewrite (E k Lk) in P. destruct (occ k held) as [|c] eqn:O.
      + cbn [Nat.add] in P. apply sum_pos in P. destruct P as (p & _ & P). destruct (nth p cs 0) as [|c] eqn:Ep; [lia|].
        apply occ_in in P. destruct (IH p) as (r & R & D); [apply strong_owns; exact P|lia|]. exists r. split; [exact R|]. eapply in_doc_step; eauto.
      + exists k. split; [apply occ_in; lia|apply in_doc_self].
    - intros (r & R & [w P]). assert (Lr := Fh r R). induction P as [|w p x k P IH L].
      + rewrite (E r Lr). apply occ_in in R. lia.
      + assert (I : In k (strong (hget h p))) by (apply strong_owns, owns_linked; eauto).
        rewrite (E k (Hin _ _ I)).
        pose proof (sum_le (fun p => match nth p cs 0 with O => 0 | S _ => occ k (strong (hget h p)) end) (seq 0 (length h)) p) as Q.
        cbv beta in Q. specialize (Q ltac:(apply in_seq; pose proof (owner_lt _ _ I); lia)). destruct (nth p cs 0) as [|c] eqn:Ep; [lia|]. apply occ_in in I. lia.
  Qed.
  Lemma counts_pos : forall held k, Forall (fun r => r < length h) held -> (0 < nth k (counts h held) 0 <-> kept h held k).
  Proof.
    intros held k Fh. destruct (Nat.lt_ge_cases k (length h)) as [L|L].
    - rewrite counts_nth by exact L. unfold strong_count. split.
      + intro P. destruct (occ k held) as [|c] eqn:O.
        * cbn [Nat.add] in P. apply sum_pos in P. destruct P as (p & _ & P). destruct (lives h held p) eqn:Lp; [|lia].
          apply lives_kept in Lp; [|exact Fh]. destruct Lp as (r & R & D). apply occ_in in P. exists r. split; [exact R|]. eapply in_doc_step; eauto.
        * exists k. split; [apply occ_in; lia|apply in_doc_self].
      + intros (r & R & D). destruct (in_doc_inv _ _ D) as [->|(p & Q & I)].
        * apply occ_in in R. lia.
        * pose proof (sum_le (fun p => if lives h held p then occ k (strong (hget h p)) else 0) (seq 0 (length h)) p) as X. cbv beta in X.
          specialize (X ltac:(apply in_seq; pose proof (owner_lt _ _ I); lia)).
          assert (Lp : lives h held p = true) by (apply lives_kept; [exact Fh|exists r; auto]). rewrite Lp in X. apply occ_in in I.
          eapply Nat.lt_le_trans; [exact I|]. eapply Nat.le_trans; [exact X|]. apply Nat.le_add_l.
    - rewrite nth_out by (rewrite counts_length; exact L). split; [lia|]. intros (r & R & D). rewrite Forall_forall in Fh.
      pose proof (in_doc_lt _ _ (Fh r R) D). lia.
  Qed.
  Lemma counts_exact : forall held, Forall (fun r => r < length h) held -> exact h held (counts h held).
  Proof.
    intros held Fh. split; [apply counts_length|]. intros k L. rewrite counts_nth by exact L. unfold strong_count. f_equal.
    apply sum_ext. intros p I. pose proof (counts_pos held p Fh) as P. pose proof (lives_kept held p Fh) as K.
    destruct (lives h held p), (nth p (counts h held) 0); try reflexivity.
    - assert (0 < 0) by tauto. lia.
    - assert (false = true) by (apply K, P; lia). discriminate.
  Qed.
  Lemma exact_unique : forall held cs, Forall (fun r => r < length h) held -> exact h held cs -> cs = counts h held.
  Proof.
    intros held cs Fh X. pose proof (counts_exact held Fh) as Y.
    assert (P : forall p, 0 < nth p cs 0 <-> 0 < nth p (counts h held) 0).
    { intro p. rewrite (exact_kept held cs p Fh X), (exact_kept held _ p Fh Y). reflexivity. }
    destruct X as [Lx X], Y as [Ly Y]. apply (nth_ext _ _ 0 0); [congruence|]. intros k Lk. rewrite Lx in Lk.
    rewrite (X k Lk), (Y k Lk). f_equal. apply sum_ext. intros p _. specialize (P p).
    destruct (nth p cs 0), (nth p (counts h held) 0); try reflexivity; exfalso; lia.
  Qed.

  (** ** Dropping *)
  Lemma release_exact : forall fuel held cs todo, exact h (todo ++ held) cs -> list_sum cs <= fuel ->
    Forall (fun r => r < length h) todo -> exists cs', release fuel h cs todo = Some cs' /\ exact h held cs'.
  Proof.
    induction fuel as [|fuel IH]; intros held cs todo [Lc E] Lf Ft; destruct todo as [|k r];
      try (exists cs; split; [reflexivity|split; assumption]).
    - exfalso. inversion Ft as [|? ? Lk _]; subst. specialize (E k Lk). cbn [app] in E. rewrite occ_cons in E.
      destruct (Nat.eq_dec k k); [|congruence].
      pose proof (sum_le (fun x => x) cs (nth k cs 0)) as Q. rewrite map_id in Q. specialize (Q ltac:(apply nth_In; lia)). lia.
    - inversion Ft as [|? ? Lk Fr]; subst. cbn [release]. pose proof (E k Lk) as Ek. cbn [app] in Ek. rewrite occ_cons in Ek.
      destruct (Nat.eq_dec k k) as [_|]; [|congruence]. destruct (nth k cs 0) as [|c] eqn:Ec; [lia|].
      pose proof (sum_set cs k c ltac:(lia)) as Sm. rewrite Ec in Sm. destruct c as [|c].
      + apply IH.
        * split; [rewrite set_nth_length; exact Lc|]. intros x Lx.
          set (f := fun p => match nth p cs 0 with O => 0 | S _ => occ x (strong (hget h p)) end).
          set (g := fun p => match nth p (set_nth k 0 cs) 0 with O => 0 | S _ => occ x (strong (hget h p)) end).
          assert (So : list_sum (map f (seq 0 (length h))) = list_sum (map g (seq 0 (length h))) + occ x (strong (hget h k))).
          { apply sum_out with (k := k); [apply seq_NoDup|apply in_seq; lia| |].
            - intros y Y. unfold f, g. rewrite nth_set_other by exact Y. reflexivity.
            - unfold f, g. rewrite nth_set_same by lia. rewrite Ec. reflexivity. }
          specialize (E x Lx). fold f in E. cbn [app] in E. rewrite occ_cons in E. rewrite So in E.
          rewrite <- app_assoc, occ_app. destruct (Nat.eq_dec k x) as [<-|N].
          -- rewrite nth_set_same by lia. lia.
          -- rewrite nth_set_other by (intro; subst; congruence). lia.
        * lia.
        * apply Forall_app. split; [|exact Fr]. apply Forall_forall. intros x X. eapply Hin; eauto.
      + apply IH; [|lia|exact Fr]. split; [rewrite set_nth_length; exact Lc|]. intros x Lx.
        assert (So : list_sum (map (fun p => match nth p (set_nth k (S c) cs) 0 with O => 0 | S _ => occ x (strong (hget h p)) end) (seq 0 (length h))) =
                     list_sum (map (fun p => match nth p cs 0 with O => 0 | S _ => occ x (strong (hget h p)) end) (seq 0 (length h)))).
        { apply sum_ext. intros p _. destruct (Nat.eq_dec p k) as [->|N]; [rewrite nth_set_same by lia; rewrite Ec; reflexivity|].
          rewrite nth_set_other by exact N. reflexivity. }
        rewrite So. specialize (E x Lx). cbn [app] in E. rewrite occ_cons in E. destruct (Nat.eq_dec k x) as [<-|N].
        * rewrite nth_set_same by lia. lia.
        * rewrite nth_set_other by (intro; subst; congruence). lia.
  Qed.
  Lemma release_counts : forall todo held, Forall (fun r => r < length h) todo -> Forall (fun r => r < length h) held ->
    release (list_sum (counts h (todo ++ held))) h (counts h (todo ++ held)) todo = Some (counts h held).
  Proof.
    intros todo held Ft Fh. destruct (release_exact (list_sum (counts h (todo ++ held))) held (counts h (todo ++ held)) todo) as (cs & R & X); auto.
    - apply counts_exact. apply Forall_app. auto.
    - rewrite R. f_equal. apply exact_unique; assumption.
  Qed.
  Lemma upgrade_kept : forall held k, Forall (fun r => r < length h) held ->
    (kept h held k -> upgrade (counts h held) k = Some k) /\ (~ kept h held k -> upgrade (counts h held) k = None).
  Proof.
    intros held k Fh. pose proof (counts_pos held k Fh) as P. unfold upgrade. destruct (Nat.ltb_spec 0 (nth k (counts h held) 0)) as [L|L]; split; intro K; auto.
    - exfalso. apply K, P, L.
    - exfalso. apply P in K. lia.
  Qed.
End Heap.
