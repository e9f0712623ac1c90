(** Proofs about the depth of the recursion. *)
From Coq Require Import String.
From Verif Require Import Api SpecText SpecRender SpecParse SpecTree SpecClone SpecCost SpecHandles SpecDepth Handles Depth HeapLemmas InvCtl Big BigSteps
  Struct StructEnd RenderProofs CloneProofs SizeDoc CostLow HandleProofs HandleDoc HandleThms.
Local Open Scope string_scope.
Local Open Scope list_scope.

(** ** Rendering *)
Lemma r_tree_eq : forall env o i ty b e et c ks m s,
  r_build_tree env o (TNode i ty b e et c ks m) s =
  match build_node env o (TNode i ty b e et c ks m) s with
  | ROk (s1, o1) =>
      let '(r2, n) :=
        match ks with
        | None => (ROk (s1, []), 0)
        | Some l =>
            if rs_root s1 then
              let '(r, n) := r_build_list env o l (rs_set_root false s1) in (do '(_, out) <- r; ROk (s1, out), n)
            else r_build_list env o l s1
        end in
      (do '(s2, o2) <- r2;
       do '(s3, o3) <- (match et with None => ROk (s2, []) | Some e => build_node env o e s2 end);
       ROk (s3, o1 ++ o2 ++ o3), S n)
  | RErr k i => (RErr k i, 1)
  | RPanic p => (RPanic p, 1)
  end.
Proof.
  intros. cbn [r_build_tree].
  set (bl := fix r_list (l : list tree) (s : render_status) {struct l} := _).
  assert (E : forall l s, bl l s = r_build_list env o l s).
  { induction l as [|k l IH]; intro s'; [reflexivity|]. cbn.
    destruct (r_build_tree env o k s') as [[[s1 o1]| |] n]; try reflexivity. cbn. rewrite IH. reflexivity. }
  destruct (build_node env o _ s) as [[s1 o1]| |]; try reflexivity.
  destruct ks as [l|]; [|reflexivity]. rewrite !E. reflexivity.
Qed.
Definition counted {A} (x : res A * nat) (r : res A) (n : nat) : Prop :=
  fst x = r /\ snd x <= n /\ forall a, r = ROk a -> snd x = n.
Lemma list_max_cons : forall x l, list_max (x :: l) = Nat.max x (list_max l).
Proof. reflexivity. Qed.
Lemma r_list_ok : forall env o l, Forall (fun t => forall s, counted (r_build_tree env o t s) (build_tree env o t s) (levels t)) l ->
  forall s, counted (r_build_list env o l s) (build_list env o l s) (list_max (map levels l)).
Proof.
  intros env o l H. induction H as [|t l Ht _ IH]; intro s.
  - split; [reflexivity|]. split; [apply le_n|reflexivity].
  - cbn [r_build_list build_list map]. rewrite list_max_cons. destruct (Ht s) as (A & B & C).
    destruct (r_build_tree env o t s) as [r n]. cbn [fst snd] in *. rewrite <- A in C |- *. destruct r as [[s1 o1]|k i|p].
    + cbn [rbind]. destruct (IH s1) as (D & E & F). destruct (r_build_list env o l s1) as [r2 n2]. cbn [fst snd] in *. rewrite <- D in F |- *.
      split; [reflexivity|]. cbn [snd]. split; [apply Nat.max_le_compat; assumption|]. intros a X.
      rewrite (C _ eq_refl). f_equal. destruct r2 as [[s2 o2]| |]; try discriminate X. apply (F _ eq_refl).
    + split; [reflexivity|]. cbn [snd rbind]. split; [lia|discriminate].
    + split; [reflexivity|]. cbn [snd rbind]. split; [lia|discriminate].
Qed.
Lemma r_tree_ok : forall env o t s, counted (r_build_tree env o t s) (build_tree env o t s) (levels t).
Proof.
  intros env o t. induction t as [i ty b e et c ks m _ Hks] using tree_ind'. intro s. rewrite r_tree_eq, build_tree_eq.
  cbn [levels]. set (n := match ks with Some l => _ | None => 0 end).
  destruct (build_node env o _ s) as [[s1 o1]|k j|p]; [|split; [reflexivity|]; split; [cbn; lia|discriminate] ..]. cbn [rbind].
  match goal with |- counted (let '(r2, n2) := ?x in _) (rbind ?y _) _ => assert (Q : counted x y n) end.
  { destruct ks as [l|]; [|split; [reflexivity|]; split; [apply le_n|reflexivity]]. cbn [optP] in Hks.
    destruct (rs_root s1); [|apply r_list_ok, Hks].
    destruct (r_list_ok env o l Hks (rs_set_root false s1)) as (A & B & C). destruct (r_build_list env o l (rs_set_root false s1)) as [r n2].
    cbn [fst snd] in *. rewrite <- A in C |- *. split; [reflexivity|]. split; [exact B|]. intros a X. cbn [snd]. destruct r as [z| |]; try discriminate X. apply (C _ eq_refl). }
  destruct Q as (A & B & C). match goal with |- counted (let '(_, _) := ?x in _) _ _ => destruct x as [r2 n2] end. cbn [fst snd] in *.
  rewrite <- A in C |- *. split; [reflexivity|]. cbn [snd]. split; [lia|]. intros a X. f_equal.
  destruct r2 as [z| |]; try discriminate X. apply (C _ eq_refl).
Qed.
Lemma levels_child : forall t l k, t_childs t = Some l -> In k l -> S (levels k) <= levels t.
Proof.
  intros [i ty b e et c ks m] l k E I. cbn in E. subst ks. cbn [levels]. apply le_n_S.
  assert (Q : list_max (map levels l) <= list_max (map levels l)) by apply le_n. apply list_max_le in Q.
  rewrite Forall_forall in Q. apply Q, in_map, I.
Qed.
Theorem render_depth : forall env o t inner r n, r_build env o t inner = (r, n) ->
  r = build env o t inner /\ n <= levels t /\
  (inner = false -> inner_html o = false -> forall out, r = ROk out -> n = levels t).
Proof.
  intros env o t inner r n H. unfold r_build, build in *. destruct (inner && inner_html o)%bool eqn:Ei.
  { injection H as <- <-. split; [reflexivity|]. split; [lia|discriminate]. }
  assert (G : forall k s r n, (let '(r, n) := r_build_tree env o k s in (do '(_, out) <- r; ROk out, n)) = (r, n) ->
     r = (do '(_, out) <- build_tree env o k s; ROk out) /\ n <= levels k /\ forall out, r = ROk out -> n = levels k).
  { intros k s r0 n0 X. destruct (r_tree_ok env o k s) as (A & B & C). destruct (r_build_tree env o k s) as [r1 n1]. cbn [fst snd] in *.
    injection X as <- <-. rewrite <- A in C |- *. split; [reflexivity|]. split; [exact B|]. intros out Y. destruct r1; try discriminate Y. apply (C _ eq_refl). }
  destruct inner.
  - destruct (t_type t) eqn:T; cbv zeta in H;
      try (injection H as <- <-; split; [reflexivity|]; split; [lia|discriminate]);
      try (apply G in H; destruct H as (A & B & C); split; [exact A|]; split; [exact B|discriminate]).
    destruct (t_childs t) as [l|] eqn:K; [|injection H as <- <-; split; [reflexivity|]; split; [lia|discriminate]].
    destruct (filter is_tag l) as [|k [|? ?]] eqn:Fl; try (injection H as <- <-; split; [reflexivity|]; split; [lia|discriminate]).
    apply G in H. destruct H as (A & B & C). split; [exact A|]. split; [|discriminate].
    assert (I : In k l) by (apply (filter_In is_tag); rewrite Fl; left; reflexivity). pose proof (levels_child _ _ _ K I). lia.
  - destruct (inner_html o) eqn:Io.
    + destruct (t_type t) eqn:T; cbv zeta in H;
      try (injection H as <- <-; split; [reflexivity|]; split; [lia|discriminate]);
      try (apply G in H; destruct H as (A & B & C); split; [exact A|]; split; [exact B|discriminate]).
      destruct (t_childs t) as [l|] eqn:K; [|injection H as <- <-; split; [reflexivity|]; split; [lia|discriminate]].
      destruct (filter is_tag l) as [|k [|? ?]] eqn:Fl; try (injection H as <- <-; split; [reflexivity|]; split; [lia|discriminate]).
      apply G in H. destruct H as (A & B & C). split; [exact A|]. split; [|discriminate].
      assert (I : In k l) by (apply (filter_In is_tag); rewrite Fl; left; reflexivity). pose proof (levels_child _ _ _ K I). lia.
    + cbv zeta in H. apply G in H. destruct H as (A & B & C). auto.
Qed.

(** ** The depth of a node from that of the nodes it owns *)
Lemma deep_within : forall h i n, (forall c, In c (strong (hget h i)) -> forall w k, path h c w k -> length w < n) ->
  forall w k, path h i w k -> length w <= n.
Proof.
  intros h i n H w k P. destruct (path_front _ _ _ _ P) as [[-> _]|(x & b & v & -> & L & Q)]; [cbn; lia|].
  cbn [length]. apply (H b) in Q; [lia|]. apply strong_owns, owns_linked. eauto.
Qed.
Lemma deep_reach : forall h i c n, In c (strong (hget h i)) -> (exists w k, path h c w k /\ length w = n) ->
  exists w k, path h i w k /\ length w = S n.
Proof.
  intros h i c n I (w & k & P & L). apply strong_owns, owns_linked in I. destruct I as [x X].
  exists ([x] ++ w), k. split; [eapply path_app; [apply path_one; exact X|exact P]|]. cbn. lia.
Qed.
Lemma deep_node : forall h i n, (forall c, In c (strong (hget h i)) -> forall w k, path h c w k -> length w < n) ->
  (n = 0 \/ exists c m, In c (strong (hget h i)) /\ deepest h c m /\ n = S m) -> deepest h i n.
Proof.
  intros h i n A B. split; [|apply deep_within; exact A]. destruct B as [->|(c & m & I & [D _] & ->)].
  - exists [], i. split; [constructor|reflexivity].
  - eapply deep_reach; eauto.
Qed.

(** ** Copying *)
Definition r_clone_loop fuel pid reduce :=
  fix loop (l : list nid) (h : list node) (ids : list nid) : res (list node * list nid) * nat :=
    match l with
    | [] => (ROk (h, ids), 0)
    | k :: l' =>
        let '(r, m1) := r_clone_with fuel h k reduce in
        match r with
        | ROk (h, k') =>
            let h := hupd h k' (fun c => nset_index (n_index (hget h k)) (nset_prev (last_opt ids) (nset_parent (Some pid) c))) in
            let '(r', m2) := loop l' h (ids ++ [k']) in (r', Nat.max m1 m2)
        | RErr k i => (RErr k i, m1)
        | RPanic p => (RPanic p, m1)
        end
    end.
Lemma r_clone_eq : forall fuel h i reduce, r_clone_with (S fuel) h i reduce =
  let n := hget h i in
  match (do b <- checked_sub (n_begin_at n) reduce; do e <- checked_sub (n_end_at n) reduce; ROk (b, e)) with
  | ROk (b, e) =>
      let '(r1, n1) :=
        match n_end_tag n with
        | None => (ROk (h, None), 0)
        | Some et => let '(r, m) := r_clone_with fuel h et reduce in (do '(h, et') <- r; ROk (h, Some et'), m)
        end in
      match r1 with
      | ROk (h, et) =>
          let pid := length h in
          let h := h ++ [mkNode 0 (n_type n) b e et None None (n_root n) (n_content n) None (n_meta n)] in
          match n_childs n with
          | None => (ROk (h, pid), S n1)
          | Some childs =>
              let '(r2, n2) := r_clone_loop fuel pid reduce childs h [] in
              (do '(h, ids) <- r2; ROk (hupd h pid (nset_childs (Some ids)), pid), S (Nat.max n1 n2))
          end
      | RErr k i => (RErr k i, S n1)
      | RPanic p => (RPanic p, S n1)
      end
  | RErr k i => (RErr k i, 1)
  | RPanic p => (RPanic p, 1)
  end.
Proof. reflexivity. Qed.

Lemma r_clone_fst : forall fuel h i r, fst (r_clone_with fuel h i r) = clone_node_with fuel h i r.
Proof.
  induction fuel as [|fuel IH]; intros h i r; [reflexivity|]. rewrite r_clone_eq, clone_eq. cbv zeta.
  assert (Lp : forall pid l h ids, fst (r_clone_loop fuel pid r l h ids) = clone_loop fuel pid r l h ids).
  { intros pid. induction l as [|k l IHl]; intros h1 ids; [reflexivity|]. cbn [r_clone_loop clone_loop].
    rewrite <- IH. destruct (r_clone_with fuel h1 k r) as [[[h2 k']| |] m1]; try reflexivity. cbn [fst rbind].
    rewrite <- IHl. match goal with |- context [r_clone_loop ?a ?b ?c ?d ?e ?f] => destruct (r_clone_loop a b c d e f) as [r' m2] end. reflexivity. }
  destruct (checked_sub (n_begin_at (hget h i)) r) as [b| |]; try reflexivity.
  destruct (checked_sub (n_end_at (hget h i)) r) as [e| |]; try reflexivity. cbn [rbind].
  match goal with |- fst (let '(r1, n1) := ?x in _) = rbind ?y _ => assert (Q : fst x = y) end.
  { destruct (n_end_tag (hget h i)) as [et|]; [|reflexivity]. rewrite <- IH. destruct (r_clone_with fuel h et r) as [r0 m]. reflexivity. }
  rewrite <- Q. clear Q. match goal with |- fst (let '(r1, n1) := ?x in _) = _ => destruct x as [r1 n1] end. cbn [fst].
  destruct r1 as [[h1 et]| |]; try reflexivity. cbn [rbind]. destruct (n_childs (hget h i)) as [l|]; [|reflexivity].
  rewrite <- Lp. destruct (r_clone_loop fuel (length h1) r l _ []) as [r2 n2]. reflexivity.
Qed.

Lemma old_refl : forall h, old h h. Proof. intro. split; auto. Qed.
Lemma old_trans : forall a b c, old a b -> old b c -> old a c.
Proof. intros a b c [A B] [C D]. split; [lia|]. intros n N. rewrite D by lia. apply B, N. Qed.
Lemma old_app : forall h l, old h (h ++ l).
Proof. intros h l. split; [rewrite app_length; lia|]. intros n N. unfold hget. rewrite app_nth1 by exact N. reflexivity. Qed.
Lemma old_upd : forall a h i f, old a h -> length a <= i -> old a (hupd h i f).
Proof. intros a h i f [A B] L. split; [rewrite hupd_length; lia|]. intros n N. rewrite hget_hupd_other by lia. apply B, N. Qed.

Lemma r_clone_depth : forall fuel h0 h i r h' j m, closed h0 -> old h0 h -> i < length h0 ->
  r_clone_with fuel h i r = (ROk (h', j), m) ->
  old h h' /\ length h <= j < length h' /\ exists n, m = S n /\ deepest h0 i n.
Proof.
  induction fuel as [|fuel IH]; intros h0 h i r h' j m Cl O Li H; [discriminate|]. rewrite r_clone_eq in H. cbv zeta in H.
  assert (Lp : forall pid l h ids h2 ids2 n, old h0 h -> (forall k, In k l -> k < length h0) ->
     r_clone_loop fuel pid r l h ids = (ROk (h2, ids2), n) ->
     old h h2 /\ (forall c, In c l -> forall w k, path h0 c w k -> length w < n) /\
     (n = 0 \/ exists c m, In c l /\ deepest h0 c m /\ n = S m)).
  { intros pid. induction l as [|k l IHl]; intros h1 ids h2 ids2 n O1 Lk R.
    - injection R as <- <- <-. split; [apply old_refl|]. split; [intros c []|auto].
    - cbn [r_clone_loop] in R. destruct (r_clone_with fuel h1 k r) as [[[h3 k']| |] m1] eqn:E; try discriminate R.
      destruct (IH h0 h1 k r h3 k' m1 Cl O1 (Lk k (or_introl eq_refl)) E) as (O3 & Rk & n1 & -> & D1).
      match type of R with context [r_clone_loop ?a ?b ?c ?d ?e ?f] => destruct (r_clone_loop a b c d e f) as [r' m2] eqn:E2 end.
      assert (Mx : n = Nat.max (S n1) m2) by congruence. assert (Er : r' = ROk (h2, ids2)) by congruence. subst r'. clear R. apply IHl in E2.
      + destruct E2 as (O4 & W & V). split; [|split].
        * eapply old_trans; [|exact O4]. apply old_upd; [exact O3|lia].
        * intros c [<-|I] w x P; [apply D1 in P; lia|]. specialize (W c I w x P). lia.
        * right. destruct (Nat.le_gt_cases m2 (S n1)) as [Le|Gt].
          -- exists k, n1. split; [left; reflexivity|]. split; [exact D1|]. lia.
          -- destruct V as [->|(c & m0 & I & D & ->)]; [lia|]. exists c, m0. split; [right; exact I|]. split; [exact D|]. lia.
      + apply old_upd; [eapply old_trans; [exact O1|exact O3]|]. destruct O1 as [O1 _]. lia.
      + intros x X. apply Lk. right. exact X. }
  assert (Hi : hget h i = hget h0 i) by (apply O; exact Li). rewrite Hi in H.
  destruct (checked_sub (n_begin_at (hget h0 i)) r) as [b| |]; try discriminate H.
  destruct (checked_sub (n_end_at (hget h0 i)) r) as [e| |]; try discriminate H. cbn [rbind] in H.
  match type of H with (let '(_, _) := ?x in _) = _ => destruct x as [[[h1 et]| |] n1] eqn:E1; try discriminate H end.
  assert (Q : old h h1 /\ match n_end_tag (hget h0 i) with None => n1 = 0 | Some x => exists n, n1 = S n /\ deepest h0 x n end).
  { destruct (n_end_tag (hget h0 i)) as [x|] eqn:Et; [|injection E1 as <- <- <-; split; [apply old_refl|reflexivity]].
    destruct (r_clone_with fuel h x r) as [[[h3 x']| |] m1] eqn:E; try discriminate E1. injection E1 as <- <- <-.
    destruct (IH h0 h x r h3 x' m1 Cl O) as (O3 & _ & D); [eapply Cl; [exact Li|eapply linked_end; exact Et]|exact E|]. auto. }
  destruct Q as (O1 & Q). clear E1.
  set (nn := mkNode _ _ _ _ _ _ _ _ _ _ _) in H. assert (O2 : old h (h1 ++ [nn])) by (eapply old_trans; [exact O1|apply old_app]).
  destruct (n_childs (hget h0 i)) as [l|] eqn:Ec.
  - destruct (r_clone_loop fuel (length h1) r l (h1 ++ [nn]) []) as [[[h2 ids2]| |] n2] eqn:E; try discriminate H. injection H as <- <- <-.
    apply Lp in E; [|eapply old_trans; eauto|].
    + destruct E as (O3 & W & V). destruct O1 as [O1a O1b]. pose proof O3 as [O3a O3b]. rewrite app_length in O3a. cbn in O3a.
      split; [apply old_upd; [eapply old_trans; [exact O2|exact O3]|exact O1a]|].
      split; [rewrite hupd_length; unfold nid in *; lia|]. exists (Nat.max n1 n2). split; [reflexivity|]. apply deep_node.
      * intros c I w k P. unfold strong in I. rewrite Ec in I. apply in_app_or in I. destruct I as [I|I].
        -- destruct (n_end_tag (hget h0 i)) as [x|]; [|destruct I]. destruct I as [<-|[]]. destruct Q as (n & -> & D). apply D in P. lia.
        -- specialize (W c I w k P). lia.
      * destruct (Nat.le_gt_cases n2 n1) as [Le|Gt].
        -- destruct (n_end_tag (hget h0 i)) as [x|] eqn:Et; [|left; lia]. destruct Q as (n & -> & D). right. exists x, n.
           unfold strong. rewrite Et. split; [left; reflexivity|]. split; [exact D|]. lia.
        -- destruct V as [->|(c & m & I & D & ->)]; [lia|]. right. exists c, m. unfold strong. rewrite Ec.
           split; [apply in_or_app; right; exact I|]. split; [exact D|]. lia.
    + intros k I. apply In_nth_error in I. destruct I as [x I]. eapply Cl; [exact Li|eapply linked_child; eauto].
  - injection H as <- <- <-. split; [exact O2|]. destruct O1 as [O1a O1b]. split; [rewrite app_length; cbn; lia|]. exists n1. split; [reflexivity|]. apply deep_node.
    + intros c I w k P. unfold strong in I. rewrite Ec, app_nil_r in I. destruct (n_end_tag (hget h0 i)) as [x|]; [|destruct I].
      destruct I as [<-|[]]. destruct Q as (n & -> & D). apply D in P. lia.
    + destruct (n_end_tag (hget h0 i)) as [x|] eqn:Et; [|left; exact Q]. destruct Q as (n & -> & D). right. exists x, n.
      unfold strong. rewrite Et. split; [left; reflexivity|]. auto.
Qed.
Lemma parsed_closed : forall opts s d, parse opts s = Parsed d -> closed (d_heap d).
Proof. intros opts s d P p x k Lp L. destruct (parsed_hs _ _ _ P) as [H _]. eapply linked_up; eauto. Qed.
Theorem clone_depth : forall opts s d i, parse opts s = Parsed d -> i < length (d_heap d) ->
  exists h' j n, r_clone_node (d_heap d) i = (ROk (h', j), S n) /\ clone_node (d_heap d) i = ROk (h', j) /\ deepest (d_heap d) i n.
Proof.
  intros opts s d i P Li. destruct (clone_copies _ _ _ _ P Li) as (h' & j & E & _). exists h', j.
  unfold r_clone_node, clone_node in *. pose proof (r_clone_fst (S (length (d_heap d))) (d_heap d) i (n_begin_at (hget (d_heap d) i))) as F.
  rewrite E in F. destruct (r_clone_with (S (length (d_heap d))) (d_heap d) i (n_begin_at (hget (d_heap d) i))) as [r m] eqn:R. cbn [fst] in F. subst r.
  destruct (r_clone_depth _ (d_heap d) _ _ _ _ _ _ (parsed_closed _ _ _ P) (old_refl _) Li R) as (_ & _ & n & -> & D).
  exists n. auto.
Qed.

(** ** Dropping *)
Definition drop_each (fuel : nat) (h : list node) :=
  fix each (l : list nid) (cs : list nat) : option (list nat * nat) :=
    match l with
    | [] => Some (cs, 0)
    | x :: r =>
        match drop_rc fuel h cs x with
        | Some (cs1, n1) => match each r cs1 with Some (cs2, n2) => Some (cs2, Nat.max n1 n2) | None => None end
        | None => None
        end
    end.
Lemma drop_eq : forall fuel h cs k, drop_rc (S fuel) h cs k =
  match nth k cs 0 with
  | 0 => None
  | 1 => match drop_each fuel h (strong (hget h k)) (set_nth k 0 cs) with Some (cs', n) => Some (cs', S n) | None => None end
  | S c => Some (set_nth k c cs, 1)
  end.
Proof. intros. cbn [drop_rc]. destruct (nth k cs 0) as [|[|c]]; reflexivity. Qed.
Section Drop.
  Variable h : list node.
  Hypothesis Hin : forall p k, In k (strong (hget h p)) -> k < length h.
  Hypothesis Hac : forall k, freed h k.

  Lemma exact_last : forall held cs k, k < length h -> exact h (k :: held) cs -> nth k cs 0 = 1 ->
    exact h (strong (hget h k) ++ held) (set_nth k 0 cs).
  Proof.
    intros held cs k Lk [Lc E] Ec. split; [rewrite set_nth_length; exact Lc|]. intros x Lx.
    set (f := fun p => match nth p cs 0 with O => 0 | S _ => occ x (strong (hget h p)) end).
    set (g := fun p => match nth p (set_nth k 0 cs) 0 with O => 0 | S _ => occ x (strong (hget h p)) end).
    assert (So : list_sum (map f (seq 0 (length h))) = list_sum (map g (seq 0 (length h))) + occ x (strong (hget h k))).
    { apply sum_out with (k := k); [apply seq_NoDup|apply in_seq; lia| |].
      - intros y Y. unfold f, g. rewrite nth_set_other by exact Y. reflexivity.
      - unfold f, g. rewrite nth_set_same by lia. rewrite Ec. reflexivity. }
    pose proof (E x Lx) as Ex. fold f in Ex. rewrite occ_cons in Ex. rewrite So in Ex.
    rewrite occ_app. destruct (Nat.eq_dec k x) as [<-|N].
    - rewrite nth_set_same by lia. lia.
    - rewrite nth_set_other by (intro; subst; congruence). lia.
  Qed.
  Lemma exact_less : forall held cs k c, k < length h -> exact h (k :: held) cs -> nth k cs 0 = S (S c) ->
    exact h held (set_nth k (S c) cs).
  Proof.
    intros held cs k c Lk [Lc E] Ec. split; [rewrite set_nth_length; exact Lc|]. intros x Lx.
    assert (So : list_sum (map (fun p => match nth p (set_nth k (S c) cs) 0 with O => 0 | S _ => occ x (strong (hget h p)) end) (seq 0 (length h))) =
                 list_sum (map (fun p => match nth p cs 0 with O => 0 | S _ => occ x (strong (hget h p)) end) (seq 0 (length h)))).
    { apply sum_ext. intros p _. destruct (Nat.eq_dec p k) as [->|N]; [rewrite nth_set_same by lia; rewrite Ec; reflexivity|].
      rewrite nth_set_other by exact N. reflexivity. }
    rewrite So. specialize (E x Lx). rewrite occ_cons in E. destruct (Nat.eq_dec k x) as [<-|N].
    - rewrite nth_set_same by lia. lia.
    - rewrite nth_set_other by (intro; subst; congruence). lia.
  Qed.
  Lemma exact_one : forall held cs k, k < length h -> Forall (fun r => r < length h) held -> exact h (k :: held) cs -> ~ kept h held k -> nth k cs 0 = 1.
  Proof.
    intros held cs k Lk Fh X N. pose proof X as [Lc E]. rewrite (E k Lk), occ_cons. destruct (Nat.eq_dec k k) as [_|]; [|congruence].
    assert (Oh : occ k held = 0).
    { destruct (occ k held) as [|c] eqn:O; [reflexivity|]. exfalso. apply N. exists k. split; [apply occ_in; lia|apply in_doc_self]. }
    rewrite Oh. match goal with |- 1 + 0 + ?s = 1 => destruct s as [|c] eqn:Es; [reflexivity|] end. exfalso.
    destruct (sum_pos (fun p => match nth p cs 0 with O => 0 | S _ => occ k (strong (hget h p)) end) (seq 0 (length h))) as (p & _ & P); [lia|].
    destruct (nth p cs 0) as [|c'] eqn:Cp; [lia|]. apply occ_in in P.
    assert (K : kept h (k :: held) p).
    { apply (exact_kept h Hin Hac (k :: held) cs p); [constructor; assumption|exact X|lia]. }
    destruct K as (r & [<-|I] & D).
    - eapply no_cycle; eauto.
    - apply N. exists r. split; [exact I|eapply in_doc_step; eauto].
  Qed.

  Definition apart (l : list nid) : Prop :=
    forall l1 a l2 b j, l = l1 ++ a :: l2 -> In b l2 -> in_doc h a j -> in_doc h b j -> False.
  Definition below (n : nat) (k : nid) : Prop := forall w j, path h k w j -> length w <= n.
  Definition only (held : list nid) (k : nid) : Prop := forall j, in_doc h k j -> ~ kept h held j.
  Definition tree_at (k : nid) : Prop := forall p, in_doc h k p -> apart (strong (hget h p)).

  Lemma apart_tl : forall a l, apart (a :: l) -> apart l.
  Proof. intros a l A l1 x l2 b j -> I. apply (A (a :: l1) x l2 b j); auto. Qed.
  Lemma drop_ok : forall n fuel k held cs, below n k -> n < fuel -> k < length h -> Forall (fun r => r < length h) held ->
    exact h (k :: held) cs ->
    exists cs' m, drop_rc fuel h cs k = Some (cs', m) /\ exact h held cs' /\ 1 <= m <= S n /\
      (only held k -> tree_at k -> forall w j, path h k w j -> length w < m).
  Proof.
    induction n as [n IH] using lt_wf_ind. intros fuel k held cs B F Lk Fh X. destruct fuel as [|fuel]; [lia|]. rewrite drop_eq.
    pose proof X as [Lc E]. pose proof (E k Lk) as Ek. rewrite occ_cons in Ek. destruct (Nat.eq_dec k k) as [_|]; [|congruence].
    destruct (nth k cs 0) as [|[|c]] eqn:Ec; [lia| |].
    - pose proof (exact_last _ _ _ Lk X Ec) as X1. set (cs1 := set_nth k 0 cs) in *.
      assert (Q : forall l held cs, (forall x, In x l -> exists m, m < n /\ below m x) -> Forall (fun r => r < length h) l ->
        Forall (fun r => r < length h) held -> exact h (l ++ held) cs ->
        exists cs' m, drop_each fuel h l cs = Some (cs', m) /\ exact h held cs' /\ m <= n /\
          (apart l -> (forall x, In x l -> only held x /\ tree_at x) -> forall x w j, In x l -> path h x w j -> length w < m)).
      { induction l as [|x l IHl]; intros hl cs2 Bl Fl Fhl Xl.
        - exists cs2, 0. split; [reflexivity|]. split; [exact Xl|]. split; [lia|]. intros _ _ y w j [].
        - inversion Fl as [|? ? Lx Fl']; subst. destruct (Bl x (or_introl eq_refl)) as (m0 & M0 & Bx).
          destruct (IH m0 M0 fuel x (l ++ hl) cs2 Bx) as (cs3 & m1 & D1 & X3 & R1 & W1); [lia|exact Lx|apply Forall_app; auto|exact Xl|].
          destruct (IHl hl cs3) as (cs4 & m2 & D2 & X4 & R2 & W2); [intros y Y; apply Bl; right; exact Y|exact Fl'|exact Fhl|exact X3|].
          exists cs4, (Nat.max m1 m2). cbn [drop_each]. rewrite D1. fold (drop_each fuel h). rewrite D2. split; [reflexivity|]. split; [exact X4|].
          split; [lia|]. intros A O y w j [<-|I] P.
          + destruct (O x (or_introl eq_refl)) as [O1 O2]. assert (length w < m1); [|lia]. apply (W1) with (j := j); [|exact O2|exact P].
            intros z Z (r & I & D). apply in_app_or in I. destruct I as [I|I].
            * apply (A [] x l r z); auto.
            * apply (O1 z Z). exists r. auto.
          + assert (length w < m2); [|lia]. apply (W2 (apart_tl _ _ A)) with (x := y) (j := j); auto. intros z Z. apply O. right. exact Z. }
      destruct (Q (strong (hget h k)) held cs1) as (cs' & m & D & X2 & R & W); [| |exact Fh|exact X1|].
      + intros x I. destruct n as [|n].
        * exfalso. apply strong_owns, owns_linked in I. destruct I as [y L]. pose proof (B _ _ (path_one _ _ _ _ L)) as Bl. cbn in Bl. lia.
        * exists n. split; [lia|]. intros w j P. apply strong_owns, owns_linked in I. destruct I as [y L].
          pose proof (B ([y] ++ w) j) as Bl. cbn in Bl. assert (S (length w) <= S n); [|lia]. apply Bl.
          change (y :: w) with ([y] ++ w). eapply path_app; [apply path_one; exact L|exact P].
      + apply Forall_forall. intros x I. eapply Hin; eauto.
      + exists cs', (S m). rewrite D. split; [reflexivity|]. split; [exact X2|]. split; [lia|]. intros O T w j P.
        assert (length w <= m); [|lia]. revert w j P. apply deep_within. intros c I w j P. apply (W) with (x := c) (j := j); auto.
        * apply T, in_doc_self.
        * intros x Ix. assert (Kx : in_doc h k x) by (eapply in_doc_step; [apply in_doc_self|exact Ix]). split.
          -- intros z Z. apply O. eapply in_doc_trans; eauto.
          -- intros p Z. apply T. eapply in_doc_trans; eauto.
    - exists (set_nth k (S c) cs), 1. split; [reflexivity|]. split; [eapply exact_less; eauto|]. split; [lia|]. intros O.
      exfalso. rewrite (exact_one held cs k Lk Fh X) in Ec; [discriminate|]. apply O, in_doc_self.
  Qed.
End Drop.

Lemma parsed_apart : forall lt h p w, hs lt h -> path h 0 w p -> apart h (strong (hget h p)).
Proof.
  intros lt h p w H P l1 a l2 b j E I [u Pa] [v Pb].
  assert (Q : exists x y, x <> y /\ linked h p x a /\ linked h p y b).
  { unfold strong in E. destruct (n_end_tag (hget h p)) as [e|] eqn:Et; [destruct (n_childs (hget h p)) as [l|] eqn:Ec|destruct (n_childs (hget h p)) as [l|] eqn:Ec].
    - destruct l1 as [|z l1].
      + injection E as <- <-. apply In_nth_error in I. destruct I as [y I]. exists LEnd, (LChild y). split; [discriminate|].
        split; [apply linked_end; exact Et|eapply linked_child; eauto].
      + injection E as <- E. apply In_nth_error in I. destruct I as [y I]. exists (LChild (length l1)), (LChild (length l1 + S y)).
        split; [intro X; injection X; lia|]. rewrite E in Ec.
        split; (eapply linked_child; [exact Ec|]); rewrite nth_error_app2 by lia; [rewrite Nat.sub_diag; reflexivity|].
        replace (length l1 + S y - length l1) with (S y) by lia. exact I.
    - destruct l1 as [|z [|? ?]]; [injection E as <- <-; destruct I|discriminate|discriminate].
    - cbn [app] in E. apply In_nth_error in I. destruct I as [y I]. exists (LChild (length l1)), (LChild (length l1 + S y)).
      split; [intro X; injection X; lia|]. rewrite E in Ec.
      split; (eapply linked_child; [exact Ec|]); rewrite nth_error_app2 by lia; [rewrite Nat.sub_diag; reflexivity|].
      replace (length l1 + S y - length l1) with (S y) by lia. exact I.
    - destruct l1; discriminate. }
  destruct Q as (x & y & N & La & Lb).
  assert (A : path h 0 ((w ++ [x]) ++ u) j) by (eapply path_app; [eapply path_step; eauto|exact Pa]).
  assert (B : path h 0 ((w ++ [y]) ++ v) j) by (eapply path_app; [eapply path_step; eauto|exact Pb]).
  pose proof (path_unique _ _ _ _ _ H A B) as Z. rewrite <- !app_assoc in Z. apply app_inv_head in Z. cbn in Z. congruence.
Qed.
Theorem drop_depth : forall opts s d k held n, parse opts s = Parsed d -> in_doc (d_heap d) (d_root d) k ->
  Forall (fun r => r < length (d_heap d)) held -> deepest (d_heap d) k n ->
  exists m, drop_node (d_heap d) (counts (d_heap d) (k :: held)) k = Some (counts (d_heap d) held, m) /\ 1 <= m <= S n /\
    ((forall j, in_doc (d_heap d) k j -> ~ kept (d_heap d) held j) -> m = S n).
Proof.
  intros opts s d k held n P D Fh [(w0 & k0 & P0 & L0) Dn]. pose proof (parsed_hs _ _ _ P) as [H R].
  assert (Hin : forall p x, In x (strong (hget (d_heap d) p)) -> x < length (d_heap d)) by (intros; eapply parsed_in; eauto).
  assert (Hac : forall x, freed (d_heap d) x) by (intro; eapply all_freed; eauto). rewrite R in D.
  assert (Lk : k < length (d_heap d)) by (eapply in_doc_lt; [exact Hin|apply (hs_root _ _ H)|exact D]).
  destruct (drop_ok (d_heap d) Hin Hac n (length (d_heap d)) k held (counts (d_heap d) (k :: held))) as (cs' & m & E & X & Rm & W); auto.
  - rewrite <- L0. eapply path_short; eauto.
  - apply counts_exact; auto.
  - exists m. unfold drop_node. rewrite E. rewrite (exact_unique (d_heap d) Hin Hac held cs' Fh X). split; [reflexivity|]. split; [exact Rm|].
    intro O. assert (length w0 < m); [|lia]. apply (W O) with (j := k0); [|exact P0].
    intros p Dp. destruct (in_doc_trans _ _ _ _ D Dp) as [w Pw]. eapply parsed_apart; eauto.
Qed.
