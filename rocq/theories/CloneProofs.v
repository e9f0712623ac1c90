(** Proofs about clone_node. *)
From Verif Require Import Api SpecText SpecRender RenderProofs HeapLemmas Final Struct StructEnd DocTree DocEnd SpecTree SpecClone.
Local Open Scope list_scope.

(** The copy of a tree with source node [i], in the heap between [lo] and [hi]: first the end tag, then the node
    itself, then the children. *)
Section Held.
  Variables (h0 h : list node) (r : nat).
  Definition data (i j : nid) : Prop :=
    let n := hget h0 i in let x := hget h j in
    n_type x = n_type n /\ n_begin_at x = n_begin_at n - r /\ n_end_at x = n_end_at n - r /\
    n_content x = n_content n /\ n_meta x = n_meta n /\ n_root x = n_root n.
  Fixpoint held (t : tree) (lo hi : nat) (i j : nid) {struct t} : Prop :=
    match t with
    | TNode _ _ _ _ et _ ks _ =>
        lo <= j < hi /\ data i j /\
        match et with
        | None => n_end_tag (hget h0 i) = None /\ n_end_tag (hget h j) = None
        | Some t' => exists e e', n_end_tag (hget h0 i) = Some e /\ n_end_tag (hget h j) = Some e' /\
            held t' lo j e e' /\ n_index (hget h e') = 0
        end /\
        match ks with
        | None => n_childs (hget h0 i) = None /\ n_childs (hget h j) = None
        | Some l => exists ids ids', n_childs (hget h0 i) = Some ids /\ n_childs (hget h j) = Some ids' /\
            (fix go (l : list tree) (lo : nat) (prev : option nid) (ids ids' : list nid) {struct l} : Prop :=
              match l, ids, ids' with
              | [], [], [] => True
              | t' :: l', k :: s, k' :: s' => exists mid, lo <= mid <= hi /\ held t' lo mid k k' /\
                  n_index (hget h k') = n_index (hget h0 k) /\ n_parent (hget h k') = Some j /\ n_prev (hget h k') = prev /\
                  go l' mid (Some k') s s'
              | _, _, _ => False
              end) l (S j) None ids ids'
        end
    end.
  Definition heldl (j : nid) (hi : nat) :=
    fix go (l : list tree) (lo : nat) (prev : option nid) (ids ids' : list nid) {struct l} : Prop :=
      match l, ids, ids' with
      | [], [], [] => True
      | t' :: l', k :: s, k' :: s' => exists mid, lo <= mid <= hi /\ held t' lo mid k k' /\
          n_index (hget h k') = n_index (hget h0 k) /\ n_parent (hget h k') = Some j /\ n_prev (hget h k') = prev /\
          go l' mid (Some k') s s'
      | _, _, _ => False
      end.
  Lemma held_eq : forall i0 ty b e et c ks m lo hi i j,
    held (TNode i0 ty b e et c ks m) lo hi i j <->
    (lo <= j < hi /\ data i j /\
        match et with
        | None => n_end_tag (hget h0 i) = None /\ n_end_tag (hget h j) = None
        | Some t' => exists e e', n_end_tag (hget h0 i) = Some e /\ n_end_tag (hget h j) = Some e' /\
            held t' lo j e e' /\ n_index (hget h e') = 0
        end /\
        match ks with
        | None => n_childs (hget h0 i) = None /\ n_childs (hget h j) = None
        | Some l => exists ids ids', n_childs (hget h0 i) = Some ids /\ n_childs (hget h j) = Some ids' /\
            heldl j hi l (S j) None ids ids'
        end).
  Proof. intros. reflexivity. Qed.
End Held.
Arguments held : simpl never.
Arguments heldl : simpl never.

(** Only nodes between [lo] and [hi] matter, and of the copy itself not the weak links. *)
Definition same_strong (x y : node) : Prop :=
  n_type y = n_type x /\ n_begin_at y = n_begin_at x /\ n_end_at y = n_end_at x /\ n_content y = n_content x /\
  n_meta y = n_meta x /\ n_root y = n_root x /\ n_end_tag y = n_end_tag x /\ n_childs y = n_childs x.
Lemma same_strong_refl : forall x, same_strong x x.
Proof. intro. repeat split. Qed.
Lemma held_range : forall h0 h r t lo hi i j, held h0 h r t lo hi i j -> lo <= j < hi.
Proof. intros h0 h r [? ? ? ? ? ? ? ?] lo hi i j H. rewrite held_eq in H. destruct H as [H _]. exact H. Qed.
Lemma held_frame : forall h0 h r t h' lo hi lo' hi' i j, held h0 h r t lo hi i j ->
  (forall n, lo <= n < hi -> n <> j -> hget h' n = hget h n) -> same_strong (hget h j) (hget h' j) -> lo' <= lo -> hi <= hi' ->
  held h0 h' r t lo' hi' i j.
Proof.
  intros h0 h r t. induction t as [i0 ty b e et c ks m Het Hks] using tree_ind'. intros h' lo hi lo' hi' i j H F S Lo Hi.
  rewrite held_eq in *. destruct H as (R & D & E & K). destruct S as (S1 & S2 & S3 & S4 & S5 & S6 & S7 & S8).
  split; [lia|]. split; [unfold data in *; rewrite S1, S2, S3, S4, S5, S6; exact D|]. split.
  - destruct et as [t'|]; [|rewrite S7; exact E]. destruct E as (a & a' & A & B & C & Ix). exists a, a'. rewrite S7.
    pose proof (held_range _ _ _ _ _ _ _ _ C) as Ra.
    split; [exact A|]. split; [exact B|]. rewrite (F a') by lia. split; [|exact Ix].
    cbn [optP] in Het. apply (Het h' lo j lo' j a a' C); [intros n N1 N2; apply F; lia|rewrite (F a') by lia; apply same_strong_refl|lia|lia].
  - destruct ks as [l|]; [|rewrite S8; exact K]. destruct K as (ids & ids' & A & B & C). exists ids, ids'. rewrite S8.
    split; [exact A|]. split; [exact B|]. cbn [optP] in Hks. clear - Hks C F R Hi.
    assert (G : forall lo1 prev, S j <= lo1 -> heldl h0 h r j hi l lo1 prev ids ids' -> heldl h0 h' r j hi' l lo1 prev ids ids').
    { clear C. revert ids ids'. induction Hks as [|t l Ht Hl IH]; intros [|k s] [|k' s'] lo1 prev L C; try exact C.
      destruct C as (mid & M & C & Ix & Pa & Pr & G). exists mid. split; [lia|]. pose proof (held_range _ _ _ _ _ _ _ _ C) as Rk.
      rewrite !(F k') by lia. split; [|split; [exact Ix|split; [exact Pa|split; [exact Pr|apply IH; [lia|exact G]]]]].
      apply (Ht h' lo1 mid lo1 mid k k' C); [intros n N1 N2; apply F; lia|rewrite (F k') by lia; apply same_strong_refl|lia|lia]. }
    apply G; [lia|exact C].
Qed.

(** Nodes of the tree lie in the old heap and not before [r]. *)
Definition closed (h : list node) : Prop := forall p x k, p < length h -> linked h p x k -> k < length h.
Definition after (r : nat) (t : tree) : Prop := forall s, sub s t -> r <= t_begin_at s /\ r <= t_end_at s.
Definition copied h0 r (t : tree) (h h' : list node) (i j : nid) : Prop :=
  length h <= length h' /\ (forall n, n < length h -> hget h' n = hget h n) /\
  held h0 h' r t (length h) (length h') i j /\ n_index (hget h' j) = 0 /\ n_parent (hget h' j) = None /\ n_prev (hget h' j) = None.
Definition old (h0 h : list node) : Prop := length h0 <= length h /\ forall n, n < length h0 -> hget h n = hget h0 n.

Definition clone_loop fuel pid reduce :=
  fix loop (l : list nid) (h : list node) (ids : list nid) : res (list node * list nid) :=
    match l with
    | [] => ROk (h, ids)
    | k :: l' =>
        do '(h, k') <- clone_node_with fuel h k reduce;
        let h := hupd h k' (fun c =>
          nset_index (n_index (hget h k))
            (nset_prev (last_opt ids) (nset_parent (Some pid) c))) in
        loop l' h (ids ++ [k'])
    end.
Lemma clone_eq : forall fuel h i r, clone_node_with (S fuel) h i r =
  let n := hget h i in
  do b <- checked_sub (n_begin_at n) r;
  do e <- checked_sub (n_end_at n) r;
  do '(h, et) <-
    (match n_end_tag n with
     | None => ROk (h, None)
     | Some et => do '(h, et') <- clone_node_with fuel h et r; ROk (h, Some et')
     end);
  let pid := length h in
  let h := h ++ [mkNode 0 (n_type n) b e et None None (n_root n) (n_content n) None (n_meta n)] in
  match n_childs n with
  | None => ROk (h, pid)
  | Some childs => do '(h, ids) <- clone_loop fuel pid r childs h []; ROk (hupd h pid (nset_childs (Some ids)), pid)
  end.
Proof. reflexivity. Qed.

Lemma loop_ok : forall h0 f fuel r pid, closed h0 -> f <= fuel -> forall l,
  Forall (fun t => forall f fuel h i r, tree_of f h0 i = Some t -> f <= fuel -> closed h0 -> i < length h0 -> old h0 h -> after r t ->
     exists h' j, clone_node_with fuel h i r = ROk (h', j) /\ copied h0 r t h h' i j) l ->
  forall ids h acc, Forall2 (fun k t => tree_of f h0 k = Some t) ids l -> (forall k, In k ids -> k < length h0) ->
  old h0 h -> (forall t, In t l -> after r t) ->
  exists h' ids', clone_loop fuel pid r ids h acc = ROk (h', acc ++ ids') /\ length h <= length h' /\
    (forall n, n < length h -> hget h' n = hget h n) /\ heldl h0 h' r pid (length h') l (length h) (last_opt acc) ids ids'.
Proof.
  intros h0 f fuel r pid Cl Fu l IH. induction IH as [|t l Ht Hl IH]; intros ids h acc Ids In0 O A.
  - inversion Ids; subst. exists h, []. rewrite app_nil_r. repeat split; auto.
  - inversion Ids as [|k t' ids2 l' Tk Ids2]; subst. cbn [clone_loop].
    destruct (Ht f fuel h k r Tk Fu Cl (In0 k (or_introl eq_refl)) O (A t (or_introl eq_refl))) as (h1 & k' & E & L1 & F1 & H1 & Ix & Pa & Pr).
    rewrite E. cbn [rbind]. set (u := fun c => nset_index _ _). set (h2 := hupd h1 k' u).
    pose proof (held_range _ _ _ _ _ _ _ _ H1) as Rk.
    assert (L2 : length h2 = length h1) by apply hupd_length.
    assert (F2 : forall n, n <> k' -> hget h2 n = hget h1 n) by (intros n N; apply hget_hupd_other; auto).
    assert (K2 : hget h2 k' = u (hget h1 k')) by (apply hget_hupd_same; lia).
    destruct O as [O1 O2].
    destruct (IH ids2 h2 (acc ++ [k']) Ids2) as (h3 & ids3 & E3 & L3 & F3 & H3).
    + intros x X. apply In0. right. exact X.
    + split; [lia|]. intros n N. rewrite F2 by lia. rewrite F1 by lia. apply O2, N.
    + intros x X. apply A. right. exact X.
    + exists h3, (k' :: ids3). fold (clone_loop fuel pid r). rewrite E3, <- app_assoc. split; [reflexivity|]. split; [lia|].
      split; [intros n N; rewrite F3 by lia; rewrite F2 by lia; apply F1, N|].
      exists (length h1). split; [lia|]. rewrite (F3 k') by lia. rewrite K2.
      split.
      * eapply held_frame; [exact H1| | |apply le_n|apply le_n].
        -- intros n N1 N2. rewrite F3 by lia. apply F2, N2.
        -- rewrite (F3 k') by lia. rewrite K2. repeat split.
      * split; [cbn; rewrite F1 by (pose proof (In0 k (or_introl eq_refl)); lia); rewrite O2 by (apply In0; left; reflexivity); reflexivity|].
        split; [reflexivity|]. split; [reflexivity|]. rewrite L2 in H3.
        assert (X : last_opt (acc ++ [k']) = Some k') by (clear; induction acc as [|y [|z l] IH]; [reflexivity|reflexivity|]; cbn [app last_opt] in *; exact IH).
        rewrite X in H3. exact H3.
Qed.

Lemma map_opt_all : forall {A B} (f : A -> option B) l l', map_opt f l = Some l' <-> Forall2 (fun x y => f x = Some y) l l'.
Proof.
  intros A B f l. induction l as [|x l IH]; intro l'; cbn.
  - split; intro H; [injection H as <-; constructor|inversion H; reflexivity].
  - split; intro H.
    + destruct (f x) as [y|] eqn:E; [|discriminate]. destruct (map_opt f l) as [r|] eqn:R; [|discriminate]. injection H as <-.
      constructor; [exact E|]. apply IH. reflexivity.
    + inversion H as [|? y ? r E R]; subst. rewrite E. apply IH in R. rewrite R. reflexivity.
Qed.
Lemma tree_eq : forall f h i t, tree_of (S f) h i = Some t <-> exists et ks,
  t = TNode (n_index (hget h i)) (n_type (hget h i)) (n_begin_at (hget h i)) (n_end_at (hget h i)) et (n_content (hget h i)) ks (n_meta (hget h i)) /\
  match et with None => n_end_tag (hget h i) = None | Some t' => exists e, n_end_tag (hget h i) = Some e /\ tree_of f h e = Some t' end /\
  match ks with None => n_childs (hget h i) = None
  | Some l => exists ids, n_childs (hget h i) = Some ids /\ Forall2 (fun k t' => tree_of f h k = Some t') ids l end.
Proof.
  intros f h i t. cbn [tree_of]. split.
  - intro H. destruct (n_end_tag (hget h i)) as [e0|] eqn:E; [destruct (tree_of f h e0) as [te|] eqn:Te; [|discriminate]|];
    (destruct (n_childs (hget h i)) as [l|] eqn:C; [destruct (map_opt (tree_of f h) l) as [l'|] eqn:Cl; [|discriminate]|]);
    injection H as <-; eexists; eexists; (split; [reflexivity|]); split; eauto; apply map_opt_all in Cl; eauto.
  - intros (et & ks & -> & E & K). destruct et as [te|].
    + destruct E as (e & -> & ->). destruct ks as [l|]; [|rewrite K; reflexivity]. destruct K as (ids & -> & K).
      apply map_opt_all in K. rewrite K. reflexivity.
    + rewrite E. destruct ks as [l|]; [|rewrite K; reflexivity]. destruct K as (ids & -> & K).
      apply map_opt_all in K. rewrite K. reflexivity.
Qed.
Lemma checked_ok : forall a b, b <= a -> checked_sub a b = ROk (a - b).
Proof. intros a b L. unfold checked_sub. apply Nat.leb_le in L. rewrite L. reflexivity. Qed.

Lemma heldl_frame : forall h0 h h' r j hi l lo prev ids ids', heldl h0 h r j hi l lo prev ids ids' ->
  (forall n, lo <= n < hi -> hget h' n = hget h n) -> S j <= lo -> heldl h0 h' r j hi l lo prev ids ids'.
Proof.
  intros h0 h h' r j hi l. induction l as [|t l IH]; intros lo prev [|k s] [|k' s'] C F L; try exact C.
  destruct C as (mid & M & C & Ix & Pa & Pr & G). exists mid. split; [lia|]. pose proof (held_range _ _ _ _ _ _ _ _ C) as Rk.
  rewrite !(F k') by lia. split; [|split; [exact Ix|split; [exact Pa|split; [exact Pr|apply IH; [exact G| |lia]]]]].
  - eapply held_frame; [exact C| | |apply le_n|apply le_n]; [intros n N1 N2; apply F; lia|rewrite (F k') by lia; apply same_strong_refl].
  - intros n N. apply F. lia.
Qed.
Lemma clone_ok : forall h0 t f fuel h i r, tree_of f h0 i = Some t -> f <= fuel -> closed h0 -> i < length h0 -> old h0 h -> after r t ->
  exists h' j, clone_node_with fuel h i r = ROk (h', j) /\ copied h0 r t h h' i j.
Proof.
  intros h0 t. induction t as [i0 ty b e et c ks m Het Hks] using tree_ind'. intros f fuel h i r T Fu Cl Li O A.
  destruct f as [|f]; [discriminate|]. destruct fuel as [|fuel]; [lia|].
  apply tree_eq in T. destruct T as (et' & ks' & E & Te & Tk). injection E as Ei Ety Eb Ee Eet Ec Eks Em. subst et' ks'.
  rewrite clone_eq. cbv zeta. destruct O as [O1 O2]. rewrite (O2 i Li).
  destruct (A _ (sub_refl _)) as [A1 A2]. cbn [t_begin_at t_end_at] in A1, A2. subst b e.
  rewrite !checked_ok by assumption. cbn [rbind].
  (* the end tag *)
  assert (X : exists h1 et1, (match n_end_tag (hget h0 i) with
     | None => ROk (h, None)
     | Some et => do '(h, et') <- clone_node_with fuel h et r; ROk (h, Some et')
     end) = ROk (h1, et1) /\ length h <= length h1 /\ (forall n, n < length h -> hget h1 n = hget h n) /\
     match et with
     | None => n_end_tag (hget h0 i) = None /\ et1 = None
     | Some t' => exists e e', n_end_tag (hget h0 i) = Some e /\ et1 = Some e' /\ held h0 h1 r t' (length h) (length h1) e e' /\ n_index (hget h1 e') = 0
     end).
  { destruct et as [t'|].
    - destruct Te as (e1 & Ee1 & Te). rewrite Ee1. cbn [optP] in Het.
      destruct (Het f fuel h e1 r Te) as (h1 & e' & E & L1 & F1 & H1 & Ix & _); auto; [lia|eapply Cl; [exact Li|apply linked_end; exact Ee1]|split; assumption| |].
      + intros s S. apply A. eapply sub_end; [reflexivity|exact S].
      + rewrite E. cbn [rbind]. exists h1, (Some e'). repeat (split; [auto|]). exists e1, e'. auto.
    - rewrite Te. exists h, None. auto. }
  destruct X as (h1 & et1 & -> & L1 & F1 & Hend). cbn [rbind].
  set (x := mkNode 0 _ _ _ _ _ _ _ _ _ _). set (h2 := h1 ++ [x]).
  assert (L2 : length h2 = S (length h1)) by (unfold h2; rewrite app_length; cbn; lia).
  assert (F2 : forall n, n < length h1 -> hget h2 n = hget h1 n) by (intros n N; apply hget_app_old; exact N).
  assert (X2 : hget h2 (length h1) = x) by apply hget_app_new.
  assert (Q : forall h3 ids', length h2 <= length h3 -> (forall n, n < length h1 -> hget h3 n = hget h1 n) ->
     hget h3 (length h1) = nset_childs ids' x ->
     match ks with
     | None => n_childs (hget h0 i) = None /\ ids' = None
     | Some l => exists ids ids1, n_childs (hget h0 i) = Some ids /\ ids' = Some ids1 /\ heldl h0 h3 r (length h1) (length h3) l (S (length h1)) None ids ids1
     end ->
     copied h0 r (TNode i0 ty (n_begin_at (hget h0 i)) (n_end_at (hget h0 i)) et c ks m) h h3 i (length h1)).
  { intros h3 ids' L3 F3 X3 K3. split; [lia|]. split; [intros n N; rewrite F3 by lia; apply F1, N|].
    rewrite X3. split; [|auto]. rewrite held_eq. split; [lia|]. unfold data. rewrite X3. split; [repeat split|]. split.
    - destruct et as [t'|].
      + destruct Hend as (e1 & e' & B1 & B2 & B3 & B4). exists e1, e'. split; [exact B1|]. split; [exact B2|].
        pose proof (held_range _ _ _ _ _ _ _ _ B3). rewrite (F3 e') by lia. split; [|exact B4].
        eapply held_frame; [exact B3| | |apply le_n|apply le_n]; [intros n N1 N2; apply F3; lia|rewrite (F3 e') by lia; apply same_strong_refl].
      + destruct Hend as [B1 B2]. split; [exact B1|]. exact B2.
    - destruct ks as [l|].
      + destruct K3 as (ids & ids1 & B1 & B2 & B3). exists ids, ids1. auto.
      + exact K3. }
  destruct ks as [l|].
  - destruct Tk as (ids & Ek & Tk). rewrite Ek. cbn [optP] in Hks.
    destruct (loop_ok h0 f fuel r (length h1) Cl ltac:(lia) l Hks ids h2 [] Tk) as (h3 & ids' & E3 & L3 & F3 & H3).
    + intros k I. apply In_nth_error in I. destruct I as [n I]. eapply Cl; [exact Li|eapply linked_child; eauto].
    + split; [lia|]. intros n N. rewrite F2 by lia. rewrite F1 by lia. apply O2, N.
    + intros t I s S. apply A. eapply sub_child; [reflexivity|exact I|exact S].
    + rewrite E3. cbn [rbind app]. eexists. eexists. split; [reflexivity|].
      apply (Q _ (Some ids')).
      * rewrite hupd_length. exact L3.
      * intros n N. rewrite hget_hupd_other by lia. rewrite F3 by lia. apply F2, N.
      * rewrite hget_hupd_same by lia. rewrite F3 by lia. rewrite X2. reflexivity.
      * exists ids, ids'. split; [exact Ek|]. split; [reflexivity|]. rewrite hupd_length. rewrite L2 in H3. cbn [last_opt] in H3.
        eapply heldl_frame; [exact H3| |lia]. intros n N. apply hget_hupd_other. lia.
  - rewrite Tk. eexists. eexists. split; [reflexivity|]. apply (Q _ None); auto.
Qed.

(** ** What held copies look like *)
Lemma heldl_nth : forall h0 h r j hi l lo prev ids ids' n k', heldl h0 h r j hi l lo prev ids ids' -> nth_error ids' n = Some k' ->
  exists t' k lo' hi', In t' l /\ nth_error ids n = Some k /\ held h0 h r t' lo' hi' k k' /\ lo <= lo' /\ hi' <= hi /\
    n_index (hget h k') = n_index (hget h0 k) /\ n_parent (hget h k') = Some j /\
    n_prev (hget h k') = match n with O => prev | S y => nth_error ids' y end.
Proof.
  intros h0 h r j hi l. induction l as [|t l IH]; intros lo prev [|k0 s] [|k' s'] n k C N; try (destruct C; fail).
  - destruct n; discriminate.
  - destruct C as (mid & M & C & Ix & Pa & Pr & G). destruct n as [|n]; cbn [nth_error] in N.
    + injection N as <-. exists t, k0, lo, mid. repeat (split; [solve [auto; lia | left; auto]|]). exact Pr.
    + destruct (IH _ _ _ _ _ _ G N) as (t' & k1 & lo' & hi' & A & B & D & E & F & I & J & K).
      exists t', k1, lo', hi'. split; [right; exact A|]. split; [exact B|]. split; [exact D|]. split; [lia|]. split; [lia|].
      split; [exact I|]. split; [exact J|]. rewrite K. destruct n; reflexivity.
Qed.
Lemma heldl_len : forall h0 h r j hi l lo prev ids ids', heldl h0 h r j hi l lo prev ids ids' -> length ids = length ids' /\ length l = length ids'.
Proof.
  intros h0 h r j hi l. induction l as [|t l IH]; intros lo prev [|k0 s] [|k' s'] C; try (destruct C; fail).
  - auto.
  - destruct C as (mid & _ & _ & _ & _ & _ & G). apply IH in G. cbn. lia.
Qed.
(** The children below [heldl]. *)
Lemma held_childs : forall h0 h r t lo hi i j l', held h0 h r t lo hi i j -> n_childs (hget h j) = Some l' ->
  exists l ids, t_childs t = Some l /\ n_childs (hget h0 i) = Some ids /\ heldl h0 h r j hi l (S j) None ids l'.
Proof.
  intros h0 h r [i0 ty b e et c ks m] lo hi i j l' H E. rewrite held_eq in H. destruct H as (_ & _ & _ & K).
  destruct ks as [l|]; [|destruct K; congruence]. destruct K as (ids & ids' & A & B & C).
  assert (l' = ids') by congruence. subst l'. exists l, ids. auto.
Qed.
Lemma held_step : forall h0 h r t lo hi i j x k, held h0 h r t lo hi i j -> linked h j x k ->
  exists t' lo' hi' i', sub t' t /\ held h0 h r t' lo' hi' i' k /\ lo <= lo' /\ hi' <= hi /\ linked h0 i x i' /\
    match x with LEnd => hi' <= j | LChild _ => j < lo' end.
Proof.
  intros h0 h r t lo hi i j x k H L. inversion L as [p l n k' E N|p e E]; subst.
  - destruct (held_childs _ _ _ _ _ _ _ _ _ H E) as (ks & ids & A & B & C). pose proof (held_range _ _ _ _ _ _ _ _ H) as R.
    destruct (heldl_nth _ _ _ _ _ _ _ _ _ _ _ _ C N) as (t' & k1 & lo' & hi' & A1 & B1 & D & E1 & F & _).
    exists t', lo', hi', k1. split; [eapply sub_child; [exact A|exact A1|apply sub_refl]|]. split; [exact D|]. split; [lia|]. split; [lia|].
    split; [eapply linked_child; eauto|lia].
  - destruct t as [i0 ty b e0 et c ks m]. pose proof (held_range _ _ _ _ _ _ _ _ H) as R.
    rewrite held_eq in H. destruct H as (_ & _ & K & _). destruct et as [t'|]; [|destruct K; congruence].
    destruct K as (e1 & e' & A & B & C & _). assert (k = e') by congruence. subst k.
    exists t', lo, j, e1. split; [eapply sub_end; [reflexivity|apply sub_refl]|]. split; [exact C|]. split; [lia|]. split; [lia|]. split; [apply linked_end, A|lia].
Qed.
Lemma held_path : forall h0 h r t lo hi i j w k, held h0 h r t lo hi i j -> path h j w k ->
  exists t' lo' hi' i', held h0 h r t' lo' hi' i' k /\ lo <= lo' /\ hi' <= hi /\ path h0 i w i'.
Proof.
  intros h0 h r t lo hi i j w k H P. induction P as [|w p x k P IH L].
  - exists t, lo, hi, i. split; [exact H|]. split; [lia|]. split; [lia|constructor].
  - destruct IH as (t' & lo' & hi' & i' & A & B & C & D).
    destruct (held_step _ _ _ _ _ _ _ _ _ _ A L) as (t2 & lo2 & hi2 & i2 & _ & A2 & B2 & C2 & L2 & _).
    exists t2, lo2, hi2, i2. split; [exact A2|]. split; [lia|]. split; [lia|]. eapply path_step; eauto.
Qed.
Lemma held_within : forall h0 h r t lo hi i j w k, held h0 h r t lo hi i j -> path h j w k -> lo <= k < hi.
Proof.
  intros h0 h r t lo hi i j w k H P. destruct (held_path _ _ _ _ _ _ _ _ _ _ H P) as (t' & lo' & hi' & i' & A & B & C & _).
  apply held_range in A. lia.
Qed.
Lemma held_back : forall h0 h r t lo hi i j x i', held h0 h r t lo hi i j -> linked h0 i x i' -> exists k, linked h j x k.
Proof.
  intros h0 h r [i0 ty b e et c ks m] lo hi i j x i' H L. rewrite held_eq in H. destruct H as (_ & _ & E & K).
  inversion L as [p l n k' E1 N|p e1 E1]; subst.
  - destruct ks as [l0|]; [|destruct K; congruence]. destruct K as (ids & ids' & A & B & C). assert (l = ids) by congruence. subst l.
    apply heldl_len in C. destruct (nth_error ids' n) as [k'|] eqn:X.
    + exists k'. eapply linked_child; eauto.
    + apply nth_error_None in X. assert (n < length ids) by (apply nth_error_Some; congruence). lia.
  - destruct et as [t'|]; [|destruct E; congruence]. destruct E as (a & a' & A & B & _). exists a'. apply linked_end, B.
Qed.
Lemma linked_fun : forall h p x a b, linked h p x a -> linked h p x b -> a = b.
Proof. intros h p x a b A B. inversion A; subst; inversion B; subst; congruence. Qed.
Lemma path_fun : forall h a w, forall x y, path h a w x -> path h a w y -> x = y.
Proof.
  intros h a w. induction w as [|z w IH] using rev_ind; intros x y A B.
  - inversion A as [A1 A2|v p q k P L E]; [|destruct v; discriminate]. inversion B as [B1 B2|v' p' q' k' P' L' E']; [|destruct v'; discriminate]. congruence.
  - inversion A as [A1 A2|v p q k P L E]; [destruct w; discriminate|]. inversion B as [B1 B2|v' p' q' k' P' L' E']; [destruct w; discriminate|].
    apply app_inj_tail in E. destruct E as [-> ->]. apply app_inj_tail in E'. destruct E' as [-> ->].
    rewrite (IH _ _ P P') in L. eapply linked_fun; eauto.
Qed.
Lemma held_root : forall h0 h r t lo hi i j w k, held h0 h r t lo hi i j -> path h0 i w k ->
  exists k', path h j w k' /\ n_root (hget h k') = n_root (hget h0 k).
Proof.
  intros h0 h r t lo hi i j w k H P.
  assert (G : exists k' t' lo' hi', path h j w k' /\ held h0 h r t' lo' hi' k k').
  { induction P as [|w p x k P IH L].
    - exists j, t, lo, hi. split; [constructor|exact H].
    - destruct IH as (k' & t' & lo' & hi' & A & B). destruct (held_back _ _ _ _ _ _ _ _ _ _ B L) as [k1 L1].
      destruct (held_step _ _ _ _ _ _ _ _ _ _ B L1) as (t2 & lo2 & hi2 & i2 & _ & A2 & _ & _ & L2 & _).
      exists k1, t2, lo2, hi2. split; [eapply path_step; eauto|]. rewrite (linked_fun _ _ _ _ _ L L2). exact A2. }
  destruct G as (k' & t' & lo' & hi' & A & B). exists k'. split; [exact A|]. destruct t' as [i0 ty b e et c ks m].
  rewrite held_eq in B. destruct B as (_ & D & _). unfold data in D. tauto.
Qed.
(** Front decomposition of paths. *)
Lemma path_front : forall h a w k, path h a w k -> (w = [] /\ k = a) \/ exists x b v, w = x :: v /\ linked h a x b /\ path h b v k.
Proof.
  intros h a w k P. induction P as [|w p x k P IH L]; [left; auto|]. right.
  destruct IH as [[-> ->]|(y & b & v & -> & L1 & P1)].
  - exists x, k, []. split; [reflexivity|]. split; [exact L|constructor].
  - exists y, b, (v ++ [x]). split; [reflexivity|]. split; [exact L1|]. eapply path_step; eauto.
Qed.
Lemma heldl_sep : forall h0 h r j hi l lo prev ids ids' n m a b, heldl h0 h r j hi l lo prev ids ids' ->
  nth_error ids' n = Some a -> nth_error ids' m = Some b -> n < m -> exists x,
  (forall w k, path h a w k -> k < x) /\ (forall w k, path h b w k -> x <= k).
Proof.
  intros h0 h r j hi l. induction l as [|t l IH]; intros lo prev [|k0 s] [|k' s'] n m a b C N M L; try (destruct C; fail).
  - destruct n; discriminate.
  - destruct C as (mid & Mi & C & Ix & Pa & Pr & G). destruct m as [|m]; [lia|]. cbn [nth_error] in M. destruct n as [|n].
    + cbn [nth_error] in N. injection N as <-. exists mid. split.
      * intros w k P. apply (held_within _ _ _ _ _ _ _ _ _ _ C P).
      * intros w k P. destruct (heldl_nth _ _ _ _ _ _ _ _ _ _ _ _ G M) as (t' & k1 & lo' & hi' & _ & _ & D & E & _).
        pose proof (held_within _ _ _ _ _ _ _ _ _ _ D P). lia.
    + cbn [nth_error] in N. eapply (IH _ _ _ _ n m); eauto. lia.
Qed.
Lemma held_unshared : forall h0 h r w w' t lo hi i j k, held h0 h r t lo hi i j -> path h j w k -> path h j w' k -> w = w'.
Proof.
  intros h0 h r w. induction w as [|x w IH]; intros w' t lo hi i j k H P Q.
  - destruct (path_front _ _ _ _ P) as [[_ ->]|(x & b & v & X & _)]; [|discriminate].
    destruct (path_front _ _ _ _ Q) as [[-> _]|(x & b & v & -> & L & P1)]; [reflexivity|].
    destruct (held_step _ _ _ _ _ _ _ _ _ _ H L) as (t2 & lo2 & hi2 & i2 & _ & A2 & B2 & C2 & L2 & D).
    pose proof (held_within _ _ _ _ _ _ _ _ _ _ A2 P1). destruct x; lia.
  - destruct (path_front _ _ _ _ P) as [[X _]|(x1 & b & v & X & L & P1)]; [discriminate|]. injection X as <- <-.
    destruct (held_step _ _ _ _ _ _ _ _ _ _ H L) as (t2 & lo2 & hi2 & i2 & S2 & A2 & B2 & C2 & L2 & D).
    pose proof (held_within _ _ _ _ _ _ _ _ _ _ A2 P1) as W.
    destruct (path_front _ _ _ _ Q) as [[-> ->]|(y & b' & v' & -> & L' & P1')].
    { destruct x; lia. }
    destruct (held_step _ _ _ _ _ _ _ _ _ _ H L') as (t3 & lo3 & hi3 & i3 & S3 & A3 & B3 & C3 & L3 & D3).
    pose proof (held_within _ _ _ _ _ _ _ _ _ _ A3 P1') as W3.
    assert (E : x = y).
    { destruct x as [n|], y as [m|]; try reflexivity; try lia. destruct (Nat.eq_dec n m) as [->|N]; [reflexivity|]. exfalso.
      inversion L as [p l n' k' E1 N1|]; subst. inversion L' as [p l' n' k' E2 N2|]; subst.
      assert (l' = l) by congruence. subst l'.
      destruct (held_childs _ _ _ _ _ _ _ _ _ H E1) as (ks & ids & _ & _ & C).
      destruct (Nat.lt_ge_cases n m) as [Lt|Ge].
      - destruct (heldl_sep _ _ _ _ _ _ _ _ _ _ _ _ _ _ C N1 N2 Lt) as (z & Z1 & Z2). apply Z1 in P1. apply Z2 in P1'. lia.
      - destruct (heldl_sep _ _ _ _ _ _ _ _ _ _ _ _ _ _ C N2 N1 ltac:(lia)) as (z & Z1 & Z2). apply Z1 in P1'. apply Z2 in P1. lia. }
    subst y. f_equal. assert (b' = b) by (eapply linked_fun; eauto). subst b'. eapply IH; eauto.
Qed.
(** The tree of the copy. *)
Lemma moved_eq : forall r i ty b e et c ks m, moved r (TNode i ty b e et c ks m) =
  TNode 0 ty (b - r) (e - r) (option_map (moved r) et) c (option_map (map (fun k => with_index (t_index k) (moved r k))) ks) m.
Proof. reflexivity. Qed.
Lemma held_tree : forall h0 h r t f lo hi i j, tree_of f h0 i = Some t -> held h0 h r t lo hi i j ->
  tree_of f h j = Some (with_index (n_index (hget h j)) (moved r t)).
Proof.
  intros h0 h r t. induction t as [i0 ty b e et c ks m Het Hks] using tree_ind'. intros f lo hi i j T H.
  destruct f as [|f]; [discriminate|]. apply tree_eq in T. destruct T as (et' & ks' & E & Te & Tk). injection E as Ei Ety Eb Ee Eet Ec Eks Em. subst et' ks'.
  rewrite held_eq in H. destruct H as (R & (D1 & D2 & D3 & D4 & D5 & D6) & He & Hk). rewrite moved_eq. cbn [with_index].
  apply tree_eq. eexists. eexists. split; [|split].
  - rewrite D1, D2, D3, D4, D5. subst. reflexivity.
  - destruct et as [t'|]; cbn [option_map].
    + destruct Te as (e1 & E1 & Te). destruct He as (a & a' & A & B & C & Ix). exists a'. split; [exact B|].
      cbn [optP] in Het. assert (a = e1) by congruence. subst a. rewrite (Het _ _ _ _ _ Te C), Ix. destruct t'; reflexivity.
    + apply He.
  - destruct ks as [l|]; cbn [option_map]; [|apply Hk]. destruct Tk as (ids & E1 & Tk). destruct Hk as (ids1 & ids' & A & B & C).
    assert (ids1 = ids) by congruence. subst ids1. exists ids'. split; [exact B|]. cbn [optP] in Hks.
    clear - Hks Tk C. revert C. generalize (S j) (@None nid). revert ids ids' Tk.
    induction Hks as [|t l Ht Hl IH]; intros ids ids' Tk lo prev C.
    + inversion Tk; subst. destruct ids'; [constructor|destruct C].
    + inversion Tk as [|k t' ids2 l' T1 T2]; subst. destruct ids' as [|k' s']; [destruct C|].
      destruct C as (mid & M & C & Ix & Pa & Pr & G). cbn [map]. constructor.
      * rewrite (Ht _ _ _ _ _ T1 C), Ix. destruct f; [discriminate|]. apply tree_eq in T1. destruct T1 as (? & ? & -> & _). reflexivity.
      * eapply IH; eauto.
Qed.

(** ** Parsed documents *)
Lemma tree_fuel : forall f h i t, tree_of f h i = Some t -> forall f', f <= f' -> tree_of f' h i = Some t.
Proof.
  intros f. induction f as [|f IH]; intros h i t T f' L; [discriminate|]. destruct f' as [|f']; [lia|].
  apply tree_eq in T. destruct T as (et & ks & -> & E & K). apply tree_eq. exists et, ks. split; [reflexivity|]. split.
  - destruct et as [t'|]; [|exact E]. destruct E as (e & A & B). exists e. split; [exact A|]. eapply IH; [exact B|lia].
  - destruct ks as [l|]; [|exact K]. destruct K as (ids & A & B). exists ids. split; [exact A|].
    clear A. induction B as [|k t' ids l X B IHB]; constructor; [eapply IH; [exact X|lia]|exact IHB].
Qed.
Lemma path_begin : forall opts s d i w k, parse opts s = Parsed d -> path (d_heap d) i w k ->
  n_begin_at (hget (d_heap d) i) <= n_begin_at (hget (d_heap d) k).
Proof.
  intros opts s d i w k P X. destruct (positions _ _ _ P) as (_ & B & _). induction X as [|w p x k X IH L]; [lia|].
  apply B in L. lia.
Qed.
Lemma path_in : forall opts s d i w k, parse opts s = Parsed d -> i < length (d_heap d) -> path (d_heap d) i w k -> k < length (d_heap d).
Proof.
  intros opts s d i w k P I X. destruct (parsed_hs _ _ _ P) as [H _]. destruct X as [|w p x k X L]; [exact I|]. eapply linked_up; eauto.
Qed.
Lemma clone_copies : forall opts s d i, parse opts s = Parsed d -> i < length (d_heap d) ->
  exists h' j, clone_node (d_heap d) i = ROk (h', j) /\ deep_copy (d_heap d) i h' j.
Proof.
  intros opts s d i P I. destruct (parsed_hs _ _ _ P) as [H _]. destruct (positions _ _ _ P) as (Bd & _).
  destruct (tree_of (length (d_heap d)) (d_heap d) i) as [t|] eqn:T; [|exfalso; revert T; eapply tree_exists; eauto; lia].
  set (h := d_heap d) in *.
  assert (Bt : t_begin_at t = n_begin_at (hget h i)).
  { pose proof T as T2. destruct (length h); [discriminate|]. apply tree_eq in T2. destruct T2 as (et & ks & -> & _). reflexivity. }
  destruct (clone_ok h t (length h) (S (length h)) h i (n_begin_at (hget h i))) as (h' & j & E & L & F & Hd & Ix & Pa & Pr); auto.
  - intros p x k _ X. eapply linked_up; eauto.
  - split; auto.
  - intros s0 S. destruct (sub_node _ _ _ _ _ _ T (ex_intro _ [] (path_here _ _)) S) as (f' & k & Tk & [w D]).
    pose proof (path_begin _ _ _ _ _ _ P D). pose proof (path_in _ _ _ _ _ _ P I D) as K. apply Bd in K. fold h in K.
    destruct f' as [|f']; [discriminate|]. apply tree_eq in Tk. destruct Tk as (et & ks & -> & _). cbn. unfold h in *. lia.
  - exists h', j. split; [exact E|]. split.
    + auto.
    + intros t' T'. assert (t' = t) by congruence. subst t'. rewrite Bt.
      pose proof (held_tree _ _ _ _ _ _ _ _ _ T Hd) as X. rewrite Ix in X. eapply tree_fuel; [|exact L]. rewrite X. destruct t; reflexivity.
    + intros w k X. eapply held_within; eauto.
    + intros w w' k X Y. eapply held_unshared; eauto.
    + intros w k X. eapply held_root; eauto.
    + auto.
    + intros p l x k [w D] K N. destruct (held_path _ _ _ _ _ _ _ _ _ _ Hd D) as (t' & lo' & hi' & i' & A & _).
      destruct (held_childs _ _ _ _ _ _ _ _ _ A K) as (ks & ids & _ & B & C).
      destruct (heldl_nth _ _ _ _ _ _ _ _ _ _ _ _ C N) as (t2 & k2 & _ & _ & _ & B2 & _ & _ & _ & X1 & X2 & X3).
      split; [exact X2|]. split; [|exact X3]. rewrite X1. eapply (hs_index _ _ H). apply linked_kids. eapply linked_child; eauto.
Qed.

(** ** Rendering *)
Lemma moved_fields : forall r i t, let t' := with_index i (moved r t) in
  t_type t' = t_type t /\ t_content t' = t_content t /\ t_meta t' = t_meta t.
Proof. intros r i [? ? ? ? ? ? ? ?]. cbn. auto. Qed.
Lemma build_node_fields : forall env o t t' s, t_type t' = t_type t -> t_content t' = t_content t -> t_meta t' = t_meta t ->
  build_node env o t' s = build_node env o t s.
Proof. intros env o t t' s A B C. unfold build_node. rewrite A, B, C. reflexivity. Qed.
Lemma build_tree_moved : forall env o r t i s, build_tree env o (with_index i (moved r t)) s = build_tree env o t s.
Proof.
  intros env o r t. induction t as [i0 ty b e et c ks m Het Hks] using tree_ind'. intros i s. rewrite moved_eq. cbn [with_index].
  rewrite !build_tree_eq. cbv zeta. rewrite (build_node_fields env o (TNode i0 ty b e et c ks m) (TNode i ty _ _ _ c _ m)) by reflexivity.
  destruct (build_node env o (TNode i0 ty b e et c ks m) s) as [[s1 o1]| |]; cbn [rbind]; try reflexivity.
  assert (K : forall l s, Forall (fun t => forall i s, build_tree env o (with_index i (moved r t)) s = build_tree env o t s) l ->
     build_list env o (map (fun k => with_index (t_index k) (moved r k)) l) s = build_list env o l s).
  { clear. intros l s F. revert s. induction F as [|t l Ht Hl IH]; intro s; [reflexivity|]. cbn [map build_list]. rewrite Ht.
    destruct (build_tree env o t s) as [[s1 o1]| |]; cbn [rbind]; try reflexivity. rewrite IH. reflexivity. }
  assert (E : forall s, match option_map (moved r) et with None => ROk (s, []) | Some x => build_node env o x s end =
     match et with None => ROk (s, []) | Some x => build_node env o x s end).
  { intro s0. destruct et as [x|]; cbn [option_map]; [|reflexivity]. apply build_node_fields; destruct x; reflexivity. }
  destruct ks as [l|]; cbn [option_map optP] in *.
  - rewrite !(K l) by exact Hks. destruct (rs_root s1).
    + destruct (build_list env o l (rs_set_root false s1)) as [[s2 o2]| |]; cbn [rbind]; try reflexivity. rewrite E. reflexivity.
    + destruct (build_list env o l s1) as [[s2 o2]| |]; cbn [rbind]; try reflexivity. rewrite E. reflexivity.
  - cbn [rbind]. rewrite E. reflexivity.
Qed.
Lemma with_index_same : forall r t, moved r t = with_index 0 (moved r t).
Proof. intros r [? ? ? ? ? ? ? ?]. reflexivity. Qed.
Lemma build_moved : forall env o r t inner, build env o (moved r t) inner = build env o t inner.
Proof.
  intros env o r t inner. rewrite with_index_same. unfold build.
  assert (A : t_type (with_index 0 (moved r t)) = t_type t) by apply moved_fields. rewrite A.
  assert (B : t_childs (with_index 0 (moved r t)) = option_map (map (fun k => with_index (t_index k) (moved r k))) (t_childs t)) by (destruct t; reflexivity).
  rewrite B. rewrite !build_tree_moved.
  assert (Fi : forall l, filter is_tag (map (fun k => with_index (t_index k) (moved r k)) l) = map (fun k => with_index (t_index k) (moved r k)) (filter is_tag l)).
  { intro l. induction l as [|k l IH]; [reflexivity|]. cbn [map filter].
    assert (X : is_tag (with_index (t_index k) (moved r k)) = is_tag k) by (destruct k; reflexivity). rewrite X. destruct (is_tag k); cbn [map]; rewrite IH; reflexivity. }
  destruct (inner && inner_html o)%bool; [reflexivity|].
  destruct (if inner then IText else _); try reflexivity; destruct (t_type t); try reflexivity; destruct (t_childs t) as [l|]; try reflexivity; cbn [option_map];
  rewrite Fi; destruct (filter is_tag l) as [|k [|k2 l2]]; cbn [map]; try reflexivity; rewrite build_tree_moved; reflexivity.
Qed.
Lemma clone_renders : forall opts s d i h' j t env o inner, parse opts s = Parsed d -> i < length (d_heap d) ->
  clone_node (d_heap d) i = ROk (h', j) -> tree_of (length (d_heap d)) (d_heap d) i = Some t ->
  exists t', tree_of (length h') h' j = Some t' /\ build env o t' inner = build env o t inner.
Proof.
  intros opts s d i h' j t env o inner P I C T. destruct (clone_copies _ _ _ _ P I) as (h2 & j2 & C2 & D). rewrite C in C2. injection C2 as <- <-.
  exists (moved (t_begin_at t) t). split; [apply (dc_tree _ _ _ _ D _ T)|apply build_moved].
Qed.
