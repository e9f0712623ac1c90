(** The parser state between tokens holds exactly the content of the tokens read. *)
From Coq Require Import String Sorting.Permutation.
From Verif Require Import Api SpecText SpecParse SpecMisc SpecTree NameProofs MiscProofs SpecDoc HeapLemmas
  InvCtl Big BigSteps RawText Struct Frame CloseInv Shape Real.
Local Open Scope string_scope.
Local Open Scope list_scope.

(** ** Heap changes of tokens *)
Lemma ev_refl : forall h, ev None None None None h h.
Proof. intro h. constructor; auto. Qed.
Lemma ev_app : forall ck pt pk pe h h' n, ev ck pt pk pe h h' -> ev ck pt pk pe h (h' ++ [n]).
Proof.
  intros ck pt pk pe h h' n [A B C D E F]. constructor; [rewrite app_length; lia|..]; intros i Hi;
    unfold ty; rewrite hget_app_old by lia; auto.
  apply B. exact Hi.
Qed.
Lemma ev_new : forall ck pt pk pe h h' j f, ev ck pt pk pe h h' -> length h <= j -> ev ck pt pk pe h (hupd h' j f).
Proof.
  intros ck pt pk pe h h' j f [A B C D E F] L. constructor; [rewrite hupd_length; lia|..]; intros i Hi;
    unfold ty; rewrite hget_hupd_other by lia; auto.
  apply B. exact Hi.
Qed.
Lemma ev_flip : forall ck pt pk pe h h', ev None pt pk pe h h' -> ev ck pt pk pe h (flip ck h').
Proof.
  intros [k|] pt pk pe h h' [A B C D E F]; [|constructor; assumption].
  cbn [flip]. constructor; [rewrite hupd_length; lia|..]; intros i Hi.
  - unfold ty in *. destruct (Nat.eqb_spec k i) as [->|N].
    + rewrite hget_hupd_same by lia. reflexivity.
    + rewrite hget_hupd_other by exact N. apply B. exact Hi.
  - rewrite (hupd_keep n_meta) by reflexivity. auto.
  - rewrite (hupd_keep n_content) by reflexivity. auto.
  - rewrite (hupd_keep n_childs) by reflexivity. auto.
  - rewrite (hupd_keep n_end_tag) by reflexivity. auto.
Qed.
Lemma ev_child : forall h p n, ev None None (Some p) None h (add_child h p n).
Proof.
  intros h p n. unfold add_child. constructor; [rewrite hupd_length, app_length; lia|..]; intros i Hi.
  - unfold ty. rewrite (hupd_keep n_type) by reflexivity. rewrite hget_app_old by exact Hi. reflexivity.
  - rewrite (hupd_keep n_meta) by reflexivity. rewrite hget_app_old by exact Hi. reflexivity.
  - intros _. rewrite (hupd_keep n_content) by reflexivity. rewrite hget_app_old by exact Hi. reflexivity.
  - intros N. rewrite hget_hupd_other by (intro X; apply N; f_equal; exact X). rewrite hget_app_old by exact Hi. reflexivity.
  - intros _. rewrite (hupd_keep n_end_tag) by reflexivity. rewrite hget_app_old by exact Hi. reflexivity.
Qed.
Lemma ev_opened : forall u p t, ev (d_check_textnode u) None (Some p) None (d_heap u) (opened u p t).
Proof. intros. unfold opened. apply ev_flip, ev_child. Qed.
Lemma ev_closed : forall u tag nm pos,
  ev (if only_text (d_heap u) tag then None else d_check_textnode u) None None (Some tag) (d_heap u) (closed_heap u tag nm pos).
Proof.
  intros u tag nm pos. unfold closed_heap. cbv zeta. apply ev_new; [|apply le_n]. apply ev_new; [|apply le_n].
  fold (only_text (d_heap u) tag).
  match goal with |- context [hupd ?h tag ?f] => assert (E : ev None None None (Some tag) (d_heap u) (hupd h tag f)) end.
  { constructor; [rewrite hupd_length, app_length; lia|..]; intros i Hi.
    - unfold ty. rewrite (hupd_keep n_type) by reflexivity. rewrite hget_app_old by exact Hi. reflexivity.
    - rewrite (hupd_keep n_meta) by reflexivity. rewrite hget_app_old by exact Hi. reflexivity.
    - intros _. rewrite (hupd_keep n_content) by reflexivity. rewrite hget_app_old by exact Hi. reflexivity.
    - intros _. rewrite (hupd_keep n_childs) by reflexivity. rewrite hget_app_old by exact Hi. reflexivity.
    - intros N. rewrite hget_hupd_other by (intro X; apply N; f_equal; exact X). rewrite hget_app_old by exact Hi. reflexivity. }
  destruct (only_text (d_heap u) tag); [exact E|]. apply ev_flip. exact E.
Qed.

(** ** Flags *)
Definition fids (l : list yitem) : list nid := flat_map ids l.
Definition settled (h : list node) (b : bool) (l : list yitem) : Prop :=
  map (erase (sp h)) l = mark_list b (map shape l).
Lemma settled_ext : forall h h' b l, (forall i, In i (fids l) -> sp h' i = sp h i) -> settled h b l -> settled h' b l.
Proof. intros h h' b l E S. unfold settled in *. rewrite <- S. apply erase_list_ext. exact E. Qed.
Lemma ev_sp : forall ck pt pk pe h h' i, ev ck pt pk pe h h' -> i < length h -> sp h' i = sp (flip ck h) i.
Proof.
  intros ck pt pk pe h h' i E L. unfold sp. f_equal. rewrite (ev_ty _ _ _ _ _ _ E i L).
  destruct ck as [k|]; [|reflexivity]. unfold flip, ty. destruct (Nat.eqb_spec k i) as [->|N].
  - rewrite hget_hupd_same by exact L. reflexivity.
  - rewrite hget_hupd_other by exact N. reflexivity.
Qed.
Lemma flip_sp : forall ck h i, ck <> Some i -> sp (flip ck h) i = sp h i.
Proof.
  intros [k|] h i N; [|reflexivity]. unfold sp, flip, ty. rewrite hget_hupd_other by congruence. reflexivity.
Qed.
Lemma flip_sp_same : forall i h, i < length h -> sp (flip (Some i) h) i = true.
Proof. intros i h L. unfold sp, flip, ty. rewrite hget_hupd_same by exact L. reflexivity. Qed.

Definition allids (F : list frame) : list nid := flat_map (fun f => fids (f_items f)) F.
Definition sh (F : list frame) : list pframe := map (fun f => (f_tag f, map shape (f_items f))) F.

(** ** Between tokens *)
Record simB (st : doc) (f : frame) (frs : list frame) : Prop := mkSimB {
  b_nodup : NoDup (allids (f :: frs));
  b_outer : Forall (fun f => settled (d_heap st) true (f_items f)) frs
}.
Record simW (st : doc) (f : frame) (frs : list frame) : Prop := mkSimW {
  w_base : simB st f frs;
  w_opens : opens (d_heap st) (d_chain_nodes st) [] (f :: frs);
  w_now : settled (d_heap st) false (f_items f);
  w_next : settled (flip (d_check_textnode st) (d_heap st)) true (f_items f);
  w_ck : forall i, d_check_textnode st = Some i -> In i (fids (f_items f));
  w_last : forall l i c, f_items f <> l ++ [YText i c]
}.
Record simU (st : doc) (f : frame) (frs : list frame) : Prop := mkSimU {
  u_base : simB st f frs;
  u_opens : opens (d_heap st) (d_chain_nodes st) [] (f :: frs);
  u_last : forall l i c, f_items f = l ++ [YText i c] -> sp (d_heap st) i = false;
  u_next : settled (flip (d_check_textnode st) (d_heap st)) true (f_items f);
  u_ck : forall i, d_check_textnode st = Some i -> In i (fids (f_items f))
}.
(** In a text. *)
Record simT (st : doc) (f : frame) (frs : list frame) : Prop := mkSimT {
  t_base : simB st f frs;
  t_opens : opens (d_heap st) (d_chain_nodes st) [d_current_node st] (f :: frs);
  t_now : settled (d_heap st) false (f_items f);
  t_cur : d_current_node st < length (d_heap st) /\ n_type (hget (d_heap st) (d_current_node st)) = NText /\
          n_content (hget (d_heap st) (d_current_node st)) = None /\ bare_node (hget (d_heap st) (d_current_node st));
  t_blank : d_repeat_whitespace st = blank_text (d_prev_chars st)
}.

Lemma opens_ids : forall h ch ex F i, opens h ch ex F -> In i (allids F) ->
  i < length h /\ textkind (ty h i) /\ n_content (hget h i) <> None.
Proof.
  assert (G : forall h l ys i, Forall2 (real h) l ys -> In i (fids ys) ->
    i < length h /\ textkind (ty h i) /\ n_content (hget h i) <> None).
  { intros h l ys i F. induction F as [|x y l ys R F IH]; intro Hi; [contradiction|]. cbn in Hi. apply in_app_or in Hi.
    destruct Hi as [Hi|Hi]; [eapply real_ids; eauto|auto]. }
  intros h ch ex F i O. induction O; intro Hi; cbn in Hi.
  - rewrite app_nil_r in Hi. eapply G; eauto.
  - apply in_app_or in Hi. destruct Hi as [Hi|Hi]; [eapply G; eauto|auto].
Qed.
Lemma allids_cons : forall f frs i, In i (allids (f :: frs)) <-> In i (fids (f_items f)) \/ In i (allids frs).
Proof. intros. cbn. rewrite in_app_iff. tauto. Qed.
Lemma nodup_split : forall f frs i, NoDup (allids (f :: frs)) -> In i (fids (f_items f)) -> ~ In i (allids frs).
Proof.
  intros f frs i N A B. change (NoDup (fids (f_items f) ++ allids frs)) in N. revert N A B. generalize (fids (f_items f)) as a. generalize (allids frs) as b.
  intros b a. induction a as [|x a IH]; intros N A B; [contradiction|]. cbn in N. inversion N; subst.
  destruct A as [->|A]; [apply H1, in_or_app; right; exact B|auto].
Qed.
Lemma outer_ext : forall h h' frs, (forall i, In i (allids frs) -> sp h' i = sp h i) ->
  Forall (fun f => settled h true (f_items f)) frs -> Forall (fun f => settled h' true (f_items f)) frs.
Proof.
  intros h h' frs E S. induction S as [|f frs H S IH]; constructor.
  - eapply settled_ext; [|exact H]. intros i Hi. apply E. cbn. apply in_or_app. left. exact Hi.
  - apply IH. intros i Hi. apply E. cbn. apply in_or_app. right. exact Hi.
Qed.

(** Outer frames stay settled, whatever is checked in the innermost one. *)
Lemma outer_ev : forall ck pt pk pe h h' ch ex f frs, ev ck pt pk pe h h' -> opens h ch ex (f :: frs) ->
  NoDup (allids (f :: frs)) -> (forall i, ck = Some i -> In i (fids (f_items f))) ->
  Forall (fun f => settled h true (f_items f)) frs -> Forall (fun f => settled h' true (f_items f)) frs.
Proof.
  intros ck pt pk pe h h' ch ex f frs E O N C S. eapply outer_ext; [|exact S]. intros i Hi.
  destruct (opens_ids _ _ _ _ i O) as [L _]; [apply allids_cons; right; exact Hi|].
  rewrite (ev_sp _ _ _ _ _ _ _ E L). apply flip_sp. intro X. apply (nodup_split _ _ i N (C i X) Hi).
Qed.
Lemma inner_ev : forall ck pt pk pe h h' ch ex f frs b, ev ck pt pk pe h h' -> opens h ch ex (f :: frs) ->
  settled (flip ck h) b (f_items f) -> settled h' b (f_items f).
Proof.
  intros ck pt pk pe h h' ch ex f frs b E O S. eapply settled_ext; [|exact S]. intros i Hi.
  destruct (opens_ids _ _ _ _ i O) as [L _]; [apply allids_cons; left; exact Hi|]. apply (ev_sp _ _ _ _ _ _ _ E L).
Qed.

Lemma chain_nodup : forall opts u p rest, sok opts u -> d_chain_nodes u = p :: rest -> ~ In p rest.
Proof.
  intros opts u p rest S E. pose proof (s_chain _ _ S) as C. rewrite E in C. cbn in C. destruct C as [_ [_ C]].
  intro X. pose proof (chain_ok_in _ _ _ p C X). lia.
Qed.
Lemma opens_tail : forall h i j ch ex f frs, opens h (i :: j :: ch) ex (f :: frs) -> opens h (j :: ch) [i] frs.
Proof. intros h i j ch ex f frs O. inversion O; subst. assumption. Qed.
Lemma opens_nonempty : forall h i ex f frs, opens h [i] ex (f :: frs) -> frs = [] /\ f_tag f = None.
Proof. intros h i ex f frs O. inversion O; subst. auto. Qed.

(** A new last child of the innermost open node. *)
Lemma opens_child : forall opts u h' p rest ck f frs ex k,
  sok opts u -> d_chain_nodes u = p :: rest -> opens (d_heap u) (p :: rest) [] (f :: frs) ->
  ev ck None (Some p) None (d_heap u) h' -> ck_text ck (d_heap u) ->
  kids h' p = kids (d_heap u) p ++ [k] ->
  forall ys, (match ys with [] => ex = [k] | [y] => ex = [] /\ real h' k y | _ => False end) ->
  opens h' (p :: rest) ex (mkFr (f_tag f) (f_items f ++ ys) :: frs).
Proof.
  intros opts u h' p rest ck f frs ex k S Ec O E C K ys Y.
  assert (U : untouched None (Some p) None (d_heap u)).
  { intros i Fi. repeat split; try discriminate. intros [= <-].
    destruct (opens_open _ _ _ _ p O (or_introl eq_refl)) as [tg N]. apply (open_not_fin _ _ _ N Fi). }
  assert (Ks : forall l, kids (d_heap u) p = l ++ [] -> Forall2 (real (d_heap u)) l (f_items f) ->
    exists l', kids h' p = l' ++ ex /\ Forall2 (real h') l' (f_items f ++ ys)).
  { intros l El R. rewrite app_nil_r in El. rewrite El in K. pose proof (reals_ev _ _ _ _ _ _ E C U _ _ R) as R'.
    destruct ys as [|y [|? ?]]; [| |contradiction].
    - subst ex. exists l. rewrite app_nil_r. auto.
    - destruct Y as [-> Y]. exists (l ++ [k]). rewrite app_nil_r. split; [exact K|]. apply Forall2_app; auto. }
  pose proof (chain_nodup _ _ _ _ S Ec) as Nd.
  inversion O; subst; cbn [f_tag f_items] in *.
  - destruct (Ks l) as [l' [A B]]; auto.
    eapply op_root; eauto. eapply open_node_ev; eauto; discriminate.
  - destruct (Ks l) as [l' [A B]]; auto.
    eapply op_tag; eauto; [eapply open_node_ev; eauto; discriminate|].
    eapply opens_ev_outer; eauto. intros i Hi. repeat split; try discriminate. congruence.
Qed.

Lemma sok_ck : forall opts u, sok opts u -> ck_text (d_check_textnode u) (d_heap u).
Proof. intros opts u S i E. apply (s_check _ _ S i E). Qed.

Definition inert (y : yitem) : Prop :=
  ids y = [] /\ is_text (shape y) = false /\ forall o f g, mark o f (shape y) = erase g y.

(** A token that adds one complete child that is not a text. *)
Lemma sim_item : forall opts u f frs st' h' p rest y,
  sok opts u -> simU u f frs -> d_chain_nodes u = p :: rest ->
  d_chain_nodes st' = d_chain_nodes u -> d_heap st' = h' -> d_check_textnode st' = None ->
  ev (d_check_textnode u) None (Some p) None (d_heap u) h' ->
  kids h' p = kids (d_heap u) p ++ [length (d_heap u)] -> real h' (length (d_heap u)) y -> inert y ->
  simW st' (mkFr (f_tag f) (f_items f ++ [y])) frs.
Proof.
  intros opts u f frs st' h' p rest y S U Ec Ec' Eh Ek E K R [I1 [I2 I3]].
  destruct U as [[B1 B2] O L N C]. rewrite Ec in O.
  pose proof (sok_ck _ _ S) as Ct.
  assert (Ids : fids (f_items f ++ [y]) = fids (f_items f)).
  { unfold fids. rewrite flat_map_app. cbn. rewrite I1, !app_nil_r. reflexivity. }
  assert (Set_ : forall b, settled h' b (f_items f ++ [y])).
  { intro b. unfold settled. rewrite !map_app. cbn [map]. rewrite mark_list_snoc, I2. cbn [negb]. f_equal.
    - pose proof (inner_ev _ _ _ _ _ _ _ _ _ _ true E O N) as X. exact X.
    - rewrite (I3 false b (sp h')). reflexivity. }
  constructor.
  - constructor.
    + unfold allids in *. cbn [flat_map f_items] in *. rewrite Ids. exact B1.
    + rewrite Eh. eapply outer_ev; eauto.
  - rewrite Ec', Eh, Ec. eapply opens_child; eauto. 
  - rewrite Eh. apply Set_.
  - rewrite Eh, Ek. apply Set_.
  - rewrite Ek. discriminate.
  - intros l i c X. apply app_inj_tail in X. destruct X as [_ ->]. discriminate.
Qed.

Lemma fr_eta : forall f, mkFr (f_tag f) (f_items f ++ []) = f.
Proof. intros [t l]. rewrite app_nil_r. reflexivity. Qed.

Lemma sim_open : forall opts u f frs st' h' p rest n l,
  sok opts u -> simU u f frs -> d_chain_nodes u = p :: rest ->
  d_chain_nodes st' = length (d_heap u) :: d_chain_nodes u -> d_heap st' = h' -> d_check_textnode st' = None ->
  ev (d_check_textnode u) None (Some p) None (d_heap u) h' ->
  kids h' p = kids (d_heap u) p ++ [length (d_heap u)] -> open_node h' (length (d_heap u)) (Some (n, l)) ->
  kids h' (length (d_heap u)) = [] ->
  simW st' (mkFr (Some (n, l)) []) (f :: frs).
Proof.
  intros opts u f frs st' h' p rest n l S U Ec Ec' Eh Ek E K R K0.
  destruct U as [[B1 B2] O L N C]. rewrite Ec in O. pose proof (sok_ck _ _ S) as Ct.
  constructor; cbn [f_items].
  - constructor; [exact B1|]. rewrite Eh. constructor; [eapply inner_ev; eauto|eapply outer_ev; eauto].
  - rewrite Ec', Eh, Ec. eapply op_tag with (l := []); [discriminate|exact R|exact K0|constructor|].
    rewrite <- (fr_eta f). eapply opens_child; eauto.
  - reflexivity.
  - reflexivity.
  - rewrite Ek. discriminate.
  - intros [|x l0] i c X; discriminate.
Qed.

Lemma sim_wait_lt : forall st st' f frs, simW st f frs -> d_heap st' = d_heap st -> d_chain_nodes st' = d_chain_nodes st ->
  d_check_textnode st' = d_check_textnode st -> simU st' f frs.
Proof.
  intros st st' f frs [[B1 B2] O A N C L] E1 E2 E3. constructor.
  - constructor; [exact B1|]. rewrite E1. exact B2.
  - rewrite E1, E2. exact O.
  - intros l i c X. exfalso. apply (L l i c X).
  - rewrite E1, E3. exact N.
  - rewrite E3. exact C.
Qed.

Lemma kids_add_child : forall h p n, p < length h -> kids (add_child h p n) p = kids h p ++ [length h].
Proof.
  intros h p n L. unfold kids at 1. rewrite hget_add_child. destruct (Nat.eqb_spec p (length h)); [lia|].
  rewrite Nat.eqb_refl. destruct (Nat.ltb_spec p (length h)); [|lia]. reflexivity.
Qed.
Lemma kids_opened_p : forall u p t, p < length (d_heap u) -> kids (opened u p t) p = kids (d_heap u) p ++ [length (d_heap u)].
Proof.
  intros u p t L. unfold opened. rewrite <- (kids_add_child (d_heap u) p (node_new t (d_mem_position u)) L).
  unfold kids, flip. destruct (d_check_textnode u); [|reflexivity]. rewrite (hupd_keep n_childs) by reflexivity. reflexivity.
Qed.

Lemma sim_text_start : forall opts st f frs st' p rest pos c,
  sok opts st -> simW st f frs -> d_chain_nodes st = p :: rest ->
  d_heap st' = add_child (d_heap st) p (node_new NText pos) -> d_chain_nodes st' = d_chain_nodes st ->
  d_current_node st' = length (d_heap st) -> d_prev_chars st' = [c] -> d_repeat_whitespace st' = is_ascii_whitespace c ->
  simT st' f frs.
Proof.
  intros opts st f frs st' p rest pos c S [[B1 B2] O A N C L] Ec E1 E2 E3 E4 E5.
  pose proof (ev_child (d_heap st) p (node_new NText pos)) as E. pose proof (chain_hd _ _ _ _ S Ec) as Lp.
  rewrite Ec in O. assert (Ct : ck_text None (d_heap st)) by (intros i X; discriminate).
  constructor.
  - constructor; [exact B1|]. rewrite E1. eapply outer_ev; eauto. discriminate.
  - rewrite E1, E2, E3, Ec. rewrite <- (fr_eta f). eapply opens_child; eauto. apply kids_add_child. exact Lp.
  - rewrite E1. eapply inner_ev; eauto.
  - rewrite E1, E3. split; [rewrite add_child_length; lia|]. rewrite hget_child_new by exact Lp. repeat split.
  - rewrite E4, E5. unfold blank_text. cbn. rewrite Bool.andb_true_r. reflexivity.
Qed.
Lemma sim_text_char : forall st f frs st' c,
  simT st f frs -> d_heap st' = d_heap st -> d_chain_nodes st' = d_chain_nodes st ->
  d_current_node st' = d_current_node st -> d_prev_chars st' = d_prev_chars st ++ [c] ->
  d_repeat_whitespace st' = (d_repeat_whitespace st && is_ascii_whitespace c)%bool -> simT st' f frs.
Proof.
  intros st f frs st' c [[B1 B2] O A Cu Bl] E1 E2 E3 E4 E5. constructor; rewrite ?E1, ?E2, ?E3; auto.
  - constructor; [exact B1|]. rewrite E1. exact B2.
  - rewrite E4, E5, Bl. unfold blank_text. rewrite forallb_app. cbn. rewrite Bool.andb_true_r. reflexivity.
Qed.

(** The extra child becomes the last item. *)
Lemma opens_item : forall h ch k f frs y, opens h ch [k] (f :: frs) -> real h k y ->
  opens h ch [] (mkFr (f_tag f) (f_items f ++ [y]) :: frs).
Proof.
  intros h ch k f frs y O R. inversion O; subst; cbn [f_tag f_items].
  - eapply op_root with (l := l ++ [k]); eauto; [rewrite app_nil_r; assumption|]. apply Forall2_app; auto.
  - eapply op_tag with (l := l ++ [k]); eauto; [rewrite app_nil_r; assumption|]. apply Forall2_app; auto.
Qed.
Lemma chain_not_text : forall h ch ex F i, opens h ch ex F -> In i ch -> ~ textkind (n_type (hget h i)).
Proof.
  intros h ch ex F i O Hi. destruct (opens_open _ _ _ _ i O Hi) as [tg [_ [_ [_ T]]]].
  destruct tg as [[n l]|]; [destruct T as [-> _]|destruct T as [_ [-> _]]]; apply nt; discriminate.
Qed.

Lemma sim_text_done : forall st f frs h' st', simT st f frs ->
  ev None (Some (d_current_node st)) None None (d_heap st) h' ->
  n_content (hget h' (d_current_node st)) = Some (d_prev_chars st) ->
  bare_node (hget h' (d_current_node st)) ->
  d_heap st' = h' -> d_chain_nodes st' = d_chain_nodes st ->
  d_check_textnode st' = (if d_repeat_whitespace st then Some (d_current_node st) else None) ->
  simU st' (mkFr (f_tag f) (f_items f ++ [YText (d_current_node st) (d_prev_chars st)])) frs.
Proof.
  intros st f frs h' st' [[B1 B2] O A [Cu1 [Cu2 [Cu3 Cu4]]] Bl] E Hc Hb E1 E2 E3.
  set (k := d_current_node st) in *. set (c := d_prev_chars st) in *.
  assert (Ct : ck_text None (d_heap st)) by (intros i X; discriminate).
  assert (Nk : ~ In k (allids (f :: frs))).
  { intro X. destruct (opens_ids _ _ _ _ k O X) as [_ [_ Y]]. congruence. }
  assert (U : untouched (Some k) None None (d_heap st)).
  { intros i [_ Fi]. repeat split; try discriminate. intros [= <-]. rewrite Cu2 in Fi. congruence. }
  assert (Tk : n_type (hget h' k) = NText) by (pose proof (ev_ty _ _ _ _ _ _ E k Cu1) as X; unfold ty in X; congruence).
  assert (Lk : k < length h') by (pose proof (ev_len _ _ _ _ _ _ E); lia).
  assert (R : real h' k (YText k c)).
  { apply re_text; auto. left. exact Tk. }
  assert (Ids : fids (f_items f ++ [YText k c]) = fids (f_items f) ++ [k]).
  { unfold fids. rewrite flat_map_app. reflexivity. }
  assert (Spk : sp h' k = false) by (unfold sp, ty; rewrite Tk; reflexivity).
  constructor.
  - constructor.
    + unfold allids in *. cbn [flat_map f_items] in *. rewrite Ids.
      apply (Permutation_NoDup (l := k :: fids (f_items f) ++ flat_map (fun f => fids (f_items f)) frs)).
      * rewrite <- app_assoc. apply Permutation_middle.
      * constructor; [exact Nk|exact B1].
    + rewrite E1. eapply outer_ev; eauto. discriminate.
  - rewrite E1, E2. eapply opens_item; [|exact R]. eapply opens_ev_outer; eauto.
    intros i Hi. repeat split; try discriminate. intros [= <-].
    apply (chain_not_text _ _ _ _ _ O Hi). left. exact Cu2.
  - intros l i c0 X. cbn [f_items] in X. apply app_inj_tail in X. destruct X as [_ X]. injection X as <- <-.
    rewrite E1. exact Spk.
  - rewrite E1, E3. cbn [f_items]. unfold settled. rewrite !map_app. cbn [map]. rewrite mark_list_snoc. cbn [shape erase is_text negb].
    f_equal.
    + pose proof (inner_ev _ _ _ _ _ _ _ _ _ _ false E O A) as X.
      eapply settled_ext; [|exact X]. intros i Hi. apply flip_sp. intro Y.
      destruct (d_repeat_whitespace st); [|discriminate]. injection Y as <-. apply Nk. apply allids_cons. left. exact Hi.
    + cbn [mark negb]. rewrite Bool.andb_true_r. f_equal. f_equal. rewrite <- Bl.
      destruct (d_repeat_whitespace st); [apply flip_sp_same; exact Lk|exact Spk].
  - rewrite E3. cbn [f_items]. intros i X. destruct (d_repeat_whitespace st); [|discriminate]. injection X as <-.
    rewrite Ids. apply in_or_app. right. left. reflexivity.
Qed.

Lemma bare_hupd : forall h i j f, (forall n, bare_node n -> bare_node (f n)) -> bare_node (hget h i) -> bare_node (hget (hupd h j f) i).
Proof.
  intros h i j f H B. destruct (Nat.eq_dec i j) as [->|N]; [|rewrite hget_hupd_other by congruence; exact B].
  destruct (Nat.lt_ge_cases j (length h)); [rewrite hget_hupd_same by assumption; auto|].
  unfold hget in *. rewrite nth_overflow in * by (rewrite ?hupd_length; lia). exact B.
Qed.
Lemma closed_end_node : forall u tag nm pos, tag < length (d_heap u) ->
  (forall i, d_check_textnode u = Some i -> i < length (d_heap u)) ->
  n_type (hget (closed_heap u tag nm pos) (length (d_heap u))) = NTagEnd /\
  n_content (hget (closed_heap u tag nm pos) (length (d_heap u))) = Some nm /\
  bare_node (hget (closed_heap u tag nm pos) (length (d_heap u))).
Proof.
  intros u tag nm pos Lt Lc. unfold closed_heap. cbv zeta.
  match goal with |- context [hupd (hupd ?h2 _ _) _ _] => set (h := h2) end.
  assert (Lh : length h = Datatypes.S (length (d_heap u))).
  { unfold h. match goal with |- length (if ?b then _ else _) = _ => destruct b end; rewrite ?flip_length, hupd_length, app_length; cbn; lia. }
  assert (X : hget h (length (d_heap u)) = if auto_fix_unclosed_tag (d_parse_options u)
     then nset_prev (Some (d_current_node u)) (node_new NTagEnd (d_mem_position u)) else node_new NTagEnd (d_mem_position u)).
  { unfold h. match goal with |- hget (if ?b then _ else _) _ = _ => destruct b end;
      [|unfold flip; destruct (d_check_textnode u) as [c|] eqn:Ec; [specialize (Lc c eq_refl); rewrite hget_hupd_other by lia|]];
      rewrite hget_hupd_other by lia; apply hget_app_new. }
  rewrite !hget_hupd_same by (rewrite ?hupd_length, Lh; lia). rewrite X.
  destruct (auto_fix_unclosed_tag (d_parse_options u)); repeat split.
Qed.

Lemma mark_only : forall x o o' f, is_text x = false -> mark o f x = mark o' f x.
Proof. intros [] o o' f H; try reflexivity; discriminate. Qed.
Lemma real_text : forall h i y, real h i y -> n_type (hget h i) = NText -> exists c, y = YText i c.
Proof. intros h i y R T. destruct R; try congruence. eauto. Qed.
Lemma only_text_items : forall h tag l items, kids h tag = l -> Forall2 (real h) l items ->
  (forall l i c, items = l ++ [YText i c] -> sp h i = false) ->
  (only_text h tag = true /\ exists i c, items = [YText i c]) \/
  (only_text h tag = false /\ forall i c, items <> [YText i c]).
Proof.
  intros h tag l items K F L. unfold only_text, kids in *.
  destruct (n_childs (hget h tag)) as [[|k [|k2 r]]|]; subst l.
  - right. split; [reflexivity|]. inversion F; subst. discriminate.
  - inversion F as [|? y ? ys R F2]; subst. inversion F2; subst. destruct (n_type (hget h k)) eqn:T; cbn [node_type_eqb];
      try (right; split; [reflexivity|]; intros i c [= ->]; inversion R as [? ? ? Tk| | | | | |]; subst; destruct Tk; congruence).
    + left. split; [reflexivity|]. destruct (real_text _ _ _ R T) as [c ->]. eauto.
    + exfalso. inversion R as [? c ? Tk| | | | | |]; subst; try congruence.
      pose proof (L [] k c eq_refl) as X. unfold sp, ty in X. rewrite T in X. discriminate.
  - right. split; [reflexivity|]. inversion F as [|? y ? ys R F2]; subst. inversion F2; subst. discriminate.
  - right. split; [reflexivity|]. inversion F; subst. discriminate.
Qed.

Lemma sim_close : forall opts u f frs st' tag par rest n l nm pos,
  sok opts u -> simU u f frs -> d_chain_nodes u = tag :: par :: rest -> f_tag f = Some (n, l) ->
  d_chain_nodes st' = par :: rest -> d_heap st' = closed_heap u tag nm pos -> d_check_textnode st' = closed_check u tag ->
  exists g frs', frs = g :: frs' /\
    simW st' (mkFr (f_tag g) (f_items g ++ [YElem n l (f_items f) nm])) frs'.
Proof.
  intros opts u f frs st' tag par rest n l nm pos S U Ec Ft E1 E2 E3.
  destruct U as [[B1 B2] O La N C]. rewrite Ec in O. pose proof (sok_ck _ _ S) as Ct.
  destruct frs as [|g frs']; [inversion O; subst; match goal with X : opens _ _ _ [] |- _ => inversion X end|].
  exists g, frs'. split; [reflexivity|].
  pose proof (ev_closed u tag nm pos) as E. set (h' := closed_heap u tag nm pos) in *. set (h := d_heap u) in *.
  pose proof (opens_tail _ _ _ _ _ _ _ O) as Ot.
  assert (On : open_node h tag (Some (n, l)) /\ Forall2 (real h) (kids h tag) (f_items f)).
  { inversion O; subst. cbn in Ft. subst tg. split; [assumption|]. cbn.
    match goal with K : kids h tag = _ ++ [] |- _ => rewrite K, app_nil_r end. assumption. }
  destruct On as [On Fk].
  assert (U' : untouched None None (Some tag) h).
  { intros i Fi. repeat split; try discriminate. intros [= <-]. apply (open_not_fin _ _ _ On Fi). }
  assert (Ct' : ck_text (if only_text h tag then None else d_check_textnode u) h).
  { destruct (only_text h tag); [intros i X; discriminate|exact Ct]. }
  pose proof (proj1 On) as Lt.
  assert (Le : length h' = Datatypes.S (length h)) by (unfold h'; apply closed_length).
  assert (Hn : n_end_tag (hget h' tag) = Some (length h) /\ n_type (hget h' (length h)) = NTagEnd /\
               n_content (hget h' (length h)) = Some nm /\ bare_node (hget h' (length h))).
  { unfold h'. split; [rewrite et_closed by exact Lt; rewrite Nat.eqb_refl; reflexivity|].
    apply closed_end_node; [exact Lt|]. intros i X. apply C in X.
    apply (opens_ids _ _ _ _ i O). apply allids_cons. left. exact X. }
  destruct Hn as [Hn1 [Hn2 [Hn3 Hn4]]].
  assert (R : real h' tag (YElem n l (f_items f) nm)).
  { destruct On as [_ [A [_ [T [m [M1 M2]]]]]].
    eapply re_elem with (m := m); [lia|..].
    - rewrite (ev_type _ _ _ _ _ _ _ E Ct' Lt); [exact T|]. rewrite T. apply nt; discriminate.
    - rewrite (ev_content _ _ _ _ _ _ E tag Lt); [exact A|discriminate].
    - exists (length h). rewrite Le. repeat split; auto; apply Hn4.
    - rewrite (ev_meta _ _ _ _ _ _ E tag Lt). exact M1.
    - exact M2.
    - unfold kids at 1. rewrite (ev_childs _ _ _ _ _ _ E tag Lt) by discriminate. fold (kids h tag).
      eapply reals_ev; eauto. }
  assert (Ids : fids (f_items g ++ [YElem n l (f_items f) nm]) = fids (f_items g) ++ fids (f_items f)).
  { unfold fids. rewrite flat_map_app. cbn. rewrite app_nil_r. reflexivity. }
  assert (Nd : NoDup (allids (mkFr (f_tag g) (f_items g ++ [YElem n l (f_items f) nm]) :: frs'))).
  { unfold allids in *. cbn [flat_map f_items] in *. rewrite Ids. eapply Permutation_NoDup; [|exact B1].
    rewrite !app_assoc. apply Permutation_app_tail, Permutation_app_comm. }
  assert (Op : opens h' (par :: rest) [] (mkFr (f_tag g) (f_items g ++ [YElem n l (f_items f) nm]) :: frs')).
  { eapply opens_item; [|exact R]. eapply opens_ev_outer; eauto. intros i Hi. repeat split; try discriminate.
    intros [= <-]. apply (chain_nodup _ _ _ _ S Ec). exact Hi. }
  assert (Ckf : forall i, (if only_text h tag then None else d_check_textnode u) = Some i -> In i (fids (f_items f))).
  { intros i X. destruct (only_text h tag); [discriminate|]. apply C. exact X. }
  pose proof (outer_ev _ _ _ _ _ _ _ _ _ _ E O B1 Ckf B2) as Ou.
  inversion Ou as [|? ? Og Ofr]; subst.
  assert (Eck : closed_check u tag = if only_text h tag then d_check_textnode u else None).
  { unfold closed_check, only_text, h. destruct (n_childs (hget (d_heap u) tag)) as [[|k [|? ?]]|]; reflexivity. }
  destruct (only_text_items h tag (kids h tag) (f_items f) eq_refl Fk La) as [[Oe [i [c Ei]]]|[Oe Ei]].
  - rewrite Oe in E, Eck. rewrite Ei in *.
    assert (Li : i < length h) by (destruct (opens_ids _ _ _ _ i O) as [X _]; [apply allids_cons; left; rewrite Ei; left; reflexivity|exact X]).
    assert (Si : sp (flip (d_check_textnode u) h) i = blank_text c).
    { unfold settled in N. cbn in N. rewrite Bool.andb_true_r in N. injection N as N. exact N. }
    assert (Sh : sp h' i = false).
    { rewrite (ev_sp _ _ _ _ _ _ _ E Li). apply (La [] i c eq_refl). }
    assert (Sf : sp (flip (d_check_textnode u) h') i = blank_text c).
    { rewrite <- Si. apply (ev_sp _ None None (Some tag)); [|exact Li]. apply ev_flip. exact E. }
    constructor; cbn [f_items].
    + constructor; [exact Nd|rewrite E2; exact Ofr].
    + rewrite E1, E2. exact Op.
    + rewrite E2. unfold settled. rewrite !map_app. cbn [map]. rewrite mark_list_snoc. f_equal; [exact Og|].
      unfold shape. cbn [erase map]. rewrite mark_elem. cbn [negb mark]. rewrite Bool.andb_false_r, Sh. reflexivity.
    + rewrite E2, E3, Eck. unfold settled. rewrite !map_app. cbn [map]. rewrite mark_list_snoc. f_equal.
      * eapply settled_ext; [|exact Og]. intros j Hj. apply flip_sp. intro X. apply C in X.
        apply (nodup_split _ _ j B1); [rewrite Ei; exact X|]. apply allids_cons. left. exact Hj.
      * unfold shape. cbn [erase map]. rewrite mark_elem. cbn [negb mark]. rewrite Bool.andb_true_r, Sf. reflexivity.
    + rewrite E3, Eck, Ids. intros j X. apply in_or_app. right. apply C. exact X.
    + intros l0 j c0 X. apply app_inj_tail in X. destruct X as [_ X]. discriminate.
  - rewrite Oe in E, Eck.
    assert (Se : forall b, settled h' b (f_items g ++ [YElem n l (f_items f) nm])).
    { intro b. unfold settled. rewrite !map_app. cbn [map]. rewrite mark_list_snoc. f_equal; [exact Og|].
      pose proof (inner_ev _ _ _ _ _ _ _ _ _ _ true E O N) as X. unfold settled in X.
      unfold shape at 1. cbn [erase]. fold shape. rewrite mark_elem. rewrite X. f_equal. f_equal.
      fold (map shape (f_items f)).
      destruct (f_items f) as [|y [|y2 ys]]; try reflexivity. cbn [map mark_list]. f_equal.
      apply mark_only. destruct y; try reflexivity. exfalso. apply (Ei i c). reflexivity. }
    constructor; cbn [f_items].
    + constructor; [exact Nd|rewrite E2; exact Ofr].
    + rewrite E1, E2. exact Op.
    + rewrite E2. apply Se.
    + rewrite E2, E3, Eck. apply Se.
    + rewrite E3, Eck. discriminate.
    + intros l0 j c0 X. apply app_inj_tail in X. destruct X as [_ X]. discriminate.
Qed.
