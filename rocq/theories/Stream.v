(** The stream of a document while it is parsed. *)
From Coq Require Import String.
From Verif Require Import Api SpecText SpecParse SpecTree SpecMisc NameProofs TextProofs MiscProofs HeapLemmas InvCtl CtlSteps CtlHandlers CtlEnd CtlRun
  Big BigSteps Replay RawText Struct StructEnd Frame Shape Real Sim CloseInv SpecFix SpecStream.
Local Open Scope string_scope.
Local Open Scope list_scope.

(** ** Listing a heap *)
Definition own_at (h : list node) (i : nid) : list atom := own (n_type (hget h i)) (n_content (hget h i)) (n_meta (hget h i)).
Definition ends (h : list node) (b : nat) (i : nid) (e : list atom) : Prop :=
  match n_end_tag (hget h i) with
  | None => e = []
  | Some j => i < j < b /\ e = own_at h j /\ n_type (hget h j) = NTagEnd
  end.
(** [ls h b i P]: the nodes below [i] are smaller than [b] and give [P]. *)
Inductive ls (h : list node) : nat -> nid -> list atom -> Prop :=
  | ls_node : forall b i Q e, i < b -> b <= length h -> lss h i b (kids h i) Q -> ends h b i e ->
      ls h b i (own_at h i ++ Q ++ e)
with lss (h : list node) : nat -> nat -> list nid -> list atom -> Prop :=
  | lss_nil : forall a b, lss h a b [] []
  | lss_snoc : forall a b l k Q P, lss h a k l Q -> a < k -> ls h b k P -> lss h a b (l ++ [k]) (Q ++ P).
Scheme ls_mind := Induction for ls Sort Prop
  with lss_mind := Induction for lss Sort Prop.
Combined Scheme ls_both from ls_mind, lss_mind.

Lemma ls_lt : forall h b i P, ls h b i P -> i < b /\ b <= length h.
Proof. intros h b i P H. inversion H; subst. auto. Qed.
Lemma lss_inv : forall h a b l k R, lss h a b (l ++ [k]) R -> exists Q P, R = Q ++ P /\ lss h a k l Q /\ a < k /\ ls h b k P.
Proof.
  intros h a b l k R H. remember (l ++ [k]) as lk eqn:E. destruct H as [a b|a b l0 k0 Q P A B C].
  - destruct l; discriminate.
  - apply app_inj_tail in E. destruct E as [-> ->]. eauto 8.
Qed.

Lemma ls_mono_both : forall h,
  (forall b i P, ls h b i P -> forall b', b <= b' -> b' <= length h -> ls h b' i P) /\
  (forall a b l Q, lss h a b l Q -> forall b', b <= b' -> b' <= length h -> lss h a b' l Q).
Proof.
  intro h. apply (ls_both h (fun b i P _ => forall b', b <= b' -> b' <= length h -> ls h b' i P)
    (fun a b l Q _ => forall b', b <= b' -> b' <= length h -> lss h a b' l Q)).
  - intros b i Q e L1 L2 Hk IH He b' B1 B2. constructor; [lia|exact B2|auto|].
    unfold ends in *. destruct (n_end_tag (hget h i)); [|exact He]. destruct He as [A He]. split; [lia|exact He].
  - intros. constructor.
  - intros a b l k Q P H1 _ L H2 IH b' B1 B2. constructor; auto.
Qed.
Lemma ls_mono : forall h b i P b', ls h b i P -> b <= b' -> b' <= length h -> ls h b' i P.
Proof. intros. eapply ls_mono_both; eauto. Qed.
Lemma lss_mono : forall h a b l Q b', lss h a b l Q -> b <= b' -> b' <= length h -> lss h a b' l Q.
Proof. intros. eapply ls_mono_both; eauto. Qed.

(** The same node for a listing. *)
Definition alk (h h' : list node) (j : nid) : Prop :=
  own_at h' j = own_at h j /\ kids h' j = kids h j /\ n_end_tag (hget h' j) = n_end_tag (hget h j) /\
  (n_type (hget h j) = NTagEnd -> n_type (hget h' j) = NTagEnd).
Lemma ends_alk : forall h h' b i e, alk h h' i -> (forall j, i < j < b -> n_type (hget h j) = NTagEnd -> alk h h' j) -> ends h b i e -> ends h' b i e.
Proof.
  intros h h' b i e [A [B [C D]]] H E. unfold ends in *. rewrite C. destruct (n_end_tag (hget h i)) as [j|]; [|exact E].
  destruct E as [L [-> T]]. destruct (H j L T) as [A' [B' [C' D']]]. split; [exact L|]. split; [symmetry; exact A'|auto].
Qed.
Lemma ls_alk_both : forall h h', length h <= length h' ->
  (forall b i P, ls h b i P -> (forall j, i <= j < b -> alk h h' j) -> ls h' b i P) /\
  (forall a b l Q, lss h a b l Q -> (forall j, a < j < b -> alk h h' j) -> lss h' a b l Q).
Proof.
  intros h h' Le. apply (ls_both h (fun b i P _ => (forall j, i <= j < b -> alk h h' j) -> ls h' b i P)
    (fun a b l Q _ => (forall j, a < j < b -> alk h h' j) -> lss h' a b l Q)).
  - intros b i Q e L1 L2 Hk IH He S. destruct (S i) as [A [B C]]; [lia|]. rewrite <- A.
    constructor; [lia|lia|rewrite B; apply IH; intros; apply S; lia|]. eapply ends_alk; [apply S; lia| |exact He].
    intros j L T. apply S. lia.
  - intros. constructor.
  - intros a b l k Q P H1 IH1 L H2 IH2 S. pose proof (ls_lt _ _ _ _ H2). constructor; [|exact L|].
    + apply IH1. intros. apply S. lia.
    + apply IH2. intros. apply S. lia.
Qed.
Lemma ls_alk : forall h h' b i P, ls h b i P -> length h <= length h' -> (forall j, i <= j < b -> alk h h' j) -> ls h' b i P.
Proof. intros h h' b i P H Le S. destruct (ls_alk_both h h' Le) as [X _]. auto. Qed.
Lemma lss_alk : forall h h' a b l Q, lss h a b l Q -> length h <= length h' -> (forall j, a < j < b -> alk h h' j) -> lss h' a b l Q.
Proof. intros h h' a b l Q H Le S. destruct (ls_alk_both h h' Le) as [_ X]. auto. Qed.

(** ** The way to the last nodes *)
Definition ends_at (h : list node) (i : nid) : list atom :=
  match n_end_tag (hget h i) with None => [] | Some j => own_at h j end.
Lemma ends_eq : forall h b i e, ends h b i e -> e = ends_at h i.
Proof. intros h b i e E. unfold ends, ends_at in *. destruct (n_end_tag (hget h i)); [apply E|exact E]. Qed.
(** [spine h z i p]: [p] is reached from [i] through last children, which have the end tags [z]. *)
Inductive spine (h : list node) : list atom -> nid -> nid -> Prop :=
  | sp_here : forall i, spine h [] i i
  | sp_last : forall i l k z e p, kids h i = l ++ [k] -> e = ends_at h i -> spine h z k p -> spine h (z ++ e) i p.
Lemma spine_trans : forall h z i p, spine h z i p -> forall z' q, spine h z' p q -> spine h (z' ++ z) i q.
Proof.
  intros h z i p S. induction S as [i|i l k z e p K E S IH]; intros z' q T; [rewrite app_nil_r; exact T|].
  rewrite app_assoc. eapply sp_last; eauto.
Qed.
Lemma spine_snoc : forall h z i p k, spine h z i p -> (exists l, kids h p = l ++ [k]) -> spine h (ends_at h p ++ z) i k.
Proof.
  intros h z i p k S [l K]. apply (spine_trans _ _ _ _ S). change (ends_at h p) with ([] ++ ends_at h p). eapply sp_last; [exact K|reflexivity|constructor].
Qed.

(** The nodes on the way, and changes at its end. *)
Lemma spine_split : forall h z i p, spine h z i p -> forall b P, ls h b i P ->
  i <= p /\ exists A Pp, P = A ++ Pp ++ z /\ ls h b p Pp /\
    forall h', length h <= length h' -> (forall j, j < length h -> j <> p -> alk h h' j) -> n_type (hget h p) <> NTagEnd ->
      spine h' z i p /\
      forall b' Pp', b <= b' -> ls h' b' p Pp' -> ls h' b' i (A ++ Pp' ++ z).
Proof.
  intros h z i p S. induction S as [i|i l k z e p K E S IH]; intros b P H.
  - split; [lia|]. exists [], P. rewrite app_nil_r. split; [reflexivity|]. split; [exact H|]. intros h' Le Al Te.
    split; [constructor|]. intros b' Pp' _ H'. rewrite app_nil_r. exact H'.
  - inversion H as [? ? Q e' L1 L2 Hk He]; subst. rewrite K in Hk. destruct (lss_inv _ _ _ _ _ _ Hk) as [Q1 [Pk [-> [H1 [Lk H2]]]]].
    destruct (IH b Pk H2) as [Lp [A [Pp [-> [Hp F]]]]]. split; [lia|].
    exists (own_at h i ++ Q1 ++ A), Pp. rewrite (ends_eq _ _ _ _ He) in *. split; [rewrite <- !app_assoc; reflexivity|]. split; [exact Hp|].
    intros h' Le Al Te. destruct (F h' Le Al Te) as [S' F']. pose proof (Al i ltac:(lia) ltac:(lia)) as Ai.
    assert (Ee : ends_at h' i = ends_at h i /\ forall b', b <= b' -> ends h' b' i (ends_at h i)).
    { destruct Ai as [A1 [A2 [A3 A4]]]. unfold ends_at, ends in *. rewrite A3. destruct (n_end_tag (hget h i)) as [j|] eqn:Ej.
      - destruct He as [Lj [_ Tj]]. destruct (Al j) as [B1 [B2 [B3 B4]]]; [lia|intros ->; contradiction|]. rewrite B1.
        split; [reflexivity|]. intros b' Lb. split; [lia|]. split; [reflexivity|auto].
      - split; [reflexivity|]. intros. reflexivity. }
    destruct Ee as [Ee1 Ee2]. destruct Ai as [A1 [A2 [A3 A4]]]. split.
    + rewrite <- Ee1. eapply sp_last; [rewrite A2; exact K|reflexivity|exact S'].
    + intros b' Pp' Lb Hp'.
      replace ((own_at h i ++ Q1 ++ A) ++ Pp' ++ z ++ ends_at h i) with (own_at h' i ++ (Q1 ++ (A ++ Pp' ++ z)) ++ ends_at h i)
        by (rewrite A1, <- !app_assoc; reflexivity).
      pose proof (ls_lt _ _ _ _ Hp') as Lp'. constructor; [lia|lia| |apply Ee2; exact Lb].
      rewrite A2, K. constructor; [|exact Lk|apply F'; assumption].
      pose proof (ls_lt _ _ _ _ H2). eapply lss_alk; [exact H1|exact Le|]. intros j Lj. apply Al; lia.
Qed.

(** ** One change *)
Lemma ls_inv : forall h b i P, ls h b i P -> exists Q, P = own_at h i ++ Q ++ ends_at h i /\ i < b /\ b <= length h /\ lss h i b (kids h i) Q /\ ends h b i (ends_at h i).
Proof.
  intros h b i P H. inversion H as [? ? Q e A B C D]; subst. pose proof (ends_eq _ _ _ _ D). subst e. eauto 8.
Qed.
Lemma ls_at : forall h b i Q e P, i < b -> b <= length h -> lss h i b (kids h i) Q -> ends h b i e -> P = own_at h i ++ Q ++ e -> ls h b i P.
Proof. intros. subst. constructor; assumption. Qed.
Lemma ends_at_alk : forall h h' b i, ends h b i (ends_at h i) -> b <= length h -> n_end_tag (hget h' i) = n_end_tag (hget h i) ->
  (forall j, j < length h -> n_type (hget h j) = NTagEnd -> alk h h' j) ->
  ends_at h' i = ends_at h i /\ forall b', b <= b' -> ends h' b' i (ends_at h i).
Proof.
  intros h h' b i E Lb En Al. unfold ends_at, ends in *. rewrite En. destruct (n_end_tag (hget h i)) as [j|]; [|auto].
  destruct E as [L [_ T]]. destruct (Al j ltac:(lia) T) as [A1 [A2 [A3 A4]]]. rewrite A1. split; [reflexivity|]. intros b' Lb'. split; [lia|]. auto.
Qed.

Lemma spine_lt : forall h z p P, ls h (length h) 0 P -> spine h z 0 p -> p < length h.
Proof. intros h z p P Hls Hsp. destruct (spine_split _ _ _ _ Hsp _ _ Hls) as [_ [A [Pp [_ [F _]]]]]. apply ls_lt in F. apply F. Qed.
Section change.
Variables (h h' : list node) (z : list atom) (p : nid) (P : list atom).
Hypotheses (Hls : ls h (length h) 0 P) (Hsp : spine h z 0 p) (Hty : n_type (hget h p) <> NTagEnd)
  (Hlen : length h <= length h') (Halk : forall j, j < length h -> j <> p -> alk h h' j).
Lemma change_tags : forall j, j < length h -> n_type (hget h j) = NTagEnd -> alk h h' j.
Proof. intros j L T. apply Halk; [exact L|]. intros ->. contradiction. Qed.
Lemma change_spine : spine h' z 0 p.
Proof. destruct (spine_split _ _ _ _ Hsp _ _ Hls) as [_ [A [Pp [_ [_ F]]]]]. apply (F h' Hlen Halk Hty). Qed.
Lemma change_child : forall Pk,
  own_at h' p = own_at h p -> n_end_tag (hget h' p) = n_end_tag (hget h p) -> kids h' p = kids h p ++ [length h] ->
  ls h' (length h') (length h) Pk ->
  exists l, P = l ++ ends_at h p ++ z /\ ls h' (length h') 0 (l ++ Pk ++ ends_at h p ++ z) /\ ends_at h' p = ends_at h p.
Proof.
  intros Pk E1 E2 E3 Hk. destruct (spine_split _ _ _ _ Hsp _ _ Hls) as [_ [A [Pp [-> [Hp F]]]]].
  destruct (F h' Hlen Halk Hty) as [_ F']. destruct (ls_inv _ _ _ _ Hp) as [Q [-> [L1 [L2 [Hq He]]]]].
  destruct (ends_at_alk h h' _ p He (le_n _) E2 change_tags) as [X1 X2].
  exists (A ++ own_at h p ++ Q). split; [rewrite <- !app_assoc; reflexivity|]. split; [|exact X1].
  replace ((A ++ own_at h p ++ Q) ++ Pk ++ ends_at h p ++ z) with (A ++ (own_at h' p ++ (Q ++ Pk) ++ ends_at h p) ++ z)
    by (rewrite E1, <- !app_assoc; reflexivity).
  apply F'; [exact Hlen|]. apply ls_at with (Q := Q ++ Pk) (e := ends_at h p); auto; [lia|].
  rewrite E3. constructor; [|exact L1|exact Hk]. eapply lss_alk; [exact Hq|exact Hlen|]. intros j Lj. apply Halk; lia.
Qed.
Lemma change_text : kids h p = [] -> n_end_tag (hget h p) = None -> kids h' p = [] -> n_end_tag (hget h' p) = None ->
  exists l, P = l ++ own_at h p ++ z /\ ls h' (length h') 0 (l ++ own_at h' p ++ z).
Proof.
  intros K1 E1 K2 E2. destruct (spine_split _ _ _ _ Hsp _ _ Hls) as [_ [A [Pp [-> [Hp F]]]]].
  destruct (F h' Hlen Halk Hty) as [_ F']. destruct (ls_inv _ _ _ _ Hp) as [Q [-> [L1 [L2 [Hq He]]]]].
  rewrite K1 in Hq. assert (Q = []) as -> by (inversion Hq as [|? ? l k Q1 P1 X1 X2 X3 X4]; [reflexivity|destruct l; discriminate]).
  exists A. unfold ends_at. rewrite E1, !app_nil_r. split; [reflexivity|]. apply F'; [exact Hlen|].
  apply ls_at with (Q := []) (e := []); [lia|lia|rewrite K2; constructor|unfold ends; rewrite E2; reflexivity|rewrite !app_nil_r; reflexivity].
Qed.
Lemma change_end : forall e, n_end_tag (hget h p) = None -> own_at h' p = own_at h p -> kids h' p = kids h p ->
  n_end_tag (hget h' p) = Some e -> p < e < length h' -> n_type (hget h' e) = NTagEnd ->
  exists l, P = l ++ z /\ ls h' (length h') 0 (l ++ own_at h' e ++ z).
Proof.
  intros e E1 O K E2 Le Te. destruct (spine_split _ _ _ _ Hsp _ _ Hls) as [_ [A [Pp [-> [Hp F]]]]].
  destruct (F h' Hlen Halk Hty) as [_ F']. destruct (ls_inv _ _ _ _ Hp) as [Q [-> [L1 [L2 [Hq He]]]]].
  exists (A ++ own_at h p ++ Q). unfold ends_at. rewrite E1, app_nil_r. split; [rewrite <- !app_assoc; reflexivity|].
  replace ((A ++ own_at h p ++ Q) ++ own_at h' e ++ z) with (A ++ (own_at h' p ++ Q ++ own_at h' e) ++ z) by (rewrite O, <- !app_assoc; reflexivity).
  apply F'; [exact Hlen|]. apply ls_at with (Q := Q) (e := own_at h' e); [lia|lia| |unfold ends; rewrite E2; auto|reflexivity].
  rewrite K. apply lss_mono with (b := length h); [|lia|lia]. eapply lss_alk; [exact Hq|exact Hlen|]. intros j Lj. apply Halk; lia.
Qed.
End change.

Lemma same_ls : forall h h' P, ls h (length h) 0 P -> length h <= length h' -> (forall j, j < length h -> alk h h' j) -> ls h' (length h') 0 P.
Proof.
  intros h h' P H L S. apply ls_mono with (b := length h); [|exact L|lia]. eapply ls_alk; [exact H|exact L|]. intros j Lj. apply S. lia.
Qed.
Lemma spine_keep : forall h h' z i p, spine h z i p -> forall b P, ls h b i P ->
  (forall j, j < length h -> (j < p /\ kids h j <> []) \/ n_type (hget h j) = NTagEnd -> alk h h' j) -> spine h' z i p /\ i <= p.
Proof.
  intros h h' z i p S. induction S as [i|i l k z e p K E S IH]; intros b P H Al; [split; [constructor|lia]|].
  destruct (ls_inv _ _ _ _ H) as [Q [_ [L1 [L2 [Hk He]]]]]. rewrite K in Hk.
  destruct (lss_inv _ _ _ _ _ _ Hk) as [Q1 [Pk [-> [H1 [Lk H2]]]]]. destruct (IH _ _ H2 Al) as [S' Lp]. split; [|lia].
  assert (Ai : alk h h' i). { apply Al; [lia|]. left. split; [lia|]. rewrite K. destruct l; discriminate. }
  destruct Ai as [A1 [A2 [A3 A4]]].
  destruct (ends_at_alk h h' b i He L2 A3) as [X _]; [intros j Lj Tj; apply Al; auto|].
  subst e. rewrite <- X. eapply sp_last; [rewrite A2; exact K|reflexivity|exact S'].
Qed.

Lemma own_at_ev : forall ck pt pk pe h h' i, ev ck pt pk pe h h' -> ck_text ck h -> i < length h -> pt <> Some i -> own_at h' i = own_at h i.
Proof.
  intros ck pt pk pe h h' i E C L N. unfold own_at. rewrite (ev_content _ _ _ _ _ _ E i L N), (ev_meta _ _ _ _ _ _ E i L).
  pose proof (ev_ty _ _ _ _ _ _ E i L) as T. unfold ty in T. rewrite T. destruct ck as [k|]; [|reflexivity].
  destruct (Nat.eqb_spec k i) as [->|]; [|reflexivity]. destruct (C i eq_refl) as [X|X]; unfold ty in X; rewrite X; reflexivity.
Qed.
Lemma alk_ev : forall ck pt pk pe h h' i, ev ck pt pk pe h h' -> ck_text ck h -> i < length h -> pt <> Some i -> pk <> Some i -> pe <> Some i -> alk h h' i.
Proof.
  intros ck pt pk pe h h' i E C L N1 N2 N3. split; [eapply own_at_ev; eauto|]. split; [unfold kids; rewrite (ev_childs _ _ _ _ _ _ E i L N2); reflexivity|].
  split; [apply (ev_end _ _ _ _ _ _ E i L N3)|]. intro T. rewrite (ev_type _ _ _ _ _ _ _ E C L); [exact T|]. rewrite T. intros [|]; discriminate.
Qed.

Lemma grow : forall ck h h' p P e, ls h (length h) 0 P -> spine h [] 0 p -> n_type (hget h p) <> NTagEnd ->
  ev ck None (Some p) None h h' -> ck_text ck h -> kids h' p = kids h p ++ [length h] -> length h < length h' ->
  kids h' (length h) = [] -> ends h' (length h') (length h) e ->
  exists l, P = l ++ ends_at h p /\ ls h' (length h') 0 (l ++ own_at h' (length h) ++ e ++ ends_at h p) /\
    spine h' (ends_at h p) 0 (length h) /\ (forall i, i <= p -> spine h [] 0 i -> spine h' [] 0 i) /\ ends_at h' p = ends_at h p.
Proof.
  intros ck h h' p P e H S T E C K L Kk He. assert (Lp : p < length h) by (eapply spine_lt; eauto).
  assert (Al : forall j, j < length h -> j <> p -> alk h h' j) by (intros j Lj Nj; eapply alk_ev; eauto; congruence).
  assert (Hk : ls h' (length h') (length h) (own_at h' (length h) ++ e)).
  { apply ls_at with (Q := []) (e := e); [lia|lia|rewrite Kk; constructor|exact He|reflexivity]. }
  destruct (change_child h h' [] p P H S T ltac:(lia) Al _ (own_at_ev _ _ _ _ _ _ _ E C Lp ltac:(discriminate)) (ev_end _ _ _ _ _ _ E p Lp ltac:(discriminate)) K Hk)
    as [l [-> [H' X]]].
  rewrite !app_nil_r in *. exists l. split; [reflexivity|]. split; [rewrite <- !app_assoc in H'; exact H'|].
  split; [|split; [|exact X]].
  - rewrite <- X, <- (app_nil_r (ends_at h' p)). apply spine_snoc; [|eauto]. apply (change_spine h h' [] p (l ++ ends_at h p)); auto; lia.
  - intros i Li Si. eapply spine_keep with (1 := Si); [exact H|]. intros j Lj D. apply Al; [exact Lj|]. intros ->. destruct D as [[Lji _]|Tj]; [lia|contradiction].
Qed.

(** ** The stream of a state *)
Definition vh (st : doc) : list node :=
  match d_handle st with
  | HText => hupd (d_heap st) (d_current_node st) (nset_content (Some (d_prev_chars st)))
  | _ => d_heap st
  end.
Lemma vh_len : forall st, length (vh st) = length (d_heap st).
Proof. intro st. unfold vh. destruct (d_handle st); try reflexivity. apply hupd_length. Qed.
Lemma vh_not : forall st, d_handle st <> HText -> vh st = d_heap st.
Proof. intros st N. unfold vh. destruct (d_handle st); congruence. Qed.
(** The stream read so far is [l ++ z]; text joined to the last text goes between [l] and [z]. *)
Record view (opts : parse_options) (st : doc) (l z : list atom) : Prop := mkView {
  v_ls : ls (vh st) (length (vh st)) 0 (l ++ z);
  v_chain : forall i, In i (d_chain_nodes st) -> spine (vh st) [] 0 i;
  v_text : ty (d_heap st) (d_current_node st) = NText -> spine (vh st) z 0 (d_current_node st) /\
    (auto_fix_unescaped_lt opts = false -> z = []) /\ n_content (hget (vh st) (d_current_node st)) <> None;
  v_other : ty (d_heap st) (d_current_node st) <> NText ->
    spine (vh st) [] 0 (lt_parent st) /\ z = ends_at (vh st) (lt_parent st) /\ forall i, In i (d_chain_nodes st) -> i <= lt_parent st
}.

Definition topn (st : doc) : nid := match d_chain_nodes st with i :: _ => i | [] => d_root st end.
Lemma lt_cases : forall st, lt_parent st = topn st \/ (lt_parent st = d_current_node st /\ n_type (cur st) = NTag).
Proof.
  intro st. unfold lt_parent, topn. destruct (n_type (cur st)) eqn:E; auto. destruct (n_meta (cur st)) as [m|]; auto.
  destruct (m_self_closed m || m_auto_fix m)%bool; auto.
Qed.
Lemma top_max : forall h l b i, chain_ok h l b -> In i l -> i <= hd 0 l.
Proof.
  intros h [|j l] b i H Hi; [contradiction|]. destruct H as [A [B C]]. cbn [hd]. destruct Hi as [->|Hi]; [lia|].
  pose proof (chain_ok_in _ _ _ _ C Hi). lia.
Qed.
Lemma top_le : forall opts st i, sok opts st -> In i (d_chain_nodes st) -> i <= topn st.
Proof.
  intros opts st i S Hi. pose proof (top_max _ _ _ _ (s_chain _ _ S) Hi) as L. unfold topn. destruct (d_chain_nodes st); [contradiction|exact L].
Qed.
Lemma chain_type : forall opts st i, sok opts st -> In i (d_chain_nodes st) -> n_type (hget (d_heap st) i) <> NTagEnd /\ n_type (hget (d_heap st) i) <> NText /\ i < length (d_heap st).
Proof.
  intros opts st i S Hi. pose proof (s_chain _ _ S) as C. pose proof (hs_root _ _ (s_hs _ _ S)) as [_ [R _]].
  assert (L : i < length (d_heap st)) by (eapply chain_ok_in; eauto).
  assert (X : ty (d_heap st) i = NAbstractRoot \/ ty (d_heap st) i = NTag).
  { revert C Hi. generalize (length (d_heap st)) at 1. induction (d_chain_nodes st) as [|j c IH]; intros b C Hi; [contradiction|].
    destruct C as [A [B C]]. destruct Hi as [->|Hi]; [|eauto]. destruct c; [subst; auto|auto]. }
  unfold ty in X. split; [|split; [|exact L]]; destruct X as [-> | ->]; discriminate.
Qed.
Lemma topn_in : forall opts st, sok opts st -> In (topn st) (d_chain_nodes st) \/ (d_chain_nodes st = [] /\ topn st = 0).
Proof. intros opts st S. unfold topn. destruct (d_chain_nodes st); [right; split; [reflexivity|apply (s_root _ _ S)]|left; left; reflexivity]. Qed.
Lemma top_type : forall opts st, sok opts st -> n_type (hget (d_heap st) (topn st)) <> NTagEnd /\ n_type (hget (d_heap st) (topn st)) <> NText /\
  topn st < length (d_heap st) /\ n_end_tag (hget (d_heap st) (topn st)) = None.
Proof.
  intros opts st S. destruct (topn_in _ _ S) as [I|[_ ->]].
  - destruct (chain_type _ _ _ S I) as [A [B C]]. pose proof (s_open _ _ S _ I). auto.
  - destruct (hs_root _ _ (s_hs _ _ S)) as [L [R _]]. unfold ty in R. rewrite R. split; [discriminate|]. split; [discriminate|]. split; [exact L|].
    destruct (n_end_tag (hget (d_heap st) 0)) eqn:E; [|reflexivity]. apply (hs_end _ _ (s_hs _ _ S)) in E. destruct E as [_ [_ [_ E]]].
    unfold ty in E. congruence.
Qed.
Lemma lt_type : forall opts st, sok opts st -> ty (d_heap st) (d_current_node st) <> NText ->
  n_type (hget (d_heap st) (lt_parent st)) <> NTagEnd /\ n_type (hget (d_heap st) (lt_parent st)) <> NText /\ lt_parent st < length (d_heap st).
Proof.
  intros opts st S N. destruct (lt_cases st) as [->|[-> T]].
  - destruct (top_type _ _ S) as [A [B [C _]]]. auto.
  - unfold cur, get_node in T. rewrite T. split; [discriminate|]. split; [discriminate|apply (s_cur _ _ S)].
Qed.
Lemma text_leaf : forall opts st i, sok opts st -> ty (d_heap st) i = NText -> kids (d_heap st) i = [] /\ n_end_tag (hget (d_heap st) i) = None.
Proof.
  intros opts st i S T. split.
  - destruct (kids (d_heap st) i) as [|k l] eqn:E; [reflexivity|]. destruct (hs_kids _ _ (s_hs _ _ S) i k) as [_ [_ C]]; [rewrite E; left; reflexivity|].
    rewrite T in C. destruct C as [C|C]; discriminate.
  - destruct (n_end_tag (hget (d_heap st) i)) eqn:E; [|reflexivity]. apply (hs_end _ _ (s_hs _ _ S)) in E. destruct E as [_ [_ [_ E]]]. congruence.
Qed.

Lemma ends_none : forall h i, n_end_tag (hget h i) = None -> ends_at h i = [].
Proof. intros h i E. unfold ends_at. rewrite E. reflexivity. Qed.

(** A new node below the innermost open element. *)
Lemma view_node : forall opts u v l z p rest ck e,
  sok opts u -> sok opts v -> view opts u l z -> d_handle u <> HText -> d_handle v <> HText -> d_chain_nodes u = p :: rest ->
  ev ck None (Some p) None (d_heap u) (d_heap v) -> ck_text ck (d_heap u) ->
  kids (d_heap v) p = kids (d_heap u) p ++ [length (d_heap u)] -> length (d_heap u) < length (d_heap v) -> kids (d_heap v) (length (d_heap u)) = [] ->
  ends (d_heap v) (length (d_heap v)) (length (d_heap u)) e -> d_current_node v = length (d_heap u) -> ty (d_heap v) (length (d_heap u)) <> NText ->
  (forall i, In i (d_chain_nodes v) -> i = length (d_heap u) \/ In i (d_chain_nodes u)) ->
  (lt_parent v = length (d_heap u) \/ e = []) -> view opts v (l ++ z ++ own_at (d_heap v) (length (d_heap u))) e.
Proof.
  intros opts u v l z p rest ck e S S' V N N' Ec E C K L Kk He Ecur Nt Ch Lp.
  destruct V as [V1 V2 _ _]. rewrite (vh_not u N) in *.
  assert (Ip : In p (d_chain_nodes u)) by (rewrite Ec; left; reflexivity).
  destruct (chain_type _ _ _ S Ip) as [T1 [T2 L1]].
  destruct (grow ck (d_heap u) (d_heap v) p _ e V1 (V2 p Ip) T1 E C K L Kk He) as [l0 [E0 [H [Sk [Sc _]]]]].
  rewrite (ends_none _ _ (s_open _ _ S p Ip)), !app_nil_r in *. subst l0.
  assert (Sv : forall i, In i (d_chain_nodes v) -> spine (d_heap v) [] 0 i).
  { intros i Hi. destruct (Ch i Hi) as [->|Hu]; [exact Sk|]. apply Sc; [|apply V2; exact Hu].
    pose proof (top_max _ _ _ _ (s_chain _ _ S) Hu) as X. rewrite Ec in X. exact X. }
  constructor; rewrite ?(vh_not v N').
  - rewrite <- !app_assoc in *. exact H.
  - exact Sv.
  - rewrite Ecur. intro X. contradiction.
  - intros _. destruct (lt_cases v) as [X|[X _]].
    + assert (I : In (topn v) (d_chain_nodes v) \/ d_chain_nodes v = [] /\ topn v = 0) by (eapply topn_in; eauto).
      assert (St : spine (d_heap v) [] 0 (topn v)) by (destruct I as [I|[_ ->]]; [auto|constructor]).
      rewrite X. split; [exact St|]. split; [|intros i Hi; eapply top_le; eauto].
      rewrite (ends_none _ _ (proj2 (proj2 (proj2 (top_type _ _ S'))))). destruct Lp as [Lp| ->]; [|reflexivity].
      rewrite <- Lp, X in He. unfold ends in He. rewrite (proj2 (proj2 (proj2 (top_type _ _ S')))) in He. exact He.
    + rewrite X, Ecur. split; [exact Sk|]. split; [eapply ends_eq; eauto|]. intros i Hi. destruct (Ch i Hi) as [->|Hu]; [lia|].
      destruct (chain_type _ _ _ S Hu) as [_ [_ Y]]. lia.
Qed.

(** ** Text *)
Lemma vh_get : forall st i, i <> d_current_node st -> hget (vh st) i = hget (d_heap st) i.
Proof. intros st i N. unfold vh. destruct (d_handle st); auto. apply hget_hupd_other. auto. Qed.
Lemma vh_keep : forall {A} (f : node -> A) st i, (forall n c, f (nset_content c n) = f n) -> f (hget (vh st) i) = f (hget (d_heap st) i).
Proof. intros A f st i H. unfold vh. destruct (d_handle st); auto. apply (hupd_keep f). intro. apply H. Qed.
Lemma vh_kids : forall st i, kids (vh st) i = kids (d_heap st) i.
Proof. intros st i. unfold kids. rewrite (vh_keep n_childs) by reflexivity. reflexivity. Qed.

Lemma view_text_add : forall opts u v l z X, sok opts u -> view opts u l z -> ty (d_heap u) (d_current_node u) = NText ->
  length (d_heap v) = length (d_heap u) -> d_chain_nodes v = d_chain_nodes u -> d_current_node v = d_current_node u ->
  (forall j, j <> d_current_node u -> hget (d_heap v) j = hget (d_heap u) j) ->
  n_type (hget (d_heap v) (d_current_node u)) = NText -> n_childs (hget (d_heap v) (d_current_node u)) = n_childs (hget (d_heap u) (d_current_node u)) ->
  n_end_tag (hget (d_heap v) (d_current_node u)) = n_end_tag (hget (d_heap u) (d_current_node u)) ->
  (exists x, n_content (hget (vh u) (d_current_node u)) = Some x /\ n_content (hget (vh v) (d_current_node u)) = Some (x ++ X)) ->
  view opts v (l ++ map AChar X) z.
Proof.
  intros opts u v l z X S V T Len Ec Eu Oth Tv Ch En [x [C1 C2]]. pose proof V as [V1 V2 V3 _]. destruct (V3 T) as [Sp [Zl Nc]].
  destruct (text_leaf _ _ _ S T) as [K N]. set (i := d_current_node u) in *.
  assert (Al : forall j, j <> i -> alk (vh u) (vh v) j).
  { intros j Nj. assert (E : hget (vh v) j = hget (vh u) j) by (rewrite !vh_get by (rewrite ?Eu; exact Nj); apply Oth; exact Nj).
    unfold alk, own_at, kids. rewrite E. repeat split. auto. }
  assert (Ty : n_type (hget (vh u) i) = NText) by (rewrite (vh_keep n_type) by reflexivity; exact T).
  assert (Ty' : n_type (hget (vh v) i) = NText) by (rewrite (vh_keep n_type) by reflexivity; exact Tv).
  assert (K' : kids (vh v) i = []) by (rewrite vh_kids; unfold kids; rewrite Ch; exact K).
  assert (N' : n_end_tag (hget (vh v) i) = None) by (rewrite (vh_keep n_end_tag) by reflexivity; rewrite En; exact N).
  assert (Ne : n_type (hget (vh u) i) <> NTagEnd) by (rewrite Ty; discriminate).
  assert (Le : length (vh u) <= length (vh v)) by (rewrite !vh_len; lia).
  destruct (change_text (vh u) (vh v) z i (l ++ z) V1 Sp Ne Le) as [A [EA H']]; auto.
  { rewrite vh_kids. exact K. } { rewrite (vh_keep n_end_tag) by reflexivity. exact N. }
  assert (O : own_at (vh v) i = own_at (vh u) i ++ map AChar X).
  { unfold own_at. rewrite Ty, Ty', C1, C2. cbn [own]. apply map_app. }
  rewrite app_assoc in EA. apply app_inv_tail in EA. rewrite O, !app_assoc, <- EA in H'.
  constructor.
  - exact H'.
  - intros j Hj. rewrite Ec in Hj. eapply spine_keep with (1 := V2 j Hj); [exact V1|]. intros k Lk D. apply Al. intros ->.
    destruct D as [[_ D]|D]; [apply D; rewrite vh_kids; exact K|congruence].
  - rewrite Eu. fold i. intros _. split; [|split; [exact Zl|rewrite C2; discriminate]].
    apply (change_spine (vh u) (vh v) z i (l ++ z)); auto.
  - rewrite Eu. fold i. unfold ty. intro X'. contradiction.
Qed.

Lemma view_text_new : forall opts u v l z p rest n, sok opts u -> view opts u l z -> d_handle u <> HText -> d_chain_nodes u = p :: rest ->
  d_handle v = HText -> d_heap v = add_child (d_heap u) p n -> n_type n = NText -> n_end_tag n = None -> n_childs n = None ->
  d_current_node v = length (d_heap u) -> d_chain_nodes v = d_chain_nodes u ->
  view opts v (l ++ z ++ map AChar (d_prev_chars v)) [].
Proof.
  intros opts u v l z p rest n S V N Ec Hv Hh Tn En Cn Ecur Ech. destruct V as [V1 V2 _ _]. rewrite (vh_not u N) in *.
  assert (Ip : In p (d_chain_nodes u)) by (rewrite Ec; left; reflexivity).
  destruct (chain_type _ _ _ S Ip) as [T1 [T2 L1]].
  assert (Ev : vh v = hupd (add_child (d_heap u) p n) (length (d_heap u)) (nset_content (Some (d_prev_chars v)))).
  { unfold vh. rewrite Hv, Hh, Ecur. reflexivity. }
  assert (Len : length (vh v) = Datatypes.S (length (d_heap u))).
  { rewrite Ev, hupd_length. unfold add_child. rewrite hupd_length, app_length. cbn. lia. }
  assert (Gk : forall {A} (f : node -> A) , (forall m c, f (nset_content c m) = f m) -> (forall m c, f (nset_childs c m) = f m) ->
     (forall m c, f (nset_root c m) = f m) -> (forall m c, f (nset_index c m) = f m) -> (forall m c, f (nset_parent c m) = f m) ->
     f (hget (vh v) (length (d_heap u))) = f n).
  { intros A f F1 F2 F3 F4 F5. rewrite Ev, (hupd_keep f) by (intro; apply F1). unfold add_child. rewrite (hupd_keep f) by (intro; apply F2).
    rewrite hget_app_new, F3, F4, F5. reflexivity. }
  assert (Ck : n_content (hget (vh v) (length (d_heap u))) = Some (d_prev_chars v)).
  { rewrite Ev, hget_hupd_same; [reflexivity|]. unfold add_child. rewrite hupd_length, app_length. cbn. lia. }
  assert (Tk : n_type (hget (vh v) (length (d_heap u))) = NText) by (rewrite (Gk _ n_type); auto).
  assert (Kk : kids (vh v) (length (d_heap u)) = []).
  { rewrite Ev. unfold kids. rewrite (hupd_keep n_childs) by reflexivity. unfold add_child. rewrite hget_hupd_other by lia. rewrite hget_app_new.
    cbn [n_childs nset_root nset_index nset_parent]. rewrite Cn. reflexivity. }
  assert (He : ends (vh v) (length (vh v)) (length (d_heap u)) []).
  { unfold ends. rewrite (Gk _ n_end_tag), En by auto. reflexivity. }
  assert (E : ev None None (Some p) None (d_heap u) (vh v)).
  { rewrite Ev. apply ev_new; [|lia]. apply ev_child. }
  assert (Kp : kids (vh v) p = kids (d_heap u) p ++ [length (d_heap u)]).
  { rewrite Ev. unfold kids at 1. rewrite (hupd_keep n_childs) by reflexivity. apply kids_add_child. exact L1. }
  destruct (grow None (d_heap u) (vh v) p _ [] V1 (V2 p Ip) T1 E) as [l0 [E0 [H [Sk [Sc _]]]]]; auto; [discriminate|lia|].
  rewrite (ends_none _ _ (s_open _ _ S p Ip)), ?app_nil_r in *. subst l0.
  assert (O : own_at (vh v) (length (d_heap u)) = map AChar (d_prev_chars v)) by (unfold own_at; rewrite Tk, Ck; reflexivity).
  constructor.
  - rewrite O in H. rewrite app_nil_r, app_assoc. exact H.
  - intros i Hi. rewrite Ech in Hi. apply Sc; [|apply V2; exact Hi]. pose proof (top_max _ _ _ _ (s_chain _ _ S) Hi) as X. rewrite Ec in X. exact X.
  - rewrite Ecur. intros _. split; [exact Sk|]. split; [reflexivity|rewrite Ck; discriminate].
  - rewrite Ecur. unfold ty. intro X. exfalso. apply X. rewrite <- Tk. symmetry. apply (vh_keep n_type). reflexivity.
Qed.

Lemma ev_orphan : forall h p n, ev None None (Some p) None h (add_orphan h p n).
Proof.
  intros h p n. unfold add_orphan. constructor.
  - rewrite hupd_length, app_length. lia.
  - intros i L. unfold ty. rewrite (hupd_keep n_type) by reflexivity. rewrite hget_app_old by exact L. reflexivity.
  - intros i L. rewrite (hupd_keep n_meta) by reflexivity. rewrite hget_app_old by exact L. reflexivity.
  - intros i L _. rewrite (hupd_keep n_content) by reflexivity. rewrite hget_app_old by exact L. reflexivity.
  - intros i L X. rewrite hget_hupd_other by (intro Y; apply X; rewrite Y; reflexivity). rewrite hget_app_old by exact L. reflexivity.
  - intros i L _. rewrite (hupd_keep n_end_tag) by reflexivity. rewrite hget_app_old by exact L. reflexivity.
Qed.
Lemma view_lt_new : forall opts u v l z n, sok opts u -> view opts u l z -> d_handle u <> HText -> ty (d_heap u) (d_current_node u) <> NText ->
  auto_fix_unescaped_lt opts = true ->
  d_handle v = HText -> d_heap v = add_orphan (d_heap u) (lt_parent u) n -> n_type n = NText -> n_end_tag n = None -> n_childs n = None ->
  d_current_node v = length (d_heap u) -> d_chain_nodes v = d_chain_nodes u ->
  view opts v (l ++ map AChar (d_prev_chars v)) z.
Proof.
  intros opts u v l z n S V N Nt Lt Hv Hh Tn En Cn Ecur Ech. destruct V as [V1 V2 _ V4]. rewrite (vh_not u N) in *.
  destruct (V4 Nt) as [Sp [Ez Ch]]. destruct (lt_type _ _ S Nt) as [T1 [T2 L1]]. set (p := lt_parent u) in *.
  assert (Ev : vh v = hupd (add_orphan (d_heap u) p n) (length (d_heap u)) (nset_content (Some (d_prev_chars v)))).
  { unfold vh. rewrite Hv, Hh, Ecur. reflexivity. }
  assert (Len : length (vh v) = Datatypes.S (length (d_heap u))).
  { rewrite Ev, hupd_length. unfold add_orphan. rewrite hupd_length, app_length. cbn. lia. }
  assert (Gk : forall {A} (f : node -> A) , (forall m c, f (nset_content c m) = f m) -> (forall m c, f (nset_childs c m) = f m) ->
     (forall m c, f (nset_index c m) = f m) -> f (hget (vh v) (length (d_heap u))) = f n).
  { intros A f F1 F2 F4. rewrite Ev, (hupd_keep f) by (intro; apply F1). unfold add_orphan. rewrite (hupd_keep f) by (intro; apply F2).
    rewrite hget_app_new, F4. reflexivity. }
  assert (Ck : n_content (hget (vh v) (length (d_heap u))) = Some (d_prev_chars v)).
  { rewrite Ev, hget_hupd_same; [reflexivity|]. unfold add_orphan. rewrite hupd_length, app_length. cbn. lia. }
  assert (Tk : n_type (hget (vh v) (length (d_heap u))) = NText) by (rewrite (Gk _ n_type); auto).
  assert (Kk : kids (vh v) (length (d_heap u)) = []).
  { rewrite Ev. unfold kids. rewrite (hupd_keep n_childs) by reflexivity. unfold add_orphan. rewrite hget_hupd_other by lia. rewrite hget_app_new.
    cbn [n_childs nset_index]. rewrite Cn. reflexivity. }
  assert (He : ends (vh v) (length (vh v)) (length (d_heap u)) []).
  { unfold ends. rewrite (Gk _ n_end_tag), En by auto. reflexivity. }
  assert (E : ev None None (Some p) None (d_heap u) (vh v)).
  { rewrite Ev. apply ev_new; [|lia]. apply ev_orphan. }
  assert (Kp : kids (vh v) p = kids (d_heap u) p ++ [length (d_heap u)]).
  { rewrite Ev. unfold kids at 1. rewrite (hupd_keep n_childs) by reflexivity. unfold add_orphan. rewrite hget_hupd_same by (rewrite app_length; lia).
    reflexivity. }
  destruct (grow None (d_heap u) (vh v) p _ [] V1 Sp T1 E) as [l0 [E0 [H [Sk [Sc _]]]]]; auto; [discriminate|lia|].
  rewrite <- Ez in *. apply app_inv_tail in E0. subst l0.
  assert (O : own_at (vh v) (length (d_heap u)) = map AChar (d_prev_chars v)) by (unfold own_at; rewrite Tk, Ck; reflexivity).
  constructor.
  - rewrite O in H. rewrite <- app_assoc. exact H.
  - intros i Hi. rewrite Ech in Hi. apply Sc; [apply Ch; exact Hi|apply V2; exact Hi].
  - rewrite Ecur. intros _. split; [exact Sk|]. split; [intro F; rewrite Lt in F; discriminate F|rewrite Ck; discriminate].
  - rewrite Ecur. unfold ty. intro X. exfalso. apply X. rewrite <- Tk. symmetry. apply (vh_keep n_type). reflexivity.
Qed.

(** ** End tags *)
Lemma view_close : forall opts u v l z tag rest nm pos, sok opts u -> sok opts v -> view opts u l z -> d_handle u <> HText -> d_handle v <> HText ->
  closes u nm = Some (tag, rest) -> d_heap v = closed_heap u tag nm pos -> d_current_node v = length (d_heap u) -> d_chain_nodes v = rest ->
  view opts v (l ++ z ++ [AMark NTagEnd (Some nm) None]) [].
Proof.
  intros opts u v l z tag rest nm pos S S' V N N' Cl Hh Ecur Ech. destruct V as [V1 V2 _ _]. rewrite (vh_not u N) in *.
  assert (Ec : d_chain_nodes u = tag :: rest).
  { unfold closes in Cl. destruct (d_chain_nodes u) as [|a [|b c]]; try discriminate. destruct (n_meta (get_node u a)); [|discriminate].
    destruct (same_name (m_name t) (trim_right nm)); [|discriminate]. injection Cl as -> <-. reflexivity. }
  assert (It : In tag (d_chain_nodes u)) by (rewrite Ec; left; reflexivity).
  destruct (chain_type _ _ _ S It) as [T1 [T2 L1]]. pose proof (s_open _ _ S tag It) as O1.
  assert (Lc : forall i, d_check_textnode u = Some i -> i < length (d_heap u)) by (intros i X; apply textual_lt; apply (s_check _ _ S i X)).
  destruct (closed_end_node u tag nm pos L1 Lc) as [E1 [E2 E3]]. pose proof (et_closed u tag nm pos tag L1) as E4. rewrite Nat.eqb_refl in E4.
  pose proof (ev_closed u tag nm pos) as E. rewrite <- Hh in *.
  set (ck := if only_text (d_heap u) tag then None else d_check_textnode u) in E.
  assert (C : ck_text ck (d_heap u)).
  { unfold ck. destruct (only_text (d_heap u) tag); [discriminate|]. apply (sok_ck _ _ S). }
  assert (Al : forall j, j < length (d_heap u) -> j <> tag -> alk (d_heap u) (d_heap v) j) by (intros j Lj Nj; eapply alk_ev; eauto; congruence).
  assert (Len : length (d_heap u) < length (d_heap v)) by (rewrite <- Ecur; apply (s_cur _ _ S')).
  destruct (change_end (d_heap u) (d_heap v) [] tag (l ++ z) V1 (V2 _ It) T1 ltac:(lia) Al (length (d_heap u)) O1) as [l0 [E0 H]]; auto.
  { apply (own_at_ev _ _ _ _ _ _ _ E C L1). discriminate. }
  { unfold kids. rewrite (ev_childs _ _ _ _ _ _ E tag L1) by discriminate. reflexivity. }
  rewrite !app_nil_r in *. subst l0.
  assert (O : own_at (d_heap v) (length (d_heap u)) = [AMark NTagEnd (Some nm) None]).
  { unfold own_at. destruct E3 as [_ [M _]]. rewrite E1, E2, M. reflexivity. }
  rewrite O, <- app_assoc in H.
  assert (Sv : forall i, In i (d_chain_nodes v) -> spine (d_heap v) [] 0 i).
  { intros i Hi. rewrite Ech in Hi. assert (Hu : In i (d_chain_nodes u)) by (rewrite Ec; right; exact Hi).
    eapply spine_keep with (1 := V2 i Hu); [exact V1|]. intros j Lj D. apply Al; [exact Lj|]. intros ->.
    destruct D as [[D _]|D]; [|contradiction]. pose proof (top_max _ _ _ _ (s_chain _ _ S) Hu) as X. rewrite Ec in X. cbn [hd] in X. lia. }
  constructor; rewrite ?(vh_not v N').
  - rewrite app_nil_r. exact H.
  - exact Sv.
  - rewrite Ecur. unfold ty. rewrite E1. discriminate.
  - intros _. assert (X : lt_parent v = topn v).
    { destruct (lt_cases v) as [X|[_ X]]; [exact X|]. unfold cur, get_node in X. rewrite Ecur in X. congruence. }
    rewrite X. split; [|split; [symmetry; apply ends_none; apply (top_type _ _ S')|intros i Hi; eapply top_le; eauto]].
    destruct (topn_in _ _ S') as [I|[_ ->]]; [auto|constructor].
Qed.

Lemma view_drop : forall opts u v l z, sok opts u -> sok opts v -> view opts u l z -> d_handle u <> HText -> d_handle v <> HText ->
  d_heap v = dropped_heap u -> d_chain_nodes v = d_chain_nodes u -> d_root v = d_root u ->
  d_current_node v = (if auto_fix_unclosed_tag opts then d_current_node u else length (d_heap u)) ->
  if auto_fix_unclosed_tag opts then view opts v l z else view opts v (l ++ z) [].
Proof.
  intros opts u v l z S S' V N N' Hh Ech Er Ecur. destruct V as [V1 V2 V3 V4]. rewrite (vh_not u N) in *.
  assert (Ap : exists n, d_heap v = d_heap u ++ [n] /\ n_type n = NTagEnd).
  { rewrite Hh. unfold dropped_heap. destruct (auto_fix_unclosed_tag (d_parse_options u)); eexists; split; reflexivity. }
  destruct Ap as [n [En Tn]].
  assert (G : forall j, j < length (d_heap u) -> hget (d_heap v) j = hget (d_heap u) j) by (intros; rewrite En; apply hget_app_old; assumption).
  assert (Al : forall j, j < length (d_heap u) -> alk (d_heap u) (d_heap v) j).
  { intros j Lj. unfold alk, own_at, kids. rewrite G by exact Lj. repeat split. auto. }
  assert (Len : length (d_heap v) = Datatypes.S (length (d_heap u))) by (rewrite En, app_length; cbn; lia).
  assert (H : ls (d_heap v) (length (d_heap v)) 0 (l ++ z)) by (eapply same_ls; [exact V1|lia|exact Al]).
  assert (Sp : forall w i, spine (d_heap u) w 0 i -> spine (d_heap v) w 0 i).
  { intros w i X. eapply spine_keep with (1 := X); [exact V1|]. intros. apply Al. assumption. }
  destruct (auto_fix_unclosed_tag opts).
  - assert (Lp : lt_parent v = lt_parent u).
    { unfold lt_parent, cur, get_node. rewrite Ecur, Ech, Er, G by apply (s_cur _ _ S). reflexivity. }
    constructor; rewrite ?(vh_not v N').
    + exact H.
    + intros i Hi. rewrite Ech in Hi. auto.
    + unfold ty. rewrite Ecur, G by apply (s_cur _ _ S). intro T. destruct (V3 T) as [A [B C]]. auto.
    + unfold ty. rewrite Ecur, G, Lp by apply (s_cur _ _ S). intro T. destruct (V4 T) as [A [B C]]. split; [auto|]. rewrite Ech. split; [|exact C].
      rewrite B. pose proof (spine_lt _ _ _ _ V1 A) as Ll. destruct (spine_split _ _ _ _ A _ _ V1) as [_ [A1 [Pp [_ [Hp _]]]]].
      destruct (ls_inv _ _ _ _ Hp) as [Q [_ [_ [_ [_ He]]]]]. destruct (ends_at_alk (d_heap u) (d_heap v) _ (lt_parent u) He (le_n _)) as [X _]; [|auto|symmetry; exact X].
      rewrite G by exact Ll. reflexivity.
  - assert (Tc : ty (d_heap v) (d_current_node v) = NTagEnd) by (rewrite Ecur; unfold ty; rewrite En, hget_app_new; exact Tn).
    assert (X : lt_parent v = topn v).
    { destruct (lt_cases v) as [X|[_ X]]; [exact X|]. unfold cur, get_node in X. unfold ty in Tc. congruence. }
    constructor; rewrite ?(vh_not v N').
    + rewrite app_nil_r. exact H.
    + intros i Hi. rewrite Ech in Hi. auto.
    + rewrite Tc. discriminate.
    + intros _. rewrite X. split; [|split; [symmetry; apply ends_none; apply (top_type _ _ S')|intros i Hi; eapply top_le; eauto]].
      destruct (topn_in _ _ S') as [I|[_ ->]]; [rewrite Ech in I; auto|constructor].
Qed.
