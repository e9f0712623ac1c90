(** Proofs for C68. *)
From Coq Require Import String Lia Sorted.
From Verif Require Import Api SpecText SpecRender SpecParse SpecMisc SpecTree SpecDoc SpecMap SpecSwap SpecAttrs SpecFind NameProofs TextProofs RenderProofs StructEnd Shape DocTree DocEnd DocSound CloneProofs EditProofs Print MapProofs JoinProofs SwapProofs AttrsProofs.
Local Open Scope string_scope.
Local Open Scope list_scope.

Lemma id_dec : forall v a, {id_value a v} + {~ id_value a v}.
Proof.
  intros v [[k|] [w|] q n]; try (right; intros (key & A & B & C); cbn in *; discriminate).
  destruct (same_name k (str "id")) eqn:K; [|right; intros (key & A & B & C); cbn in *; congruence].
  destruct (list_eq_dec N.eq_dec w v) as [->|E]; [left; exists k; auto|right; intros (key & A & B & C); cbn in *; congruence].
Qed.
Lemma item_id_dec : forall v x, {item_id v x} + {~ item_id v x}.
Proof.
  intros v x. unfold item_id. induction (item_attrs x) as [|a l IH]; [right; intros (a & [] & _)|].
  destruct (id_dec v a) as [A|A]; [left; exists a; cbn; auto|]. destruct IH as [B|B]; [left; destruct B as (b & I & V); exists b; cbn; auto|].
  right. intros (b & [<-|I] & V); [exact (A V)|]. apply B. exists b. auto.
Qed.
Lemma last_such : forall {A} (P : A -> Prop) (dec : forall x, {P x} + {~ P x}) l, (exists a y b, l = a ++ y :: b /\ P y /\ Forall (fun z => ~ P z) b) \/ Forall (fun z => ~ P z) l.
Proof.
  intros A P dec l. induction l as [|x l [(a & y & b & -> & H)|IH]]; [right; constructor|left; exists (x :: a), y, b; auto|].
  destruct (dec x) as [H|H]; [left; exists [], x, l; auto|right; constructor; assumption].
Qed.

(** ** Items and nodes *)
Definition opens (t : tree) : bool := match t_type t with NTagEnd => false | _ => true end.
Definition tree_id (v : list char) (t : tree) : Prop := exists m a, t_meta t = Some m /\ In a (m_attrs m) /\ id_value a v.
Lemma depicts_id : forall v x t, depicts x t -> (item_id v x <-> tree_id v t).
Proof.
  intros v x t D. unfold item_id, tree_id.
  assert (N : t_meta t = None -> item_attrs x = [] -> ((exists a, In a (item_attrs x) /\ id_value a v) <-> exists m a, t_meta t = Some m /\ In a (m_attrs m) /\ id_value a v)).
  { intros M E. rewrite E. split; [intros (a & [] & _)|intros (m & a & M2 & _); congruence]. }
  assert (S : forall m, t_meta t = Some m -> item_attrs x = m_attrs m -> ((exists a, In a (item_attrs x) /\ id_value a v) <-> exists m a, t_meta t = Some m /\ In a (m_attrs m) /\ id_value a v)).
  { intros m M E. rewrite E. split; [intros (a & H); exists m, a; auto|intros (m' & a & M2 & H); rewrite M in M2; injection M2 as <-; exists a; exact H]. }
  destruct D; unfold plain_node, meta_is in *; repeat match goal with H : _ /\ _ |- _ => destruct H end; try (apply N; [assumption|reflexivity]); eapply S; try eassumption; cbn; congruence.
Qed.
Lemma end_nodes : forall e t, end_is e t -> exists te, t_end_tag t = Some te /\ nodes te = [te] /\ opens te = false /\ t_meta te = None.
Proof.
  intros e t (te & A & B & C & D & E & F). exists te. split; [exact A|]. split; [|split; [unfold opens; rewrite B; reflexivity|exact E]].
  rewrite nodes_unfold, D. unfold child_list. rewrite F. reflexivity.
Qed.
Definition bare_ends (t : tree) : Prop := opens t = false -> t_meta t = None.
Lemma parts_nodes : forall x t, depicts x t -> Forall2 depicts (parts x) (filter opens (nodes t)) /\ Forall bare_ends (nodes t).
Proof.
  assert (L : forall f l, Forall2 depicts f l -> Forall (fun x => forall t, depicts x t -> Forall2 depicts (parts x) (filter opens (nodes t)) /\ Forall bare_ends (nodes t)) f ->
    Forall2 depicts (flat_map parts f) (filter opens (flat_map nodes l)) /\ Forall bare_ends (flat_map nodes l)).
  { intros f l Z. induction Z as [|x t f l D Z IH]; intro F; [split; constructor|]. inversion F as [|? ? Fx Ff]; subst. destruct (Fx t D) as [A1 A2], (IH Ff) as [B1 B2].
    cbn [flat_map]. rewrite filter_app. split; [apply Forall2_app; assumption|apply Forall_app; split; assumption]. }
  assert (P : forall x t, depicts x t -> t_childs t = None -> t_end_tag t = None -> opens t = true -> parts x = [x] -> Forall2 depicts (parts x) (filter opens (nodes t)) /\ Forall bare_ends (nodes t)).
  { intros x t D C E O X. rewrite nodes_unfold, E, X. unfold child_list. rewrite C. cbn. rewrite O. split; constructor; [exact D|constructor|congruence|constructor]. }
  intro x. induction x as [c b|c|c|n a|n a s|n a c e|n a ks e IH] using item_ind2; intros t D; inversion D; subst; unfold plain_node in *;
    repeat match goal with H : _ /\ _ |- _ => destruct H end;
    try (apply P; [assumption|assumption|assumption|unfold opens; match goal with H : t_type t = _ |- _ => rewrite H end; try destruct b; reflexivity|reflexivity]).
  - destruct (end_nodes e t ltac:(assumption)) as (te & A & B & C & M). rewrite nodes_unfold, A, B. unfold child_list. match goal with H : t_childs t = None |- _ => rewrite H end. cbn [flat_map app filter].
    assert (O : opens t = true) by (unfold opens; match goal with H : t_type t = _ |- _ => rewrite H end; reflexivity). rewrite O, C.
    split; [constructor; [exact D|constructor]|]. constructor; [intro; congruence|]. constructor; [intro; exact M|constructor].
  - destruct (end_nodes e t ltac:(assumption)) as (te & A & B & C & M). rewrite nodes_unfold, A, B. destruct (L ks (child_list t) ltac:(assumption) IH) as [L1 L2].
    assert (O : opens t = true) by (unfold opens; match goal with H : t_type t = _ |- _ => rewrite H end; reflexivity).
    cbn [filter parts]. rewrite O, filter_app. cbn [filter]. rewrite C, app_nil_r. split; [constructor; assumption|]. constructor; [intro; congruence|].
    apply Forall_app. split; [exact L2|]. constructor; [intro; exact M|constructor].
Qed.
Lemma list_nodes : forall f l, Forall2 depicts f l -> Forall2 depicts (flat_map parts f) (filter opens (flat_map nodes l)) /\ Forall bare_ends (flat_map nodes l).
Proof.
  intros f l Z. induction Z as [|x t f l D Z [B1 B2]]; [split; constructor|]. destruct (parts_nodes x t D) as [A1 A2].
  cbn [flat_map]. rewrite filter_app. split; [apply Forall2_app; assumption|apply Forall_app; split; assumption].
Qed.
Lemma sub_nodes : forall s t, sub s t -> In s (nodes t).
Proof.
  intros s t S. induction S as [t|s t ks k Hk I S IH|s t e He S IH]; rewrite nodes_unfold; [left; reflexivity| |]; right; apply in_or_app.
  - left. unfold child_list. rewrite Hk. apply in_flat_map. exists k. auto.
  - right. rewrite He. exact IH.
Qed.
Lemma nodes_sub : forall t s, In s (nodes t) -> sub s t.
Proof.
  intro t. induction t as [i ty b e et c ks m He Hk] using tree_ind'. intros s I. rewrite nodes_unfold in I. destruct I as [<-|I]; [apply sub_refl|]. apply in_app_or in I. destruct I as [I|I].
  - unfold child_list in I. cbn [t_childs] in I. destruct ks as [l|]; [|destruct I]. apply in_flat_map in I. destruct I as (k & Ik & Is).
    cbn in Hk. rewrite Forall_forall in Hk. eapply sub_child; [reflexivity|exact Ik|exact (Hk k Ik s Is)].
  - cbn [t_end_tag] in I. destruct et as [x|]; [|destruct I]. eapply sub_end; [reflexivity|exact (He s I)].
Qed.

(** ** Order *)
Definition before (a b : tree) : Prop := t_begin_at a <= t_begin_at b.
Lemma places_sorted : forall l off, StronglySorted (fun a b => r_begin a <= r_begin b) (places off l) /\ Forall (fun a => off <= r_begin a) (places off l).
Proof.
  induction l as [|[k w] l IH]; intro off; [split; constructor|]. cbn [places]. destruct (IH (off + length w)) as [A B].
  assert (B' : forall o, o <= off + length w -> Forall (fun a => o <= r_begin a) (places (off + length w) l)) by (intros o H; eapply Forall_impl; [|exact B]; cbn; intros; lia).
  assert (One : forall r, off <= r_begin r <= off + length w -> StronglySorted (fun a b => r_begin a <= r_begin b) ([r] ++ places (off + length w) l) /\ Forall (fun a => off <= r_begin a) ([r] ++ places (off + length w) l)).
  { intros r R. cbn. split; constructor; try assumption; try lia; [eapply Forall_impl; [|exact B]; cbn; intros; lia|apply B'; lia]. }
  destruct k; cbn [place]; try (apply One; cbn; lia).
  destruct (One (mkRow NTagEnd (Some e) (off + length w) (off + length w)) ltac:(cbn; lia)) as [C D]. cbn [app] in *. split; constructor; try assumption; cbn; lia.
Qed.
Lemma rows_sorted : forall l R, map row_of l = R -> StronglySorted (fun a b => r_begin a <= r_begin b) R -> StronglySorted before l.
Proof.
  induction l as [|t l IH]; intros R <- S; [constructor|]. cbn [map] in S. inversion S as [|? ? S1 S2]; subst. constructor; [exact (IH _ eq_refl S1)|].
  rewrite Forall_map in S2. exact S2.
Qed.
Lemma filter_sorted : forall {A} (R : A -> A -> Prop) p l, StronglySorted R l -> StronglySorted R (filter p l).
Proof.
  intros A R p l S. induction S as [|x l S IH F]; [constructor|]. cbn. destruct (p x); [|exact IH]. constructor; [exact IH|].
  rewrite Forall_forall in *. intros y I. apply filter_In in I. apply F, I.
Qed.
Lemma sorted_two : forall {A} (R : A -> A -> Prop) a x b y c, StronglySorted R (a ++ x :: b ++ y :: c) -> R x y.
Proof.
  intros A R a. induction a as [|z a IH]; intros x b y c S; cbn in S; inversion S as [|? ? S1 F]; subst; [|exact (IH _ _ _ _ S1)].
  rewrite Forall_forall in F. apply F. apply in_or_app. right. left. reflexivity.
Qed.

(** ** Documents *)
(** A document that has some content has no self-closing doctype. *)
Lemma content_open : forall opts s d f, parse opts s = Parsed d -> doc_content d f -> open_doctypes d.
Proof.
  intros opts s d f P (r & Er & T0 & C0 & En0 & M0 & Z) i m Ty M.
  destruct (Compare_dec.le_lt_dec (length (d_heap d)) i) as [L|L]; [unfold hget in Ty; rewrite nth_overflow in Ty by exact L; discriminate Ty|].
  destruct (graph_tree _ _ _ P) as [_ [_ [G _]]]. assert (Di : in_doc (d_heap d) (d_root d) i) by (apply G; [exact L|rewrite Ty; discriminate]).
  destruct (node_tree _ _ _ _ P Er i Di) as (g & t & Tt & St). destruct (tree_inv _ _ _ _ Tt) as (Ty' & _ & M' & _). rewrite Ty in Ty'. rewrite M in M'.
  apply sub_nodes in St. rewrite nodes_unfold, En0, app_nil_r in St. destruct St as [<-|I]; [congruence|].
  destruct (list_nodes _ _ Z) as [Pn _]. assert (I2 : In t (filter opens (flat_map nodes (child_list r)))) by (apply filter_In; split; [exact I|unfold opens; rewrite Ty'; reflexivity]).
  clear - Pn I2 Ty' M'. induction Pn as [|y w l l' D F IH]; [destruct I2|]. destruct I2 as [->|I2]; [|auto].
  inversion D; subst; try congruence. destruct b; congruence.
Qed.
Theorem find_content : forall opts s d f v, parse opts s = Parsed d -> no_repair opts -> doc_content d f ->
  match get_element_by_id d v with
  | Some i => exists g t x, tree_of g (d_heap d) i = Some t /\ depicts x t /\ last_with_id v f x
  | None => Forall (fun x => ~ item_id v x) (flat_map parts f)
  end.
Proof.
  intros opts s d f v P Nr Df. pose proof (content_open _ _ _ _ P Df) as O. pose proof (find_id opts s d v P) as Fi.
  destruct (source_map _ _ _ P Nr O) as (lw & f0 & r & _ & _ & _ & _ & _ & _ & _ & Er & Rw).
  destruct Df as (r0 & Er0 & T0 & C0 & En0 & M0 & Z). rewrite Er in Er0. injection Er0 as <-.
  set (N := flat_map nodes (child_list r)) in *.
  assert (Nr' : nodes r = r :: N) by (rewrite nodes_unfold, En0, app_nil_r; reflexivity).
  destruct (list_nodes _ _ Z) as [Pn Be]. fold N in Pn, Be.
  assert (So : StronglySorted before (filter opens N)).
  { apply filter_sorted. rewrite Nr' in Rw. apply (f_equal (@List.tl row)) in Rw. cbn [map List.tl] in Rw. eapply rows_sorted; [exact Rw|apply places_sorted]. }
  assert (Nd : forall t, In t N -> exists g j, tree_of g (d_heap d) j = Some t /\ in_doc (d_heap d) (d_root d) j /\ (tree_id v t -> node_id (hget (d_heap d) j) v)).
  { intros t I. assert (S : sub t r) by (apply nodes_sub; rewrite Nr'; right; exact I).
    destruct (sub_node _ _ (d_root d) _ _ _ Er ltac:(exists []; constructor) S) as (g & j & Tj & Dj). exists g, j. split; [exact Tj|]. split; [exact Dj|].
    destruct (tree_inv _ _ _ _ Tj) as (_ & _ & M & _). intros (m & a & A & B). exists m, a. rewrite <- M. auto. }
  assert (Mt : forall x, In x (flat_map parts f) -> exists t, In t N /\ depicts x t).
  { clear - Pn. intros x I. assert (Y : exists t, In t (filter opens N) /\ depicts x t).
    { induction Pn as [|y t l l' D F IH]; [destruct I|]. destruct I as [<-|I]; [exists t; split; [left; reflexivity|exact D]|].
      destruct (IH I) as (u & A & B). exists u. split; [right; exact A|exact B]. }
    destruct Y as (t & A & B). apply filter_In in A. exists t. tauto. }
  destruct (get_element_by_id d v) as [i|].
  - destruct Fi as (Di & Ii & Mx). destruct (node_tree _ _ _ _ P Er i Di) as (g & t & Tt & St).
    destruct (tree_inv _ _ _ _ Tt) as (_ & _ & M & _).
    assert (It : tree_id v t) by (destruct Ii as (m & a & A & B); exists m, a; rewrite M; auto).
    assert (IN : In t (filter opens N)).
    { apply sub_nodes in St. rewrite Nr' in St. destruct St as [<-|I]; [destruct It as (m & a & A & _); congruence|]. apply filter_In. split; [exact I|].
      rewrite Forall_forall in Be. specialize (Be t I). unfold bare_ends in Be. destruct (opens t); [reflexivity|]. destruct It as (m & a & A & _). rewrite Be in A; [discriminate A|reflexivity]. }
    destruct (last_such (item_id v) (item_id_dec v) (flat_map parts f)) as [(a & x & b & Ef & Ix & Fb)|No].
    + rewrite Ef in Pn. apply Forall2_app_inv_l in Pn. destruct Pn as (la & lb & Pa & Pb & El). inversion Pb as [|? u ? lb' Du Pb']; subst.
      assert (E : u = t).
      { assert (IuN : In u N) by (assert (Y : In u (filter opens N)) by (rewrite El; apply in_or_app; right; left; reflexivity); apply filter_In in Y; apply Y).
        destruct (Nd u IuN) as (g' & j & Tj & _ & Hj). specialize (Hj (proj1 (depicts_id v x u Du) Ix)).
        destruct (Nat.eq_dec j i) as [->|Ne].
        - pose proof (tree_fuel _ _ _ _ Tt (g + g') ltac:(lia)). pose proof (tree_fuel _ _ _ _ Tj (g + g') ltac:(lia)). congruence.
        - exfalso. specialize (Mx j Hj Ne). pose proof (f_equal r_begin (tree_row _ _ _ _ Tt)) as R1. pose proof (f_equal r_begin (tree_row _ _ _ _ Tj)) as R2. cbn in R1, R2.
          rewrite El in IN, So. apply in_app_or in IN. destruct IN as [IN|[IN|IN]].
          + apply in_split in IN. destruct IN as (l1 & l2 & ->). rewrite <- app_assoc in So. cbn [app] in So. apply sorted_two in So. unfold before in So. lia.
          + subst u. lia.
          + clear - IN Pb' Fb It. induction Pb' as [|y w l l' D F IH]; [destruct IN|]. inversion Fb; subst. destruct IN as [->|IN]; [|auto].
            apply (depicts_id v) in D. tauto. }
      subst u. exists g, t, x. split; [exact Tt|]. split; [exact Du|]. exists a, b. auto.
    + exfalso. clear - Pn No IN It. induction Pn as [|y w l l' D F IH]; [destruct IN|]. inversion No; subst. destruct IN as [->|IN]; [|auto].
      apply (depicts_id v) in D. tauto.
  - apply Forall_forall. intros x I Ix. destruct (Mt x I) as (t & It & D). destruct (Nd t It) as (g & j & _ & _ & H). apply (Fi j). apply H. apply (depicts_id v x t D). exact Ix.
Qed.
Lemma last_unique : forall v f x y, last_with_id v f x -> last_with_id v f y -> x = y.
Proof.
  intros v f x y (a & b & Ea & Ix & Fb) (a' & b' & Ea' & Iy & Fb'). rewrite Ea in Ea'. clear Ea f. revert a' Ea'.
  induction a as [|z a IH]; intros [|z' a'] E; cbn in E; injection E as -> E; [reflexivity| | |exact (IH _ E)].
  - exfalso. rewrite Forall_forall in Fb. apply (Fb y); [rewrite E; apply in_or_app; right; left; reflexivity|exact Iy].
  - exfalso. rewrite Forall_forall in Fb'. apply (Fb' x); [rewrite <- E; apply in_or_app; right; left; reflexivity|exact Ix].
Qed.
(** Documents with the same content. *)
Theorem find_same : forall opts s d opts' s' d' f v, parse opts s = Parsed d -> parse opts' s' = Parsed d' -> no_repair opts -> no_repair opts' ->
  doc_content d f -> doc_content d' f ->
  match get_element_by_id d v, get_element_by_id d' v with
  | Some i, Some i' => exists g g' t t' x, tree_of g (d_heap d) i = Some t /\ tree_of g' (d_heap d') i' = Some t' /\ depicts x t /\ depicts x t'
  | None, None => True
  | _, _ => False
  end.
Proof.
  intros opts s d opts' s' d' f v P P' Nr Nr' D D'. pose proof (find_content _ _ _ _ v P Nr D) as A. pose proof (find_content _ _ _ _ v P' Nr' D') as B.
  assert (No : forall x, last_with_id v f x -> Forall (fun x => ~ item_id v x) (flat_map parts f) -> False).
  { intros x (a & b & E & I & _) F. rewrite Forall_forall in F. apply (F x); [rewrite E; apply in_or_app; right; left; reflexivity|exact I]. }
  destruct (get_element_by_id d v) as [i|], (get_element_by_id d' v) as [i'|]; [| | |exact I].
  - destruct A as (g & t & x & T & Dx & L), B as (g' & t' & x' & T' & Dx' & L'). rewrite (last_unique _ _ _ _ L' L) in Dx'. exists g, g', t, t', x. auto.
  - destruct A as (g & t & x & T & Dx & L). exact (No x L B).
  - destruct B as (g & t & x & T & Dx & L). exact (No x L A).
Qed.

(** ** A new id *)
Lemma with_parts : forall l x, exists r, parts x = x :: r /\ parts (with_attrs l x) = with_attrs l x :: r.
Proof. intros l []; cbn; eauto. Qed.
Lemma reattributed_parts : forall v l p r t f x, p <> [] -> Forall2 depicts f (child_list r) -> at_place r p t -> depicts x t -> Forall (fun y => ~ item_id v y) (flat_map parts f) ->
  In (with_attrs l x) (flat_map parts (reattributed p l f)) /\
  forall z, In z (flat_map parts (reattributed p l f)) -> item_id v z -> z = with_attrs l x.
Proof.
  intros v l p. induction p as [|j p IH]; intros r t f x Np Z At Dx F; [congruence|]. clear Np.
  inversion At as [|r' ks j' k p' u Ck Ek Ak]; subst. unfold child_list in Z. rewrite Ck in Z.
  destruct (f2_nth _ _ Z _ _ Ek) as (y & E & Dy & _ & _). pose proof (nth_error_In _ _ E) as Iy. cbn [reattributed]. rewrite E.
  assert (K : forall y, In y f -> forall u, In u (parts y) -> ~ item_id v u).
  { intros y0 Iy0 u Iu. rewrite Forall_forall in F. apply F. apply in_flat_map. exists y0. auto. }
  assert (Q : exists y', match p with [] => with_attrs l y | _ => match y with XElem n m ks e => XElem n m (reattributed p l ks) e | x => x end end = y' /\
    In (with_attrs l x) (parts y') /\ forall z, In z (parts y') -> item_id v z -> z = with_attrs l x).
  { eexists. split; [reflexivity|]. destruct p as [|j2 p].
    - inversion Ak; subst. rewrite (depicts_unique _ _ Dy _ Dx) in *. destruct (with_parts l x) as (rest & E1 & E2). rewrite E2. split; [left; reflexivity|].
      intros z [<-|I] Iz; [reflexivity|]. destruct (K x Iy z); [rewrite E1; right; exact I|exact Iz].
    - assert (Sk : exists ks', t_childs k = Some ks') by (inversion Ak; subst; eauto). destruct Sk as [ks' Sk].
      inversion Dy; subst; try (unfold plain_node in *; repeat match goal with H : _ /\ _ |- _ => destruct H end; congruence).
      match goal with H : Forall2 depicts ?c (child_list k) |- _ => destruct (IH k t c x ltac:(discriminate) H Ak Dx) as [I1 I2]; [apply Forall_forall; intros w Iw; apply (K _ Iy); right; exact Iw|] end.
      cbn [parts]. split; [right; exact I1|]. intros z [<-|I] Iz; [|exact (I2 z I Iz)]. exfalso. eapply (K _ Iy); [left; reflexivity|exact Iz]. }
  destruct Q as (y' & -> & Q1 & Q2). split.
  - rewrite !flat_map_app. apply in_or_app. right. apply in_or_app. left. cbn [flat_map]. rewrite app_nil_r. exact Q1.
  - intros z I Iz. rewrite !flat_map_app in I. apply in_app_or in I. destruct I as [I|I]; [|apply in_app_or in I; destruct I as [I|I]].
    + exfalso. apply in_flat_map in I. destruct I as (w & Iw & Iu). apply (K w) with z; auto. rewrite <- (firstn_skipn j f). apply in_or_app. left. exact Iw.
    + cbn [flat_map] in I. rewrite app_nil_r in I. exact (Q2 z I Iz).
    + exfalso. apply in_flat_map in I. destruct I as (w & Iw & Iu). apply (K w) with z; auto. rewrite <- (firstn_skipn (S j) f). apply in_or_app. right. exact Iw.
Qed.
Theorem new_id : forall opts s d r p t x dt n l sc f v a' l' b, parse opts s = Parsed d -> no_repair opts ->
  doc_tree d = Some r -> at_place r p t -> depicts x t -> starts_as x dt n l sc -> doc_content d f -> get_element_by_id d v = None ->
  follows_name dt a' -> area (allow_attr_key_starts_with_equal_sign opts) dt a' l' sc -> In b l' -> id_value b v ->
  exists s1 a s3 d2 i g t2, s = s1 ++ n ++ a ++ str ">" ++ s3 /\ length s1 = t_begin_at t /\
    parse opts (s1 ++ n ++ a' ++ str ">" ++ s3) = Parsed d2 /\ get_element_by_id d2 v = Some i /\
    tree_of g (d_heap d2) i = Some t2 /\ depicts (with_attrs l' x) t2.
Proof.
  intros opts s d r p t x dt n l sc f v a' l' b P Nr Er At Dx St Df No Fo Ar Ib Vb.
  destruct (set_attributes opts s d r p t x dt n l sc f a' l' (mkEnv (fun _ => None) (fun c => c) (fun _ => false) (fun _ => None)) P Nr (content_open _ _ _ _ P Df) Er At Dx St Df Fo Ar)
    as (s1 & a & s3 & d2 & _ & _ & Es & Ls & _ & _ & P2 & D2 & _).
  pose proof (find_content _ _ _ _ v P Nr Df) as N1. rewrite No in N1. pose proof (find_content _ _ _ _ v P2 Nr D2) as N2.
  pose proof Df as (r0 & E0 & T0 & C0 & En0 & M0 & Z). rewrite Er in E0. injection E0 as <-.
  assert (Np : p <> []) by (intros ->; inversion At; subst; inversion Dx; subst; inversion St; subst; congruence).
  destruct (reattributed_parts v l' p r t f x Np Z At Dx N1) as [I1 I2].
  destruct (get_element_by_id d2 v) as [i|] eqn:G2.
  - destruct N2 as (g & t2 & y & T2 & D & (u & w & E & Iy & _)). rewrite (I2 y) in D; [|rewrite E; apply in_or_app; right; left; reflexivity|exact Iy].
    exists s1, a, s3, d2, i, g, t2. repeat (split; [first [assumption|reflexivity]|]). exact D.
  - exfalso. rewrite Forall_forall in N2. apply (N2 _ I1). exists b. split; [|exact Vb]. destruct St; exact Ib.
Qed.
