(** The Debug output of nodes, errors and options, for C65. *)
From Coq Require Import String Lia.
From Verif Require Import StructEnd RenderProofs ErrorProofs SpecError SpecDebug DebugProofs DebugRead.
Local Open Scope string_scope.
Local Open Scope list_scope.

Definition letterb (c : char) : bool := ((N.leb 65 c && N.leb c 90) || (N.leb 97 c && N.leb c 122))%bool.
Definition identb (n : list char) : bool :=
  match n with [] => false | c :: r => (letterb c && forallb (fun c => letterb c || (N.leb 48 c && N.leb c 57) || N.eqb c 95)%bool r)%bool end.
Lemma identb_ok : forall n, identb n = true -> ident n.
Proof.
  intros [|c r] H; [discriminate|]. apply andb_prop in H. destruct H as [H1 H2].
  assert (L : forall c, letterb c = true -> letter c).
  { unfold letterb, letter. intros d X. apply Bool.orb_prop in X. destruct X as [X|X]; apply andb_prop in X; destruct X as [X1 X2]; apply N.leb_le in X1, X2; lia. }
  exists c, r. split; [reflexivity|]. split; [auto|]. rewrite forallb_forall in H2. apply Forall_forall. intros d I. specialize (H2 d I). cbn in H2.
  apply Bool.orb_prop in H2. destruct H2 as [H2|H2]; [|right; right; apply N.eqb_eq; exact H2].
  apply Bool.orb_prop in H2. destruct H2 as [H2|H2]; [left; auto|]. apply andb_prop in H2. destruct H2 as [X1 X2]. apply N.leb_le in X1, X2. right. left. lia.
Qed.
Ltac idn := apply identb_ok; vm_compute; reflexivity.
Ltac fields := repeat (apply Forall_cons; [cbn [fst snd]|]); try apply Forall_nil.
Ltac struct := apply nm_struct; [idn|discriminate|fields; try idn|fields].

Lemma bool_named : forall b, named (dbool b).
Proof. intros [|]; apply nm_name; idn. Qed.
Lemma opt_named : forall A (f : A -> dval) o, (forall x, o = Some x -> named (f x)) -> named (dopt f o).
Proof.
  intros A f [x|] H; cbn [dopt].
  - apply nm_tuple; [idn|discriminate|]. constructor; [apply H; reflexivity|constructor].
  - apply nm_name. idn.
Qed.
Lemma chars_named : forall l, named (dchars l).
Proof. intro l. apply nm_list. apply Forall_forall. intros x I. apply in_map_iff in I. destruct I as (c & <- & _). constructor. Qed.
Lemma cell_named : forall v, named v -> named (dcell v).
Proof. intros v N. struct. exact N. Qed.
Lemma data_named : forall c, named (dattr_data c).
Proof. intro c. struct. apply chars_named. Qed.
Lemma attr_named : forall a, named (dattr a).
Proof.
  intro a. struct; try apply bool_named; apply opt_named; intros; [apply data_named|apply data_named|constructor].
Qed.
Lemma type_named : forall t, named (dtype t).
Proof. intros []; apply nm_name; idn. Qed.
Lemma code_named : forall t, named (dtag_code t).
Proof. intros []; apply nm_name; idn. Qed.
Lemma meta_named : forall order m, named (dmeta order m).
Proof.
  intros order m. struct; try apply bool_named; [apply code_named|apply chars_named| |].
  - apply nm_list. apply Forall_forall. intros x I. apply in_map_iff in I. destruct I as (c & <- & _). apply attr_named.
  - apply nm_map; apply Forall_forall; intros x I; apply in_map_iff in I; destruct I as (c & <- & _); constructor.
Qed.
Lemma map_opt_in : forall A B (f : A -> option B) l l', map_opt f l = Some l' -> Forall2 (fun x y => f x = Some y) l l'.
Proof.
  intros A B f. induction l as [|x l IH]; intros l' E; cbn in E.
  - injection E as <-. constructor.
  - destruct (f x) as [y|] eqn:F; [|discriminate]. destruct (map_opt f l) as [ys|]; [|discriminate]. injection E as <-. constructor; auto.
Qed.
Lemma in_map_opt : forall A B (f : A -> option B) l l', Forall2 (fun x y => f x = Some y) l l' -> map_opt f l = Some l'.
Proof. intros A B f l l' F. induction F as [|x y l l' E F IH]; cbn; [reflexivity|]. rewrite E, IH. reflexivity. Qed.
Lemma node_named : forall order dd fuel h i v, dnode order dd fuel h i = Some v -> named v.
Proof.
  intros order dd. induction fuel as [|fuel IH]; intros h i v E; [discriminate|]. cbn [dnode] in E.
  set (n := hget h i) in *.
  destruct (match n_end_tag n with None => Some None | Some e => match dnode order dd fuel h e with Some v => Some (Some v) | None => None end end) as [et|] eqn:Ee; [|discriminate].
  destruct (match n_childs n with None => Some None | Some l => match map_opt (dnode order dd fuel h) l with Some l' => Some (Some l') | None => None end end) as [ks|] eqn:Ek; [|discriminate].
  injection E as <-. struct; try apply bool_named; try apply nm_num; [apply type_named|apply opt_named; intros; apply chars_named| | |]; apply opt_named.
  - intros l ->. apply nm_list. destruct (n_childs n) as [l0|]; [|discriminate]. destruct (map_opt (dnode order dd fuel h) l0) as [l'|] eqn:M; [|discriminate].
    injection Ek as <-. apply map_opt_in in M. apply Forall_forall. intros x I. apply in_map_iff in I. destruct I as (c & <- & I). apply cell_named.
    clear - M I IH. induction M as [|? ? ? ? X M IHM]; [destruct I|]. destruct I as [->|I]; [exact (IH _ _ _ X)|auto].
  - intros m _. apply cell_named, meta_named.
  - intros t ->. destruct (n_end_tag n) as [e|]; [|discriminate]. destruct (dnode order dd fuel h e) as [w|] eqn:W; [|discriminate]. injection Ee as <-. apply cell_named. exact (IH _ _ _ W).
Qed.

(** ** What the values say *)
Lemma opt_inj : forall A B (f : A -> dval) (g : B -> dval) o o', dopt f o = dopt g o' ->
  match o, o' with None, None => True | Some x, Some y => f x = g y | _, _ => False end.
Proof. intros A B f g [x|] [y|] E; cbn [dopt] in E; try discriminate E; [injection E as E; exact E|exact I]. Qed.
Lemma map_inj : forall A (f : A -> dval) l l', (forall x y, f x = f y -> x = y) -> map f l = map f l' -> l = l'.
Proof.
  intros A f l l' H. revert l'. induction l as [|x l IH]; intros [|y l'] E; try discriminate E; [reflexivity|].
  cbn in E. injection E as E1 E2. f_equal; auto.
Qed.
Lemma chars_inj : forall l l', dchars l = dchars l' -> l = l'.
Proof. intros l l' E. injection E as E. apply (map_inj _ DChar) in E; [exact E|]. intros x y X. injection X as ->. reflexivity. Qed.
Lemma bool_inj : forall b b', dbool b = dbool b' -> b = b'.
Proof. intros [|] [|] E; try reflexivity; discriminate E. Qed.
Lemma type_inj : forall t t', dtype t = dtype t' -> t = t'.
Proof. intros [] [] E; try reflexivity; discriminate E. Qed.
Lemma code_inj : forall t t', dtag_code t = dtag_code t' -> t = t'.
Proof. intros [] [] E; try reflexivity; discriminate E. Qed.
Definition field (k : nat) (v : dval) : dval := match v with DStruct _ l => snd (nth k l ([], DNum 0)) | _ => DNum 0 end.
Lemma data_inj : forall c c', dattr_data c = dattr_data c' -> c = c'.
Proof. intros c c' E. apply (f_equal (field 0)) in E. exact (chars_inj _ _ E). Qed.
Lemma opt_eq : forall A (f : A -> dval) o o', (forall x y, f x = f y -> x = y) -> dopt f o = dopt f o' -> o = o'.
Proof. intros A f o o' H E. apply opt_inj in E. destruct o; destruct o'; try contradiction; [f_equal; auto|reflexivity]. Qed.
Lemma attr_inj : forall a a', dattr a = dattr a' -> a = a'.
Proof.
  intros [k v q n] [k' v' q' n'] E.
  assert (E0 := f_equal (field 0) E). assert (E1 := f_equal (field 1) E). assert (E2 := f_equal (field 2) E). assert (E3 := f_equal (field 3) E). clear E.
  cbn [field dattr nth snd a_key a_value a_quote a_need_quote] in *.
  apply (opt_eq _ _ _ _ data_inj) in E0. apply (opt_eq _ _ _ _ data_inj) in E1. apply bool_inj in E3. apply opt_eq in E2; [congruence|].
  intros x y X. injection X as ->. reflexivity.
Qed.
Lemma meta_inj : forall o o' m m', shuffles o -> shuffles o' -> dmeta o m = dmeta o' m' -> meta_alike m m'.
Proof.
  intros o o' [c vd sc af n a l] [c' vd' sc' af' n' a' l'] S S' E.
  assert (E0 := f_equal (field 0) E). assert (E1 := f_equal (field 1) E). assert (E2 := f_equal (field 2) E). assert (E3 := f_equal (field 3) E).
  assert (E4 := f_equal (field 4) E). assert (E5 := f_equal (field 5) E). assert (E6 := f_equal (field 6) E). clear E.
  cbn [field dmeta nth snd m_code_in m_is_void m_self_closed m_auto_fix m_name m_attrs m_lc_name_map] in *.
  apply code_inj in E0. apply bool_inj in E1, E2, E3. apply chars_inj in E4. injection E5 as E5. apply (map_inj _ _ _ _ attr_inj) in E5. injection E6 as E6.
  subst. unfold meta_alike. cbn. repeat (split; [reflexivity|]).
  assert (X : o l = o' l').
  { revert E6. generalize (o l), (o' l'). induction l0 as [|[x y] r IH]; intros [|[x' y'] r'] E; try discriminate E; [reflexivity|].
    cbn in E. injection E as -> -> E. f_equal. auto. }
  rewrite <- (S' l'), <- X. apply S.
Qed.
Lemma node_inj : forall o o' dd dd', shuffles o -> shuffles o' -> forall fuel fuel' h h' i i' v, dnode o dd fuel h i = Some v -> dnode o' dd' fuel' h' i' = Some v ->
  exists t t', tree_of fuel h i = Some t /\ tree_of fuel' h' i' = Some t' /\ alike t t' /\
    is_some (n_parent (hget h' i')) = is_some (n_parent (hget h i)) /\ is_some (n_root (hget h' i')) = is_some (n_root (hget h i)) /\ dd' i' = dd i.
Proof.
  intros o o' dd dd' S S'. induction fuel as [|fuel IH]; intros fuel' h h' i i' v E E'; [discriminate|]. destruct fuel' as [|fuel']; [discriminate|].
  cbn [dnode tree_of] in *. set (n := hget h i) in *. set (n' := hget h' i') in *.
  destruct (match n_end_tag n with None => Some None | Some e => match dnode o dd fuel h e with Some v => Some (Some v) | None => None end end) as [et|] eqn:Ee; [|discriminate].
  destruct (match n_childs n with None => Some None | Some l => match map_opt (dnode o dd fuel h) l with Some l' => Some (Some l') | None => None end end) as [ks|] eqn:Ek; [|discriminate].
  destruct (match n_end_tag n' with None => Some None | Some e => match dnode o' dd' fuel' h' e with Some v => Some (Some v) | None => None end end) as [et'|] eqn:Ee'; [|discriminate].
  destruct (match n_childs n' with None => Some None | Some l => match map_opt (dnode o' dd' fuel' h') l with Some l' => Some (Some l') | None => None end end) as [ks'|] eqn:Ek'; [|discriminate].
  rewrite <- E' in E. clear E' v.
  assert (G : forall k a b, Some a = Some b -> field k a = field k b) by (intros k a b X; injection X as ->; reflexivity).
  assert (E0 := G 0 _ _ E). assert (E1 := G 1 _ _ E). assert (E2 := G 2 _ _ E). assert (E3 := G 3 _ _ E). assert (E4 := G 4 _ _ E). assert (E5 := G 5 _ _ E).
  assert (E6 := G 6 _ _ E). assert (E7 := G 7 _ _ E). assert (E8 := G 8 _ _ E). assert (E9 := G 9 _ _ E). assert (E10 := G 10 _ _ E). clear E G.
  cbn [field nth snd] in *. injection E0 as E0. apply type_inj in E1. injection E2 as E2. injection E3 as E3. apply (opt_eq _ _ _ _ chars_inj) in E4.
  apply bool_inj in E8, E9, E10. apply opt_inj in E5, E6, E7.
  assert (Ht : exists te te', match n_end_tag n with None => Some None | Some e => match tree_of fuel h e with Some t => Some (Some t) | None => None end end = Some te /\
    match n_end_tag n' with None => Some None | Some e => match tree_of fuel' h' e with Some t => Some (Some t) | None => None end end = Some te' /\ both alike te te').
  { destruct (n_end_tag n) as [e|].
    - destruct (dnode o dd fuel h e) as [w|] eqn:W; [|discriminate]. injection Ee as <-. destruct et' as [w'|]; [|destruct E7].
      destruct (n_end_tag n') as [e'|]; [|discriminate]. destruct (dnode o' dd' fuel' h' e') as [w2|] eqn:W'; [|discriminate]. injection Ee' as <-.
      apply (f_equal (field 0)) in E7. cbn in E7. subst w2. destruct (IH _ _ _ _ _ _ W W') as (t & t' & -> & -> & Al & _). eexists _, _. repeat split. constructor. exact Al.
    - injection Ee as <-. destruct et' as [w'|]; [destruct E7|]. destruct (n_end_tag n') as [e'|]; [destruct (dnode o' dd' fuel' h' e'); discriminate|].
      eexists _, _. repeat split. constructor. }
  assert (Hk : exists tk tk', match n_childs n with None => Some None | Some l => match map_opt (tree_of fuel h) l with Some l' => Some (Some l') | None => None end end = Some tk /\
    match n_childs n' with None => Some None | Some l => match map_opt (tree_of fuel' h') l with Some l' => Some (Some l') | None => None end end = Some tk' /\ both (Forall2 alike) tk tk').
  { destruct (n_childs n) as [l|].
    - destruct (map_opt (dnode o dd fuel h) l) as [w|] eqn:W; [|discriminate]. injection Ek as <-. destruct ks' as [w'|]; [|destruct E5].
      destruct (n_childs n') as [l'|]; [|discriminate]. destruct (map_opt (dnode o' dd' fuel' h') l') as [w2|] eqn:W'; [|discriminate]. injection Ek' as <-.
      injection E5 as E5. apply map_inj in E5; [|intros x y X; exact (f_equal (field 0) X)]. subst w2. apply map_opt_in in W, W'.
      assert (X : exists r r', map_opt (tree_of fuel h) l = Some r /\ map_opt (tree_of fuel' h') l' = Some r' /\ Forall2 alike r r').
      { revert l' W'. induction W as [|x y l w D W IHW]; intros l' W'; inversion W' as [|x' ? l2 ? D' W2]; subst.
        - exists [], []. repeat split. constructor.
        - destruct (IHW _ W2) as (r & r' & R & R' & Al). destruct (IH _ _ _ _ _ _ D D') as (t & t' & T & T' & At & _).
          exists (t :: r), (t' :: r'). cbn. rewrite R, R', T, T'. repeat split. constructor; assumption. }
      destruct X as (r & r' & -> & -> & Al). eexists _, _. repeat split. constructor. exact Al.
    - injection Ek as <-. destruct ks' as [w'|]; [destruct E5|]. destruct (n_childs n') as [l'|]; [destruct (map_opt (dnode o' dd' fuel' h') l'); discriminate|].
      eexists _, _. repeat split. constructor. }
  destruct Ht as (te & te' & -> & -> & At). destruct Hk as (tk & tk' & -> & -> & Ak). eexists _, _. split; [reflexivity|]. split; [reflexivity|].
  split; [|split; [congruence|split; congruence]]. rewrite E0, E1, E2, E3, E4. constructor; [exact At|exact Ak|].
  destruct (n_meta n); destruct (n_meta n'); try contradiction; constructor. exact (meta_inj _ _ _ _ S S' (f_equal (field 0) E6)).
Qed.
Lemma node_total : forall o dd fuel h i t, tree_of fuel h i = Some t -> exists v, dnode o dd fuel h i = Some v.
Proof.
  intros o dd. induction fuel as [|fuel IH]; intros h i t E; [discriminate|]. cbn [dnode tree_of] in *. set (n := hget h i) in *.
  destruct (match n_end_tag n with None => Some None | Some e => match tree_of fuel h e with Some t => Some (Some t) | None => None end end) as [et|] eqn:Ee; [|discriminate].
  destruct (match n_childs n with None => Some None | Some l => match map_opt (tree_of fuel h) l with Some l' => Some (Some l') | None => None end end) as [ks|] eqn:Ek; [|discriminate].
  assert (Ht : exists ve, match n_end_tag n with None => Some None | Some e => match dnode o dd fuel h e with Some v => Some (Some v) | None => None end end = Some ve).
  { destruct (n_end_tag n) as [e|]; [|eauto]. destruct (tree_of fuel h e) as [t0|] eqn:T; [|discriminate]. destruct (IH _ _ _ T) as (v & ->). eauto. }
  assert (Hk : exists vk, match n_childs n with None => Some None | Some l => match map_opt (dnode o dd fuel h) l with Some l' => Some (Some l') | None => None end end = Some vk).
  { destruct (n_childs n) as [l|]; [|eauto]. destruct (map_opt (tree_of fuel h) l) as [r|] eqn:T; [|discriminate]. apply map_opt_in in T.
    assert (X : exists w, map_opt (dnode o dd fuel h) l = Some w).
    { clear - T IH. induction T as [|x y l r D T [w IHT]]; [exists []; reflexivity|]. destruct (IH _ _ _ D) as (v & V). exists (v :: w). cbn. rewrite V, IHT. reflexivity. }
    destruct X as (w & ->). eauto. }
  destruct Ht as (ve & ->). destruct Hk as (vk & ->). eauto.
Qed.

(** ** Texts *)
Lemma node_shown : forall opts s d i, parse opts s = Parsed d -> i < length (d_heap d) -> forall plain pretty order dd, exists out, node_text plain pretty order dd (d_heap d) i = Some out.
Proof.
  intros opts s d i P L plain pretty order dd. destruct (parsed_hs _ _ _ P) as [H _].
  destruct (tree_of (length (d_heap d)) (d_heap d) i) as [t|] eqn:T.
  2: { destruct (tree_exists _ _ (length (d_heap d)) i H L); [lia|exact T]. }
  destruct (node_total order dd _ _ _ _ T) as [v V]. unfold node_text. rewrite V. eexists. reflexivity.
Qed.
Lemma text_alike : forall plain pretty o o' dd dd' h h' i i' out, shuffles o -> shuffles o' ->
  node_text plain pretty o dd h i = Some out -> node_text plain pretty o' dd' h' i' = Some out ->
  exists t t', tree_of (length h) h i = Some t /\ tree_of (length h') h' i' = Some t' /\ alike t t' /\
    is_some (n_parent (hget h' i')) = is_some (n_parent (hget h i)) /\ is_some (n_root (hget h' i')) = is_some (n_root (hget h i)) /\ dd' i' = dd i.
Proof.
  intros plain pretty o o' dd dd' h h' i i' out S S' E E'. unfold node_text in *.
  destruct (dnode o dd (length h) h i) as [v|] eqn:V; [|discriminate]. destruct (dnode o' dd' (length h') h' i') as [v'|] eqn:V'; [|discriminate].
  cbn [option_map] in *. injection E as E. injection E' as E'. assert (X : v = v').
  { apply (debug_inj plain pretty); [exact (node_named _ _ _ _ _ _ V)|exact (node_named _ _ _ _ _ _ V')|congruence]. }
  subst v'. exact (node_inj o o' dd dd' S S' _ _ _ _ _ _ _ V V').
Qed.

Lemma meta_build : forall env o i ty b e et et' c ks ks' m m' s, both meta_alike m m' ->
  build_node env o (TNode i ty b e et' c ks' m') s = build_node env o (TNode i ty b e et c ks m) s.
Proof.
  intros env o i ty b e et et' c ks ks' m m' s [|x y (A & B & C & D & E & F & _)]; unfold build_node; cbn [t_type t_content t_meta]; [reflexivity|].
  destruct ty; try reflexivity; unfold attrs_to_string; rewrite ?A, ?B, ?C, ?D, ?E, ?F; reflexivity.
Qed.
Lemma node_build : forall env o t t' s, alike t t' -> build_node env o t' s = build_node env o t s.
Proof. intros env o t t' s [i ty b e c et et' ks ks' m m' _ _ M]. apply meta_build. exact M. Qed.
Lemma tree_build : forall env o t t' s, alike t t' -> build_tree env o t' s = build_tree env o t s.
Proof.
  intros env o t. induction t as [i0 ty b e et c ks m Het Hks] using tree_ind'. intros t' s A. assert (N := fun s => node_build env o _ _ s A).
  inversion A as [? ? ? ? ? ? et' ? ks' ? m' Be Bk Bm]. subst. rewrite !build_tree_eq. cbv zeta. rewrite N.
  destruct (build_node env o (TNode i0 ty b e et c ks m) s) as [[s1 o1]| |]; cbn [rbind]; try reflexivity.
  assert (K : forall l l' s, Forall (fun t => forall t' s, alike t t' -> build_tree env o t' s = build_tree env o t s) l -> Forall2 alike l l' -> build_list env o l' s = build_list env o l s).
  { clear. intros l l' s F G. revert s F. induction G as [|t t' l l' Al G IH]; intros s F; [reflexivity|]. inversion F. subst. cbn [build_list]. rewrite (H1 _ _ Al).
    destruct (build_tree env o t s) as [[s1 o1]| |]; cbn [rbind]; try reflexivity. rewrite IH by assumption. reflexivity. }
  assert (E : forall s, match et' with None => ROk (s, []) | Some x => build_node env o x s end = match et with None => ROk (s, []) | Some x => build_node env o x s end).
  { intro s0. inversion Be as [|x y X]; subst; [reflexivity|]. apply node_build. exact X. }
  inversion Bk as [|l l' X]; subst; cbn [optP] in *.
  - cbn [rbind]. rewrite E. reflexivity.
  - rewrite !(K l l') by assumption. destruct (rs_root s1).
    + destruct (build_list env o l (rs_set_root false s1)) as [[s2 o2]| |]; cbn [rbind]; try reflexivity. rewrite E. reflexivity.
    + destruct (build_list env o l s1) as [[s2 o2]| |]; cbn [rbind]; try reflexivity. rewrite E. reflexivity.
Qed.
Lemma alike_build : forall env o t t' text, alike t t' -> build env o t' text = build env o t text.
Proof.
  intros env o t t' text A. unfold build. assert (T := fun s => tree_build env o _ _ s A).
  assert (Ty : t_type t' = t_type t) by (destruct A; reflexivity). rewrite Ty.
  assert (B : both (Forall2 alike) (t_childs t) (t_childs t')) by (destruct A; assumption).
  assert (Fi : forall l l', Forall2 alike l l' -> Forall2 alike (filter is_tag l) (filter is_tag l')).
  { intros l l' F. induction F as [|x y l l' X F IH]; [constructor|]. cbn [filter]. assert (E : is_tag y = is_tag x) by (destruct X; reflexivity).
    rewrite E. destruct (is_tag x); [constructor; assumption|exact IH]. }
  destruct (text && inner_html o)%bool; [reflexivity|]. rewrite !T.
  destruct (if text then IText else _); try reflexivity; destruct (t_type t); try reflexivity; inversion B as [|l l' X]; try reflexivity; apply Fi in X;
    inversion X as [|x y ? ? Al X']; try reflexivity; subst; inversion X'; subst; try reflexivity; rewrite (tree_build env o x y _ Al); reflexivity.
Qed.

Lemma roots_alike : forall opts opts' s s' d d' plain pretty o o', parse opts s = Parsed d -> parse opts' s' = Parsed d' -> shuffles o -> shuffles o' ->
  root_text plain pretty o d = root_text plain pretty o' d' ->
  exists t t', doc_tree d = Some t /\ doc_tree d' = Some t' /\ alike t t' /\ forall env ro text, render_gen env ro text d' = render_gen env ro text d.
Proof.
  intros opts opts' s s' d d' plain pretty o o' P P' S S' E. destruct (parsed_hs _ _ _ P) as [H R0].
  assert (R : d_root d < length (d_heap d)) by (rewrite R0; apply H).
  destruct (node_shown _ _ _ _ P R plain pretty o (fun i => Nat.eqb i (d_root d))) as [out O]. unfold root_text in E. rewrite O in E. symmetry in E.
  destruct (text_alike _ _ _ _ _ _ _ _ _ _ _ S S' O E) as (t & t' & T & T' & A & _). exists t, t'. split; [exact T|]. split; [exact T'|]. split; [exact A|].
  intros env ro text. unfold render_gen, doc_tree in *. rewrite T, T'. apply alike_build. exact A.
Qed.

(** ** Errors and options *)
Lemma kind_named : forall k, named (dkind k).
Proof. intros []; cbn [dkind]; apply nm_tuple; try idn; try discriminate; repeat constructor. Qed.
Lemma region_named : forall r, named (dregion r).
Proof. intro r. struct; constructor. Qed.
Lemma dkind_inj : forall k k', dkind k = dkind k' -> k = k' \/
  (exists c, k = EUnclosedTag (code_text c) /\ k' = EUnclosedCode c) \/ (exists c, k = EUnclosedCode c /\ k' = EUnclosedTag (code_text c)).
Proof.
  intros k k' E. destruct k; destruct k'; cbn [dkind] in E; try discriminate E; try (left; reflexivity); try (injection E; intros; subst; left; reflexivity).
  - injection E as ->. right. left. eauto.
  - injection E as <-. right. right. eauto.
  - injection E as E. left. destruct c; destruct c0; try reflexivity; discriminate E.
Qed.
Lemma error_inj : forall plain pretty k k' r r', error_debug plain pretty k r = error_debug plain pretty k' r' -> r = r' /\ (k = k' \/
  (exists c, k = EUnclosedTag (code_text c) /\ k' = EUnclosedCode c) \/ (exists c, k = EUnclosedCode c /\ k' = EUnclosedTag (code_text c))).
Proof.
  intros plain pretty k k' r r' E. apply debug_inj in E.
  - assert (E0 := f_equal (field 0) E). assert (E1 := f_equal (field 1) E). clear E. cbn [field nth snd] in *. split; [|apply dkind_inj; exact E1].
    assert (A := f_equal (field 0) E0). assert (B := f_equal (field 1) E0). assert (C := f_equal (field 2) E0). cbn [field dregion nth snd] in *.
    injection A as A. injection B as B. injection C as C. destruct r; destruct r'; cbn in *; congruence.
  - struct; [apply region_named|apply kind_named].
  - struct; [apply region_named|apply kind_named].
Qed.
Lemma po_inj : forall plain pretty o o', debug plain pretty (dparse_options o) = debug plain pretty (dparse_options o') -> o = o'.
Proof.
  intros plain pretty o o' E. apply debug_inj in E; [|struct; apply bool_named|struct; apply bool_named].
  assert (E0 := f_equal (field 0) E). assert (E1 := f_equal (field 1) E). assert (E2 := f_equal (field 2) E). assert (E3 := f_equal (field 3) E).
  assert (E4 := f_equal (field 4) E). assert (E5 := f_equal (field 5) E). clear E. cbn [field dparse_options nth snd] in *.
  apply bool_inj in E0, E1, E2, E3, E4, E5. destruct o; destruct o'; cbn in *; congruence.
Qed.
Lemma ro_inj : forall plain pretty o o', debug plain pretty (drender_options o) = debug plain pretty (drender_options o') -> o = o'.
Proof.
  intros plain pretty o o' E. apply debug_inj in E; [|struct; apply bool_named|struct; apply bool_named].
  assert (E0 := f_equal (field 0) E). assert (E1 := f_equal (field 1) E). assert (E2 := f_equal (field 2) E). assert (E3 := f_equal (field 3) E).
  assert (E4 := f_equal (field 4) E). assert (E5 := f_equal (field 5) E). assert (E6 := f_equal (field 6) E). assert (E7 := f_equal (field 7) E). assert (E8 := f_equal (field 8) E).
  clear E. cbn [field drender_options nth snd] in *.
  apply bool_inj in E0, E1, E2, E3, E4, E5, E6, E7, E8. destruct o; destruct o'; cbn in *; congruence.
Qed.
