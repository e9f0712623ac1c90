(** Bounds on the length of renderings and the work of rendering. *)
From Coq Require Import String.
From Verif Require Import Api SpecText SpecRender SpecTree SpecCost SpecSize Cost RenderCost RenderProofs CostProofs CostWork StructEnd.
Local Open Scope string_scope.
Local Open Scope list_scope.

(** ** Sizes *)
Definition attr_size (a : attr) : nat := S (length (attr_build a false)).
Definition attrs_size (l : list attr) : nat := list_sum (map attr_size l).
Definition size_of (ty : node_type) (c : option (list char)) (m : option tag_meta) : nat :=
  match ty with
  | NText | NSpacesBetweenTag => opt_length c
  | NTag =>
      match m with
      | Some m => 2 + length (m_name m) + attrs_size (m_attrs m)
                  + (if (m_self_closed m || m_auto_fix m)%bool then 2 else 0) + opt_length c
      | None => 0
      end
  | NTagEnd => 3 + opt_length c
  | NHTMLDOCTYPE => match m with Some m => 3 + length (m_name m) + attrs_size (m_attrs m) | None => 0 end
  | NComment => 7 + opt_length c
  | NXMLCDATA => 12 + opt_length c
  | NAbstractRoot => 0
  end.
Definition node_size (t : tree) : nat := size_of (t_type t) (t_content t) (t_meta t).
Fixpoint tree_size (t : tree) : nat :=
  let of := fix of (ts : list tree) : nat := match ts with [] => 0 | x :: r => tree_size x + of r end in
  match t with
  | TNode _ _ _ _ e _ ks _ =>
      node_size t + match ks with Some l => of l | None => 0 end + match e with Some x => node_size x | None => 0 end
  end.
Definition list_size (l : list tree) : nat := list_sum (map tree_size l).
Definition list_count (l : list tree) : nat := list_sum (map count l).
Lemma tree_size_eq : forall i ty b e et c ks m,
  tree_size (TNode i ty b e et c ks m) = size_of ty c m
    + match ks with Some l => list_size l | None => 0 end + match et with Some x => node_size x | None => 0 end.
Proof. intros. cbn [tree_size]. destruct ks as [l|]; [|reflexivity]. do 2 f_equal. induction l as [|x l IH]; [reflexivity|]. rewrite IH. reflexivity. Qed.
Lemma count_eq : forall i ty b e et c ks m,
  count (TNode i ty b e et c ks m) = 1
    + match ks with Some l => list_count l | None => 0 end + match et with Some x => 1 | None => 0 end.
Proof. intros. cbn [count]. destruct ks as [l|]; [|reflexivity]. do 2 f_equal. induction l as [|x l IH]; [reflexivity|]. rewrite IH. reflexivity. Qed.

(** ** Single nodes *)
Lemma attr_build_le : forall a rq, length (attr_build a rq) <= length (attr_build a false).
Proof.
  intros a rq. unfold attr_build. destruct (a_value a) as [v|]; [|lia]. rewrite !app_length. destruct (a_quote a) as [q|]; [|lia].
  rewrite orb_true_r. destruct (a_need_quote a || negb rq)%bool; rewrite ?app_length; lia.
Qed.
Lemma attrs_length : forall m rq, length (attrs_to_string m rq) = list_sum (map (fun a => S (length (attr_build a rq))) (m_attrs m)).
Proof.
  intros m rq. unfold attrs_to_string. induction (m_attrs m) as [|a l IH]; [reflexivity|]. cbn [flat_map map]. rewrite list_sum_cons, app_length, IH. reflexivity.
Qed.
Lemma sum_le : forall A (f g : A -> nat) l, (forall x, In x l -> f x <= g x) -> list_sum (map f l) <= list_sum (map g l).
Proof.
  intros A f g l. induction l as [|x l IH]; intro H; [apply le_n|]. cbn [map]. rewrite !list_sum_cons.
  pose proof (H x (or_introl eq_refl)). specialize (IH (fun y Y => H y (or_intror Y))). lia.
Qed.
Lemma attrs_le : forall m rq, length (attrs_to_string m rq) <= attrs_size (m_attrs m).
Proof. intros. rewrite attrs_length. apply sum_le. intros a _. unfold attr_size. pose proof (attr_build_le a rq). lia. Qed.
Lemma attrs_full : forall m, length (attrs_to_string m false) = attrs_size (m_attrs m).
Proof. intros. rewrite attrs_length. reflexivity. Qed.
Lemma minify_text_le : forall l b, length (minify_text l b) <= length l.
Proof.
  induction l as [|c l IH]; intro b; cbn [minify_text]; [lia|]. destruct (is_ascii_whitespace c); [destruct b|]; cbn [length]; specialize (IH true) as A; specialize (IH false) as B; lia.
Qed.
Lemma minify_decode_le : forall env l b e, length (minify_decode env l b e) <= length l + match e with Some e => S (length e) | None => 0 end.
Proof.
  induction l as [|c l IH]; intros b e; cbn [minify_decode].
  - destruct e; cbn; lia.
  - destruct e as [e|].
    + destruct (N.eqb c SEMI_CHAR).
      * rewrite app_length. pose proof (IH b None). destruct (ent_decode env e); cbn [length app] in *; rewrite ?app_length; cbn [length]; lia.
      * pose proof (IH b (Some (e ++ [c]))) as H. cbv beta iota in H. rewrite app_length in H. cbn [length] in *. lia.
    + destruct (N.eqb c AMP_CHAR); [pose proof (IH b (Some [])); cbn [length] in *; lia|].
      destruct (is_ascii_whitespace c); [destruct b|]; cbn [length]; pose proof (IH true None) as A; pose proof (IH false None) as B; cbv beta iota in *; lia.
Qed.
Section Bound.
Variables (K : nat) (env : entity_env) (o : render_options).
Hypothesis G : growth K env o.
Lemma encode_le : forall c, encode_content o = true -> length (content_encode env c) <= K * length c.
Proof.
  intros c E. destruct G as (K1 & _ & F). specialize (F E). induction c as [|x c IH]; [cbn; lia|].
  unfold content_encode in *. cbn [flat_map]. rewrite app_length. cbn [length].
  assert (L : length (if ent_in_html env x then match ent_encode env x with Some e => e | None => [x] end else [x]) <= K).
  { destruct (ent_in_html env x); [|cbn; lia]. destruct (ent_encode env x) as [e|] eqn:Ee; [eapply F; eauto|cbn; lia]. }
  lia.
Qed.
Lemma k1 : forall n, n <= K * n.
Proof. intro n. destruct G as (K1 & _). nia. Qed.
Lemma kle : forall a b, a <= b -> a <= K * b.
Proof. intros a b L. pose proof (k1 b). lia. Qed.
Lemma kle2 : forall a b c, a <= b -> K * b <= K * c -> a <= K * c.
Proof. intros. pose proof (k1 b). lia. Qed.
Lemma build_node_le : forall t s s' out, build_node env o t s = ROk (s', out) -> length out <= K * node_size t.
Proof.
  intros t s s' out E. unfold build_node in E. unfold node_size, size_of.
  set (nt := if rs_root s then _ else _) in E. clearbody nt. pose proof G as (K1 & Dc & Ec).
  destruct (t_type t).
  - injection E as _ <-. cbn. lia.
  - destruct (t_meta t) as [m|]; [|discriminate]. injection E as _ <-. apply kle. cbn [length app]. rewrite !app_length. pose proof (attrs_le m (remove_attr_quote o)). cbn [length]. lia.
  - injection E as _ <-. apply kle. destruct (remove_comment o); [cbn; lia|]. destruct (_ || _)%bool; [|cbn; lia].
    rewrite !app_length. destruct (negb _); cbn; destruct (t_content t); cbn; lia.
  - destruct (t_content t) as [c|]; [|discriminate]. injection E as _ <-. cbn [opt_length].
    destruct (_ && _)%bool.
    + apply kle. destruct (decode_entity o); [|apply minify_text_le]. pose proof (minify_decode_le env c false None) as L. cbv iota in L. lia.
    + destruct (decode_entity o) eqn:D; [exact (Dc eq_refl c)|apply k1].
  - destruct (_ && _)%bool; [injection E as _ <-; cbn; lia|]. destruct (t_content t) as [c|]; [|discriminate]. injection E as _ <-. apply k1.
  - destruct (t_meta t) as [m|]; [|discriminate]. injection E as _ <-. rewrite app_length. 
    assert (A : length (if nt then [TAG_BEGIN_CHAR] ++ (if lowercase_tagname o then lower (m_name m) else m_name m) ++
        attrs_to_string m (remove_attr_quote o) ++ (if (m_self_closed m || m_auto_fix m && always_close_void o)%bool then [WS_CHAR; END_SLASH_CHAR] else []) ++ [TAG_END_CHAR] else [])
      <= 2 + length (m_name m) + attrs_size (m_attrs m) + (if (m_self_closed m || m_auto_fix m)%bool then 2 else 0)).
    { destruct nt; [|cbn; lia]. rewrite !app_length. pose proof (attrs_le m (remove_attr_quote o)).
      assert (L : length (if lowercase_tagname o then lower (m_name m) else m_name m) = length (m_name m)) by (destruct (lowercase_tagname o); [apply lower_length|reflexivity]).
      rewrite L. destruct (m_self_closed m), (m_auto_fix m), (always_close_void o); cbn [length orb andb]; lia. }
    assert (B : length (match t_content t with Some content => if (encode_content o && is_plain_text_tag (m_name m) (Some Lower))%bool then content_encode env content else content | None => [] end)
      <= K * opt_length (t_content t)).
    { destruct (t_content t) as [c|]; [|cbn; lia]. cbn [opt_length]. destruct (encode_content o) eqn:X; cbn [andb]; [|apply k1].
      destruct (is_plain_text_tag _ _); [apply encode_le; exact X|apply k1]. }
    rewrite Nat.mul_add_distr_l. apply kle in A. exact (Nat.add_le_mono _ _ _ _ A B).
  - destruct (t_content t) as [c|]; [|discriminate]. injection E as _ <-. apply kle. destruct nt; [|cbn; lia].
    cbn [length app]. rewrite !app_length. cbn [length opt_length].
    set (c' := if remove_endtag_space o then chars_trim_end c else c).
    assert (L : length c' <= length c) by (unfold c'; destruct (remove_endtag_space o); [apply trim_length|lia]).
    assert (L2 : length (if lowercase_tagname o then lower c' else c') = length c') by (destruct (lowercase_tagname o); [apply lower_length|reflexivity]).
    rewrite L2. lia.
  - injection E as _ <-. apply kle. cbn. rewrite !app_length. cbn. destruct (t_content t); cbn; lia.
Qed.
Lemma build_tree_le : forall t s s' out, build_tree env o t s = ROk (s', out) -> length out <= K * tree_size t.
Proof.
  induction t as [i ty b e et c ks m Het Hks] using tree_ind'. intros s s' out E.
  rewrite build_tree_eq in E. cbn zeta in E. rewrite tree_size_eq.
  destruct (build_node env o _ s) as [[s1 o1]| |] eqn:E1; try discriminate. cbn [rbind] in E. apply build_node_le in E1. change (node_size _) with (size_of ty c m) in E1.
  assert (Hl : forall l, Forall (fun t => forall s s' out, build_tree env o t s = ROk (s', out) -> length out <= K * tree_size t) l ->
    forall s s' out, build_list env o l s = ROk (s', out) -> length out <= K * list_size l).
  { clear. induction l as [|k l IH]; intros F s s' out E; cbn in E; [injection E as _ <-; cbn; lia|]. inversion F as [|x y Fk Fl]; subst.
    destruct (build_tree env o k s) as [[s1 o1]| |] eqn:E1; try discriminate. cbn in E.
    destruct (build_list env o l s1) as [[s2 o2]| |] eqn:E2; try discriminate. cbn in E. injection E as _ <-. rewrite app_length.
    apply Fk in E1. apply (IH Fl) in E2. unfold list_size in *. cbn [map]. rewrite list_sum_cons. lia. }
  match type of E with rbind ?r _ = _ => destruct r as [[s2 o2]| |] eqn:E2 end; try discriminate. cbn [rbind] in E.
  assert (L2 : length o2 <= K * match ks with Some l => list_size l | None => 0 end).
  { destruct ks as [l|]; [|injection E2 as _ <-; cbn; lia]. cbn in Hks. destruct (rs_root s1).
    - destruct (build_list _ _ _ _) as [[s3 o3]| |] eqn:E3; try discriminate. cbn in E2. injection E2 as _ <-. eapply Hl; eauto.
    - eapply Hl; eauto. }
  match type of E with rbind ?r _ = _ => destruct r as [[s3 o3]| |] eqn:E3 end; try discriminate. cbn [rbind] in E. injection E as _ <-.
  assert (L3 : length o3 <= K * match et with Some x => node_size x | None => 0 end).
  { destruct et as [x|]; [|injection E3 as _ <-; cbn; lia]. eapply build_node_le; eauto. }
  rewrite !app_length. lia.
Qed.
End Bound.

(** The full rendering has exactly this size. *)
Lemma full_node : forall env t s s' out, rs_inner_type s = INone -> build_node env full t s = ROk (s', out) ->
  length out = node_size t /\ rs_inner_type s' = INone.
Proof.
  intros env t s s' out I E. unfold build_node in E. unfold node_size, size_of. rewrite I in E.
  set (nt := if rs_root s then true else true) in E. assert (N : nt = true) by (unfold nt; destruct (rs_root s); reflexivity). rewrite N in E. clear nt N.
  change (remove_attr_quote full) with false in E. change (lowercase_tagname full) with false in E. change (always_close_void full) with true in E.
  change (remove_comment full) with false in E. change (minify_spaces full) with false in E. change (decode_entity full) with false in E.
  change (encode_content full) with false in E. change (remove_endtag_space full) with false in E. rewrite ?andb_false_r in E. cbn [andb] in E. cbv iota zeta in E.
  destruct (t_type t).
  - injection E as <- <-. split; [reflexivity|exact I].
  - destruct (t_meta t) as [m|]; [|discriminate]. injection E as <- <-. split; [|exact I]. cbn [length app]. rewrite !app_length, attrs_full. cbn [length]. lia.
  - rewrite orb_true_r in E. injection E as <- <-. split; [|exact I]. cbn. rewrite !app_length. destruct (t_content t); cbn; lia.
  - destruct (t_content t); [|discriminate]. injection E as <- <-. split; [reflexivity|exact I].
  - destruct (t_content t); [|discriminate]. injection E as <- <-. split; [reflexivity|exact I].
  - destruct (t_meta t) as [m|]; [|discriminate]. injection E as <- <-. split; [|exact I]. rewrite ?andb_true_r. cbn [app length]. rewrite !app_length. cbn [app length]. rewrite ?app_length, attrs_full.
    destruct (m_self_closed m || m_auto_fix m)%bool, (t_content t); cbn [length opt_length]; lia.
  - destruct (t_content t) as [c|]; [|discriminate]. injection E as <- <-. split; [|destruct (_ && _)%bool; exact I]. cbn [length app]. rewrite !app_length. cbn [length opt_length]. lia.
  - injection E as <- <-. split; [|exact I]. cbn. rewrite !app_length. destruct (t_content t); cbn; lia.
Qed.
Lemma full_tree : forall env t s s' out, rs_inner_type s = INone -> build_tree env full t s = ROk (s', out) ->
  length out = tree_size t /\ rs_inner_type s' = INone.
Proof.
  intro env. induction t as [i ty b e et c ks m Het Hks] using tree_ind'. intros s s' out I E.
  rewrite build_tree_eq in E. cbn zeta in E. rewrite tree_size_eq.
  destruct (build_node env full _ s) as [[s1 o1]| |] eqn:E1; try discriminate. cbn [rbind] in E. apply full_node in E1; [|exact I]. destruct E1 as [L1 I1]. change (node_size _) with (size_of ty c m) in L1.
  assert (Hl : forall l, Forall (fun t => forall s s' out, rs_inner_type s = INone -> build_tree env full t s = ROk (s', out) -> length out = tree_size t /\ rs_inner_type s' = INone) l ->
    forall s s' out, rs_inner_type s = INone -> build_list env full l s = ROk (s', out) -> length out = list_size l /\ rs_inner_type s' = INone).
  { clear. induction l as [|k l IH]; intros F s s' out I E; cbn in E; [injection E as <- <-; split; [reflexivity|exact I]|]. inversion F as [|x y Fk Fl]; subst.
    destruct (build_tree env full k s) as [[s1 o1]| |] eqn:E1; try discriminate. cbn in E.
    destruct (build_list env full l s1) as [[s2 o2]| |] eqn:E2; try discriminate. cbn in E. injection E as <- <-. rewrite app_length.
    apply Fk in E1; [|exact I]. destruct E1 as [L1 I1]. apply (IH Fl) in E2; [|exact I1]. destruct E2 as [L2 I2]. split; [|exact I2]. unfold list_size in *. cbn [map]. rewrite list_sum_cons. lia. }
  match type of E with rbind ?r _ = _ => destruct r as [[s2 o2]| |] eqn:E2 end; try discriminate. cbn [rbind] in E.
  assert (L2 : length o2 = match ks with Some l => list_size l | None => 0 end /\ rs_inner_type s2 = INone).
  { destruct ks as [l|]; [|injection E2 as <- <-; split; [reflexivity|exact I1]]. cbn in Hks. destruct (rs_root s1).
    - destruct (build_list _ _ _ _) as [[s3 o3]| |] eqn:E3; try discriminate. cbn in E2. injection E2 as <- <-. apply (Hl _ Hks) in E3; [|exact I1]. split; [apply E3|exact I1].
    - eapply Hl; eauto. }
  destruct L2 as [L2 I2].
  match type of E with rbind ?r _ = _ => destruct r as [[s3 o3]| |] eqn:E3 end; try discriminate. cbn [rbind] in E. injection E as <- <-.
  assert (L3 : length o3 = match et with Some x => node_size x | None => 0 end /\ rs_inner_type s3 = INone).
  { destruct et as [x|]; [|injection E3 as <- <-; split; [reflexivity|exact I2]]. eapply full_node; eauto. }
  destruct L3 as [L3 I3]. rewrite !app_length. split; [lia|exact I3].
Qed.
Lemma in_list_size : forall k l, In k l -> tree_size k <= list_size l.
Proof. intros k l. induction l as [|x l IH]; intros []; unfold list_size; cbn [map]; rewrite list_sum_cons; [subst; lia|]. apply IH in H. unfold list_size in H. lia. Qed.
Lemma in_list_count : forall k l, In k l -> count k <= list_count l.
Proof. intros k l. induction l as [|x l IH]; intros []; unfold list_count; cbn [map]; rewrite list_sum_cons; [subst; lia|]. apply IH in H. unfold list_count in H. lia. Qed.
Lemma build_le : forall K env o t text out, growth K env o -> build env o t text = ROk out -> length out <= K * tree_size t.
Proof.
  intros K env o t text out G E. unfold build in E. destruct (_ && _)%bool; [discriminate|].
  set (s := mkRS _ _ _) in E.
  assert (Go : forall x out, (do '(_, out) <- build_tree env o x s; ROk out) = ROk out -> length out <= K * tree_size x).
  { intros x out' E'. destruct (build_tree env o x s) as [[s' o']| |] eqn:Ex; try discriminate. cbn in E'. injection E' as <-. eapply build_tree_le; eauto. }
  clearbody s. destruct (if text then IText else _); [apply Go; exact E|..]; destruct (t_type t); try discriminate; try (apply Go; exact E);
  (destruct t as [i ty b e et c ks m]; cbn [t_childs] in E; rewrite tree_size_eq; destruct ks as [l|]; [|injection E as <-; cbn; lia];
   destruct (filter is_tag l) as [|k [|]] eqn:F; try discriminate; apply Go in E;
   assert (I : In k l) by (apply (filter_In is_tag k l); rewrite F; left; reflexivity); apply in_list_size in I;
   assert (K * tree_size k <= K * list_size l) by (apply Nat.mul_le_mono_l; exact I); lia).
Qed.
Lemma full_build : forall env t out, build env full t false = ROk out -> length out = tree_size t.
Proof.
  intros env t out E. unfold build in E. change (inner_html full) with false in E. cbn in E.
  destruct (build_tree env full t _) as [[s' o']| |] eqn:Ex; try discriminate. cbn in E. injection E as <-. eapply full_tree; [|exact Ex]. reflexivity.
Qed.
Theorem options_shorten : forall K env o t text out out0, growth K env o ->
  build env o t text = ROk out -> build env full t false = ROk out0 -> length out <= K * length out0.
Proof. intros K env o t text out out0 G E E0. apply full_build in E0. rewrite E0. eapply build_le; eauto. Qed.

(** ** Work *)
Lemma sum_scale : forall A (f : A -> nat) k l, list_sum (map (fun x => k * f x) l) = k * list_sum (map f l).
Proof. intros A f k l. induction l as [|x l IH]; [change (0 = k * 0); lia|]. cbn [map]. rewrite !list_sum_cons, IH. lia. Qed.
Lemma w_attrs_le : forall m rq, w_attrs m rq <= 4 * attrs_size (m_attrs m).
Proof.
  intros m rq. unfold w_attrs. pose proof (attrs_le m rq) as A.
  assert (B : list_sum (map (fun a => w_attr a rq) (m_attrs m)) <= list_sum (map (fun a => 3 * attr_size a) (m_attrs m))).
  { apply sum_le. intros a _. unfold w_attr, attr_size. pose proof (attr_build_le a rq). lia. }
  rewrite sum_scale in B. unfold attrs_size in *. lia.
Qed.
Lemma w_trim_len : forall l, w_trim l <= length l + 1.
Proof. intro l. unfold w_trim. destruct (chars_trim_end l); cbn [length]; lia. Qed.
Section Work.
Variables (K : nat) (env : entity_env) (o : render_options).
Hypothesis G : growth K env o.
Lemma w_node_le : forall t s, w_build_node env o t s <= 4 * (K * node_size t) + 16.
Proof.
  intros t s. unfold w_build_node, node_size, size_of, w_content_of.
  set (nt := if rs_root s then _ else _). clearbody nt. pose proof G as (K1 & Dc & Ec).
  assert (Ks : forall n, n <= K * n) by (exact (k1 _ _ _ G)).
  destruct (t_type t).
  - lia.
  - destruct (t_meta t) as [m|]; [|lia].
    assert (A : match m_attrs m with [] => 0 | _ :: _ => w_attrs m (remove_attr_quote o) end <= 4 * attrs_size (m_attrs m)) by (pose proof (w_attrs_le m (remove_attr_quote o)); destruct (m_attrs m); lia).
    pose proof (Ks (3 + length (m_name m) + attrs_size (m_attrs m))). lia.
  - destruct (remove_comment o); [lia|]. unfold opt_length. pose proof (Ks (7 + match t_content t with Some l => length l | None => 0 end)). lia.
  - unfold opt_length. destruct (t_content t) as [c|]; [|lia]. pose proof (Ks (length c)). pose proof (minify_text_le c false).
    pose proof (minify_decode_le env c false None) as L. cbv iota in L.
    destruct (_ && _)%bool; destruct (decode_entity o) eqn:D; try lia. specialize (Dc eq_refl c). lia.
  - destruct (_ && _)%bool; [lia|]. unfold opt_length. pose proof (Ks match t_content t with Some l => length l | None => 0 end). lia.
  - destruct (t_meta t) as [m|]; [|lia].
    assert (A : match m_attrs m with [] => 0 | _ :: _ => w_attrs m (remove_attr_quote o) end <= 4 * attrs_size (m_attrs m)) by (pose proof (w_attrs_le m (remove_attr_quote o)); destruct (m_attrs m); lia).
    set (n := 2 + length (m_name m) + attrs_size (m_attrs m) + (if (m_self_closed m || m_auto_fix m)%bool then 2 else 0)).
    assert (A1 : (if rs_is_in_pre s then 0 else w_equal (m_name m) PRE_TAG_NAME (Some Lower)) <= 3).
    { destruct (rs_is_in_pre s); [lia|]. pose proof (w_equal_r (m_name m) PRE_TAG_NAME (Some Lower)) as X. change (length PRE_TAG_NAME) with 3 in X. lia. }
    match goal with |- _ + (if nt then ?x else 0) + _ <= _ => assert (A2 : (if nt then x else 0) <= 4 * n) end.
    { destruct nt; [|lia]. unfold n. destruct (m_self_closed m), (m_auto_fix m), (always_close_void o); cbn [orb andb]; lia. }
    match goal with |- _ + _ + ?x <= _ => assert (A3 : x <= 13 + 2 * (K * opt_length (t_content t))) end.
    { destruct (t_content t) as [c|]; [|lia]. cbn [opt_length]. pose proof (Ks (length c)).
      pose proof (w_equal_r (m_name m) TEXTAREA_TAG_NAME (Some Lower)) as X. change (length TEXTAREA_TAG_NAME) with 8 in X.
      pose proof (w_equal_r (m_name m) TITLE_TAG_NAME (Some Lower)) as Y. change (length TITLE_TAG_NAME) with 5 in Y.
      destruct (encode_content o) eqn:E; cbn [andb]; [|lia]. pose proof (encode_le _ _ _ G c E).
      destruct (is_equal_chars (m_name m) TEXTAREA_TAG_NAME (Some Lower)), (is_plain_text_tag (m_name m) (Some Lower)); lia. }
    pose proof (Ks n). rewrite Nat.mul_add_distr_l. lia.
  - unfold opt_length. destruct (t_content t) as [c|]; [|lia]. pose proof (w_trim_len c). pose proof (trim_length c).
    pose proof (w_equal_r (chars_trim_end c) PRE_TAG_NAME (Some Lower)) as X. change (length PRE_TAG_NAME) with 3 in X.
    pose proof (Ks (3 + length c)). destruct (rs_is_in_pre s), nt, (remove_endtag_space o), (lowercase_tagname o); cbv zeta; lia.
  - unfold opt_length. pose proof (Ks (12 + match t_content t with Some l => length l | None => 0 end)). lia.
Qed.
Lemma w_tree_eq : forall i ty b e et c ks m s,
  let t := TNode i ty b e et c ks m in
  w_build_tree env o t s =
  1 + w_build_node env o t s
  + match build_node env o t s with
    | ROk (s1, _) =>
        let s' := if rs_root s1 then rs_set_root false s1 else s1 in
        (match ks with None => 0 | Some l => w_build_list env o l s' end)
        + match et with
          | None => 0
          | Some e =>
              match ks with
              | None => 1 + w_build_node env o e s1
              | Some l =>
                  match build_list env o l s' with
                  | ROk (s2, _) => 1 + w_build_node env o e (if rs_root s1 then s1 else s2)
                  | _ => 0
                  end
              end
          end
    | _ => 0
    end.
Proof.
  intros. subst t. cbn [w_build_tree].
  set (wl := fix w_build_list (l : list tree) (s : render_status) {struct l} : nat := _).
  assert (H : forall l s, wl l s = w_build_list env o l s).
  { induction l as [|k l IH]; intro s0; [reflexivity|]. cbn [wl w_build_list]. fold wl. destruct (build_tree env o k s0) as [[s1 o1]| |]; [|reflexivity|reflexivity]. rewrite IH. reflexivity. }
  destruct (build_node env o _ s) as [[s1 o1]| |]; [|reflexivity|reflexivity]. cbv zeta. destruct ks as [l|]; [rewrite H|]; reflexivity.
Qed.
Lemma w_tree_le : forall t s, w_build_tree env o t s <= 4 * (K * tree_size t) + 17 * count t.
Proof.
  induction t as [i ty b e et c ks m Het Hks] using tree_ind'. intro s. rewrite w_tree_eq, tree_size_eq, count_eq. cbn zeta.
  pose proof (w_node_le (TNode i ty b e et c ks m) s) as W. change (node_size _) with (size_of ty c m) in W.
  assert (Hl : forall l, Forall (fun t => forall s, w_build_tree env o t s <= 4 * (K * tree_size t) + 17 * count t) l ->
    forall s, w_build_list env o l s <= 4 * (K * list_size l) + 17 * list_count l).
  { clear. induction l as [|k l IH]; intros F s; [cbn [w_build_list]; lia|]. inversion F as [|x y Fk Fl]; subst. cbn [w_build_list]. specialize (Fk s).
    assert (X : match build_tree env o k s with ROk (s1, _) => w_build_list env o l s1 | _ => 0 end <= 4 * (K * list_size l) + 17 * list_count l).
    { destruct (build_tree env o k s) as [[s1 o1]| |]; [apply IH; exact Fl|lia|lia]. }
    unfold list_size, list_count in *. cbn [map]. rewrite !list_sum_cons, Nat.mul_add_distr_l. lia. }
  destruct (build_node env o _ s) as [[s1 o1]| |]; [|lia|lia].
  set (s' := if rs_root s1 then _ else s1).
  assert (A : match ks with None => 0 | Some l => w_build_list env o l s' end <= 4 * (K * match ks with Some l => list_size l | None => 0 end) + 17 * match ks with Some l => list_count l | None => 0 end).
  { destruct ks as [l|]; [|lia]. apply Hl. exact Hks. }
  match goal with |- _ + (_ + ?w) <= _ => assert (B : w <= 4 * (K * match et with Some y => node_size y | None => 0 end) + 17 * match et with Some _ => 1 | None => 0 end) end.
  { destruct et as [x|]; [|lia]. destruct ks as [l|]; [destruct (build_list env o l s') as [[s2 o2]| |]; [|lia|lia]|].
    - pose proof (w_node_le x (if rs_root s1 then s1 else s2)). lia.
    - pose proof (w_node_le x s1). lia. }
  rewrite !Nat.mul_add_distr_l. lia.
Qed.
Lemma w_build_le : forall t text, w_build env o t text <= 4 * (K * tree_size t) + 18 * count t.
Proof.
  intros t text. unfold w_build. destruct (_ && _)%bool; [lia|]. set (s := mkRS _ _ _). clearbody s. pose proof (w_tree_le t s).
  destruct (if text then IText else _); try lia; destruct (t_type t); try lia;
  (destruct t as [i ty b e et c ks m]; cbn [t_childs]; rewrite tree_size_eq, count_eq in *; destruct ks as [l|]; [|lia];
   assert (L : length l <= list_count l);
   [clear; induction l as [|x l IH]; [cbn; lia|]; unfold list_count in *; cbn [map length]; rewrite list_sum_cons; assert (1 <= count x) by (destruct x; cbn [count]; lia); lia|];
   destruct (filter is_tag l) as [|k [|]] eqn:F; try lia;
   assert (I : In k l) by (apply (filter_In is_tag k l); rewrite F; left; reflexivity); pose proof (in_list_count _ _ I); apply in_list_size in I;
   pose proof (w_tree_le k s);
   assert (K * tree_size k <= K * list_size l) by (apply Nat.mul_le_mono_l; exact I); rewrite !Nat.mul_add_distr_l; lia).
Qed.
End Work.
