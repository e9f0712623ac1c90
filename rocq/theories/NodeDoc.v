(** Building a node of a parsed document, and a parsed document. *)
From Coq Require Import String Lia.
From Verif Require Import Api SpecText SpecRender SpecParse SpecMisc SpecTree SpecDoc SpecOpts SpecShown SpecJoin SpecNode NodeProofs NameProofs TextProofs RenderProofs Shape RawText Tok DocTree DocSound Print Shown ShownRead ShownDoc MinifyProofs SpecMap MapProofs JoinProofs StructEnd Struct RepairDoc.
Local Open Scope string_scope.
Local Open Scope list_scope.

Lemma words_close_void : forall env v o x p, words_of env (with_always_close_void v o) p x = words_of env o p x.
Proof.
  intros env v o x. induction x as [c b|c|c|n a|n a sc|n a c e|n a ks e IH] using item_ind2; intro p; try reflexivity.
  cbn [words_of]. apply each_ext, IH.
Qed.
Lemma in_close_void : forall env v o x p, shown_in env (with_always_close_void v o) p x = shown_in env o p x.
Proof.
  intros env v o x. induction x as [c b|c|c|n a|n a sc|n a c e|n a ks e IH] using item_ind2; intro p; try reflexivity.
  cbn [shown_in]. f_equal. f_equal. apply each_ext, IH.
Qed.
Lemma each_close_void : forall env v o p ks, each (shown_in env (with_always_close_void v o)) p ks = each (shown_in env o) p ks.
Proof. intros env v o p ks. apply each_ext. apply Forall_forall. intros x _ q. apply in_close_void. Qed.
Lemma built_close_void : forall env v o x text, built env (with_always_close_void v o) x text = built env o x text.
Proof.
  intros env v o x text. unfold built. change (inner_html (with_always_close_void v o)) with (inner_html o).
  destruct text, (inner_html o); try reflexivity.
  - unfold text_of_item. destruct x; rewrite ?words_close_void; reflexivity.
  - unfold inner_of. destruct x; try reflexivity. do 2 f_equal. apply each_close_void.
  - unfold outer_of. rewrite in_close_void. reflexivity.
Qed.
Lemma no_close_void : forall o, always_close_void o = false -> with_always_close_void false o = o.
Proof. intros [] H. cbn in H. subst. reflexivity. Qed.
Lemma built_in : forall opts s d t x env o text, parse opts s = Parsed d -> (always_close_void o = false \/ auto_fix_unclosed_tag opts = false) -> tree_in d t -> depicts x t ->
  Forall bare_quotes (tokens x) -> build env o t text = built_as (built env o x text).
Proof.
  intros opts s d t x env o text P NR T D Q.
  assert (X : build env o t text = build env (with_always_close_void false o) t text).
  { destruct (always_close_void o) eqn:A.
    - destruct NR as [NR|NR]; [congruence|]. rewrite <- (parsed_close_void _ _ _ t env o text P T NR). destruct o. cbn in A. subst. reflexivity.
    - rewrite no_close_void by exact A. reflexivity. }
  rewrite X, (node_built0 env (with_always_close_void false o) x t text eq_refl D (tree_end_tags _ _ _ P t T) Q).
  rewrite built_close_void. reflexivity.
Qed.

(** Every node of a parsed document. *)
Lemma strict_orderly : forall opts s d, no_repair opts -> open_doctypes d -> orderly opts s d.
Proof. intros opts s d (A & _ & C) O. split; [exact C|]. split; [congruence|exact O]. Qed.
Lemma node_content : forall opts s d r t, parse opts s = Parsed d -> orderly opts s d ->
  doc_tree d = Some r -> sub t r -> t <> r -> t_type t <> NTagEnd -> exists x, depicts x t.
Proof.
  intros opts s d r t P Or E S Ne Ty. destruct (orderly_content _ _ _ P Or) as (f & D & _).
  destruct (doc_place _ _ _ _ D E S Ne Ty) as (x & a & b & na & nb & Dx & _). exists x. exact Dx.
Qed.
Lemma node_built : forall opts s d r t x env o text, parse opts s = Parsed d -> orderly opts s d -> always_close_void o = false \/ auto_fix_unclosed_tag opts = false ->
  doc_tree d = Some r -> sub t r -> t <> r -> depicts x t ->
  build env o t text = built_as (built env o x text).
Proof.
  intros opts s d r t x env o text P Or Cl E S Ne Dx.
  assert (Ty : t_type t <> NTagEnd) by (rewrite (item_type _ _ Dx); destruct x as [c []|c|c|n a|n a sc|n a c e|n a ks e]; discriminate).
  destruct (orderly_content _ _ _ P Or) as (f & D & So).
  destruct (doc_place _ _ _ _ D E S Ne Ty) as (x' & a & b & na & nb & Dx' & Et & _).
  rewrite (depicts_unique _ _ Dx' _ Dx) in Et. rewrite Et in So. apply Forall_app in So. destruct So as [_ So]. apply Forall_app in So.
  destruct (doc_tree_in _ _ _ _ P E) as [T _].
  exact (built_in _ _ _ _ _ _ _ _ P Cl (tree_in_sub _ _ _ T S) Dx (proj1 So)).
Qed.

(** The document. *)
Lemma tag_element : forall x t, depicts x t -> is_tag t = is_element x.
Proof. intros x t D. unfold is_tag. rewrite (item_type _ _ D). destruct x as [c []|c|c|n a|n a sc|n a c e|n a ks e]; reflexivity. Qed.
Lemma tag_elements : forall f l, Forall2 depicts f l -> Forall2 depicts (filter is_element f) (filter is_tag l).
Proof.
  intros f l Z. induction Z as [|x t f l D Z IH]; [constructor|]. cbn [filter]. rewrite (tag_element _ _ D). destruct (is_element x); [constructor; assumption|exact IH].
Qed.
Lemma none_empty : forall opts s d t, parse opts s = Parsed d -> doc_tree d = Some t -> child_list t = [] -> t_childs t = None.
Proof.
  intros opts s d t P E C. destruct (parsed_hs _ _ _ P) as [HS _]. unfold child_list in C. destruct (t_childs t) as [l|] eqn:Ec; [|reflexivity]. subst l. exfalso.
  unfold doc_tree in E. destruct (length (d_heap d)) as [|f]; [discriminate E|]. cbn [tree_of] in E.
  destruct (n_childs (hget (d_heap d) (d_root d))) as [l|] eqn:C.
  - apply (hs_some _ _ HS) in C. destruct l as [|k l]; [congruence|].
    destruct (match n_end_tag (hget (d_heap d) (d_root d)) with Some _ => _ | None => _ end); [|discriminate E]. cbn [map_opt] in E.
    destruct (tree_of f (d_heap d) k); [|discriminate E]. destruct (map_opt (tree_of f (d_heap d)) l); [|discriminate E]. injection E as <-. discriminate Ec.
  - destruct (match n_end_tag (hget (d_heap d) (d_root d)) with Some _ => _ | None => _ end); [|discriminate E]. injection E as <-. discriminate Ec.
Qed.
Lemma element_build : forall env o x t text b, depicts x t -> is_element x = true -> (text || inner_html o)%bool = true -> build env o t text = built_as (built env o x text) ->
  b = build env o t text -> (text && inner_html o = false)%bool ->
  (do '(_, out) <- build_tree env o t (mkRS (if text then IText else IHtml) false true); ROk out) = b.
Proof.
  intros env o x t text b D El On Q -> Ne. unfold build. rewrite Ne. cbv zeta. rewrite (item_type _ _ D).
  destruct x; try discriminate El; destruct text, (inner_html o); try discriminate; reflexivity.
Qed.
Lemma doc_outer : forall opts s d f env o, parse opts s = Parsed d -> (always_close_void o = false \/ auto_fix_unclosed_tag opts = false) -> Forall bare_quotes (flat_map tokens f) -> doc_content d f ->
  inner_html o = false -> render_gen env o false d = ROk (print (each (shown_in env o) false f)).
Proof.
  intros opts s d f env o P NR S D Ih.
  destruct D as (t & E & T & C & En & Me & Z). destruct (doc_tree_in _ _ _ _ P E) as [Ti _].
  pose proof (tree_end_tags _ _ _ P t Ti) as EM.
  unfold render_gen. rewrite E.
  assert (X : build env o t false = build env (with_always_close_void false o) t false).
  { destruct (always_close_void o) eqn:A.
    - destruct NR as [NR|NR]; [congruence|]. rewrite <- (parsed_close_void _ _ _ t env o false P Ti NR). destruct o. cbn in A. subst. reflexivity.
    - destruct o. cbn in A. subst. reflexivity. }
  rewrite X. clear X. unfold build. change (inner_html (with_always_close_void false o)) with (inner_html o). rewrite Ih. cbn [andb].
  destruct (shown_list_at env (with_always_close_void false o) eq_refl _ _ Z (kids_match t EM) S false (mkRS INone false false)) as [s' R]; [split; [split; reflexivity|reflexivity]|].
  rewrite each_close_void in R.
  destruct t as [i ty b e et c ks m]. cbn [t_type t_content t_end_tag t_meta] in *. subst.
  cbv zeta. rewrite build_tree_eq. cbn [build_node t_type rbind rs_root rs_set_root rs_inner_type rs_is_in_pre].
  destruct ks as [l|]; cbn [rs_set_root rs_inner_type rs_is_in_pre rs_root].
  - cbn [child_list t_childs] in R. unfold rs_set_root. cbn [rs_inner_type rs_is_in_pre]. rewrite R. cbn [rbind app]. rewrite app_nil_r. reflexivity.
  - cbn in R. injection R as _ R. rewrite <- R. reflexivity.
Qed.
Lemma doc_built : forall opts s d f env o text, parse opts s = Parsed d -> orderly opts s d -> always_close_void o = false \/ auto_fix_unclosed_tag opts = false ->
  doc_content d f ->
  render_gen env o text d = built_as (built_doc env o f text).
Proof.
  intros opts s d f env o text P Or Cl D.
  destruct (orderly_content _ _ _ P Or) as (f0 & D0 & So). rewrite (content_unique _ _ _ D0 D) in So. clear f0 D0.
  destruct (negb text && negb (inner_html o))%bool eqn:M.
  { destruct text, (inner_html o) eqn:Ih; try discriminate M. unfold built_doc. rewrite Ih. cbn [built_as].
    exact (doc_outer _ _ _ _ _ _ P Cl So D Ih). }
  destruct (text && inner_html o)%bool eqn:N.
  { destruct D as (t & E & _). unfold render_gen, build, built_doc. rewrite E, N. destruct text, (inner_html o); try discriminate N. reflexivity. }
  pose proof D as (t & E & T & C & En & Me & Z). unfold render_gen. rewrite E. unfold build. rewrite N. cbv zeta.
  assert (X : (if text then IText else if inner_html o then IHtml else INone) = if text then IText else IHtml)
    by (destruct text, (inner_html o); try discriminate; reflexivity).
  rewrite X, T.
  assert (B : built_doc env o f text = match f with [] => Some [] | _ => match filter is_element f with [x] => built env o x text | _ => None end end)
    by (unfold built_doc; destruct text, (inner_html o); try discriminate; reflexivity).
  rewrite B. clear B.
  assert (G : match t_childs t with None => ROk [] | Some childs => match filter is_tag childs with [] => RPanic PInnerHtml
     | [k] => do '(_, out) <- build_tree env o k (mkRS (if text then IText else IHtml) false true); ROk out | _ => RPanic PInnerHtml end end
     = built_as match f with [] => Some [] | _ => match filter is_element f with [x] => built env o x text | _ => None end end).
  2: { destruct text; exact G. }
  destruct f as [|x0 f0].
  { inversion Z as [Y|]. rewrite (none_empty _ _ _ _ P E) by congruence. reflexivity. }
  unfold child_list in Z. destruct (t_childs t) as [l|] eqn:Ec; [|inversion Z].
  set (f := x0 :: f0) in *. pose proof (tag_elements _ _ Z) as Z'.
  destruct (filter is_element f) as [|x [|y g]] eqn:Ef.
  - inversion Z'. reflexivity.
  - inversion Z' as [|? k ? l' Dk Zl E1 E2]; subst. inversion Zl; subst.
    assert (Ix : In x (filter is_element f)) by (rewrite Ef; left; reflexivity). apply filter_In in Ix. destruct Ix as [Ix Ex].
    assert (Ik : In k (filter is_tag l)) by (rewrite <- E2; left; reflexivity). apply filter_In in Ik. destruct Ik as [Ik _].
    assert (Q : build env o k text = built_as (built env o x text)).
    { destruct (doc_tree_in _ _ _ _ P E) as [Tr _].
      apply (built_in _ _ _ _ _ _ _ _ P Cl); [|exact Dk|].
      - eapply tree_in_sub; [exact Tr|]. eapply sub_child; [exact Ec|exact Ik|apply sub_refl].
      - exact (Forall_flat _ _ _ _ _ So x Ix). }
    rewrite (element_build env o x k text _ Dk Ex ltac:(destruct text, (inner_html o); try discriminate; reflexivity) Q eq_refl N). exact Q.
  - inversion Z' as [|? k ? l' Dk Zl E1 E2]; subst. inversion Zl; subst. reflexivity.
Qed.

(** ** The text between the tags of an element *)
Lemma each_flat : forall A (g : bool -> item -> list A) h ks, Forall (fun x => forall p, g p x = h x) ks -> forall p, each g p ks = flat_map h ks.
Proof. intros A g h ks F. induction F as [|x ks E F IH]; intro p; [reflexivity|]. cbn [each flat_map]. rewrite E, IH. reflexivity. Qed.
Lemma shown_default : forall env x p, shown_in env default_ro p x = tokens x.
Proof.
  intros env x. induction x as [c b|c|c|n a|n a sc|n a c e|n a ks e IH] using item_ind2; intro p; try reflexivity.
  cbn [shown_in tokens]. unfold shown_name, shown_attrs, shown_end. cbn. f_equal. f_equal. apply each_flat, IH.
Qed.
Lemma free_nests : forall opts ks, allow_self_closing opts = true -> (forall c, ~ In (KCData c) (flat_map tokens ks)) -> forall s s', nest_all opts (flat_map tokens ks) s = Some s' ->
  forall a f, exists f', nest_all opts (flat_map tokens ks) (mkNest a f) = Some (mkNest a f').
Proof.
  intros opts ks Al. induction ks as [|x ks IH]; intros Nc s s' H a f; [exists f; reflexivity|].
  destruct (nest_split _ _ _ _ _ H) as (s1 & A & B). cbn [flat_map]. rewrite nest_all_app.
  destruct (free_nest opts x Al (fun c I => Nc c (in_or_app _ _ _ (or_introl I))) _ _ A a f) as [f1 ->].
  apply (IH (fun c I => Nc c (in_or_app _ _ _ (or_intror I))) _ _ B).
Qed.
Lemma inner_doc : forall opts s d r t n l ks e env, parse opts s = Parsed d -> no_repair opts -> open_doctypes d -> allow_self_closing opts = true -> without_cdata d ->
  doc_tree d = Some r -> sub t r -> depicts (XElem n l ks e) t ->
  exists s1 w s2 v s3 d2 o, s = s1 ++ w ++ s2 ++ v ++ s3 /\ length s1 = t_begin_at t /\ written opts (KOpen n l) w /\ written opts (KClose e) v /\
    parse opts s2 = Parsed d2 /\ doc_content d2 (mark_all ks) /\
    build env (with_inner_html true default_ro) t false = ROk o /\ render env default_ro d2 = ROk o.
Proof.
  intros opts s d r t n l ks e env P Nr O Al Nc Er S Dx.
  assert (Ty : t_type t = NTag) by exact (item_type _ _ Dx).
  destruct (source_map _ _ _ P Nr O) as (la0 & f & r' & Ew & Wr & So & Ns & Ef & Mk & Dc & Er' & Rw). rewrite Er in Er'. injection Er' as <-.
  assert (Ne : t <> r). { intros ->. destruct Dc as (r0 & E0 & T0 & _). rewrite Er in E0. injection E0 as <-. congruence. }
  destruct (doc_place _ _ _ _ Dc Er S Ne ltac:(congruence)) as (x & a & b & na & nb & Dx' & Et & En & Ln).
  rewrite (depicts_unique _ _ Dx' _ Dx) in Et. clear x Dx'. cbn [tokens] in Et.
  rewrite Et in Ef. destruct (map_split _ _ _ _ Ef) as (la & l' & -> & Ea & El'). destruct (map_split _ _ _ _ El') as (lx & lb & -> & Ex & Eb). clear El' Ef.
  destruct lx as [|[k0 w] lx]; [discriminate Ex|]. cbn [map fst] in Ex. injection Ex as -> Ex.
  destruct (map_split _ _ _ _ Ex) as (lk & lc & -> & Ek & Ec). destruct lc as [|[k1 v] [|]]; try discriminate Ec. cbn [map fst] in Ec. injection Ec as ->. clear Ex.
  exists (words la), w, (words lk), v, (words lb).
  assert (Sx : source opts (flat_map tokens ks) (words lk)).
  { rewrite <- Ek. apply words_source.
    - apply Forall_app in Wr. destruct Wr as [_ Wr]. apply Forall_app in Wr. destruct Wr as [Wr _]. apply Forall_inv_tail in Wr. apply Forall_app in Wr. apply Wr.
    - apply source_apart in So. rewrite !map_app in So. apply apart_app in So. destruct So as [_ So]. apply apart_app in So. destruct So as [So _].
      cbn [map fst apart] in So. destruct So as [_ So]. rewrite map_app in So. apply apart_app in So. apply So. }
  assert (Nx : nests opts (flat_map tokens ks)).
  { destruct Ns as [fo Ns]. rewrite !map_app, !nest_all_app in Ns. destruct (nest_all opts (map fst la) _) as [s1|]; [|discriminate Ns].
    rewrite nest_all_app in Ns. cbn [map fst] in Ns. rewrite map_app, Ek in Ns. cbn [map fst] in Ns.
    destruct (nest_all opts (KOpen n l :: flat_map tokens ks ++ [KClose e]) s1) as [s2|] eqn:E2; [|discriminate Ns].
    destruct (elem_nest _ _ _ _ _ _ _ E2) as (f1 & f2 & K & _).
    destruct (free_nests opts ks Al) with (s := mkNest (n :: open_names s1) f1) (s' := mkNest (n :: open_names s1) f2) (a := @nil (list char)) (f := @None (list char)) as [f' F]; [|exact K|exists f'; exact F].
    intros c I. destruct (cdata_sub c _ _ Dx ltac:(cbn [tokens]; right; apply in_or_app; left; exact I)) as (t' & A & B). apply (Nc r t' Er); [|exact B]. clear - A S. induction S; eauto using sub_child, sub_end. }
  destruct (accepted_as _ _ _ Sx Nx) as (d2 & P2 & D2). exists d2, (print (flat_map tokens ks)).
  split; [rewrite <- Ew, !words_app; cbn [words flat_map snd]; fold (words (lk ++ [(KClose e, v)])); rewrite words_app; cbn [words flat_map snd]; rewrite app_nil_r, <- !app_assoc; reflexivity|]. split.
  - rewrite En in Rw. apply (f_equal (@tl row)) in Rw. cbn [app map tl] in Rw. rewrite places_app, map_app in Rw.
    destruct (app_eq_len _ _ _ _ Rw) as [_ Rw2]; [rewrite map_length, places_width, Ln, Ea; reflexivity|]. rewrite nodes_unfold in Rw2. cbn [app map] in Rw2.
    cbn [places] in Rw2.
    destruct (place (KOpen n l) (0 + length (words la)) w) as [|rw rest] eqn:Pl; [discriminate Pl|]. cbn [app] in Rw2. injection Rw2 as Rt _.
    apply place_begin in Pl. rewrite <- Rt in Pl. cbn in Pl. congruence.
  - apply Forall_app in Wr. destruct Wr as [_ Wr]. apply Forall_app in Wr. destruct Wr as [Wr _]. split; [exact (Forall_inv Wr)|].
    apply Forall_inv_tail in Wr. apply Forall_app in Wr. destruct Wr as [_ Wr]. split; [exact (Forall_inv Wr)|].
    split; [exact P2|]. split; [exact D2|]. split.
    + rewrite (node_built _ _ _ _ _ _ env (with_inner_html true default_ro) false P (strict_orderly _ _ _ Nr O) (or_introl eq_refl) Er S Ne Dx). cbn. do 2 f_equal.
      apply each_flat, Forall_forall. intros x _ p. rewrite shown_inner_flag. apply shown_default.
    + rewrite (content_render env _ _ D2), mark_all_tokens. reflexivity.
Qed.
Lemma flat_map_flat : forall A B C (h : B -> list C) (g : A -> list B) l, flat_map h (flat_map g l) = flat_map (fun x => flat_map h (g x)) l.
Proof. intros A B C h g l. induction l as [|x l IH]; [reflexivity|]. cbn [flat_map]. rewrite flat_map_app, IH. reflexivity. Qed.
Lemma words_default : forall env x p, words_of env default_ro p x = flat_map token_text (tokens x).
Proof.
  intros env x. induction x as [c b|c|c|n a|n a sc|n a c e|n a ks e IH] using item_ind2; intro p; cbn [words_of tokens flat_map token_text]; rewrite ?app_nil_r; try reflexivity.
  - unfold shown_text. cbn. apply app_nil_r.
  - rewrite flat_map_app, flat_map_flat. cbn [flat_map token_text app]. rewrite app_nil_r. apply each_flat, IH.
Qed.
Lemma text_tokens : forall opts s d r t n l ks e env, parse opts s = Parsed d -> orderly opts s d ->
  doc_tree d = Some r -> sub t r -> depicts (XElem n l ks e) t ->
  build env default_ro t true = ROk (flat_map token_text (flat_map tokens ks)).
Proof.
  intros opts s d r t n l ks e env P Or E S D.
  assert (Ne : t <> r).
  { intros ->. destruct (orderly_content _ _ _ P Or) as (f & (r0 & E0 & T0 & _) & _). rewrite E in E0. injection E0 as <-.
    rewrite (item_type _ _ D) in T0. discriminate T0. }
  rewrite (node_built _ _ _ _ _ _ env default_ro true P Or (or_introl eq_refl) E S Ne D). unfold built. cbn [inner_html default_ro built_as text_of_item].
  rewrite words_default. cbn [tokens flat_map token_text app]. rewrite flat_map_app. cbn [flat_map token_text app]. rewrite app_nil_r. reflexivity.
Qed.

(** ** No pre in pre *)
Lemma plain_after : forall x p, plain_pre p x -> pre_after p x = p.
Proof.
  intro x. induction x as [c b|c|c|n a|n a sc|n a c e|n a ks e IH] using item_ind2; intros p H; try reflexivity.
  - cbn in *. rewrite H. apply Bool.orb_false_r.
  - cbn in *. rewrite H. reflexivity.
  - destruct (plain_pre_all _ _ _ _ _ H) as [A B]. cbn [pre_after].
    assert (G : forall q, Forall (plain_pre q) ks -> fold_left pre_after ks q = q).
    { clear - IH. intros q B. induction IH as [|k ks I1 I2 IHk]; [reflexivity|]. cbn [fold_left]. rewrite (I1 q (Forall_inv B)). apply IHk. exact (Forall_inv_tail B). }
    destruct (pre_name n); [rewrite (A eq_refl); reflexivity|]. cbn [negb andb]. apply G. rewrite Bool.orb_false_r in B. exact B.
Qed.
Lemma plain_each : forall ks, Forall (fun x => forall env o p, plain_pre p x -> shown_in env o p x = shown env o p x) ks ->
  forall env o p, Forall (plain_pre p) ks -> each (shown_in env o) p ks = flat_map (shown env o p) ks.
Proof.
  intros ks F env o p B. induction F as [|k ks I1 I2 IH]; [reflexivity|]. cbn [each flat_map].
  rewrite (I1 env o p (Forall_inv B)), (plain_after _ _ (Forall_inv B)), (IH (Forall_inv_tail B)). reflexivity.
Qed.
Lemma plain_shown : forall x env o p, plain_pre p x -> shown_in env o p x = shown env o p x.
Proof.
  intro x. induction x as [c b|c|c|n a|n a sc|n a c e|n a ks e IH] using item_ind2; intros env o p H; try reflexivity.
  cbn [shown_in shown]. f_equal. f_equal. apply plain_each; [exact IH|]. exact (proj2 (plain_pre_all _ _ _ _ _ H)).
Qed.
Lemma any_shown : forall x env o p, minify_spaces o = false -> shown_in env o p x = shown env o false x.
Proof.
  intros x env o p Mi. revert p. assert (Q : forall x p q, shown env o p x = shown env o q x).
  { clear x. intro x. induction x as [c b|c|c|n a|n a sc|n a c e|n a ks e IH] using item_ind2; intros p q; try reflexivity.
    - cbn [shown]. unfold shown_text. rewrite Mi. reflexivity.
    - cbn [shown]. f_equal. f_equal. generalize (p || pre_name n)%bool (q || pre_name n)%bool. clear - IH. intros p q.
      induction IH as [|k ks I1 I2 IHk]; [reflexivity|]. cbn [flat_map]. rewrite (I1 p q), IHk. reflexivity. }
  induction x as [c b|c|c|n a|n a sc|n a c e|n a ks e IH] using item_ind2; intro p; try reflexivity.
  - cbn [shown_in]. apply Q.
  - cbn [shown_in shown]. f_equal. f_equal. rewrite (each_flat _ _ _ _ IH). apply flat_map_ext. intro k. apply Q.
Qed.
Lemma shown_in_cases : forall env o x, (minify_spaces o = true -> plain_pre false x) -> shown_in env o false x = shown env o false x.
Proof. intros env o x H. destruct (minify_spaces o) eqn:E; [apply plain_shown, H, eq_refl|apply any_shown, E]. Qed.
