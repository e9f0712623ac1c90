(** The stream of a finished document. *)
From Coq Require Import Sorting.Sorted Lia.
From Verif Require Import Api SpecText SpecParse SpecTree SpecMisc NameProofs TextProofs MiscProofs HeapLemmas InvCtl CtlSteps CtlHandlers CtlEnd CtlRun
  Big BigSteps Replay RawText Struct StructEnd Frame Shape Real Sim CloseInv Final Mono FixProofs SpecFix SpecStream Stream StreamSteps StreamRel.
Local Open Scope string_scope.
Local Open Scope list_scope.

(** ** Listings are streams *)
Lemma map_opt_app : forall {A B} (f : A -> option B) l l' r, map_opt f (l ++ l') = Some r ->
  exists a b, r = a ++ b /\ map_opt f l = Some a /\ map_opt f l' = Some b.
Proof.
  intros A B f l. induction l as [|x l IH]; intros l' r H; cbn [app map_opt] in *.
  - exists [], r. auto.
  - destruct (f x) as [y|]; [|discriminate]. destruct (map_opt f (l ++ l')) as [r0|] eqn:E; [|discriminate]. injection H as <-.
    destruct (IH _ _ E) as [a [b [-> [-> ->]]]]. exists (y :: a), b. auto.
Qed.
Lemma tree_top : forall f h i t, tree_of f h i = Some t -> t_type t = n_type (hget h i) /\ t_content t = n_content (hget h i) /\ t_meta t = n_meta (hget h i).
Proof.
  intros [|f] h i t H; [discriminate|]. cbn [tree_of] in H.
  destruct (match n_end_tag (hget h i) with Some e => _ | None => _ end) as [x|]; [|discriminate].
  destruct (match n_childs (hget h i) with Some l => _ | None => _ end) as [y|]; [|discriminate]. injection H as <-. auto.
Qed.
Lemma lss_stream : forall f h, (forall b i P t, ls h b i P -> tree_of f h i = Some t -> stream t = P) ->
  forall l a b Q ts, lss h a b l Q -> map_opt (tree_of f h) l = Some ts -> flat_map stream ts = Q.
Proof.
  intros f h IH l. induction l as [|k l IHl] using rev_ind; intros a b Q ts L M.
  - injection M as <-. inversion L as [|? ? l k]; [reflexivity|]. destruct l; discriminate.
  - destruct (lss_inv _ _ _ _ _ _ L) as [Q1 [P [-> [L1 [_ L2]]]]]. destruct (map_opt_app _ _ _ _ M) as [u [v [-> [M1 M2]]]].
    cbn [map_opt] in M2. destruct (tree_of f h k) as [t|] eqn:Et; [|discriminate]. injection M2 as <-.
    rewrite flat_map_app. cbn [flat_map]. rewrite app_nil_r. rewrite (IHl _ _ _ _ L1 M1), (IH _ _ _ _ L2 Et). reflexivity.
Qed.
Lemma ls_stream : forall f h b i P t, ls h b i P -> tree_of f h i = Some t -> stream t = P.
Proof.
  intro f. induction f as [|f IH]; intros h b i P t L T; [discriminate|]. destruct (ls_inv _ _ _ _ L) as [Q [-> [_ [_ [Lq He]]]]].
  cbn [tree_of] in T. unfold own_at, ends_at, ends, kids in *.
  destruct (n_end_tag (hget h i)) as [e|].
  - destruct (tree_of f h e) as [te|] eqn:Ee; [|discriminate]. cbn in T.
    destruct (tree_top _ _ _ _ Ee) as [T1 [T2 T3]].
    destruct (n_childs (hget h i)) as [l|].
    + destruct (map_opt (tree_of f h) l) as [ts|] eqn:Em; [|discriminate]. cbn in T. injection T as <-. cbn [stream].
      rewrite T1, T2, T3, (lss_stream f h (IH h) l _ _ _ _ Lq Em). reflexivity.
    + injection T as <-. cbn [stream]. rewrite T1, T2, T3. inversion Lq as [|? ? l k]; [reflexivity|]. destruct l; discriminate.
  - destruct (n_childs (hget h i)) as [l|].
    + destruct (map_opt (tree_of f h) l) as [ts|] eqn:Em; [|discriminate]. cbn in T. injection T as <-. cbn [stream].
      rewrite (lss_stream f h (IH h) l _ _ _ _ Lq Em). reflexivity.
    + injection T as <-. cbn [stream]. inversion Lq as [|? ? l k]; [reflexivity|]. destruct l; discriminate.
Qed.

(** ** Closing the open elements *)
Lemma spine_keep_from : forall h h' z i p, spine h z i p -> forall b P, ls h b i P ->
  (forall j, i <= j < length h -> (j < p /\ kids h j <> []) \/ n_type (hget h j) = NTagEnd -> alk h h' j) -> spine h' z i p /\ i <= p.
Proof.
  intros h h' z i p S. induction S as [i|i l k z e p K E S IH]; intros b P H Al; [split; [constructor|lia]|].
  destruct (ls_inv _ _ _ _ H) as [Q [_ [L1 [L2 [Hk He]]]]]. rewrite K in Hk.
  destruct (lss_inv _ _ _ _ _ _ Hk) as [Q1 [Pk [-> [H1 [Lk H2]]]]]. destruct (IH _ _ H2) as [S' Lp]; [intros j Lj; apply Al; lia|]. split; [|lia].
  assert (Ai : alk h h' i). { apply Al; [lia|]. left. split; [lia|]. rewrite K. destruct l; discriminate. }
  destruct Ai as [A1 [A2 [A3 A4]]].
  assert (X : ends_at h' i = ends_at h i).
  { unfold ends_at, ends in *. rewrite A3. destruct (n_end_tag (hget h i)) as [j|]; [|reflexivity]. destruct He as [Lj [_ Tj]].
    apply Al; [lia|auto]. }
  subst e. rewrite <- X. eapply sp_last; [rewrite A2; exact K|reflexivity|exact S'].
Qed.
Lemma spine_le : forall h z i p b P, spine h z i p -> ls h b i P -> i <= p.
Proof. intros h z i p b P S L. apply (spine_split _ _ _ _ S _ _ L). Qed.
Lemma spine_end : forall h h' c, (forall j, j < length h -> j <> c -> alk h h' j) -> n_type (hget h c) <> NTagEnd ->
  kids h' c = kids h c -> n_end_tag (hget h c) = None ->
  forall z0 i, spine h z0 i c -> forall z q b P, spine h z i q -> c < q -> ls h b i P -> exists w, z = w ++ z0 /\ spine h' (w ++ ends_at h' c ++ z0) i q.
Proof.
  intros h h' c Al Tc Kc Nc z0 i S0. induction S0 as [c|i l k z0 e c K Ee S0 IH]; intros z q b P S Lq H.
  - inversion S as [|? l k z1 e1 ? K1 E1 S1]; subst; [lia|]. rewrite (ends_none _ _ Nc). exists z1. split; [reflexivity|]. rewrite !app_nil_r.
    destruct (ls_inv _ _ _ _ H) as [Q [_ [L1 [L2 [Hk He]]]]]. rewrite K1 in Hk. destruct (lss_inv _ _ _ _ _ _ Hk) as [Q1 [Pk [-> [H1 [Lk H2]]]]].
    eapply sp_last; [rewrite Kc; exact K1|reflexivity|]. eapply spine_keep_from; [exact S1|exact H2|]. intros j Lj _. apply Al; lia.
  - destruct (ls_inv _ _ _ _ H) as [Q [_ [L1 [L2 [Hk He]]]]]. rewrite K in Hk. destruct (lss_inv _ _ _ _ _ _ Hk) as [Q1 [Pk [-> [H1 [Lk H2]]]]].
    pose proof (spine_le _ _ _ _ _ _ S0 H2) as Lc.
    inversion S as [|? l1 k1 z1 e1 ? K1 E1 S1]; subst; [lia|]. rewrite K in K1. apply app_inj_tail in K1. destruct K1 as [<- <-].
    destruct (IH Al Tc Kc Nc z1 q b Pk S1 Lq H2) as [w [-> S']]. exists w. split; [rewrite app_assoc; reflexivity|].
    assert (Ai : alk h h' i) by (apply Al; lia). destruct Ai as [A1 [A2 [A3 A4]]].
    destruct (ends_at_alk h h' b i He L2 A3) as [X _]; [intros j Lj Tj; apply Al; [exact Lj|intros ->; contradiction]|].
    rewrite <- X. replace (w ++ ends_at h' c ++ z0 ++ ends_at h' i) with ((w ++ ends_at h' c ++ z0) ++ ends_at h' i) by (rewrite <- !app_assoc; reflexivity).
    eapply sp_last; [rewrite A2; exact K|reflexivity|exact S'].
Qed.

Definition end_atoms (m : option tag_meta) : list atom :=
  match m with Some m => [AMark NTagEnd (Some (m_name m)) None] | None => [] end.
Lemma fix1_len : forall pos h c, length h <= length (fix1 pos h c).
Proof. intros pos h c. unfold fix1. destruct (n_meta (hget h c)); [rewrite hupd_length, app_length, hupd_length|]; lia. Qed.
Lemma fix1_other : forall pos h c j, j < length h -> j <> c -> hget (fix1 pos h c) j = hget h j.
Proof.
  intros pos h c j L N. unfold fix1. destruct (n_meta (hget h c)); [|reflexivity]. rewrite hget_hupd_other by congruence.
  rewrite hget_app_old by (rewrite hupd_length; exact L). apply hget_hupd_other. congruence.
Qed.
Lemma fix1_ty : forall pos h c j, j < length h -> n_type (hget (fix1 pos h c) j) = n_type (hget h j).
Proof.
  intros pos h c j L. destruct (Nat.eq_dec j c) as [->|N]; [|rewrite fix1_other by assumption; reflexivity].
  unfold fix1. destruct (n_meta (hget h c)) eqn:M; [|reflexivity]. rewrite (hupd_keep n_type) by reflexivity.
  rewrite hget_app_old by (rewrite hupd_length; exact L). rewrite hget_hupd_same by exact L. unfold nupd_meta. rewrite M. reflexivity.
Qed.
Lemma fix_heap_ty : forall pos L h j, j < length h -> j < length (fix_heap pos L h) /\ n_type (hget (fix_heap pos L h) j) = n_type (hget h j).
Proof.
  intros pos L. unfold fix_heap. induction L as [|c L IH]; intros h j Lj; [auto|]. cbn [fold_left]. pose proof (fix1_len pos h c).
  destruct (IH (fix1 pos h c) j) as [A B]; [lia|]. split; [exact A|]. rewrite B. apply fix1_ty. exact Lj.
Qed.
Lemma fix1_list : forall pos h c B z, ls h (length h) 0 (B ++ z) -> spine h z 0 c -> n_type (hget h c) = NTag -> n_end_tag (hget h c) = None -> c < length h ->
  ls (fix1 pos h c) (length (fix1 pos h c)) 0 (B ++ end_atoms (n_meta (hget h c)) ++ z) /\
  (forall q, c < q -> spine h z 0 q -> spine (fix1 pos h c) (end_atoms (n_meta (hget h c)) ++ z) 0 q).
Proof.
  intros pos h c B z H S T N L. pose proof (fix1_len pos h c) as Le. pose proof (fix1_other pos h c) as Oth.
  unfold end_atoms. destruct (n_meta (hget h c)) as [m|] eqn:M.
  - set (h' := fix1 pos h c) in *.
    assert (Al : forall j, j < length h -> j <> c -> alk h h' j).
    { intros j Lj Nj. unfold alk, own_at, kids. rewrite Oth by assumption. repeat split. auto. }
    assert (Hc : hget h' c = nset_end_tag (Some (length h)) (nupd_meta (mset_auto_fix true) (hget h c))).
    { unfold h', fix1. rewrite M. rewrite hget_hupd_same by (rewrite app_length, hupd_length; lia). rewrite hget_app_old by (rewrite hupd_length; exact L).
      rewrite hget_hupd_same by exact L. reflexivity. }
    assert (He : hget h' (length h) = nset_parent (Some c) (nset_content (Some (m_name m)) (node_new NTagEnd pos))).
    { unfold h', fix1. rewrite M. rewrite hget_hupd_other by lia. rewrite <- (hupd_length h c (nupd_meta (mset_auto_fix true))). apply hget_app_new. }
    assert (Ln : length h' = Datatypes.S (length h)) by (unfold h', fix1; rewrite M, hupd_length, app_length, hupd_length; cbn; lia).
    assert (Kc : kids h' c = kids h c) by (unfold kids; rewrite Hc; unfold nupd_meta; destruct (n_meta (hget h c)); reflexivity).
    assert (Oc : own_at h' c = own_at h c).
    { unfold own_at. rewrite Hc. unfold nupd_meta. rewrite M, T. cbn [n_type n_content n_meta nset_end_tag nset_meta]. rewrite T. destruct m; reflexivity. }
    assert (Oe : own_at h' (length h) = [AMark NTagEnd (Some (m_name m)) None]) by (unfold own_at; rewrite He; reflexivity).
    assert (Tc : n_type (hget h c) <> NTagEnd) by (rewrite T; discriminate).
    assert (Ec : n_end_tag (hget h' c) = Some (length h)) by (rewrite Hc; reflexivity).
    split.
    + destruct (change_end h h' z c (B ++ z) H S Tc Le Al (length h) N Oc Kc) as [l [El X]]; [exact Ec|lia|rewrite He; reflexivity|].
      apply app_inv_tail in El. subst l. rewrite Oe in X. exact X.
    + intros q Lq Sq. destruct (spine_end h h' c Al Tc Kc N z 0 S z q _ _ Sq Lq H) as [w [Ew X]].
      assert (w = []) as -> by (destruct w; [reflexivity|]; exfalso; apply (f_equal (@length atom)) in Ew; rewrite app_length in Ew; cbn in Ew; lia).
      unfold ends_at in X. rewrite Ec, Oe in X. exact X.
  - assert (E : fix1 pos h c = h) by (unfold fix1; rewrite M; reflexivity). rewrite E. split; [exact H|auto].
Qed.
Lemma fix_list : forall pos L h B z, ls h (length h) 0 (B ++ z) -> StronglySorted lt L ->
  (forall i, In i L -> spine h z 0 i /\ n_type (hget h i) = NTag /\ n_end_tag (hget h i) = None /\ i < length h) ->
  ls (fix_heap pos L h) (length (fix_heap pos L h)) 0 (B ++ flat_map (fun i => end_atoms (n_meta (hget h i))) (rev L) ++ z).
Proof.
  intros pos L. induction L as [|c L IH]; intros h B z H So Hi; [exact H|].
  unfold fix_heap in *. cbn [fold_left rev]. rewrite flat_map_app. cbn [flat_map]. rewrite app_nil_r.
  destruct (Hi c (or_introl eq_refl)) as [S [T [N Lc]]]. destruct (fix1_list pos h c B z H S T N Lc) as [H1 S1].
  inversion So as [|? ? So' Fa]; subst. rewrite Forall_forall in Fa.
  assert (O : forall i, In i L -> hget (fix1 pos h c) i = hget h i).
  { intros i I. specialize (Fa i I). apply fix1_other; [apply (Hi i); right; exact I|lia]. }
  specialize (IH (fix1 pos h c) B (end_atoms (n_meta (hget h c)) ++ z) H1 So').
  rewrite <- app_assoc.
  match goal with |- ls ?H ?n 0 (B ++ ?X ++ ?Y) => refine (eq_ind _ (fun y => ls H n 0 (B ++ y ++ Y)) (IH _) X _) end.
  - intros i I. destruct (Hi i (or_intror I)) as [Si [Ti [Ni Li]]]. rewrite (O i I).
    split; [apply S1; [apply Fa; exact I|exact Si]|]. split; [exact Ti|]. split; [exact Ni|]. pose proof (fix1_len pos h c). lia.
  - rewrite !flat_map_concat_map. f_equal. apply map_ext_in. intros i I. apply in_rev in I. rewrite (O i I). reflexivity.
Qed.

(** Setting the content of a node and closing elements commute. *)
Lemma hupd_comm : forall f g h i j, (forall n, f (g n) = g (f n)) -> hupd (hupd h i f) j g = hupd (hupd h j g) i f.
Proof.
  intros f g h. induction h as [|x h IH]; intros [|i] [|j] F; try reflexivity.
  - change (g (f x) :: h = f (g x) :: h). rewrite F. reflexivity.
  - change (x :: hupd (hupd h i f) j g = x :: hupd (hupd h j g) i f). rewrite IH by exact F. reflexivity.
Qed.
Lemma fix1_content : forall pos h c i x, i < length h -> fix1 pos (hupd h i (nset_content x)) c = hupd (fix1 pos h c) i (nset_content x).
Proof.
  intros pos h c i x L. unfold fix1. rewrite (hupd_keep n_meta) by reflexivity. destruct (n_meta (hget h c)) as [m|]; [|reflexivity].
  rewrite hupd_length. rewrite (hupd_comm (nset_content x) (nupd_meta (mset_auto_fix true))) by (intros [? ? ? ? ? ? ? ? ? ? [?|]]; reflexivity).
  rewrite <- hupd_app_old by (rewrite hupd_length; exact L). apply hupd_comm. intros []; reflexivity.
Qed.
Lemma fix_heap_content : forall pos L h i x, i < length h -> fix_heap pos L (hupd h i (nset_content x)) = hupd (fix_heap pos L h) i (nset_content x).
Proof.
  intros pos L. unfold fix_heap. induction L as [|c L IH]; intros h i x Li; [reflexivity|]. cbn [fold_left]. rewrite fix1_content by exact Li. apply IH.
  pose proof (fix1_len pos h c). lia.
Qed.

(** ** The end of the input *)
Definition endview (st : doc) (P : list atom) : Prop :=
  ls (vh st) (length (vh st)) 0 P /\ (forall i, In i (d_chain_nodes st) -> spine (vh st) [] 0 i).
Lemma alk_upd : forall h i f j, (forall n, own (n_type (f n)) (n_content (f n)) (n_meta (f n)) = own (n_type n) (n_content n) (n_meta n)) ->
  (forall n, n_childs (f n) = n_childs n) -> (forall n, n_end_tag (f n) = n_end_tag n) -> (forall n, n_type n = NTagEnd -> n_type (f n) = NTagEnd) ->
  alk h (hupd h i f) j.
Proof.
  intros h i f j F1 F2 F3 F4. unfold alk, own_at, kids.
  destruct (Nat.eq_dec i j) as [->|N]; [|rewrite hget_hupd_other by exact N; repeat split; auto].
  destruct (Nat.lt_ge_cases j (length h)) as [L|L].
  - rewrite hget_hupd_same by exact L. rewrite F1, F2, F3. repeat split. auto.
  - rewrite hget_hupd_out, hget_default by exact L. repeat split. auto.
Qed.
Lemma upd_ls : forall h i f P, (forall n, own (n_type (f n)) (n_content (f n)) (n_meta (f n)) = own (n_type n) (n_content n) (n_meta n)) ->
  (forall n, n_childs (f n) = n_childs n) -> (forall n, n_end_tag (f n) = n_end_tag n) -> (forall n, n_type n = NTagEnd -> n_type (f n) = NTagEnd) ->
  ls h (length h) 0 P -> ls (hupd h i f) (length (hupd h i f)) 0 P.
Proof. intros h i f P F1 F2 F3 F4 H. eapply same_ls; [exact H|rewrite hupd_length; lia|]. intros. apply alk_upd; assumption. Qed.
Lemma removelast_map : forall {A B} (f : A -> B) l, removelast (map f l) = map f (removelast l).
Proof. intros A B f l. induction l as [|x [|y l] IH]; [reflexivity|reflexivity|]. change (f x :: removelast (map f (y :: l)) = f x :: map f (removelast (y :: l))). rewrite IH. reflexivity. Qed.
Lemma open_tags : forall h l b i, chain_ok h l b -> In i (removelast l) -> ty h i = NTag.
Proof.
  intros h l. induction l as [|j l IH]; intros b i C I; [contradiction|]. cbn in C. destruct C as [_ [B C]].
  destruct l as [|k l]; [contradiction|]. change (removelast (j :: k :: l)) with (j :: removelast (k :: l)) in I. destruct I as [<-|I]; [exact B|eauto].
Qed.
Lemma open_rev : forall st, open_at_end st = rev (removelast (d_chain_nodes st)).
Proof. intro st. unfold open_at_end. apply rev_tl. Qed.
Lemma end_ls : forall opts st d P, ending opts st -> (d_code_in st = CTextNode <-> d_handle st = HText) -> endview st P -> eof st = ROk d ->
  ls (d_heap d) (length (d_heap d)) 0 (P ++ flat_map end_atoms (removelast (metas st))).
Proof.
  intros opts st d P E Kt [V1 V2] He. destruct (eof_inv _ _ He) as [_ [Cd [Hh [Hr _]]]].
  assert (Li : forall i, In i (open_at_end st) -> In i (removelast (d_chain_nodes st))) by (intros i I; apply in_open; exact I).
  assert (F : ls (fix_heap (d_position st) (open_at_end st) (vh st)) (length (fix_heap (d_position st) (open_at_end st) (vh st))) 0
    (P ++ flat_map end_atoms (removelast (metas st)))).
  { pose proof (fix_list (d_position st) (open_at_end st) (vh st) P []) as X. rewrite app_nil_r in X.
    replace (flat_map end_atoms (removelast (metas st))) with (flat_map (fun i => end_atoms (n_meta (hget (vh st) i))) (rev (open_at_end st)) ++ []).
    - apply X; [exact V1|rewrite open_rev; eapply open_sorted; apply (e_chain _ _ E)|].
      intros i I. pose proof (Li i I) as I2. pose proof (removelast_in _ _ I2) as I3. split; [apply V2; exact I3|].
      rewrite (vh_keep n_type), (vh_keep n_end_tag) by reflexivity. split; [eapply open_tags; [apply (e_chain _ _ E)|exact I2]|].
      split; [apply (e_open _ _ E); exact I3|]. rewrite vh_len. eapply chain_ok_in; [apply (e_chain _ _ E)|exact I3].
    - rewrite app_nil_r, open_rev, rev_involutive. unfold metas. rewrite removelast_map. rewrite (flat_map_concat_map end_atoms), map_map, <- flat_map_concat_map.
      rewrite !flat_map_concat_map. f_equal. apply map_ext. intro i. rewrite (vh_keep n_meta) by reflexivity. reflexivity. }
  rewrite Hh. unfold fin_heap. fold (open_at_end st).
  apply upd_ls; try (intros []; reflexivity); [intros [] X; exact X|].
  unfold vh in F.
  assert (D : d_code_in st = CTextNode \/ d_code_in st <> CTextNode) by (destruct (d_code_in st); auto; right; discriminate).
  destruct D as [D|D].
  - rewrite D. rewrite (proj1 Kt D) in F. rewrite fix_heap_content in F by apply (e_cur _ _ E).
    eapply same_ls; [exact F|rewrite !hupd_length; lia|]. intros j _.
    unfold alk, own_at, kids. set (h := fix_heap _ _ _) in *. destruct (Nat.eq_dec (d_current_node st) j) as [<-|N]; [|rewrite !hget_hupd_other by exact N; repeat split; auto].
    destruct (fix_heap_ty (d_position st) (open_at_end st) (d_heap st) (d_current_node st) (e_cur _ _ E)) as [Lc Tc]. fold h in Lc, Tc.
    unfold ty in *. pose proof (e_text _ _ E D) as Tx. unfold ty in Tx. rewrite Tx in Tc.
    rewrite !hget_hupd_same by exact Lc. unfold text_done. destruct (d_repeat_whitespace st); cbn [n_type n_content n_meta n_childs n_end_tag nset_end_at nset_type nset_content]; repeat split; rewrite ?Tc; auto; discriminate.
  - assert (Hn : d_handle st <> HText) by tauto. destruct (d_handle st); try congruence; destruct (d_code_in st); try congruence; exact F.
Qed.
Lemma end_stream : forall opts st d P t, ending opts st -> (d_code_in st = CTextNode <-> d_handle st = HText) -> endview st P -> eof st = ROk d -> doc_tree d = Some t ->
  stream t = P ++ flat_map end_atoms (removelast (metas st)).
Proof.
  intros opts st d P t E Kt V He Ht. destruct (eof_inv _ _ He) as [_ [_ [_ [Hr _]]]]. unfold doc_tree in Ht.
  rewrite Hr, (e_root _ _ E) in Ht. eapply ls_stream; [|exact Ht]. eapply end_ls; eauto.
Qed.
