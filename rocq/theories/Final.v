(** The finished document compared with the state at the end of input. *)
From Coq Require Import String Sorting.Sorted.
From Verif Require Import Api SpecText SpecParse SpecTree NameProofs HeapLemmas InvCtl Big BigSteps Struct StructEnd Frame Birth.
Local Open Scope string_scope.
Local Open Scope list_scope.

Definition auto_end (i : nid) (m : tag_meta) (pos : nat) : node :=
  nset_parent (Some i) (nset_content (Some (m_name m)) (node_new NTagEnd pos)).
Definition auto_tag (e : nid) (m : tag_meta) (n : node) : node :=
  nset_end_tag (Some e) (nset_meta (Some (mset_auto_fix true m)) n).

Record fixed (pos : nat) (l : list nid) (h h' : list node) : Prop := mkFixed {
  fx_len : length h <= length h';
  fx_other : forall i, i < length h -> ~ In i l \/ n_meta (hget h i) = None -> hget h' i = hget h i;
  fx_in : forall i m, i < length h -> In i l -> n_meta (hget h i) = Some m ->
    exists e, length h <= e < length h' /\ hget h' i = auto_tag e m (hget h i) /\ hget h' e = auto_end i m pos;
  fx_new : forall e, length h <= e < length h' -> exists i m, In i l /\ i < length h /\ n_meta (hget h i) = Some m /\
    hget h' i = auto_tag e m (hget h i) /\ hget h' e = auto_end i m pos
}.

Lemma fix1_get : forall pos h i m, i < length h -> n_meta (hget h i) = Some m ->
  length (fix1 pos h i) = S (length h) /\
  hget (fix1 pos h i) i = auto_tag (length h) m (hget h i) /\
  hget (fix1 pos h i) (length h) = auto_end i m pos /\
  forall j, j < length h -> j <> i -> hget (fix1 pos h i) j = hget h j.
Proof.
  intros pos h i m L M. unfold fix1. rewrite M. split; [|split; [|split]].
  - rewrite hupd_length, app_length, hupd_length. cbn. lia.
  - rewrite hget_hupd_same by (rewrite app_length, hupd_length; lia). rewrite hget_app_old by (rewrite hupd_length; lia).
    rewrite hget_hupd_same by exact L. unfold nupd_meta. rewrite M. reflexivity.
  - rewrite hget_hupd_other by lia. 
    replace (length h) with (length (hupd h i (nupd_meta (mset_auto_fix true)))) by apply hupd_length. rewrite hget_app_new. reflexivity.
  - intros j Hj N. rewrite hget_hupd_other by congruence. rewrite hget_app_old by (rewrite hupd_length; lia).
    apply hget_hupd_other. congruence.
Qed.

Lemma fix_heap_fixed : forall pos l h, NoDup l -> (forall i, In i l -> i < length h) -> fixed pos l h (fix_heap pos l h).
Proof.
  intros pos l. induction l as [|i l IH]; intros h D B.
  - constructor; unfold fix_heap; cbn [fold_left]; auto.
    + intros i m _ [].
    + intros e X. lia.
  - inversion D as [|? ? Ni D']; subst. cbn [fix_heap fold_left].
    change (fold_left (fix1 pos) l (fix1 pos h i)) with (fix_heap pos l (fix1 pos h i)).
    pose proof (B i (or_introl eq_refl)) as Li. pose proof (fix1_length pos h i) as L1.
    destruct (IH (fix1 pos h i)) as [F1 F2 F3 F4]; [exact D'|intros j Hj; specialize (B j (or_intror Hj)); unfold nid in *; lia|].
    set (h' := fix_heap pos l (fix1 pos h i)) in *.
    destruct (n_meta (hget h i)) as [m|] eqn:M.
    + destruct (fix1_get pos h i m Li M) as [G1 [G2 [G3 G4]]].
      constructor.
      * lia.
      * intros j Hj [X|X].
        -- rewrite F2; [apply G4; auto; intros ->; apply X; left; reflexivity|lia|]. left. intro Y. apply X. right. exact Y.
        -- assert (j <> i) by (intros ->; congruence). rewrite F2; [apply G4; auto|lia|]. right. rewrite G4; auto.
      * intros j mj Hj [<-|X] Mj.
        -- exists (length h). rewrite M in Mj. injection Mj as <-. split; [lia|]. split.
           ++ rewrite F2; [exact G2|lia|left; exact Ni].
           ++ rewrite F2; [exact G3|lia|left]. intro Y. specialize (B (length h) (or_intror Y)). lia.
        -- assert (j <> i) by (intros ->; contradiction).
           destruct (F3 j mj) as [e [E1 [E2 E3]]]; [lia|exact X|rewrite G4; auto|]. exists e.
           rewrite G4 in E2 by auto. split; [lia|]. auto.
      * intros e He. destruct (Nat.eq_dec e (length h)) as [->|N].
        -- exists i, m. split; [left; reflexivity|]. split; [exact Li|]. split; [exact M|]. split.
           ++ rewrite F2; [exact G2|lia|left; exact Ni].
           ++ rewrite F2; [exact G3|lia|left]. intro Y. specialize (B (length h) (or_intror Y)). lia.
        -- destruct (F4 e) as [j [mj [J1 [J2 [J3 [J4 J5]]]]]]; [lia|]. exists j, mj.
           pose proof (B j (or_intror J1)) as Lj. assert (j <> i) by (intros ->; contradiction).
           rewrite G4 in J3, J4 by auto. split; [right; exact J1|]. auto.
    + assert (E : fix1 pos h i = h) by (unfold fix1; rewrite M; reflexivity). rewrite E in *.
      constructor; auto.
      * intros j Hj [X|X]; apply F2; auto. left. intro Y. apply X. right. exact Y.
      * intros j mj Hj [<-|X] Mj; [congruence|eauto].
      * intros e He. destruct (F4 e He) as [j [mj [J1 J2]]]. exists j, mj. split; [right; exact J1|exact J2].
Qed.

Lemma chain_nodup : forall h l b, chain_ok h l b -> NoDup l.
Proof.
  intros h l. induction l as [|i l IH]; intros b C; [constructor|]. cbn in C. destruct C as [A [_ C]].
  constructor; [|eapply IH; exact C]. intro X. apply (chain_in _ _ _ _ C) in X. lia.
Qed.
Lemma nodup_tl_rev : forall (l : list nid), NoDup l -> NoDup (tl (rev l)).
Proof. intros l H. apply NoDup_rev in H. destruct (rev l); [exact H|]. inversion H; assumption. Qed.

(** The elements still open at the end of input. *)
Definition open_at_end (st : doc) : list nid := tl (rev (d_chain_nodes st)).
Lemma open_iff : forall lt h l i, hs lt h -> chain_ok h l (length h) -> (In i (tl (rev l)) <-> In i l /\ i <> 0).
Proof.
  intros lt h l i H C. split.
  - intro X. destruct (chain_unclosed _ _ _ _ H C X) as [L T]. split.
    + apply in_rev. destruct (rev l); [destruct X|right; exact X].
    + intros ->. destruct H as [[_ [R _]] _]. congruence.
  - intros [X N]. apply in_rev in X. destruct (rev l) as [|j r] eqn:E; [destruct X|]. cbn. destruct X as [->|X]; [|exact X].
    exfalso. apply N. clear - E C. revert C. assert (El : l = rev r ++ [i]).
    { rewrite <- (rev_involutive l), E. reflexivity. }
    subst l. clear E. generalize (length h) as b. induction (rev r) as [|k r' IH]; intros b C; cbn in C.
    + tauto.
    + destruct C as [_ [_ C]]. eapply IH. exact C.
Qed.

Record finished (opts : parse_options) (st d : doc) : Prop := mkFin {
  f_len : length (d_heap st) <= length (d_heap d);
  f_begin : forall i, i < length (d_heap st) -> n_begin_at (hget (d_heap d) i) = n_begin_at (hget (d_heap st) i);
  f_childs : forall i, i < length (d_heap st) -> n_childs (hget (d_heap d) i) = n_childs (hget (d_heap st) i);
  f_parent : forall i, i < length (d_heap st) -> n_parent (hget (d_heap d) i) = n_parent (hget (d_heap st) i);
  f_type : forall i, i < length (d_heap st) -> ty (d_heap d) i =
    if (Nat.eqb i (d_current_node st) && d_repeat_whitespace st &&
        match d_code_in st with CTextNode => true | _ => false end)%bool
    then NSpacesBetweenTag else ty (d_heap st) i;
  f_content : forall i, i < length (d_heap st) -> n_content (hget (d_heap d) i) =
    if (Nat.eqb i (d_current_node st) && match d_code_in st with CTextNode => true | _ => false end)%bool
    then Some (d_prev_chars st) else n_content (hget (d_heap st) i);
  f_end_at : forall i, i < length (d_heap st) -> n_end_at (hget (d_heap d) i) =
    if (Nat.eqb i 0 || (Nat.eqb i (d_current_node st) && match d_code_in st with CTextNode => true | _ => false end))%bool
    then d_position st else n_end_at (hget (d_heap st) i);
  f_closed : forall i, i < length (d_heap st) -> ~ In i (open_at_end st) \/ n_meta (hget (d_heap st) i) = None ->
    n_meta (hget (d_heap d) i) = n_meta (hget (d_heap st) i) /\ n_end_tag (hget (d_heap d) i) = n_end_tag (hget (d_heap st) i);
  f_open : forall i m, i < length (d_heap st) -> In i (open_at_end st) -> n_meta (hget (d_heap st) i) = Some m ->
    n_meta (hget (d_heap d) i) = Some (mset_auto_fix true m) /\ exists e, length (d_heap st) <= e < length (d_heap d) /\
    n_end_tag (hget (d_heap d) i) = Some e /\ hget (d_heap d) e = auto_end i m (d_position st);
  f_new : forall e, length (d_heap st) <= e < length (d_heap d) -> exists i m, In i (open_at_end st) /\ i < length (d_heap st) /\
    n_meta (hget (d_heap st) i) = Some m /\ n_end_tag (hget (d_heap d) i) = Some e /\
    hget (d_heap d) e = auto_end i m (d_position st);
  f_auto : open_at_end st <> [] -> auto_fix_unclosed_tag opts = true;
  f_ids : d_id_tags d = d_id_tags st;
  f_opts : d_parse_options d = opts;
  f_root : d_root d = 0;
  f_pos : d_position d = d_position st
}.

Lemma finish : forall opts st d, ending opts st -> eof st = ROk d -> finished opts st d.
Proof.
  intros opts st d E H. destruct (eof_inv _ _ H) as [Ho [_ [Hh [Hr [Hi [Hp Hpos]]]]]].
  pose proof (e_root _ _ E) as R0. pose proof (e_cur _ _ E) as Cu. pose proof (e_chain _ _ E) as C.
  pose proof (e_hs _ _ E) as HS.
  assert (FX : fixed (d_position st) (open_at_end st) (d_heap st) (fix_heap (d_position st) (open_at_end st) (d_heap st))).
  { apply fix_heap_fixed.
    - apply nodup_tl_rev. eapply chain_nodup; exact C.
    - intros i X. apply (chain_unclosed _ _ _ _ HS C X). }
  set (h1 := fix_heap (d_position st) (open_at_end st) (d_heap st)) in *.
  pose (tx := match d_code_in st with CTextNode => true | _ => false end).
  assert (Eh : d_heap d = hupd (if tx then hupd h1 (d_current_node st) (text_done st) else h1) 0 (nset_end_at (d_position st))).
  { rewrite Hh. unfold fin_heap. rewrite R0. fold (open_at_end st). fold h1. unfold tx. destruct (d_code_in st); reflexivity. }
  assert (Cn : tx = true -> ~ In (d_current_node st) (open_at_end st)).
  { intros T X. destruct (chain_unclosed _ _ _ _ HS C X) as [_ Y].
    assert (Z : ty (d_heap st) (d_current_node st) = NText) by (apply (e_text _ _ E); unfold tx in T; destruct (d_code_in st); try discriminate; reflexivity).
    congruence. }
  assert (Cz : tx = true -> d_current_node st <> 0).
  { intros T X. assert (Z : ty (d_heap st) (d_current_node st) = NText) by (apply (e_text _ _ E); unfold tx in T; destruct (d_code_in st); try discriminate; reflexivity).
    rewrite X in Z. destruct HS as [[_ [Y _]] _]. congruence. }
  assert (Cm : tx = true -> hget h1 (d_current_node st) = hget (d_heap st) (d_current_node st)) by (intro T; apply (fx_other _ _ _ _ FX); auto).
  pose proof (fx_len _ _ _ _ FX) as L1.
  (* every field, except end_at, of every node *)
  assert (G : forall {A} (f : node -> A) i, (forall v n, f (nset_end_at v n) = f n) -> (tx = true -> i <> d_current_node st) ->
     f (hget (d_heap d) i) = f (hget h1 i)).
  { intros A f i Hf Hn. rewrite Eh. rewrite (hupd_keep f) by (intro; apply Hf). destruct tx; [|reflexivity].
    rewrite hget_hupd_other; [reflexivity|]. intro X. apply Hn; auto. }
  assert (Gt : forall {A} (f : node -> A), (forall v n, f (nset_end_at v n) = f n) -> tx = true ->
     f (hget (d_heap d) (d_current_node st)) = f (text_done st (hget (d_heap st) (d_current_node st)))).
  { intros A f Hf T. rewrite Eh. rewrite (hupd_keep f) by (intro; apply Hf). rewrite T.
    rewrite hget_hupd_same by lia. rewrite (Cm T). reflexivity. }
  assert (G2 : forall {A} (f : node -> A) i, (forall v n, f (nset_end_at v n) = f n) ->
     (forall v n, f (nset_type v n) = f n) -> (forall v n, f (nset_content v n) = f n) -> f (hget (d_heap d) i) = f (hget h1 i)).
  { intros A f i Hf Hf2 Hf3. destruct (Nat.eq_dec i (d_current_node st)) as [->|N].
    - destruct tx eqn:T; [|apply G; [exact Hf|intro Y; discriminate]].
      rewrite Gt, Cm by auto. unfold text_done. rewrite Hf. destruct (d_repeat_whitespace st); rewrite ?Hf2, Hf3; reflexivity.
    - apply G; auto. }
  assert (Old : forall {A} (f : node -> A) i, i < length (d_heap st) -> (forall v n, f (nset_end_tag v n) = f n) -> (forall v n, f (nset_meta v n) = f n) ->
     f (hget h1 i) = f (hget (d_heap st) i)).
  { intros A f i Hl F1 F2. destruct (in_dec Nat.eq_dec i (open_at_end st)) as [X|X].
    - destruct (n_meta (hget (d_heap st) i)) as [m|] eqn:M.
      + destruct (fx_in _ _ _ _ FX i m Hl X M) as [e [_ [Y _]]]. rewrite Y. unfold auto_tag. rewrite F1, F2. reflexivity.
      + rewrite (fx_other _ _ _ _ FX) by auto. reflexivity.
    - rewrite (fx_other _ _ _ _ FX) by auto. reflexivity. }
  assert (Ld : length (d_heap d) = length h1) by (rewrite Eh, hupd_length; destruct tx; rewrite ?hupd_length; reflexivity).
  assert (Nw : forall e, length (d_heap st) <= e -> hget (d_heap d) e = hget h1 e).
  { intros e He. rewrite Eh. rewrite hget_hupd_other by (pose proof (proj1 (hs_root _ _ HS)); lia).
    destruct tx; [|reflexivity]. apply hget_hupd_other. lia. }
  constructor.
  - lia.
  - intros i Hl. rewrite (G2 _ n_begin_at) by reflexivity. apply Old; auto.
  - intros i Hl. rewrite (G2 _ n_childs) by reflexivity. apply Old; auto.
  - intros i Hl. rewrite (G2 _ n_parent) by reflexivity. apply Old; auto.
  - intros i Hl. fold tx. unfold ty. destruct (Nat.eqb_spec i (d_current_node st)) as [->|N]; cbn [andb].
    + destruct tx eqn:T; [rewrite Bool.andb_true_r|rewrite Bool.andb_false_r].
      * rewrite (Gt _ n_type) by auto. unfold text_done. destruct (d_repeat_whitespace st); reflexivity.
      * rewrite (G _ n_type) by (auto; discriminate). apply (Old _ n_type); auto.
    + rewrite (G _ n_type) by auto. apply (Old _ n_type); auto.
  - intros i Hl. fold tx. destruct (Nat.eqb_spec i (d_current_node st)) as [->|N]; cbn [andb].
    + destruct tx eqn:T.
      * rewrite (Gt _ n_content) by auto. unfold text_done. destruct (d_repeat_whitespace st); reflexivity.
      * rewrite (G _ n_content) by (auto; discriminate). apply (Old _ n_content); auto.
    + rewrite (G _ n_content) by auto. apply (Old _ n_content); auto.
  - intros i Hl. fold tx. rewrite Eh. destruct (Nat.eqb_spec i 0) as [->|N0]; cbn [orb].
    + rewrite hget_hupd_same; [reflexivity|]. destruct tx; rewrite ?hupd_length; lia.
    + rewrite hget_hupd_other by congruence. destruct (Nat.eqb_spec i (d_current_node st)) as [->|N]; cbn [andb].
      * destruct tx eqn:T; [|apply (Old _ n_end_at); auto]. rewrite hget_hupd_same by lia. reflexivity.
      * destruct tx; [rewrite hget_hupd_other by congruence|]; apply (Old _ n_end_at); auto.
  - intros i Hl X. rewrite (G2 _ n_meta), (G2 _ n_end_tag) by reflexivity. rewrite (fx_other _ _ _ _ FX) by auto. auto.
  - intros i m Hl X M. destruct (fx_in _ _ _ _ FX i m Hl X M) as [e [E1 [E2 E3]]].
    rewrite (G2 _ n_meta), (G2 _ n_end_tag), E2 by reflexivity. split; [reflexivity|]. exists e. rewrite Ld, Nw by lia. auto.
  - intros e He. rewrite Ld in He. destruct (fx_new _ _ _ _ FX e He) as [i [m [I1 [I2 [I3 [I4 I5]]]]]]. exists i, m.
    split; [exact I1|]. split; [exact I2|]. split; [exact I3|]. rewrite (G2 _ n_end_tag), I4, Nw by (reflexivity || lia). auto.
  - intro X. rewrite (e_opts _ _ E) in Ho. destruct Ho as [Ho|Ho]; [|exact Ho]. exfalso. apply X. unfold open_at_end.
    destruct (d_chain_nodes st) as [|a [|b l]]; cbn in *; [reflexivity|reflexivity|lia].
  - exact Hi.
  - rewrite Hp. apply (e_opts _ _ E).
  - congruence.
  - exact Hpos.
Qed.
