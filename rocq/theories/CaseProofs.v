(** Proofs for C66. *)
From Coq Require Import String NArith Lia ZifyBool ZifyN.
From Verif Require Import Api SpecText SpecRender SpecParse SpecMisc SpecTree SpecDoc SpecShown SpecJoin SpecCase NameProofs TextProofs Shape DocTree DocSound Print Shown ShownDoc JoinProofs SwapProofs.
Local Open Scope string_scope.
Local Open Scope list_scope.

(** ** Characters *)
Notation sc a b := (ascii_lower_char a = ascii_lower_char b).
Lemma sc_cases : forall a b, sc a b -> a = b \/ ((65 <= a <= 90)%N /\ b = (a + 32)%N) \/ ((65 <= b <= 90)%N /\ a = (b + 32)%N).
Proof. intros a b. unfold ascii_lower_char. destruct (N.leb 65 a && N.leb a 90)%bool eqn:A, (N.leb 65 b && N.leb b 90)%bool eqn:B; lia. Qed.
Lemma sc_ws : forall a b, sc a b -> is_ascii_whitespace a = is_ascii_whitespace b.
Proof. intros a b H. apply sc_cases in H. unfold is_ascii_whitespace, char in *. destruct H as [->|[[A ->]|[A ->]]]; [reflexivity|lia|lia]. Qed.
Lemma sc_alpha : forall a b, sc a b -> is_ascii_alphabetic a = is_ascii_alphabetic b.
Proof. intros a b H. apply sc_cases in H. unfold is_ascii_alphabetic, is_ascii_lowercase, is_ascii_uppercase, char in *. destruct H as [->|[[A ->]|[A ->]]]; [reflexivity|lia|lia]. Qed.
Lemma sc_eq : forall a b, sc a b -> (b < 65)%N -> a = b.
Proof. intros a b H L. apply sc_cases in H. lia. Qed.
Lemma sc_name_char : forall a b, sc a b -> name_char a -> name_char b.
Proof.
  intros a b H (A & B & C). unfold name_char, is_ws in *. rewrite <- (sc_ws _ _ H). split; [exact A|].
  split; intros ->; [apply B|apply C]; apply (sc_eq _ _ H); lia.
Qed.

(** ** Texts *)
Lemma sn_cons : forall a s t, same_name (a :: s) t = true -> exists b t', t = b :: t' /\ sc a b /\ same_name s t' = true.
Proof. intros a s [|b t] H; [discriminate H|]. cbn in H. apply Bool.andb_true_iff in H as [A B]. apply N.eqb_eq in A. eauto. Qed.
Lemma sn_app : forall a b a' b', same_name a a' = true -> same_name b b' = true -> same_name (a ++ b) (a' ++ b') = true.
Proof.
  induction a as [|x a IH]; intros b [|y a'] b' H K; try discriminate H; [exact K|]. cbn in *. apply Bool.andb_true_iff in H as [A B]. rewrite A. cbn. apply IH; assumption.
Qed.
Lemma sn_split : forall a b s, same_name (a ++ b) s = true -> exists a' b', s = a' ++ b' /\ same_name a a' = true /\ same_name b b' = true.
Proof.
  induction a as [|x a IH]; intros b s H; [exists [], s; auto|]. cbn [app] in H. apply sn_cons in H as (y & t & -> & A & B).
  destruct (IH _ _ B) as (a' & b' & -> & C & D). exists (y :: a'), b'. cbn. rewrite A, N.eqb_refl, C. auto.
Qed.
Lemma sn_forall : forall (P : char -> Prop) s t, (forall a b, sc a b -> P a -> P b) -> same_name s t = true -> Forall P s -> Forall P t.
Proof.
  intros P s. induction s as [|a s IH]; intros t C H F; [destruct t; [constructor|discriminate H]|]. apply sn_cons in H as (b & t' & -> & A & B).
  inversion F; subst. constructor; [eapply C; eassumption|auto].
Qed.
Lemma sn_exact : forall s t, Forall (fun c => c < 65)%N t -> same_name s t = true -> s = t.
Proof.
  induction s as [|a s IH]; intros t F H; [destruct t; [reflexivity|discriminate H]|]. apply sn_cons in H as (b & t' & -> & A & B).
  inversion F; subst. f_equal; [apply sc_eq; assumption|auto].
Qed.
Lemma sn_in : forall x s t, (x < 65)%N -> same_name s t = true -> In x t -> In x s.
Proof.
  intros x s. induction s as [|a s IH]; intros t L H I; [destruct t; [destruct I|discriminate H]|]. apply sn_cons in H as (b & t' & -> & A & B).
  destruct I as [->|I]; [left; apply sc_eq; assumption|right; eauto].
Qed.
Lemma sn_trim : forall s t, same_name s t = true -> same_name (trim_right s) (trim_right t) = true.
Proof.
  induction s as [|a s IH]; intros t H; [destruct t; [reflexivity|discriminate H]|]. apply sn_cons in H as (b & t' & -> & A & B). specialize (IH _ B).
  cbn [trim_right]. destruct (trim_right s) as [|x u], (trim_right t') as [|y v]; try discriminate IH.
  - rewrite (sc_ws _ _ A). destruct (is_ascii_whitespace b); [reflexivity|]. cbn. rewrite A, N.eqb_refl. reflexivity.
  - cbn [same_name] in *. rewrite A, N.eqb_refl. exact IH.
Qed.
Lemma sn_open : forall n n', same_name n n' = true -> open_name n -> open_name n'.
Proof.
  intros n n' H (c & r & -> & A & F). apply sn_cons in H as (b & t & -> & C & D). exists b, t. split; [reflexivity|].
  split; [rewrite <- (sc_alpha _ _ C); exact A|exact (sn_forall _ _ _ sc_name_char D F)].
Qed.
Lemma sn_flip : forall a b, same_name a b = true -> same_name b a = true.
Proof. intros a b H. rewrite same_name_sym. exact H. Qed.
Lemma sn_congr : forall n n' m, same_name n n' = true -> same_name n' m = same_name n m.
Proof.
  intros n n' m H. destruct (same_name n m) eqn:A.
  - exact (same_name_trans _ _ _ (sn_flip _ _ H) A).
  - destruct (same_name n' m) eqn:B; [|reflexivity]. rewrite (same_name_trans _ _ _ H B) in A. discriminate A.
Qed.
Lemma sn_one_of : forall l n n', same_name n n' = true -> one_of l n' = one_of l n.
Proof. intros l n n' H. unfold one_of. induction l as [|x l IH]; [reflexivity|]. cbn. rewrite (sn_congr _ _ _ H), IH. reflexivity. Qed.
Lemma sn_fits : forall n n' e e', same_name n n' = true -> same_name e e' = true -> name_fits false n' (trim_right e') = name_fits false n (trim_right e).
Proof.
  intros n n' e e' H K. unfold name_fits. rewrite (sn_congr _ _ _ H). rewrite !(same_name_sym n). apply sn_congr, sn_trim, K.
Qed.
Lemma sn_ends : forall n n' p p', same_name n n' = true -> same_name p p' = true -> ends_in_end_tag false n p -> ends_in_end_tag false n' p'.
Proof.
  intros n n' p p' H K (body & nm & w & -> & Fw & Ft). apply sn_split in K as (body' & r & -> & K1 & K2). apply sn_split in K2 as (m & r' & -> & K2 & K3).
  apply sn_split in K3 as (nm' & w' & -> & K3 & K4). exists body', nm', w'. apply sn_flip in K2. apply sn_exact in K2; [|repeat constructor]. rewrite K2. split; [reflexivity|].
  split; [eapply (sn_forall is_ws); [|exact K4|exact Fw]; intros a b A B; unfold is_ws in *; rewrite <- (sc_ws _ _ A); exact B|].
  unfold name_fits in *. rewrite (sn_congr _ _ _ H). exact (same_name_trans _ _ _ Ft K3).
Qed.
Lemma sn_first : forall n n' b b', same_name n n' = true -> same_name b b' = true -> first_end (ends_in_end_tag false n) b -> first_end (ends_in_end_tag false n') b'.
Proof.
  intros n n' b b' H K [A B]. split; [exact (sn_ends _ _ _ _ H K A)|]. intros p' q' -> E. apply sn_flip in K. apply sn_split in K as (p & r & -> & K1 & K2).
  apply sn_cons in K2 as (x & q & -> & K2 & K3). assert (x = 62%N) by (symmetry in K2; apply sc_eq in K2; [exact K2|lia]). subst x.
  apply (B p q eq_refl). exact (sn_ends _ _ _ _ (sn_flip _ _ H) K1 E).
Qed.

(** ** Tokens *)
Inductive tk_case : token -> token -> Prop :=
  | tc_text : forall c, tk_case (KText c) (KText c)
  | tc_comment : forall c, tk_case (KComment c) (KComment c)
  | tc_cdata : forall c, tk_case (KCData c) (KCData c)
  | tc_doctype : forall n n' l, same_name n n' = true -> tk_case (KDoctype n l) (KDoctype n' l)
  | tc_leaf : forall n n' l x, same_name n n' = true -> tk_case (KLeaf n l x) (KLeaf n' l x)
  | tc_raw : forall n n' l c e e', same_name n n' = true -> same_name e e' = true -> tk_case (KRaw n l c e) (KRaw n' l c e')
  | tc_open : forall n n' l, same_name n n' = true -> tk_case (KOpen n l) (KOpen n' l)
  | tc_close : forall e e', same_name e e' = true -> tk_case (KClose e) (KClose e').
Lemma rc_tokens : forall dt x x', recased dt x x' -> Forall2 tk_case (tokens x) (tokens x').
Proof.
  intros dt x. induction x as [c b|c|c|n a|n a s|n a c e|n a ks e IH] using item_ind2; intros x' R; inversion R; subst; cbn [tokens]; try (repeat constructor; assumption).
  constructor; [constructor; assumption|]. apply Forall2_app; [|repeat constructor; assumption].
  match goal with H : Forall2 _ ks _ |- _ => clear - IH H; induction H as [|k k' ks ks' K KS IHK]; [constructor|] end.
  inversion IH; subst. cbn [flat_map]. apply Forall2_app; auto.
Qed.
Lemma rc_list_tokens : forall dt f f', Forall2 (recased dt) f f' -> Forall2 tk_case (flat_map tokens f) (flat_map tokens f').
Proof. intros dt f f' F. induction F as [|x x' f f' R F IH]; [constructor|]. cbn [flat_map]. apply Forall2_app; [eapply rc_tokens; exact R|exact IH]. Qed.

Ltac sn := repeat (apply sn_app; [first [apply same_name_refl | assumption]|]); first [apply same_name_refl | assumption].
Lemma tk_written : forall opts k k' w, case_sensitive_tagname opts = false -> tk_case k k' -> written opts k w ->
  exists w', written opts k' w' /\ same_name w w' = true.
Proof.
  intros opts k k' w Cs T W. destruct T; inversion W; subst.
  - eexists. split; [exact W|apply same_name_refl].
  - eexists. split; [exact W|apply same_name_refl].
  - eexists. split; [exact W|apply same_name_refl].
  - eexists. split; [constructor; [|eassumption|eassumption]|sn]. rewrite (sn_congr _ _ _ H). assumption.
  - eexists. split; [constructor; [eapply sn_open; eassumption|eassumption|eassumption|]|sn]. unfold void_name. rewrite (sn_one_of _ _ _ H). assumption.
  - eexists. split; [apply w_raw; [eapply sn_open; eassumption|eassumption|eassumption| | |]|].
    + unfold raw_name. rewrite (sn_one_of _ _ _ H). assumption.
    + rewrite Cs in *. rewrite (sn_fits _ _ _ _ H H0). assumption.
    + rewrite Cs in *. eapply sn_first; [exact H| |eassumption]. sn.
    + sn.
  - eexists. split; [constructor; [eapply sn_open; eassumption|eassumption|eassumption| |]|sn].
    + unfold void_name. rewrite (sn_one_of _ _ _ H). assumption.
    + unfold raw_name. rewrite (sn_one_of _ _ _ H). assumption.
  - eexists. split; [constructor|sn]. intro I. apply (sn_in _ _ _ (eq_refl : (62 < 65)%N) H) in I. contradiction.
Qed.
Lemma tk_source : forall opts ks s, case_sensitive_tagname opts = false -> source opts ks s -> forall ks', Forall2 tk_case ks ks' ->
  exists s', source opts ks' s' /\ same_name s s' = true.
Proof.
  intros opts ks s Cs S. induction S as [|k s ks r W S IH A]; intros ks' F; inversion F; subst; [exists []; split; [constructor|reflexivity]|].
  destruct (IH _ H3) as (r' & Sr & Er). destruct (tk_written _ _ _ _ Cs H1 W) as (w' & Ww & Ew). exists (w' ++ r'). split; [|apply sn_app; assumption].
  constructor; [exact Ww|exact Sr|]. intro T. assert (T' : is_ktext k = true) by (destruct H1; assumption || reflexivity). specialize (A T').
  inversion H3; subst; [exact I|]. destruct H; assumption || reflexivity.
Qed.

(** ** Nesting *)
Lemma tk_nests_free : forall opts, case_sensitive_tagname opts = false -> allow_self_closing opts = true ->
  forall ks ks', Forall2 tk_case ks ks' -> (forall c, ~ In (KCData c) ks) ->
  forall a f b f1 a' g, nest_all opts ks (mkNest a f) = Some (mkNest b f1) -> Forall2 (fun x y => same_name x y = true) a a' ->
  exists b' g', nest_all opts ks' (mkNest a' g) = Some (mkNest b' g') /\ Forall2 (fun x y => same_name x y = true) b b'.
Proof.
  intros opts Cs Al ks ks' F. induction F as [|k k' ks ks' T F IH]; intros Nc a f b f1 a' g H A.
  - cbn in H. injection H as <- <-. exists a', g. split; [reflexivity|exact A].
  - assert (X : forall a1 f2 a2 g2, nest_all opts ks (mkNest a1 f2) = Some (mkNest b f1) -> Forall2 (fun x y => same_name x y = true) a1 a2 ->
      exists b' g', nest_all opts ks' (mkNest a2 g2) = Some (mkNest b' g') /\ Forall2 (fun x y => same_name x y = true) b b').
    { intros. eapply IH; [|eassumption|assumption]. intros c I. exact (Nc c (or_intror I)). }
    cbn [nest_all] in *. destruct T as [c|c|c|n n' l N|n n' l x N|n n' l c e e' N E|n n' l N|e e' E]; cbn [nest open_names foreign] in *.
    + eapply X; eassumption.
    + eapply X; eassumption.
    + destruct (Nc c). left. reflexivity.
    + eapply X; eassumption.
    + rewrite Al, Bool.orb_true_r in *. cbn in *. eapply X; eassumption.
    + eapply X; eassumption.
    + eapply X; [exact H|constructor; assumption].
    + destruct A as [|n n' a a' N A]; [discriminate H|]. rewrite Cs in *. rewrite (sn_fits _ _ _ _ N E). destruct (name_fits false n (trim_right e)); [|discriminate H]. eapply X; eassumption.
Qed.

Definition tk_map (g : char -> char) (k : token) : token :=
  match k with
  | KLeaf n l x => KLeaf (map g n) l x
  | KRaw n l c e => KRaw (map g n) l c (map g e)
  | KOpen n l => KOpen (map g n) l
  | KClose e => KClose (map g e)
  | k => k
  end.
Lemma tokens_respelled : forall g x, tokens (respelled g x) = map (tk_map g) (tokens x).
Proof.
  intros g x. induction x as [c b|c|c|n a|n a s|n a c e|n a ks e IH] using item_ind2; try reflexivity.
  cbn [respelled tokens map tk_map]. f_equal. rewrite map_app. f_equal. induction IH as [|k ks K IH IH2]; [reflexivity|].
  cbn [map flat_map]. rewrite map_app, K, IH2. reflexivity.
Qed.
Lemma list_respelled : forall g f, flat_map tokens (map (respelled g) f) = map (tk_map g) (flat_map tokens f).
Proof. intros g f. induction f as [|x f IH]; [reflexivity|]. cbn [map flat_map]. rewrite map_app, tokens_respelled, IH. reflexivity. Qed.
Section uniform.
Variable g : char -> char.
Hypothesis R : recasing g.
Lemma map_same_name : forall n, same_name n (map g n) = true.
Proof. destruct R as [L _]. induction n as [|c n IH]; [reflexivity|]. cbn. rewrite L, N.eqb_refl. exact IH. Qed.
Lemma map_trim : forall n, trim_right (map g n) = map g (trim_right n).
Proof.
  destruct R as [L _]. induction n as [|c n IH]; [reflexivity|]. cbn [map trim_right]. rewrite IH. destruct (trim_right n) as [|x u]; cbn [map]; [|reflexivity].
  rewrite (sc_ws _ _ (L c)). destruct (is_ascii_whitespace c); reflexivity.
Qed.
Lemma map_eqb : forall a b, chars_eqb (map g a) (map g b) = chars_eqb a b.
Proof.
  intros a b. destruct (chars_eqb a b) eqn:E.
  - apply chars_eqb_eq in E. subst. apply chars_eqb_eq. reflexivity.
  - destruct (chars_eqb (map g a) (map g b)) eqn:F; [|reflexivity]. apply chars_eqb_eq in F. exfalso.
    assert (a = b). { destruct R as [_ I]. clear E. revert b F. induction a as [|x a IH]; intros [|y b] F; try discriminate F; [reflexivity|]. injection F as A B. f_equal; auto. }
    subst. assert (X : chars_eqb b b = true) by (apply chars_eqb_eq; reflexivity). congruence.
Qed.
Lemma map_special : forall n, special_elem (map g n) = special_elem n.
Proof. intro n. unfold special_elem. rewrite !(sn_congr _ _ _ (map_same_name n)). reflexivity. Qed.
Definition map_nest (s : nesting) : nesting := mkNest (map (map g) (open_names s)) (option_map (map g) (foreign s)).
Lemma map_nests : forall opts, case_sensitive_tagname opts = false -> forall k s, nest opts (tk_map g k) (map_nest s) = option_map map_nest (nest opts k s).
Proof.
  intros opts Cs k [a f]. destruct k as [c|c|c|n l|n l x|n l c e|n l|e]; cbn [nest tk_map map_nest open_names foreign]; try reflexivity.
  - destruct a as [|n a]; [reflexivity|]. destruct f as [f|]; [|reflexivity]. cbn. rewrite map_eqb. destruct (chars_eqb n f); reflexivity.
  - unfold void_name. rewrite (sn_one_of _ _ _ (map_same_name n)). replace (match option_map (map g) f with Some _ => true | None => false end) with (match f with Some _ => true | None => false end) by (destruct f; reflexivity).
    destruct (_ || _)%bool; reflexivity.
  - cbn. rewrite map_special. unfold map_nest. cbn. destruct f; [reflexivity|]. destruct (special_elem n); reflexivity.
  - destruct a as [|n a]; [reflexivity|]. cbn [map]. rewrite Cs, (sn_fits _ _ _ _ (map_same_name n) (map_same_name e)).
    destruct (name_fits false n (trim_right e)); [|reflexivity]. unfold map_nest. cbn. rewrite map_trim. destruct f as [f|]; [|reflexivity]. cbn. rewrite map_eqb. destruct (chars_eqb f (trim_right e)); reflexivity.
Qed.
Lemma map_nest_all : forall opts, case_sensitive_tagname opts = false -> forall ks s, nest_all opts (map (tk_map g) ks) (map_nest s) = option_map map_nest (nest_all opts ks s).
Proof.
  intros opts Cs ks. induction ks as [|k ks IH]; intro s; [reflexivity|]. cbn [map nest_all]. rewrite (map_nests opts Cs). destruct (nest opts k s); [apply IH|reflexivity].
Qed.
Lemma respelled_recased : forall x, recased false x (respelled g x).
Proof.
  intro x. induction x as [c b|c|c|n a|n a s|n a c e|n a ks e IH] using item_ind2; cbn; try constructor; try apply map_same_name; try apply same_name_refl; auto.
  induction IH; constructor; auto.
Qed.
End uniform.

(** ** Marks *)
Lemma rc_is_text : forall dt x x', recased dt x x' -> is_text x' = is_text x.
Proof. intros dt x x' H. destruct H; reflexivity. Qed.
Lemma rc_mark : forall dt x x' o f, recased dt x x' -> mark o f x = x -> mark o f x' = x'.
Proof.
  intros dt x. induction x as [c b|c|c|n a|n a s|n a c e|n a ks e IH] using item_ind2; intros x' o f R M; inversion R; subst; try reflexivity; try exact M.
  rewrite mark_elem in *. injection M as M. f_equal.
  assert (G : forall b, mark_list b ks = ks -> mark_list b ks' = ks').
  { clear M R. intro b. match goal with H : Forall2 _ ks ks' |- _ => rename H into F end. revert b. induction F as [|k k' ks ks' K F IHF]; intros b M; [reflexivity|].
    cbn [mark_list] in *. injection M as M1 M2. inversion IH; subst. f_equal; [|apply IHF; assumption].
    match goal with H : forall x', _ |- _ => eapply H; [exact K|] end. destruct F as [|k2 k2' ks ks' K2 F]; [exact M1|]. rewrite (rc_is_text _ _ _ K2). exact M1. }
  match goal with H : Forall2 _ ks ks' |- _ => rename H into F end. destruct F as [|k k' ks ks' K F]; [reflexivity|]. destruct F as [|k2 k2' ks ks' K2 F].
  - injection M as M. inversion IH; subst. f_equal. match goal with H : forall x', _ |- _ => eapply H; [exact K|exact M] end.
  - apply G. exact M.
Qed.
Lemma rc_marked : forall dt f f', Forall2 (recased dt) f f' -> marked f -> marked f'.
Proof.
  intros dt f f' F M. unfold marked in *. rewrite mark_all_list in *. revert M. generalize false as b. induction F as [|x x' f f' R F IH]; intros b M; [reflexivity|].
  cbn [mark_list] in *. injection M as M1 M2. f_equal; [|exact (IH b M2)]. eapply rc_mark; [exact R|]. destruct F as [|y y' f f' Q F]; [exact M1|]. rewrite (rc_is_text _ _ _ Q). exact M1.
Qed.

(** ** Documents *)
Lemma recased_doc : forall dt opts s d f f', parse opts s = Parsed d -> no_repair opts -> open_doctypes d -> case_sensitive_tagname opts = false ->
  doc_content d f -> Forall2 (recased dt) f f' -> (nests opts (flat_map tokens f) -> nests opts (flat_map tokens f')) ->
  exists s' d', same_name s s' = true /\ source opts (flat_map tokens f) s /\ source opts (flat_map tokens f') s' /\ parse opts s' = Parsed d' /\ doc_content d' f'.
Proof.
  intros dt opts s d f f' P Nr O Cs Df F Ns. destruct (parsed_source _ _ _ P Nr O) as (f0 & S & N & M & D0). rewrite (content_unique _ _ _ D0 Df) in *. clear f0 D0.
  destruct (tk_source _ _ _ Cs S _ (rc_list_tokens _ _ _ F)) as (s' & S' & E). destruct (source_accepted _ _ _ S' (Ns N)) as (d' & f2 & P' & T & M2 & D2).
  rewrite (tokens_unique _ _ M2 (rc_marked _ _ _ F M) T) in *. exists s', d'. auto.
Qed.
Lemma recase_nests : forall dt opts d f f', case_sensitive_tagname opts = false -> allow_self_closing opts = true -> without_cdata d -> doc_content d f -> Forall2 (recased dt) f f' ->
  nests opts (flat_map tokens f) -> nests opts (flat_map tokens f').
Proof.
  intros dt opts d f f' Cs Al Nc Df F [x N].
  destruct (tk_nests_free opts Cs Al _ _ (rc_list_tokens _ _ _ F) (fun c => cdata_doc _ _ c Df Nc) _ _ _ _ [] None N (Forall2_nil _)) as (b & y & N' & B). inversion B; subst. exists y. exact N'.
Qed.
Lemma respell_nests : forall g opts f, recasing g -> case_sensitive_tagname opts = false -> nests opts (flat_map tokens f) -> nests opts (flat_map tokens (map (respelled g) f)).
Proof.
  intros g opts f R Cs [x N]. rewrite list_respelled. exists (option_map (map g) x). change (mkNest [] None) with (map_nest g (mkNest [] None)). rewrite (map_nest_all g R opts Cs), N. reflexivity.
Qed.

(** ** Rendering *)
Lemma sn_lower : forall a b, same_name a b = true -> ascii_lower a = ascii_lower b.
Proof.
  unfold ascii_lower. induction a as [|x a IH]; intros b H; [destruct b; [reflexivity|discriminate H]|]. apply sn_cons in H as (y & t & -> & A & B). cbn. rewrite A, (IH _ B). reflexivity.
Qed.
Lemma lower_sn : forall a, same_name a (ascii_lower a) = true.
Proof.
  unfold ascii_lower. induction a as [|x a IH]; [reflexivity|]. cbn. rewrite IH, Bool.andb_true_r. apply N.eqb_eq. unfold ascii_lower_char.
  destruct (N.leb 65 x && N.leb x 90)%bool eqn:A; [|rewrite A; reflexivity]. destruct (N.leb 65 (x + 32) && N.leb (x + 32) 90)%bool eqn:B; lia.
Qed.
Lemma shown_name_sn : forall o a b, same_name a b = true -> same_name (shown_name o a) (shown_name o b) = true.
Proof. intros o a b H. unfold shown_name. destruct (lowercase_tagname o); [rewrite (sn_lower _ _ H); apply same_name_refl|exact H]. Qed.
Lemma shown_name_eq : forall o a b, lowercase_tagname o = true -> same_name a b = true -> shown_name o b = shown_name o a.
Proof. intros o a b L H. unfold shown_name. rewrite L, (sn_lower _ _ H). reflexivity. Qed.
Lemma shown_end_arg : forall o a b, same_name a b = true -> same_name (if remove_endtag_space o then trim_right a else a) (if remove_endtag_space o then trim_right b else b) = true.
Proof. intros o a b H. destruct (remove_endtag_space o); [apply sn_trim, H|exact H]. Qed.
Lemma shown_raw_eq : forall env o n n' c, same_name n n' = true -> shown_raw env o n' c = shown_raw env o n c.
Proof. intros env o n n' c H. unfold shown_raw, plain_text_name. rewrite !(sn_congr _ _ _ H). reflexivity. Qed.
Section render.
Variable env : entity_env.
Variable o : render_options.
Lemma rc_shown : forall dt x x' p, recased dt x x' -> Forall2 tk_case (shown env o p x) (shown env o p x').
Proof.
  intros dt x. induction x as [c b|c|c|n a|n a s|n a c e|n a ks e IH] using item_ind2; intros x' p R; inversion R; subst; cbn [shown].
  - unfold shown_text. destruct (minify_spaces o && negb p)%bool; [destruct b|]; repeat constructor.
  - destruct (remove_comment o); repeat constructor.
  - repeat constructor.
  - repeat constructor. assumption.
  - repeat constructor. apply shown_name_sn. assumption.
  - match goal with H : same_name n _ = true |- _ => rewrite (shown_raw_eq env o _ _ c H) end. constructor; [|constructor]. constructor; [apply shown_name_sn; assumption|]. apply shown_name_sn, shown_end_arg. assumption.
  - constructor; [constructor; apply shown_name_sn; assumption|]. apply Forall2_app.
    + unfold pre_name. match goal with H : same_name n _ = true |- _ => rewrite (sn_congr _ _ _ H) end. generalize (p || same_name n (str "pre"))%bool as q. intro q.
      match goal with H : Forall2 _ ks _ |- _ => clear - IH H; induction H as [|k k' ks ks' K KS IHK]; [constructor|] end.
      inversion IH; subst. cbn [flat_map]. apply Forall2_app; auto.
    + constructor; [|constructor]. constructor. apply shown_name_sn, shown_end_arg. assumption.
Qed.
Lemma rc_shown_lower : lowercase_tagname o = true -> forall x x' p, recased false x x' -> shown env o p x' = shown env o p x.
Proof.
  intros L x. induction x as [c b|c|c|n a|n a s|n a c e|n a ks e IH] using item_ind2; intros x' p R; inversion R; subst; cbn [shown]; try reflexivity.
  - match goal with H : false = false -> _ |- _ => rewrite (H eq_refl) end. reflexivity.
  - rewrite (shown_name_eq _ _ _ L H3). reflexivity.
  - rewrite (shown_name_eq _ _ _ L H4), (shown_raw_eq env o _ _ c H4). unfold shown_end. rewrite (shown_name_eq _ _ _ L (shown_end_arg o _ _ H5)). reflexivity.
  - rewrite (shown_name_eq _ _ _ L H4). unfold shown_end. rewrite (shown_name_eq _ _ _ L (shown_end_arg o _ _ H5)). unfold pre_name. rewrite (sn_congr _ _ _ H4).
    generalize (p || same_name n (str "pre"))%bool as q. intro q. f_equal. f_equal.
    clear - IH H6. induction H6 as [|k k' ks ks' K KS IHK]; [reflexivity|]. inversion IH; subst. cbn [flat_map]. f_equal; auto.
Qed.
End render.
Lemma rc_pre : forall dt x x' p, recased dt x x' -> plain_pre p x -> plain_pre p x'.
Proof.
  intros dt x. induction x as [c b|c|c|n a|n a s|n a c e|n a ks e IH] using item_ind2; intros x' p R Pp; inversion R; subst; cbn [plain_pre] in *; try exact I;
    unfold pre_name in *; match goal with H : same_name n _ = true |- _ => rewrite (sn_congr _ _ _ H) end; try exact Pp.
  destruct Pp as [A B]. split; [exact A|]. clear A R. revert B. generalize (p || same_name n (str "pre"))%bool as q. intros q B.
  match goal with H : Forall2 _ ks _ |- _ => clear - IH H B; induction H as [|k k' ks ks' K KS IHK]; [exact I|] end.
  inversion IH; subst. destruct B as [B1 B2]. split; [auto|]. exact (IHK H2 B2).
Qed.
Lemma rc_print : forall a b, Forall2 tk_case a b -> same_name (print a) (print b) = true.
Proof.
  intros a b F. unfold print. induction F as [|k k' a b T F IH]; [reflexivity|]. cbn [flat_map]. apply sn_app; [|exact IH]. destruct T; cbn [print_token]; sn.
Qed.
Lemma flat_shown : forall env o dt f f', Forall2 (recased dt) f f' -> Forall2 tk_case (flat_map (shown env o false) f) (flat_map (shown env o false) f').
Proof. intros env o dt f f' F. induction F as [|x x' f f' R F IH]; [constructor|]. cbn [flat_map]. apply Forall2_app; [eapply rc_shown; exact R|exact IH]. Qed.
Lemma flat_shown_lower : forall env o f f', lowercase_tagname o = true -> Forall2 (recased false) f f' -> flat_map (shown env o false) f' = flat_map (shown env o false) f.
Proof. intros env o f f' L F. induction F as [|x x' f f' R F IH]; [reflexivity|]. cbn [flat_map]. rewrite IH, (rc_shown_lower env o L _ _ _ R). reflexivity. Qed.

(** Renderings of documents that differ in case differ in case only. *)
Lemma recased_render : forall dt opts s d f s' d' f' env o, parse opts s = Parsed d -> parse opts s' = Parsed d' -> no_repair opts -> open_doctypes d -> open_doctypes d' ->
  doc_content d f -> doc_content d' f' -> Forall2 (recased dt) f f' -> inner_html o = false -> (minify_spaces o = true -> Forall (plain_pre false) f) ->
  exists out out', render env o d = ROk out /\ render env o d' = ROk out' /\ same_name out out' = true /\ (dt = false -> lowercase_tagname o = true -> out' = out).
Proof.
  intros dt opts s d f s' d' f' env o P P' Nr O O' D D' F Ih Pp.
  destruct (parsed_source _ _ _ P Nr O) as (f0 & S & _ & _ & D0). rewrite (content_unique _ _ _ D0 D) in *. clear f0 D0.
  destruct (parsed_source _ _ _ P' Nr O') as (f0 & S' & _ & _ & D0). rewrite (content_unique _ _ _ D0 D') in *. clear f0 D0.
  destruct Nr as [Nr _]. do 2 eexists. split; [exact (shown_source _ _ _ _ _ _ _ P Nr S D Ih Pp)|]. split.
  - apply (shown_source _ _ _ _ _ _ _ P' Nr S' D' Ih). intro M. specialize (Pp M). clear - F Pp. induction F as [|x x' f f' R F IH]; [constructor|]. inversion Pp; subst. constructor; [eapply rc_pre; eassumption|auto].
  - split; [apply rc_print, (flat_shown env o _ _ _ F)|]. intros -> L. rewrite (flat_shown_lower _ _ _ _ L F). reflexivity.
Qed.
Lemma recase_doc : forall dt opts s d f f', parse opts s = Parsed d -> no_repair opts -> open_doctypes d -> case_sensitive_tagname opts = false ->
  allow_self_closing opts = true -> without_cdata d -> doc_content d f -> Forall2 (recased dt) f f' ->
  exists s' d', same_name s s' = true /\ source opts (flat_map tokens f') s' /\ parse opts s' = Parsed d' /\ doc_content d' f'.
Proof.
  intros dt opts s d f f' P Nr O Cs Al Nc D F. destruct (recased_doc dt opts s d f f' P Nr O Cs D F) as (s' & d' & A & _ & B & C & E); [|exists s', d'; auto].
  exact (recase_nests dt opts d f f' Cs Al Nc D F).
Qed.
Lemma respell_doc : forall g opts s d f, parse opts s = Parsed d -> no_repair opts -> open_doctypes d -> case_sensitive_tagname opts = false -> recasing g ->
  doc_content d f -> exists s' d', same_name s s' = true /\ source opts (flat_map tokens (map (respelled g) f)) s' /\ parse opts s' = Parsed d' /\ doc_content d' (map (respelled g) f).
Proof.
  intros g opts s d f P Nr O Cs R D.
  destruct (recased_doc false opts s d f (map (respelled g) f) P Nr O Cs D) as (s' & d' & A & _ & B & C & E); [| |exists s', d'; auto].
  - clear - R. induction f; constructor; [apply respelled_recased; exact R|assumption].
  - apply respell_nests; assumption.
Qed.
Lemma swap_recasing : recasing swap_case.
Proof.
  split; unfold swap_case, ascii_lower_char.
  - intro c. destruct (N.leb 65 c && N.leb c 90)%bool eqn:A; [destruct (N.leb 65 (c + 32) && N.leb (c + 32) 90)%bool eqn:B; lia|].
    destruct (N.leb 97 c && N.leb c 122)%bool eqn:B; [destruct (N.leb 65 (c - 32) && N.leb (c - 32) 90)%bool eqn:C; lia|]. rewrite A. reflexivity.
  - intros a b. destruct (N.leb 65 a && N.leb a 90)%bool eqn:A, (N.leb 97 a && N.leb a 122)%bool eqn:A', (N.leb 65 b && N.leb b 90)%bool eqn:B, (N.leb 97 b && N.leb b 122)%bool eqn:B'; lia.
Qed.
