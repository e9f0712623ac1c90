(** Proofs for C65. *)
From Coq Require Import String Lia.
From Verif Require Import ErrorProofs SpecError SpecDebug.
Local Open Scope string_scope.
Local Open Scope list_scope.

Section ind.
Variable P : dval -> Prop.
Hypothesis Hnum : forall n, P (DNum n).
Hypothesis Hname : forall s, P (DName s).
Hypothesis Hchar : forall c, P (DChar c).
Hypothesis Hstr : forall s, P (DStr s).
Hypothesis Htuple : forall n l, Forall P l -> P (DTuple n l).
Hypothesis Hstruct : forall n l, Forall (fun x => P (snd x)) l -> P (DStruct n l).
Hypothesis Hlist : forall l, Forall P l -> P (DList l).
Hypothesis Hmap : forall l, Forall (fun x => P (fst x) /\ P (snd x)) l -> P (DMap l).
Fixpoint dval_rec' (v : dval) : P v :=
  let all := fix all (l : list dval) : Forall P l := match l with [] => Forall_nil _ | x :: r => Forall_cons _ (dval_rec' x) (all r) end in
  match v with
  | DNum n => Hnum n
  | DName s => Hname s
  | DChar c => Hchar c
  | DStr s => Hstr s
  | DTuple n l => Htuple n l (all l)
  | DStruct n l => Hstruct n l ((fix all2 (l : list (list char * dval)) : Forall (fun x => P (snd x)) l :=
      match l with [] => Forall_nil _ | x :: r => Forall_cons _ (dval_rec' (snd x)) (all2 r) end) l)
  | DList l => Hlist l (all l)
  | DMap l => Hmap l ((fix all3 (l : list (dval * dval)) : Forall (fun x => P (fst x) /\ P (snd x)) l :=
      match l with [] => Forall_nil _ | x :: r => Forall_cons _ (conj (dval_rec' (fst x)) (dval_rec' (snd x))) (all3 r) end) l)
  end.
End ind.

(** ** Both forms at once, with the width of the indentation in place of PadAdapter *)
Definition sp (w : nat) : list char := repeat 32%N w.
Definition ents (p : option nat) (l : list (list char)) : list char :=
  match l with
  | [] => []
  | _ => match p with None => joined l | Some w => newline ++ flat_map (fun x => sp (4 + w) ++ x ++ str "," ++ newline) l ++ sp w end
  end.
Definition deeper (p : option nat) : option nat := option_map (Nat.add 4) p.
Definition gap (p : option nat) : list char := match p with None => str " " | Some _ => [] end.
Fixpoint show (plain : char -> bool) (p : option nat) (v : dval) : list char :=
  match v with
  | DNum n => digits n
  | DName s => s
  | DChar c => quoted 39%N (escaped plain 39%N c)
  | DStr s => quoted 34%N (flat_map (escaped plain 34%N) s)
  | DTuple n [] => n
  | DTuple n l => n ++ str "(" ++ ents p (map (show plain (deeper p)) l) ++ str ")"
  | DStruct n [] => n
  | DStruct n l => n ++ str " {" ++ gap p ++ ents p (map (fun x => fst x ++ str ": " ++ show plain (deeper p) (snd x)) l) ++ gap p ++ str "}"
  | DList l => str "[" ++ ents p (map (show plain (deeper p)) l) ++ str "]"
  | DMap l => str "{" ++ ents p (map (fun x => show plain (deeper p) (fst x) ++ str ": " ++ show plain (deeper p) (snd x)) l) ++ str "}"
  end.

Lemma map_same : forall A B (f g : A -> B) l, Forall (fun x => f x = g x) l -> map f l = map g l.
Proof. intros A B f g l F. induction F as [|x l E F IH]; cbn; [reflexivity|]. rewrite E, IH. reflexivity. Qed.

Lemma show_compact : forall plain v, show plain None v = debug plain false v.
Proof.
  intros plain. apply dval_rec'; try reflexivity.
  - intros n l F. destruct l as [|x l]; [reflexivity|]. cbn -[map ents entries str]. rewrite (map_same _ _ _ _ _ F). reflexivity.
  - intros n l F. destruct l as [|x l]; [reflexivity|]. cbn -[map ents entries str].
    rewrite (map_same _ _ (fun x => fst x ++ str ": " ++ show plain None (snd x)) (fun x => fst x ++ str ": " ++ debug plain false (snd x))).
    2: { eapply Forall_impl; [|exact F]. cbn. intros a ->. reflexivity. }
    reflexivity.
  - intros l F. cbn -[map ents entries str]. rewrite (map_same _ _ _ _ _ F). reflexivity.
  - intros l F. cbn -[map ents entries str].
    rewrite (map_same _ _ (fun x => show plain None (fst x) ++ str ": " ++ show plain None (snd x)) (fun x => debug plain false (fst x) ++ str ": " ++ debug plain false (snd x))).
    2: { eapply Forall_impl; [|exact F]. cbn. intros a [-> ->]. reflexivity. }
    reflexivity.
Qed.

(** ** Indentation *)
Fixpoint padw (w : nat) (fresh : bool) (s : list char) : list char :=
  match s with [] => [] | c :: r => (if fresh then sp w else []) ++ c :: padw w (N.eqb c 10) r end.
Definition after (b : bool) (s : list char) : bool := fold_left (fun _ c => N.eqb c 10) s b.
Lemma pad_padw : forall s b, pad b s = padw 4 b s.
Proof. induction s as [|c s IH]; intro b; [reflexivity|]. cbn [pad padw]. rewrite IH. destruct b; reflexivity. Qed.
Lemma padw_0 : forall s b, padw 0 b s = s.
Proof. induction s as [|c s IH]; intro b; [reflexivity|]. cbn [padw]. rewrite IH. destruct b; reflexivity. Qed.
Lemma padw_app : forall w s t b, padw w b (s ++ t) = padw w b s ++ padw w (after b s) t.
Proof. induction s as [|c s IH]; intros t b; [reflexivity|]. cbn [padw app]. rewrite IH. rewrite <- app_assoc. reflexivity. Qed.
Lemma after_app : forall s t b, after b (s ++ t) = after (after b s) t.
Proof. intros. unfold after. apply fold_left_app. Qed.
Lemma padw_sp : forall w k x, padw w false (sp k ++ x) = sp k ++ padw w false x.
Proof. induction k as [|k IH]; intro x; [reflexivity|]. cbn [sp repeat app padw]. f_equal. exact (IH x). Qed.
Lemma padw_padw : forall w k s b, padw w b (padw k b s) = padw (k + w) b s.
Proof.
  intros w k. induction s as [|c s IH]; intro b; [reflexivity|]. cbn [padw]. destruct b.
  - destruct k as [|k]; cbn [sp repeat app].
    + cbn [padw]. rewrite IH. reflexivity.
    + cbn [padw]. change (N.eqb 32 10) with false. change (repeat 32%N k) with (sp k). rewrite padw_sp. cbn [padw app].
      rewrite IH. unfold sp. cbn [Nat.add]. cbn [repeat].
      replace (k + w) with (w + k) by lia. rewrite repeat_app.
      assert (E : forall a (z : list char), repeat 32%N a ++ 32%N :: z = 32%N :: repeat 32%N a ++ z).
      { induction a as [|a IHa]; intro z; [reflexivity|]. cbn [repeat app]. rewrite IHa. reflexivity. }
      rewrite E. cbn [app]. rewrite <- app_assoc. replace (S (w + k)) with (S (k + w)) by lia. reflexivity.
  - cbn [app padw]. rewrite IH. reflexivity.
Qed.
Lemma padw_plain : forall w s, Forall (fun c => c <> 10%N) s -> padw w false s = s /\ after false s = false.
Proof.
  intros w s F. induction F as [|c s N F [IH1 IH2]]; [split; reflexivity|]. cbn [padw app].
  assert (E : N.eqb c 10 = false) by (apply N.eqb_neq; exact N). unfold after in *. cbn [fold_left]. rewrite E. split; [rewrite IH1; reflexivity|exact IH2].
Qed.
Definition oneline (s : list char) : Prop := Forall (fun c => c <> 10%N) s.

Lemma hex_digits : forall f n, Forall (fun c => (48 <= c <= 57 \/ 97 <= c <= 102)%N) (hex_fuel f n).
Proof.
  induction f as [|f IH]; intro n; [constructor|]. cbn [hex_fuel].
  assert (D : forall m, (m < 16)%N -> (48 <= hex_digit m <= 57 \/ 97 <= hex_digit m <= 102)%N).
  { intros m L. unfold hex_digit. destruct (N.ltb_spec m 10); lia. }
  destruct (N.ltb_spec n 16).
  - constructor; [apply D; assumption|constructor].
  - apply Forall_app. split; [apply IH|]. constructor; [|constructor]. apply D. apply N.mod_lt. lia.
Qed.
Lemma escaped_line : forall plain q c, q <> 10%N -> oneline (escaped plain q c).
Proof.
  intros plain q c Q. unfold escaped, oneline.
  repeat match goal with |- context [if ?b then _ else _] => destruct b eqn:? end; cbn -[hex]; repeat constructor; try discriminate.
  - apply N.eqb_neq. assumption.
  - apply N.eqb_neq. assumption.
  - apply Forall_app. split; [|repeat constructor; discriminate].
    eapply Forall_impl; [|apply hex_digits]. cbn. intros a [A|A] ->; lia.
Qed.
Lemma ident_line : forall n, ident n -> oneline n.
Proof.
  intros n (c & r & -> & L & F). constructor; [unfold letter in L; intros ->; lia|].
  eapply Forall_impl; [|exact F]. unfold ident_char, letter. intros a A ->. lia.
Qed.
Lemma digits_line : forall n, oneline (digits n).
Proof. intro n. eapply Forall_impl; [|apply digits_all]. unfold digit. intros a A ->. lia. Qed.

Lemma last_after : forall s c b, c <> 10%N -> after b (s ++ [c]) = false.
Proof. intros s c b N. rewrite after_app. cbn. apply N.eqb_neq. exact N. Qed.

Lemma entry : forall w x, after false x = false -> padw w true (pad true (x ++ str "," ++ newline)) = sp (4 + w) ++ padw (4 + w) false x ++ str "," ++ newline.
Proof.
  intros w x A. rewrite pad_padw, padw_padw. assert (E : forall y, y <> [] -> padw (4 + w) true y = sp (4 + w) ++ padw (4 + w) false y).
  { intros [|c y] N; [congruence|]. reflexivity. }
  rewrite E by (destruct x; discriminate). rewrite padw_app, A. reflexivity.
Qed.
Lemma entry_after : forall x b, after b (pad true (x ++ str "," ++ newline)) = true.
Proof.
  intros x b. rewrite app_assoc. rewrite pad_padw, padw_app.
  assert (E : forall k fr bb, after bb (padw k fr newline) = true).
  { intros k fr bb. cbn. destruct fr; [|reflexivity]. unfold after. rewrite fold_left_app. reflexivity. }
  rewrite after_app. apply E.
Qed.
Lemma lines_padw : forall A w (l : list A) f g, Forall (fun x => after false (f x) = false /\ padw (4 + w) false (f x) = g x) l ->
  padw w true (flat_map (fun x => pad true (x ++ str "," ++ newline)) (map f l)) = flat_map (fun x => sp (4 + w) ++ x ++ str "," ++ newline) (map g l) /\
  after true (flat_map (fun x => pad true (x ++ str "," ++ newline)) (map f l)) = true.
Proof.
  intros A w l f g F. induction F as [|x l [A1 A2] F [IH1 IH2]]; [split; reflexivity|]. cbn [map flat_map]. split.
  - rewrite padw_app, entry_after, (entry w _ A1), A2, IH1. reflexivity.
  - rewrite after_app, entry_after. exact IH2.
Qed.
(** An opening, entries and a closing. *)
Lemma group : forall A w (l : list A) f g a z c, oneline a -> oneline z -> c <> 10%N -> l <> [] ->
  Forall (fun x => after false (f x) = false /\ padw (4 + w) false (f x) = g x) l ->
  padw w false (a ++ entries true (map f l) ++ z ++ [c]) = a ++ ents (Some w) (map g l) ++ z ++ [c] /\
  after false (a ++ entries true (map f l) ++ z ++ [c]) = false.
Proof.
  intros A w l f g a z c Oa Oz C Ne F. split.
  2: { rewrite app_assoc, app_assoc. apply last_after. exact C. }
  destruct (padw_plain w a Oa) as [Pa Aa]. rewrite padw_app, Pa, Aa. f_equal.
  destruct (lines_padw _ w l f g F) as [L1 L2]. destruct l as [|x l]; [congruence|]. cbn [map] in *.
  unfold entries, lines, ents. rewrite <- !app_assoc. cbn [newline app padw]. rewrite N.eqb_refl.
  rewrite padw_app, L1, L2. f_equal.
  assert (E : forall y, y <> [] -> padw w true y = sp w ++ padw w false y).
  { intros [|d y] N; [congruence|]. reflexivity. }
  f_equal. rewrite E by (destruct z; discriminate). f_equal.
  assert (O : oneline (z ++ [c])) by (apply Forall_app; split; [exact Oz|exact (Forall_cons (P := fun c => c <> 10%N) c C (Forall_nil _))]).
  apply (padw_plain w _ O).
Qed.
Lemma group0 : forall A w (l : list A) f g a z c, oneline a -> oneline z -> c <> 10%N ->
  Forall (fun x => after false (f x) = false /\ padw (4 + w) false (f x) = g x) l ->
  padw w false (a ++ entries true (map f l) ++ z ++ [c]) = a ++ ents (Some w) (map g l) ++ z ++ [c] /\
  after false (a ++ entries true (map f l) ++ z ++ [c]) = false.
Proof.
  intros A w l f g a z c Oa Oz C F. destruct l as [|x l]; [|apply group; try assumption; discriminate].
  cbn [map entries ents app]. apply padw_plain. apply Forall_app. split; [exact Oa|]. apply Forall_app. split; [exact Oz|].
  exact (Forall_cons (P := fun c => c <> 10%N) c C (Forall_nil _)).
Qed.
Lemma pair_pad : forall w a b, oneline a -> after false b = false ->
  after false (a ++ str ": " ++ b) = false /\ padw w false (a ++ str ": " ++ b) = a ++ str ": " ++ padw w false b.
Proof.
  intros w a b O A. destruct (padw_plain w a O) as [P1 P2]. split.
  - rewrite after_app, P2. exact A.
  - rewrite padw_app, P1, P2. reflexivity.
Qed.
Lemma pair_pad2 : forall w a b, after false a = false -> after false b = false ->
  after false (a ++ str ": " ++ b) = false /\ padw w false (a ++ str ": " ++ b) = padw w false a ++ str ": " ++ padw w false b.
Proof.
  intros w a b O A. split.
  - rewrite after_app, O. exact A.
  - rewrite padw_app, O. reflexivity.
Qed.

Lemma show_pretty : forall plain v, named v -> forall w, after false (debug plain true v) = false /\ padw w false (debug plain true v) = show plain (Some w) v.
Proof.
  intros plain. apply (dval_rec' (fun v => named v -> forall w, after false (debug plain true v) = false /\ padw w false (debug plain true v) = show plain (Some w) v)).
  - intros n _ w. destruct (padw_plain w (digits n) (digits_line n)). split; assumption.
  - intros s Nm w. inversion Nm. subst. destruct (padw_plain w s); [apply ident_line; assumption|]. split; assumption.
  - intros c _ w. assert (O : oneline (debug plain true (DChar c))).
    { constructor; [discriminate|]. apply Forall_app. split; [apply escaped_line; discriminate|repeat constructor; discriminate]. }
    destruct (padw_plain w _ O). split; assumption.
  - intros s _ w. assert (O : oneline (debug plain true (DStr s))).
    { constructor; [discriminate|]. apply Forall_app. split; [|repeat constructor; discriminate].
      induction s as [|c s IH]; [constructor|]. cbn [flat_map]. apply Forall_app. split; [apply escaped_line; discriminate|exact IH]. }
    destruct (padw_plain w _ O). split; assumption.
  - intros n l IH Nm w. inversion Nm as [| | | |? ? In Ne Fn| | |]. subst.
    destruct (group _ w l (debug plain true) (show plain (Some (4 + w))) (n ++ str "(") [] 41%N) as [G1 G2]; try discriminate; try assumption.
    { apply Forall_app. split; [apply ident_line; exact In|repeat constructor; discriminate]. } { constructor. }
    { rewrite Forall_forall in *. intros x I. destruct (IH x I (Fn x I) (4 + w)) as [X1 X2]. split; assumption. }
    destruct l as [|x l]; [congruence|]. cbn [debug show]. rewrite <- app_assoc in G1, G2. split; assumption || (etransitivity; [exact G1|]). rewrite <- app_assoc. reflexivity.
  - intros n l IH Nm w. inversion Nm as [| | | | |? ? In Ne Fi Fn| |]. subst.
    destruct (group _ w l (fun x => fst x ++ str ": " ++ debug plain true (snd x)) (fun x => fst x ++ str ": " ++ show plain (Some (4 + w)) (snd x)) (n ++ str " {") [] 125%N) as [G1 G2]; try discriminate; try assumption.
    { apply Forall_app. split; [apply ident_line; exact In|repeat constructor; discriminate]. } { constructor. }
    { rewrite Forall_forall in *. intros x I. destruct (IH x I (Fn x I) (4 + w)) as [X1 X2].
      destruct (pair_pad (4 + w) (fst x) (debug plain true (snd x)) (ident_line _ (Fi x I)) X1) as [Y1 Y2]. split; [exact Y1|]. rewrite Y2, X2. reflexivity. }
    destruct l as [|x l]; [congruence|]. cbn [debug show]. rewrite <- app_assoc in G1, G2. split; assumption || (etransitivity; [exact G1|]). rewrite <- app_assoc. reflexivity.
  - intros l IH Nm w. inversion Nm as [| | | | | |? Fn|]. subst.
    destruct (group0 _ w l (debug plain true) (show plain (Some (4 + w))) (str "[") [] 93%N) as [G1 G2]; try discriminate.
    { repeat constructor; discriminate. } { constructor. }
    { rewrite Forall_forall in *. intros x I. destruct (IH x I (Fn x I) (4 + w)) as [X1 X2]. split; assumption. }
    split; assumption.
  - intros l IH Nm w. inversion Nm as [| | | | | | |? Fk Fn]. subst.
    destruct (group0 _ w l (fun x => debug plain true (fst x) ++ str ": " ++ debug plain true (snd x)) (fun x => show plain (Some (4 + w)) (fst x) ++ str ": " ++ show plain (Some (4 + w)) (snd x)) (str "{") [] 125%N) as [G1 G2]; try discriminate.
    { repeat constructor; discriminate. } { constructor. }
    { rewrite Forall_forall in *. intros x I. destruct (IH x I) as [IHa IHb]. destruct (IHa (Fk x I) (4 + w)) as [X1 X2]. destruct (IHb (Fn x I) (4 + w)) as [X3 X4].
      destruct (pair_pad2 (4 + w) _ _ X1 X3) as [Y1 Y2]. split; [exact Y1|]. rewrite Y2, X2, X4. reflexivity. }
    split; assumption.
Qed.
Lemma show_is : forall plain v, named v -> forall b : bool, debug plain b v = show plain (if b then Some 0 else None) v.
Proof.
  intros plain v N b. destruct b; [|symmetry; apply show_compact]. destruct (show_pretty plain v N 0) as [_ E]. rewrite padw_0 in E. exact E.
Qed.
