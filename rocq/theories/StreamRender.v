(** Without minification and decoding, a document is rendered from its stream alone. *)
From Coq Require Import String Lia.
From Verif Require Import Api SpecText SpecRender SpecTree RenderProofs DocEnd DocFacts DocTree SpecFix SpecStream.
Local Open Scope string_scope.
Local Open Scope list_scope.

Definition atom_out (env : entity_env) (o : render_options) (a : atom) : res (list char) :=
  match a with
  | AChar c => ROk [c]
  | AMark t c m => do '(_, x) <- build_node env o (TNode 0 t 0 0 None c None m) (mkRS INone false false); ROk x
  end.
Fixpoint outs (env : entity_env) (o : render_options) (l : list atom) : res (list char) :=
  match l with
  | [] => ROk []
  | a :: l => do x <- atom_out env o a; do y <- outs env o l; ROk (x ++ y)
  end.
Lemma outs_app : forall env o a b, outs env o (a ++ b) = do x <- outs env o a; do y <- outs env o b; ROk (x ++ y).
Proof.
  intros env o a b. induction a as [|c a IH]; cbn [app outs rbind].
  - destruct (outs env o b); reflexivity.
  - destruct (atom_out env o c); cbn [rbind]; try reflexivity. rewrite IH. destruct (outs env o a); cbn [rbind]; try reflexivity.
    destruct (outs env o b); cbn [rbind]; try reflexivity. rewrite app_assoc. reflexivity.
Qed.
Lemma outs_chars : forall env o l, outs env o (map AChar l) = ROk l.
Proof. intros env o l. induction l as [|c l IH]; [reflexivity|]. cbn [map outs atom_out rbind]. rewrite IH. reflexivity. Qed.

Definition agrees (root : bool) (r : res (list char)) (b : res (render_status * list char)) : Prop :=
  match r with
  | ROk x => exists s', b = ROk (s', x) /\ rs_inner_type s' = INone /\ rs_root s' = root
  | RPanic k => b = RPanic k
  | RErr _ _ => False
  end.
Definition text_there (t : tree) : Prop := (t_type t = NText \/ t_type t = NSpacesBetweenTag) -> t_content t <> None.
Lemma node_out : forall env o t s, stream_options o -> rs_inner_type s = INone -> text_there t ->
  agrees (rs_root s) (outs env o (own (t_type t) (t_content t) (t_meta t))) (build_node env o t s).
Proof.
  intros env o [i ty b e et c ks m] [inner pre root] [O1 [O2 [O3 O4]]] I T. cbn in I. subst inner. unfold text_there in T. cbn [t_type t_content t_meta] in *.
  unfold agrees, build_node. cbn [t_type t_content t_meta rs_is_in_pre rs_root rs_inner_type]. rewrite O1, O2, !Bool.andb_false_r.
  destruct ty; cbn [own outs atom_out build_node t_type t_content t_meta option_map].
  all: try (destruct c as [c|]; [|exfalso; apply T; auto; fail]; rewrite outs_chars; eexists; split; [reflexivity|split; reflexivity]).
  all: try (cbn [rbind outs]; eexists; split; [rewrite ?app_nil_r; destruct root; reflexivity|split; reflexivity]; fail).
  all: try (destruct c as [c|]; cbn [rbind]; [|reflexivity]; eexists; split; [destruct root; rewrite app_nil_r; reflexivity|];
    destruct (pre && is_equal_chars (chars_trim_end c) PRE_TAG_NAME (Some Lower))%bool; split; reflexivity).
  all: destruct m as [m|]; cbn [rbind option_map]; [|reflexivity]; unfold rbind; rewrite ?O3, ?Bool.andb_false_r; eexists;
    (split; [destruct root; rewrite app_nil_r; destruct m; reflexivity|split; reflexivity]).
Qed.

Definition texts_there (t : tree) : Prop := forall s, sub s t -> text_there s.
Lemma tree_out : forall env o, stream_options o -> forall t s, rs_inner_type s = INone -> texts_there t ->
  agrees (rs_root s) (outs env o (stream t)) (build_tree env o t s).
Proof.
  intros env o O t. induction t as [i ty b e et c ks m _ Hks] using tree_ind'. intros s I T.
  pose proof (node_out env o (TNode i ty b e et c ks m) s O I (T _ (sub_refl _))) as N.
  rewrite build_tree_eq. cbv zeta. cbn [stream]. cbn [t_type t_content t_meta] in N. rewrite !outs_app.
  destruct (outs env o (own ty c m)) as [x| |k]; cbn [agrees] in N; cbn [rbind]; [|contradiction|rewrite N; reflexivity].
  destruct N as [s1 [E1 [I1 R1]]]. rewrite E1. cbn [rbind].
  assert (K : agrees (rs_root s) (outs env o (match ks with Some l => flat_map stream l | None => [] end))
    (match ks with None => ROk (s1, []) | Some l => if rs_root s1 then do '(_, out) <- build_list env o l (rs_set_root false s1); ROk (s1, out) else build_list env o l s1 end)).
  { destruct ks as [l|]; [|exists s1; auto]. cbn [optP] in Hks.
    assert (L : forall s, rs_inner_type s = INone -> agrees (rs_root s) (outs env o (flat_map stream l)) (build_list env o l s)).
    { assert (Tk : forall k, In k l -> texts_there k) by (intros k Ik y Sy; apply T; eapply sub_child; [reflexivity|exact Ik|exact Sy]).
      clear - Hks Tk. induction Hks as [|k l Hk Hl IH]; intros s I; [exists s; auto|]. cbn [flat_map build_list]. rewrite outs_app.
      pose proof (Hk s I (Tk k (or_introl eq_refl))) as A. destruct (outs env o (stream k)) as [x| |j]; cbn [agrees] in A; cbn [rbind]; [|contradiction|rewrite A; reflexivity].
      destruct A as [s1 [-> [I1 R1]]]. cbn [rbind]. specialize (IH (fun k X => Tk k (or_intror X)) s1 I1). rewrite R1 in IH.
      destruct (outs env o (flat_map stream l)) as [y| |j]; cbn [agrees] in IH; cbn [rbind]; [|contradiction|rewrite IH; reflexivity].
      destruct IH as [s2 [-> [I2 R2]]]. exists s2. auto. }
    rewrite <- R1. destruct (rs_root s1) eqn:Er.
    - specialize (L (rs_set_root false s1) I1). destruct (outs env o (flat_map stream l)) as [y| |j]; cbn [agrees] in *; [|contradiction|rewrite L; reflexivity].
      destruct L as [s2 [-> _]]. exists s1. auto.
    - rewrite <- Er. apply L. exact I1. }
  destruct (outs env o (match ks with Some l => flat_map stream l | None => [] end)) as [y| |k]; cbn [agrees] in K; cbn [rbind]; [|contradiction|rewrite K; reflexivity].
  destruct K as [s2 [-> [I2 R2]]]. cbn [rbind]. destruct et as [t|].
  - pose proof (node_out env o t s2 O I2 (T t (sub_end t (TNode i ty b e (Some t) c ks m) t eq_refl (sub_refl t)))) as Ne.
    destruct (outs env o (own (t_type t) (t_content t) (t_meta t))) as [w| |k]; cbn [agrees] in Ne; cbn [rbind]; [|contradiction|rewrite Ne; reflexivity].
    destruct Ne as [s3 [-> [I3 R3]]]. exists s3. rewrite R3, R2. auto.
  - cbn [outs rbind]. exists s2. auto.
Qed.
Lemma build_out : forall env o t, stream_options o -> texts_there t -> build env o t false = outs env o (stream t).
Proof.
  intros env o t O T. unfold build. cbn [andb]. destruct O as [O1 [O2 [O3 O4]]]. rewrite O4.
  pose proof (tree_out env o (conj O1 (conj O2 (conj O3 O4))) t (mkRS INone false true) eq_refl T) as A.
  destruct (outs env o (stream t)) as [x| |k]; cbn [agrees] in A; [|contradiction|rewrite A; reflexivity]. destruct A as [s' [-> _]]. reflexivity.
Qed.
Lemma parsed_texts : forall o s d t, parse o s = Parsed d -> doc_tree d = Some t -> texts_there t.
Proof.
  intros o s d t H D y Sy Ty. destruct (doc_tree_in _ _ _ _ H D) as [Ti _]. destruct (tree_in_sub _ _ _ Ti Sy) as [f [i [_ Tr]]].
  destruct (tree_inv _ _ _ _ Tr) as [A [B _]]. rewrite A in Ty. rewrite B. destruct (text_content _ _ _ i H) as [X Y].
  destruct Ty as [Ty|Ty]; [destruct (Y Ty) as [c [-> _]]|destruct (X Ty) as [c [-> _]]]; discriminate.
Qed.
Theorem stream_renders : forall o s d o' s' d' env ro, parse o s = Parsed d -> parse o' s' = Parsed d' -> same_stream d d' -> stream_options ro ->
  render env ro d' = render env ro d.
Proof.
  intros o s d o' s' d' env ro H H' [t [t' [D [D' E]]]] O. unfold render, render_gen. rewrite D, D'.
  rewrite (build_out env ro t O (parsed_texts _ _ _ _ H D)), (build_out env ro t' O (parsed_texts _ _ _ _ H' D')), E. reflexivity.
Qed.
