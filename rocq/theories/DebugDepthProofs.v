(** Proofs about the depth of the Debug output. *)
From Coq Require Import String Lia.
From Verif Require Import Api SpecText SpecRender SpecParse SpecTree SpecClone SpecCost SpecHandles SpecDepth Handles Depth HandleProofs DepthProofs Debug DebugDepth SpecDebug DebugProofs DebugDoc DepthDoc StructEnd.
Local Open Scope string_scope.
Local Open Scope list_scope.

Lemma r_map_fst : forall f g l, (forall k, fst (f k) = g k) -> fst (r_map f l) = map_opt g l.
Proof.
  intros f g l E. induction l as [|k l IH]; [reflexivity|]. cbn [r_map map_opt]. rewrite <- (E k). destruct (f k) as [[v|] n]; cbn [fst]; [|reflexivity].
  rewrite <- IH. destruct (r_map f l) as [[r|] m]; reflexivity.
Qed.
Lemma r_dnode_fst : forall order dd fuel h i, fst (r_dnode order dd fuel h i) = dnode order dd fuel h i.
Proof.
  intros order dd fuel h. induction fuel as [|fuel IH]; intro i; [reflexivity|]. cbn [r_dnode dnode].
  destruct (n_childs (hget h i)) as [l|].
  - rewrite <- (r_map_fst (r_dnode order dd fuel h) _ l IH). destruct (r_map (r_dnode order dd fuel h) l) as [[r|] m1]; cbn [option_map fst];
      (destruct (n_end_tag (hget h i)) as [e|]; [rewrite <- (IH e); destruct (r_dnode order dd fuel h e) as [[v|] m2]|]); reflexivity.
  - destruct (n_end_tag (hget h i)) as [e|]; [rewrite <- (IH e); destruct (r_dnode order dd fuel h e) as [[v|] m2]|]; reflexivity.
Qed.
Lemma r_map_deep : forall h f l r m, r_map f l = (Some r, m) -> (forall k v n, f k = (Some v, n) -> exists q, n = S q /\ deepest h k q) ->
  (forall k, In k l -> forall w j, path h k w j -> length w < m) /\ (m = 0 \/ exists k q, In k l /\ deepest h k q /\ m = S q).
Proof.
  intros h f l. induction l as [|k l IH]; intros r m E F; [cbn in E; injection E as <- <-; split; [intros k []|left; reflexivity]|].
  cbn [r_map] in E. destruct (f k) as [[v|] n1] eqn:Fk; [|discriminate E]. destruct (r_map f l) as [[r2|] n2] eqn:E2; [|discriminate E]. injection E as <- <-.
  destruct (IH _ _ eq_refl F) as [A B]. destruct (F _ _ _ Fk) as (q & -> & D1 & D2). split.
  - intros k' [<-|I] w j P; [apply D2 in P; lia|specialize (A _ I _ _ P); lia].
  - right. destruct (Nat.max_spec (S q) n2) as [[L M]|[L M]]; rewrite M.
    + destruct B as [->|(k' & q' & I & D & ->)]; [lia|]. exists k', q'. split; [right; exact I|auto].
    + exists k, q. split; [left; reflexivity|]. split; [split; assumption|reflexivity].
Qed.
Lemma r_dnode_deep : forall order dd fuel h i v n, r_dnode order dd fuel h i = (Some v, n) -> exists q, n = S q /\ deepest h i q.
Proof.
  intros order dd fuel h. induction fuel as [|fuel IH]; intros i v n E; [discriminate E|]. cbn [r_dnode] in E.
  set (ck := match n_childs (hget h i) with None => (Some None, 0) | Some l => let '(r, m) := r_map (r_dnode order dd fuel h) l in (option_map Some r, m) end) in E.
  set (ce := match n_end_tag (hget h i) with None => (Some None, 0) | Some e => let '(r, m) := r_dnode order dd fuel h e in (option_map Some r, m) end) in E.
  destruct ck as [ks n1] eqn:Ek. destruct ce as [et n2] eqn:Ee. subst ck ce. destruct et as [et|]; [|discriminate E]. destruct ks as [ks|]; [|discriminate E]. injection E as _ <-.
  exists (Nat.max n1 n2). split; [reflexivity|].
  assert (A : (forall k, In k (match n_childs (hget h i) with Some l => l | None => [] end) -> forall w j, path h k w j -> length w < n1) /\
    (n1 = 0 \/ exists k q, In k (match n_childs (hget h i) with Some l => l | None => [] end) /\ deepest h k q /\ n1 = S q)).
  { destruct (n_childs (hget h i)) as [l|]; [|injection Ek as _ <-; split; [intros k []|left; reflexivity]].
    destruct (r_map _ l) as [[r|] m] eqn:Er; [|discriminate Ek]. injection Ek as _ <-. exact (r_map_deep h _ _ _ _ Er IH). }
  assert (B : (forall k, In k (match n_end_tag (hget h i) with Some e => [e] | None => [] end) -> forall w j, path h k w j -> length w < n2) /\
    (n2 = 0 \/ exists k q, In k (match n_end_tag (hget h i) with Some e => [e] | None => [] end) /\ deepest h k q /\ n2 = S q)).
  { destruct (n_end_tag (hget h i)) as [e|]; [|injection Ee as _ <-; split; [intros k []|left; reflexivity]].
    destruct (r_dnode order dd fuel h e) as [[r|] m] eqn:Er; [|discriminate Ee]. injection Ee as _ <-. destruct (IH _ _ _ Er) as (q & -> & D1 & D2). split.
    - intros k [<-|[]] w j P. apply D2 in P. lia.
    - right. exists e, q. split; [left; reflexivity|]. split; [split; assumption|reflexivity]. }
  destruct A as [A1 A2], B as [B1 B2]. apply deep_node; unfold strong.
  - intros c I w k P. apply in_app_iff in I. destruct I as [I|I]; [specialize (B1 _ I _ _ P)|specialize (A1 _ I _ _ P)]; lia.
  - destruct (Nat.max_spec n1 n2) as [[L M]|[L M]]; rewrite M.
    + destruct B2 as [->|(k & q & I & D & ->)]; [left; reflexivity|]. right. exists k, q. split; [apply in_app_iff; left; exact I|auto].
    + destruct A2 as [->|(k & q & I & D & ->)]; [left; reflexivity|]. right. exists k, q. split; [apply in_app_iff; right; exact I|auto].
Qed.
Theorem debug_depth : forall opts s d i plain pretty order documented, parse opts s = Parsed d -> i < length (d_heap d) ->
  exists out n, r_node_text plain pretty order documented (d_heap d) i = (Some out, S n) /\
    node_text plain pretty order documented (d_heap d) i = Some out /\ deepest (d_heap d) i n.
Proof.
  intros opts s d i plain pretty order dd P I. destruct (node_shown _ _ _ _ P I plain pretty order dd) as [out E]. exists out.
  unfold r_node_text. pose proof (r_dnode_fst order dd (length (d_heap d)) (d_heap d) i) as F. unfold node_text in *.
  destruct (r_dnode order dd (length (d_heap d)) (d_heap d) i) as [[v|] m] eqn:R; cbn [fst] in F; rewrite <- F in E; [|discriminate E]. injection E as <-.
  destruct (r_dnode_deep _ _ _ _ _ _ _ R) as (q & -> & D). exists q. rewrite <- F. auto.
Qed.
Lemma deepest_unique : forall h i n m, deepest h i n -> deepest h i m -> n = m.
Proof. intros h i n m [(w & k & P & <-) B] [(w' & k' & P' & <-) B']. apply B in P'. apply B' in P. lia. Qed.
Theorem debug_reached : forall opts n plain pretty order documented, exists d out,
  parse opts (times n (str "<a>") ++ str "x" ++ times n (str "</a>")) = Parsed d /\
  r_node_text plain pretty order documented (d_heap d) (d_root d) = (Some out, n + 2).
Proof.
  intros opts n plain pretty order dd. destruct (depth_reached opts n) as (d & t & P & T & _ & (h & j & C) & _).
  assert (I : d_root d < length (d_heap d)).
  { destruct (parsed_hs _ _ _ P) as [_ R]. unfold doc_tree in T. rewrite R in *. destruct (d_heap d); [discriminate T|cbn; lia]. }
  destruct (clone_depth _ _ _ _ P I) as (h' & j' & m & C' & _ & D). rewrite C in C'. injection C' as _ _ E.
  destruct (debug_depth _ _ _ _ plain pretty order dd P I) as (out & m' & R & _ & D'). exists d, out. split; [exact P|]. rewrite R, (deepest_unique _ _ _ _ D' D). f_equal. lia.
Qed.
