(** Property theorems about the element with an id (C68). *)
From Coq Require Import String.
From Verif Require Import Api SpecText SpecRender SpecParse SpecMisc SpecTree SpecDoc SpecSwap SpecAttrs SpecFind Tests FindProofs.
Local Open Scope string_scope.
Local Open Scope list_scope.

(** ** C68 *)
(** The node that is found holds the last item of the content with this id; nothing is found only if there is none. *)
Theorem C68_content : forall opts s d f v, parse opts s = Parsed d -> no_repair opts -> doc_content d f ->
  match get_element_by_id d v with
  | Some i => exists g t x, tree_of g (d_heap d) i = Some t /\ depicts x t /\ last_with_id v f x
  | None => Forall (fun x => ~ item_id v x) (flat_map parts f)
  end.
Proof. exact find_content. Qed.
Print Assumptions C68_content.
(** What is found depends only on the content, not on the spelling and the options. *)
Theorem C68_same : forall opts s d opts' s' d' f v, parse opts s = Parsed d -> parse opts' s' = Parsed d' -> no_repair opts -> no_repair opts' ->
  doc_content d f -> doc_content d' f ->
  match get_element_by_id d v, get_element_by_id d' v with
  | Some i, Some i' => exists g g' t t' x, tree_of g (d_heap d) i = Some t /\ tree_of g' (d_heap d') i' = Some t' /\ depicts x t /\ depicts x t'
  | None, None => True
  | _, _ => False
  end.
Proof. exact find_same. Qed.
Print Assumptions C68_same.
(** A node that is given a new id in the source is found by it. *)
Theorem C68_new_id : forall opts s d r p t x dt n l sc f v a' l' b, parse opts s = Parsed d -> no_repair opts ->
  doc_tree d = Some r -> at_place r p t -> depicts x t -> starts_as x dt n l sc -> doc_content d f -> get_element_by_id d v = None ->
  follows_name dt a' -> area (allow_attr_key_starts_with_equal_sign opts) dt a' l' sc -> In b l' -> id_value b v ->
  exists s1 a s3 d2 i g t2, s = s1 ++ n ++ a ++ str ">" ++ s3 /\ length s1 = t_begin_at t /\
    parse opts (s1 ++ n ++ a' ++ str ">" ++ s3) = Parsed d2 /\ get_element_by_id d2 v = Some i /\
    tree_of g (d_heap d2) i = Some t2 /\ depicts (with_attrs l' x) t2.
Proof. exact new_id. Qed.
Print Assumptions C68_new_id.
(** Content excludes self-closing doctypes by itself. *)
Theorem C68_open_doctypes : forall opts s d f, parse opts s = Parsed d -> doc_content d f -> open_doctypes d.
Proof. exact content_open. Qed.
Print Assumptions C68_open_doctypes.

Example C68_example : exists d t, parse default_po (str "<p id=a><b ID='a'>x</b></p><i id=b></i>") = Parsed d /\
  get_element_by_id d (str "a") = Some 2 /\ get_element_by_id d (str "c") = None /\ tree_of 3 (d_heap d) 2 = Some t /\
  (let b := XElem (str "b") [quoted (str "ID") (str "a") 39%N] [XText (str "x") false] (str "b") in
   depicts b t /\
   last_with_id (str "a") [XElem (str "p") [unquoted (str "id") (str "a")] [b] (str "p"); XElem (str "i") [unquoted (str "id") (str "b")] [] (str "i")] b).
Proof.
  eexists _, _. do 4 (split; [vm_compute; reflexivity|]). cbn zeta. split.
  - eapply dp_elem; [vm_compute; reflexivity|vm_compute; reflexivity| |vm_compute; reflexivity|repeat split|].
    + eexists. split; [vm_compute; reflexivity|]. repeat split.
    + vm_compute. constructor; [|constructor]. apply dp_text; [reflexivity|reflexivity|repeat split].
  - eexists [_], [_; _]. split; [reflexivity|]. split; [exists (quoted (str "ID") (str "a") 39%N); split; [left; reflexivity|exists (str "ID"); repeat split]|].
    constructor; [intros (a & [] & _)|]. constructor; [|constructor]. intros (a & [<-|[]] & k & _ & _ & V). vm_compute in V. discriminate V.
Qed.
