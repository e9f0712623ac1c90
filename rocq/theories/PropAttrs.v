(** Property theorems about changing the attributes of a tag in the source (C67). *)
From Coq Require Import String.
From Verif Require Import Api SpecText SpecRender SpecParse SpecMisc SpecTree SpecDoc SpecSwap SpecAttrs Tests AttrsProofs.
Local Open Scope string_scope.
Local Open Scope list_scope.

(** ** C67 *)
(** The text between the name and the '>' of one tag replaced by another list of attributes: these
    attributes change, and nothing else. *)
Theorem C67_attributes : forall opts s d r p t x dt n l sc f a' l' env, parse opts s = Parsed d -> no_repair opts -> open_doctypes d ->
  doc_tree d = Some r -> at_place r p t -> depicts x t -> starts_as x dt n l sc -> doc_content d f ->
  follows_name dt a' -> area (allow_attr_key_starts_with_equal_sign opts) dt a' l' sc ->
  exists s1 a s3 d2 o1 o3, s = s1 ++ n ++ a ++ str ">" ++ s3 /\ length s1 = t_begin_at t /\ follows_name dt a /\
    area (allow_attr_key_starts_with_equal_sign opts) dt a l sc /\
    parse opts (s1 ++ n ++ a' ++ str ">" ++ s3) = Parsed d2 /\ doc_content d2 (reattributed p l' f) /\
    render env default_ro d = ROk (o1 ++ n ++ print_attrs l ++ o3) /\ render env default_ro d2 = ROk (o1 ++ n ++ print_attrs l' ++ o3).
Proof. exact set_attributes. Qed.
Print Assumptions C67_attributes.
(** Any attributes that can be written, in their canonical spelling. *)
Theorem C67_canonical : forall opts s d r p t x dt n l sc f l' env, parse opts s = Parsed d -> no_repair opts -> open_doctypes d ->
  doc_tree d = Some r -> at_place r p t -> depicts x t -> starts_as x dt n l sc -> doc_content d f ->
  Forall (good_attr dt) l' -> (dt = true -> l' <> []) ->
  exists s1 a s3 d2 o1 o3, s = s1 ++ n ++ a ++ str ">" ++ s3 /\ length s1 = t_begin_at t /\
    area (allow_attr_key_starts_with_equal_sign opts) dt a l sc /\
    parse opts (s1 ++ n ++ print_attrs l' ++ (if sc then str " /" else []) ++ str ">" ++ s3) = Parsed d2 /\ doc_content d2 (reattributed p l' f) /\
    render env default_ro d = ROk (o1 ++ n ++ print_attrs l ++ o3) /\ render env default_ro d2 = ROk (o1 ++ n ++ print_attrs l' ++ o3).
Proof. exact canonical_attributes. Qed.
Print Assumptions C67_canonical.

Example C67_example : exists d r k t d2, parse default_po (str "<p><b x=1 Y>z</b></p>") = Parsed d /\ doc_tree d = Some r /\ child_list r = [k] /\ child_list k = [t] /\
  t_begin_at t = 3 /\ at_place r [0; 0] t /\
  reattributed [0; 0] [quoted (str "id") (str "q r") 34%N] [XElem (str "p") [] [XElem (str "b") [unquoted (str "x") (str "1"); bare (str "Y")] [XText (str "z") false] (str "b")] (str "p")] =
    [XElem (str "p") [] [XElem (str "b") [quoted (str "id") (str "q r") 34%N] [XText (str "z") false] (str "b")] (str "p")] /\
  print_attrs [quoted (str "id") (str "q r") 34%N] = str " id=""q r""" /\
  parse default_po (str "<p>" ++ str "<b" ++ str " id=""q r""" ++ str ">" ++ str "z</b></p>") = Parsed d2 /\
  render test_env default_ro d2 = ROk (str "<p><b id=""q r"">z</b></p>") /\ get_element_by_id d2 (str "q r") = Some 2.
Proof.
  eexists _, _, _, _, _. do 5 (split; [vm_compute; reflexivity|]). split; [|repeat (split; [vm_compute; reflexivity|]); vm_compute; reflexivity].
  eapply at_child; [vm_compute; reflexivity|reflexivity|]. eapply at_child; [vm_compute; reflexivity|reflexivity|]. apply at_here.
Qed.
(** A value that contains its quote becomes several attributes. *)
Theorem C67_quote_refuted : let a := [quoted (str "x") (str "1"" y=""2") 34%N] in exists d d2,
  parse default_po (str "<b x=1></b>") = Parsed d /\ parse default_po (str "<b" ++ print_attrs a ++ str "></b>") = Parsed d2 /\
  ~ doc_content d2 [XElem (str "b") a [] (str "b")].
Proof.
  eexists _, _. split; [vm_compute; reflexivity|]. split; [vm_compute; reflexivity|]. intros (t & E & _ & _ & _ & _ & F).
  vm_compute in E. injection E as <-. vm_compute in F. inversion F as [|? ? ? ? D _]; subst.
  inversion D as [| | | | | |? ? ? ? m ? ? ? ? M (_ & A & _)]; subst. cbn in M. injection M as <-. vm_compute in A. discriminate A.
Qed.
Print Assumptions C67_quote_refuted.
(** A doctype cannot lose its last attribute. *)
Theorem C67_doctype_refuted : exists d k r, parse default_po (str "<!doctype html>") = Parsed d /\
  parse default_po (str "<!" ++ str "doctype" ++ print_attrs [] ++ str ">") = Failed k r.
Proof. eexists _, _, _. split; vm_compute; reflexivity. Qed.
Print Assumptions C67_doctype_refuted.
