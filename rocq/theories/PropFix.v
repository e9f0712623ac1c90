(** Property theorems about repairs (C13). *)
From Coq Require Import String.
From Verif Require Import Api SpecText SpecRender Tests FixProofs SpecTree SpecFix.
Local Open Scope string_scope.
Local Open Scope list_scope.

(** ** C13 *)
Theorem C13_as_if_closed : forall opts s d, parse opts s = Parsed d -> ~ cut_short opts s d ->
  exists d' t t', parse opts (s ++ closers (rev (fixed_names d))) = Parsed d' /\ fixed_names d' = [] /\
    doc_tree d = Some t /\ doc_tree d' = Some t' /\ alike t t' /\ d_id_tags d' = d_id_tags d.
Proof. exact closed_source. Qed.
Print Assumptions C13_as_if_closed.
Theorem C13_strictly_accepted : forall opts s d, parse opts s = Parsed d -> ~ cut_short opts s d ->
  auto_fix_unexpected_endtag opts = false ->
  exists d' t t', parse (strict_ends opts) (s ++ closers (rev (fixed_names d))) = Parsed d' /\
    doc_tree d = Some t /\ doc_tree d' = Some t' /\ alike t t' /\ d_id_tags d' = d_id_tags d.
Proof. exact closed_strict. Qed.
Print Assumptions C13_strictly_accepted.
Theorem C13_same_rendering : forall opts s d env o text, parse opts s = Parsed d -> ~ cut_short opts s d -> plain_render env o ->
  exists d', parse opts (s ++ closers (rev (fixed_names d))) = Parsed d' /\ fixed_names d' = [] /\
    render_gen env o text d' = render_gen env o text d.
Proof. exact closed_render. Qed.
Print Assumptions C13_same_rendering.

Definition fix_po : parse_options := mkPO false false true true false false.
(** Two of four elements are open at the end. *)
Example C13_example : exists d d',
  parse fix_po (str "<ul><li id=a>x<b>y</b><br>z ") = Parsed d /\ fixed_names d = [str "ul"; str "li"] /\
  parse (strict_ends fix_po) (str "<ul><li id=a>x<b>y</b><br>z </li></ul>") = Parsed d' /\ fixed_names d' = [] /\
  render test_env default_ro d = ROk (str "<ul><li id=a>x<b>y</b><br>z </li></ul>") /\
  render test_env default_ro d' = ROk (str "<ul><li id=a>x<b>y</b><br>z </li></ul>").
Proof. eexists. eexists. repeat (split; [vm_compute; reflexivity|]). vm_compute. reflexivity. Qed.

(** Minified, blank text before the end of input is lost, but kept before the end tag. *)
Theorem C13_minified_refuted : exists d d',
  parse fix_po (str "<p> ") = Parsed d /\ parse fix_po (str "<p> </p>") = Parsed d' /\
  render test_env (mkRO true false false false false false false false false) d = ROk (str "<p></p>") /\
  render test_env (mkRO true false false false false false false false false) d' = ROk (str "<p> </p>").
Proof. eexists. eexists. repeat (split; [vm_compute; reflexivity|]). vm_compute. reflexivity. Qed.
Print Assumptions C13_minified_refuted.
(** With always_close_void a closed element gets a slash in its start tag. *)
Theorem C13_always_close_void_refuted : exists d d',
  parse fix_po (str "<p>x") = Parsed d /\ parse fix_po (str "<p>x</p>") = Parsed d' /\
  render test_env (mkRO false false false false false true false false false) d = ROk (str "<p />x</p>") /\
  render test_env (mkRO false false false false false true false false false) d' = ROk (str "<p>x</p>").
Proof. eexists. eexists. repeat (split; [vm_compute; reflexivity|]). vm_compute. reflexivity. Qed.
Print Assumptions C13_always_close_void_refuted.
(** Input that ends inside a tag: the part of the tag that is there is kept, end tags cannot follow. *)
Theorem C13_cut_refuted : exists d,
  parse fix_po (str "<p><b x=1 ") = Parsed d /\ fixed_names d = [str "p"; str "b"] /\
  render test_env default_ro d = ROk (str "<p><b x=1></b></p>") /\
  exists k r, parse fix_po (str "<p><b x=1 </b></p>") = Failed k r.
Proof. eexists. repeat (split; [vm_compute; reflexivity|]). eexists. eexists. vm_compute. reflexivity. Qed.
Print Assumptions C13_cut_refuted.
