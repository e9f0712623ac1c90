(** Property theorems about input that ends inside a start tag (C63). *)
From Coq Require Import String.
From Verif Require Import Api SpecText SpecRender SpecParse SpecMisc SpecTree SpecDoc SpecFix SpecCut Tests CutProofs.
Local Open Scope string_scope.
Local Open Scope list_scope.

(** ** C63 *)
Theorem C63_cut_short : forall opts s d, parse opts s = Parsed d -> cut_short opts s d ->
  exists s0 n a, s = s0 ++ str "<" ++ n ++ a /\ open_name n /\ starts_with slash_filler a /\ cut_document opts s0 n a d.
Proof. exact cut_backward. Qed.
Print Assumptions C63_cut_short.
Theorem C63_any_cut : forall opts s d0 n a l, parse opts s = Parsed d0 -> ~ cut_short opts s d0 -> open_doctypes d0 ->
  auto_fix_unclosed_tag opts = true ->
  open_name n -> starts_with slash_filler a -> cut_area (allow_attr_key_starts_with_equal_sign opts) a l ->
  exists d, parse opts (s ++ str "<" ++ n ++ a) = Parsed d /\ cut_short opts (s ++ str "<" ++ n ++ a) d /\ cut_document opts s n a d.
Proof. exact cut_forward. Qed.
Print Assumptions C63_any_cut.
Theorem C63_attributes_unique : forall eq a l l', cut_area eq a l -> cut_area eq a l' -> l = l'.
Proof. exact cut_unique. Qed.
Print Assumptions C63_attributes_unique.
Theorem C63_no_end : forall eq a l, cut_area eq a l -> forall a1 a2 l' sc, a = a1 ++ str ">" ++ a2 -> ~ area eq false a1 l' sc.
Proof. exact cut_not_area. Qed.
Print Assumptions C63_no_end.

Definition cut_po : parse_options := mkPO false false true true false false.
(** Cut off in a quoted value, in a key and after the name. *)
Example C63_example_value : exists d d',
  parse cut_po (str "<p>t<b k='v' x=1 id=""q") = Parsed d /\ parse cut_po (str "<p>t<a>") = Parsed d' /\
  render test_env default_ro d = ROk (str "<p>t<b k='v' x=1 id></b></p>") /\
  render test_env default_ro d' = ROk (str "<p>t<a></a></p>").
Proof. eexists. eexists. repeat (split; [vm_compute; reflexivity|]). vm_compute. reflexivity. Qed.
Example C63_example_area : cut_area false (str " k='v' x=1 id=""q>") [quoted (str "k") (str "v") 39%N; unquoted (str "x") (str "1"); SpecDoc.bare (str "id")].
Proof.
  assert (Fl : filler (str " ")) by (repeat constructor).
  assert (Ky : forall c, key_char c -> attr_key false false [c]) by (intros c K; exists c, []; split; [reflexivity|]; split; [constructor|]; split; [left; exact K|discriminate]).
  apply (ca_more_quoted false (str " ") (str "k") (str "=") [] 39%N (str "v") (str " x=1 id=""q>")).
  - exact Fl.
  - apply Ky. repeat split; discriminate.
  - left. reflexivity.
  - constructor.
  - right. reflexivity.
  - intros [X|[]]. discriminate.
  - apply (ca_more_unquoted false (str " ") (str "x") (str "=") [] (str "1") (str " id=""q>")).
    + exact Fl.
    + apply Ky. repeat split; discriminate.
    + left. reflexivity.
    + constructor.
    + exists 49%N, []. split; [reflexivity|]. split; [repeat constructor; discriminate|]. split; [intros [X|X]; discriminate|discriminate].
    + reflexivity.
    + discriminate.
    + apply (ca_quoted false (str " ") (str "id") (str "=") [] 34%N (str "q>")).
      * exact Fl.
      * exists 105%N, (str "d"). split; [reflexivity|]. split; [repeat constructor; discriminate|]. split; [left; repeat split; discriminate|discriminate].
      * left. reflexivity.
      * constructor.
      * left. reflexivity.
      * intros [X|[X|[]]]; discriminate.
Qed.

(** Writing the missing '>' does not give the same document: a key that is cut off is lost. *)
Theorem C63_completed_refuted : exists d d',
  parse cut_po (str "<p><b x=1 yz") = Parsed d /\ parse cut_po (str "<p><b x=1 yz>") = Parsed d' /\
  render test_env default_ro d = ROk (str "<p><b x=1 ></b></p>") /\
  render test_env default_ro d' = ROk (str "<p><b x=1 yz></b></p>").
Proof. eexists. eexists. repeat (split; [vm_compute; reflexivity|]). vm_compute. reflexivity. Qed.
Print Assumptions C63_completed_refuted.
(** A void element whose tag is cut off gets an end tag. *)
Theorem C63_void_refuted : exists d d',
  parse cut_po (str "a<br /") = Parsed d /\ parse cut_po (str "a<br />") = Parsed d' /\
  render test_env default_ro d = ROk (str "a<br></br>") /\ render test_env default_ro d' = ROk (str "a<br />").
Proof. eexists. eexists. repeat (split; [vm_compute; reflexivity|]). vm_compute. reflexivity. Qed.
Print Assumptions C63_void_refuted.
(** The document after a self-closed doctype has no open node a cut tag could go into. *)
Theorem C63_doctype_refuted : exists d,
  parse cut_po (str "<!doctype html/>") = Parsed d /\ parse cut_po (str "<!doctype html/><b x") = Panicked PChainEmpty.
Proof. eexists. split; vm_compute; reflexivity. Qed.
Print Assumptions C63_doctype_refuted.
