(** Property theorems about error messages (C48, C49). *)
From Coq Require Import String.
From Verif Require Import Api SpecText SpecParse Tests ErrorText ErrorProofs FailProofs SpecError SpecFail.
Local Open Scope string_scope.
Local Open Scope list_scope.

(** ** C48 *)
Theorem C48_message : forall opts s k r, parse opts s = Failed k r -> exists l c i ln,
  numeral l (1 + line_breaks (firstn (S (r_index r)) s)) /\
  last_line (firstn (S (r_index r)) s) ln /\ numeral c (length ln) /\ numeral i (r_index r) /\
  error_text k r = str "[line:" ++ l ++ str ",col:" ++ c ++ str ",index:" ++ i ++ str "]" ++ kind_text k.
Proof. exact message. Qed.
Print Assumptions C48_message.
(** Decimal spellings are unique, and every number has the one that is printed. *)
Theorem C48_numeral_unique : forall a b n, numeral a n -> numeral b n -> a = b.
Proof. exact numeral_unique. Qed.
Print Assumptions C48_numeral_unique.
(** Two messages are equal only if the positions and the texts of the kinds are. *)
Theorem C48_unambiguous : forall k k' r r', error_text k r = error_text k' r' -> r = r' /\ kind_text k = kind_text k'.
Proof. exact text_inj. Qed.
Print Assumptions C48_unambiguous.
(** The text of a kind determines the kind but for two exceptions. *)
Theorem C48_kinds : forall k k', kind_text k = kind_text k' -> k = k' \/
  (exists a b a' b', k = EUnrecognizedTag a b /\ k' = EUnrecognizedTag a' b') \/
  (exists c, k = EUnclosedTag (code_text c) /\ k' = EUnclosedCode c) \/ (exists c, k = EUnclosedCode c /\ k' = EUnclosedTag (code_text c)).
Proof. exact kind_inj. Qed.
Print Assumptions C48_kinds.
(** An element named like the state of the parser gives the message of that state. *)
Theorem C48_kind_refuted : exists k k' r r',
  parse default_po (str "<Comment>") = Failed k r /\ parse default_po (str "<!-- abcd") = Failed k' r' /\
  k <> k' /\ kind_text k = kind_text k' /\ error_text k r = error_text k' r'.
Proof.
  eexists. eexists. eexists. eexists. split; [vm_compute; reflexivity|]. split; [vm_compute; reflexivity|].
  split; [discriminate|]. split; vm_compute; reflexivity.
Qed.
Print Assumptions C48_kind_refuted.
Example C48_example : exists k r,
  parse default_po ([10; 13; 10]%N ++ str "<ul><li>ok</li>     </b></ul>") = Failed k r /\
  error_text k r = str "[line:3,col:24,index:26]wrong end tag </b".
Proof. eexists. eexists. split; vm_compute; reflexivity. Qed.

(** ** C49 *)
Theorem C49_fail_fast : forall opts s k r, parse opts s = Failed k r -> ~ at_end k ->
  exists a c b, s = a ++ c :: b /\ r_index r <= length a /\
    (forall p, begins p a -> no_error_yet (parse opts p) \/ exists x, parse opts p = Panicked x) /\
    (forall b', parse opts (a ++ c :: b') = Failed k r).
Proof. exact fail_fast. Qed.
Print Assumptions C49_fail_fast.
Theorem C49_panic_fast : forall opts s x, parse opts s = Panicked x ->
  (auto_fix_unclosed_tag opts = false /\ ends_in_open_name s) \/
  exists a c b, s = a ++ c :: b /\ forall b', parse opts (a ++ c :: b') = Panicked x.
Proof. exact panic_fast. Qed.
Print Assumptions C49_panic_fast.
(** Found at the '>' of the end tag, whatever follows; before it the text could still be right. *)
Example C49_example : exists k r k' r',
  parse default_po (str "<ul><li>ok</b></ul>") = Failed k r /\ ~ at_end k /\
  parse default_po (str "<ul><li>ok</b><<<") = Failed k r /\
  parse default_po (str "<ul><li>ok</b") = Failed k' r' /\ at_end k'.
Proof.
  eexists. eexists. eexists. eexists. split; [vm_compute; reflexivity|]. split; [intro H; exact H|].
  split; [vm_compute; reflexivity|]. split; [vm_compute; reflexivity|]. exact I.
Qed.
