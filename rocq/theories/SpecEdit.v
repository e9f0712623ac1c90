(** Specification: mending a text by hand instead of leaving it to the parser. *)
From Coq Require Import String.
From Verif Require Import Api SpecText SpecFix SpecStream.
Local Open Scope string_scope.
Local Open Scope list_scope.

(** The second text is the first with some '<' that start no markup written as "&lt;". *)
Inductive escaped : list char -> list char -> Prop :=
  | esc_nil : escaped [] []
  | esc_keep : forall c s s', escaped s s' -> escaped (c :: s) (c :: s')
  | esc_lt : forall c s s', stray c -> escaped (c :: s) s' -> escaped (60%N :: c :: s) (str "&lt;" ++ s').
(** The second text is the first without some end tags. *)
Inductive pruned : list char -> list char -> Prop :=
  | prune_nil : pruned [] []
  | prune_keep : forall c s s', pruned s s' -> pruned (c :: s) (c :: s')
  | prune_end : forall nm s s', ~ In 62%N nm -> pruned s s' -> pruned (str "</" ++ nm ++ str ">" ++ s) s'.

(** The same options without any repair. *)
Definition no_repairs (o : parse_options) : parse_options :=
  mkPO (case_sensitive_tagname o) (allow_attr_key_starts_with_equal_sign o) (allow_self_closing o) false false false.

(** No '<' that starts no markup stands directly after a raw text element (or after a text put into one). *)
Definition lt_outside_raw (o : parse_options) (s : list char) : Prop :=
  forall s1 c s2 st, s = s1 ++ str "<" ++ c :: s2 -> run (doc_new o) s1 = ROk st -> between st -> stray c -> ~ after_raw st.
