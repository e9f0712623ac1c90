(** Property theorems about parsing (C01, C16, C17). *)
From Coq Require Import String.
From Verif Require Import Api SpecText SpecParse CtlRun StructEnd.
Local Open Scope string_scope.
Local Open Scope list_scope.

(** ** C01 *)
Theorem C01_panic_shapes : forall opts s p, parse opts s = Panicked p ->
  (auto_fix_unclosed_tag opts = false /\ ends_in_open_name s) \/
  self_closed_doctype s \/ cdata_after_misspelt_special s.
Proof. exact panic_shapes_full. Qed.
Print Assumptions C01_panic_shapes.
(** All three shapes do panic. *)
Theorem C01_open_name_refuted : parse default_po (str "<p>x</p><a") = Panicked PMetaMissing.
Proof. vm_compute. reflexivity. Qed.
Print Assumptions C01_open_name_refuted.
Theorem C01_doctype_refuted : parse default_po (str "<!DOCTYPE html />x") = Panicked PChainEmpty.
Proof. vm_compute. reflexivity. Qed.
Print Assumptions C01_doctype_refuted.
Theorem C01_cdata_refuted : parse default_po (str "<svg></SVG><![CDATA[x]]>") = Panicked PMetaMissing.
Proof. vm_compute. reflexivity. Qed.
Print Assumptions C01_cdata_refuted.
(** The same shapes inside a larger document that parses. *)
Example C01_example : exists d, parse default_po (str "<svg><g><![CDATA[x]]></g></svg><a b='c'>y</a>") = Parsed d.
Proof. eexists. vm_compute. reflexivity. Qed.

(** ** C16 *)
Theorem C16_error_kinds : forall opts s k r, parse opts s = Failed k r -> err_kind_ok opts k.
Proof. exact failed_kind. Qed.
Print Assumptions C16_error_kinds.
(** Each of the excluded kinds does occur without the option. *)
Example C16_example :
  (exists r, parse default_po (str "<div/>") = Failed (EWrongSelfClosing (str "div")) r) /\
  (exists r, parse default_po (str "<p></b>") = Failed (EWrongEndTag (str "b")) r) /\
  (exists r, parse default_po (str "<p>") = Failed (EUnclosedTag (str "p")) r) /\
  (exists r, parse (mkPO true false false false false false) (str "<p></P>")
             = Failed (EWrongCaseSensitive (str "P")) r) /\
  (exists r, parse default_po (str "a<1") = Failed (EWrongTag (str "1")) r) /\
  (exists r, parse default_po (str "<a =b>")
             = Failed (EWrongTag (str "'=' is not a valid attribute name")) r).
Proof.
  split; [eexists; vm_compute; reflexivity|]. split; [eexists; vm_compute; reflexivity|].
  split; [eexists; vm_compute; reflexivity|]. split; [eexists; vm_compute; reflexivity|].
  split; [eexists; vm_compute; reflexivity|]. eexists; vm_compute; reflexivity.
Qed.

(** ** C17 *)
Theorem C17_error_position : forall opts s k r, parse opts s = Failed k r ->
  r_index r <= length s /\ r = from_context_index s (r_index r).
Proof. exact failed_region. Qed.
Print Assumptions C17_error_position.
Example C17_example : exists k r, parse default_po (str "ab" ++ [10%N] ++ str "c<1") = Failed k r /\
  r_index r = 4 /\ r_line r = 2.
Proof. eexists. eexists. split; [vm_compute; reflexivity|]. split; vm_compute; reflexivity. Qed.
