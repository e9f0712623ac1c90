(** Specification of early rejection. *)
From Verif Require Import Api.
Local Open Scope list_scope.

(** The errors reported at the end of the input. *)
Definition at_end (k : error_kind) : Prop :=
  match k with EUnclosedTag _ | EUnclosedCode _ => True | _ => False end.
(** [p] is the beginning of [s]. *)
Definition begins (p s : list char) : Prop := exists r, s = p ++ r.
(** Nothing wrong was found so far. *)
Definition no_error_yet (o : outcome) : Prop :=
  match o with Failed k _ => at_end k | Parsed _ => True | Panicked _ => False end.
