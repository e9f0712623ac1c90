(** Specification of numbers in messages. *)
From Verif Require Import Api.
Local Open Scope list_scope.

Definition digit (c : char) : Prop := (48 <= c <= 57)%N.
(** The number a sequence of digits means, read from the left. *)
Definition read_digit (n : nat) (c : char) : nat := 10 * n + N.to_nat (c - 48).
(** [ds] is the usual decimal spelling of [n]. *)
Definition numeral (ds : list char) (n : nat) : Prop :=
  Forall digit ds /\ ds <> [] /\ (hd_error ds = Some 48%N -> ds = [48%N]) /\ fold_left read_digit ds 0 = n.
