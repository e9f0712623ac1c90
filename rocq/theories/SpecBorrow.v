(** What it means that a program never borrows a [RefCell] in conflict (C51). *)
From Coq Require Import List.
From Verif Require Import Borrow.
Import ListNotations.

(** The program [m] may be started with any guards of which [g] holds; it then behaves as the
    program [r] that knows of no cells, and no borrow panics. *)
Definition borrows_well {A} (g : guards -> Prop) (m : M A) (r : res A) : Prop :=
  forall gs, g gs -> m gs = BRes r /\ forall c, m gs <> BConflict c.

(** The caller holds nothing. *)
Definition no_guards (g : guards) : Prop := g = [].
(** The caller holds any number of [Ref]s, but no [RefMut]. *)
Definition only_refs (g : guards) : Prop := forall c, ~ In (c, true) g.
(** … and the nodes they lend exist already. *)
Definition only_old_refs (n : nat) (g : guards) : Prop :=
  only_refs g /\ forall i b, In (KNode i, b) g \/ In (KMeta i, b) g -> i < n.
