(** The size of rendered documents. *)
From Coq Require Import String.
From Verif Require Import Api SpecRender.
Local Open Scope string_scope.
Local Open Scope list_scope.

(** The rendering that leaves nothing out. *)
Definition full : render_options := with_always_close_void true default_ro.

(** Decoding a text and encoding a character lengthens them at most [K] times (only asked for if
    the options decode or encode). *)
Definition growth (K : nat) (env : entity_env) (o : render_options) : Prop :=
  1 <= K /\
  (decode_entity o = true -> forall c, length (ent_decode_to env c) <= K * length c) /\
  (encode_content o = true -> forall c e, ent_encode env c = Some e -> length e <= K).

(** The nodes that a rendering visits. *)
Fixpoint count (t : tree) : nat :=
  let of := fix of (ts : list tree) : nat := match ts with [] => 0 | x :: r => count x + of r end in
  match t with
  | TNode _ _ _ _ e _ ks _ =>
      1 + match ks with Some l => of l | None => 0 end + match e with Some _ => 1 | None => 0 end
  end.
