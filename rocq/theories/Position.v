(** src/position.rs: line and column of an error. *)
From Verif Require Export Types.

(** src/position.rs 5-10. *)
Record code_region := mkRegion { r_index : nat; r_line : nat; r_col : nat }.

(** src/position.rs 12-45: from_context_index; the loop over [context.chars().enumerate()]
    carries [cur_index], [prev_char] and the region (line, col). *)
Fixpoint region_loop (context : list char) (cur_index index : nat) (prev_char : char)
    (line col : nat) : nat * nat :=
  match context with
  | [] => (line, col)
  | c :: rest =>
      if Nat.leb cur_index index then
        if N.eqb c CR_CHAR then                      (* set_new_line *)
          region_loop rest (S cur_index) index c (S line) 0
        else if N.eqb c LF_CHAR then
          if N.eqb prev_char CR_CHAR then region_loop rest (S cur_index) index c line col
          else region_loop rest (S cur_index) index c (S line) 0
        else region_loop rest (S cur_index) index c line (S col)   (* move_one *)
      else region_loop rest (S cur_index) index prev_char line col
  end.
Definition from_context_index (context : list char) (index : nat) : code_region :=
  let '(line, col) := region_loop context 0 index 0%N 1 0 in
  mkRegion index line col.
