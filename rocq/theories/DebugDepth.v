(** How deep the Debug output of a node calls itself: src/parser.rs 470-487 (fmt).  Besides the value shown, the
    largest number of calls of [fmt] for nodes that are active at the same time.  Children are shown before the
    end tag. *)
From Coq Require Import String.
From Verif Require Export Handles Debug.
Local Open Scope string_scope.
Local Open Scope list_scope.

(** The loop over the children. *)
Fixpoint r_map (f : nid -> option dval * nat) (l : list nid) : option (list dval) * nat :=
  match l with
  | [] => (Some [], 0)
  | k :: l' =>
      let '(r1, n1) := f k in
      match r1 with
      | Some v => let '(r2, n2) := r_map f l' in (option_map (cons v) r2, Nat.max n1 n2)
      | None => (None, n1)
      end
  end.
(** src/parser.rs 470-487. *)
Fixpoint r_dnode (order : list (list char * nat) -> list (list char * nat)) (documented : nid -> bool)
    (fuel : nat) (h : list node) (i : nid) : option dval * nat :=
  match fuel with
  | O => (None, 0)
  | S fuel' =>
      let n := hget h i in
      let '(ks, n1) := match n_childs n with
                       | None => (Some None, 0)
                       | Some l => let '(r, m) := r_map (r_dnode order documented fuel' h) l in (option_map Some r, m)
                       end in
      let '(et, n2) := match n_end_tag n with
                       | None => (Some None, 0)
                       | Some e => let '(r, m) := r_dnode order documented fuel' h e in (option_map Some r, m)
                       end in
      (match et, ks with
       | Some et, Some ks =>
          Some (DStruct (str "Node") [
            (str "index", DNum (n_index n)); (str "node_type", dtype (n_type n));
            (str "begin_at", DNum (n_begin_at n)); (str "end_at", DNum (n_end_at n));
            (str "content", dopt dchars (n_content n));
            (str "childs", dopt (fun l => DList (map dcell l)) ks);
            (str "meta", dopt (fun m => dcell (dmeta order m)) (n_meta n));
            (str "end_tag", dopt dcell et);
            (str "parent", dbool (is_some (n_parent n))); (str "root", dbool (is_some (n_root n)));
            (str "document", dbool (documented i))])
       | _, _ => None
       end, S (Nat.max n1 n2))
  end.
Definition r_node_text (plain : char -> bool) (pretty : bool) order documented (h : list node) (i : nid) : option (list char) * nat :=
  let '(r, n) := r_dnode order documented (length h) h i in (option_map (debug plain pretty) r, n).
