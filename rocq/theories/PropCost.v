(** Memory and time: C53, C54. *)
From Coq Require Import String.
From Verif Require Import Api Cost SpecCost Tests CostProofs CostWork CostLow.
Local Open Scope string_scope.
Local Open Scope list_scope.

(** C53: at every point of every run, and in the parsed document, the nodes number at most one more
    than the characters read, and the text kept in all nodes ever made, the index of ids and the
    buffer, and four more for every attribute, is at most ten times the text read. *)
Theorem C53_memory : forall o s,
  (forall st, run (doc_new o) s = ROk st -> length (d_heap st) <= length s + 1 /\ stored st <= 10 * length s) /\
  (forall d, parse o s = Parsed d -> length (d_heap d) <= length s + 1 /\ stored d <= 10 * length s).
Proof. exact (fun o s => conj (fun st => run_memory o s st) (fun d => parse_memory o s d)). Qed.
Print Assumptions C53_memory.

(** C53: the strong references have no cycle: dropping the document frees every node. *)
Theorem C53_freed : forall o s d k, parse o s = Parsed d -> freed (d_heap d) k.
Proof. exact all_freed. Qed.
Print Assumptions C53_freed.

(** C53: the nesting depth is at most the length of the text plus one, and not bounded otherwise. *)
Theorem C53_depth : forall o s d t, parse o s = Parsed d -> doc_tree d = Some t -> depth t <= length s + 1.
Proof. exact depth_bound. Qed.
Print Assumptions C53_depth.
Theorem C53_depth_unbounded : forall o n, exists d t,
  parse o (times n (str "<a>") ++ times n (str "</a>")) = Parsed d /\ doc_tree d = Some t /\ n < depth t.
Proof. exact deep. Qed.
Print Assumptions C53_depth_unbounded.

Definition memory_of (o : parse_options) (s : string) : option (nat * nat * option nat) :=
  match parse o (str s) with
  | Parsed d => Some (length (d_heap d), stored d, option_map depth (doc_tree d))
  | _ => None
  end.
Example C53_example :
  memory_of default_po "<div id=""x"" CLASS=b>text<br/><!--c--></div>" = Some (6, 38, Some 3) /\
  memory_of (mkPO true false true true true true) "<a>1<2</b><i>" = Some (7, 10, Some 4).
Proof. vm_compute. split; reflexivity. Qed.

(** C54: without the repair of '<', and without at least one of the other two repairs, the work is
    linear in the length of the text, whether it is accepted or not. *)
Theorem C54_linear : forall o s, auto_fix_unescaped_lt o = false ->
  auto_fix_unexpected_endtag o = false \/ auto_fix_unclosed_tag o = false ->
  parse_work o s <= 134 * length s + 120.
Proof. exact (fun o s A B => parse_linear o s (conj A B)). Qed.
Print Assumptions C54_linear.

(** C54: with all options it is at most quadratic... *)
Theorem C54_quadratic : forall o s, parse_work o s <= 40 * length s * length s + 134 * length s + 120.
Proof. exact parse_quadratic. Qed.
Print Assumptions C54_quadratic.

(** ... and it is quadratic on texts of length 1 + 2n and 5n that the repairs accept. *)
Theorem C54_unescaped_lt_quadratic : forall o n, auto_fix_unescaped_lt o = true ->
  (exists d, parse o (str "1" ++ times n (str "<1")) = Parsed d) /\
  n * n <= parse_work o (str "1" ++ times n (str "<1")).
Proof. exact lt_slow. Qed.
Print Assumptions C54_unescaped_lt_quadratic.
Theorem C54_endtag_quadratic : forall o n, auto_fix_unexpected_endtag o = true -> auto_fix_unclosed_tag o = true ->
  (exists d, parse o (times n (str "x</b>")) = Parsed d) /\
  n * (n - 1) <= 2 * parse_work o (times n (str "x</b>")).
Proof. exact end_slow. Qed.
Print Assumptions C54_endtag_quadratic.

Example C54_example :
  parse_work default_po (str "<div id=""x"" CLASS=b>text<br/><!--c--></div>") = 147 /\
  map (fun n => parse_work (mkPO true false true true true true) (times n (str "x</b>"))) [10; 20; 40] = [190; 580; 1960] /\
  map (fun n => parse_work (mkPO true false true false true false) (times n (str "x</b>"))) [10; 20; 40] = [100; 200; 400].
Proof. vm_compute. repeat split; reflexivity. Qed.
