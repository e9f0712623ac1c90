(** Size and work of rendering: C58. *)
From Coq Require Import String.
From Verif Require Import Api SpecText SpecRender SpecMisc SpecTree SpecDoc SpecCost SpecSize Cost RenderCost Tests SizeProofs SizeDoc.
Local Open Scope string_scope.
Local Open Scope list_scope.

(** C58: on every tree, no option makes the rendering longer than the one that leaves nothing out,
    except for what entities grow by. *)
Theorem C58_options_shorten : forall K env o t text out out0, growth K env o ->
  build env o t text = ROk out -> build env full t false = ROk out0 -> length out <= K * length out0.
Proof. exact options_shorten. Qed.
Print Assumptions C58_options_shorten.
Theorem C58_no_entities : forall env o, decode_entity o = false -> encode_content o = false -> growth 1 env o.
Proof. exact (fun env o D E => conj (le_n 1) (conj (fun X => False_ind _ (Bool.diff_true_false (eq_trans (eq_sym X) D)))
                                              (fun X => False_ind _ (Bool.diff_true_false (eq_trans (eq_sym X) E))))). Qed.
Print Assumptions C58_no_entities.

(** C58: a document read without repairs is at most half as long again when rendered, a quarter
    longer if it has no doctype. *)
Theorem C58_strict : forall K env o opts s d f text out, growth K env o -> parse opts s = Parsed d -> no_repair opts ->
  open_doctypes d -> doc_content d f -> render_gen env o text d = ROk out ->
  2 * length out <= 3 * K * length s /\
  ((forall n l, ~ In (KDoctype n l) (flat_map tokens f)) -> 4 * length out <= 5 * K * length s).
Proof. exact strict_size. Qed.
Print Assumptions C58_strict.
(** Both factors are needed. *)
Theorem C58_doctype_reached : forall opts env n, auto_fix_unclosed_tag opts = false ->
  let s := str "<!doctype " ++ times n (str """""") ++ str ">" in
  exists d out, parse opts s = Parsed d /\ render env full d = ROk out /\ length s = 11 + 2 * n /\ length out = 10 + 3 * n.
Proof. exact sharp_doctype. Qed.
Print Assumptions C58_doctype_reached.
Theorem C58_element_reached : forall opts env n, auto_fix_unclosed_tag opts = false ->
  let s := str "<a " ++ times n (str "b=""""") ++ str "></a>" in
  exists d out, parse opts s = Parsed d /\ render env full d = ROk out /\ length s = 8 + 4 * n /\ length out = 7 + 5 * n.
Proof. exact sharp_element. Qed.
Print Assumptions C58_element_reached.

(** C58: with any parse options, the rendering of the document and of each of its nodes is at most
    linear in the length of the text. *)
Theorem C58_linear_size : forall K env o opts s d t text out, growth K env o -> parse opts s = Parsed d -> tree_in d t ->
  build env o t text = ROk out -> length out <= K * (22 * length s + 12).
Proof. exact general_size. Qed.
Print Assumptions C58_linear_size.

(** C58: so is the work of rendering; on every tree it is linear in the nodes visited and the
    length of the full rendering. *)
Theorem C58_linear_work : forall K env o opts s d t text, growth K env o -> parse opts s = Parsed d -> tree_in d t ->
  w_build env o t text <= K * (88 * length s + 48) + 18 * (length s + 1).
Proof. exact general_work. Qed.
Print Assumptions C58_linear_work.
Theorem C58_work : forall K env o t text out0, growth K env o -> build env full t false = ROk out0 ->
  w_build env o t text <= 4 * K * length out0 + 18 * count t.
Proof. exact tree_work. Qed.
Print Assumptions C58_work.

Definition sizes_of (p : parse_options) (o : render_options) (s : string) : option (nat * nat * nat * nat) :=
  match parse p (str s) with
  | Parsed d =>
      match doc_tree d with
      | Some t => match build test_env o t false, build test_env full t false with
                  | ROk out, ROk out0 => Some (length (str s), length out, length out0, w_build test_env o t false)
                  | _, _ => None
                  end
      | None => None
      end
  | _ => None
  end.
Definition minify_all : render_options := mkRO true true true true true false false false false.
Example C58_example :
  sizes_of default_po full "<!doctype ""a""'b'><p a=""1""b='2'>x   y<br/></p >" = Some (46, 49, 49, 111) /\
  sizes_of default_po minify_all "<!doctype ""a""'b'><p a=""1""b='2'>x   y<br/></p >" = Some (46, 38, 49, 84) /\
  sizes_of (mkPO false false false true true true) full "<p>x</b> 1<2 <i a=b " = Some (20, 31, 31, 48).
Proof. vm_compute. repeat split; reflexivity. Qed.
