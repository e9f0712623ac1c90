(** Independent specifications for is_document, parse_file, name tables and character classes. *)
From Coq Require Import String.
From Verif Require Import Api SpecText SpecRender.
Local Open Scope string_scope.
Local Open Scope list_scope.

Definition is_html_tag (t : tree) : Prop :=
  t_type t = NTag /\ exists m, t_meta t = Some m /\ same_name (m_name m) (str "html") = true.
Definition ignorable (t : tree) : Prop :=
  t_type t = NComment \/ t_type t = NSpacesBetweenTag \/ t_type t = NHTMLDOCTYPE.

(** Text of a file as parse_file sees it: CR LF becomes LF ... *)
Fixpoint crlf_to_lf (s : list char) : list char :=
  match s with
  | [] => []
  | c :: r =>
      match r with
      | d :: r' => if (N.eqb c 13 && N.eqb d 10)%bool then crlf_to_lf r else c :: crlf_to_lf r
      | [] => [c]
      end
  end.
(** ... and the last line is terminated. *)
Definition ends_with_lf (s : list char) : bool :=
  match rev s with c :: _ => N.eqb c 10 | [] => true end.
Definition file_text (s : list char) : list char :=
  crlf_to_lf s ++ (if ends_with_lf s then [] else [10%N]).

(** Same result of two parses, up to the line and column of an error. *)
Definition same_outcome (a b : outcome) : Prop :=
  match a, b with
  | Parsed d, Parsed d' => d = d'
  | Failed k r, Failed k' r' => k = k' /\ r_index r = r_index r'
  | Panicked p, Panicked p' => p = p'
  | _, _ => False
  end.

Definition void_names : list (list char) :=
  map str ["area"; "base"; "br"; "col"; "embed"; "hr"; "img"; "input"; "link"; "meta";
           "param"; "source"; "track"; "wbr"].
Definition raw_text_names : list (list char) := map str ["script"; "style"; "title"; "textarea"].
Definition one_of (names : list (list char)) (name : list char) : bool := existsb (same_name name) names.

(** The 66 Unicode noncharacters. *)
Definition unicode_noncharacter (c : N) : bool :=
  ((N.leb 64976 c && N.leb c 65007) ||
   (N.leb c 1114111 && N.leb 65534 (c mod 65536)))%bool.
