(** Specification for C65: what the Debug output shows. *)
From Coq Require Import String.
From Coq Require Export Permutation.
From Verif Require Export Debug SpecTree.
Local Open Scope string_scope.
Local Open Scope list_scope.

(** Values whose names are identifiers, as in Rust. *)
Definition letter (c : char) : Prop := (65 <= c <= 90)%N \/ (97 <= c <= 122)%N.
Definition ident_char (c : char) : Prop := letter c \/ (48 <= c <= 57)%N \/ c = 95%N.
Definition ident (n : list char) : Prop := exists c r, n = c :: r /\ letter c /\ Forall ident_char r.
Inductive named : dval -> Prop :=
  | nm_num : forall n, named (DNum n)
  | nm_name : forall s, ident s -> named (DName s)
  | nm_char : forall c, named (DChar c)
  | nm_str : forall s, named (DStr s)
  | nm_tuple : forall n l, ident n -> l <> [] -> Forall named l -> named (DTuple n l)
  | nm_struct : forall n l, ident n -> l <> [] -> Forall (fun x => ident (fst x)) l -> Forall (fun x => named (snd x)) l -> named (DStruct n l)
  | nm_list : forall l, Forall named l -> named (DList l)
  | nm_map : forall l, Forall (fun x => named (fst x)) l -> Forall (fun x => named (snd x)) l -> named (DMap l).

(** Trees that differ at most in the order of the attribute maps. *)
Inductive both {A : Type} (R : A -> A -> Prop) : option A -> option A -> Prop :=
  | both_none : both R None None
  | both_some : forall x y, R x y -> both R (Some x) (Some y).
Definition meta_alike (m m' : tag_meta) : Prop :=
  m_code_in m' = m_code_in m /\ m_is_void m' = m_is_void m /\ m_self_closed m' = m_self_closed m /\ m_auto_fix m' = m_auto_fix m /\
  m_name m' = m_name m /\ m_attrs m' = m_attrs m /\ Permutation (m_lc_name_map m') (m_lc_name_map m).
Inductive alike : tree -> tree -> Prop :=
  | al : forall i ty b e c et et' ks ks' m m', both alike et et' -> both (Forall2 alike) ks ks' -> both meta_alike m m' ->
      alike (TNode i ty b e et c ks m) (TNode i ty b e et' c ks' m').
(** A HashMap is gone through in some order. *)
Definition shuffles (order : list (list char * nat) -> list (list char * nat)) : Prop := forall l, Permutation (order l) l.

(** ** The text, spelled out *)
Fixpoint between (sep : list char) (l : list (list char)) : list char :=
  match l with [] => [] | x :: r => x ++ match r with [] => [] | _ => sep ++ between sep r end end.
(** The lines of a text, and the text with four spaces before each. *)
Fixpoint text_lines (s : list char) : list (list char) :=
  match s with
  | [] => [[]]
  | c :: r => if N.eqb c 10 then [] :: text_lines r else match text_lines r with l :: ls => (c :: l) :: ls | [] => [[c]] end
  end.
Definition indented (s : list char) : list char := between [10%N] (map (fun l => str "    " ++ l) (text_lines s)).
(** Compact: separated by ", ".  Pretty: each on its own indented lines, with "," behind. *)
Definition items (pretty : bool) (l : list (list char)) : list char :=
  if pretty then flat_map (fun x => indented (x ++ str ",") ++ [10%N]) l else between (str ", ") l.
Definition enclosed (pretty : bool) (open close : string) (l : list (list char)) : list char :=
  str open ++ (match l with [] => [] | _ => if pretty then [10%N] else [] end) ++ items pretty l ++ str close.
Definition listed (pretty : bool) (l : list (list char)) : list char := enclosed pretty "[" "]" l.
Definition said (pretty : bool) (o : option (list char)) : list char := match o with None => str "None" | Some x => enclosed pretty "Some(" ")" [x] end.
Definition record (pretty : bool) (name : string) (l : list (string * list char)) : list char :=
  str name ++ str " {" ++ (if pretty then [10%N] else str " ") ++ items pretty (map (fun x => str (fst x) ++ str ": " ++ snd x) l)
  ++ (if pretty then [] else str " ") ++ str "}".
Definition truth (b : bool) : list char := if b then str "true" else str "false".
Definition celled (pretty : bool) (x : list char) : list char := record pretty "RefCell" [("value", x)].
Definition char_text (plain : char -> bool) (c : char) : list char := str "'" ++ escaped plain 39%N c ++ str "'".
Definition chars_text (plain : char -> bool) (pretty : bool) (l : list char) : list char := listed pretty (map (char_text plain) l).
Definition string_text (plain : char -> bool) (s : list char) : list char := str """" ++ flat_map (escaped plain 34%N) s ++ str """".
Definition type_text (t : node_type) : list char :=
  match t with
  | NAbstractRoot => str "AbstractRoot" | NHTMLDOCTYPE => str "HTMLDOCTYPE" | NComment => str "Comment"
  | NText => str "Text" | NSpacesBetweenTag => str "SpacesBetweenTag" | NTag => str "Tag"
  | NTagEnd => str "TagEnd" | NXMLCDATA => str "XMLCDATA"
  end.
Definition tag_code_text (c : tag_code_in) : list char :=
  match c with
  | TWait => str "Wait" | TKey => str "Key" | TKeyEnd => str "KeyEnd" | TWaitValue => str "WaitValue"
  | TValue => str "Value" | TValueEnd => str "ValueEnd"
  end.
Definition data_text (plain : char -> bool) (pretty : bool) (c : list char) : list char := record pretty "AttrData" [("content", chars_text plain pretty c)].
Definition attr_text (plain : char -> bool) (pretty : bool) (a : attr) : list char :=
  record pretty "Attr" [("key", said pretty (option_map (data_text plain pretty) (a_key a))); ("value", said pretty (option_map (data_text plain pretty) (a_value a)));
    ("quote", said pretty (option_map (char_text plain) (a_quote a))); ("need_quote", truth (a_need_quote a))].
Definition meta_text (plain : char -> bool) (pretty : bool) (m : tag_meta) (map_order : list (list char * nat)) : list char :=
  record pretty "TagMeta" [("code_in", tag_code_text (m_code_in m)); ("is_void", truth (m_is_void m)); ("self_closed", truth (m_self_closed m));
    ("auto_fix", truth (m_auto_fix m)); ("name", chars_text plain pretty (m_name m)); ("attrs", listed pretty (map (attr_text plain pretty) (m_attrs m)));
    ("lc_name_map", enclosed pretty "{" "}" (map (fun x => string_text plain (fst x) ++ str ": " ++ digits (snd x)) map_order))].
(** The fields of a node, given the texts of the children and of the end tag. *)
Definition fields_text (plain : char -> bool) (pretty : bool) (order : list (list char * nat) -> list (list char * nat)) (n : node)
    (ks : option (list (list char))) (et : option (list char)) (documented : bool) : list char :=
  record pretty "Node" [("index", digits (n_index n)); ("node_type", type_text (n_type n)); ("begin_at", digits (n_begin_at n)); ("end_at", digits (n_end_at n));
    ("content", said pretty (option_map (chars_text plain pretty) (n_content n)));
    ("childs", said pretty (option_map (fun l => listed pretty (map (celled pretty) l)) ks));
    ("meta", said pretty (option_map (fun m => celled pretty (meta_text plain pretty m (order (m_lc_name_map m)))) (n_meta n)));
    ("end_tag", said pretty (option_map (celled pretty) et));
    ("parent", truth (is_some (n_parent n))); ("root", truth (is_some (n_root n))); ("document", truth documented)].

(** ** Escapes *)
(** The value of hexadecimal digits. *)
Definition hex_place (c : char) : option N :=
  if (N.leb 48 c && N.leb c 57)%bool then Some (c - 48)%N else if (N.leb 97 c && N.leb c 102)%bool then Some (c - 97 + 10)%N else None.
Fixpoint hex_number (acc : N) (l : list char) : option N :=
  match l with [] => Some acc | c :: r => match hex_place c with Some v => hex_number (16 * acc + v) r | None => None end end.
(** How a character is shown between quotes [q]. *)
Inductive shown_as (plain : char -> bool) (q : char) : char -> list char -> Prop :=
  | sa_null : shown_as plain q 0%N (str "\0")
  | sa_tab : shown_as plain q 9%N (str "\t")
  | sa_newline : shown_as plain q 10%N (str "\n")
  | sa_return : shown_as plain q 13%N (str "\r")
  | sa_escape : forall c, c = 92%N \/ c = q -> shown_as plain q c [92%N; c]
  | sa_plain : forall c, ~ In c [0; 9; 10; 13; 92; q]%N -> plain c = true -> shown_as plain q c [c]
  | sa_hex : forall c l, ~ In c [0; 9; 10; 13; 92; q]%N -> plain c = false -> l <> [] -> hex_number 0 l = Some c ->
      (forall r, l = 48%N :: r -> r = []) -> shown_as plain q c (str "\u{" ++ l ++ str "}").
