(** Specification for C62: what building a single node gives, in its three forms. *)
From Coq Require Import String.
From Verif Require Export Api SpecText SpecRender SpecParse SpecMisc SpecTree SpecDoc SpecFix SpecShown.
Local Open Scope string_scope.
Local Open Scope list_scope.

(** Minified, white space is kept from a start tag "pre" on to the next end tag "pre"; so an inner pre ends
    the outer one, and a pre that is a leaf goes on to the end of the surrounding pre or of the node built. *)
Fixpoint pre_after (p : bool) (x : item) : bool :=
  match x with
  | XLeaf n _ _ => (p || pre_name n)%bool
  | XRaw n _ _ _ => (negb (pre_name n) && p)%bool
  | XElem n _ ks _ => (negb (pre_name n) && fold_left pre_after ks p)%bool
  | _ => p
  end.
Definition each {A : Type} (g : bool -> item -> list A) : bool -> list item -> list A :=
  fix go p l := match l with [] => [] | x :: r => g p x ++ go (pre_after p x) r end.
(** The shown tokens, for any nesting of pre. *)
Fixpoint shown_in (env : entity_env) (o : render_options) (p : bool) (x : item) : list token :=
  match x with
  | XElem n l ks e =>
      KOpen (shown_name o n) (shown_attrs o l) :: each (shown_in env o) (p || pre_name n) ks ++ [KClose (shown_end o e)]
  | x => shown env o p x
  end.
(** Outer html: the shown tokens, printed. *)
Definition outer_of (env : entity_env) (o : render_options) (x : item) : list char := print (shown_in env o false x).
(** Inner html: an element without its tags; nothing else has an inner html. *)
Definition inner_of (env : entity_env) (o : render_options) (x : item) : option (list char) :=
  match x with
  | XElem n _ ks _ => Some (print (each (shown_in env o) (pre_name n) ks))
  | XRaw n _ c _ => Some (shown_raw env o n c)
  | XLeaf _ _ _ => Some []
  | _ => None
  end.
(** Text: the texts and raw texts.  CDATA sections and doctypes keep their markup; comments are left out. *)
Fixpoint words_of (env : entity_env) (o : render_options) (p : bool) (x : item) : list char :=
  match x with
  | XText c b => print (shown_text env o p c b)
  | XComment _ | XLeaf _ _ _ => []
  | XCData c => print [KCData c]
  | XDoctype n l => print [KDoctype n (shown_attrs o l)]
  | XRaw n _ c _ => shown_raw env o n c
  | XElem n _ ks _ => each (words_of env o) (p || pre_name n) ks
  end.
(** Asked of a comment itself, its text is its content; texts and doctypes have none. *)
Definition text_of_item (env : entity_env) (o : render_options) (x : item) : option (list char) :=
  match x with
  | XText _ _ | XDoctype _ _ => None
  | XComment c => Some (if remove_comment o then [] else c)
  | _ => Some (words_of env o false x)
  end.
(** The three forms; [None] is the panic "can't get inner html / text of this node". *)
Definition built (env : entity_env) (o : render_options) (x : item) (text : bool) : option (list char) :=
  match text, inner_html o with
  | false, false => Some (outer_of env o x)
  | false, true => inner_of env o x
  | true, false => text_of_item env o x
  | true, true => None
  end.
(** Of a whole document inner html and text are those of its only element. *)
Definition is_element (x : item) : bool :=
  match x with XLeaf _ _ _ | XRaw _ _ _ _ | XElem _ _ _ _ => true | _ => false end.
Definition built_doc (env : entity_env) (o : render_options) (f : list item) (text : bool) : option (list char) :=
  match text, inner_html o with
  | false, false => Some (print (each (shown_in env o) false f))
  | true, true => None
  | _, _ => match f with
            | [] => Some []
            | _ => match filter is_element f with [x] => built env o x text | _ => None end
            end
  end.
Definition built_as (r : option (list char)) : res (list char) :=
  match r with Some out => ROk out | None => RPanic PInnerHtml end.
(** What is asked of a document accepted with repairs: no text was made of a stray '<', the input does not
    end inside a tag, and no doctype is self-closed. *)
Definition orderly (opts : parse_options) (s : list char) (d : doc) : Prop :=
  auto_fix_unescaped_lt opts = false /\ (auto_fix_unclosed_tag opts = true -> ~ cut_short opts s d) /\ open_doctypes d.
(** The text of a token. *)
Definition token_text (k : token) : list char :=
  match k with
  | KText c | KRaw _ _ c _ => c
  | KCData _ | KDoctype _ _ => print [k]
  | _ => []
  end.
