(** The public entry points: Doc::parse, Doc::parse_file, DocHolder. *)
From Verif Require Export Render Clone Position.

(** What a caller of [parse] observes: a document, a ParseError (kind and region), or a panic. *)
Inductive outcome :=
  | Parsed (d : doc)
  | Failed (k : error_kind) (r : code_region)
  | Panicked (p : panic_kind).

(** src/parser.rs 103-106: create_parse_error, applied to the context the call site passes. *)
Definition outcome_of (context : list char) (r : res doc) : outcome :=
  match r with
  | ROk d => Parsed d
  | RErr k i => Failed k (from_context_index context i)
  | RPanic p => Panicked p
  end.

(** src/parser.rs 1771-1779: Doc::parse ([into_root] only sets the document link). *)
Definition parse_res (opts : parse_options) (content : list char) : res doc :=
  do st <- run (doc_new opts) content; eof st.
Definition parse (opts : parse_options) (content : list char) : outcome :=
  outcome_of content (parse_res opts content).

(** [BufRead::lines] (Rust std): split at line feeds, the last line may lack one, and a carriage
    return directly before the line feed is removed. *)
Fixpoint split_lines (s : list char) (cur : list char) : list (list char) :=
  match s with
  | [] => match cur with [] => [] | _ => [cur] end
  | c :: s' =>
      if N.eqb c LF_CHAR then
        (match rev cur with
         | r :: rcur => if N.eqb r CR_CHAR then rev rcur else cur
         | [] => cur
         end) :: split_lines s' []
      else split_lines s' (cur ++ [c])
  end.
Definition file_lines (s : list char) : list (list char) := split_lines s [].

(** src/parser.rs 1797-1805: the loop over lines; [content] is the context accumulated so far
    (without line feeds). Opening the file and UTF-8 decoding are in File.v. *)
Fixpoint run_file (st : doc) (content : list char) (lines : list (list char)) : outcome :=
  match lines with
  | [] => outcome_of content (eof st)
  | line :: rest =>
      let content := content ++ line in
      match run st line with
      | ROk st1 =>
          match next st1 LF_CHAR with
          | ROk st2 => run_file st2 content rest
          | RErr k i => Failed k (from_context_index content i)
          | RPanic p => Panicked p
          end
      | RErr k i => Failed k (from_context_index content i)
      | RPanic p => Panicked p
      end
  end.
(** src/parser.rs 1782-1807: Doc::parse_file on a file with this text. *)
Definition parse_file (opts : parse_options) (text : list char) : outcome :=
  run_file (doc_new opts) [] (file_lines text).

(** The document's tree. *)
Definition doc_tree (d : doc) : option tree :=
  tree_of (length (d_heap d)) (d_heap d) (d_root d).

(** src/parser.rs 2246-2253: render and render_text. *)
Definition render_gen (env : entity_env) (o : render_options) (text : bool) (d : doc) : res (list char) :=
  match doc_tree d with
  | Some t => build env o t text
  | None => RPanic PFuel
  end.
Definition render (env : entity_env) (o : render_options) (d : doc) : res (list char) :=
  render_gen env o false d.
Definition render_text (env : entity_env) (o : render_options) (d : doc) : res (list char) :=
  render_gen env o true d.

(** src/parser.rs 2236-2238, 2266-2268: get_element_by_id. *)
Definition get_element_by_id (d : doc) (id : list char) : option nid := map_get (d_id_tags d) id.
