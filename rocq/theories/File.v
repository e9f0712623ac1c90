(** Doc::parse_file from the path and the bytes of the file (src/parser.rs 1782-1807), with the parts of
    Rust's standard library it uses. *)
From Verif Require Export Api.

Definition byte := N.

Definition between_b (a b x : N) : bool := N.leb a x && N.leb x b.
Definition cont_byte (b : byte) : bool := between_b 128 191 b.

(** [str::from_utf8] (Rust core, run_utf8_validation): the width by the first byte, the second byte
    checked per first byte, the further ones as continuation bytes; and the characters so encoded.
    [None] for bytes that are not UTF-8. *)
Definition second2 (b1 : byte) : bool := between_b 194 223 b1.
Definition second3 (b1 b2 : byte) : bool :=
  (N.eqb b1 224 && between_b 160 191 b2) || (between_b 225 236 b1 && cont_byte b2)
  || (N.eqb b1 237 && between_b 128 159 b2) || (between_b 238 239 b1 && cont_byte b2).
Definition second4 (b1 b2 : byte) : bool :=
  (N.eqb b1 240 && between_b 144 191 b2) || (between_b 241 243 b1 && cont_byte b2)
  || (N.eqb b1 244 && between_b 128 143 b2).
Definition ocons {A} (a : A) (o : option (list A)) : option (list A) := option_map (cons a) o.
Fixpoint from_utf8 (bs : list byte) : option (list char) :=
  match bs with
  | [] => Some []
  | b1 :: r1 =>
      if N.ltb b1 128 then ocons b1 (from_utf8 r1)
      else
        match r1 with
        | [] => None
        | b2 :: r2 =>
            if second2 b1 then
              if cont_byte b2 then ocons ((b1 - 192) * 64 + (b2 - 128))%N (from_utf8 r2) else None
            else
              match r2 with
              | [] => None
              | b3 :: r3 =>
                  if second3 b1 b2 then
                    if cont_byte b3
                    then ocons ((b1 - 224) * 4096 + (b2 - 128) * 64 + (b3 - 128))%N (from_utf8 r3)
                    else None
                  else
                    match r3 with
                    | [] => None
                    | b4 :: r4 =>
                        if second4 b1 b2 && cont_byte b3 && cont_byte b4
                        then ocons ((b1 - 240) * 262144 + (b2 - 128) * 4096 + (b3 - 128) * 64 + (b4 - 128))%N
                                   (from_utf8 r4)
                        else None
                    end
              end
        end
  end.

(** [BufRead::read_line] and [Lines::next] (Rust std): the bytes up to and including a line feed, or up to
    the end, checked as UTF-8; then a line feed and a carriage return before it are removed.  [None] is an
    error: bytes that are not UTF-8, or a failing read.  A reader is the bytes it delivers and whether it
    then fails. *)
Definition chop_line (buf : list char) : list char :=
  match rev buf with
  | l :: r => if N.eqb l LF_CHAR
              then match r with
                   | c :: r' => if N.eqb c CR_CHAR then rev r' else rev r
                   | [] => []
                   end
              else buf
  | [] => buf
  end.
Record reader := mkReader { rd_bytes : list byte; rd_fails : bool }.
Fixpoint read_lines (bs : list byte) (fails : bool) (cur : list byte) : list (option (list char)) :=
  match bs with
  | [] => if fails then [None] else match cur with [] => [] | _ => [option_map chop_line (from_utf8 cur)] end
  | b :: bs' =>
      if N.eqb b 10 then option_map chop_line (from_utf8 (cur ++ [b])) :: read_lines bs' fails []
      else read_lines bs' fails (cur ++ [b])
  end.
Definition lines (r : reader) : list (option (list char)) := read_lines (rd_bytes r) (rd_fails r) [].

(** What a caller of parse_file observes. *)
Inductive file_outcome :=
  | FDone (o : outcome)       (* a document, a ParseError, or a panic of the parser *)
  | FIoError                  (* Err of an io::Error *)
  | FPathPanic                (* panic: canonicalize().unwrap() *)
  | FLinePanic.               (* panic: line.unwrap() *)

(** src/parser.rs 1797-1805: the loop over lines. *)
Fixpoint run_lines (st : doc) (content : list char) (ls : list (option (list char))) : file_outcome :=
  match ls with
  | [] => FDone (outcome_of content (eof st))
  | None :: _ => FLinePanic
  | Some line :: rest =>
      let content := content ++ line in
      match run st line with
      | ROk st1 =>
          match next st1 LF_CHAR with
          | ROk st2 => run_lines st2 content rest
          | RErr k i => FDone (Failed k (from_context_index content i))
          | RPanic p => FDone (Panicked p)
          end
      | RErr k i => FDone (Failed k (from_context_index content i))
      | RPanic p => FDone (Panicked p)
      end
  end.

(** The operating system as far as parse_file asks it; [None] is an error. *)
Definition path := list char.
Record os := mkOs {
  os_is_absolute : path -> bool;
  os_current_dir : option path;
  os_join : path -> path -> path;
  os_canonicalize : path -> option path;
  os_open : path -> option reader }.

(** src/parser.rs 1782-1807. *)
Definition open_and_run (sys : os) (opts : parse_options) (p : path) : file_outcome :=
  match os_open sys p with
  | None => FIoError
  | Some r => run_lines (doc_new opts) [] (lines r)
  end.
Definition parse_file_at (sys : os) (opts : parse_options) (p : path) : file_outcome :=
  if os_is_absolute sys p then open_and_run sys opts p
  else match os_current_dir sys with
       | None => FIoError
       | Some dir => match os_canonicalize sys (os_join sys dir p) with
                     | None => FPathPanic
                     | Some p' => open_and_run sys opts p'
                     end
       end.
