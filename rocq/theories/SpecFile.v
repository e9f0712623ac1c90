(** Specification for C61: UTF-8 by encoding, and the file parse_file reads. *)
From Verif Require Export File SpecMisc.

(** Unicode scalar values (Rust's char), and their UTF-8 encoding (Unicode table 3-6). *)
Definition scalar (c : char) : Prop := (c < 55296 \/ 57344 <= c < 1114112)%N.
Definition utf8_char (c : char) : list byte :=
  (if c <? 128 then [c]
   else if c <? 2048 then [192 + c / 64; 128 + c mod 64]
   else if c <? 65536 then [224 + c / 4096; 128 + c / 64 mod 64; 128 + c mod 64]
   else [240 + c / 262144; 128 + c / 4096 mod 64; 128 + c / 64 mod 64; 128 + c mod 64])%N.
Definition utf8 (s : list char) : list byte := flat_map utf8_char s.
(** The bytes are the encoding of a text. *)
Definition encodes (bs : list byte) (s : list char) : Prop := Forall scalar s /\ utf8 s = bs.
Definition is_utf8 (bs : list byte) : Prop := exists s, encodes bs s.

(** Which file a path leads to, if any. *)
Inductive leads_to (sys : os) (p : path) : path -> Prop :=
  | leads_absolute : os_is_absolute sys p = true -> leads_to sys p p
  | leads_relative : forall dir p',
      os_is_absolute sys p = false -> os_current_dir sys = Some dir ->
      os_canonicalize sys (os_join sys dir p) = Some p' -> leads_to sys p p'.
Definition reads (sys : os) (p : path) (r : reader) : Prop :=
  exists p', leads_to sys p p' /\ os_open sys p' = Some r.

(** The readable whole lines of a file: the text of all lines before the first that is not UTF-8, or that
    the reader fails in. *)
Definition whole_lines (s : list char) : Prop := s = [] \/ exists s', s = s' ++ [10%N].
Definition bad_line (rest : list byte) (fails : bool) : Prop :=
  exists l rest', (rest = l ++ 10%N :: rest' \/ (rest = l /\ rest' = [])) /\ ~ In 10%N l /\
    (~ is_utf8 l \/ (fails = true /\ rest = l)).
Definition good_part (r : reader) (s : list char) : Prop :=
  exists good rest, rd_bytes r = good ++ rest /\ encodes good s /\ whole_lines s /\ bad_line rest (rd_fails r).
