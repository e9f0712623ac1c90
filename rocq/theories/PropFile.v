(** Property theorems about reading files (C61). *)
From Coq Require Import String.
From Verif Require Import SpecFile FileProofs Tests.
Local Open Scope string_scope.
Local Open Scope list_scope.

(** ** C61 *)
(** The bytes are accepted as UTF-8 exactly when they encode a text, and give that text. *)
Theorem C61_utf8 : forall bs s, from_utf8 bs = Some s <-> encodes bs s.
Proof. exact utf8_decoded. Qed.
Print Assumptions C61_utf8.
Example C61_utf8_example :
  from_utf8 [60; 195; 169; 226; 130; 172; 240; 159; 153; 130]%N = Some [60; 233; 8364; 128578]%N /\
  utf8 [60; 233; 8364; 128578]%N = [60; 195; 169; 226; 130; 172; 240; 159; 153; 130]%N /\
  from_utf8 [193; 129]%N = None /\ from_utf8 [237; 160; 128]%N = None /\ from_utf8 [244; 144; 128; 128]%N = None /\
  from_utf8 [226; 130]%N = None.
Proof. vm_compute. repeat split. Qed.

(** A file that can be read and is UTF-8 is parsed like its text. *)
Theorem C61_readable : forall sys opts p r s,
  reads sys p r -> rd_fails r = false -> encodes (rd_bytes r) s ->
  exists o, parse_file_at sys opts p = FDone o /\ same_outcome o (parse opts (file_text s)).
Proof. exact readable_file. Qed.
Print Assumptions C61_readable.

(** Otherwise the lines before the first unreadable one are parsed: their error is returned, and without
    one parse_file panics.  It never returns a document. *)
Theorem C61_unreadable : forall sys opts p r,
  reads sys p r -> rd_fails r = true \/ ~ is_utf8 (rd_bytes r) ->
  exists s, good_part r s /\
    match run (doc_new opts) (file_text s) with
    | ROk _ => parse_file_at sys opts p = FLinePanic
    | RErr k i => exists rg, parse_file_at sys opts p = FDone (Failed k rg) /\ r_index rg = i
    | RPanic q => parse_file_at sys opts p = FDone (Panicked q)
    end.
Proof. exact unreadable_file. Qed.
Print Assumptions C61_unreadable.
(** Which lines these are depends only on the file. *)
Theorem C61_good_part_unique : forall r s s', good_part r s -> good_part r s' -> s = s'.
Proof. exact good_unique. Qed.
Print Assumptions C61_good_part_unique.

(** Paths: exactly when parse_file panics or returns an I/O error; else the file is read. *)
Theorem C61_path : forall sys opts p,
  (parse_file_at sys opts p = FPathPanic <->
     os_is_absolute sys p = false /\
     exists dir, os_current_dir sys = Some dir /\ os_canonicalize sys (os_join sys dir p) = None) /\
  (parse_file_at sys opts p = FIoError <->
     (os_is_absolute sys p = false /\ os_current_dir sys = None) \/
     exists p', leads_to sys p p' /\ os_open sys p' = None).
Proof. exact path_outcomes. Qed.
Print Assumptions C61_path.
Theorem C61_path_cases : forall sys opts p,
  (exists r, reads sys p r) \/ parse_file_at sys opts p = FPathPanic \/ parse_file_at sys opts p = FIoError.
Proof. exact path_cases. Qed.
Print Assumptions C61_path_cases.

(** A disk with the files /d/good (UTF-8), /d/bad (line 2 is not) and /d/early (line 1 is an error). *)
Definition disk : os :=
  mkOs (fun p => match p with c :: _ => N.eqb c 47 | [] => false end) (Some (str "/d"))
       (fun d p => d ++ str "/" ++ p)
       (fun p => if existsb (chars_eqb p) [str "/d/good"; str "/d/bad"; str "/d/early"] then Some p else None)
       (fun p => if chars_eqb p (str "/d/good") then Some (mkReader (str "<p>" ++ [195; 169; 13; 10]%N ++ str "</p>") false)
                 else if chars_eqb p (str "/d/bad") then Some (mkReader (str "<p>" ++ [10; 195; 10]%N ++ str "</p>") false)
                 else if chars_eqb p (str "/d/early") then Some (mkReader (str "</p>" ++ [10; 195; 10]%N) false)
                 else None).
Example C61_example :
  (exists d, parse_file_at disk default_po (str "good") = FDone (Parsed d) /\
     parse default_po (str "<p>" ++ [233; 10]%N ++ str "</p>" ++ [10%N]) = Parsed d) /\
  parse_file_at disk default_po (str "bad") = FLinePanic /\
  parse_file_at disk default_po (str "/d/bad") = FLinePanic /\
  (exists k r, parse_file_at disk default_po (str "early") = FDone (Failed k r)) /\
  parse_file_at disk default_po (str "missing") = FPathPanic /\
  parse_file_at disk default_po (str "/d/missing") = FIoError.
Proof.
  split; [eexists; vm_compute; split; reflexivity|]. split; [vm_compute; reflexivity|].
  split; [vm_compute; reflexivity|]. split; [do 2 eexists; vm_compute; reflexivity|].
  split; vm_compute; reflexivity.
Qed.
