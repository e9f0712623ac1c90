(** Property theorems about the places of nodes in the source (C55). *)
From Coq Require Import String.
From Verif Require Import Api SpecText SpecRender SpecParse SpecMisc SpecTree SpecDoc SpecMap MapProofs.
Local Open Scope string_scope.
Local Open Scope list_scope.

(** ** C55 *)
(** The source is the tokens of the document one after the other, and the nodes in document order are those
    of these tokens at these places; the root reaches from the beginning to the end. *)
Theorem C55_places : forall opts s d, parse opts s = Parsed d -> no_repair opts -> open_doctypes d ->
  exists l f t, flat_map snd l = s /\ Forall (fun p => written opts (fst p) (snd p)) l /\ source opts (map fst l) s /\ nests opts (map fst l) /\
    map fst l = flat_map tokens f /\ marked f /\ doc_content d f /\ doc_tree d = Some t /\
    map row_of (nodes t) = mkRow NAbstractRoot None 0 (length s) :: places 0 l.
Proof. exact source_map. Qed.
Print Assumptions C55_places.
(** What the source holds from the begin position of a node up to its end position. *)
Theorem C55_slices : forall opts s d t x, parse opts s = Parsed d -> no_repair opts -> open_doctypes d -> doc_tree d = Some t ->
  In x (nodes t) -> lies s x.
Proof. exact node_slices. Qed.
Print Assumptions C55_slices.

Definition strict_po : parse_options := mkPO false false false false false false.
Example C55_example : exists d t, parse strict_po (str "<p a=1>x<br> <!--y--></p ><title>z</title>w") = Parsed d /\ doc_tree d = Some t /\
  map row_of (nodes t) =
    [mkRow NAbstractRoot None 0 43; mkRow NTag None 0 0; mkRow NText (Some (str "x")) 7 8; mkRow NTag None 8 8;
     mkRow NText (Some (str " ")) 12 13; mkRow NComment (Some (str "y")) 13 21; mkRow NTagEnd (Some (str "p ")) 21 26;
     mkRow NTag (Some (str "z")) 26 26; mkRow NTagEnd (Some (str "title")) 42 42; mkRow NText (Some (str "w")) 42 43].
Proof. eexists _, _. split; [vm_compute; reflexivity|]. split; vm_compute; reflexivity. Qed.

(** Refuted: [end_at] of a tag or doctype is never set, and the end tag of a raw text element begins after
    itself. *)
Theorem C55_tag_end_refuted : ~ (forall s d t x, parse strict_po s = Parsed d -> doc_tree d = Some t -> In x (nodes t) ->
  t_type x = NTag -> exists a, slice s (t_begin_at x) (t_end_at x) = str "<" ++ a ++ str ">").
Proof.
  intro H. set (s := str "<p></p>") in *.
  set (d := match parse strict_po s with Parsed d => d | _ => doc_new strict_po end). set (t := match doc_tree d with Some t => t | None => TNode 0 NText 0 0 None None None None end).
  set (x := nth 1 (nodes t) t).
  assert (P : parse strict_po s = Parsed d) by (vm_compute; reflexivity). assert (T : doc_tree d = Some t) by (vm_compute; reflexivity).
  assert (I : In x (nodes t)) by (apply nth_In; vm_compute; lia). assert (Ty : t_type x = NTag) by (vm_compute; reflexivity).
  destruct (H s d t x P T I Ty) as [a E]. replace (slice s (t_begin_at x) (t_end_at x)) with (@nil char) in E by (vm_compute; reflexivity). discriminate E.
Qed.
Print Assumptions C55_tag_end_refuted.
Theorem C55_raw_end_refuted : ~ (forall s d t x e, parse strict_po s = Parsed d -> doc_tree d = Some t -> In x (nodes t) ->
  t_type x = NTagEnd -> t_content x = Some e -> slice s (t_begin_at x) (t_end_at x) = str "</" ++ e ++ str ">").
Proof.
  intro H. set (s := str "<title></title>") in *.
  set (d := match parse strict_po s with Parsed d => d | _ => doc_new strict_po end). set (t := match doc_tree d with Some t => t | None => TNode 0 NText 0 0 None None None None end).
  set (x := nth 2 (nodes t) t).
  assert (P : parse strict_po s = Parsed d) by (vm_compute; reflexivity). assert (T : doc_tree d = Some t) by (vm_compute; reflexivity).
  assert (I : In x (nodes t)) by (apply nth_In; vm_compute; lia). assert (Ty : t_type x = NTagEnd) by (vm_compute; reflexivity).
  assert (C : t_content x = Some (str "title")) by (vm_compute; reflexivity).
  specialize (H s d t x _ P T I Ty C). replace (slice s (t_begin_at x) (t_end_at x)) with (@nil char) in H by (vm_compute; reflexivity). discriminate H.
Qed.
Print Assumptions C55_raw_end_refuted.
