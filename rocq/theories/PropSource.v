(** Property theorems relating source texts, token sequences and documents (C03-C06, C10, C46). *)
From Coq Require Import String.
From Verif Require Import Api SpecText SpecRender SpecParse SpecMisc SpecTree SpecDoc Tests DocSound Print.
Local Open Scope string_scope.
Local Open Scope list_scope.

(** ** C03 *)
Theorem C03_accepted_is_source : forall opts s d, parse opts s = Parsed d -> no_repair opts -> open_doctypes d ->
  exists f, source opts (flat_map tokens f) s /\ nests opts (flat_map tokens f) /\ marked f /\ doc_content d f.
Proof. exact parsed_source. Qed.
Print Assumptions C03_accepted_is_source.
(** After a self-closed doctype the tree is not the nesting of the tokens: the div is never closed. *)
Theorem C03_slash_doctype_refuted : exists d, parse default_po (str "<div><!DOCTYPE x/>") = Parsed d /\
  forall f, ~ doc_content d f.
Proof.
  eexists. split; [vm_compute; reflexivity|]. intros f (t & E & _ & _ & _ & _ & H). vm_compute in E.
  injection E as E. subst t. cbn in H. inversion H as [|x y l l' Hx _]; subst.
  inversion Hx as [? ? ? T|? ? T|? ? T|? ? ? ? T|? ? ? ? ? T ? ? K|? ? ? ? ? ? T ? En|? ? ? ? ? ? T ? En]; subst;
    cbn in T; try discriminate T.
  - destruct b; discriminate T.
  - discriminate K.
  - destruct En as (te & A & _). discriminate A.
  - destruct En as (te & A & _). discriminate A.
Qed.
Print Assumptions C03_slash_doctype_refuted.
Example C03_example : exists d, parse default_po (str "<p a=1 ><br /><b>x</B > <!--c--></p>") = Parsed d /\
  doc_content d [XElem (str "p") [unquoted (str "a") (str "1")]
    [XLeaf (str "br") [] true; XElem (str "b") [] [XText (str "x") false] (str "B ");
     XText (str " ") true; XComment (str "c")] (str "p")].
Proof.
  eexists. split; [vm_compute; reflexivity|]. eexists. split; [vm_compute; reflexivity|].
  repeat (first [ reflexivity | apply Forall2_cons | apply Forall2_nil
                | econstructor; [reflexivity|..] | eexists; split; [reflexivity|] | split ]).
Qed.

(** ** C04 *)
Theorem C04_source_is_accepted : forall opts ks s, source opts ks s -> nests opts ks ->
  exists d f, parse opts s = Parsed d /\ flat_map tokens f = ks /\ marked f /\ doc_content d f.
Proof. exact source_accepted. Qed.
Print Assumptions C04_source_is_accepted.
Theorem C04_content_determined : forall f f', marked f -> marked f' -> flat_map tokens f = flat_map tokens f' -> f = f'.
Proof. exact tokens_unique. Qed.
Print Assumptions C04_content_determined.
Example C04_example : source default_po
    [KOpen (str "p") [unquoted (str "a") (str "1"); bare (str "b")]; KText (str "x > y"); KClose (str "P ")]
    (str "<p  a = 1 b >x > y</P >") /\
  nests default_po [KOpen (str "p") [unquoted (str "a") (str "1"); bare (str "b")]; KText (str "x > y"); KClose (str "P ")].
Proof.
  split; [|eexists; vm_compute; reflexivity].
  refine (src_cons _ _ (str "<p  a = 1 b >") _ (str "x > y</P >") _ _ _); [| |discriminate].
  - refine (w_open default_po (str "p") (str "  a = 1 b ") _ _ _ _ _ _); try reflexivity.
    + exists 112%N, []. repeat constructor.
    + left. reflexivity.
    + refine (ar_unquoted _ _ (str "  ") (str "a") (str " =") (str " ") (str "1") (str " b ") _ _ _ _ _ _ _ _ _).
      * repeat constructor.
      * exists 97%N, []. repeat split; try discriminate; [constructor|left; repeat split; discriminate].
      * right. exists 32%N, []. repeat split. constructor.
      * repeat constructor.
      * exists 49%N, []. repeat split; try (intros [X|X]; discriminate X); try discriminate. repeat constructor; discriminate.
      * reflexivity.
      * refine (ar_bare _ _ (str " ") (str "b") (str " ") [] false _ _ _ (ar_end _ _ (str " ") _)).
        -- repeat constructor.
        -- exists 98%N, []. repeat split; try discriminate; [constructor|left; repeat split; discriminate].
        -- split; [left; reflexivity|]. intros e r' E [Q|(c & w & _ & _ & Q)]; subst e; [discriminate E|].
           destruct w as [|x [|y w]]; cbn in E; discriminate E.
        -- repeat constructor.
  - refine (src_cons _ _ (str "x > y") _ (str "</P >") _ _ _); [| |reflexivity].
    + constructor; [discriminate|]. vm_compute. intuition discriminate.
    + refine (src_cons _ _ (str "</P >") _ [] _ (src_nil _) _); [|discriminate].
      apply (w_close _ (str "P ")). vm_compute. intuition discriminate.
Qed.

(** ** C05 *)
Theorem C05_render_parse : forall opts s d env, parse opts s = Parsed d -> no_repair opts -> open_doctypes d ->
  allow_attr_key_starts_with_equal_sign opts = false -> full_doctypes d ->
  exists out d' f, render env default_ro d = ROk out /\ parse opts out = Parsed d' /\
    doc_content d f /\ doc_content d' f /\ render env default_ro d' = ROk out.
Proof. exact reparse. Qed.
Print Assumptions C05_render_parse.
(** A doctype without attributes is rendered as one that cannot be parsed. *)
Theorem C05_empty_doctype_refuted : exists d k r, parse default_po (str "<!DOCTYPE >") = Parsed d /\
  render test_env default_ro d = ROk (str "<!DOCTYPE>") /\ parse default_po (str "<!DOCTYPE>") = Failed k r.
Proof. eexists. eexists. eexists. repeat (split; [vm_compute; reflexivity|]); vm_compute; reflexivity. Qed.
Print Assumptions C05_empty_doctype_refuted.
(** Keys starting with '=' after a bare key are read differently when rendered. *)
Theorem C05_equal_sign_refuted : exists d d', let o := mkPO false true false false false false in
  parse o (str "<a c/=d></a>") = Parsed d /\ doc_content d [XElem (str "a") [bare (str "c"); bare (str "=d")] [] (str "a")] /\
  render test_env default_ro d = ROk (str "<a c =d></a>") /\
  parse o (str "<a c =d></a>") = Parsed d' /\ doc_content d' [XElem (str "a") [unquoted (str "c") (str "d")] [] (str "a")].
Proof.
  eexists. eexists. cbv zeta. split; [vm_compute; reflexivity|]. split.
  - eexists. split; [vm_compute; reflexivity|].
    repeat (first [ reflexivity | apply Forall2_cons | apply Forall2_nil
                | econstructor; [reflexivity|..] | eexists; split; [reflexivity|] | split ]).
  - split; [vm_compute; reflexivity|]. split; [vm_compute; reflexivity|].
    eexists. split; [vm_compute; reflexivity|].
    repeat (first [ reflexivity | apply Forall2_cons | apply Forall2_nil
                | econstructor; [reflexivity|..] | eexists; split; [reflexivity|] | split ]).
Qed.
Print Assumptions C05_equal_sign_refuted.
Example C05_example : exists d d', let s := str "<!doctype  html ><p  a = 1 / ><br/><ScRipt >x<y</script >" in
  let o := mkPO false false true false false false in
  let out := str "<!doctype html><p a=1 /><br /><ScRipt>x<y</script >" in
  parse o s = Parsed d /\ render test_env default_ro d = ROk out /\ parse o out = Parsed d' /\
  render test_env default_ro d' = ROk out.
Proof. eexists. eexists. repeat (split; [vm_compute; reflexivity|]); vm_compute; reflexivity. Qed.

(** ** C06 *)
Theorem C06_canonical : forall opts ks s env, source opts ks s -> nests opts ks -> s = print ks ->
  exists d, parse opts s = Parsed d /\ render env default_ro d = ROk s.
Proof. exact canonical. Qed.
Print Assumptions C06_canonical.
(** Canonical spellings are spellings. *)
Theorem C06_canonical_source : forall opts ks s, source opts ks s ->
  allow_attr_key_starts_with_equal_sign opts = false -> (forall n, ~ In (KDoctype n []) ks) -> source opts ks (print ks).
Proof. exact source_print. Qed.
Print Assumptions C06_canonical_source.
Example C06_example : exists d, let s := str "<!DOCTYPE html><p a=1 b='2' c><br /><!--x--> <i>y</I ></p>" in
  parse default_po s = Parsed d /\ render test_env default_ro d = ROk s.
Proof. eexists. split; vm_compute; reflexivity. Qed.

(** ** C10 *)
Theorem C10_attributes_kept : forall opts n a l sc env, open_name n -> starts_with slash_filler a ->
  area (allow_attr_key_starts_with_equal_sign opts) false a l sc -> raw_name n = false ->
  (sc = true -> allow_self_closing opts = true \/ void_name n = true) ->
  let closing := if (sc || void_name n)%bool then [] else str "</" ++ n ++ str ">" in
  exists d, parse opts (str "<" ++ n ++ a ++ str ">" ++ closing) = Parsed d /\
    doc_content d [if (sc || void_name n)%bool then XLeaf n l sc else XElem n l [] n] /\
    render env default_ro d =
      ROk (str "<" ++ n ++ print_attrs l ++ (if sc then str " /" else []) ++ str ">" ++ closing).
Proof. exact attributes_kept. Qed.
Print Assumptions C10_attributes_kept.
(** Every list of well-formed attributes has a spelling, the canonical one. *)
Theorem C10_attributes_written : forall l (sc : bool), Forall (good_attr false) l ->
  area false false (print_attrs l ++ if sc then str " /" else []) l sc /\
  starts_with slash_filler (print_attrs l ++ if sc then str " /" else []).
Proof. exact attributes_written. Qed.
Print Assumptions C10_attributes_written.
Example C10_example : exists d, parse default_po (str "<a x = 1 y  z='2' w=''></a>") = Parsed d /\
  doc_content d [XElem (str "a") [unquoted (str "x") (str "1"); bare (str "y"); quoted (str "z") (str "2") 39%N; quoted (str "w") [] 39%N] [] (str "a")].
Proof.
  eexists. split; [vm_compute; reflexivity|]. eexists. split; [vm_compute; reflexivity|].
  repeat (first [ reflexivity | apply Forall2_cons | apply Forall2_nil
                | econstructor; [reflexivity|..] | eexists; split; [reflexivity|] | split ]).
Qed.

(** ** C46 *)
Theorem C46_unambiguous : forall opts ks ks' s, source opts ks s -> source opts ks' s -> nests opts ks -> nests opts ks' -> ks = ks'.
Proof. exact source_unambiguous. Qed.
Print Assumptions C46_unambiguous.
Theorem C46_content_unique : forall d f f', doc_content d f -> doc_content d f' -> f = f'.
Proof. exact content_unique. Qed.
Print Assumptions C46_content_unique.
Example C46_example : forall ks, source default_po ks (str "<p  a = 1 b >x > y</P >") -> nests default_po ks ->
  ks = [KOpen (str "p") [unquoted (str "a") (str "1"); bare (str "b")]; KText (str "x > y"); KClose (str "P ")].
Proof. intros ks S N. exact (source_unambiguous _ _ _ _ S (proj1 C04_example) N (proj2 C04_example)). Qed.
