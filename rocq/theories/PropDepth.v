(** C60: how deep the recursive functions call themselves. *)
From Coq Require Import String.
From Verif Require Import Api Tests SpecText SpecRender SpecParse SpecTree SpecDoc SpecCost SpecClone SpecHandles SpecDepth Handles Clone Depth
  DepthProofs DepthDoc Debug DebugDepth DebugDepthProofs.
Local Open Scope string_scope.
Local Open Scope list_scope.

(** C60: counting the active calls of [build_tree] does not change what is rendered; there are at most as many as
    the tree has levels, and exactly as many when the whole tree is rendered. *)
Theorem C60_render : forall env o t inner r n, r_build env o t inner = (r, n) ->
  r = build env o t inner /\ n <= levels t /\
  (inner = false -> inner_html o = false -> forall out, r = ROk out -> n = levels t).
Proof. exact render_depth. Qed.
Print Assumptions C60_render.

(** C60: copying a node needs one call more than the longest way down from it has steps. *)
Theorem C60_clone : forall opts s d i, parse opts s = Parsed d -> i < length (d_heap d) ->
  exists h' j n, r_clone_node (d_heap d) i = (ROk (h', j), S n) /\ clone_node (d_heap d) i = ROk (h', j) /\ deepest (d_heap d) i n.
Proof. exact clone_depth. Qed.
Print Assumptions C60_clone.

(** C60: so does dropping the last reference to it when nothing below is referenced from elsewhere; with such
    references it may be fewer.  Dropping by recursion leaves the same counts as C59. *)
Theorem C60_drop : forall opts s d k held n, parse opts s = Parsed d -> in_doc (d_heap d) (d_root d) k ->
  Forall (fun r => r < length (d_heap d)) held -> deepest (d_heap d) k n ->
  exists m, drop_node (d_heap d) (counts (d_heap d) (k :: held)) k = Some (counts (d_heap d) held, m) /\ 1 <= m <= S n /\
    ((forall j, in_doc (d_heap d) k j -> ~ kept (d_heap d) held j) -> m = S n).
Proof. exact drop_depth. Qed.
Print Assumptions C60_drop.

(** C60: a level costs at least three characters of the text... *)
Theorem C60_bound : forall opts s d, parse opts s = Parsed d ->
  (forall t, doc_tree d = Some t -> 3 * levels t <= length s + 5) /\
  (forall i n, in_doc (d_heap d) (d_root d) i -> deepest (d_heap d) i n -> 3 * S n <= length s + 6).
Proof. exact frames_bound. Qed.
Print Assumptions C60_bound.
(** ... and seven without repairs, since start and end tag are both written. *)
Theorem C60_strict : forall opts s d, parse opts s = Parsed d -> no_repair opts -> open_doctypes d ->
  (forall t, doc_tree d = Some t -> 7 * levels t <= length s + 13) /\
  (forall i n, in_doc (d_heap d) (d_root d) i -> deepest (d_heap d) i n -> 7 * S n <= length s + 14).
Proof. exact strict_depth. Qed.
Print Assumptions C60_strict.

(** C60: nothing else bounds it: all three recursions reach any depth, under any options, on a text that meets
    the second bound. *)
Theorem C60_reached : forall opts n, exists d t,
  parse opts (times n (str "<a>") ++ str "x" ++ times n (str "</a>")) = Parsed d /\ doc_tree d = Some t /\
  (forall env o, inner_html o = false -> exists out, r_build env o t false = (ROk out, n + 2)) /\
  (exists h j, r_clone_node (d_heap d) (d_root d) = (ROk (h, j), n + 2)) /\
  exists cs, drop_node (d_heap d) (counts (d_heap d) [d_root d]) (d_root d) = Some (cs, n + 2).
Proof. exact depth_reached. Qed.
Print Assumptions C60_reached.

(** C60: showing a node with Debug needs as many calls as copying it, whatever the format and the order of the
    maps; counting them does not change what is shown. *)
Theorem C60_debug : forall opts s d i plain pretty order documented, parse opts s = Parsed d -> i < length (d_heap d) ->
  exists out n, r_node_text plain pretty order documented (d_heap d) i = (Some out, S n) /\
    node_text plain pretty order documented (d_heap d) i = Some out /\ deepest (d_heap d) i n.
Proof. exact debug_depth. Qed.
Print Assumptions C60_debug.
Theorem C60_debug_reached : forall opts n plain pretty order documented, exists d out,
  parse opts (times n (str "<a>") ++ str "x" ++ times n (str "</a>")) = Parsed d /\
  r_node_text plain pretty order documented (d_heap d) (d_root d) = (Some out, n + 2).
Proof. exact debug_reached. Qed.
Print Assumptions C60_debug_reached.
Example C60_example_debug : exists d, parse default_po (str "<p><b>x</b>y</p>") = Parsed d /\
  snd (r_node_text (fun _ => true) false (fun l => l) (fun _ => false) (d_heap d) (d_root d)) = 4 /\
  exists d', parse default_po (str "<p></p>") = Parsed d' /\
  snd (r_node_text (fun _ => true) true (fun l => l) (fun _ => false) (d_heap d') (d_root d')) = 3.
Proof. eexists. split; [vm_compute; reflexivity|]. split; [vm_compute; reflexivity|]. eexists. split; vm_compute; reflexivity. Qed.

(** Calls for rendering, for copying and for dropping the root while [held] stay. *)
Definition frames (opts : parse_options) (s : string) (held : list nid) : option (nat * nat * nat) :=
  match parse opts (str s) with
  | Parsed d =>
      match doc_tree d, drop_node (d_heap d) (counts (d_heap d) (d_root d :: held)) (d_root d) with
      | Some t, Some (_, m) => Some (snd (r_build test_env default_ro t false), snd (r_clone_node (d_heap d) (d_root d)), m)
      | _, _ => None
      end
  | _ => None
  end.
(** An element without children has an end tag, which is copied and dropped, but not rendered by a further call. *)
Example C60_example_frames : frames default_po "<p><b>x</b>y</p>" [] = Some (4, 4, 4) /\ frames default_po "<p></p>" [] = Some (2, 3, 3).
Proof. vm_compute. split; reflexivity. Qed.
(** Who holds the [b] element (node 2) shortens the drop. *)
Example C60_example_held : frames default_po "<p><b>x</b>y</p>" [2] = Some (4, 4, 3).
Proof. vm_compute. reflexivity. Qed.
(** With repaired end tags the first bound is met: 9 characters, 5 calls. *)
Example C60_example_tight : frames (mkPO false false false true false false) "<a><a><a>" [] = Some (4, 5, 5) /\
  frames (mkPO false false false true false false) "<a><a>x" [] = Some (4, 4, 4).
Proof. vm_compute. split; reflexivity. Qed.
Example C60_example_reached : frames default_po "<a><a><a>x</a></a></a>" [] = Some (5, 5, 5).
Proof. vm_compute. reflexivity. Qed.
