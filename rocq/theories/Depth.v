(** How deep the recursive functions call themselves: src/parser.rs 794-815 (build_tree), 508-546
    (clone_node_with), and the recursive drop of an [Rc<RefCell<Node>>].  Every function returns, besides its
    result, the largest number of its own calls that are active at the same time. *)
From Verif Require Export Handles.

(** src/parser.rs 794-815. *)
Fixpoint r_build_tree (env : entity_env) (o : render_options) (t : tree) (s : render_status) {struct t}
    : res (render_status * list char) * nat :=
  let r_list :=
    (fix r_list (l : list tree) (s : render_status) {struct l} : res (render_status * list char) * nat :=
       match l with
       | [] => (ROk (s, []), 0)
       | k :: l' =>
           let '(r1, n1) := r_build_tree env o k s in
           match r1 with
           | ROk (s1, o1) =>
               let '(r2, n2) := r_list l' s1 in
               (do '(s2, o2) <- r2; ROk (s2, o1 ++ o2), Nat.max n1 n2)
           | RErr k i => (RErr k i, n1)
           | RPanic p => (RPanic p, n1)
           end
       end) in
  match t with
  | TNode _ _ _ _ end_tag _ childs _ =>
      match build_node env o t s with
      | ROk (s1, o1) =>
          let '(r2, n) :=
            match childs with
            | None => (ROk (s1, []), 0)
            | Some l =>
                if rs_root s1 then
                  let '(r, n) := r_list l (rs_set_root false s1) in
                  (do '(_, out) <- r; ROk (s1, out), n)
                else r_list l s1
            end in
          (do '(s2, o2) <- r2;
           do '(s3, o3) <-
             (match end_tag with
              | None => ROk (s2, [])
              | Some e => build_node env o e s2
              end);
           ROk (s3, o1 ++ o2 ++ o3), S n)
      | RErr k i => (RErr k i, 1)
      | RPanic p => (RPanic p, 1)
      end
  end.
(** The loop over children as a function of its own. *)
Fixpoint r_build_list (env : entity_env) (o : render_options) (l : list tree) (s : render_status)
    : res (render_status * list char) * nat :=
  match l with
  | [] => (ROk (s, []), 0)
  | k :: l' =>
      let '(r1, n1) := r_build_tree env o k s in
      match r1 with
      | ROk (s1, o1) =>
          let '(r2, n2) := r_build_list env o l' s1 in
          (do '(s2, o2) <- r2; ROk (s2, o1 ++ o2), Nat.max n1 n2)
      | RErr k i => (RErr k i, n1)
      | RPanic p => (RPanic p, n1)
      end
  end.

(** src/parser.rs 817-891: build. *)
Definition r_build (env : entity_env) (o : render_options) (t : tree) (inner_text : bool) : res (list char) * nat :=
  if (inner_text && inner_html o)%bool then (RPanic PInnerHtml, 0)
  else
    let inner := if inner_text then IText else if inner_html o then IHtml else INone in
    let s := mkRS inner false true in
    let go t := let '(r, n) := r_build_tree env o t s in (do '(_, out) <- r; ROk out, n) in
    match inner with
    | INone => go t
    | _ =>
        match t_type t with
        | NAbstractRoot =>
            match t_childs t with
            | None => (ROk [], 0)
            | Some childs =>
                match filter is_tag childs with
                | [] => (RPanic PInnerHtml, 0)
                | [k] => go k
                | _ => (RPanic PInnerHtml, 0)
                end
            end
        | NTag => go t
        | NComment | NXMLCDATA =>
            match inner with IText => go t | _ => (RPanic PInnerHtml, 0) end
        | _ => (RPanic PInnerHtml, 0)
        end
    end.

(** src/parser.rs 508-546: clone_node_with; the end tag is copied by a call from clone_node_without_childs. *)
Fixpoint r_clone_with (fuel : nat) (h : list node) (i : nid) (reduce : nat) : res (list node * nid) * nat :=
  match fuel with
  | O => (RPanic PFuel, 0)
  | S fuel' =>
      let n := hget h i in
      match (do b <- checked_sub (n_begin_at n) reduce;
             do e <- checked_sub (n_end_at n) reduce; ROk (b, e)) with
      | ROk (b, e) =>
          let '(r1, n1) :=
            match n_end_tag n with
            | None => (ROk (h, None), 0)
            | Some et => let '(r, m) := r_clone_with fuel' h et reduce in
                         (do '(h, et') <- r; ROk (h, Some et'), m)
            end in
          match r1 with
          | ROk (h, et) =>
              let pid := length h in
              let h := h ++ [mkNode 0 (n_type n) b e et None None (n_root n) (n_content n) None (n_meta n)] in
              match n_childs n with
              | None => (ROk (h, pid), S n1)
              | Some childs =>
                  let '(r2, n2) :=
                    (fix loop (l : list nid) (h : list node) (ids : list nid) : res (list node * list nid) * nat :=
                       match l with
                       | [] => (ROk (h, ids), 0)
                       | k :: l' =>
                           let '(r, m1) := r_clone_with fuel' h k reduce in
                           match r with
                           | ROk (h, k') =>
                               let h := hupd h k' (fun c =>
                                 nset_index (n_index (hget h k))
                                   (nset_prev (last_opt ids) (nset_parent (Some pid) c))) in
                               let '(r', m2) := loop l' h (ids ++ [k']) in (r', Nat.max m1 m2)
                           | RErr k i => (RErr k i, m1)
                           | RPanic p => (RPanic p, m1)
                           end
                       end) childs h [] in
                  (do '(h, ids) <- r2; ROk (hupd h pid (nset_childs (Some ids)), pid), S (Nat.max n1 n2))
              end
          | RErr k i => (RErr k i, S n1)
          | RPanic p => (RPanic p, S n1)
          end
      | RErr k i => (RErr k i, 1)
      | RPanic p => (RPanic p, 1)
      end
  end.
(** src/parser.rs 549-551: clone_node. *)
Definition r_clone_node (h : list node) (i : nid) : res (list node * nid) * nat :=
  r_clone_with (S (length h)) h i (n_begin_at (hget h i)).

(** [Drop for Rc] as it is executed: the last reference drops the node, whose fields are dropped in
    order by further calls.  [cs] are the reference counts. *)
Fixpoint drop_rc (fuel : nat) (h : list node) (cs : list nat) (k : nid) : option (list nat * nat) :=
  match fuel, nth k cs 0 with
  | S fuel', 1 =>
      match (fix each (l : list nid) (cs : list nat) : option (list nat * nat) :=
               match l with
               | [] => Some (cs, 0)
               | x :: r =>
                   match drop_rc fuel' h cs x with
                   | Some (cs1, n1) =>
                       match each r cs1 with Some (cs2, n2) => Some (cs2, Nat.max n1 n2) | None => None end
                   | None => None
                   end
               end) (strong (hget h k)) (set_nth k 0 cs) with
      | Some (cs', n) => Some (cs', S n)
      | None => None
      end
  | S _, S c => Some (set_nth k c cs, 1)
  | _, _ => None
  end.
Definition drop_node (h : list node) (cs : list nat) (k : nid) : option (list nat * nat) := drop_rc (length h) h cs k.
