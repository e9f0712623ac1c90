(** The Debug text, spelled out, for C65. *)
From Coq Require Import String Lia.
From Verif Require Import StructEnd SpecDebug DebugProofs DebugRead DebugDoc.
Local Open Scope string_scope.
Local Open Scope list_scope.

Lemma lines_one : forall s, exists l ls, text_lines s = l :: ls.
Proof. intros [|c s]; cbn; [eauto|]. destruct (N.eqb c 10); [eauto|]. destruct (text_lines s); eauto. Qed.
Lemma pad_indented : forall s, pad true (s ++ [10%N]) = indented s ++ [10%N] /\
  pad false (s ++ [10%N]) = match text_lines s with l :: ls => between [10%N] (l :: map (fun l => str "    " ++ l) ls) | [] => [] end ++ [10%N].
Proof.
  induction s as [|c s [IH1 IH2]]; [split; reflexivity|].
  unfold indented in *. cbn [app pad text_lines]. destruct (N.eqb_spec c 10) as [->|N].
  - rewrite IH1. destruct (lines_one s) as (l & ls & E). rewrite E. split; reflexivity.
  - rewrite IH2. destruct (lines_one s) as (l & ls & E). rewrite E. split; [cbn [map between]|cbn [between]]; rewrite <- ?app_assoc; reflexivity.
Qed.
Lemma entries_items : forall pretty l, entries pretty l = match l with [] => [] | _ => if pretty then [10%N] else [] end ++ items pretty l.
Proof.
  intros pretty l. destruct l as [|x l]; [destruct pretty; reflexivity|]. destruct pretty.
  - cbn [entries items]. unfold lines, newline. f_equal. apply flat_map_ext. intro a. rewrite app_assoc. apply pad_indented.
  - unfold entries, items. cbn [app]. revert x. induction l as [|y l IH]; intro x; [cbn; rewrite app_nil_r; reflexivity|].
    change (joined (x :: y :: l)) with (x ++ str ", " ++ joined (y :: l)). rewrite IH. reflexivity.
Qed.
Section texts.
Variable plain : char -> bool.
Variable pretty : bool.
Notation D := (debug plain pretty).
Lemma d_list : forall A (f : A -> dval) g l, (forall x, D (f x) = g x) -> D (DList (map f l)) = listed pretty (map g l).
Proof. intros A f g l H. cbn [debug]. rewrite entries_items, map_map, (map_ext _ _ H). unfold listed, enclosed. rewrite <- !app_assoc. reflexivity. Qed.
Lemma d_record : forall name l, l <> [] -> D (DStruct (str name) (map (fun x => (str (fst x), snd x)) l)) = record pretty name (map (fun x => (fst x, D (snd x))) l).
Proof.
  intros name l N. destruct l as [|x l]; [destruct (N eq_refl)|]. unfold record. rewrite map_map. cbn [map debug fst snd].
  rewrite entries_items, map_map. cbn [fst snd]. fold D. destruct pretty; rewrite <- ?app_assoc; reflexivity.
Qed.
Lemma d_chars : forall l, D (dchars l) = chars_text plain pretty l.
Proof. intro l. apply d_list. reflexivity. Qed.
Lemma d_bool : forall b, D (dbool b) = truth b.
Proof. intros []; reflexivity. Qed.
Lemma d_opt : forall A (f : A -> dval) g o, (forall x, D (f x) = g x) -> D (dopt f o) = said pretty (option_map g o).
Proof. intros A f g [x|] H; [|reflexivity]. cbn [dopt debug map option_map said]. rewrite entries_items, H. unfold enclosed. rewrite <- !app_assoc. reflexivity. Qed.
Lemma d_cell : forall v, D (dcell v) = celled pretty (D v).
Proof. intro v. exact (d_record "RefCell" [("value", v)] ltac:(discriminate)). Qed.
Lemma d_data : forall c, D (dattr_data c) = data_text plain pretty c.
Proof. intro c. unfold data_text. rewrite <- d_chars. exact (d_record "AttrData" [("content", dchars c)] ltac:(discriminate)). Qed.
Lemma d_attr : forall a, D (dattr a) = attr_text plain pretty a.
Proof.
  intro a. unfold attr_text. rewrite <- !(d_opt _ _ _ _ d_data), <- d_bool, <- (d_opt _ DChar (char_text plain)) by reflexivity.
  exact (d_record "Attr" [("key", dopt dattr_data (a_key a)); ("value", dopt dattr_data (a_value a)); ("quote", dopt DChar (a_quote a)); ("need_quote", dbool (a_need_quote a))] ltac:(discriminate)).
Qed.
Lemma d_type : forall t, D (dtype t) = type_text t.
Proof. intros []; reflexivity. Qed.
Lemma d_code : forall t, D (dtag_code t) = tag_code_text t.
Proof. intros []; reflexivity. Qed.
Lemma d_meta : forall order m, D (dmeta order m) = meta_text plain pretty m (order (m_lc_name_map m)).
Proof.
  intros order m. unfold meta_text.
  assert (E2 : enclosed pretty "{" "}" (map (fun x => string_text plain (fst x) ++ str ": " ++ digits (snd x)) (order (m_lc_name_map m))) = D (DMap (map (fun x => (DStr (fst x), DNum (snd x))) (order (m_lc_name_map m))))).
  { cbn [debug]. rewrite entries_items, map_map. unfold enclosed. rewrite <- !app_assoc. reflexivity. }
  rewrite <- !d_bool, <- d_code, <- d_chars, <- (d_list _ _ _ _ d_attr), E2.
  exact (d_record "TagMeta" [("code_in", dtag_code (m_code_in m)); ("is_void", dbool (m_is_void m)); ("self_closed", dbool (m_self_closed m)); ("auto_fix", dbool (m_auto_fix m));
    ("name", dchars (m_name m)); ("attrs", DList (map dattr (m_attrs m))); ("lc_name_map", DMap (map (fun x => (DStr (fst x), DNum (snd x))) (order (m_lc_name_map m))))] ltac:(discriminate)).
Qed.

Lemma dnode_more : forall order dd f h i v, dnode order dd f h i = Some v -> dnode order dd (S f) h i = Some v.
Proof.
  intros order dd. induction f as [|f IH]; intros h i v E; [discriminate|]. cbn [dnode] in E. set (g := S f) in *. cbn [dnode].
  set (n := hget h i) in *.
  destruct (match n_end_tag n with None => Some None | Some e => match dnode order dd f h e with Some v => Some (Some v) | None => None end end) as [et|] eqn:Ee; [|discriminate].
  destruct (match n_childs n with None => Some None | Some l => match map_opt (dnode order dd f h) l with Some l' => Some (Some l') | None => None end end) as [ks|] eqn:Ek; [|discriminate].
  assert (Ee' : match n_end_tag n with None => Some None | Some e => match dnode order dd g h e with Some v => Some (Some v) | None => None end end = Some et).
  { destruct (n_end_tag n) as [e|]; [|exact Ee]. destruct (dnode order dd f h e) as [w|] eqn:W; [|discriminate]. rewrite (IH _ _ _ W). exact Ee. }
  assert (Ek' : match n_childs n with None => Some None | Some l => match map_opt (dnode order dd g h) l with Some l' => Some (Some l') | None => None end end = Some ks).
  { destruct (n_childs n) as [l|]; [|exact Ek]. destruct (map_opt (dnode order dd f h) l) as [w|] eqn:W; [|discriminate].
    apply map_opt_in in W. assert (X : map_opt (dnode order dd g h) l = Some w).
    { apply in_map_opt. clear - W IH. induction W as [|x y l w D W IHW]; constructor; [exact (IH _ _ _ D)|exact IHW]. }
    rewrite X. exact Ek. }
  rewrite Ee', Ek'. exact E.
Qed.
Lemma spelled : forall order dd h i out, node_text plain pretty order dd h i = Some out ->
  exists ks et, out = fields_text plain pretty order (hget h i) ks et (dd i) /\
    match n_childs (hget h i), ks with None, None => True | Some l, Some xs => Forall2 (fun k x => node_text plain pretty order dd h k = Some x) l xs | _, _ => False end /\
    match n_end_tag (hget h i), et with None, None => True | Some e, Some x => node_text plain pretty order dd h e = Some x | _, _ => False end.
Proof.
  intros order dd h i out E. unfold node_text in *. destruct (length h) as [|f]; [discriminate|]. destruct (dnode order dd (S f) h i) as [v|] eqn:V; [|discriminate].
  injection E as <-. cbn [dnode] in V. set (g := S f). set (n := hget h i) in *.
  destruct (match n_end_tag n with None => Some None | Some e => match dnode order dd f h e with Some v => Some (Some v) | None => None end end) as [et|] eqn:Ee; [|discriminate].
  destruct (match n_childs n with None => Some None | Some l => match map_opt (dnode order dd f h) l with Some l' => Some (Some l') | None => None end end) as [ks|] eqn:Ek; [|discriminate].
  injection V as <-. exists (option_map (map D) ks), (option_map D et). split; [|split].
  - unfold fields_text. set (kk := dopt (fun l => DList (map dcell l)) ks). set (ee := dopt dcell et). set (mm := dopt (fun m => dcell (dmeta order m)) (n_meta n)).
    assert (K : said pretty (option_map (fun l => listed pretty (map (celled pretty) l)) (option_map (map D) ks)) = D kk).
    { unfold kk. rewrite (d_opt _ _ (fun l => listed pretty (map (celled pretty) (map D l)))); [destruct ks; reflexivity|]. intro l. rewrite map_map. apply d_list. exact d_cell. }
    assert (X : said pretty (option_map (celled pretty) (option_map D et)) = D ee).
    { unfold ee. rewrite (d_opt _ _ (fun v => celled pretty (D v))); [destruct et; reflexivity|exact d_cell]. }
    assert (M : said pretty (option_map (fun m => celled pretty (meta_text plain pretty m (order (m_lc_name_map m)))) (n_meta n)) = D mm).
    { symmetry. apply d_opt. intro m. rewrite d_cell, d_meta. reflexivity. }
    rewrite K, X, M, <- !d_bool, <- d_type, <- (d_opt _ _ _ _ d_chars).
    exact (d_record "Node" [("index", DNum (n_index n)); ("node_type", dtype (n_type n)); ("begin_at", DNum (n_begin_at n)); ("end_at", DNum (n_end_at n)); ("content", dopt dchars (n_content n));
      ("childs", kk); ("meta", mm); ("end_tag", ee); ("parent", dbool (is_some (n_parent n))); ("root", dbool (is_some (n_root n))); ("document", dbool (dd i))] ltac:(discriminate)).
  - destruct (n_childs n) as [l|].
    + destruct (map_opt (dnode order dd f h) l) as [w|] eqn:W; [|discriminate]. injection Ek as <-. cbn [option_map]. apply map_opt_in in W.
      clear - W. induction W as [|x y l w D0 W IH]; constructor; [|exact IH]. unfold g. rewrite (dnode_more _ _ _ _ _ _ D0). reflexivity.
    + injection Ek as <-. exact I.
  - destruct (n_end_tag n) as [e|].
    + destruct (dnode order dd f h e) as [w|] eqn:W; [|discriminate]. injection Ee as <-. cbn [option_map]. unfold g. rewrite (dnode_more _ _ _ _ _ _ W). reflexivity.
    + injection Ee as <-. exact I.
Qed.
End texts.
