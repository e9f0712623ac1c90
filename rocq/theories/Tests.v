(** The project's own unit tests (tests/html.rs), replayed on the model by computation.
    These are tests of the model's fidelity, not proofs of properties. *)
From Coq Require Import String.
From Verif Require Import Api.
Local Open Scope string_scope.
Local Open Scope list_scope.

(** A stand-in for htmlentity, enough for the unit tests. *)
Definition test_decode (e : list char) : option char :=
  if chars_eqb e (str "gt") then Some 62%N
  else if chars_eqb e (str "lt") then Some 60%N
  else if chars_eqb e (str "apos") then Some 39%N
  else if chars_eqb e (str "amp") then Some 38%N else None.
Fixpoint test_decode_to (l : list char) (ent : option (list char)) : list char :=
  match l with
  | [] => match ent with Some e => 38%N :: e | None => [] end
  | ch :: l' =>
      match ent with
      | None => if N.eqb ch 38 then test_decode_to l' (Some []) else ch :: test_decode_to l' None
      | Some e =>
          if N.eqb ch 59 then
            (match test_decode e with Some d => [d] | None => [38%N] ++ e ++ [59%N] end)
            ++ test_decode_to l' None
          else test_decode_to l' (Some (e ++ [ch]))
      end
  end.
Definition test_env : entity_env :=
  mkEnv test_decode (fun l => test_decode_to l None)
    (fun c => existsb (N.eqb c) (str "<>&""'"))
    (fun c => if N.eqb c 60 then Some (str "&lt;") else if N.eqb c 62 then Some (str "&gt;")
              else if N.eqb c 38 then Some (str "&amp;") else None).

Definition is_ok (o : parse_options) (s : string) : bool :=
  match parse o (str s) with Parsed _ => true | _ => false end.
Definition is_err (o : parse_options) (s : string) : bool :=
  match parse o (str s) with Failed _ _ => true | _ => false end.
Definition is_panic (o : parse_options) (s : string) : bool :=
  match parse o (str s) with Panicked _ => true | _ => false end.
Definition renders (o : parse_options) (r : render_options) (s t : string) : bool :=
  match parse o (str s) with
  | Parsed d => match render test_env r d with ROk out => chars_eqb out (str t) | _ => false end
  | _ => false
  end.
Definition renders_text (o : parse_options) (r : render_options) (s t : string) : bool :=
  match parse o (str s) with
  | Parsed d => match render_text test_env r d with ROk out => chars_eqb out (str t) | _ => false end
  | _ => false
  end.
Definition roundtrips o s := renders o default_ro s s.
Notation d := default_po.
Definition ro_min := mkRO true false false false false false false false false.
Definition ro_min_lower := mkRO true true false false false false false false false.
Definition ro_min_inner := mkRO true false false false false false true false false.
Definition ro_inner := mkRO false false false false false false true false false.
Definition ro_enc := mkRO false false false false false false false false true.
Definition ro_dec := mkRO false false false false false false false true false.
Definition ro_min_dec := mkRO true false false false false false false true false.
Definition ro_min_nocomment := mkRO true false false false true false false false false.
Definition ro_endspace := mkRO false false true false false false false false false.
Definition po_unclosed := mkPO false false false true false false.
Definition po_unexp := mkPO false false false true true false.
Definition po_lt := mkPO false false false false false true.
Definition po_self := mkPO false false true false false false.
Definition po_self_lt := mkPO false false true false false true.
Definition po_eq_self := mkPO false true true false false false.
Definition po_case := mkPO true false false false false false.

Definition all_tests : list bool := [
  (* test_doctype *)
  roundtrips d "<!doctype html PUBLIC ""-//W3C//DTD HTML 4.01 Transitional//EN"" ""http://www.w3.org/TR/html4/loose.dtd"">";
  roundtrips d "<!DOCTYPE html>";
  is_err d "<!DOCTYPES html>"; is_err d "<!DOCTYPE>"; is_ok d "<!DOCTYPE html/>";
  (* test_pre_tag *)
  renders d ro_min "
    <pre> spaces </pre>
  " "<pre> spaces </pre>";
  renders d ro_min_lower "<Pre> abc </PRE> <a>  </a>" "<pre> abc </pre><a> </a>";
  is_ok d "<pre><a></a></pre>";
  (* tests/html.rs 69-86 expects the line feed directly after <pre> to be dropped; nothing in
     src/ does that, so that assertion fails on the pinned commit.  The model keeps it. *)
  renders d ro_min_inner "<pre>
  <code>   
    aaaaa   
  </code>
</pre>" "
  <code>   
    aaaaa   
  </code>
";
  (* test_title_tag *)
  renders d ro_enc "<title><div>&nbsp;tags are allowed here</div></title>"
    "<title>&lt;div&gt;&amp;nbsp;tags are allowed here&lt;/div&gt;</title>";
  roundtrips d "<title><div>&nbsp;tags are allowed here</div></title>";
  roundtrips d "<textarea name=""content""><div> tags are allowed here</div></textarea>";
  is_ok d "<br><br/><br >"; is_err d "<br></br>";
  roundtrips d "
  <script type=text/javascript>
    var div=$(""<div></div>"");
    var script = ""</script"" + '>';
  </script>
  ";
  (* test_attrs *)
  roundtrips d "<img src=http://site.com/abc.jpg alt=abc defer data-width=60 data-name=""abc"" data-size='60*60' xpath=""A\B\C\"" endtag=""<htmltag>"" />";
  is_ok d "<div id""1""></div>"; is_ok d "<div ""1""'2'></div>"; is_ok d "<div a=""1\""""></div>";
  is_err d "<span =></span>"; is_err d "<span a=""b""=></span>";
  renders po_eq_self default_ro "<span a=""b""=""123""/>" "<span a=""b"" =""123"" />";
  roundtrips d "<span a==></span>"; is_err d "<span a=b /==a></span>";
  (* test_tag_close *)
  is_err d "<div>";
  renders po_unclosed default_ro "<div id=1><div id=2><div id=3>3</div>"
    "<div id=1><div id=2><div id=3>3</div></div></div>";
  is_err d "<div></p>";
  (* test_comment *)
  roundtrips d "
  <!---
  // this is a comment
  // --allowed
  --->
  ";
  renders d ro_min_nocomment "
  <!---
  // this is a comment
  // --allowed
  --->
  " "";
  roundtrips d "<!-- 
  // still in comments->
  -->";
  renders d ro_endspace "<div></div >" "<div></div>";
  (* test_svg_tag .. test_tag_name *)
  roundtrips d "<svg version=""1.1"" width=""300""><rect width=""100%"" height=""100%"" fill=""red"" /><text x=""250"" y=""150""><![CDATA[<div> is something]]></text></svg>";
  is_ok d "<svg>abc</svg>"; roundtrips d "<svg><style></style><script></script></svg>";
  roundtrips d "<math><mrow></mrow></math>"; is_ok d "<math>abc</math>"; is_ok d "<math><style></style></math>";
  roundtrips d "<Form><Form.Item></Form.Item></Form>";
  roundtrips d "<svg xmlns=""http://www.w3.org/2000/svg""><script xlink:href=""cool-script.js"" type=""text/ecmascript"" /></svg>";
  roundtrips d "<abc<<></abc<<>";
  (* test_inner_html, test_inner_text *)
  renders d ro_inner "<div><span class=""sp"">long time</span></div>" "<span class=""sp"">long time</span>";
  renders d ro_min_inner "<pre class='pre'>   minify spaces   </pre>" "   minify spaces   ";
  renders d ro_inner "<script>var a = 1;var b = 2;</script>" "var a = 1;var b = 2;";
  negb (renders d ro_min_inner "abc" "abc");
  renders d ro_inner "<div><!--comment--><div>abc</div></div>" "<!--comment--><div>abc</div>";
  renders_text d default_ro "<div><!--comment--><div>abc</div></div>" "abc";
  (* test_minify_spaces *)
  renders d ro_min_inner "<div>   <span class=""sp"">long time</span>   </div>" "<span class=""sp"">long time</span>";
  renders d ro_min "<div>  whitespaces   repeat     </div>" "<div> whitespaces repeat </div>";
  renders d ro_min "<pre>  whitespaces   repeat     </pre>" "<pre>  whitespaces   repeat     </pre>";
  (* test_self_closing .. test_unexpect_char *)
  roundtrips po_self "<component is=""Header"" />"; is_err d "<component is=""Header"" />";
  is_err d "<abc#def>"; is_err d "<123>"; is_err d "<a>something</b>"; is_err d "<a class="""" /]";
  (* test_auto_fix_unclosed_tag *)
  is_err d "<a><b></b>"; is_ok po_unclosed "<a><b></b>";
  is_err d "<b></b><a>text"; is_ok po_unclosed "<b></b><a>text";
  (* test_auto_fix_unexpected_endtag *)
  is_err d "text</a><b></b>"; renders po_unexp default_ro "text</a><b></b>" "text<b></b>";
  is_err d "<b>text</a></b>"; renders po_unexp default_ro "<b>text</a></b>" "<b>text</b>";
  is_err d "<b>text</a</b>"; renders po_unexp default_ro "<b>text</a</b>" "<b>text</b>";
  (* test_wrong_doctype, test_case_senstive, test_render_decode *)
  is_err d "<!DOCTYP html>"; is_ok d "<!DOCTYPE HTML>"; is_err po_case "<A></a>"; roundtrips po_case "<META>";
  renders d ro_dec "<div><span>&apos;""</span></div>" "<div><span>'""</span></div>";
  (* test_auto_fix_unescaped_lt *)
  is_err d "<div><</div>"; renders po_lt default_ro "<div><</div>" "<div>&lt;</div>";
  is_err d "<<div></div>"; renders po_lt default_ro "<<div></div>" "&lt;<div></div>";
  renders po_lt default_ro "<div><<div></div></div>" "<div>&lt;<div></div></div>";
  renders po_lt default_ro "<div>abc<</div>" "<div>abc&lt;</div>";
  renders po_lt default_ro "<div> <</div>" "<div> &lt;</div>";
  is_err d "<br><<div></div>"; renders po_lt default_ro "<br><<div></div>" "<br>&lt;<div></div>";
  renders po_self_lt default_ro "<p/><<div></div>" "<p />&lt;<div></div>";
  renders po_lt default_ro "<div><span></span><123</div>" "<div><span></span>&lt;123</div>";
  (* test_eof, test_decode *)
  is_err d "<div></div><!--"; roundtrips d "<div></div>abc"; is_err d "<div></div><div>abc";
  renders po_unclosed default_ro "<div></div><div>abc" "<div></div><div>abc</div>";
  renders_text d ro_dec "<div>This  is  a  &gt;</div>" "This  is  a  >";
  renders_text d ro_min_dec "<div>This  is a &gt;</div>" "This is a >";
  renders_text d ro_min_dec "<div>This  is  a &gt</div>" "This is a &gt";
  renders_text d ro_min_dec "<div>This   is   a   &</div>" "This is a &"
].
Example unit_tests_pass : forallb (fun b => b) all_tests = true.
Proof. vm_compute. reflexivity. Qed.

(* is_document *)
Definition docres (s : string) :=
  match parse d (str s) with
  | Parsed x => match doc_tree x with Some t => Some (is_document t) | None => None end
  | _ => None end.
Example test_is_document :
  docres "<!--MYHTML--><!DOCTYPE html> <html></html>   " = Some (true, true) /\
  docres "<!DOCTYPE html><html></html><div></div>" = Some (true, false) /\
  docres "<!DOCTYPE html><body></body>" = Some (false, true).
Proof. vm_compute. auto. Qed.

(* clone: test_clone_node *)
Definition clone_test :=
  match parse d (str "<p></p><div id=""clone""><span id=""sub"">abc</span>def<br /></div>") with
  | Parsed x =>
      match get_element_by_id x (str "clone") with
      | Some i =>
          match clone_node (d_heap x) i with
          | ROk (h, j) =>
              match tree_of (length h) h j with
              | Some t => match build test_env default_ro t false with
                          | ROk out => (chars_eqb out (str "<div id=""clone""><span id=""sub"">abc</span>def<br /></div>")
                              && Nat.eqb (t_begin_at t) 0)%bool
                          | _ => false end
              | None => false end
          | _ => false end
      | None => false end
  | _ => false end.
Example clone_ok : clone_test = true. Proof. vm_compute. reflexivity. Qed.

(** Findings. *)
Example findings : forallb (fun b => b) [
  is_panic d "<a"; is_panic d "x<a"; is_panic d "<!DOCTYPE html/>x";
  is_ok po_unclosed "<a"; is_err d "<!----><p></p>";
  renders po_lt default_ro "<script>x</script><1" "<script>x&lt;1</script>";
  is_ok d "<svg></SVG><div/>"; is_err d "<svg><svg></svg><rect/></svg>";
  renders d ro_min_dec "a &gt; b" "a >b";
  renders d ro_min "<a> </a>" "<a> </a>"; renders d ro_min "<a> </a><b></b>" "<a></a><b></b>";
  renders d ro_min "<pre><pre></pre>a  b</pre>" "<pre><pre></pre>a b</pre>";
  is_ok d "<div><!DOCTYPE x/>"
] = true.
Proof. vm_compute. reflexivity. Qed.
