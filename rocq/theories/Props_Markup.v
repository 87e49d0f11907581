(** * Properties of the output of XML templates as markup (C42, C43) *)

From Coq Require Import Ascii String List Arith NArith ZArith Bool Permutation Sorted.
From Verif Require Import PyStr PyStrLemmas M_Values S_Values P_Values M_IR S_IR M_Exec S_Exec P_Exec P_Exec2 P_Exec3 P_Exec4 P_Exec5
  M_Text M_XText S_XText P_XText M_Entities S_Entities P_Entities M_Dom M_Doctype M_XCompile S_XDoc P_XDoc P_XDoc2 P_XStrip S_Markup P_Markup S_Nested P_Nested P_Raw P_Nested2 S_Static P_Static.
From Verif Require Import Props_Exec Props_XText Props_XDoc.
Import ListNotations.
Open Scope list_scope.

(** ** Reading markup *)

(** What is written according to the grammar is read as what was written; so no text can be taken
    for another sequence of elements. *)
Theorem C42_reader : forall html is s, written html is s -> read html s = Some is.
Proof. exact read_written. Qed.
Print Assumptions C42_reader.
Theorem C42_unambiguous : forall html is is' s, written html is s -> written html is' s -> is = is'.
Proof. intros html is is' s W W'. apply read_written in W. apply read_written in W'. congruence. Qed.
Print Assumptions C42_unambiguous.
(** What is read is properly nested. *)
Inductive balanced : list item -> Prop :=
| bl_nil : balanced []
| bl_char : forall c is, balanced is -> balanced (I_char c :: is)
| bl_comment : forall t is, balanced is -> balanced (I_comment t :: is)
| bl_elem : forall tag a is is', balanced is -> balanced is' -> balanced (I_start tag a :: is ++ I_end tag :: is').
Lemma balanced_chars : forall t is, balanced is -> balanced (map I_char t ++ is).
Proof. induction t as [|c t IH]; intros is B; [exact B|]. cbn [map app]. constructor. now apply IH. Qed.
Theorem C43_balanced : forall html is s, written html is s -> balanced is.
Proof.
  intros html is s W. induction W; try (now constructor); try (now apply balanced_chars).
  - now apply (bl_elem tag a []); [constructor|].
  - now apply (bl_elem tag a []); [constructor|].
  - apply bl_elem; [|assumption]. rewrite <- (app_nil_r (map I_char body)). apply balanced_chars. constructor.
Qed.
Print Assumptions C43_balanced.

(** ** C42: documents without directives

    Rendered in XML or in HTML they are exactly the text that the specification says, which read back gives the same elements with the same attributes (sorted), texts
    and comments (with blanks around their text), where two dollar signs stand for one and other dollar signs for
    themselves; with [strip_text] the texts are those without the blanks around them.  In HTML some attributes lose
    their values.  Partial: carriage returns, line breaks and tabs in values, the content of script and style elements
    (in HTML, and in the default configuration) and of HTML's void elements are left out; for all these see below. *)
Theorem C42_static_partial : forall expat compile helper mode (frag : bool) autoblocks scripts html strips source dtd src es is s (line : str) py (gen user : str -> Prop) e,
  parser_source source = (dtd, src) -> expat src = Ok es -> static_document autoblocks scripts html strips es is s ->
  (html = true <-> is_html (rendering_mode mode dtd)) -> (if frag then line = [] else doctype_line (rendering_mode mode dtd) dtd line) ->
  (forall i, gen (helper i)) -> hygienic py gen user -> (forall t, trans py t = VStr t) ->
  exists body, xml_template expat compile helper mode frag autoblocks scripts strips source = Ok (TemplateNode 0 [] [NDef 0 false (L "__main__()") body]) /\
    rmap (fun r => (render (fst (fst r)), snd (fst r), snd r)) (exec_body py (programs body) e [] []) = Ok (line ++ s, [], []) /\
    written html is s /\ read html (line_ends s) = Some is.
Proof. exact static_renders. Qed.
Print Assumptions C42_static_partial.

Ltac no_in := let X := fresh in intros X; vm_compute in X; intuition discriminate.
Lemma plain_none : forall t, ~ In c_dollar t -> plain_text t t.
Proof. intros t N0. rewrite <- (app_nil_r t). apply plain_app_none; [exact N0|constructor]. Qed.
Ltac plain := apply plain_none; no_in.
Ltac no_ref := let c := fresh in let v := fresh in let E := fresh in let H := fresh in
  intros (c & v & E & H); cbn [L list_ascii_of_string map app] in E; try discriminate E; injection E as <- _; destruct H as [H|[H|H]]; vm_compute in H; discriminate H.
Ltac not_has := let a := fresh in let b := fresh in let E := fresh in let F := fresh in
  intros (a & b & E); match type of E with ?t = _ ++ ?d ++ _ => destruct (find d t) eqn:F; [vm_compute in F; discriminate F|exact (find_None _ _ F a b E)] end.
Lemma plain_price : plain_text (L " $5 & $$x ") (L " $5 & $x ").
Proof.
  apply (plain_app_none (L " ")); [no_in|]. apply (pn_lone (L "5 & $$x ")); [no_ref|]. apply (plain_app_none (L "5 & ")); [no_in|]. apply (pn_two (L "x ")). plain.
Qed.

(** [<a id="1" b="&lt;&quot;"> $5 &amp; $$x <![CDATA[<c>]]><br/>&eacute;<!--d--></a>] in XML, without and with [strip_text]. *)
Definition static_events : list event :=
  [EStart 1 (L "a") [(L "id", L "1"); (L "b", L "<""")]; EChars 1 (L " $5 "); EChars 1 (L "&"); EChars 1 (L " $$x ");
   EStartCDATA 1; EChars 1 (L "<c>"); EEndCDATA 1; EStart 1 (L "br") []; EEnd 1 (L "br"); ESkipped 1 (L "eacute"); EComment 1 (L "d"); EEnd 1 (L "a")].
Definition static_items (t : str) : list item :=
  [I_start (L "a") [(L "b", Some (L "<""")); (L "id", Some (L "1"))]] ++ map I_char t ++ map I_char (L "<c>") ++
  [I_start (L "br") []; I_end (L "br"); I_char 233; I_comment (L " d "); I_end (L "a")].
Definition static_output (t : str) : str := L "<a b=""&lt;&quot;"" id=""1"">" ++ xml_text t ++ L "<![CDATA[<c>]]><br/>" ++ [233%N] ++ L "<!-- d --></a>".
Lemma static_example : forall strips t, shown_text strips (L " $5 & $$x ") t -> static_document [] true false strips static_events (static_items t) (static_output t).
Proof.
  intros strips t Ht.
  assert (Tag : forall tag, tag = L "a" \/ tag = L "br" -> static_tag [] tag).
  { intros tag [->| ->]; (split; [split; [discriminate|reflexivity]|]); (split; [reflexivity|]); (split; [reflexivity|]); intros []. }
  assert (St : forall u, strip u = u -> ~ In 13%N u -> ~ In c_dollar u -> shown_text strips u u) by (intros u Eu N1 N2; split; [exact N1|]; destruct strips; rewrite ?Eu; now apply plain_none).
  unfold static_items, static_output. pose proof (sd_document [] true false strips [] [] 1 1 (L "a") [(L "id", L "1"); (L "b", L "<""")] [(L "b", L "<"""); (L "id", L "1")] [(L "b", Some (L "<""")); (L "id", Some (L "1"))]
    [EChars 1 (L " $5 "); EChars 1 (L "&"); EChars 1 (L " $$x "); EStartCDATA 1; EChars 1 (L "<c>"); EEndCDATA 1; EStart 1 (L "br") []; EEnd 1 (L "br"); ESkipped 1 (L "eacute"); EComment 1 (L "d")]
    (map I_char t ++ map I_char (L "<c>") ++ [I_start (L "br") []; I_end (L "br"); I_char 233; I_comment (L " d ")])
    (xml_text t ++ L "<![CDATA[<c>]]><br/>" ++ [233%N] ++ L "<!-- d -->")) as K.
  assert (E : element_text false (L "a") [(L "b", Some (L "<""")); (L "id", Some (L "1"))] false (xml_text t ++ L "<![CDATA[<c>]]><br/>" ++ [233%N] ++ L "<!-- d -->") =
    L "<a b=""&lt;&quot;"" id=""1"">" ++ xml_text t ++ L "<![CDATA[<c>]]><br/>" ++ [233%N] ++ L "<!-- d --></a>") by (unfold element_text; cbn [andb]; rewrite <- !app_assoc; reflexivity).
  cbn [app is_nil] in K |- *. cbn [app] in E. rewrite E in K. rewrite <- app_assoc in K. cbn [app] in K. apply K; clear K.
  - constructor.
  - constructor.
  - apply Tag. now left.
  - repeat constructor; no_in.
  - apply perm_swap.
  - repeat constructor.
  - constructor; [|constructor; [|constructor]]; (apply sa_value; [split; [discriminate|reflexivity]|reflexivity|intros [X _]; discriminate X|plain|no_in|no_in|no_in]).
  - intros [[X _]|[_ [X|X]]]; discriminate X.
  - apply (ds_text [] true false strips true [EChars 1 (L " $5 "); EChars 1 (L "&"); EChars 1 (L " $$x ")] [L " $5 "; L "&"; L " $$x "] t); [discriminate|repeat constructor|exact Logic.I|exact Ht|].
    apply (ds_cdata [] true false strips true 1 1 [(1, L "<c>")] (L "<c>")); [reflexivity|apply St; [reflexivity|no_in|no_in]|not_has|].
    apply (ds_elem [] true false strips true 1 1 (L "br") [] [] [] [] [] []); [apply Tag; now right|constructor|constructor|constructor|constructor|intros _; reflexivity|constructor|].
    apply (ds_text [] true false strips true [ESkipped 1 (L "eacute")] [[233%N]] [233%N]); [discriminate|constructor; [|constructor]; apply te_entity; apply stands_by_assoc; vm_compute; reflexivity|exact Logic.I|apply St; [reflexivity|no_in|no_in]|].
    apply (ds_comment [] true false strips true 1 (L "d") [] [] []); [reflexivity|not_has|no_in|constructor].
Qed.
Example C42_example : static_document [] true false false static_events (static_items (L " $5 & $x ")) (static_output (L " $5 & $x ")).
Proof. apply static_example. split; [no_in|apply plain_price]. Qed.
Example C42_strip_example : static_document [] true false true static_events (static_items (L "$5 & $x")) (static_output (L "$5 & $x")).
Proof.
  apply static_example. split; [no_in|]. change (strip (L " $5 & $$x ")) with (L "$5 & $$x"). apply (pn_lone (L "5 & $$x")); [no_ref|]. apply (plain_app_none (L "5 & ")); [no_in|]. apply (pn_two (L "x")). plain.
Qed.
(** [<!--c--><p><input checked="" name="n"/><script src="x"/>b</p>] in HTML. *)
Definition html_events : list event :=
  [EComment 1 (L "c"); EStart 1 (L "p") []; EStart 1 (L "input") [(L "checked", []); (L "name", L "n")]; EEnd 1 (L "input");
   EStart 1 (L "script") [(L "src", L "x")]; EEnd 1 (L "script"); EChars 1 (L "b"); EEnd 1 (L "p")].
Definition html_items : list item :=
  [I_start (L "p") []; I_start (L "input") [(L "checked", None); (L "name", Some (L "n"))]; I_end (L "input");
   I_start (L "script") [(L "src", Some (L "x"))]; I_end (L "script"); I_char 98; I_end (L "p")].
Definition html_output : str := L "<p><input checked name=""n""><script src=""x""></script>b</p>".
Example C42_html_example : static_document [] true true false html_events html_items html_output.
Proof.
  assert (Tag : forall tag, In tag [L "p"; L "input"; L "script"] -> static_tag [] tag).
  { intros tag I1. repeat destruct I1 as [<-|I1]; try destruct I1; (split; [split; [discriminate|reflexivity]|]); (split; [reflexivity|]); (split; [reflexivity|]); intros []. }
  apply (sd_document [] true true false [EComment 1 (L "c")] [] 1 1 (L "p") [] [] [] 
    [EStart 1 (L "input") [(L "checked", []); (L "name", L "n")]; EEnd 1 (L "input"); EStart 1 (L "script") [(L "src", L "x")]; EEnd 1 (L "script"); EChars 1 (L "b")]
    [I_start (L "input") [(L "checked", None); (L "name", Some (L "n"))]; I_end (L "input"); I_start (L "script") [(L "src", Some (L "x"))]; I_end (L "script"); I_char 98]
    (L "<input checked name=""n""><script src=""x""></script>b")).
  - repeat constructor.
  - constructor.
  - apply Tag. now left.
  - constructor.
  - constructor.
  - constructor.
  - constructor.
  - intros [[_ X]|[_ [X|X]]]; [vm_compute in X; intuition discriminate|discriminate X|discriminate X].
  - apply (ds_elem [] true true false false 1 1 (L "input") [(L "checked", []); (L "name", L "n")] [(L "checked", []); (L "name", L "n")] [(L "checked", None); (L "name", Some (L "n"))] [] [] []).
    + apply Tag. right. now left.
    + repeat constructor; no_in.
    + reflexivity.
    + repeat constructor.
    + constructor; [|constructor; [|constructor]].
      * apply (sa_bare true (L "checked") [] []); [split; [discriminate|reflexivity]|reflexivity|now left|constructor].
      * apply sa_value; [split; [discriminate|reflexivity]|reflexivity|intros [_ X]; vm_compute in X; intuition discriminate|plain|no_in|no_in|no_in].
    + reflexivity.
    + constructor.
    + apply (ds_elem [] true true false false 1 1 (L "script") [(L "src", L "x")] [(L "src", L "x")] [(L "src", Some (L "x"))] [] [] []).
      * apply Tag. right. right. now left.
      * repeat constructor; no_in.
      * reflexivity.
      * repeat constructor.
      * constructor; [|constructor]. apply sa_value; [split; [discriminate|reflexivity]|reflexivity|intros [_ X]; vm_compute in X; intuition discriminate|plain|no_in|no_in|no_in].
      * reflexivity.
      * constructor.
      * apply (ds_text [] true true false false [EChars 1 (L "b")] [L "b"] (L "b")); [discriminate|repeat constructor|exact Logic.I| |constructor].
        exists [L "b"]. split; [|reflexivity]. constructor; [|constructor]. split; [no_in|plain].
Qed.

(** Running a template whose source is parsed as [es]. *)
Definition run_as (mode : str) (strips : bool) (es : list event) : result str :=
  rbind (xml_template (fun _ => Ok es) xex_compile (fun i => L "_kj" ++ dec (N.of_nat i)) (Some mode) true [] true strips (L "<x/>")) (fun t =>
    match defs t with
    | [NDef _ _ _ body] => rmap (fun r => render (fst (fst r))) (exec_body xpy (programs body) [] [] [])
    | _ => Raise "no main function"
    end).
Notation run := (run_as (L "xml") false).
Example C42_run_example : run static_events = Ok (static_output (L " $5 & $x ")) /\ static_output (L " $5 & $x ") = L "<a b=""&lt;&quot;"" id=""1""> $5 &amp; $x <![CDATA[<c>]]><br/>" ++ [233%N] ++ L "<!-- d --></a>".
Proof. split; vm_compute; reflexivity. Qed.
Example C42_run_html_example : run_as (L "html5") false html_events = Ok html_output.
Proof. vm_compute. reflexivity. Qed.

(** A line break in the value of an attribute (written [&#10;] in the template) is written as itself, and read as a space. *)
Theorem C42_blank_refuted : exists k v es s is, es = [EStart 1 (L "a") [(k, v)]; EEnd 1 (L "a")] /\ run es = Ok s /\ read_xml s = Some is /\
  is <> [I_start (L "a") [(k, Some v)]; I_end (L "a")].
Proof.
  exists (L "title"), (L "x" ++ [c_nl] ++ L "y"). eexists. eexists. eexists. split; [reflexivity|]. split; [vm_compute; reflexivity|]. split; [vm_compute; reflexivity|]. intros E. vm_compute in E. discriminate.
Qed.
Print Assumptions C42_blank_refuted.
(** A carriage return in a text (written [&#13;] in the template) is written as itself, and read as a line break. *)
Theorem C42_return_refuted : exists t es s is, es = [EStart 1 (L "a") []; EChars 1 t; EEnd 1 (L "a")] /\ run es = Ok s /\ read_xml s = Some is /\
  is <> [I_start (L "a") []] ++ map I_char t ++ [I_end (L "a")].
Proof.
  exists [13%N]. eexists. eexists. eexists. split; [reflexivity|]. split; [vm_compute; reflexivity|]. split; [vm_compute; reflexivity|]. intros E. vm_compute in E. discriminate.
Qed.
Print Assumptions C42_return_refuted.
(** The text of a script is put between [/*<![CDATA[*/] and [/*]]>*/], so it is read with comments around it. *)
Theorem C42_script_refuted : exists t es s, es = [EStart 1 (L "script") []; EChars 1 t; EEnd 1 (L "script")] /\ run es = Ok s /\
  read_xml s = Some ([I_start (L "script") []] ++ map I_char (L "/**/" ++ t ++ L "/**/") ++ [I_end (L "script")]).
Proof.
  exists (L "x<y"). eexists. eexists. split; [reflexivity|]. split; [vm_compute; reflexivity|]. vm_compute. reflexivity.
Qed.
Print Assumptions C42_script_refuted.

(** A dollar sign written as a character reference is still the beginning of an expression: here [&#36;x]. *)
Theorem C42_dollar_refuted : exists es, es = [EStart 1 (L "a") []; EChars 1 (L "$"); EChars 1 (L "x"); EEnd 1 (L "a")] /\
  run es <> Ok (L "<a>$x</a>").
Proof. eexists. split; [reflexivity|]. intros E. vm_compute in E. discriminate. Qed.
Print Assumptions C42_dollar_refuted.
(** In HTML what stands in a void element is read after it. *)
Theorem C42_void_refuted : exists tag t es s, es = [EStart 1 tag []; EChars 1 t; EEnd 1 tag] /\ run_as (L "html") false es = Ok s /\
  read true s = Some ([I_start tag []; I_end tag] ++ map I_char t).
Proof. exists (L "br"), (L "x"). eexists. eexists. split; [reflexivity|]. split; vm_compute; reflexivity. Qed.
Print Assumptions C42_void_refuted.

(** ** C43: start and end tags are properly nested

    What a document renders is written according to the grammar, with values that are shown as
    text or are properly nested themselves; in script and style elements and in CDATA sections values are
    shown as text, and what stands around them is as [raw_stm] says (see C78).  Partial: CDATA sections in directives
    are left out; so are functions, blocks, imports and embedded Python, as in C61.
    [py:strip] with a condition that changes while the template runs is left out as well: the
    claim is false for it ([C30_rebound_refuted]). *)
Theorem C43_nested_partial : forall compile helper autoblocks scripts mode html texts py (gen user : str -> Prop) (frag : bool) d root ps ss (line : str) e,
  (forall i, gen (helper i)) -> hygienic py gen user ->
  filter no_comment (d_children d) = [root] ->
  says compile autoblocks scripts mode [] [] root ps -> assemble ps = Some ss -> Forall (user_stm gen user) ss ->
  (if frag then line = [] else doctype_line mode (d_dtd d) line) ->
  (html = true <-> is_html mode) -> gentle py html texts -> ordinary py html texts compile scripts mode root -> safe_env html texts e ->
  exists body, compile_document compile helper autoblocks scripts mode frag d =
      Ok (TemplateNode 0 [] [NDef 0 false (L "__main__()") body]) /\
    forall out w sw, rmap (fun r => (render (fst (fst r)), snd (fst r), snd r)) (exec_body py (programs body) e [] []) = Ok (out, w, sw) ->
      exists s is, out = line ++ s /\ written html is s /\ read html s = Some is /\ balanced is.
Proof.
  intros compile helper autoblocks scripts mode html texts py gen user frag d root ps ss line e Hg Hy Fl S A U Hl Hm G O Se.
  destruct (document_renders compile helper autoblocks scripts mode py gen user frag d root ps ss line e Hg Hy Fl S A U Hl) as (body & Ec & Er).
  exists body. split; [exact Ec|]. intros out w sw E. rewrite Er in E. destruct (means py ss e) as [[o e']|] eqn:M; [|discriminate]. cbn [rmap fst] in E. injection E as <- <- <-.
  assert (Hmode : prefixb (L "html") mode = html) by (unfold is_html in Hm; destruct html, (prefixb (L "html") mode); destruct Hm as [H1 H2]; try reflexivity; [specialize (H1 eq_refl)|specialize (H2 eq_refl)]; discriminate).
  destruct (says_written py html texts mode Hmode G compile autoblocks scripts [] [] root ps ss e o e' S A O Se M) as [is W].
  exists (render o), is. split; [reflexivity|]. split; [exact W|]. split; [now apply read_written|now apply (C43_balanced html is (render o))].
Qed.
Print Assumptions C43_nested_partial.

(** Safe values: nothing, plain values, objects with an [__html__] that is properly nested, and sequences of
    properly nested pieces ([literal]). *)
Theorem C43_plain : forall html v, v = VNone \/ S_Values.plain v -> safe html v.
Proof.
  intros html v [->|P]; [exists []; constructor|]. exists (map I_char (to_str v)).
  assert (escape v = VStr (escape_str (to_str v))) as -> by (destruct v; try destruct P; reflexivity). rewrite render_str. apply written_of_text, written_escape.
Qed.
Print Assumptions C43_plain.
Theorem C43_markup : forall html h s, (exists is, written html is h) <-> safe html (VHtml h s).
Proof. intros html h s. unfold safe. cbn [escape]. rewrite render_str. reflexivity. Qed.
Print Assumptions C43_markup.
Theorem C43_literal : forall html vs, Forall (fun v => exists is, written html is (render [v])) vs -> safe html (VFlat vs).
Proof.
  intros html vs F. unfold safe. cbn [escape].
  assert (E : render [VFlat vs] = concat (map (fun v => render [v]) vs)).
  { unfold render, tpl_iter, flat_iter. cbn [flat_map]. rewrite app_nil_r. cbn [flat_item].
    assert (Q : forall v, In VNone (flat_item v) -> False).
    { intros v. induction v; cbn [flat_item]; try (intros [X|[]]; discriminate X); try (intros []). intros I1. apply filter_In in I1. destruct I1 as [_ X]. discriminate X. }
    clear F. induction vs as [|v vs IH]; [reflexivity|]. rewrite filter_app, map_app, concat_app, IH. cbn [map concat]. f_equal. cbn [flat_map]. rewrite app_nil_r. f_equal. f_equal. specialize (Q v). revert Q. generalize (flat_item v). clear.
    induction l as [|x l IH]; intros Q; [reflexivity|]. cbn [filter]. destruct x; try (f_equal; apply IH; intros I1; apply Q; now right). destruct Q. now left. }
  rewrite E. clear E. induction F as [|v vs [i W] F [i' W']]; [exists []; constructor|]. exists (i ++ i'). cbn [map concat]. now apply written_app.
Qed.
Print Assumptions C43_literal.

(** [<ul class="c$x"><li py:for="i in 012">$i: <b py:strip="">a&lt;b</b></li></ul>], expanded. *)
Definition ndoc : dnode :=
  DElem 1 (L "ul") [(L "class", L "c$x")]
    [DElem 2 (L "py:for") [(L "each", L "i in 012")]
       [DElem 2 (L "li") []
          [DText 2 (L "$i: ") true; DElem 2 (L "b") [(L "py:strip", [])] [DText 2 (L "a&lt;b") true]]]].
Definition ndoc_says : list stm :=
  [SText (L "<ul") None; SAttr (L "class") [SText (L "c") None; SExpr (L "x") true] None (L "xml"); SText (L ">") None;
   SFor (L "i in 012")
     [SText (L "<li") None; SText (L ">") None; SExpr (L "i") false; STrans (L ": ") None;
      SText (L "<b") (Some (L "False")); SText (L ">") (Some (L "False")); STrans (L "a&lt;b") None;
      SText (L "</b>") (Some (L "False")); SText (L "</li>") None] [];
   SText (L "</ul>") None].
Lemma ndoc_reads : exists ps, says xex_compile [] true (L "xml") [] [] ndoc ps /\ assemble ps = Some ndoc_says.
Proof.
  assert (V : forall k v, absent k [] /\ no_content_attr [(L "class", v)] /\ no_content_attr [] /\ no_content_attr [(L "py:strip", v)]).
  { intros k v. split; [intros []|]. repeat split; left; intros H; try destruct H as [H|H]; try discriminate; destruct H. }
  eexists. split.
  - unfold ndoc. eapply (sy_elem _ _ _ _ _ _ _ _ _ _ None [(L "class", L "c$x")]); try reflexivity; try (intros []).
    + repeat constructor. intros [].
    + apply tc_none. intros [H|[]]. discriminate.
    + repeat constructor.
    + eapply as_attr; [intros [H|[H|H]]; discriminate| |constructor].
      apply reads_by; [vm_compute; reflexivity|]. repeat (constructor; try exact Logic.I). apply simple_name. discriminate.
    + apply ma_none. left. intros [H|[]]. discriminate.
    + eapply rs_children; [apply (V [])|discriminate|intros [_ S]; now apply (ex_tag (L "ul") eq_refl)|intros [S _]; discriminate|].
      eapply al_node; [now right| |constructor]. eapply sy_for; [intros []|reflexivity| |].
      * eapply al_node; [now left| |constructor]. eapply ex_plain; [reflexivity|reflexivity|discriminate|].
        eapply al_node; [now right| |eapply al_node; [now right| |constructor]].
           ++ apply sy_text. apply ts_text; [discriminate|now apply (ex_tag (L "li") eq_refl)|].
              apply reads_by; [vm_compute; reflexivity|]. repeat (constructor; try exact Logic.I). apply simple_name. discriminate.
           ++ eapply (sy_elem _ _ _ _ _ _ _ _ _ _ (Some (L "False")) [(L "py:strip", [])]); try reflexivity; try (intros []).
              ** repeat constructor. intros [].
              ** apply tc_always. now left.
              ** repeat constructor.
              ** eapply (as_special _ _ _ _ _ _ _ _ []); [right; now right|intros H; now destruct H|constructor].
              ** apply ma_none. left. intros [H|[]]. discriminate.
              ** eapply rs_children; [apply (V [])|discriminate|intros [_ S]; now apply (ex_tag (L "b") eq_refl)|intros [S _]; discriminate|].
                 eapply al_node; [now right| |constructor]. apply sy_text. apply ts_text; [discriminate|now apply (ex_tag (L "b") eq_refl)|].
                 apply reads_by; [vm_compute; reflexivity|]. repeat (constructor; try exact Logic.I).
      * vm_compute. reflexivity.
  - vm_compute. reflexivity.
Qed.
Lemma xpy_gentle : forall html texts, gentle xpy html texts.
Proof.
  intros html texts. constructor.
  - intros e x v Se E. cbn [ev xpy] in E. unfold ex_value in E. destruct (lookup x e) as [w|] eqn:Lk; [injection E as <-; now apply (safe_lookup html texts e x)|].
    destruct x as [|c [|? ?]]; try discriminate. destruct ((48 <=? c) && (c <=? 57))%N; [|discriminate]. injection E as <-. apply C43_plain. now right.
  - intros e x rounds Se E. cbn [ev_for xpy ex_python] in E. revert E.
    repeat match goal with |- match ?c with _ => _ end = _ -> _ => destruct c end; intros E; try discriminate E.
    all: injection E as <-; apply Forall_forall; intros r I1; apply in_map_iff in I1; destruct I1 as (i & <- & _); constructor; [|constructor]; split; [apply C43_plain; now right|intros _; apply plain_as_text; now right].
  - intros t v W. exists v. cbn [trans xpy]. now rewrite render_str.
  - intros e x attrs Se E. cbn [ev_attrs xpy ex_python] in E. injection E as <-. constructor.
Qed.
Example C43_example :
  (forall i, ex_gen (L "_kj" ++ dec (N.of_nat i))) /\ hygienic xpy ex_gen xuser /\
  (exists ps, says xex_compile [] true (L "xml") [] [] ndoc ps /\ assemble ps = Some ndoc_says) /\
  Forall (user_stm ex_gen xuser) ndoc_says /\ gentle xpy false (eq (L "y")) /\ ordinary xpy false (eq (L "y")) xex_compile true (L "xml") ndoc /\
  safe_env false (eq (L "y")) [(L "x", VHtml (L "<u>0</u>") (L "0"))] /\
  rmap (fun oe => render (fst oe)) (means xpy ndoc_says [(L "x", VStr (L "0"))]) =
  Ok (L "<ul class=""c0""><li>0: a&lt;b</li><li>1: a&lt;b</li><li>2: a&lt;b</li></ul>").
Proof.
  split; [reflexivity|]. split; [exact xpy_hygienic|]. split; [exact ndoc_reads|]. split; [unfold ndoc_says; repeat constructor|]. split; [apply xpy_gentle|]. split; [|split].
  - assert (T : forall ln s e, ordinary xpy false (eq (L "y")) xex_compile true (L "xml") (DText ln (xml_text s) e)) by (intros; constructor).
    assert (Pl : forall tag, smem tag (html_optional_end_tags ++ html_cdata_tags) = false -> ~ (script_or_style tag /\ (true = true \/ false = true))) by (intros tag E [X _]; now apply (ex_tag tag E)).
    apply od_elem; try (split; [discriminate|reflexivity]); try reflexivity; try discriminate; [now apply Pl| | |apply os_node; [|constructor]].
    + intros k v [E|[]] _. injection E as <- _. split; [discriminate|reflexivity].
    + intros g Tc. destruct Tc as [_|V|c V Nc]; [exact Logic.I| |]; destruct V as [V|[]]; discriminate.
    + apply od_directive; [reflexivity|discriminate|]. constructor; [|constructor].
      apply od_elem; try (split; [discriminate|reflexivity]); try reflexivity; try discriminate; [now apply Pl|intros k v []| |apply os_node; [|apply os_node; [|constructor]]].
      * intros g Tc. destruct Tc as [_|V|c V Nc]; [exact Logic.I| |]; destruct V.
      * apply (T 2 (L "$i: ") true).
      * apply od_elem; try (split; [discriminate|reflexivity]); try reflexivity; try discriminate; [now apply Pl| | |apply os_node; [apply (T 2 (L "a<b") true)|constructor]].
        -- intros k v [E|[]] Ns. injection E as <- _. destruct Ns. right. now right.
        -- intros g Tc. destruct Tc as [_|V|c V Nc]; [exact Logic.I|exists false; reflexivity|]. destruct V as [V|[]]. injection V as <-. now destruct Nc.
  - constructor; [|constructor]. cbn [snd]. split; [|discriminate]. apply C43_markup. exists (I_start (L "u") [] :: [I_char 48%N] ++ [I_end (L "u")]).
    apply (w_elem false (L "u") [] [] [I_char 48%N] (L "0") [] []); try (split; [discriminate|reflexivity]); try reflexivity; try constructor; try (intros [X _]; discriminate X).
    + apply (w_char false 48%N (L "0") [] []); [|constructor]. constructor; discriminate.
  - vm_compute. reflexivity.
Qed.
