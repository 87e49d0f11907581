(** * Properties of message extraction (C44) *)

From Coq Require Import Ascii String List NArith ZArith Bool.
From Verif Require Import PyStr PyStrLemmas M_Values M_IR M_Exec S_IR M_Text M_XText M_Dom M_Doctype M_XCompile M_I18n S_XDoc S_XFun S_I18n
  P_XFun P_XFun2 P_I18n P_I18n2 P_I18n3 P_I18n4.
From Verif Require Import Props_Exec Props_XText Props_XDoc.
Import ListNotations.
Open Scope list_scope.

(** ** What is extracted is what is called

    The messages of a template are the arguments of the calls of [gettext] in the Python generated
    from it, in their order and with the line numbers of their lines. *)
Theorem C44_calls : forall t, messages t = gettext_calls (generate_python t).
Proof. intros t. symmetry. apply template_calls. Qed.
Print Assumptions C44_calls.
Example C44_calls_example :
  let t := TemplateNode 0 [] [NDef 0 false (L "__main__()")
             [NText 1 (L "<p>") None; NTrans 1 (L "Hello ") None; NExpr 1 (L "x") false;
              NIf 2 (L "x") [NTrans 2 (L " you ") None; NTrans 3 (L "two") None]; NText 3 (L "</p>") None]] in
  messages t = [(1, L "Hello "); (2, L " you "); (3, L "two")] /\ gettext_calls (generate_python t) = messages t.
Proof. vm_compute. now split. Qed.

(** ** No other message matters

    Rendering does not depend on what [gettext] does with any other string. *)
Theorem C44_renders : forall py f l e w sw,
  (forall m, In m (map snd (flat_map node_messages l)) -> f m = trans py m) ->
  exec_body py (programs l) e w sw = exec_body (with_gettext py f) (programs l) e w sw.
Proof. intros py f. exact (body_same py f). Qed.
Print Assumptions C44_renders.
Example C44_renders_example :
  let l := [NTrans 1 (L "Hello ") None; NIf 2 (L "x") [NTrans 2 (L "you") None]] in
  let f := fun m => if seqb m (L "you") then VStr (L "toi") else VStr (L "Salut ") in
  map snd (flat_map node_messages l) = [L "Hello "; L "you"] /\
  rmap (fun r => render (fst (fst r))) (exec_body (with_gettext ex_python f) (programs l) [(L "x", VStr (L "1"))] [] []) = Ok (L "Salut toi").
Proof. vm_compute. now split. Qed.

(** ** In the document

    The messages of a compiled document are those of its texts.  A function declared twice keeps the
    last body only, so that the other direction needs different names. *)
Theorem C44_document : forall compile helper autoblocks cdata_scripts mode frag d t,
  compile_document compile helper autoblocks cdata_scripts mode frag d = Ok t ->
  exists root l, filter no_comment (d_children d) = [root] /\ declares autoblocks cdata_scripts false root l /\
    (forall x, In x (messages t) -> message_in compile autoblocks cdata_scripts [] root x) /\
    (NoDup (L "__main__()" :: declared_names l) -> forall x, message_in compile autoblocks cdata_scripts [] root x -> In x (messages t)).
Proof. exact document_messages. Qed.
Print Assumptions C44_document.
(** So they do not depend on the mode, on [is_fragment], nor on the names of helper functions: the
    extractor needs no knowledge of how the document is rendered. *)
Theorem C44_mode : forall compile helper helper' autoblocks cdata_scripts mode mode' frag frag' d t t',
  compile_document compile helper autoblocks cdata_scripts mode frag d = Ok t ->
  compile_document compile helper' autoblocks cdata_scripts mode' frag' d = Ok t' ->
  (forall root l, filter no_comment (d_children d) = [root] -> declares autoblocks cdata_scripts false root l -> NoDup (L "__main__()" :: declared_names l)) ->
  forall x, In x (messages t) <-> In x (messages t').
Proof.
  intros compile helper helper' autoblocks cdata_scripts mode mode' frag frag' d t t' E E' ND x.
  destruct (document_messages _ _ _ _ _ _ _ _ E) as (root & l & R & D & A & B). destruct (document_messages _ _ _ _ _ _ _ _ E') as (root' & l' & R' & D' & A' & B').
  assert (root' = root) by congruence. subst root'. split; intros I1; [apply B'|apply B]; eauto.
Qed.
Print Assumptions C44_mode.
(** What the extractor reports are the calls of [gettext] in the Python of the template compiled from
    the same source without [autoblocks]. *)
Theorem C44_extract : forall expat compile helper mode frag strip_text source xs,
  extract expat compile helper mode frag strip_text source = Ok xs ->
  exists events nodes t, expat (snd (parser_source source)) = Ok events /\ build events = Ok nodes /\
    compile_document compile helper [] true
      (rendering_mode (Some (match mode with Some m => m | None => L "xml" end)) (fst (parser_source source))) frag
      (transform strip_text (Document (fst (parser_source source)) nodes)) = Ok t /\
    xs = gettext_calls (generate_python t).
Proof.
  intros expat compile helper mode frag st source xs E. unfold extract in E. destruct (parser_source source) as [dtd src] eqn:Ep. cbn [fst snd].
  destruct (expat src) as [events|] eqn:E1; [|discriminate]. cbn [rbind] in E. destruct (build events) as [nodes|] eqn:E2; [|discriminate]. cbn [rbind] in E.
  match type of E with rmap _ ?m = _ => destruct m as [t|] eqn:E3 end; [|discriminate]. cbn [rmap] in E.
  exists events, nodes, t. repeat split; auto. rewrite template_calls. congruence.
Qed.
Print Assumptions C44_extract.

(** [<div title="T">One $x two<script>var a</script><p py:if="x"> three</p></div>], expanded. *)
Definition mdoc : dnode :=
  DElem 1 (L "div") [(L "title", L "T")]
    [DText 1 (L "One $x two") true; DElem 2 (L "script") [] [DText 2 (L "var a") true];
     DElem 3 (L "py:if") [(L "test", L "x")] [DElem 3 (L "p") [] [DText 3 (L " three") true]]; DText 4 (L "  ") true].
Definition mhelper (i : nat) : str := L "_kj_" ++ dec (N.of_nat i).
Lemma mdoc_declares : declares [] true false mdoc [].
Proof.
  unfold mdoc. apply de_inner; [apply ro_elem; [intros [[] _]|now apply ex_plain_tag|reflexivity|intros [_ [E|E]]; discriminate]|].
  apply (da_cons [] true false _ _ [] []); [constructor|]. apply (da_cons [] true false _ _ [] []).
  - apply de_leaf. apply ro_script; [intros [[] _]|now apply ex_plain_tag|reflexivity|reflexivity|]. now left.
  - apply (da_cons [] true false _ _ [] []); [|apply (da_cons [] true false _ _ [] []); constructor].
    apply de_inner; [apply (ro_inner [] true _ _ (L "if")); [intros [[] _]|now apply ex_directive|cbn; tauto]|].
    apply (da_cons [] true false _ _ [] []); [|constructor].
    apply de_inner; [apply ro_elem; [intros [[] _]|now apply ex_plain_tag|reflexivity|intros [_ [E|E]]; discriminate]|].
    apply (da_cons [] true false _ _ [] []); constructor.
Qed.
Example C44_document_example :
  exists t, compile_document xex_compile mhelper [] true (L "xml") false (Document [] [mdoc]) = Ok t /\
    messages t = [(1, L "One "); (1, L " two"); (3, L " three")] /\
    (exists t', compile_document xex_compile mhelper [] true (L "html5") true (Document [] [mdoc]) = Ok t' /\ messages t' = messages t) /\
    forall root l, filter no_comment (d_children (Document [] [mdoc])) = [root] -> declares [] true false root l -> NoDup (L "__main__()" :: declared_names l).
Proof.
  eexists. split; [vm_compute; reflexivity|]. split; [vm_compute; reflexivity|]. split; [eexists; split; vm_compute; reflexivity|].
  intros root l R D. cbn [d_children filter no_comment] in R. injection R as <-.
  rewrite <- (proj1 (declares_unique [] true) _ _ _ mdoc_declares _ D). repeat constructor. intros [].
Qed.
Example C44_extract_example :
  extract (fun _ => Ok [EStart 1 (L "p") []; EChars 1 (L "Hi $x"); EEnd 2 (L "p")]) xex_compile mhelper None false false (L "<p>Hi $x</p>") = Ok [(1, L "Hi ")].
Proof. vm_compute. reflexivity. Qed.

(** ** Autoblocks

    The extractor knows nothing of [autoblocks].  An element that becomes a block shows its content
    even when it has [py:content]: its messages are translated and never extracted. *)
Theorem C44_autoblocks_refuted : exists d t t' m,
  compile_document xex_compile mhelper [L "div"] true (L "xml") false d = Ok t /\
  compile_document xex_compile mhelper [] true (L "xml") false d = Ok t' /\
  In m (gettext_calls (generate_python t)) /\ messages t' = [].
Proof.
  exists (Document [] [DElem 1 (L "body") [] [DElem 1 (L "div") [(L "py:content", L "x")] [DText 1 (L "Hi") true]]]).
  eexists. eexists. exists (1, L "Hi"). split; [vm_compute; reflexivity|]. split; [vm_compute; reflexivity|]. split; [vm_compute; now left|vm_compute; reflexivity].
Qed.
Print Assumptions C44_autoblocks_refuted.

(** ** The option [extract_python]

    Without it (or without Babel) the extractor reports the messages above, each as a call of [_] with one
    argument and without comments, and fails only if the document cannot be compiled. *)
Theorem C44_without_python : forall expat compile helper mode frag strip_text source,
  extract_entries expat compile helper None mode frag strip_text source =
  rmap (fun xs => (map (fun x => Entry (fst x) (L "_", One (snd x), [])) xs, None))
    (extract expat compile helper mode frag strip_text source).
Proof.
  intros. unfold extract_entries, extract. destruct (parser_source source) as [dtd src]. destruct (expat src) as [events|]; [|reflexivity]. cbn [rbind].
  destruct (build events) as [nodes|]; [|reflexivity]. cbn [rbind]. destruct (compile_document _ _ _ _ _ _ _) as [t|]; [|reflexivity]. cbn [rmap rbind].
  now rewrite yields_none, (proj1 (steps_split t)).
Qed.
Print Assumptions C44_without_python.
(** With it: nothing but the messages of texts and what Babel finds in the expressions that are shown; all of
    them if the generator comes to its end, and then Babel has failed on none of them; otherwise Babel
    failed on an expression, and a syntax error is reported with the line of that expression. *)
Theorem C44_python : forall expat compile helper b mode frag strip_text source es end_,
  extract_entries expat compile helper (Some b) mode frag strip_text source = Ok (es, end_) ->
  exists events nodes root l, expat (snd (parser_source source)) = Ok events /\ build events = Ok nodes /\
    filter no_comment (d_children (transform strip_text (Document (fst (parser_source source)) nodes))) = [root] /\
    declares [] true false root l /\
    (forall e, In e es -> reported compile [] true b true root e) /\
    (NoDup (L "__main__()" :: declared_names l) -> end_ = None ->
       (forall e, reported compile [] true b false root e -> In e es) /\
       (forall ln e, expression_in compile [] true false root (ln, e) -> snd (b e) = None)) /\
    (forall f, end_ = Some f -> exists ln e x, expression_in compile [] true true root (ln, e) /\ snd (b e) = Some x /\
       (syntax_error x -> f = Refused ln) /\ (~ syntax_error x -> f = Passed x)).
Proof.
  intros expat compile helper b mode frag st source es fl E. unfold extract_entries in E. destruct (parser_source source) as [dtd src] eqn:Ep. cbn [fst snd].
  destruct (expat src) as [events|] eqn:E1; [|discriminate]. cbn [rbind] in E. destruct (build events) as [nodes|] eqn:E2; [|discriminate]. cbn [rbind] in E.
  match type of E with rmap _ ?m = _ => destruct m as [t|] eqn:E3 end; [|discriminate]. cbn [rmap] in E. injection E as E.
  destruct (document_messages _ _ _ _ _ _ _ _ E3) as (root & l & R & D & A & B). destruct (document_exprs _ _ _ _ _ _ _ _ E3) as (root' & l' & R' & D' & A' & B').
  assert (root' = root) by congruence. subst root'. pose proof (proj1 (declares_unique [] true) _ _ _ D _ D') as <-.
  exists events, nodes, root, l. split; [reflexivity|]. split; [exact E2|]. split; [exact R|]. split; [exact D|].
  assert (Sub : forall s e, In s (steps t) -> In e (step_entries b s) -> reported compile [] true b true root e).
  { intros [ln [m|x]] e I1 I2; cbn [step_entries] in I2.
    - destruct (strip m) eqn:Es; [destruct I2|]. destruct I2 as [<-|[]]. apply rp_message, A, steps_text. split; [exact I1|congruence].
    - apply in_map_iff in I2 as (f & <- & I2). apply (rp_found _ _ _ _ _ _ _ x); [|exact I2]. apply A'. now apply steps_expr. }
  destruct (yields_what b (steps t)) as [[F Y]|(l1 & s & l2 & ln & x & El & F & Ef & Y)]; rewrite Y in E; injection E as E4 E5; subst es fl.
  - split; [intros e Ie; apply in_flat_map in Ie as (s & I1 & I2); eauto|]. split; [|discriminate]. intros ND _. split.
    + intros e [ln m Mm|ln x f Mx If]; apply in_flat_map.
      * apply (B ND), steps_text in Mm as [I1 N]. exists (ln, StText m). split; [exact I1|]. cbn [step_entries]. destruct (strip m); [now destruct N|now left].
      * apply (B' ND), steps_expr in Mx. exists (ln, StExpr x). split; [exact Mx|]. now apply in_map.
    + intros ln e Me. apply (B' ND), steps_expr in Me. rewrite Forall_forall in F. apply F in Me. cbn [fails] in Me. now destruct (snd (b e)).
  - split.
    { intros e Ie. apply in_flat_map in Ie as (s' & I1 & I2). apply (Sub s'); [|exact I2]. rewrite El. apply in_or_app. apply in_app_or in I1 as [I1|[<-|[]]]; [now left|right; now left]. }
    split; [discriminate|]. intros f Ef'. injection Ef' as <-. destruct s as [ln' [m|e]]; [discriminate|]. cbn [fails] in Ef. destruct (snd (b e)) as [x'|] eqn:Eb; [|discriminate].
    assert (ln' = ln /\ x' = x) as [-> ->] by (split; congruence). exists ln, e, x. split; [apply A', steps_expr; rewrite El; apply in_elt|]. split; [exact Eb|].
    unfold failed, syntax_errors. cbn [existsb]. unfold syntax_error.
    destruct (String.eqb_spec x "TokenError"), (String.eqb_spec x "SyntaxError"), (String.eqb_spec x "IndentationError"), (String.eqb_spec x "TabError"); cbn [orb]; split; intros H; try reflexivity; exfalso; tauto.
Qed.
Print Assumptions C44_python.
(** What was reported before the failure is all that stands before that expression. *)
Theorem C44_python_before : forall b t es f, yields (Some b) (steps t) = (es, Some f) ->
  exists l1 ln e l2 x, steps t = l1 ++ (ln, StExpr e) :: l2 /\ snd (b e) = Some x /\
    (forall ln' e', In (ln', StExpr e') l1 -> snd (b e') = None) /\
    yields (Some b) l1 = (fst (yields (Some b) l1), None) /\ es = fst (yields (Some b) l1) ++ map (Entry ln) (fst (b e)).
Proof.
  intros b t es f E. destruct (yields_what b (steps t)) as [[F Y]|(l1 & s & l2 & ln & x & El & F & Ef & Y)]; rewrite Y in E; [discriminate|]. injection E as <- _.
  destruct s as [ln' [m|e]]; [discriminate|]. cbn [fails] in Ef. destruct (snd (b e)) as [x'|] eqn:Eb; [|discriminate].
  exists l1, ln', e, l2, x'. split; [exact El|]. split; [exact Eb|]. rewrite Forall_forall in F. split.
  { intros ln2 e2 I2. apply F in I2. cbn [fails] in I2. now destruct (snd (b e2)). }
  destruct (yields_what b l1) as [[_ Y1]|(l3 & s & l4 & ln3 & x3 & -> & _ & Ef3 & _)].
  - rewrite Y1. cbn [fst]. split; [reflexivity|]. rewrite flat_map_app. cbn [flat_map step_entries]. now rewrite app_nil_r.
  - exfalso. specialize (F s (in_elt _ _ _)). congruence.
Qed.
Print Assumptions C44_python_before.

(** [<p title="$t">Hi ${_('you')}</p>]: Babel is shown as a function that finds a call of [_] in the expression
    [_('you')] and fails on [t]. *)
Definition ex_babel (bad : str) (e : str) : list found * option string :=
  if seqb e bad then ([], Some "SyntaxError"%string)
  else if seqb e (L "_('you')") then ([(L "_", One (L "you"), [])], None) else ([], None).
Definition ex_events : list event :=
  [EStart 1 (L "p") [(L "title", L "$t")]; EChars 1 (L "Hi "); EChars 2 (L "${_('you')}"); EEnd 2 (L "p")].
Example C44_python_example :
  extract_entries (fun _ => Ok ex_events) xex_compile mhelper (Some (ex_babel (L "u"))) None false false (L "<p/>") =
    Ok ([Entry 1 (L "_", One (L "Hi "), []); Entry 1 (L "_", One (L "you"), [])], None) /\
  extract_entries (fun _ => Ok ex_events) xex_compile mhelper (Some (ex_babel (L "t"))) None false false (L "<p/>") =
    Ok ([], Some (Refused 1)) /\
  (forall l, declares [] true false (DElem 1 (L "p") [(L "title", L "$t")] [DText 1 (L "Hi ${_('you')}") true]) l -> NoDup (L "__main__()" :: declared_names l)).
Proof.
  split; [vm_compute; reflexivity|]. split; [vm_compute; reflexivity|]. intros l D.
  assert (D0 : declares [] true false (DElem 1 (L "p") [(L "title", L "$t")] [DText 1 (L "Hi ${_('you')}") true]) []).
  { apply de_inner; [apply ro_elem; [intros [[] _]|now apply ex_plain_tag|reflexivity|intros [_ [E|E]]; discriminate]|]. apply (da_cons [] true false _ _ [] []); constructor. }
  rewrite <- (proj1 (declares_unique [] true) _ _ _ D0 _ D). repeat constructor. intros [].
Qed.

(** Expressions that are not shown are not read, even with the option: the messages in the arguments of directives
    are missed. [<p py:if="_('you')"/>] *)
Theorem C44_directive_refuted : forall b : babel, b (L "_('you')") = ([(L "_", One (L "you"), [])], None) ->
  exists events, extract_entries (fun _ => Ok events) xex_compile mhelper (Some b) None false false (L "<p/>") = Ok ([], None) /\
  In (L "py:if", L "_('you')") (flat_map (fun e => match e with EStart _ _ a => a | _ => [] end) events).
Proof.
  intros b Eb. exists [EStart 1 (L "p") [(L "py:if", L "_('you')")]; EEnd 1 (L "p")]. split; [vm_compute; reflexivity|]. now left.
Qed.
Print Assumptions C44_directive_refuted.
