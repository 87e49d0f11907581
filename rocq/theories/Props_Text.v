(** * Properties of text templates (C31 - C35)

    [compile] is Python's compiler as the scanner uses it, [shlex_split] and [helper] (the names
    drawn for calls) are any functions. *)

From Coq Require Import Ascii String List Arith NArith ZArith Bool.
From Verif Require Import PyStr PyStrLemmas Regex M_NameGen M_Values M_IR S_IR M_Exec M_Text S_Text P_Text3 P_Text5 P_Text6 P_Text7 P_Text8 P_Text4 S_TextTree P_Text9 P_TextPlace.
Import ListNotations.
Open Scope list_scope.

(** ** C31: templates without directives render themselves *)

Theorem C31_plain : forall compile shlex_split helper autoescape source,
  source <> [] -> ~ In c_dollar source -> ~ In c_pct source -> ~ In c_bsl source ->
  exists ln, text_template compile shlex_split helper autoescape source =
    Ok (TemplateNode 0 [] [NDef 0 false (L "__main__()") [NText ln source None]]) /\
  forall py e w sw, exists o,
    exec_body py (programs [NText ln source None]) e w sw = Ok (o, w, sw) /\ render o = source.
Proof.
  intros compile shlex_split helper autoescape source Ne Nd Np Nb. exists (1 + count_nl source). split.
  - unfold text_template. destruct source as [|c s]; [congruence|]. rewrite scan_plain by assumption.
    rewrite (parse_written autoescape shlex_split helper (F_text (1 + count_nl (c :: s)) (c :: s) F_nil)).
    + reflexivity.
    + constructor; [|constructor]. now apply unescaped_plain.
    + exact I.
  - intros py e w sw. exists [VStr source]. split; [|cbn; now rewrite app_nil_r].
    unfold exec_body. cbn [programs flat_map]. destruct source; [congruence|reflexivity].
Qed.
Print Assumptions C31_plain.
Example C31_example : L "Dear {name}," <> [] /\ ~ In c_dollar (L "Dear {name},") /\ ~ In c_pct (L "Dear {name},") /\ ~ In c_bsl (L "Dear {name},").
Proof. split; [discriminate|]. repeat split; cbn; intuition discriminate. Qed.

(** The empty source is refused. *)
Theorem C31_empty_refuted : forall compile shlex_split helper autoescape,
  text_template compile shlex_split helper autoescape [] = Raise "AssertionError".
Proof. reflexivity. Qed.
Print Assumptions C31_empty_refuted.

(** ** C32: the scanner accounts for every character *)

(** Whenever the scanner succeeds (no exception, no [None]), provided Python stops at a closing
    brace after each opening one of the source: the tokens are what the lexical grammar reads. *)
Theorem C32_partial : forall compile source,
  (forall u s l o, source = u ++ L "${" ++ s -> compile s = CErr l o -> exists e v, s = e ++ L "}" ++ v /\ expr_end s l o = length e + 1) ->
  Forall tok_ok (scan compile source) ->
  grammar compile None 1 source (scan compile source).
Proof. intros compile source H O. apply lex_grammar, scan_lex; assumption. Qed.
Print Assumptions C32_partial.
(** In particular the source is a sequence of consecutive pieces, one for each token. *)
Theorem C32_spans_partial : forall compile source,
  (forall u s l o, source = u ++ L "${" ++ s -> compile s = CErr l o -> exists e v, s = e ++ L "}" ++ v /\ expr_end s l o = length e + 1) ->
  Forall tok_ok (scan compile source) ->
  exists pieces, source = concat pieces /\ Forall2 spells pieces (scan compile source).
Proof. intros compile source H O. eapply grammar_spans. apply C32_partial; eassumption. Qed.
Print Assumptions C32_spans_partial.

(** A source that the exact grammar reads is read so by the scanner, whatever Python does elsewhere. *)
Theorem C32_read : forall compile source ts, lex compile None 1 source ts -> scan compile source = ts.
Proof. exact lex_scan. Qed.
Print Assumptions C32_read.
(** With the same condition on braces, the scanner succeeds on no others. *)
Theorem C32_exact_partial : forall compile source ts,
  (forall u s l o, source = u ++ L "${" ++ s -> compile s = CErr l o -> exists e v, s = e ++ L "}" ++ v /\ expr_end s l o = length e + 1) ->
  lex compile None 1 source ts <-> scan compile source = ts /\ Forall tok_ok ts.
Proof.
  intros compile source ts H. split.
  - intros X. split; [now apply lex_scan|now apply lex_ok in X].
  - intros [<- O]. now apply scan_lex.
Qed.
Print Assumptions C32_exact_partial.

(** A compiler that stops at the first closing brace. *)
Definition ex_compile (s : str) : compiled :=
  match find (L "}") s with Some i => CErr 1 (i + 1) | None => COk end.
Definition ex_source : str :=
  L "Hi $$ $a.b! " ++ [c_nl] ++ L "  %for x in y" ++ [c_nl] ++ L "50% {%if x -%}  <${x}> {%end%}" ++ [c_nl] ++ L " %end".
Example C32_example :
  (forall u s l o, ex_source = u ++ L "${" ++ s -> ex_compile s = CErr l o -> exists e v, s = e ++ L "}" ++ v /\ expr_end s l o = length e + 1) /\
  Forall tok_ok (scan ex_compile ex_source) /\
  scan ex_compile ex_source =
    [TText 1 (L "Hi "); TText 1 (L "$"); TText 1 (L " "); TExpr 1 (L "a.b"); TText 2 (L "! " ++ [c_nl]);
     TTag 3 (L "for") (L " x in y"); TText 3 (L "50% "); TTag 3 (L "if") (L " x "); TText 3 (L "<");
     TExpr 3 (L "x"); TText 3 (L "> "); TTag 3 (L "end") []; TText 4 [c_nl]; TTag 5 (L "end") []; TText 5 []].
Proof.
  split; [|split; [|vm_compute; reflexivity]].
  - intros _ s l o _ H. unfold ex_compile in H. destruct (find (L "}") s) as [i|] eqn:E; [|discriminate].
    assert (l = 1 /\ o = i + 1) as [-> ->] by (split; congruence).
    destruct (find_Some _ _ _ E) as (a & b & -> & <-). exists a, b. split; [reflexivity|]. unfold expr_end. cbn. now rewrite !Nat.add_0_r.
  - assert (E : forallb (fun t => match t with TRaise _ | TNone => false | _ => true end) (scan ex_compile ex_source) = true)
      by (vm_compute; reflexivity).
    rewrite forallb_forall in E. apply Forall_forall. intros t Ht. apply E in Ht. now destruct t.
Qed.

Example C32_lex_example : lex ex_compile None 1 ex_source (scan ex_compile ex_source).
Proof. destruct C32_example as (H & O & _). apply (C32_exact_partial _ _ _ H). now split. Qed.

(** The characters of names and of tags. *)
Theorem C32_characters : forall c,
  (name_start c = true <-> In c (L "_" ++ letters)) /\ (name_rest c = true <-> In c (L "_.0123456789" ++ letters)) /\ (letter c <-> In c letters).
Proof. intros c. split; [apply start_char|]. split; [apply rest_char|apply letter_char]. Qed.
Print Assumptions C32_characters.
(** Where Python reports the closing brace by its line and column, the expression ends there, provided that
    the lines of the expression are separated by newlines only. *)
Theorem C32_position_partial : forall e s l o, place e l o -> (forall c, In c e -> is_linebreak c = true -> c = c_nl) ->
  expr_end (e ++ L "}" ++ s) l o = length e + 1.
Proof. exact place_end. Qed.
Print Assumptions C32_position_partial.
Example C32_position_example :
  let e := L "f(" ++ [c_nl] ++ L "a)" in place e 2 3 /\ (forall c, In c e -> is_linebreak c = true -> c = c_nl).
Proof.
  cbv zeta. split.
  - apply (pl_char (L "f(" ++ [c_nl] ++ L "a") 2 2 41); [discriminate|]. apply (pl_char (L "f(" ++ [c_nl]) 2 1 97); [discriminate|]. apply (pl_newline (L "f(") 1 3).
    apply (pl_char (L "f") 1 2 40); [discriminate|]. apply (pl_char [] 1 1 102); [discriminate|constructor].
  - intros c Hc. cbn in Hc. intuition (subst; first [reflexivity|discriminate]).
Qed.
(** When lines end with CR LF, which Python counts as one character, the last character of the expression is lost. *)
Theorem C32_position_refuted : forall compile,
  let e := L "(" ++ [c_cr; c_nl] ++ L "1)" in
  compile (e ++ L "}") = CErr 2 3 ->
  scan compile (L "${" ++ e ++ L "}") = [TExpr 2 (L "(" ++ [c_cr; c_nl] ++ L "1"); TText 2 (L "}")].
Proof.
  intros compile e E. unfold scan. assert (F : finditer text_pattern (L "${" ++ e ++ L "}") = [MObj 0 2 [(3, [])]]) by (vm_compute; reflexivity).
  rewrite F. unfold scan_loop, get_braced_expr. cbn [mstart mend Nat.ltb Nat.leb group mcaps List.find fst Nat.eqb option_map snd app].
  change (skipn 2 (L "${" ++ e ++ L "}")) with (e ++ L "}"). rewrite E. reflexivity.
Qed.
Print Assumptions C32_position_refuted.

(** Python does not always stop at a closing brace: in [${x)}] it stops at the parenthesis, which
    is then lost. *)
Theorem C32_lost_refuted : forall compile, compile (L "x)}") = CErr 1 2 ->
  scan compile (L "${x)}") = [TExpr 1 (L "x"); TText 1 (L "}")] /\
  ~ exists pieces, L "${x)}" = concat pieces /\ Forall2 spells pieces (scan compile (L "${x)}")).
Proof.
  intros compile E.
  assert (S : scan compile (L "${x)}") = [TExpr 1 (L "x"); TText 1 (L "}")]).
  { unfold scan. assert (F : finditer text_pattern (L "${x)}") = [MObj 0 2 [(3, [])]]) by (vm_compute; reflexivity).
    rewrite F. unfold scan_loop, get_braced_expr. cbn [mstart mend Nat.ltb Nat.leb group mcaps List.find fst Nat.eqb option_map snd app].
    change (skipn 2 (L "${x)}")) with (L "x)}"). rewrite E. reflexivity. }
  split; [exact S|]. rewrite S. intros (ps & Ec & F). inversion F as [|p1 t1 ps1 ts1 S1 F1]; subst.
  inversion F1 as [|p2 t2 ps2 ts2 S2 F2]; subst. inversion F2; subst. cbn [concat] in Ec. rewrite app_nil_r in Ec.
  inversion S2; subst. inversion S1; subst; discriminate.
Qed.
Print Assumptions C32_lost_refuted.

(** An expression that ends before a [$] is read twice: the pattern goes on inside it. *)
Theorem C32_twice_refuted : forall compile, compile (L "a $b}") = CErr 1 3 ->
  scan compile (L "${a $b}") = [TExpr 1 (L "a "); TExpr 1 (L "b"); TText 1 (L "}")].
Proof.
  intros compile E. unfold scan.
  assert (F : finditer text_pattern (L "${a $b}") = [MObj 0 2 [(3, [])]; MObj 4 6 [(2, L "b")]]) by (vm_compute; reflexivity).
  rewrite F. unfold scan_loop, get_braced_expr. cbn [mstart mend Nat.ltb Nat.leb group mcaps List.find fst Nat.eqb option_map snd app].
  change (skipn 2 (L "${a $b}")) with (L "a $b}"). rewrite E. reflexivity.
Qed.
Print Assumptions C32_twice_refuted.
Example C32_refuted_examples : exists compile : str -> compiled, compile (L "x)}") = CErr 1 2 /\ compile (L "a $b}") = CErr 1 3.
Proof. exists (fun s => if seqb s (L "x)}") then CErr 1 2 else CErr 1 3). split; reflexivity. Qed.

(** ** C33: line continuations *)

Theorem C33_unescape : forall s t, unescape_newlines s = Ok t <-> unescaped s t.
Proof. exact unescape_spec. Qed.
Print Assumptions C33_unescape.
Example C33_example : unescaped (L "a\" ++ [c_nl] ++ L "b\\c\d") (L "ab\cd").
Proof. apply C33_unescape. reflexivity. Qed.

(** A backslash at the end of a text makes the template fail; so does one right before an
    expression or a tag. *)
Theorem C33_end_refuted : forall s t, unescaped s t -> unescape_newlines (s ++ [c_bsl]) = Raise "IndexError".
Proof. exact trailing_backslash. Qed.
Print Assumptions C33_end_refuted.
Theorem C33_dollar_refuted : forall compile shlex_split helper autoescape,
  text_template compile shlex_split helper autoescape (L "a\$b") = Raise "IndexError".
Proof.
  intros. unfold text_template, scan. cbn [L].
  assert (F : finditer text_pattern (L "a\$b") = [MObj 2 4 [(2, L "b")]]) by (vm_compute; reflexivity).
  cbn [L] in F. rewrite F. reflexivity.
Qed.
Print Assumptions C33_dollar_refuted.

(** ** C34: block tags nest properly *)

(** Whatever is written with properly nested tags is parsed to exactly that, except that an [if]
    with an [else] must not stand directly in an [if] or a [case], and that a [switch] must have no [else]. *)
Theorem C34_partial : forall autoescape shlex_split helper f ts,
  written shlex_split f ts -> else_apart f ->
  parse autoescape shlex_split helper ts = Ok (template_of autoescape helper f).
Proof. exact parse_written. Qed.
Print Assumptions C34_partial.

Definition ex_split (s : str) : result (list str) := Ok [strip s].
Definition ex_forest : forest :=
  F_extends (L "base.txt")
  (F_module [L "import os"]
  (F_def (L "f(x)")
     (F_def (L "g()") (F_if_else (L "x") (F_for (L "i in x") (F_if_else (L "i") F_nil (F_text 3 (L "a") F_nil) F_nil) F_nil)
                                 (F_call (L "y") (L "h(%caller)") (F_expr 4 (L "y") F_nil) F_nil) F_nil) F_nil)
  (F_switch (L "z") (F_text 5 (L " ") F_nil) (C_case (L "1") (F_if (L "q") F_nil F_nil) (C_case (L "2") F_nil C_nil))
  (F_block (L "menu") (F_py [L "a = 1"] F_nil)
  F_nil)))).
Example C34_example : exists ts, written ex_split ex_forest ts /\ else_apart ex_forest /\
  parse true ex_split (fun k => [N.of_nat (65 + k)]) ts =
  Ok (TemplateNode 0 [(0, [L "import os"])]
    [NDef 0 false (L "__main__()")
       [NExtend 0 (L "base.txt");
        NSwitch 0 (L "z") [NText 5 (L " ") None; NCase 0 (L "1") [NIf 0 (L "q") []]; NCase 0 (L "2") []]];
     NDef 0 false (L "f(x)")
       [NDef 0 true (L "g()")
          [NIf 0 (L "x") [NFor 0 (L "i in x") [NIf 0 (L "i") []; NElse 0 [NText 3 (L "a") None]]];
           NElse 0 [NCall 0 (L "A(y)") (L "h(A)") [NExpr 4 (L "y") false]]]];
     NDef 0 false (L "_kj_block_menu()")
       [NPython 0 [L "parent_block=parent._kj_block_menu"] false; NPython 0 [L "a = 1"] false]]).
Proof.
  eexists. assert (W : written ex_split ex_forest
    ([TTag 1 (L "extends") (L " base.txt"); TTag 2 (L "py") (L "%import os");
      TTag 3 (L "def") (L "f(x)"); TTag 3 (L "def") (L "g()");
      TTag 3 (L "if") (L "x"); TTag 3 (L "for") (L "i in x"); TTag 3 (L "if") (L "i"); TTag 3 (L "else") [];
      TText 3 (L "a"); TTag 3 (L "end") []; TTag 3 (L "end") [];
      TTag 3 (L "else") []; TTag 4 (L "call") (L "(y)h(%caller)"); TExpr 4 (L "y"); TTag 4 (L "end") []; TTag 4 (L "end") [];
      TTag 4 (L "end") []; TTag 4 (L "end") [];
      TTag 5 (L "switch") (L "z"); TText 5 (L " "); TTag 5 (L "case") (L "1"); TTag 5 (L "if") (L "q"); TTag 5 (L "end") [];
      TTag 6 (L "case") (L "2"); TTag 6 (L "end") [];
      TTag 7 (L "block") (L "menu"); TTag 7 (L "py") (L " a = 1"); TTag 7 (L "end") []])).
  { unfold ex_forest.
    apply w_extends; [reflexivity|]. apply w_module; [discriminate|reflexivity|].
    apply (w_def ex_split 3 _ _ [_;_;_;_;_;_;_;_;_;_;_;_;_;_]).
    { apply (w_def ex_split 3 _ _ [_;_;_;_;_;_;_;_;_;_;_;_]); [|constructor].
      apply (w_if_else ex_split 3 _ _ [_;_;_;_;_;_] _ _ _ [_;_;_]); [| |constructor].
      - apply (w_for ex_split 3 _ _ [_;_;_;_]); [|constructor].
        apply (w_if_else ex_split 3 _ _ [] _ _ _ [_]); [constructor| |constructor].
        apply w_text; [now apply C33_unescape|constructor].
      - apply (w_call ex_split 4 [] (L "y") (L "h(%caller)") _ [_]); [cbn; tauto|cbn; intuition discriminate| |constructor].
        apply w_expr. constructor. }
    apply (w_switch ex_split 5 _ _ [_] _ [_;_;_;_]).
    { apply w_text; [now apply C33_unescape|constructor]. }
    { apply (wc_case ex_split 5 _ _ [_;_] _ [_]); [apply (w_if ex_split 5 _ _ []); constructor|].
      apply (wc_case ex_split 6 _ _ [] _ []); constructor. }
    apply (w_block ex_split 7 (L "menu") _ [_]); [|apply w_py; [discriminate|reflexivity|constructor]|constructor].
    apply Forall_forall. repeat constructor. }
  split; [exact W|]. split; [cbn; tauto|]. rewrite (C34_partial true ex_split _ _ _ W) by (cbn; tauto). vm_compute. reflexivity.
Qed.

(** Exactly these lists of tokens are accepted, and this is what they are made into.
    Missing: blocks with names of several lines. *)
Theorem C34_exact_partial : forall autoescape shlex_split helper ts t, Forall block_on_a_line ts ->
  parse autoescape shlex_split helper ts = Ok t <->
  exists f, taken shlex_split f ts /\ t = tree_template autoescape helper f.
Proof. exact parse_exact. Qed.
Print Assumptions C34_exact_partial.
(** Tokens can be taken in one way only, and be written for one forest only. *)
Theorem C34_taken_unique : forall shlex_split f f' ts, taken shlex_split f ts -> taken shlex_split f' ts -> f = f'.
Proof. exact taken_unique. Qed.
Print Assumptions C34_taken_unique.
Theorem C34_written_unique : forall shlex_split f f' ts, written shlex_split f ts -> written shlex_split f' ts -> f = f'.
Proof. exact written_unique. Qed.
Print Assumptions C34_written_unique.

(** A loop around a [switch] with an [else]: the one [end] ends the [else], and everything is left open. *)
Example C34_exact_example :
  let ts := [TTag 1 (L "for") (L " i in x"); TTag 1 (L "switch") (L " i"); TTag 1 (L "case") (L " 1"); TText 1 (L "a");
             TTag 1 (L "if") (L " i"); TTag 2 (L "else") []; TText 2 (L "b"); TTag 2 (L "end") []] in
  let f := G_in For (L " i in x") (G_in Switch (L " i")
    (G_in Case (L " 1") (G_text 1 (L "a") (G_in If (L " i") G_nil G_nil)) (G_in Else [] (G_text 2 (L "b") G_nil) G_nil)) G_nil) G_nil in
  Forall block_on_a_line ts /\ taken ex_split f ts /\
  parse true ex_split (fun k => [N.of_nat (65 + k)]) ts =
    Ok (TemplateNode 0 [] [NDef 0 false (L "__main__()")
      [NFor 0 (L " i in x") [NSwitch 0 (L " i") [NCase 0 (L " 1") [NText 1 (L "a") None; NIf 0 (L " i") []]; NElse 0 [NText 2 (L "b") None]]]]]).
Proof.
  intros ts f. split; [repeat (apply Forall_cons; [first [exact Logic.I|intros E; discriminate E]|]); apply Forall_nil|].
  assert (T : taken ex_split f ts).
  { eapply g_for; [|apply g_end]. eapply g_switch; [|apply g_end]. eapply g_case; [intros [E|[]]; discriminate| |].
    - apply g_text; [now apply C33_unescape|]. eapply g_if_else; [apply g_stop; cbn; tauto|]. apply g_stop. cbn; tauto.
    - eapply g_else; [intros [E|[]]; discriminate| |apply g_end]. apply g_text; [now apply C33_unescape|]. apply g_stop. now left. }
  split; [exact T|]. apply C34_exact_partial; [repeat (apply Forall_cons; [first [exact Logic.I|intros E; discriminate E]|]); apply Forall_nil|].
  exists f. split; [exact T|reflexivity].
Qed.

(** An [if] with an [else] directly in an [if] is refused. *)
Theorem C34_if_in_if_refuted : forall autoescape shlex_split helper a b,
  let f := F_if a (F_if_else b F_nil F_nil F_nil) F_nil in
  exists ts, written shlex_split f ts /\ parse autoescape shlex_split helper ts = Raise "AttributeError".
Proof.
  intros autoescape shlex_split helper a b f.
  exists [TTag 1 (L "if") a; TTag 2 (L "if") b; TTag 3 (L "else") []; TTag 4 (L "end") []; TTag 5 (L "end") []]. split; [|reflexivity].
  apply (w_if shlex_split 1 a _ [_; _; _]); [|constructor].
  apply (w_if_else shlex_split 2 b F_nil [] 3 [] F_nil [] 4 [] F_nil []); constructor.
Qed.
Print Assumptions C34_if_in_if_refuted.
(** In a [case] it is not refused: its [else] becomes that of the switch. *)
Theorem C34_if_in_case_refuted : forall autoescape shlex_split helper e c b,
  let f := F_switch e F_nil (C_case c (F_if_else b (F_text 3 (L "then") F_nil) (F_text 4 (L "else") F_nil) F_nil) C_nil) F_nil in
  exists ts, written shlex_split f ts /\ parse autoescape shlex_split helper ts =
    Ok (TemplateNode 0 [] [NDef 0 false (L "__main__()")
      [NSwitch 0 e [NCase 0 c [NIf 0 b [NText 3 (L "then") None]]; NElse 0 [NText 4 (L "else") None]]]]).
Proof.
  intros autoescape shlex_split helper e c b f.
  exists [TTag 1 (L "switch") e; TTag 2 (L "case") c; TTag 3 (L "if") b; TText 3 (L "then"); TTag 4 (L "else") []; TText 4 (L "else"); TTag 4 (L "end") []; TTag 5 (L "end") []].
  split; [|reflexivity].
  apply (w_switch shlex_split 1 e F_nil [] _ [_; _; _; _; _; _]); [constructor| |constructor].
  apply (wc_case shlex_split 2 c _ [_; _; _; _; _] C_nil []); [|constructor].
  apply (w_if_else shlex_split 3 b _ [_] 4 [] _ [_] 4 [] F_nil []); [| |constructor]; (apply w_text; [now apply C33_unescape|constructor]).
Qed.
Print Assumptions C34_if_in_case_refuted.
(** A [switch] with an [else] takes the [end] of the block around it: here the text after the
    function becomes part of the function. *)
Theorem C34_switch_else_refuted : forall autoescape shlex_split helper e c,
  let f := F_def (L "f()") (F_switch e F_nil (C_case c F_nil (C_else F_nil)) F_nil) (F_text 7 (L "text") F_nil) in
  exists ts, written shlex_split f ts /\ parse autoescape shlex_split helper ts =
    Ok (TemplateNode 0 [] [NDef 0 false (L "__main__()") [];
      NDef 0 false (L "f()") [NSwitch 0 e [NCase 0 c []; NElse 0 []]; NText 7 (L "text") None]]).
Proof.
  intros autoescape shlex_split helper e c f.
  exists [TTag 1 (L "def") (L "f()"); TTag 2 (L "switch") e; TTag 3 (L "case") c; TTag 4 (L "else") []; TTag 5 (L "end") []; TTag 6 (L "end") []; TText 7 (L "text")].
  split; [|reflexivity].
  apply (w_def shlex_split 1 (L "f()") _ [_; _; _; _]); [|apply w_text; [now apply C33_unescape|constructor]].
  apply (w_switch shlex_split 2 e F_nil [] _ [_; _]); [constructor| |constructor].
  apply (wc_case shlex_split 3 c F_nil [] _ [_]); [constructor|]. apply wc_else. constructor.
Qed.
Print Assumptions C34_switch_else_refuted.

(** ** C35: unbalanced templates *)

(** After any properly nested template, a tag that is not known there is refused; [end] is one. *)
Theorem C35_unknown_partial : forall autoescape shlex_split helper f ts l t x rest,
  written shlex_split f ts -> else_apart f ->
  ~ In t [L "for"; L "if"; L "switch"; L "def"; L "call"; L "block"; L "py"; L "extends"; L "import"; L "include";
          L "case"; L "else"; L "body"] ->
  parse autoescape shlex_split helper (ts ++ TTag l t x :: rest) = Raise "AttributeError".
Proof. exact unknown_tag. Qed.
Print Assumptions C35_unknown_partial.
Theorem C35_stray_end_partial : forall autoescape shlex_split helper f ts l x rest,
  written shlex_split f ts -> else_apart f ->
  parse autoescape shlex_split helper (ts ++ TTag l (L "end") x :: rest) = Raise "AttributeError".
Proof. intros. eapply C35_unknown_partial; try eassumption. cbn. intuition discriminate. Qed.
Print Assumptions C35_stray_end_partial.
(** An [if] or a [case] that is not ended is refused. *)
Theorem C35_open_if_partial : forall autoescape shlex_split helper f ts l e b bs,
  written shlex_split f ts -> else_apart f -> written shlex_split b bs -> else_apart b -> has_else b = false ->
  parse autoescape shlex_split helper (ts ++ TTag l (L "if") e :: bs) = Raise "AttributeError".
Proof. exact open_if. Qed.
Print Assumptions C35_open_if_partial.
Theorem C35_open_case_partial : forall autoescape shlex_split helper f ts l e b bs,
  written shlex_split f ts -> else_apart f -> written shlex_split b bs -> else_apart b -> has_else b = false ->
  parse autoescape shlex_split helper (ts ++ TTag l (L "case") e :: bs) = Raise "AssertionError".
Proof. exact open_case. Qed.
Print Assumptions C35_open_case_partial.
Example C35_example : exists f ts, written ex_split f ts /\ else_apart f /\ has_else f = false /\ ts <> [].
Proof.
  exists (F_text 1 (L "a") (F_for (L "i in x") F_nil F_nil)), [TText 1 (L "a"); TTag 2 (L "for") (L "i in x"); TTag 3 (L "end") []].
  split; [|cbn; repeat split; discriminate].
  apply w_text; [now apply C33_unescape|]. apply (w_for ex_split 2 _ _ []); constructor.
Qed.

(** Loops, switches and functions need not be ended: at the end of the template a missing [end] makes no difference. *)
Theorem C35_missing_end_refuted : forall autoescape shlex_split helper t f ts l e b bs l' x,
  In t [L "for"; L "switch"; L "def"] ->
  written shlex_split f ts -> else_apart f -> written shlex_split b bs -> else_apart b ->
  parse autoescape shlex_split helper (ts ++ TTag l t e :: bs) =
  parse autoescape shlex_split helper (ts ++ TTag l t e :: bs ++ [TTag l' (L "end") x]).
Proof. intros. eapply drop_end; eassumption. Qed.
Print Assumptions C35_missing_end_refuted.
Example C35_missing_example : forall autoescape shlex_split helper,
  parse autoescape shlex_split helper [TTag 1 (L "for") (L "i in x"); TText 2 (L "a")] =
  Ok (TemplateNode 0 [] [NDef 0 false (L "__main__()") [NFor 0 (L "i in x") [NText 2 (L "a") None]]]).
Proof. reflexivity. Qed.

(** The parser's fuel is never an issue: any amount above the number of tokens gives the same. *)
Theorem C35_fuel : forall autoescape shlex_split helper f1 f2 stoptags s,
  length (p_toks s) < f1 -> length (p_toks s) < f2 ->
  parse_body autoescape shlex_split helper f1 stoptags s = parse_body autoescape shlex_split helper f2 stoptags s.
Proof.
  intros. apply fuel_enough; (eapply Nat.le_lt_trans; [apply size_length|assumption]).
Qed.
Print Assumptions C35_fuel.
