(** * Property C88: errors in expressions of text templates are reported at the line where the expression ends *)

From Coq Require Import Ascii String List NArith ZArith Bool Lia Arith.
From Verif Require Import PyStr M_IR M_Text S_Text S_TextTree S_TextLines M_Lnotab S_Lines P_Text3 P_Text9 P_Lines1 P_TextLines Props_Text.
Import ListNotations.
Open Scope nat_scope.
Open Scope list_scope.

(** C88.  The lines that the scanner gives to expressions: the source is a sequence of pieces, one for each token, and the
    line of an expression is the one on which it ends, less the blank lines directly before the tags above it. *)
Theorem C88_lines : forall compile source ts, lex compile None 1 source ts ->
  exists pieces, source = concat pieces /\ Forall2 spells pieces ts /\
    forall above piece below ts1 line e ts2,
      pieces = above ++ piece :: below -> ts = ts1 ++ TExpr line e :: ts2 -> length above = length ts1 ->
      line + blank_lines above ts1 = 1 + count_nl (concat above ++ piece).
Proof. intros compile source ts X. apply (grammar_counts compile None). now apply lex_grammar. Qed.
Print Assumptions C88_lines.

(** These lines are the reported ones for all expressions outside of functions and blocks, in the order in which
    they are written, whatever the tags around them are.  What follows are functions and blocks: they are not
    reported above.  Missing: the code in tags, and expressions in functions and blocks (refuted below); blocks
    with names of several lines. *)
Theorem C88_main_partial : forall compile shlex_split helper autoescape source ts t,
  lex compile None 1 source ts -> Forall block_on_a_line ts ->
  text_template compile shlex_split helper autoescape source = Ok t ->
  exists f rest, taken shlex_split f ts /\
    reported_code (generate_python t) = map (fun x => (Z.of_nat (fst x), snd x)) (shown_at f) ++ rest /\
    Forall (fun x => Forall (fun y => (Z.of_nat (fst y) <= fst x)%Z) (shown_at f)) rest.
Proof.
  intros compile shlex_split helper autoescape source ts t X B E. unfold text_template in E. destruct source as [|c source]; [discriminate|].
  rewrite (C32_read _ _ _ X) in E. apply parse_exact in E as (f & T & ->); [|exact B].
  destruct (text_lines autoescape helper shlex_split compile _ ts f (lex_grammar _ _ _ _ _ X) T) as (rest & R1 & R2 & _).
  exists f, rest. now repeat split.
Qed.
Print Assumptions C88_main_partial.

(** In a template without functions and blocks, every expression is reported at its line. *)
Theorem C88_all_partial : forall compile shlex_split helper autoescape source ts t,
  lex compile None 1 source ts -> Forall no_function ts ->
  text_template compile shlex_split helper autoescape source = Ok t ->
  reported_code (generate_python t) = map (fun x => (Z.of_nat (fst x), snd x)) (expressions ts).
Proof.
  intros compile shlex_split helper autoescape source ts t X B E. unfold text_template in E. destruct source as [|c source]; [discriminate|].
  rewrite (C32_read _ _ _ X) in E. apply parse_exact in E as (f & T & ->).
  - destruct (text_lines autoescape helper shlex_split compile _ ts f (lex_grammar _ _ _ _ _ X) T) as (rest & R1 & _ & R3).
    rewrite R1, R3, app_nil_r by (eapply no_defined; eassumption).
    destruct (takes_expressions _ _ _ _ _ _ T B) as [-> _]. cbn [opt_list app]. now rewrite app_nil_r.
  - eapply Forall_impl; [|exact B]. intros tk Htk. destruct tk; try exact Logic.I. cbn [block_on_a_line no_function] in *. intros En. now destruct Htk.
Qed.
Print Assumptions C88_all_partial.

(** The template of C32: [$a.b] on line 1, and [${x}] on line 3, in an [if] in a loop. *)
Example C88_example : exists ts t,
  lex ex_compile None 1 ex_source ts /\ Forall no_function ts /\ Forall block_on_a_line ts /\
  text_template ex_compile ex_split (fun _ => []) false ex_source = Ok t /\
  reported_code (generate_python t) = [(1%Z, L "a.b"); (3%Z, L "x")].
Proof.
  assert (P : match text_template ex_compile ex_split (fun _ => []) false ex_source with Ok t => reported_code (generate_python t) = [(1%Z, L "a.b"); (3%Z, L "x")] | _ => False end)
    by (vm_compute; reflexivity).
  destruct (text_template ex_compile ex_split (fun _ => []) false ex_source) as [t|] eqn:E; [|destruct P].
  exists (scan ex_compile ex_source), t. split; [exact C32_lex_example|]. destruct C32_example as (_ & _ & S). rewrite S.
  split; [repeat (apply Forall_cons; [first [exact Logic.I|split; discriminate]|]); apply Forall_nil|].
  split; [repeat (apply Forall_cons; [first [exact Logic.I|intros X; discriminate X]|]); apply Forall_nil|]. now split.
Qed.

(** A blank line before a tag is not counted: [$x] on line 4 is reported at line 3. *)
Theorem C88_blank_refuted : forall compile helper,
  let source := L "a" ++ [c_nl; c_nl] ++ L "%py pass" ++ [c_nl] ++ L "$x" in
  exists t, text_template compile ex_split helper false source = Ok t /\
    count_nl source = 3 /\ reported_code (generate_python t) = [(3%Z, L "x")].
Proof. intros compile helper source. eexists. split; [vm_compute; reflexivity|]. split; vm_compute; reflexivity. Qed.
Print Assumptions C88_blank_refuted.
(** The code in tags has no line: the condition on line 2 is reported at line 0. *)
Theorem C88_tag_refuted : forall compile helper,
  let source := L "%for x in y" ++ [c_nl] ++ L "%if z" ++ [c_nl] ++ L "$x" ++ [c_nl] ++ L "%end" ++ [c_nl] ++ L "%end" ++ [c_nl] in
  exists t i l, text_template compile ex_split helper false source = Ok t /\
    nth_error (generate_python t) i = Some l /\ p_stmt l = PIf (L " z") /\ nth_error (reported (generate_python t)) i = Some 0%Z.
Proof. intros compile helper source. eexists. exists 4. eexists. split; [vm_compute; reflexivity|]. repeat split; vm_compute; reflexivity. Qed.
Print Assumptions C88_tag_refuted.
(** Functions are written after the main part: [$x] on line 2 is reported at line 4. *)
Theorem C88_function_refuted : forall compile helper,
  let source := L "%def f()" ++ [c_nl] ++ L "$x" ++ [c_nl] ++ L "%end" ++ [c_nl] ++ L "$y" in
  exists t, text_template compile ex_split helper false source = Ok t /\
    reported_code (generate_python t) = [(4%Z, L "y"); (4%Z, L "x")].
Proof. intros compile helper source. eexists. split; vm_compute; reflexivity. Qed.
Print Assumptions C88_function_refuted.
