(** * Property C89: preparing the tree of a template keeps texts on their lines *)

From Coq Require Import Ascii String List NArith ZArith Bool Lia Arith.
From Verif Require Import PyStr M_Text S_Text M_Entities M_Dom S_Dom S_DomLines M_XText S_XText P_XText P_Dom P_DomLines Props_XText.
Import ListNotations.
Open Scope nat_scope.
Open Scope list_scope.

(** C89.  If the XML parser reports texts that follow each other on lines that fit, every character of a text is, after
    directives are expanded, texts joined, and white space set apart, on the line on which the XML parser found it; if texts
    are stripped too, every character that is not white space.  Missing: texts with newlines written as
    character references (refuted below). *)
Theorem C89_partial : forall es l dtd, build es = Ok l -> lines_fit es ->
  flat_map text_at (d_children (transform false (Document dtd l))) = flat_map text_at l /\
  filter visible (flat_map text_at (d_children (transform true (Document dtd l)))) = filter visible (flat_map text_at l).
Proof. intros es l dtd E F. apply transform_at. eapply build_steps; eassumption. Qed.
Print Assumptions C89_partial.

(** So the expressions in texts have the lines on which they are written: what [XExpr line x] is read from stands, before the
    passes over the tree, on line [line].  (The two conditions on the text are those of C37.) *)
Theorem C89_expressions_partial : forall compile es l dtd n ln tag a cs lt t esc ps line x,
  build es = Ok l -> lines_fit es ->
  In n (d_children (transform false (Document dtd l))) -> element_in n ln tag a cs -> In (DText lt t esc) cs ->
  pieces compile t lt = Ok ps -> Forall simple_expr ps -> no_gap t -> In (XExpr line x) ps ->
  exists before written after, xspells written (XExpr line x) /\ flat_map text_at l = before ++ characters_at line written ++ after.
Proof.
  intros compile es l dtd n ln tag a cs lt t esc ps line x B F In1 E In2 P S G In3. destruct (C89_partial es l dtd B F) as [<- _].
  destruct (text_within _ _ _ _ _ _ _ _ _ In1 E In2) as (p & q & ->). destruct (C37_partial _ _ _ _ P S G) as (parts & -> & O).
  destruct (on_lines_in _ _ _ O _ In3) as (written & u & w & X & ->). exists (p ++ u), written, (w ++ q). split; [exact X|]. now rewrite <- !app_assoc.
Qed.
Print Assumptions C89_expressions_partial.
Theorem C89_stripped_partial : forall compile es l dtd n ln tag a cs lt t esc ps line x,
  build es = Ok l -> lines_fit es ->
  In n (d_children (transform true (Document dtd l))) -> element_in n ln tag a cs -> In (DText lt t esc) cs ->
  pieces compile t lt = Ok ps -> Forall simple_expr ps -> no_gap t -> In (XExpr line x) ps ->
  exists before written after, xspells written (XExpr line x) /\
    filter visible (flat_map text_at l) = before ++ filter visible (characters_at line written) ++ after.
Proof.
  intros compile es l dtd n ln tag a cs lt t esc ps line x B F In1 E In2 P S G In3. destruct (C89_partial es l dtd B F) as [_ <-].
  destruct (text_within _ _ _ _ _ _ _ _ _ In1 E In2) as (p & q & ->). destruct (C37_partial _ _ _ _ P S G) as (parts & -> & O).
  destruct (on_lines_in _ _ _ O _ In3) as (written & u & w & X & ->). exists (filter visible p ++ filter visible u), written, (filter visible w ++ filter visible q).
  split; [exact X|]. now rewrite !filter_app, <- !app_assoc.
Qed.
Print Assumptions C89_stripped_partial.

(** [<p py:if="c">a], newline, [b &nbsp;${x}], newline, [</p>]: [x] stands on line 2. *)
Definition ex_lines_events : list event :=
  [EStart 1 (L "p") [(L "py:if", L "c")]; EChars 1 (L "a"); EChars 1 [c_nl]; EChars 2 (L "b "); ESkipped 2 (L "nbsp"); EChars 2 (L "${x}"); EChars 2 [c_nl]; EEnd 3 (L "p")].
Example C89_example : exists l, build ex_lines_events = Ok l /\ lines_fit ex_lines_events /\
  d_children (transform true (Document [] l)) =
    [DElem 1 (L "py:if") [(L "test", L "c")] [DElem 1 (L "p") [] [DText 1 (L "a" ++ [c_nl] ++ L "b " ++ [160%N] ++ L "${x}") true; DText 3 [] true]]].
Proof.
  eexists. split; [vm_compute; reflexivity|]. split; [|vm_compute; reflexivity].
  intros a x y b l l' E. unfold ex_lines_events in E.
  do 7 (destruct a as [|? a]; [cbn [app] in E; assert (Ex := f_equal (hd x) E); assert (Ey := f_equal (fun l => hd y (tl l)) E); cbn [hd tl] in Ex, Ey; subst x y; vm_compute; congruence|];
        cbn [app] in E; injection E as _ E).
  destruct a as [|? [|? a]]; discriminate E.
Qed.

(** The text of the example that holds [${x}], and its pieces: [x] is on line 2. *)
Example C89_example_expression :
  let t := L "a" ++ [c_nl] ++ L "b " ++ [160%N] ++ L "${x}" in
  pieces xex_compile t 1 = Ok [XText 1 (L "a" ++ [c_nl] ++ L "b " ++ [160%N]); XExpr 2 (L "x")] /\
  Forall simple_expr [XText 1 (L "a" ++ [c_nl] ++ L "b " ++ [160%N]); XExpr 2 (L "x")] /\ no_gap t.
Proof.
  split; [vm_compute; reflexivity|]. split.
  - constructor; [exact Logic.I|]. constructor; [|constructor]. intros [|c t1] t2 E N0 R.
    + cbn [app] in E. subst t2. destruct R as (c & v & E' & _). apply (f_equal (hd 0%N)) in E'. vm_compute in E'. discriminate E'.
    + apply (f_equal (@tl N)) in E. cbn in E. symmetry in E. apply app_eq_nil in E as [_ ->]. now apply N0.
  - intros a ws b E _ I. cbv [L String.list_ascii_of_string map] in E. cbn [app] in E.
    do 5 (destruct a as [|? a]; [apply (f_equal (hd 0%N)) in E; vm_compute in E; discriminate E|cbn [app] in E; apply (f_equal (@tl N)) in E; cbn [tl] in E]).
    assert (I' : In c_nl (a ++ L "${" ++ ws ++ b)) by (do 2 (apply in_or_app; right); apply in_or_app; now left).
    change (In c_nl (a ++ N_of_ascii "$" :: N_of_ascii "{" :: ws ++ b)) in I'. rewrite <- E in I'. vm_compute in I'. intuition discriminate.
Qed.

(** [<p>&#10;${x}</p>] stands on one line; [x] is taken for standing on line 2. *)
Theorem C89_reference_refuted : exists l,
  build [EStart 1 (L "p") []; EChars 1 [c_nl]; EChars 1 (L "${x}"); EEnd 1 (L "p")] = Ok l /\
  d_children (transform true (Document [] l)) = [DElem 1 (L "p") [] [DText 2 [] true; DText 2 (L "${x}") true]].
Proof. eexists. split; vm_compute; reflexivity. Qed.
Print Assumptions C89_reference_refuted.
