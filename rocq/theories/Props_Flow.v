(** * C83: values that no directive looks at change nothing but the places where they are shown *)

From Coq Require Import Ascii String List Arith NArith ZArith Bool Lia.
From Verif Require Import PyStr PyStrLemmas M_Values S_Values M_IR M_Template M_XText M_Entities M_Text S_XFun M_Dom M_XCompile M_XRun S_XRun M_Run S_Run P_Run8 M_TextRun S_TextRun
  S_Flow P_Flow P_Flow2 P_Flow3 P_Flow4 P_XRun4 P_NestRun5.
From Verif Require Import S_XDoc P_XRun1 Props_Run Props_XText Props_XDoc Props_XRun.
Import ListNotations.
Open Scope list_scope.

(** ** Templates as their syntax trees

    The same page for two contexts that differ in the values of variables that are only shown: both renderings fail
    with the same error, or the pages are the same but for pieces of text, neither of which can be read as markup.
    Partial: of [_partial] see the properties about whole templates, C29 and C61; and the values have no markup of their own. *)
Theorem C83_files_partial : forall py free function_name declared gen files depth f context context',
  apart free function_name -> fair_python py function_name -> generated_names py gen ->
  (forall fragment name f, files fragment name = Ok f -> a_file py gen f /\ flow_file py free function_name declared f) ->
  a_file py gen f -> flow_file py free function_name declared f ->
  object_names context -> swapped free function_name context context' ->
  both same_markup (run_file py files depth f context) (run_file py files depth f context').
Proof.
  intros py free F declared gen files depth f context context' Ap Fp G Hf Hx Fx Hc Hs. apply (files_flow py free F declared Ap Fp gen G); auto.
  intros fragment name g E. destruct (Hf _ _ _ E). auto.
Qed.
Print Assumptions C83_files_partial.

(** ** Templates as their sources

    XML and text templates that extend, include and import each other. *)
Theorem C83_whole_partial : forall py free function_name declared gen expat compile shlex_split exec_module sources depth x context context',
  apart free function_name -> fair_python py function_name -> generated_names py gen -> (forall l, object_names (exec_module l)) ->
  (forall fragment name x, sources fragment name = Ok x ->
     a_template expat compile shlex_split gen py x /\ flow_source py free function_name declared expat compile shlex_split exec_module gen x) ->
  a_template expat compile shlex_split gen py x -> flow_source py free function_name declared expat compile shlex_split exec_module gen x ->
  object_names context -> swapped free function_name context context' ->
  let run := fun context => rbind (any_file expat compile shlex_split exec_module x) (fun f =>
    run_file py (fun fragment name => rbind (sources fragment name) (any_file expat compile shlex_split exec_module)) depth f context) in
  both same_markup (run context) (run context').
Proof. intros py free F declared gen expat compile shlex_split exec_module sources depth x context context' Ap Fp G M Hs Hx Fx Hc Sw. now apply (sources_flow py free F declared Ap Fp gen G). Qed.
Print Assumptions C83_whole_partial.

(** Pages that are the same but for such pieces have the same tags: the same angle brackets and double quotes, in the same order. *)
Theorem C83_delimiters : forall s s', same_markup s s' -> delimiters s = delimiters s'.
Proof. exact same_delimiters. Qed.
Print Assumptions C83_delimiters.

(** ** An example

    The layout and the page of [C61_whole_example]: the page extends the layout, overrides its block, and calls a
    function with a body; the variable [x] is shown by both, and passed to the body. *)
Definition shown_names (k : str) : Prop := In k [L "x"; L "n"; L "f"].
Definition functions_only (k : str) : Prop := k = L "twice".
Definition declarations (d : str) : Prop := In d [L "__main__()"; L "twice(f)"; L "_kj_1(n)"; L "_kj_block_title()"].
Definition no_shlex (s : str) : result (list str) := Raise "ValueError".

Lemma shown_apart : apart shown_names functions_only.
Proof.
  split.
  - intros k [<-|[<-|[<-|[]]]]; (split; [intros H; vm_compute in H; intuition discriminate|intros H; vm_compute in H; discriminate]).
  - intros k ->. intros H. vm_compute in H. intuition discriminate.
Qed.
Lemma demo_fair : forall F, fair_python demo F.
Proof. intros F. constructor; intros; try (cbn; reflexivity); try (cbn; constructor); discriminate. Qed.
Lemma declared_params : forall d l ks, declarations d -> bind_params demo d ks = Ok l ->
  l = combine (demo_names d) (map inl (seq 0 (length (demo_names d)))) /\ length (demo_names d) = length ks.
Proof.
  intros d l ks Hd E. cbn [demo bind_params] in E. unfold demo_params in E. destruct (Nat.eqb_spec (length (demo_names d)) (length ks)); [|discriminate]. split; [congruence|assumption].
Qed.
Lemma all_params_shown : forall d, declarations d -> Forall shown_names (demo_names d).
Proof.
  intros d [<-|[<-|[<-|[<-|[]]]]].
  - exact (Forall_nil _).
  - change (demo_names (L "twice(f)")) with [L "f"]. constructor; [|constructor]. right; right; now left.
  - change (demo_names (L "_kj_1(n)")) with [L "n"]. constructor; [|constructor]. right; now left.
  - exact (Forall_nil _).
Qed.
Lemma demo_flow_params : forall args, flow_params demo shown_names declarations args.
Proof.
  intros args d l Hd E. destruct (declared_params d l _ Hd E) as [-> _]. rewrite Forall_forall. intros [k a] I.
  assert (S0 : shown_names k). { pose proof (all_params_shown d Hd) as H. rewrite Forall_forall in H. apply H. now apply in_combine_l in I. }
  cbn [fst snd]. destruct a; auto.
Qed.
Lemma demo_flow_decl : forall d, declarations d -> flow_decl demo functions_only declarations d.
Proof.
  intros d Hd. split; [exact Hd|]. intros ks l E. destruct (declared_params d l _ Hd E) as [-> _]. rewrite Forall_forall. intros [k a] I.
  assert (S0 : shown_names k). { pose proof (all_params_shown d Hd) as H. rewrite Forall_forall in H. apply H. now apply in_combine_l in I. }
  cbn [fst]. now apply shown_apart.
Qed.
Lemma reading_flow : forall r c, class_tells r [] [] c -> r_main r <> [] ->
  Forall (flow demo shown_names functions_only declarations false) (r_main r) ->
  Forall (fun db => declarations (fst db) /\ Forall (flow demo shown_names functions_only declarations false) (snd db)) (r_functions r) ->
  flow_class demo shown_names functions_only declarations c.
Proof.
  intros r c [l [l0 Hd Hb]] Hm Fm Ff. split; [|cbn; constructor]. cbn [from_ir methods]. apply last_ones_forall. rewrite Forall_map. rewrite Forall_forall in *. intros [d b] I.
  destruct (Hb _ I) as (l1 & l2 & E & _). cbn [fst snd] in *.
  assert (J : In (d, b) (r_functions r ++ [(L "__main__()", or_pass (r_main r))])) by (rewrite E; apply in_elt).
  apply in_app_or in J. unfold with_name. cbn [fst snd]. destruct J as [J|[J|[]]].
  - destruct (Ff _ J). cbn [fst snd] in *. split; [now apply demo_flow_decl|assumption].
  - assert (d = L "__main__()" /\ b = or_pass (r_main r)) as [-> ->] by (split; congruence). split; [apply demo_flow_decl; now left|].
    unfold or_pass. destruct (r_main r); [contradiction|]. now rewrite Forall_forall.
Qed.
Ltac no_helper := let H := fresh in intros H; vm_compute in H; intuition discriminate.
Ltac not_shown := let H := fresh in intros H; vm_compute in H; intuition discriminate.
Ltac one_flow :=
  match goal with
  | |- flow _ _ _ _ _ (RText _ None) => exact Logic.I
  | |- flow _ _ _ _ _ (RTrans _ None) => exact Logic.I
  | |- flow _ _ _ _ _ (RExtend _) => exact Logic.I
  end.
Lemma sources_only_show :
  flow_source demo shown_names functions_only declarations xexpat xex_compile no_shlex no_module (eq (L "_kj_1")) (XmlFile (xsource xlayout)) /\
  flow_source demo shown_names functions_only declarations xexpat xex_compile no_shlex no_module (eq (L "_kj_1")) (XmlFile (xsource xpage)).
Proof.
  assert (One : forall s d r0, xml_document xexpat (xsource s) = Ok d -> document_tells xex_compile (eq (L "_kj_1")) (settings_of (xsource s) d) d r0 ->
    (forall c, class_tells r0 [] [] c -> flow_class demo shown_names functions_only declarations c) ->
    flow_source demo shown_names functions_only declarations xexpat xex_compile no_shlex no_module (eq (L "_kj_1")) (XmlFile (xsource s))).
  { intros s d r0 Ed T H c A. inversion A as [x c0 B|]; subst. destruct B as [r c [d' r' Ed' T'] C]. assert (d' = d) as -> by congruence.
    rewrite (reading_unique _ _ _ _ _ _ T' T) in C. apply H. exact C. }
  split; eapply One; [vm_compute; reflexivity|exact xlayout_reads| |vm_compute; reflexivity|exact xpage_reads|].
  - intros c C. apply (reading_flow _ _ C); [discriminate| |].
    + cbn [xlayout_reading r_main]. repeat (apply Forall_cons; [try one_flow|]); [| |constructor].
      * split; [|now left]. split; [constructor|]. split; [apply demo_flow_params|no_helper].
      * split; [|now left]. cbv [flow_text]. change (parse demo (L "x")) with (EName (L "x")). no_helper.
    + cbn [xlayout_reading r_functions]. constructor; [|constructor]. split; [right; right; right; now left|]. cbn [snd]. repeat (apply Forall_cons; [one_flow|]). constructor.
  - intros c C. apply (reading_flow _ _ C); [discriminate| |].
    + cbn [xpage_reading r_main]. repeat constructor.
    + cbn [xpage_reading r_functions]. constructor; [|constructor; [|constructor]]; (split; [|cbn [snd]; repeat (apply Forall_cons; [try one_flow|]); try exact (Forall_nil _)]).
      * right; now left.
      * split; [|now left]. change (flow_text demo shown_names declarations (L "f(x)")) with
          (flow_expr demo shown_names declarations (ECall (ByName (L "f")) [(None, ArgName (L "x"))])).
        split; [constructor; [no_helper|constructor]|]. split; [apply demo_flow_params|no_helper].
      * split; [|now left]. split; [constructor; [left; exact (Forall_nil _)|constructor]|]. split; [apply demo_flow_params|no_helper].
      * right; right; right; now left.
      * change (flow_pystm demo shown_names functions_only declarations (PySet (L "parent_block") (EAttr (L "parent") (L "_kj_block_title")))).
        split; [exact Logic.I|]. split; [right; constructor; [not_shown|constructor]|left; not_shown].
      * split; [|now left]. split; [constructor|]. split; [apply demo_flow_params|no_helper].
      * cbn [flow]. split; [apply demo_flow_decl; right; right; now left|]. split; [|split].
        -- split; [exact Logic.I|]. split; [split; [exact Logic.I|split; exact Logic.I]|]. split; [exact Logic.I|]. split; [|split; exact Logic.I].
           split; [|now left]. cbv [flow_text]. change (parse demo (L "n")) with (EName (L "n")). no_helper.
        -- change (flow_text demo shown_names declarations (L "twice(_kj_1)")) with
             (flow_expr demo shown_names declarations (ECall (ByName (L "twice")) [(None, ArgName (L "_kj_1"))])).
           split; [constructor; [no_helper|constructor]|]. split; [apply demo_flow_params|no_helper].
        -- exists (ByName (L "twice")), [(None, ArgName (L "_kj_1"))]. split; [reflexivity|]. constructor; [reflexivity|constructor].
Qed.
Definition any_xsources (fragment : bool) (name : str) : result any_source := rmap XmlFile (xsources fragment name).
Definition show (context : list (str * M_Values.value)) : result str :=
  rbind (any_file xexpat xex_compile no_shlex no_module (XmlFile (xsource xpage))) (fun f =>
    run_file demo (fun fragment name => rbind (any_xsources fragment name) (any_file xexpat xex_compile no_shlex no_module)) 9 f context).
(** A string for a number. *)
Example C83_whole_example :
  apart shown_names functions_only /\ fair_python demo functions_only /\ generated_names demo (eq (L "_kj_1")) /\ (forall l, object_names (no_module l)) /\
  (forall fragment name x, any_xsources fragment name = Ok x ->
     a_template xexpat xex_compile no_shlex (eq (L "_kj_1")) demo x /\
     flow_source demo shown_names functions_only declarations xexpat xex_compile no_shlex no_module (eq (L "_kj_1")) x) /\
  a_template xexpat xex_compile no_shlex (eq (L "_kj_1")) demo (XmlFile (xsource xpage)) /\
  flow_source demo shown_names functions_only declarations xexpat xex_compile no_shlex no_module (eq (L "_kj_1")) (XmlFile (xsource xpage)) /\
  object_names [(L "x", VStr (L "a<"))] /\ swapped shown_names functions_only [(L "x", VStr (L "a<"))] [(L "x", VInt 12)] /\
  show [(L "x", VStr (L "a<"))] = Ok (L "<h><t>Base!</t>:! <b args=""n"">a&lt;</b>, !<b args=""n"">b</b>a&lt;</h>") /\
  show [(L "x", VInt 12)] = Ok (L "<h><t>Base!</t>:! <b args=""n"">12</b>, !<b args=""n"">b</b>12</h>").
Proof.
  split; [exact shown_apart|]. split; [apply demo_fair|]. split; [exact xgenerated|]. split; [intros l; split; constructor|].
  split; [|split; [apply xsources_read|split; [apply sources_only_show|split; [|split; [|split; vm_compute; reflexivity]]]]].
  - intros fragment name x E. unfold any_xsources, xsources in E. destruct (seqb name (L "layout.html")); cbn [rmap rbind] in E; [|discriminate].
    assert (x = XmlFile (xsource xlayout)) as -> by congruence. split; [apply xsources_read|apply sources_only_show].
  - split; repeat constructor; [intros []|]. intros [E|[E|[E|[]]]]; discriminate.
  - constructor; [|constructor]. cbn [fst snd]. split; [reflexivity|]. split; [right; repeat split|]. split; [left; now left|not_shown].
Qed.

(** ** What the conditions are for

    One template, with a main function only, for two values of [x]. *)
Definition alone (b : list node) (v : M_Values.value) : result str :=
  run_file demo (fun _ _ => Raise "OSError") 5 (page [NDef 1 false (L "__main__()") b]) [(L "x", v)].
Lemma not_same : forall s s', delimiters s <> delimiters s' -> ~ both same_markup (Ok s) (Ok s').
Proof. intros s s' H E. cbn [both] in E. now apply C83_delimiters in E. Qed.
(** Markup that the user takes as it is: [literal(x)]. *)
Theorem C83_literal_refuted : ~ forall v v', swap v v' -> both same_markup (alone [NExpr 1 (L "literal(x)") false] v) (alone [NExpr 1 (L "literal(x)") false] v').
Proof. intros H. specialize (H (VStr (L "<b>")) (VStr (L "b"))). apply (not_same (L "<b>") (L "b")); [discriminate|]. apply H. right; repeat split. Qed.
Print Assumptions C83_literal_refuted.
(** None is not a string: it removes the attribute. *)
Definition with_class : list node := [NText 1 (L "<a") None; NAttr 1 (L "class") [NExpr 1 (L "x") true] None (L "xml") (L "_kj_1") (L "_kj_2") (L "_kj_3"); NText 1 (L "/>") None].
Theorem C83_none_refuted : ~ forall v, S_Values.plain v -> both same_markup (alone with_class VNone) (alone with_class v).
Proof. intros H. specialize (H (VStr (L "b")) Logic.I). apply (not_same (L "<a/>") (L "<a class=""b""/>")); [discriminate|exact H]. Qed.
Print Assumptions C83_none_refuted.
(** A condition that mentions no free variable, but gets the value of one by its name. *)
Definition by_name : list node := [NIf 1 (L "value_of('x')") [NText 1 (L "<a/>") None]].
Theorem C83_value_of_refuted : ~ forall v v', swap v v' -> both same_markup (alone by_name v) (alone by_name v').
Proof. intros H. specialize (H (VStr []) (VStr (L "b"))). apply (not_same [] (L "<a/>")); [discriminate|]. apply H. right; repeat split. Qed.
Print Assumptions C83_value_of_refuted.
