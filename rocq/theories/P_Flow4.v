(** * Proofs: what the value of a variable can change, files and sources *)

From Coq Require Import Ascii String List Arith NArith ZArith Bool Lia.
From Verif Require Import PyStr PyStrLemmas M_Values S_Values M_IR M_Template M_XText M_Entities M_Text S_XFun M_Dom M_XCompile M_XRun S_XRun M_Run S_Run P_Run8 P_Run12 M_TextRun S_TextRun P_Refused S_Flow P_Flow P_Flow3.
Import ListNotations.
Open Scope list_scope.

Section Whole.
Variable py : python.
Variable free : str -> Prop.
Variable F : str -> Prop.
Variable declared : str -> Prop.
Hypothesis Ap : apart free F.
Hypothesis Fp : fair_python py F.
Variable gen : str -> Prop.
Hypothesis names : generated_names py gen.
Notation flow_file := (flow_file py free F declared).

Lemma swapped_names : forall l l', swapped free F l l' -> object_names l -> object_names l'.
Proof. intros l l' H. unfold object_names. replace (map fst l') with (map fst l); [auto|]. induction H as [|a b l l' (E & _) H IH]; cbn [map]; congruence. Qed.

Theorem files_flow : forall files depth f context context',
  (forall fragment name f, files fragment name = Ok f -> (a_file py gen f \/ refused f) /\ flow_file f) -> a_file py gen f \/ refused f -> flow_file f ->
  object_names context -> swapped free F context context' ->
  both same_markup (run_file py files depth f context) (run_file py files depth f context').
Proof.
  intros files depth f context context' Hf Hx Fx Hc Hs.
  rewrite (run_means py gen names files depth f context); [|intros fr n g E; now apply (Hf fr n)|exact Hx|exact Hc].
  rewrite (run_means py gen names files depth f context'); [|intros fr n g E; now apply (Hf fr n)|exact Hx|now apply (swapped_names context)].
  unfold file_means. destruct (meaning_of f) as [c|e] eqn:Em; cbn [rbind]; [|reflexivity].
  apply (template_rel py free F declared Ap Fp); [|now apply Fx|exact Hs].
  intros fragment name c' E. destruct (files fragment name) as [g|] eqn:Eg; cbn [rbind] in E; [|discriminate]. destruct (Hf _ _ _ Eg) as [_ Fg]. now apply Fg.
Qed.

Variable expat : str -> result (list event).
Variable compile : str -> compiled.
Variable shlex_split : str -> result (list str).
Variable exec_module : list (list str) -> list (str * M_Values.value).
Hypothesis modules_named : forall l, object_names (exec_module l).
Theorem sources_flow : forall sources depth x context context',
  (forall fragment name x, sources fragment name = Ok x ->
     a_template expat compile shlex_split gen py x /\ flow_source py free F declared expat compile shlex_split exec_module gen x) ->
  a_template expat compile shlex_split gen py x -> flow_source py free F declared expat compile shlex_split exec_module gen x ->
  object_names context -> swapped free F context context' ->
  let run := fun context => rbind (any_file expat compile shlex_split exec_module x) (fun f =>
    run_file py (fun fragment name => rbind (sources fragment name) (any_file expat compile shlex_split exec_module)) depth f context) in
  both same_markup (run context) (run context').
Proof.
  intros sources depth x context context' Hs Hx Fx Hc Sw run.
  assert (One : forall x f, a_template expat compile shlex_split gen py x -> flow_source py free F declared expat compile shlex_split exec_module gen x -> any_file expat compile shlex_split exec_module x = Ok f ->
    (a_file py gen f \/ refused f) /\ flow_file f).
  { intros y f Hy Fy E. pose proof (any_outcome expat compile shlex_split exec_module gen py modules_named y Hy) as O. rewrite E in O. inversion O as [f0 c A M T|f0 R No|]; subst.
    - split; [now left|]. intros c' M'. assert (c' = c) as -> by congruence. now apply Fy.
    - split; [now right|]. intros c' M'. destruct (refused_class f R) as [_ X]. congruence. }
  unfold run. destruct (any_file expat compile shlex_split exec_module x) as [f|e] eqn:E; cbn [rbind]; [|reflexivity]. destruct (One x f Hx Fx E) as [H1 H2]. apply files_flow; auto.
  intros fragment name g Eg. destruct (sources fragment name) as [y|] eqn:Ey; cbn [rbind] in Eg; [|discriminate]. destruct (Hs _ _ _ Ey). now apply (One y).
Qed.
End Whole.
