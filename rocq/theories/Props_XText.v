(** * Properties of interpolation in XML templates (C36, C37)

    [compile] is Python's compiler as the scanner uses it: any function. *)

From Coq Require Import Ascii String List Arith NArith ZArith Bool.
From Verif Require Import PyStr PyStrLemmas Regex M_Values M_IR S_IR M_Exec M_Text S_Text M_XText S_XText P_XText P_XText2.
Import ListNotations.
Open Scope list_scope.

(** ** C36: every character is accounted for *)

(** The pieces of a text are exactly those of the grammar, which says everything: what the
    scanner reads, and (no reading) what it refuses.  The grammar has a rule for expressions with
    something in them that looks like a reference, which is not what a user expects (see below). *)
Theorem C36_exact : forall compile ln s ps, reads compile ln s ps <-> pieces compile s ln = Ok ps.
Proof. exact pieces_spec. Qed.
Print Assumptions C36_exact.
(** If no expression has such a thing in it, the text is a sequence of consecutive parts, one for
    each piece.  Missing for the whole property: expressions with something like a reference. *)
Theorem C36_spans_partial : forall compile ln s ps, pieces compile s ln = Ok ps -> Forall simple_expr ps ->
  exists parts, s = concat parts /\ Forall2 xspells parts ps.
Proof. intros compile ln s ps H F. apply (reads_spans compile ln); [|exact F]. now apply pieces_spec. Qed.
Print Assumptions C36_spans_partial.

(** A text without references is one piece; a [$] before anything else stays. *)
Theorem C36_plain : forall compile ln s, s <> [] -> no_ref s [] -> pieces compile s ln = Ok [XText ln s].
Proof.
  intros compile ln s Ne H. apply pieces_spec. rewrite <- (app_nil_r s) at 1. apply x_text; auto. constructor.
Qed.
Print Assumptions C36_plain.

(** A compiler that stops at the first closing brace. *)
Definition xex_compile (s : str) : compiled :=
  match find (L "}") s with Some i => CErr 1 (i + 1) | None => COk end.
Definition xex_source : str := L "a$b.c costs $$${ x+1}!".
Example C36_example :
  pieces xex_compile xex_source 3 =
    Ok [XText 3 (L "a"); XExpr 3 (L "b.c"); XText 3 (L " costs "); XText 3 (L "$"); XExpr 3 (L "x+1"); XText 3 (L "!")] /\
  Forall simple_expr [XText 3 (L "a"); XExpr 3 (L "b.c"); XText 3 (L " costs "); XText 3 (L "$"); XExpr 3 (L "x+1"); XText 3 (L "!")].
Proof.
  split; [vm_compute; reflexivity|]. repeat constructor; cbn [simple_expr]; intros t1 t2 E Ne (c & v & E' & _).
  - assert (X : In c_dollar (L "b.c" ++ L "}")) by (rewrite E, <- app_assoc, E'; apply in_elt). cbn in X. intuition discriminate.
  - assert (X : In c_dollar (L "x+1" ++ L "}")) by (rewrite E, <- app_assoc, E'; apply in_elt). cbn in X. intuition discriminate.
Qed.
Example C36_plain_example : L "5 $ or $1" <> [] /\ no_ref (L "5 $ or $1") [].
Proof.
  split; [discriminate|]. intros t1 t2 E Ne (c & v & E' & H). rewrite app_nil_r in E'. subst t2.
  do 10 (destruct t1 as [|? t1];
    [cbn in E; try discriminate E; injection E; intros; subst; try discriminate; cbn in H; intuition discriminate|
     cbn in E; try discriminate E; injection E as <- E]).
Qed.

(** The rule for such expressions is used: *)
Example C36_inner_example :
  reads xex_compile 3 (L "a ${f('$x', 1)} b")
    [XText 3 (L "a "); XExpr 3 (L "f('$x', 1)"); XExpr 3 (L "x"); XText 3 (L "', 1)} b")].
Proof. apply C36_exact. vm_compute. reflexivity. Qed.

(** An expression with a [$name] in it: the search for references goes on inside the expression,
    so that its end is output as well ("${'$x'}" gives the string, the value of [x] and "'}"). *)
Theorem C36_inner_refuted : exists compile s ps, pieces compile s 1 = Ok ps /\
  compile (L "'$x'") = COk /\ s = L "${'$x'}" /\
  ps = [XExpr 1 (L "'$x'"); XExpr 1 (L "x"); XText 1 (L "'}")].
Proof. exists xex_compile, (L "${'$x'}"). eexists. split; [vm_compute; reflexivity|]. repeat split. Qed.
Print Assumptions C36_inner_refuted.
(** A text that ends after the opening brace: Python has nothing to compile, and the position it
    reports (line 0, say) is not looked at before indexing. *)
Theorem C36_end_refuted : forall l o, pieces (fun _ => CErr l o) (L "${") 1 = Raise "IndexError".
Proof.
  intros l o. unfold pieces. assert (E : exists m, finditer interp_pattern (L "${") = [m] /\ mstart m = 0 /\ mend m = 2 /\ group m 2 = Some [])
    by (eexists; split; [vm_compute; reflexivity|]; repeat split).
  destruct E as (m & -> & Es & Ee & Eg). cbn [pieces_loop]. rewrite Es, Ee, Eg. cbn [Nat.ltb Nat.leb].
  unfold xget_braced. change (skipn 2 (L "${")) with (@nil char). cbn [length lstrip dropwhile Nat.sub Nat.add].
  change (skipn 2 (L "${")) with (@nil char). unfold slice. change (skipn 2 (L "${")) with (@nil char). rewrite firstn_nil. reflexivity.
Qed.
Print Assumptions C36_end_refuted.

(** *** What the pieces render *)

(** The code generated for the pieces shows them one after the other and leaves the variables
    and stacks alone; if an expression fails, so does the code. *)
Theorem C36_renders : forall py compile k ln s ps e w sw, pieces compile s ln = Ok ps ->
  exists nodes, text_nodes compile k ln s = Ok nodes /\
  rmap (fun r => (render (fst (fst r)), snd (fst r), snd r)) (exec_body py (programs nodes) e w sw) =
  rmap (fun vs => (render vs, w, sw)) (rseq (map (shown py e k) ps)).
Proof.
  intros py compile k ln s ps e w sw H. exists (map (piece_node k) ps). split; [unfold text_nodes; now rewrite H|]. apply pieces_render.
Qed.
Print Assumptions C36_renders.
Example C36_renders_example :
  rmap (fun vs => render vs) (rseq (map (shown (Python (fun _ x => Ok (VStr (L "<" ++ x ++ L ">"))) (fun _ _ => Ok true) (fun _ _ => Ok []) (fun _ _ => Ok [])
      (fun _ => Ok []) (fun _ _ => true) (fun t => VStr t)) [] TK_text)
    [XText 3 (L "a"); XExpr 3 (L "b.c"); XText 3 (L "$"); XExpr 3 (L "x+1")])) = Ok (L "a&lt;b.c&gt;$&lt;x+1&gt;").
Proof. reflexivity. Qed.

(** ** C37: line numbers *)

(** Missing: texts with a line break between an opening brace and its expression. *)
Theorem C37_partial : forall compile ln s ps, pieces compile s ln = Ok ps -> Forall simple_expr ps -> no_gap s ->
  exists parts, s = concat parts /\ on_lines ln parts ps.
Proof. intros compile ln s ps H F G. apply (reads_lines compile); [|exact F|exact G]. now apply pieces_spec. Qed.
Print Assumptions C37_partial.
Definition xex_lines : str := [c_nl] ++ L "$a" ++ [c_nl] ++ L "${b}" ++ [c_nl] ++ L "$$".
Example C37_example :
  pieces xex_compile xex_lines 7 =
    Ok [XText 7 [c_nl]; XExpr 8 (L "a"); XText 8 [c_nl]; XExpr 9 (L "b"); XText 9 [c_nl]; XText 10 (L "$")].
Proof. vm_compute. reflexivity. Qed.

(** Line breaks after the opening brace are not counted. *)
Theorem C37_refuted : exists compile s, s = L "${" ++ [c_nl] ++ L "a}b" /\
  pieces compile s 1 = Ok [XExpr 1 (L "a"); XText 1 (L "b")].
Proof. exists xex_compile. eexists. split; [reflexivity|]. vm_compute. reflexivity. Qed.
Print Assumptions C37_refuted.
