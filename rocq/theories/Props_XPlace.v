(** * Properties of documents that do not compile (C82) *)

From Coq Require Import Ascii String List Arith NArith ZArith Bool.
From Verif Require Import PyStr PyStrLemmas M_Values M_IR M_Text M_XText S_XText M_Entities M_Dom M_XCompile S_XDoc S_XFun S_XPlace P_XDoc P_XFun P_XPlace P_XPlace2.
From Verif Require M_XRun S_Exec Props_Exec Props_XText Props_XDoc.
Import ListNotations.
Open Scope list_scope.

(** ** C82: a template is refused exactly when something in it is wrong

    [wrong] lists what can be wrong with a node where it stands; [reaches] the nodes that are
    compiled, with where each of them stands; the first is the root, in the document. *)
Notation at_root := (Spot false false InDocument []).

Theorem C82_accepted : forall compile helper autoblocks cdata_scripts mode (frag : bool) d,
  (exists t, compile_document compile helper autoblocks cdata_scripts mode frag d = Ok t) <->
  exists root, filter no_comment (d_children d) = [root] /\
    forall sp e, reaches autoblocks cdata_scripts (at_root root) sp -> ~ wrong compile autoblocks cdata_scripts sp e.
Proof.
  intros compile helper autoblocks cdata_scripts mode frag d. unfold compile_document. split.
  - intros [t E]. destruct (filter no_comment (d_children d)) as [|root [|r2 l]]; try discriminate. exists root. split; [reflexivity|]. intros sp e R.
    destruct (compile_node compile helper autoblocks cdata_scripts mode InDocument [] root (Cst [(main_decl, [])] [] false false 0)) as [r|x] eqn:E1; [|discriminate].
    eapply (reached_ok compile helper autoblocks cdata_scripts mode _ _ R InDocument _ _ E1); first [apply alike_refl|reflexivity].
  - intros (root & -> & W). destruct (compile_node compile helper autoblocks cdata_scripts mode InDocument [] root (Cst [(main_decl, [])] [] false false 0)) as [r|x] eqn:E1; [eexists; reflexivity|].
    exfalso. destruct (raise_wrong compile helper autoblocks cdata_scripts mode root _ InDocument _ _ _ E1 (alike_refl _)) as (sp & R & Ws). exact (W _ _ R Ws).
Qed.
Print Assumptions C82_accepted.

(** The error says what is wrong. *)
Theorem C82_error : forall compile helper autoblocks cdata_scripts mode (frag : bool) d e,
  compile_document compile helper autoblocks cdata_scripts mode frag d = Raise e ->
  (e = "XMLTemplateCompileError"%string /\ forall root, filter no_comment (d_children d) <> [root]) \/
  exists root sp, filter no_comment (d_children d) = [root] /\
    reaches autoblocks cdata_scripts (at_root root) sp /\ wrong compile autoblocks cdata_scripts sp e.
Proof.
  intros compile helper autoblocks cdata_scripts mode frag d e E. unfold compile_document in E.
  destruct (filter no_comment (d_children d)) as [|root [|r2 l]]; [left; split; [congruence|discriminate]| |left; split; [congruence|discriminate]].
  right. destruct (compile_node compile helper autoblocks cdata_scripts mode InDocument [] root (Cst [(main_decl, [])] [] false false 0)) as [r|x] eqn:E1; [discriminate|].
  cbn [rmap] in E. assert (x = e) as -> by congruence.
  destruct (raise_wrong compile helper autoblocks cdata_scripts mode root _ InDocument _ _ _ E1 (alike_refl _)) as (sp & R & Ws). exists root, sp. split; [reflexivity|]. now split.
Qed.
Print Assumptions C82_error.

(** Whether a document compiles depends neither on the mode, nor on whether it is a fragment. *)
Corollary C82_modes : forall compile helper helper' autoblocks cdata_scripts mode mode' (frag frag' : bool) d t,
  compile_document compile helper autoblocks cdata_scripts mode frag d = Ok t ->
  exists t', compile_document compile helper' autoblocks cdata_scripts mode' frag' d = Ok t'.
Proof. intros compile helper helper' autoblocks cdata_scripts mode mode' frag frag' d t E. apply (C82_accepted compile helper'). apply (C82_accepted compile helper autoblocks cdata_scripts mode frag). now exists t. Qed.
Print Assumptions C82_modes.

(** In particular, wherever it stands: an [else] that compiles is in a [py:nop], in an element with a
    [py:switch] left over, or right after a [py:if]; *)
Theorem C82_else : forall compile helper autoblocks cdata_scripts mode (frag : bool) d t root i x p b ln tag a cs,
  compile_document compile helper autoblocks cdata_scripts mode frag d = Ok t -> filter no_comment (d_children d) = [root] ->
  reaches autoblocks cdata_scripts (at_root root) (Spot i x p b (DElem ln tag a cs)) ->
  directive tag (L "else") -> ~ autoblock autoblocks tag a ->
  exists tag1 a1, p = InElement tag1 a1 /\ (tag1 = L "py:nop" \/ ~ absent (L "py:switch") a1 \/ b = L "py:if").
Proof.
  intros compile helper autoblocks cdata_scripts mode frag d t root i x p b ln tag a cs E F R D Na.
  destruct (proj1 (C82_accepted compile helper autoblocks cdata_scripts mode frag d) (ex_intro _ t E)) as (root' & F' & W). assert (root' = root) as -> by congruence.
  destruct p as [|tag1 a1]; [destruct (W _ _ R (wr_else_root _ _ _ i x b ln tag a cs Na D))|]. exists tag1, a1. split; [reflexivity|].
  destruct (has_attr (L "py:switch") a1) eqn:H; [right; left; intros X; apply has_attr_spec in H; contradiction|].
  destruct (seqb_spec tag1 (L "py:nop")) as [->|N1]; [now left|]. destruct (seqb_spec b (L "py:if")) as [->|N2]; [now right; right|].
  exfalso. apply (W _ _ R (wr_else compile autoblocks cdata_scripts i x tag1 a1 b ln tag a cs Na D N1 (fun X => ltac:(apply has_attr_spec in X; congruence)) N2)).
Qed.
Print Assumptions C82_else.
(** and a [py:switch] that compiles contains cases and elses, white space, and what shows nothing. *)
Theorem C82_switch : forall compile helper autoblocks cdata_scripts mode (frag : bool) d t root i x p b ln tag a cs,
  compile_document compile helper autoblocks cdata_scripts mode frag d = Ok t -> filter no_comment (d_children d) = [root] ->
  reaches autoblocks cdata_scripts (at_root root) (Spot i x p b (DElem ln tag a cs)) ->
  directive tag (L "switch") -> ~ autoblock autoblocks tag a -> switch_parts compile autoblocks cdata_scripts i x cs.
Proof.
  intros compile helper autoblocks cdata_scripts mode frag d t root i x p b ln tag a cs E F R D Na. unfold compile_document in E. rewrite F in E.
  destruct (compile_node compile helper autoblocks cdata_scripts mode InDocument [] root (Cst [(main_decl, [])] [] false false 0)) as [r|y] eqn:E1; [|discriminate].
  eapply (reached_switch compile helper autoblocks cdata_scripts mode _ _ R InDocument _ _ E1 (alike_refl _)); try eassumption; reflexivity.
Qed.
Print Assumptions C82_switch.

(** For sources: given what the parser reports, a template is made exactly when the expanded document
    has one root and nothing in it is wrong. *)
Theorem C82_source : forall expat compile helper mode (frag : bool) autoblocks cdata_scripts strip_text source,
  (exists t, xml_template expat compile helper mode frag autoblocks cdata_scripts strip_text source = Ok t) <->
  exists d root, M_XRun.xml_document expat (M_XRun.XmlSource source mode frag autoblocks cdata_scripts strip_text [] helper) = Ok d /\
    filter no_comment (d_children d) = [root] /\
    forall sp e, reaches autoblocks cdata_scripts (at_root root) sp -> ~ wrong compile autoblocks cdata_scripts sp e.
Proof.
  intros expat compile helper mode frag autoblocks cdata_scripts strip_text source. unfold xml_template, M_XRun.xml_document. cbn [M_XRun.x_text M_XRun.x_strip].
  destruct (M_Doctype.parser_source source) as [dtd src]. destruct (expat src) as [evs|x]; cbn [rbind]; [|split; [intros [t X]; discriminate|intros (d & r & X & _); discriminate]].
  destruct (build evs) as [ns|x]; cbn [rbind rmap]; [|split; [intros [t X]; discriminate|intros (d & r & X & _); discriminate]].
  rewrite C82_accepted. split.
  - intros (root & F & W). eexists; exists root. split; [reflexivity|]. now split.
  - intros (d & root & E & F & W). exists root. assert (d = transform strip_text (Document dtd ns)) as -> by congruence. now split.
Qed.
Print Assumptions C82_source.

(** *** Examples *)
Definition pl_run (n : dnode) : result template :=
  compile_document Props_XText.xex_compile (fun i => dec (N.of_nat i)) [L "main"] true (L "xml") false (Document [] [n]).
Definition pl_test : list (str * str) := [(L "test", L "x")].
Definition pl_good : dnode :=
  DElem 1 (L "div") [] [DElem 1 (L "py:if") pl_test []; DElem 1 (L "py:else") [] [];
    DElem 2 (L "py:switch") pl_test [DText 2 (L "  ") true; DElem 2 (L "py:case") [(L "value", L "1")] []; DElem 2 (L "py:nop") [] [DElem 2 (L "py:else") [] []]]].
Definition pl_else : dnode := DElem 1 (L "div") [] [DElem 1 (L "py:if") pl_test []; DElem 1 (L "b") [] []; DElem 1 (L "py:else") [] []].
Definition pl_switch : dnode := DElem 1 (L "div") [] [DElem 1 (L "py:switch") pl_test [DText 1 (L "text") true; DElem 1 (L "py:case") [(L "value", L "1")] []]].
Example C82_example :
  (exists t, pl_run pl_good = Ok t) /\
  pl_run pl_else = Raise "XMLTemplateCompileError" /\
  pl_run pl_switch = Raise "XMLTemplateCompileError" /\
  pl_run (DElem 1 (L "main") [(L "py:autoblock", L "maybe")] []) = Raise "ValueError" /\
  pl_run (DElem 1 (L "py:call") [] [DText 1 (L "x") true]) = Raise "AttributeError" /\
  pl_run (DElem 1 (L "script") [] [DElem 1 (L "b") [] []]) = Raise "AssertionError" /\
  pl_run (DPi 1 (L "py") (L " ")) = Raise "IndexError" /\
  reaches [L "main"] true (at_root pl_else) (Spot false false (InElement (L "div") []) (L "b") (DElem 1 (L "py:else") [] [])) /\
  wrong Props_XText.xex_compile [L "main"] true (Spot false false (InElement (L "div") []) (L "b") (DElem 1 (L "py:else") [] [])) "XMLTemplateCompileError".
Proof.
  split; [eexists; vm_compute; reflexivity|]. do 6 (split; [vm_compute; reflexivity|]). split.
  - eapply rc_inside; [|apply rc_here].
    apply (st_child [L "main"] true false false InDocument [] 1 (L "div") [] [DElem 1 (L "py:if") pl_test []; DElem 1 (L "b") [] []] (DElem 1 (L "py:else") [] []) [] Inner []).
    + apply ro_elem; [intros [[X|[]] _]; discriminate|now apply Props_XDoc.ex_plain_tag|reflexivity|intros [_ [X|X]]; discriminate].
    + discriminate.
    + intros [].
    + apply (da_cons _ _ _ _ _ [] []); [|apply (da_cons _ _ _ _ _ [] []); [|apply da_nil]].
      * apply de_inner; [|apply da_nil]. apply (ro_inner _ _ _ _ (L "if")); [intros [[X|[]] _]; discriminate|now apply Props_XDoc.ex_directive|cbn [inner_directives In]; tauto].
      * apply de_inner; [|apply da_nil]. apply ro_elem; [intros [[X|[]] _]; discriminate|now apply Props_XDoc.ex_plain_tag|reflexivity|intros [_ [X|X]]; discriminate].
    + cbn [inside]. split; [discriminate|]. intros [X|[X|[]]]; discriminate.
  - apply wr_else; [intros [[X|[]] _]; discriminate|now apply Props_XDoc.ex_directive|discriminate|intros []|discriminate].
Qed.

(** *** What is not refused *)

(** The content of a [py:replace] is not compiled, so that nothing in it is ever wrong. *)
Theorem C82_replace_refuted : exists n t, n = DElem 1 (L "py:replace") [(L "value", L "x")] [pl_else] /\ pl_run n = Ok t /\ pl_run pl_else = Raise "XMLTemplateCompileError".
Proof. eexists; eexists. split; [reflexivity|]. split; [vm_compute; reflexivity|]. vm_compute. reflexivity. Qed.
Print Assumptions C82_replace_refuted.
(** In a [py:nop] an [else] may stand after nothing, or twice: the template compiles, and its code is
    no Python ([S_Exec.structure]: the directives that the nodes stand for). *)
Theorem C82_nop_refuted : exists n ns, n = DElem 1 (L "py:nop") [] [DElem 1 (L "py:else") [] [DElem 1 (L "b") [] []]] /\
  pl_run n = Ok (TemplateNode 0 [] [NDef 0 false (L "__main__()") ns]) /\ S_Exec.structure ns = None.
Proof. eexists; eexists. split; [reflexivity|]. split; [vm_compute; reflexivity|]. vm_compute. reflexivity. Qed.
Print Assumptions C82_nop_refuted.
