(** * Names and calls in a running template: theorems C64 *)

From Coq Require Import Ascii String List NArith ZArith Bool Lia Arith.
From Verif Require Import PyStr PyStrLemmas M_Values M_IR S_IR M_Template M_Run S_Scope P_Scope S_Fails P_Fails Props_Run.
Import ListNotations.
Open Scope list_scope.

(** A name is the variable of the innermost function around that binds it, else a global of the template
    of that function, else one of Python's builtins. *)
Theorem C64_names : forall code py w p x r, lookup py w p x = r <-> sees code py w p x r.
Proof. exact lookup_sees. Qed.
Print Assumptions C64_names.
(** Assignments change one variable of the running function. *)
Theorem C64_binding : forall code (w : world code) p x v, binds_name code w p x v (set_name w p x v).
Proof. exact set_binds. Qed.
Print Assumptions C64_binding.
(** Expressions that are used: conditions, arguments, values of variables. *)
Theorem C64_used : forall code py w p e g, eval py w p e = Ok g <-> evaluates code py w p e g.
Proof. exact eval_iff. Qed.
Print Assumptions C64_used.
(** Expressions that are shown: functions run in the template and inside the functions where they are defined,
    with the arguments of the call. *)
Theorem C64_shown : forall code py state world_of run p x (s : state) v s',
  show_value py world_of run p x s = Ok (v, s') -> is_shown code py state world_of run p x s v s'.
Proof. exact show_iff. Qed.
Print Assumptions C64_shown.
Theorem C64_parameters : forall code py d args ps, bind_args py d args = Ok ps <-> parameters code py d args ps.
Proof. exact params_iff. Qed.
Print Assumptions C64_parameters.
(** Loops and dictionaries of attributes. *)
Theorem C64_loops : forall code py w p d rs, rounds py w p d = Ok rs <-> loops code py w p d rs.
Proof. exact rounds_iff. Qed.
Print Assumptions C64_loops.
Theorem C64_attributes : forall code py w p x l,
  attributes py w p x = Ok l <-> exists g v, evaluates code py w p (parse py x) g /\ looks code g v /\ attrs_of py v = Ok l.
Proof. exact attributes_iff. Qed.
Print Assumptions C64_attributes.
(** Conditions: the truth of the value; cases of a switch: the value. *)
Theorem C64_values : forall code py w p x v,
  evalue py w p x = Ok v <-> exists g, evaluates code py w p (parse py x) g /\ looks code g v.
Proof.
  intros code py w p x v. unfold evalue. split.
  - intros H. destruct (eval py w p (parse py x)) as [g|e] eqn:E; [|discriminate H]. cbn [rmap] in H. injection H as <-. exists g. split; [now apply eval_iff|now apply looks_iff].
  - intros (g & H & K). apply eval_iff in H. apply looks_iff in K. rewrite H. cbn [rmap]. now rewrite K.
Qed.
Print Assumptions C64_values.
Theorem C64_conditions : forall code py w p x b,
  condition py w p x = Ok b <-> exists g v, evaluates code py w p (parse py x) g /\ looks code g v /\ b = truth py v.
Proof.
  intros code py w p x b. unfold condition. split.
  - intros H. destruct (evalue py w p x) as [v|e] eqn:E; [|discriminate H]. cbn [rmap] in H. injection H as <-. apply C64_values in E as (g & H & K). now exists g, v.
  - intros (g & v & H & K & ->). assert (E : evalue py w p x = Ok v) by (apply C64_values; now exists g). now rewrite E.
Qed.
Print Assumptions C64_conditions.
(** Embedded Python: one statement after the other. *)
Theorem C64_python : forall code py p l w o w', run_block py w p l = Ok (o, w') -> performs code py p l w o w'.
Proof. exact block_performs. Qed.
Print Assumptions C64_python.
(** Texts are translated by the gettext of the template they are in. *)
Theorem C64_translated : forall code py w p t v, translate py w p t = Ok v <-> translates code py w p t v.
Proof. exact translate_iff. Qed.
Print Assumptions C64_translated.
(** Imported and included templates are loaded as fragments, into [self]; those that are extended, as whole
    templates, as the parent of [local]. *)
Theorem C64_imported : forall code py load w p name alias w' i,
  import_template py load w p name alias = Ok (w', i) <-> imports code py load w p name alias w' i.
Proof. exact import_iff. Qed.
Print Assumptions C64_imported.
Theorem C64_extended : forall code py load w p name w' i,
  extend_template py load w p name = Ok (w', i) <-> extends code py load w p name w' i.
Proof. exact extend_iff. Qed.
Print Assumptions C64_extended.
Theorem C64_main : forall code py (w : world code) i d b j ss, main_of py (w_heap w) i = Ok (d, b, j, ss) ->
  exists t, get (L "__main__") (attrs _ _ (w_heap w) i) = Some t /\ comes_from code w t d b j /\ ss = [].
Proof. exact main_from. Qed.
Print Assumptions C64_main.

(** A template with a helper function and a variable in its context, inside of which a function [f] runs that was
    defined inside of [g]; the variable [y] is that of [g], and [x] its own. *)
Definition scope_class : cls (fobj bcode) (str * bcode) :=
  Class _ _ [(L "__main__", (L "__main__()", [])); (L "h", (L "h(a)", programs [NExpr 1 (L "a") true]))] [].
Definition scope_world : world bcode :=
  World (fst (new _ _ [] scope_class (Given _ _ [(L "z", val (VStr (L "3")))])))
    [Frame [L "y"] [(L "y", val (VStr (L "2")))]; Frame [L "other"; L "y"] [(L "y", val (VStr (L "9")))];
     Frame [L "x"; L "late"] [(L "x", val (VStr (L "1")))]].
Definition scope_place : place := Place 0 [2; 0].
Definition scope_shown (x : str) : result str :=
  rmap (fun vs => render [fst vs])
    (show_value demo s_world (invoke demo (fun _ _ => Raise "OSError") 3) scope_place x (State scope_world (fun _ => []) (fun _ => []))).
Definition scope_call (f : str) (a : list (option str * arg)) : result value := rmap as_value (eval demo scope_world scope_place (ECall (ByName f) a)).
Definition quoted (s : string) : option str * arg := (None, ArgFun [] (fun _ => Ok (VStr (L s)))).
Example C64_example :
  map scope_shown [L "x"; L "y"; L "z"; L "late"; L "other"; L "h(y)"; L "self.h(x)"; L "parent.h(x)"] =
    [Ok (L "1"); Ok (L "2"); Ok (L "3"); Raise "UnboundLocalError"; Raise "NameError"; Ok (L "2"); Ok (L "1"); Raise "NameError"] /\
  scope_call (L "value_of") [quoted "z"] = Ok (VStr (L "3")) /\ scope_call (L "value_of") [quoted "x"] = Ok VNone /\
  scope_call (L "value_of") [quoted "x"; quoted "d"] = Ok (VStr (L "d")) /\
  scope_call (L "defined") [quoted "z"] = Ok (VBool true) /\ scope_call (L "defined") [quoted "x"] = Ok (VBool false) /\
  scope_call (L "literal") [quoted "<"] = Ok (VFlat [VStr (L "<")]) /\
  translate demo scope_world scope_place (L "t") = Ok (VStr (L "t!")) /\
  lookup demo (set_name scope_world scope_place (L "late") (val (VStr (L "5")))) scope_place (L "late") = Ok (val (VStr (L "5"))) /\
  rounds demo scope_world scope_place (L "i in y") = Ok [[(L "i", val (VStr (L "2")))]] /\
  bind_args demo (L "h(a)") [(None, val (VStr (L "7")))] = Ok [(L "a", val (code := bcode) (VStr (L "7")))].
Proof. repeat split; vm_compute; reflexivity. Qed.

(** ** Exceptions: which one, exactly when *)
Theorem C64_used_error : forall code py w p x e, eval py w p x = Raise e <-> fails code py w p x e.
Proof. exact fails_iff. Qed.
Print Assumptions C64_used_error.
Theorem C64_shown_error : forall code py state world_of run p x (s : state) e,
  show_value py world_of run p x s = Raise e <-> not_shown code py state world_of run p x s e.
Proof. exact show_fails. Qed.
Print Assumptions C64_shown_error.
Theorem C64_parameters_error : forall code py d args e, bind_args py d args = Raise e <-> not_accepted code py d args e.
Proof. exact accepted_iff. Qed.
Print Assumptions C64_parameters_error.
Theorem C64_loops_error : forall code py w p d e, rounds py w p d = Raise e <-> loop_fails code py w p d e.
Proof. exact loop_iff. Qed.
Print Assumptions C64_loops_error.
Theorem C64_translated_error : forall code py w p t e, translate py w p t = Raise e <-> not_translated code py w p t e.
Proof. exact translate_fails. Qed.
Print Assumptions C64_translated_error.
Theorem C64_imported_error : forall code py load w p name alias e,
  import_template py load w p name alias = Raise e <-> not_imported code py load w p name e.
Proof. exact import_fails. Qed.
Print Assumptions C64_imported_error.
(** A function of [self] that does not exist, a call of [self], attributes of a function, a helper with wrong arguments,
    a function with too few; the first argument that fails; a loop over what cannot be iterated; no file. *)
Example C64_error_example :
  map scope_shown [L "self.g(x)"; L "self(x)"; L "h.x"; L "h.x()"; L "defined()"; L "h()"; L "h(late,other)"; L "x(y)"; L "x.y"] =
    [Raise "AttributeError"; Raise "TypeError"; Raise "AttributeError"; Raise "AttributeError"; Raise "TypeError"; Raise "TypeError"; Raise "UnboundLocalError"; Raise "TypeError"; Raise "AttributeError"] /\
  rounds demo scope_world scope_place (L "i in h") = Raise "TypeError" /\
  import_template demo (fun _ _ => Raise "OSError") scope_world scope_place (L "a.html") None = Raise "OSError" /\
  translate demo scope_world (Place 5 []) (L "t") = Raise "NameError".
Proof. repeat split; vm_compute; reflexivity. Qed.
