(** * Arguments of template functions

    [TplFunc] (template.py:320-363), the functions that hand on their arguments (util.py:50-54,
    template.py:156-160) and how CPython binds arguments to the parameters of a function.  No proofs here. *)

From Coq Require Import Ascii String List NArith ZArith Bool Arith.
From Verif Require Import PyStr M_Template.
Import ListNotations.
Open Scope list_scope.
Open Scope nat_scope.

(** The parameters of [def f(a, /, b, *c, d, **e)]; [*c] and [**e] may be missing.  ([inspect.signature]; which
    parameters a declaration has is Python's to say.) *)
Record signature := Signature {
  s_posonly : list str;
  s_normal : list str;
  s_varargs : option str;
  s_kwonly : list str;
  s_varkw : option str }.

Section Values.
Variable V code : Type.
Variable body_of_wrapper : code.                (* the code of the functions that hand on arguments *)

(** A Python function: code with its parameters, globals, [__defaults__] (of the last positional parameters) and
    [__kwdefaults__]. *)
Record pyfun := PyFun {
  f_sig : signature;
  f_body : code;
  f_globals : nat;
  f_defaults : list V;
  f_kwdefaults : list (str * V) }.

(** What a parameter is bound to: a value, the tuple of [*c], the dictionary of [**e]. *)
Inductive bound : Type := One (v : V) | Rest (l : list V) | Others (l : list (str * V)).

(** CPython, ceval.c [initialize_locals]: positional arguments to the first parameters. *)
Fixpoint fill (ps : list str) (args : list V) : list (str * option V) :=
  match ps, args with
  | [], _ => []
  | p :: ps', [] => (p, None) :: fill ps' []
  | p :: ps', a :: args' => (p, Some a) :: fill ps' args'
  end.
(** Then keyword arguments, in order: a parameter that has a value already is an error; one that there is not (or
    that is positional only) goes to [**e]. *)
Fixpoint give (named : list str) (varkw : bool) (kws : list (str * V)) (slots : list (str * option V)) (others : list (str * V))
  : result (list (str * option V) * list (str * V)) :=
  match kws with
  | [] => Ok (slots, others)
  | (k, v) :: kws' =>
      if smem k named then
        match get k slots with
        | Some (Some _) => Raise "TypeError"
        | _ => give named varkw kws' (set k (Some v) slots) others
        end
      else if varkw then give named varkw kws' slots (others ++ [(k, v)])
      else Raise "TypeError"
  end.
(** The default of the positional parameter number [i] of [n]. *)
Definition positional_default (f : pyfun) (n i : nat) : option V :=
  let first := n - length (f_defaults f) in
  if i <? first then None else nth_error (f_defaults f) (i - first).
(** Then the defaults; a parameter that is still without a value is an error. *)
Fixpoint complete (slots : list (str * option V)) (default : nat -> str -> option V) (i : nat) : result (list (str * bound)) :=
  match slots with
  | [] => Ok []
  | (p, o) :: slots' =>
      match (match o with Some v => Some v | None => default i p end) with
      | Some v => rmap (cons (p, One v)) (complete slots' default (S i))
      | None => Raise "TypeError"
      end
  end.
(** The variables a call begins with. *)
Definition bind_arguments (f : pyfun) (args : list V) (kws : list (str * V)) : result (list (str * bound)) :=
  let s := f_sig f in
  let positional := s_posonly s ++ s_normal s in
  let n := length positional in
  rbind (give (s_normal s ++ s_kwonly s) (match s_varkw s with Some _ => true | None => false end) kws
           (fill positional args ++ map (fun k => (k, None)) (s_kwonly s)) []) (fun r =>
  if (n <? length args) && (match s_varargs s with Some _ => false | None => true end) then Raise "TypeError"
  else
    rmap (fun l => l ++ match s_varargs s with Some p => [(p, Rest (skipn n args))] | None => [] end
                     ++ match s_varkw s with Some p => [(p, Others (snd r))] | None => [] end)
      (complete (fst r) (fun i p => if i <? n then positional_default f n i else get p (f_kwdefaults f)) 0)).

(** A call that has begun: the code, its globals, its variables. *)
Definition begun : Type := code * nat * list (str * bound).
Definition call_python (f : pyfun) (args : list V) (kws : list (str * V)) : result begun :=
  rmap (fun l => (f_body f, f_globals f, l)) (bind_arguments f args kws).

(** template.py:366-379 [_bind_globals]: [types.FunctionType] is given code, globals, name, [__defaults__] and
    closure; the other attributes are those of a new function. *)
Definition bind_globals (f : pyfun) (globals : nat) : pyfun := PyFun (f_sig f) (f_body f) globals (f_defaults f) [].
(** A function [def g(p, *a, **kw)] that hands on [*a] and [**kw], called with [first] (an object bound to it) in front:
    what it hands on. *)
Definition handed_on (params : list str) (first args : list V) (kws : list (str * V)) : result (list V * list (str * V)) :=
  rbind (bind_arguments (PyFun (Signature [] params (Some (L "args")) [] (Some (L "kwargs"))) body_of_wrapper 0 [] []) (first ++ args) kws) (fun vars =>
  match get (L "args") vars, get (L "kwargs") vars with
  | Some (Rest a), Some (Others k) => Ok (a, k)
  | _, _ => Raise "NameError"
  end).
(** template.py:360-379 [__call__(self, *args, **kwargs)] of the template function [this], bound to an instance with
    [globals], and the [lambda *a, **kw] that it calls.  ([_bound_func] is computed at the first call; later ones are the
    same, since [__globals__] of an instance is set once.) *)
Definition call_with_self (this : V) (args : list V) (kws : list (str * V)) : result (list V * list (str * V)) :=
  rbind (handed_on [L "self"] [this] args kws) (fun ak => handed_on [] [] (fst ak) (snd ak)).
Definition call_template_function (this : V) (f : pyfun) (globals : nat) (args : list V) (kws : list (str * V)) : result begun :=
  rbind (call_with_self this args kws) (fun ak => call_python (bind_globals f globals) (fst ak) (snd ak)).
(** template.py:157-163: an inherited function, through the template functions made of [trampoline( *a, **kw)] in the
    templates that extend the one with the function. *)
Fixpoint call_inherited (through : list V) (this : V) (f : pyfun) (globals : nat) (args : list V) (kws : list (str * V)) : result begun :=
  match through with
  | [] => call_template_function this f globals args kws
  | t :: through' =>
      rbind (call_with_self t args kws) (fun ak =>
      rbind (handed_on [] [] (fst ak) (snd ak)) (fun ak => call_inherited through' this f globals (fst ak) (snd ak)))
  end.
(** util.py:50-54 [flattener.decorate], for functions defined inside of functions: [inner( *args, **kwargs)]. *)
Definition call_decorated (f : pyfun) (args : list V) (kws : list (str * V)) : result begun :=
  rbind (handed_on [] [] args kws) (fun ak => call_python f (fst ak) (snd ak)).

(** template.py:321-328 and 272-298: the functions of a template are those of a class body that is run when the template
    is loaded; so are the defaults of their parameters.  A default is a constant or a name. *)
Inductive default : Type := Constant (v : V) | Name (x : str).
Definition default_value (names : list (str * V)) (d : default) : result V :=
  match d with
  | Constant v => Ok v
  | Name x => match get x names with Some v => Ok v | None => Raise "NameError" end
  end.
(** Running [def] where [names] are defined. *)
Definition define_function (s : signature) (body : code) (globals : nat) (defaults : list default) (kwdefaults : list (str * default))
  (names : list (str * V)) : result pyfun :=
  rbind (rseq (map (default_value names) defaults)) (fun ds =>
  rbind (rseq (map (fun kd => rmap (pair (fst kd)) (default_value names (snd kd))) kwdefaults)) (fun ks =>
  Ok (PyFun s body globals ds ks))).
End Values.
