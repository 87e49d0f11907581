(** * Names of a template: globals, inheritance and inclusion

    Model of [_Template.__init__], [_extend], [_import] and [TplFunc] of [kajiki/template.py].  No
    proofs here.  Instances are kept in a heap, so that functions, instances and contexts may refer to
    each other.  Simplifications: the names of functions are taken not to be attributes that every
    template has ([render], [_extend], ...), which would replace them; Python's renaming of [__x]
    inside of a class is left out. *)

From Coq Require Import Ascii String List NArith ZArith Bool.
From Verif Require Import PyStr M_Loader.
Import ListNotations.
Open Scope list_scope.

Section Template.
Variable obj : Type.     (* any other Python object *)
Variable fn : Type.      (* the code of a function *)

(** template.py:335-379 [TplFunc]: code, and the instance whose [__globals__] it runs in.  Binding is
    lazy, but [__globals__] is assigned only once: it makes no difference when it is read. *)
Inductive fcode : Type :=
| Code (f : fn)
| Trampoline (k : str).          (* template.py:157-163 *)
Record tplfun := TplFunc { f_code : fcode; f_inst : nat }.

Inductive gval : Type :=
| GObj (o : obj)
| GInst (i : nat)                (* an instance of a template *)
| GFun (f : tplfun)
| GDefined (i : nat)             (* template.py:69: [lambda x: x in self.__globals__] *)
| GValueOf (i : nat)             (* template.py:94: [self.__globals__.get] *)
| GLiteral | GGettext | GBuiltins | GKajiki.

(** Dictionaries. *)
Definition dict : Type := list (str * gval).
Fixpoint get {A : Type} (k : str) (d : list (str * A)) : option A :=
  match d with
  | [] => None
  | (k', v) :: d' => if seqb k k' then Some v else get k d'
  end.
Fixpoint set {A : Type} (k : str) (v : A) (d : list (str * A)) : list (str * A) :=
  match d with
  | [] => [(k, v)]
  | (k', v') :: d' => if seqb k k' then (k, v) :: d' else (k', v') :: set k v d'
  end.
Definition has {A : Type} (k : str) (d : list (str * A)) : bool := match get k d with Some _ => true | None => false end.
Definition update (d d' : dict) : dict := fold_left (fun d kv => set (fst kv) (snd kv) d) d' d.

(** template.py:272-298 [Template] and template.py:301-332 [from_ir]: a class has functions and base
    globals; the latter are those given, updated with what module-level code has assigned. *)
Record cls := Class { methods : list (str * fn); base_globals : dict }.
Definition from_ir (ms : list (str * fn)) (given module : dict) : cls := Class ms (update given module).

(** The context is kept, not copied: a dictionary, or the globals of an instance ([_import]). *)
Inductive context : Type := Given (d : dict) | GlobalsOf (i : nat).
Record inst := Inst {
  i_class : cls;
  i_context : context;
  i_globals : dict;
  i_attrs : list (str * tplfun) }.      (* attributes which are functions *)
Definition heap : Type := list inst.
Definition globals (h : heap) (i : nat) : dict := match nth_error h i with Some x => i_globals x | None => [] end.
Definition attrs (h : heap) (i : nat) : list (str * tplfun) := match nth_error h i with Some x => i_attrs x | None => [] end.
Definition context_of (h : heap) (c : context) : dict := match c with Given d => d | GlobalsOf i => globals h i end.
Fixpoint put (h : heap) (i : nat) (x : inst) : heap :=
  match h, i with
  | [], _ => []
  | _ :: h', O => x :: h'
  | y :: h', S i' => y :: put h' i' x
  end.
Definition with_globals (h : heap) (i : nat) (d : dict) : heap :=
  match nth_error h i with
  | Some x => put h i (Inst (i_class x) (i_context x) d (i_attrs x))
  | None => h
  end.
Definition with_attrs (h : heap) (i : nat) (a : list (str * tplfun)) : heap :=
  match nth_error h i with
  | Some x => put h i (Inst (i_class x) (i_context x) (i_globals x) a)
  | None => h
  end.

(** template.py:68-71. *)
Definition helpers (i : nat) : dict :=
  [(L "local", GInst i); (L "self", GInst i); (L "defined", GDefined i); (L "literal", GLiteral); (L "Markup", GLiteral);
   (L "gettext", GGettext); (L "__builtins__", GBuiltins); (L "__kj__", GKajiki)].
(** template.py:73-76. *)
Definition bound (i : nat) (ms : list (str * fn)) : list (str * tplfun) :=
  map (fun kf => (fst kf, TplFunc (Code (snd kf)) i)) ms.
(** template.py:63-94 [__init__].  [gettext] is always there. *)
Definition init_globals (i : nat) (c : cls) (ctx : dict) : dict :=
  let g := update (helpers i) (base_globals c) in
  let g := update g (map (fun kf => (fst kf, GFun (snd kf))) (bound i (methods c))) in
  let g := update g ctx in
  let g := match get (L "gettext") g with Some v => set (L "_") v g | None => g end in
  set (L "value_of") (GValueOf i) g.
Definition new (h : heap) (c : cls) (ctx : context) : heap * nat :=
  let i := length h in
  (h ++ [Inst c ctx (init_globals i c (context_of h ctx)) (bound i (methods c))], i).

(** Attributes of every template: those of [_Template], of its instances and of [object]. *)
Definition template_attributes : list str := map L
  ["__methods__"; "loader"; "base_globals"; "filename"; "py_text"; "__init__"; "__iter__"; "render"; "_gettext"; "_push_with";
   "_pop_with"; "_extend"; "_push_switch"; "_pop_switch"; "_case"; "_import"; "_escape"; "_re_escape"; "_render_attrs";
   "_collect"; "annotate_lnotab"; "defined"; "_context"; "__globals__"; "__kj__"; "_switch_stack"; "_with_stack";
   "__class__"; "__delattr__"; "__dict__"; "__dir__"; "__doc__"; "__eq__"; "__format__"; "__ge__"; "__getattribute__";
   "__getstate__"; "__gt__"; "__hash__"; "__init_subclass__"; "__le__"; "__lt__"; "__module__"; "__ne__"; "__new__";
   "__reduce__"; "__reduce_ex__"; "__repr__"; "__setattr__"; "__sizeof__"; "__str__"; "__subclasshook__"; "__weakref__"]%string.
Definition hasattr (h : heap) (i : nat) (k : str) : bool := has k (attrs h i) || smem k template_attributes.

Definition is_fun (v : gval) : bool := match v with GFun _ => true | _ => false end.
(** template.py:141-147: overrides. *)
Definition overrides (d : dict) : dict :=
  filter (fun kv => negb (seqb (fst kv) (L "__main__")) && is_fun (snd kv)) d.
(** template.py:148-163: inherited functions, for one entry of the globals of the parent. *)
Definition inherit (i : nat) (h : heap) (kv : str * gval) : heap :=
  let (k, v) := kv in
  if seqb k (L "__main__") || negb (is_fun v) then h
  else
    let h := if has k (globals h i) then h else with_globals h i (set k v (globals h i)) in
    if hasattr h i k then h else with_attrs h i (set k (TplFunc (Trampoline k) i) (attrs h i)).
(** template.py:131-169 [_extend], the parent being loaded.  [self] is always in the globals; were it
    not, setting it would be a KeyError. *)
Definition extend (h : heap) (i : nat) (parent : cls) : result (heap * nat) :=
  match nth_error h i with
  | None => Raise "AttributeError"
  | Some x =>
      let (h, p) := new h parent (i_context x) in
      let h := with_globals h p (update (globals h p) (overrides (globals h i))) in
      let h := fold_left (inherit i) (globals h p) h in
      let h := with_globals h p (set (L "child") (GInst i) (globals h p)) in
      let h := with_globals h p (set (L "local") (GInst p) (globals h p)) in
      match get (L "self") (globals h i) with
      | None => Raise "KeyError"
      | Some s =>
          let h := with_globals h p (set (L "self") s (globals h p)) in
          let h := with_globals h i (set (L "parent") (GInst p) (globals h i)) in
          let h := with_globals h i (set (L "local") (GInst i) (globals h i)) in
          Ok (h, p)
      end
  end.
(** template.py:193-205 [_import], the template being loaded; [g] is the instance whose globals are
    passed. *)
Definition import_ (h : heap) (name : str) (alias : option str) (c : cls) (g : nat) : heap * nat :=
  let alias := match alias with Some a => a | None => default_alias_for name end in
  let (h, r) := new h c (GlobalsOf g) in
  (with_globals h g (set alias (GInst r) (globals h g)), r).

(** ** Statements

    Names as code that runs in the globals of an instance sees them.  Python's own builtins come last. *)
Variable builtin : str -> option gval.
Definition resolve (h : heap) (i : nat) (k : str) : result gval :=
  match get k (globals h i) with
  | Some v => Ok v
  | None => match builtin k with Some v => Ok v | None => Raise "NameError" end
  end.
Definition as_instance (h : heap) (v : gval) : result nat :=
  match v with GInst i => Ok i | _ => Raise "AttributeError" end.
(** ir.py:128-136 [local.__kj__.extend(...)] *)
Definition exec_extend (h : heap) (i : nat) (parent : cls) : result (heap * nat) :=
  rbind (resolve h i (L "local")) (fun v => rbind (as_instance h v) (fun j => extend h j parent)).
(** ir.py:105-125 [local.__kj__.import_(..., self.__globals__)]: [local] must have a loader, and
    [self] globals. *)
Definition exec_import (h : heap) (i : nat) (name : str) (alias : option str) (c : cls) : result (heap * nat) :=
  rbind (resolve h i (L "local")) (fun v => rbind (as_instance h v) (fun _ =>
  rbind (resolve h i (L "self")) (fun v => rbind (as_instance h v) (fun g => Ok (import_ h name alias c g))))).
(** A template that extends another that extends another: the [__main__] of each begins with it. *)
Fixpoint exec_chain (h : heap) (i : nat) (parents : list cls) : result (heap * nat) :=
  match parents with
  | [] => Ok (h, i)
  | p :: ps => rbind (exec_extend h i p) (fun r => exec_chain (fst r) (snd r) ps)
  end.
Definition exec_template (c : cls) (parents : list cls) (ctx : dict) : result (heap * nat) :=
  let (h, i) := new [] c (Given ctx) in exec_chain h i parents.

(** Attributes that are functions, and what a call of a function executes: code and the instance
    whose globals it sees.  Trampolines: template.py:157-163. *)
Definition getattr (h : heap) (i : nat) (k : str) : result tplfun :=
  match get k (attrs h i) with Some f => Ok f | None => Raise "AttributeError" end.
Fixpoint target (fuel : nat) (h : heap) (f : tplfun) : result (fn * nat) :=
  match f_code f with
  | Code c => Ok (c, f_inst f)
  | Trampoline k =>
      match fuel with
      | O => Raise "RecursionError"
      | S fuel' =>
          rbind (resolve h (f_inst f) (L "parent")) (fun v => rbind (as_instance h v) (fun p =>
          rbind (getattr h p k) (target fuel' h)))
      end
  end.
(** [defined(k)] and the method [defined] (template.py:69 and 267-269). *)
Definition defined_name (h : heap) (i : nat) (k : str) : bool := has k (globals h i).
Definition defined_method (h : heap) (i : nat) (k : str) : bool :=
  match nth_error h i with Some x => has k (context_of h (i_context x)) | None => false end.
End Template.
