(** * Running whole templates: functions, calls, inheritance, inclusion

    Semantics of the Python that ir.py generates for all functions of a template, with the run-time
    support of [kajiki/template.py] and the names of [M_Template].  No proofs here.

    Functions are run where their result is shown.  (In Python a call returns a [flattener], which
    runs the function when it is iterated over; where the call is the expression that is shown this
    happens at once.  Elsewhere, for instance in a condition, calls of template functions are not
    modelled.)  Left out with an explicit error: assignments to several variables, the attributes that
    all templates have. *)

From Coq Require Import Ascii String List NArith ZArith Bool.
From Verif Require Import PyStr M_Values M_IR S_IR M_Template.
From Verif Require M_Exec.
Import ListNotations.
Open Scope list_scope.

(** ** The user's expressions

    An expression is a name, an attribute of something, the call of something with arguments, or a
    function of the values of the names in it (each a value or the exception that reading it raises). *)
Inductive callee : Type := ByName (f : str) | ByAttr (o f : str).
Inductive arg : Type := ArgName (x : str) | ArgFun (xs : list str) (f : list (result value) -> result value).
Inductive expr : Type :=
| EName (x : str)
| EAttr (o k : str)
| EFun (xs : list str) (f : list (result value) -> result value)
| ECall (c : callee) (args : list (option str * arg)).           (* keyword, argument *)

(** Embedded Python: assignments, and statements that read some names, yield values and bind names
    (in order; [None] for those that are not bound after all). *)
Inductive pystm : Type :=
| PySet (x : str) (e : expr)
| PyRun (reads binds : list str) (f : list (result value) -> result (list value * list (option value))).

(** Python, as far as the user's expressions and statements are concerned. *)
Record python := Python {
  parse : str -> expr;
  parse_block : list str -> list pystm;                           (* the lines of embedded Python *)
  parse_for : str -> list str * expr;                             (* [targets in iterable] *)
  truth : value -> bool;
  iterate : value -> result (list value);
  unpack : value -> result (list value);
  attrs_of : value -> result (list (str * value));                (* a mapping or a list of pairs, [None]: empty *)
  bind_params : str -> list (option str) -> result (list (str * (nat + value)));
            (* declaration of a function and keywords of a call: the number of the argument, or the default,
               of each parameter *)
  veq : value -> value -> bool;                                   (* == *)
  gettext : str -> value;                                         (* i18n.gettext *)
  call_object : value -> list (option str * value) -> result value;
  call_method : value -> str -> list (option str * value) -> result value;
  value_attr : value -> str -> result value;
  builtin_value : str -> option value }.

(** Lines of embedded Python; comments say nothing. *)
Definition python_of (py : python) (lines : list str) : list pystm :=
  if forallb ignored lines then [] else parse_block py lines.

(** The name of a function, from its declaration. *)
Definition fun_name (decl : str) : str := strip (takewhile (fun c => negb (N.eqb c 40)) decl).

(** ** Names, for any representation of code *)
Section Names.
Variable code : Type.

(** Objects, and functions defined in functions: declaration, body, globals, enclosing scopes. *)
Inductive fobj : Type :=
| RV (v : value)
| RC (decl : str) (body : code) (inst : nat) (scopes : list nat).
Notation gval := (gval fobj (str * code)).
Notation heap := (heap fobj (str * code)).
Definition val (v : value) : gval := GObj _ _ (RV v).
Definition callable : Type := str * code * nat * list nat.

(** The variables of one call of a function: all its local names, and the values of those that have one. *)
Record frame := Frame { fr_names : list str; fr_vars : list (str * gval) }.
Record world := World { w_heap : heap; w_frames : list frame }.
(** Where code runs: the instance of its globals, its scopes, innermost first. *)
Record place := Place { p_inst : nat; p_scopes : list nat }.

Fixpoint put_frame (fs : list frame) (i : nat) (x : frame) : list frame :=
  match fs, i with
  | [], _ => []
  | _ :: fs', O => x :: fs'
  | y :: fs', S i' => y :: put_frame fs' i' x
  end.

Variable py : python.

(** Language reference 4.2.2. *)
Fixpoint find_name (fs : list frame) (err : string) (scopes : list nat) (x : str) : option (result gval) :=
  match scopes with
  | [] => None
  | f :: scopes' =>
      match nth_error fs f with
      | Some fr =>
          if smem x (fr_names fr) then Some (match get x (fr_vars fr) with Some v => Ok v | None => Raise err end)
          else find_name fs "NameError" scopes' x
      | None => find_name fs "NameError" scopes' x
      end
  end.
Definition lookup (w : world) (p : place) (x : str) : result gval :=
  match find_name (w_frames w) "UnboundLocalError" (p_scopes p) x with
  | Some r => r
  | None => resolve _ _ (fun k => option_map val (builtin_value py k)) (w_heap w) (p_inst p) x
  end.
Definition set_name (w : world) (p : place) (x : str) (v : gval) : world :=
  match p_scopes p with
  | [] => w
  | f :: _ =>
      match nth_error (w_frames w) f with
      | Some fr => World (w_heap w) (put_frame (w_frames w) f (Frame (fr_names fr) (set x v (fr_vars fr))))
      | None => w
      end
  end.
Fixpoint set_names (w : world) (p : place) (l : list (str * gval)) : world :=
  match l with
  | [] => w
  | (x, v) :: l' => set_names (set_name w p x v) p l'
  end.
(** [locals().get(x)] *)
Definition local_value (w : world) (p : place) (x : str) : option gval :=
  match p_scopes p with
  | [] => None
  | f :: _ => match nth_error (w_frames w) f with Some fr => get x (fr_vars fr) | None => None end
  end.

(** What an expression sees of it; [str()] of functions and templates is not modelled. *)
Definition as_value (g : gval) : value :=
  match g with
  | GObj _ _ (RV v) => v
  | _ => VObj (L "<object>")
  end.
Definition reads (w : world) (p : place) (xs : list str) : list (result value) :=
  map (fun x => rmap as_value (lookup w p x)) xs.
Definition eval_arg (w : world) (p : place) (a : arg) : result gval :=
  match a with
  | ArgName x => lookup w p x
  | ArgFun xs f => rmap val (f (reads w p xs))
  end.
Fixpoint eval_args (w : world) (p : place) (l : list (option str * arg)) : result (list (option str * gval)) :=
  match l with
  | [] => Ok []
  | (k, a) :: l' => rbind (eval_arg w p a) (fun v => rmap (cons (k, v)) (eval_args w p l'))
  end.
Definition values (l : list (option str * gval)) : list (option str * value) :=
  map (fun kv => (fst kv, as_value (snd kv))) l.

(** What a call may find. *)
Inductive found : Type :=
| FTemplate (c : callable)                     (* a function of a template *)
| FObject (v : value)
| FMethod (v : value) (k : str)
| FBuiltin (g : gval).
(** template.py:335-379 *)
Definition tpl_callable (h : heap) (f : tplfun (str * code)) : result callable :=
  rmap (fun ci => (fst (fst ci), snd (fst ci), snd ci, []))
       (target _ _ (fun k => option_map val (builtin_value py k)) (S (length h)) h f).
(** A function of an instance; the other attributes are not modelled. *)
Definition method (h : heap) (i : nat) (k : str) : result (tplfun (str * code)) :=
  match getattr _ _ h i k with
  | Raise e => if smem k template_attributes then Raise "not modelled" else Raise e
  | r => r
  end.
Definition find_callee (w : world) (p : place) (c : callee) : result found :=
  match c with
  | ByName f =>
      rbind (lookup w p f) (fun g =>
      match g with
      | GFun _ _ t => rmap FTemplate (tpl_callable (w_heap w) t)
      | GObj _ _ (RC d b i ss) => Ok (FTemplate (d, b, i, ss))
      | GObj _ _ (RV v) => Ok (FObject v)
      | GInst _ _ _ | GBuiltins _ _ | GKajiki _ _ => Raise "TypeError"
      | _ => Ok (FBuiltin g)
      end)
  | ByAttr o f =>
      rbind (lookup w p o) (fun g =>
      match g with
      | GInst _ _ i => rbind (method (w_heap w) i f) (fun t => rmap FTemplate (tpl_callable (w_heap w) t))
      | GObj _ _ (RV v) => Ok (FMethod v f)
      | _ => Raise "AttributeError"
      end)
  end.
(** template.py:68-71 and 94: [defined], [literal], [Markup], [gettext], [value_of]. *)
Definition call_builtin (h : heap) (g : gval) (args : list (option str * value)) : result value :=
  match g, args with
  | GLiteral _ _, [(None, v)] => Ok (VFlat [v])                              (* util.py:86-87 *)
  | GGettext _ _, [(None, VStr s)] => Ok (gettext py s)
  | GDefined _ _ i, [(None, VStr k)] => Ok (VBool (has k (globals _ _ h i)))
  | GValueOf _ _ i, [(None, VStr k)] =>
      Ok (match get k (globals _ _ h i) with Some v => as_value v | None => VNone end)
  | GValueOf _ _ i, [(None, VStr k); (None, d)] =>
      Ok (match get k (globals _ _ h i) with Some v => as_value v | None => d end)
  | _, _ => Raise "TypeError"
  end.
Definition bind_args (decl : str) (args : list (option str * gval)) : result (list (str * gval)) :=
  rbind (bind_params py decl (map fst args)) (fun l =>
  rseq (map (fun xa : str * (nat + value) =>
    match snd xa with
    | inl n => match nth_error args n with Some a => Ok (fst xa, snd a) | None => Raise "TypeError" end
    | inr v => Ok (fst xa, val v)
    end) l)).

(** An expression whose value is used, not shown. *)
Definition eval (w : world) (p : place) (e : expr) : result gval :=
  match e with
  | EName x => lookup w p x
  | EAttr o k =>
      rbind (lookup w p o) (fun g =>
      match g with
      | GInst _ _ i => rmap (GFun _ _) (method (w_heap w) i k)
      | GObj _ _ (RV v) => rmap val (value_attr py v k)
      | _ => Raise "AttributeError"
      end)
  | EFun xs f => rmap val (f (reads w p xs))
  | ECall c args =>
      rbind (find_callee w p c) (fun fo =>
      rbind (eval_args w p args) (fun args =>
      match fo with
      | FTemplate _ => Raise "not modelled"
      | FObject v => rmap val (call_object py v (values args))
      | FMethod v k => rmap val (call_method py v k (values args))
      | FBuiltin g => rmap val (call_builtin (w_heap w) g (values args))
      end))
  end.
Definition evalue (w : world) (p : place) (x : str) : result value := rmap as_value (eval w p (parse py x)).
Definition condition (w : world) (p : place) (x : str) : result bool := rmap (truth py) (evalue w p x).
(** The variables of each round of a loop. *)
Definition rounds (w : world) (p : place) (d : str) : result (list (list (str * gval))) :=
  let (xs, e) := parse_for py d in
  rbind (eval w p e) (fun g => rbind (iterate py (as_value g)) (fun items =>
  rseq (map (fun v =>
    match xs with
    | [x] => Ok [(x, val v)]
    | _ => rbind (unpack py v) (fun vs =>
           if Nat.eqb (length vs) (length xs) then Ok (combine xs (map val vs)) else Raise "ValueError")
    end) items))).
Definition attributes (w : world) (p : place) (x : str) : result (list (str * value)) :=
  rbind (evalue w p x) (attrs_of py).

(** ir.py:402-429: embedded Python.  (What it yields are values; an [else] after it is an error, also if
    its last statement is an [if].) *)
Definition pystm_names (s : pystm) : list str := match s with PySet x _ => [x] | PyRun _ xs _ => xs end.
Fixpoint bind_some (w : world) (p : place) (xs : list str) (vs : list (option value)) : world :=
  match xs, vs with
  | x :: xs', Some v :: vs' => bind_some (set_name w p x (val v)) p xs' vs'
  | _ :: xs', None :: vs' => bind_some w p xs' vs'
  | _, _ => w
  end.
Fixpoint run_block (w : world) (p : place) (l : list pystm) : result (list value * world) :=
  match l with
  | [] => Ok ([], w)
  | PySet x e :: l' => rbind (eval w p e) (fun v => run_block (set_name w p x v) p l')
  | PyRun xs ys f :: l' =>
      rbind (f (reads w p xs)) (fun r =>
      rmap (fun ow => (fst r ++ fst ow, snd ow)) (run_block (bind_some w p ys (snd r)) p l'))
  end.

(** What a call needs: how functions are run. *)
Section Show.
Variable state : Type.
Variable world_of : state -> world.
Variable invoke : callable -> list (str * gval) -> state -> result (list value * state).

Definition call_function (c : callable) (args : list (option str * gval)) (s : state) : result (value * state) :=
  rbind (bind_args (fst (fst (fst c))) args) (fun params =>
  rmap (fun os => (VFlat (fst os), snd os)) (invoke c params s)).
(** An expression that is shown. *)
Definition show_value (p : place) (x : str) (s : state) : result (value * state) :=
  match parse py x with
  | ECall c args =>
      rbind (find_callee (world_of s) p c) (fun fo =>
      match fo with
      | FTemplate f => rbind (eval_args (world_of s) p args) (fun args => call_function f args s)
      | _ => rmap (fun v => (v, s)) (evalue (world_of s) p x)
      end)
  | _ => rmap (fun v => (v, s)) (evalue (world_of s) p x)
  end.
End Show.

(** template.py:108-110 [local.__kj__.gettext] *)
Definition instance (w : world) (p : place) (x : str) : result nat :=
  rbind (lookup w p x) (as_instance _ _ (w_heap w)).
Definition translate (w : world) (p : place) (t : str) : result value :=
  rbind (instance w p (L "local")) (fun i =>
  match get (L "gettext") (globals _ _ (w_heap w) i) with
  | None => Raise "KeyError"
  | Some (GGettext _ _) => Ok (gettext py t)
  | Some (GObj _ _ (RV v)) => call_object py v [(None, VStr t)]
  | Some _ => Raise "not modelled"
  end).

(** ** Other templates

    [load fragment name]: what the loader returns. *)
Variable load : bool -> str -> result (cls fobj (str * code)).
(** template.py:193-205 and ir.py:105-125: the instance, which is left in the globals of [self]. *)
Definition import_template (w : world) (p : place) (name : str) (alias : option str) : result (world * nat) :=
  rbind (instance w p (L "local")) (fun _ =>
  rbind (instance w p (L "self")) (fun g =>
  rmap (fun c => let (h, r) := import_ _ _ (w_heap w) name alias c g in (World h (w_frames w), r))
       (load true name))).
(** template.py:131-169 and ir.py:128-136 *)
Definition extend_template (w : world) (p : place) (name : str) : result (world * nat) :=
  rbind (instance w p (L "local")) (fun i =>
  rbind (load false name) (fun c =>
  rmap (fun hp => (World (fst hp) (w_frames w), snd hp)) (extend _ _ (w_heap w) i c))).
(** [x.__main__()] *)
Definition main_of (h : heap) (i : nat) : result callable :=
  rbind (getattr _ _ h i (L "__main__")) (tpl_callable h).
End Names.
Arguments RV {code}. Arguments RC {code}.
Arguments Frame {code}. Arguments fr_names {code}. Arguments fr_vars {code}.
Arguments World {code}. Arguments w_heap {code}. Arguments w_frames {code}.
Arguments put_frame {code}. Arguments find_name {code}. Arguments lookup {code}. Arguments set_name {code}.
Arguments set_names {code}. Arguments local_value {code}. Arguments as_value {code}. Arguments reads {code}.
Arguments eval_arg {code}. Arguments eval_args {code}. Arguments values {code}. Arguments FTemplate {code}.
Arguments FObject {code}. Arguments FMethod {code}. Arguments FBuiltin {code}. Arguments tpl_callable {code}.
Arguments find_callee {code}. Arguments call_builtin {code}. Arguments bind_args {code}. Arguments eval {code}.
Arguments evalue {code}. Arguments condition {code}. Arguments rounds {code}. Arguments attributes {code}.
Arguments call_function {code} py {state}. Arguments show_value {code} py {state}. Arguments instance {code}.
Arguments translate {code}. Arguments import_template {code}. Arguments extend_template {code}. Arguments main_of {code}.
Arguments val {code}. Arguments method {code}. Arguments bind_some {code}. Arguments run_block {code}.

(** ** Generated code *)
Notation bcode := (list blk).
Notation bval := (gval (fobj bcode) (str * bcode)).

(** The instances and variables, and the stacks of each instance (last pushed first). *)
Record state := State {
  s_world : world bcode;
  s_with : nat -> list (list bval);
  s_switch : nat -> list value }.
Definition set_world (s : state) (w : world bcode) : state := State w (s_with s) (s_switch s).
Definition upd {A : Type} (f : nat -> A) (i : nat) (x : A) : nat -> A := fun j => if Nat.eqb j i then x else f j.
Definition with_with (s : state) (i : nat) (x : list (list bval)) : state := State (s_world s) (upd (s_with s) i x) (s_switch s).
Definition with_switch (s : state) (i : nat) (x : list value) : state := State (s_world s) (s_with s) (upd (s_switch s) i x).
(** A new instance has empty stacks (template.py:90-91). *)
Definition new_stacks (s : state) (w : world bcode) (i : nat) : state := State w (upd (s_with s) i []) (upd (s_switch s) i []).

Section Exec.
Variable py : python.

(** The local names of a function: everything its body assigns to. *)
Definition stmt_names (p : pstmt) : list str :=
  match p with
  | PCollect n => [n]
  | PAssign k _ => M_Exec.targets k
  | PPopWith ns => flat_map M_Exec.targets ns
  | _ => []
  end.
Fixpoint names (b : blk) : list str :=
  let all := fix go (l : list blk) : list str := match l with [] => [] | b :: l' => names b ++ go l' end in
  match b with
  | St p => stmt_names p
  | Bl (PDefGen n) _ => [n]
  | Bl (PDef d) _ => [fun_name d]
  | Bl (PFor d) body => fst (parse_for py d) ++ all body
  | Bl (PForAttr x _ _ _) body | Bl (PForAttrs x _ _) body => x :: all body
  | Bl _ body => all body
  | Py lines => flat_map pystm_names (python_of py lines)
  | _ => []
  end.
Definition all_names (l : list blk) : list str := flat_map names l.

Variable load : bool -> str -> result (cls (fobj bcode) (str * bcode)).
Variable invoke : callable bcode -> list (str * bval) -> state -> result (list value * state).
Variable p : place.

Notation chain := M_Exec.chain.
Notation CNone := M_Exec.CNone.
Notation CIf := M_Exec.CIf.
Notation CFor := M_Exec.CFor.

(** [if g: yield v] and [yield v]. *)
Definition guarded (g : option str) (v : result value) (s : state) : result (list value * chain * state) :=
  match g with
  | None => rmap (fun v => ([v], CNone, s)) v
  | Some g =>
      rbind (condition py (s_world s) p g) (fun b : bool =>
      if b then rmap (fun v => ([v], CIf true, s)) v else Ok ([], CIf false, s))
  end.

Definition exec_stmt (q : pstmt) (s : state) : result (list value * chain * state) :=
  let w := s_world s in
  match q with
  | PText g t => guarded g (Ok (VStr t)) s
  | PGettext g t => guarded g (translate py w p t) s
  | PYield e => rmap (fun vs => ([fst vs], CNone, snd vs)) (show_value py s_world invoke p e s)
  | PEscape e =>
      rbind (instance py w p (L "self")) (fun _ =>
      rmap (fun vs => ([escape (fst vs)], CNone, snd vs)) (show_value py s_world invoke p e s))
  | PPass => Ok ([VStr []], CNone, s)
  | PCollect n =>                                                         (* template.py:248-260 *)
      rbind (instance py w p (L "self")) (fun _ =>
      rbind (lookup py w p n) (fun g =>
      match g with
      | GObj _ _ (RC d b i ss) =>
          rbind (invoke (d, b, i, ss) [] s) (fun r =>
          rmap (fun v => ([], CNone, set_world (snd r) (set_name (s_world (snd r)) p n (val v)))) (collect (fst r)))
      | _ => Raise "TypeError"
      end))
  | PDecorate =>
      rbind (lookup py w p (L "__kj__")) (fun g =>
      match g with GKajiki _ _ => Ok ([], CNone, s) | _ => Raise "AttributeError" end)
  | PPushWith ns =>                                                       (* template.py:112-120 *)
      rmap (fun i => ([], CNone, with_with s i
             (map (fun k => match local_value w p k with Some v => v | None => val M_Exec.unit_value end) ns :: s_with s i)))
           (instance py w p (L "local"))
  | PAssign k v =>
      match M_Exec.targets k with
      | [x] => if M_Exec.is_name x
               then rmap (fun g => ([], CNone, set_world s (set_name w p x g))) (eval py w p (parse py v))
               else Raise "not modelled"
      | _ => Raise "not modelled"
      end
  | PPopWith ns =>                                                        (* template.py:122-129 *)
      rbind (instance py w p (L "local")) (fun i =>
      match s_with s i with
      | [] => Raise "IndexError"
      | saved :: rest =>
          let xs := flat_map M_Exec.targets ns in
          if negb (forallb M_Exec.is_name xs) then Raise "not modelled"
          else if Nat.eqb (length xs) (length saved)
          then Ok ([], CNone, with_with (set_world s (set_names w p (combine xs saved))) i rest)
          else Raise "ValueError"
      end)
  | PPushSwitch e =>                                                      (* template.py:171-179 *)
      rbind (instance py w p (L "local")) (fun i =>
      rmap (fun v => ([], CNone, with_switch s i (v :: s_switch s i))) (evalue py w p e))
  | PIfFalse => Ok ([], CIf false, s)
  | PPopSwitch =>                                                         (* template.py:181-187 *)
      rbind (instance py w p (L "local")) (fun i =>
      match s_switch s i with
      | [] => Raise "IndexError"
      | _ :: rest => Ok ([], CNone, with_switch s i rest)
      end)
  | PImport t a =>
      rmap (fun wr => ([], CNone, new_stacks s (fst wr) (snd wr))) (import_template py load w p t a)
  | PInclude t =>
      rbind (import_template py load w p t None) (fun wr =>
      let s := new_stacks s (fst wr) (snd wr) in
      rbind (main_of py (w_heap (s_world s)) (snd wr)) (fun c =>
      rmap (fun vs => ([fst vs], CNone, snd vs)) (call_function py invoke c [] s)))
  | PExtend t =>
      rbind (extend_template py load w p t) (fun wr =>
      let s := new_stacks s (fst wr) (snd wr) in
      rbind (main_of py (w_heap (s_world s)) (snd wr)) (fun c =>
      rmap (fun vs => ([fst vs], CNone, snd vs)) (call_function py invoke c [] s)))
  | _ => Raise "not modelled"
  end.

(** [for] over a list of rounds. *)
Fixpoint loop (body : state -> result (list value * state)) (l : list (list (str * bval))) (s : state)
  : result (list value * state) :=
  match l with
  | [] => Ok ([], s)
  | r :: l' =>
      rbind (body (set_world s (set_names (s_world s) p r))) (fun os =>
      rmap (fun os' => (fst os ++ fst os', snd os')) (loop body l' (snd os)))
  end.

(** A block; [code] is its body and [body] what that does. *)
Definition exec_block (h : pstmt) (code : bcode) (body : state -> result (list value * state)) (c : chain) (s : state)
  : result (list value * chain * state) :=
  let w := s_world s in
  let run (c : chain) := rmap (fun os => (fst os, c, snd os)) (body s) in
  let define (x d : str) := Ok ([], CNone, set_world s (set_name w p x (GObj _ _ (RC d code (p_inst p) (p_scopes p))))) in
  let write (x : str) (chunks : list str) :=
    rmap (fun os => (fst os, CFor, snd os)) (loop body (map (fun t => [(x, val (VStr t))]) chunks) s) in
  match h with
  | PIf e => rbind (condition py w p e) (fun b : bool => if b then run (CIf true) else Ok ([], CIf false, s))
  | PCase e =>
      match c with
      | M_Exec.CIf true => Ok ([], CIf true, s)
      | M_Exec.CIf false =>
          rbind (instance py w p (L "local")) (fun i =>
          rbind (evalue py w p e) (fun v =>
          match s_switch s i with                                         (* template.py:189-191 *)
          | [] => Raise "IndexError"
          | x :: _ => if veq py v x then run (CIf true) else Ok ([], CIf false, s)
          end))
      | _ => Raise "SyntaxError"
      end
  | PElse =>
      match c with
      | M_Exec.CIf true => Ok ([], CNone, s)
      | M_Exec.CIf false | M_Exec.CFor => run CNone
      | M_Exec.CNone => Raise "SyntaxError"
      end
  | PFor d =>
      rbind (rounds py w p d) (fun l => rmap (fun os => (fst os, CFor, snd os)) (loop body l s))
  | PDefGen n => define n (n ++ L "()")
  | PDef d => define (fun_name d) d
  | PForAttr x a n mode =>                                                (* template.py:228-246 *)
      rbind (instance py w p (L "self")) (fun _ =>
      rbind (lookup py w p n) (fun g =>
      rbind (render_attrs [(a, as_value g)] mode) (write x)))
  | PForAttrs x e mode =>
      rbind (instance py w p (L "self")) (fun _ =>
      rbind (attributes py w p e) (fun attrs =>
      rbind (render_attrs attrs mode) (write x)))
  | _ => Raise "not modelled"
  end.

Fixpoint exec (b : blk) (c : chain) (s : state) : result (list value * chain * state) :=
  match b with
  | Tx t g => guarded (truthy_guard g) (Ok (VStr t)) s
  | St q => exec_stmt q s
  | Bl h body =>
      exec_block h body (fun s => rmap (fun r => (fst (fst r), snd r))
        ((fix go (l : list blk) (c : chain) (s : state) : result (list value * chain * state) :=
            match l with
            | [] => Ok ([], c, s)
            | b :: l' =>
                rbind (exec b c s) (fun r =>
                rmap (fun r' => (fst (fst r) ++ fst (fst r'), snd (fst r'), snd r'))
                     (go l' (snd (fst r)) (snd r)))
            end) body CNone s)) c s
  | Py lines =>
      rmap (fun ow => (fst ow, if forallb ignored lines then c else CNone, set_world s (snd ow)))
           (run_block py (s_world s) p (python_of py lines))
  end.
Fixpoint execs (l : list blk) (c : chain) (s : state) : result (list value * chain * state) :=
  match l with
  | [] => Ok ([], c, s)
  | b :: l' =>
      rbind (exec b c s) (fun r =>
      rmap (fun r' => (fst (fst r) ++ fst (fst r'), snd (fst r'), snd r'))
           (execs l' (snd (fst r)) (snd r)))
  end.
End Exec.

Section Run.
Variable py : python.
Variable load : bool -> str -> result (cls (fobj bcode) (str * bcode)).

(** Calling a function: new variables, then its body.  [depth]: how deep calls may be nested. *)
Fixpoint invoke (depth : nat) (c : callable bcode) (params : list (str * bval)) (s : state) : result (list value * state) :=
  match depth with
  | O => Raise "RecursionError"
  | S depth' =>
      let '(_, body, inst, scopes) := c in
      let w := s_world s in
      let fr := Frame (map fst params ++ all_names py body) params in
      let s1 := set_world s (World (w_heap w) (w_frames w ++ [fr])) in
      rmap (fun r => (fst (fst r), snd r))
           (execs py load (invoke depth') (Place inst (length (w_frames w) :: scopes)) body M_Exec.CNone s1)
  end.

(** template.py:63-106: [cls(context).render()]. *)
Definition run_template (depth : nat) (c : cls (fobj bcode) (str * bcode)) (context : dict (fobj bcode) (str * bcode)) : result str :=
  let (h, i) := new _ _ [] c (Given _ _ context) in
  rbind (main_of py h i) (fun f =>
  rmap (fun vs => render [fst vs])
       (call_function py (invoke depth) f [] (State (World h []) (fun _ => []) (fun _ => [])))).
End Run.

(** ** The class of a template: executing [class template: ...] (ir.py:95, template.py:272-298)

    A dictionary of functions, later definitions replacing earlier ones, in the order of [dir()]. *)
Fixpoint class_functions (l : list blk) : option (list (str * (str * bcode))) :=
  match l with
  | [] => Some []
  | St PExpose :: Bl (PDef d) body :: l' => option_map (cons (fun_name d, (d, body))) (class_functions l')
  | _ => None
  end.
Definition class_methods (l : list (str * (str * bcode))) : list (str * (str * bcode)) :=
  sort_attrs (fold_left (fun d kf => set (fst kf) (snd kf) d) l []).
(** [module]: what the module-level code has assigned, with [kajiki], [template] and [__builtins__]. *)
Definition template_class (t : template) (given module : dict (fobj bcode) (str * bcode))
  : option (cls (fobj bcode) (str * bcode)) :=
  option_map (fun fs => from_ir _ _ (class_methods fs) given module) (class_functions (programs (defs t))).

(** ** The templates of a loader

    A file: its tree, the base globals it is given, what module-level code has assigned.
    [files fragment name]: what the loader finds. *)
Definition file : Type := template * list (str * value) * list (str * value).
Definition objects {code : Type} (l : list (str * value)) : dict (fobj code) (str * code) := map (fun kv => (fst kv, val (snd kv))) l.
(** template.py:321-325: Python's parser comes first.  Expressions and embedded Python are taken to be
    well formed, and an else does not belong to an if of embedded Python. *)
Definition class_of (f : file) : result (cls (fobj bcode) (str * bcode)) :=
  let '(t, given, module) := f in
  if M_Exec.parses (Bl PClass (programs (defs t)))
  then match template_class t (objects given) (objects module) with
       | Some c => Ok c
       | None => Raise "not modelled"
       end
  else Raise "KajikiSyntaxError".
(** template.py:63-106 and loader.py:14-24: the template that is loaded, rendered with a context. *)
Definition run_file (py : python) (files : bool -> str -> result file) (depth : nat) (f : file) (context : list (str * value)) : result str :=
  rbind (class_of f) (fun c => run_template py (fun fragment name => rbind (files fragment name) class_of) depth c (objects context)).
