(** * Specification: what the value of a variable can change in a page

    For whole templates ([S_Run]): some variables, the [free] ones, are only shown.  No condition, loop or other
    decision looks at them, nor at anything that is computed from them. *)

From Coq Require Import Ascii String List NArith ZArith Bool.
From Verif Require Import PyStr M_Values S_Values M_IR M_Template M_Run S_Run M_TextRun S_TextRun.
Import ListNotations.
Open Scope list_scope.

(** ** Pages

    Two texts that are the same but for pieces of text that cannot be read as markup. *)
Inductive same_markup : str -> str -> Prop :=
| sm_nil : same_markup [] []
| sm_same : forall t s s', same_markup s s' -> same_markup (t ++ s) (t ++ s')
| sm_text : forall t t' s s', inert t -> inert t' -> same_markup s s' -> same_markup (t ++ s) (t' ++ s').
(** The delimiters of a text. *)
Definition delimiters (s : str) : str := filter (fun c => N.eqb c c_lt || N.eqb c c_gt || N.eqb c c_dq) s.

(** Both fail, for the same reason, or both succeed. *)
Definition both {A B : Type} (R : A -> B -> Prop) (r : result A) (r' : result B) : Prop :=
  match r, r' with Ok a, Ok b => R a b | Raise e, Raise e' => e = e' | _, _ => False end.

(** ** Values

    Strings, numbers and other objects without markup of their own may stand for each other; the truth values, 0 and
    1, which decide about boolean attributes, only for what is equal to them. *)
Definition swap (v v' : M_Values.value) : Prop :=
  v = v' \/ (S_Values.plain v /\ S_Values.plain v' /\ as_bool v = as_bool v').

(** Names that [_Template] gives to functions of its own; one of them shows a global by its name. *)
Definition helper_functions : list str := [L "defined"; L "literal"; L "Markup"; L "gettext"; L "_"; L "value_of"].
Definition kept_names : list str := helper_functions ++ [L "local"; L "self"; L "child"; L "parent"].

Section Flow.
Variable py : python.
Variable free : str -> Prop.             (* variables that are only shown *)
Variable function_name : str -> Prop.    (* names that are given to functions and templates only *)
Variable declared : str -> Prop.         (* the declarations of the functions of the templates *)

Definition quiet (xs : list str) : Prop := Forall (fun x => ~ free x) xs.

(** ** The user's expressions

    What is computed is a value that may stand for another if what it is computed from is. *)
Definition respects (f : list (result M_Values.value) -> result M_Values.value) : Prop :=
  forall rs rs', Forall2 (both swap) rs rs' -> both swap (f rs) (f rs').
Definition flow_arg (a : arg) : Prop :=
  match a with
  | ArgName x => ~ In x helper_functions
  | ArgFun xs f => quiet xs \/ respects f
  end.
(** The parameters of the functions that may be called: a free one, or an argument that is not computed from free ones. *)
Definition flow_params (args : list (option str * arg)) : Prop :=
  forall d l, declared d -> bind_params py d (map fst args) = Ok l ->
    Forall (fun xa => match snd xa with
                      | inl n => free (fst xa) \/ forall a, nth_error args n = Some a -> quiet (arg_names (snd a))
                      | inr _ => True
                      end) l.
Definition flow_expr (e : expr) : Prop :=
  match e with
  | EName x => ~ In x helper_functions
  | EAttr _ _ => True
  | EFun xs f => quiet xs \/ respects f
  | ECall c args =>
      Forall (fun ka => flow_arg (snd ka)) args /\ flow_params args /\
      match c with
      | ByName f => In f helper_functions -> f <> L "value_of" /\ quiet (flat_map (fun ka => arg_names (snd ka)) args)
      | ByAttr _ _ => True
      end
  end.
Definition flow_text (x : str) : Prop := flow_expr (parse py x).
(** What decides. *)
Definition decides_expr (e : expr) : Prop := flow_expr e /\ quiet (expr_names e).
Definition decides (x : str) : Prop := decides_expr (parse py x).
Definition decides_guard (g : option str) : Prop := match truthy_guard g with Some c => decides c | None => True end.
(** What a variable is set to. *)
Definition sets (x : str) (e : expr) : Prop :=
  flow_expr e /\ (free x \/ quiet (expr_names e)) /\ (~ function_name x \/ exists o k, e = EAttr o k /\ function_name o).
(** What a py:call calls is a function of a template: what it returns is shown as it is. *)
Definition calls_function (c : str) : Prop :=
  exists f args, parse py c = ECall f args /\ Forall function_name (callee_names f).

(** Embedded Python. *)
Definition flow_pystm (s : pystm) : Prop :=
  match s with
  | PySet x e => sets x e
  | PyRun xs ys f => Forall (fun y => ~ function_name y) ys /\
      (quiet xs \/ Forall free ys /\
        forall rs rs', Forall2 (both swap) rs rs' ->
          both (fun r r' => fst r = fst r' /\
                  Forall2 (fun v v' => match v, v' with Some v, Some v' => swap v v' | None, None => True | _, _ => False end) (snd r) (snd r'))
               (f rs) (f rs'))
  end.
Definition flow_decl (d : str) : Prop :=
  declared d /\ forall ks l, bind_params py d ks = Ok l -> Forall (fun xa => ~ function_name (fst xa)) l.

(** ** Templates

    [raw]: inside of the value of an attribute, which is escaped as a whole. *)
Fixpoint flow (raw : bool) (s : rstm) : Prop :=
  let all := fun raw => fix go (l : list rstm) : Prop := match l with [] => True | m :: l' => flow raw m /\ go l' end in
  match s with
  | RPass | RImport _ _ | RInclude _ | RExtend _ => True
  | RText _ g | RTrans _ g => decides_guard g
  | RExpr x safe => flow_text x /\ (safe = false \/ raw = true \/ quiet (expr_names (parse py x)))
  | RIf c b els => decides c /\ all raw b /\ all raw els
  | RFor d b els =>
      (Forall (fun x => ~ function_name x) (fst (parse_for py d)) /\ decides_expr (snd (parse_for py d))) /\ all raw b /\ all raw els
  | RWith vars b => Forall (fun kx => sets (fst kx) (parse py (snd kx)) /\ ~ function_name (fst kx)) vars /\ all raw b
  | RSwitch d cases els =>
      decides d /\
      (fix go (l : list (str * list rstm)) : Prop := match l with [] => True | (c, b) :: l' => (decides c /\ all raw b) /\ go l' end) cases /\
      all raw els
  | RAttr _ v g _ => decides_guard g /\ all true v
  | RAttrs x g _ => decides_guard g /\ flow_text x
  | RDef d b => flow_decl d /\ all false b
  | RCall d c b => flow_decl d /\ all false b /\ flow_text c /\ calls_function c
  | RPython lines => Forall flow_pystm (python_of py lines)
  end.
(** The functions of a template, and the objects that it is given. *)
Definition flow_class (c : cls (fobj dcode) (str * dcode)) : Prop :=
  Forall (fun kf => flow_decl (fst (snd kf)) /\ Forall (flow false) (snd (snd kf))) (methods _ _ c) /\
  Forall (fun kv => ~ function_name (fst kv) /\ exists v, snd kv = val v) (base_globals _ _ c).
Definition flow_file (f : file) : Prop := forall c, meaning_of f = Ok c -> flow_class c.
Definition flow_source expat compile shlex_split exec_module gen (x : any_source) : Prop :=
  forall c, any_tells expat compile shlex_split exec_module gen x c -> flow_class c.

(** ** Python and names *)
Record fair_python : Prop := Fair {
  fp_attrs : forall v v', swap v v' ->
    both (Forall2 (fun kv kv' => fst kv = fst kv' /\ swap (snd kv) (snd kv'))) (attrs_of py v) (attrs_of py v');
  fp_object : forall v v' args args', swap v v' -> Forall2 (fun a a' => fst a = fst a' /\ swap (snd a) (snd a')) args args' ->
    both swap (call_object py v args) (call_object py v' args');
  fp_method : forall v v' k args args', swap v v' -> Forall2 (fun a a' => fst a = fst a' /\ swap (snd a) (snd a')) args args' ->
    both swap (call_method py v k args) (call_method py v' k args');
  fp_attr : forall v v' k, swap v v' -> both swap (value_attr py v k) (value_attr py v' k);
  fp_builtin : forall k v, builtin_value py k = Some v -> ~ function_name k }.
Definition apart : Prop :=
  (forall k, free k -> ~ In k kept_names /\ ~ function_name k) /\ (forall k, function_name k -> ~ In k helper_functions).
(** Two contexts that give values to the same names, which may differ for the free ones. *)
Definition swapped (l l' : list (str * M_Values.value)) : Prop :=
  Forall2 (fun kv kv' => fst kv = fst kv' /\ swap (snd kv) (snd kv') /\ (free (fst kv) \/ snd kv = snd kv') /\ ~ function_name (fst kv)) l l'.
End Flow.
