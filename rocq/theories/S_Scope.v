(** * Specification: what names and expressions stand for in a running template

    The rules of Python and of kajiki's helpers: which variable a name is, what a call finds and what
    its parameters are, what the helpers return, what binding a name changes. *)

From Coq Require Import Ascii String List NArith ZArith Bool.
From Verif Require Import PyStr M_Values M_IR M_Template M_Run.
Import ListNotations.
Open Scope list_scope.

Section Scope.
Variable code : Type.
Variable py : python.
Notation gval := (gval (fobj code) (str * code)).
Notation heap := (heap (fobj code) (str * code)).
Notation globals_of w i := (globals (fobj code) (str * code) (w_heap w) i).
Notation functions_of w i := (attrs (fobj code) (str * code) (w_heap w) i).

(** ** Names *)

(** Call number [f] has a variable [x]: its parameters and the names that its function binds. *)
Definition has_variable (w : world code) (f : nat) (x : str) : Prop :=
  exists fr, nth_error (w_frames w) f = Some fr /\ In x (fr_names fr).
Definition variable_is (w : world code) (f : nat) (x : str) (v : option gval) : Prop :=
  exists fr, nth_error (w_frames w) f = Some fr /\ In x (fr_names fr) /\ get x (fr_vars fr) = v.

(** The innermost function around that binds the name, else the globals, else Python's builtins. *)
Inductive sees (w : world code) (p : place) (x : str) : result gval -> Prop :=
| se_local : forall f fs v, p_scopes p = f :: fs -> variable_is w f x (Some v) -> sees w p x (Ok v)
| se_unbound : forall f fs, p_scopes p = f :: fs -> variable_is w f x None -> sees w p x (Raise "UnboundLocalError")
| se_around : forall inner f fs v, p_scopes p = inner ++ f :: fs -> inner <> [] -> Forall (fun g => ~ has_variable w g x) inner ->
    variable_is w f x (Some v) -> sees w p x (Ok v)
| se_around_unbound : forall inner f fs, p_scopes p = inner ++ f :: fs -> inner <> [] -> Forall (fun g => ~ has_variable w g x) inner ->
    variable_is w f x None -> sees w p x (Raise "NameError")
| se_global : forall v, Forall (fun g => ~ has_variable w g x) (p_scopes p) ->
    get x (globals_of w (p_inst p)) = Some v -> sees w p x (Ok v)
| se_builtin : forall v, Forall (fun g => ~ has_variable w g x) (p_scopes p) ->
    get x (globals_of w (p_inst p)) = None -> builtin_value py x = Some v -> sees w p x (Ok (val v))
| se_nothing : Forall (fun g => ~ has_variable w g x) (p_scopes p) ->
    get x (globals_of w (p_inst p)) = None -> builtin_value py x = None -> sees w p x (Raise "NameError").

(** Binding a name changes that variable of the function that runs, and nothing else. *)
Definition running (p : place) (f : nat) : Prop := exists fs, p_scopes p = f :: fs.
Definition binds_name (w : world code) (p : place) (x : str) (v : gval) (w' : world code) : Prop :=
  w_heap w' = w_heap w /\ length (w_frames w') = length (w_frames w) /\
  forall f fr, nth_error (w_frames w) f = Some fr -> exists fr', nth_error (w_frames w') f = Some fr' /\ fr_names fr' = fr_names fr /\
    (running p f -> get x (fr_vars fr') = Some v) /\
    (forall y, ~ running p f \/ y <> x -> get y (fr_vars fr') = get y (fr_vars fr)).

(** ** Values *)

(** What an expression sees; functions and templates are opaque. *)
Inductive looks (g : gval) : value -> Prop :=
| lo_value : forall v, g = val v -> looks g v
| lo_other : (forall v, g <> val v) -> looks g (VObj (L "<object>")).
(** Reading a variable in a larger expression: its value, or the exception. *)
Inductive reads_name (w : world code) (p : place) (x : str) : result value -> Prop :=
| rn_value : forall g v, sees w p x (Ok g) -> looks g v -> reads_name w p x (Ok v)
| rn_error : forall e, sees w p x (Raise e) -> reads_name w p x (Raise e).

(** Arguments: a name passes on what it stands for; a larger expression, its value. *)
Inductive passes (w : world code) (p : place) : arg -> gval -> Prop :=
| pa_name : forall x g, sees w p x (Ok g) -> passes w p (ArgName x) g
| pa_value : forall xs f rs v, Forall2 (reads_name w p) xs rs -> f rs = Ok v -> passes w p (ArgFun xs f) (val v).
Definition pass_all (w : world code) (p : place) : list (option str * arg) -> list (option str * gval) -> Prop :=
  Forall2 (fun ka kg => fst kg = fst ka /\ passes w p (snd ka) (snd kg)).
Definition look_all : list (option str * gval) -> list (option str * value) -> Prop :=
  Forall2 (fun kg kv => fst kv = fst kg /\ looks (snd kg) (snd kv)).

(** A function of a template runs in its own template; one that was inherited is looked for in the
    template that is extended. *)
Inductive comes_from (w : world code) : tplfun (str * code) -> str -> code -> nat -> Prop :=
| cf_own : forall d b i, comes_from w (TplFunc _ (Code _ (d, b)) i) d b i
| cf_inherited : forall k i q f d b j,
    (get (L "parent") (globals_of w i) = Some (GInst _ _ q)) -> get k (functions_of w q) = Some f ->
    comes_from w f d b j -> comes_from w (TplFunc _ (Trampoline _ k) i) d b j.

(** What is called: a function of the template (declaration, body, the template it belongs to, the
    functions around its definition), an object, a method of an object, one of kajiki's helpers. *)
Inductive calls (w : world code) (p : place) : callee -> found code -> Prop :=
| ca_function : forall f t d b i, sees w p f (Ok (GFun _ _ t)) -> comes_from w t d b i -> calls w p (ByName f) (FTemplate (d, b, i, []))
| ca_inner : forall f d b i ss, sees w p f (Ok (GObj _ _ (RC d b i ss))) -> calls w p (ByName f) (FTemplate (d, b, i, ss))
| ca_object : forall f v, sees w p f (Ok (val v)) -> calls w p (ByName f) (FObject v)
| ca_helper : forall f g, sees w p f (Ok g) -> (g = GLiteral _ _ \/ g = GGettext _ _ \/ (exists i, g = GDefined _ _ i) \/ (exists i, g = GValueOf _ _ i)) ->
    calls w p (ByName f) (FBuiltin g)
| ca_template : forall o k i t d b j, sees w p o (Ok (GInst _ _ i)) -> get k (functions_of w i) = Some t -> comes_from w t d b j ->
    calls w p (ByAttr o k) (FTemplate (d, b, j, []))
| ca_method : forall o k v, sees w p o (Ok (val v)) -> calls w p (ByAttr o k) (FMethod v k).

(** The helpers. *)
Inductive helps (w : world code) : gval -> list (option str * value) -> value -> Prop :=
| hp_literal : forall v, helps w (GLiteral _ _) [(None, v)] (VFlat [v])
| hp_gettext : forall s, helps w (GGettext _ _) [(None, VStr s)] (gettext py s)
| hp_defined : forall i k v, get k (globals_of w i) = Some v -> helps w (GDefined _ _ i) [(None, VStr k)] (VBool true)
| hp_undefined : forall i k, get k (globals_of w i) = None -> helps w (GDefined _ _ i) [(None, VStr k)] (VBool false)
| hp_value : forall i k g v, get k (globals_of w i) = Some g -> looks g v -> helps w (GValueOf _ _ i) [(None, VStr k)] v
| hp_no_value : forall i k, get k (globals_of w i) = None -> helps w (GValueOf _ _ i) [(None, VStr k)] VNone
| hp_value_or : forall i k d g v, get k (globals_of w i) = Some g -> looks g v -> helps w (GValueOf _ _ i) [(None, VStr k); (None, d)] v
| hp_default : forall i k d, get k (globals_of w i) = None -> helps w (GValueOf _ _ i) [(None, VStr k); (None, d)] d.

(** An expression that is used. *)
Inductive evaluates (w : world code) (p : place) : expr -> gval -> Prop :=
| ev_name : forall x g, sees w p x (Ok g) -> evaluates w p (EName x) g
| ev_function : forall o k i t, sees w p o (Ok (GInst _ _ i)) -> get k (functions_of w i) = Some t -> evaluates w p (EAttr o k) (GFun _ _ t)
| ev_attribute : forall o k v r, sees w p o (Ok (val v)) -> value_attr py v k = Ok r -> evaluates w p (EAttr o k) (val r)
| ev_value : forall xs f rs v, Forall2 (reads_name w p) xs rs -> f rs = Ok v -> evaluates w p (EFun xs f) (val v)
| ev_object : forall c args v gs vs r, calls w p c (FObject v) -> pass_all w p args gs -> look_all gs vs ->
    call_object py v vs = Ok r -> evaluates w p (ECall c args) (val r)
| ev_method : forall c args v k gs vs r, calls w p c (FMethod v k) -> pass_all w p args gs -> look_all gs vs ->
    call_method py v k vs = Ok r -> evaluates w p (ECall c args) (val r)
| ev_helper : forall c args g gs vs r, calls w p c (FBuiltin g) -> pass_all w p args gs -> look_all gs vs ->
    helps w g vs r -> evaluates w p (ECall c args) (val r).

(** Parameters: an argument of the call, or the default. *)
Definition parameters (d : str) (args : list (option str * gval)) (params : list (str * gval)) : Prop :=
  exists ps, bind_params py d (map fst args) = Ok ps /\
    Forall2 (fun ps pv => fst pv = fst ps /\
      match snd ps with inl n => exists k, nth_error args n = Some (k, snd pv) | inr v => snd pv = val v end) ps params.

(** An expression that is shown. *)
Section Shown.
Variable state : Type.
Variable world_of : state -> world code.
Variable run : callable code -> list (str * gval) -> state -> result (list value * state).
Inductive is_shown (p : place) (x : str) (s : state) : value -> state -> Prop :=
| sh_call : forall c args f gs params o s', parse py x = ECall c args -> calls (world_of s) p c (FTemplate f) ->
    pass_all (world_of s) p args gs -> parameters (fst (fst (fst f))) gs params -> run f params s = Ok (o, s') ->
    is_shown p x s (VFlat o) s'
| sh_value : forall g v, evaluates (world_of s) p (parse py x) g -> looks g v -> is_shown p x s v s.
End Shown.

(** ** Loops: the variables of the rounds *)
Inductive round (xs : list str) (v : value) : list (str * gval) -> Prop :=
| rd_one : forall x, xs = [x] -> round xs v [(x, val v)]
| rd_many : forall vs, length xs <> 1 -> unpack py v = Ok vs -> length vs = length xs -> round xs v (combine xs (map val vs)).
Definition loops (w : world code) (p : place) (d : str) (rs : list (list (str * gval))) : Prop :=
  exists g v vs, evaluates w p (snd (parse_for py d)) g /\ looks g v /\ iterate py v = Ok vs /\ Forall2 (round (fst (parse_for py d))) vs rs.

(** ** Embedded Python *)
Inductive binds_all (p : place) : list str -> list (option value) -> world code -> world code -> Prop :=
| ba_none : forall xs w, binds_all p xs [] w w
| ba_over : forall vs w, binds_all p [] vs w w
| ba_skip : forall x xs vs w w', binds_all p xs vs w w' -> binds_all p (x :: xs) (None :: vs) w w'
| ba_bind : forall x xs v vs w w1 w', binds_name w p x (val v) w1 -> binds_all p xs vs w1 w' -> binds_all p (x :: xs) (Some v :: vs) w w'.
Inductive performs (p : place) : list pystm -> world code -> list value -> world code -> Prop :=
| pf_end : forall w, performs p [] w [] w
| pf_set : forall x e l g w w1 o w', evaluates w p e g -> binds_name w p x g w1 -> performs p l w1 o w' ->
    performs p (PySet x e :: l) w o w'
| pf_run : forall xs ys f l rs o1 vs w w1 o w', Forall2 (reads_name w p) xs rs -> f rs = Ok (o1, vs) -> binds_all p ys vs w w1 ->
    performs p l w1 o w' -> performs p (PyRun xs ys f :: l) w (o1 ++ o) w'.

(** ** Translation: the gettext of [local] *)
Inductive translates (w : world code) (p : place) (t : str) : value -> Prop :=
| tr_default : forall i, sees w p (L "local") (Ok (GInst _ _ i)) -> get (L "gettext") (globals_of w i) = Some (GGettext _ _) ->
    translates w p t (gettext py t)
| tr_given : forall i f v, sees w p (L "local") (Ok (GInst _ _ i)) -> get (L "gettext") (globals_of w i) = Some (val f) ->
    call_object py f [(None, VStr t)] = Ok v -> translates w p t v.

(** ** Other templates *)
Variable load : bool -> str -> result (cls (fobj code) (str * code)).
(** A fragment, put into the globals of [self] (see [C55_imported]). *)
Definition imports (w : world code) (p : place) (name : str) (alias : option str) (w' : world code) (i : nat) : Prop :=
  exists c l s, load true name = Ok c /\ sees w p (L "local") (Ok (GInst _ _ l)) /\ sees w p (L "self") (Ok (GInst _ _ s)) /\
    w_frames w' = w_frames w /\ (w_heap w', i) = import_ _ _ (w_heap w) name alias c s.
(** A whole template, as the parent of [local] (see [C54]). *)
Definition extends (w : world code) (p : place) (name : str) (w' : world code) (i : nat) : Prop :=
  exists c l, load false name = Ok c /\ sees w p (L "local") (Ok (GInst _ _ l)) /\
    w_frames w' = w_frames w /\ extend _ _ (w_heap w) l c = Ok (w_heap w', i).
End Scope.
