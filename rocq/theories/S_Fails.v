(** * Specification: which exception an expression raises

    For [S_Scope]: what happens where nothing is found. *)

From Coq Require Import Ascii String List NArith ZArith Bool.
From Verif Require Import PyStr M_Values M_IR M_Template M_Run S_Scope.
Import ListNotations.
Open Scope list_scope.

Section Fails.
Variable code : Type.
Variable py : python.
Notation gval := (gval (fobj code) (str * code)).
Notation globals_of w i := (globals (fobj code) (str * code) (w_heap w) i).
Notation functions_of w i := (attrs (fobj code) (str * code) (w_heap w) i).
Notation sees := (sees code py).

(** ** Functions that were inherited

    [n] steps from a function that was inherited to the one that it stands for in the template that is extended. *)
Inductive leads_to (w : world code) : nat -> tplfun (str * code) -> tplfun (str * code) -> Prop :=
| lt_here : forall t, leads_to w 0 t t
| lt_parent : forall n k i q f t, get (L "parent") (globals_of w i) = Some (GInst _ _ q) -> get k (functions_of w q) = Some f ->
    leads_to w n f t -> leads_to w (S n) (TplFunc _ (Trampoline _ k) i) t.
(** What [parent] stands for in template [i]. *)
Inductive parent_of (w : world code) (i : nat) : gval -> Prop :=
| po_global : forall g, get (L "parent") (globals_of w i) = Some g -> parent_of w i g
| po_builtin : forall v, get (L "parent") (globals_of w i) = None -> builtin_value py (L "parent") = Some v -> parent_of w i (val v).
Definition no_template (g : gval) : Prop := forall i, g <> GInst _ _ i.
Inductive no_function (w : world code) (k : str) (i : nat) : string -> Prop :=
| nf_no_parent : (forall g, ~ parent_of w i g) -> no_function w k i "NameError"%string
| nf_not_template : forall g, parent_of w i g -> no_template g -> no_function w k i "AttributeError"%string
| nf_missing : forall q, parent_of w i (GInst _ _ q) -> get k (functions_of w q) = None -> no_function w k i "AttributeError"%string.
Inductive lost (w : world code) (t : tplfun (str * code)) : string -> Prop :=
| ls_ends : forall n k i e, leads_to w n t (TplFunc _ (Trampoline _ k) i) -> n <= length (w_heap w) -> no_function w k i e -> lost w t e
| ls_too_long : forall k i, leads_to w (S (length (w_heap w))) t (TplFunc _ (Trampoline _ k) i) -> lost w t "RecursionError"%string.

(** ** What cannot be called *)
Definition function_of (w : world code) (i : nat) (k : str) (e : string) : Prop :=
  get k (functions_of w i) = None /\ e = if smem k template_attributes then "not modelled"%string else "AttributeError"%string.
Inductive uncallable (w : world code) (p : place) : callee -> string -> Prop :=
| un_name : forall f e, sees w p f (Raise e) -> uncallable w p (ByName f) e
| un_lost : forall f t e, sees w p f (Ok (GFun _ _ t)) -> lost w t e -> uncallable w p (ByName f) e
| un_other : forall f g, sees w p f (Ok g) -> (exists i, g = GInst _ _ i) \/ g = GBuiltins _ _ \/ g = GKajiki _ _ ->
    uncallable w p (ByName f) "TypeError"%string
| un_object : forall o k e, sees w p o (Raise e) -> uncallable w p (ByAttr o k) e
| un_missing : forall o k i e, sees w p o (Ok (GInst _ _ i)) -> function_of w i k e -> uncallable w p (ByAttr o k) e
| un_lost_attr : forall o k i t e, sees w p o (Ok (GInst _ _ i)) -> get k (functions_of w i) = Some t -> lost w t e -> uncallable w p (ByAttr o k) e
| un_no_attr : forall o k g, sees w p o (Ok g) -> no_template g -> (forall v, g <> val v) -> uncallable w p (ByAttr o k) "AttributeError"%string.

(** ** Arguments: the first one that fails *)
Inductive argument_fails (w : world code) (p : place) : arg -> string -> Prop :=
| af_name : forall x e, sees w p x (Raise e) -> argument_fails w p (ArgName x) e
| af_value : forall xs f rs e, Forall2 (reads_name code py w p) xs rs -> f rs = Raise e -> argument_fails w p (ArgFun xs f) e.
Definition arguments_fail (w : world code) (p : place) (args : list (option str * arg)) (e : string) : Prop :=
  exists before k a after gs, args = before ++ (k, a) :: after /\ pass_all code py w p before gs /\ argument_fails w p a e.

(** ** Expressions *)
Inductive fails (w : world code) (p : place) : expr -> string -> Prop :=
| fl_name : forall x e, sees w p x (Raise e) -> fails w p (EName x) e
| fl_value : forall xs f rs e, Forall2 (reads_name code py w p) xs rs -> f rs = Raise e -> fails w p (EFun xs f) e
| fl_object : forall o k e, sees w p o (Raise e) -> fails w p (EAttr o k) e
| fl_missing : forall o k i e, sees w p o (Ok (GInst _ _ i)) -> function_of w i k e -> fails w p (EAttr o k) e
| fl_attribute : forall o k v e, sees w p o (Ok (val v)) -> value_attr py v k = Raise e -> fails w p (EAttr o k) e
| fl_no_attr : forall o k g, sees w p o (Ok g) -> no_template g -> (forall v, g <> val v) -> fails w p (EAttr o k) "AttributeError"%string
| fl_uncallable : forall c args e, uncallable w p c e -> fails w p (ECall c args) e
| fl_argument : forall c args e, (forall e, ~ uncallable w p c e) -> arguments_fail w p args e -> fails w p (ECall c args) e
| fl_function : forall c args f gs, calls code py w p c (FTemplate f) -> (forall e, ~ uncallable w p c e) -> pass_all code py w p args gs ->
    fails w p (ECall c args) "not modelled"%string
| fl_called : forall c args v gs vs e, calls code py w p c (FObject v) -> pass_all code py w p args gs -> look_all code gs vs ->
    call_object py v vs = Raise e -> fails w p (ECall c args) e
| fl_method : forall c args v k gs vs e, calls code py w p c (FMethod v k) -> pass_all code py w p args gs -> look_all code gs vs ->
    call_method py v k vs = Raise e -> fails w p (ECall c args) e
| fl_helper : forall c args g gs vs, calls code py w p c (FBuiltin g) -> pass_all code py w p args gs -> look_all code gs vs ->
    (forall r, ~ helps code py w g vs r) -> fails w p (ECall c args) "TypeError"%string.

(** Parameters: the declaration does not take such arguments. *)
Inductive not_accepted (d : str) (args : list (option str * gval)) : string -> Prop :=
| na_refused : forall e, bind_params py d (map fst args) = Raise e -> not_accepted d args e
| na_missing : forall l x n, bind_params py d (map fst args) = Ok l -> In (x, inl n) l -> nth_error args n = None -> not_accepted d args "TypeError"%string.

Section Shown.
Variable state : Type.
Variable world_of : state -> world code.
Variable run : callable code -> list (str * gval) -> state -> result (list value * state).
Inductive not_shown (p : place) (x : str) (s : state) : string -> Prop :=
| ns_argument : forall c args f e, parse py x = ECall c args -> calls code py (world_of s) p c (FTemplate f) -> (forall e, ~ uncallable (world_of s) p c e) ->
    arguments_fail (world_of s) p args e -> not_shown p x s e
| ns_parameters : forall c args f gs e, parse py x = ECall c args -> calls code py (world_of s) p c (FTemplate f) -> (forall e, ~ uncallable (world_of s) p c e) ->
    pass_all code py (world_of s) p args gs -> not_accepted (fst (fst (fst f))) gs e -> not_shown p x s e
| ns_body : forall c args f gs params e, parse py x = ECall c args -> calls code py (world_of s) p c (FTemplate f) -> (forall e, ~ uncallable (world_of s) p c e) ->
    pass_all code py (world_of s) p args gs -> parameters code py (fst (fst (fst f))) gs params -> run f params s = Raise e -> not_shown p x s e
| ns_value : forall e, fails (world_of s) p (parse py x) e ->
    (forall c args f, parse py x = ECall c args -> calls code py (world_of s) p c (FTemplate f) -> exists e, uncallable (world_of s) p c e) ->
    not_shown p x s e.
End Shown.

(** ** Loops *)
Inductive round_fails (xs : list str) (v : value) : string -> Prop :=
| rf_unpack : forall e, length xs <> 1 -> unpack py v = Raise e -> round_fails xs v e
| rf_length : forall vs, length xs <> 1 -> unpack py v = Ok vs -> length vs <> length xs -> round_fails xs v "ValueError"%string.
Inductive loop_fails (w : world code) (p : place) (d : str) : string -> Prop :=
| lf_value : forall e, fails w p (snd (parse_for py d)) e -> loop_fails w p d e
| lf_iterate : forall g v e, evaluates code py w p (snd (parse_for py d)) g -> looks code g v -> iterate py v = Raise e -> loop_fails w p d e
| lf_round : forall g v before u after rs e, evaluates code py w p (snd (parse_for py d)) g -> looks code g v -> iterate py v = Ok (before ++ u :: after) ->
    Forall2 (round code py (fst (parse_for py d))) before rs -> round_fails (fst (parse_for py d)) u e -> loop_fails w p d e.

(** ** Translation and other templates

    No template goes by a name. *)
Inductive not_template (w : world code) (p : place) (x : str) : string -> Prop :=
| nt_name : forall e, sees w p x (Raise e) -> not_template w p x e
| nt_other : forall g, sees w p x (Ok g) -> no_template g -> not_template w p x "AttributeError"%string.
(** The gettext of the user is an object that is called; template functions of that name are not covered. *)
Inductive not_translated (w : world code) (p : place) (t : str) : string -> Prop :=
| nl_local : forall e, not_template w p (L "local") e -> not_translated w p t e
| nl_missing : forall i, sees w p (L "local") (Ok (GInst _ _ i)) -> get (L "gettext") (globals_of w i) = None -> not_translated w p t "KeyError"%string
| nl_called : forall i f e, sees w p (L "local") (Ok (GInst _ _ i)) -> get (L "gettext") (globals_of w i) = Some (val f) ->
    call_object py f [(None, VStr t)] = Raise e -> not_translated w p t e
| nl_other : forall i g, sees w p (L "local") (Ok (GInst _ _ i)) -> get (L "gettext") (globals_of w i) = Some g ->
    g <> GGettext _ _ -> (forall f, g <> val f) -> not_translated w p t "not modelled"%string.
Variable load : bool -> str -> result (cls (fobj code) (str * code)).
Inductive not_imported (w : world code) (p : place) (name : str) : string -> Prop :=
| ni_local : forall e, not_template w p (L "local") e -> not_imported w p name e
| ni_self : forall l e, sees w p (L "local") (Ok (GInst _ _ l)) -> not_template w p (L "self") e -> not_imported w p name e
| ni_load : forall l i e, sees w p (L "local") (Ok (GInst _ _ l)) -> sees w p (L "self") (Ok (GInst _ _ i)) -> load true name = Raise e -> not_imported w p name e.
End Fails.
