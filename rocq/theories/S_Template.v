(** * Specification: which definition a name stands for *)

From Coq Require Import Ascii String List NArith ZArith Bool.
From Verif Require Import PyStr M_Template.
Import ListNotations.
Open Scope list_scope.

Section Names.
Variable obj : Type.
Variable fn : Type.
Notation gval := (gval obj fn).
Notation dict := (dict obj fn).
Notation cls := (cls obj fn).

(** Finite maps. *)
Definition keys {A : Type} (d : list (str * A)) : list str := map fst d.
Definition unknown {A : Type} (k : str) (d : list (str * A)) : Prop := ~ In k (keys d).
Definition a_dict {A : Type} (d : list (str * A)) : Prop := NoDup (keys d).
Definition a_class (c : cls) : Prop := a_dict (methods _ _ c) /\ a_dict (base_globals _ _ c).

(** What every template is given. *)
Inductive helper (i : nat) : str -> gval -> Prop :=
| he_self : helper i (L "self") (GInst _ _ i)
| he_local : helper i (L "local") (GInst _ _ i)
| he_defined : helper i (L "defined") (GDefined _ _ i)
| he_literal : helper i (L "literal") (GLiteral _ _)
| he_markup : helper i (L "Markup") (GLiteral _ _)
| he_gettext : helper i (L "gettext") (GGettext _ _)
| he_builtins : helper i (L "__builtins__") (GBuiltins _ _)
| he_kj : helper i (L "__kj__") (GKajiki _ _).
Definition function_of (f : fn) (i : nat) : gval := GFun _ _ (TplFunc _ (Code _ f) i).

(** The context first, then the functions of the template, then its base globals, then the helpers. *)
Inductive stands_for (c : cls) (ctx : dict) (i : nat) (k : str) : gval -> Prop :=
| sf_context : forall v, In (k, v) ctx -> stands_for c ctx i k v
| sf_function : forall f, unknown k ctx -> In (k, f) (methods _ _ c) -> stands_for c ctx i k (function_of f i)
| sf_base : forall v, unknown k ctx -> unknown k (methods _ _ c) -> In (k, v) (base_globals _ _ c) -> stands_for c ctx i k v
| sf_helper : forall v, unknown k ctx -> unknown k (methods _ _ c) -> unknown k (base_globals _ _ c) -> helper i k v ->
    stands_for c ctx i k v.

(** ** Inheritance: [cs] lists the templates, each extending the next *)
Definition plain (d : dict) : Prop := forall k v, In (k, v) d -> is_fun _ _ v = false.
Definition defines (cs : list cls) (i : nat) (k : str) (f : fn) : Prop := exists c, nth_error cs i = Some c /\ In (k, f) (methods _ _ c).
Definition not_defined (cs : list cls) (i : nat) (k : str) : Prop := forall f, ~ defines cs i k f.
(** The first definition in the template number [j] or one that extends it. *)
Definition overriding (cs : list cls) (j : nat) (k : str) (f : fn) (i : nat) : Prop :=
  i <= j /\ defines cs i k f /\ forall i', i' < i -> not_defined cs i' k.
Definition base_of (cs : list cls) (j : nat) : dict := match nth_error cs j with Some c => base_globals _ _ c | None => [] end.
Inductive visible (cs : list cls) (ctx : dict) (j : nat) (k : str) : gval -> Prop :=
| vi_context : forall v, In (k, v) ctx -> visible cs ctx j k v
| vi_function : forall f i, unknown k ctx -> overriding cs j k f i -> visible cs ctx j k (function_of f i)
| vi_base : forall v, unknown k ctx -> (forall i, i <= j -> not_defined cs i k) -> In (k, v) (base_of cs j) -> visible cs ctx j k v
| vi_helper : forall v, unknown k ctx -> (forall i, i <= j -> not_defined cs i k) -> unknown k (base_of cs j) -> helper j k v ->
    visible cs ctx j k v
(* from the template that it extends, and no further *)
| vi_inherited : forall f, unknown k ctx -> (forall i, i <= j -> not_defined cs i k) -> unknown k (base_of cs j) ->
    (forall v, ~ helper j k v) -> defines cs (S j) k f -> visible cs ctx j k (function_of f (S j)).

(** Names with a meaning of their own, see [C53_relatives] and [C52_gettext]. *)
Definition relatives : list str := map L ["self"; "local"; "parent"; "child"]%string.
Definition special : list str := relatives ++ map L ["_"; "value_of"; "__main__"]%string.
(** Names that every template has for itself: its constructor, its generator, [render], the helpers of the
    runtime and its state, and what every Python object has. *)
Definition own_names : list str := map L
  ["render"; "loader"; "filename"; "py_text"; "base_globals"; "annotate_lnotab"; "defined";
   "_gettext"; "_push_with"; "_pop_with"; "_extend"; "_push_switch"; "_pop_switch"; "_case"; "_import"; "_escape"; "_re_escape";
   "_render_attrs"; "_collect"; "_context"; "_switch_stack"; "_with_stack"; "__methods__"; "__globals__"; "__kj__"; "__init__"; "__iter__";
   "__class__"; "__dict__"; "__doc__"; "__module__"; "__weakref__"; "__new__"; "__init_subclass__"; "__subclasshook__";
   "__delattr__"; "__getattribute__"; "__setattr__"; "__dir__"; "__eq__"; "__ne__"; "__lt__"; "__le__"; "__gt__"; "__ge__"; "__hash__";
   "__format__"; "__repr__"; "__str__"; "__sizeof__"; "__getstate__"; "__reduce__"; "__reduce_ex__"]%string.
(** The templates and the context leave [self] and [local] alone. *)
Definition leaves_alone (k : str) (cs : list cls) (ctx : dict) : Prop :=
  unknown k ctx /\ Forall (fun c => unknown k (methods _ _ c) /\ unknown k (base_globals _ _ c)) cs.
(** What is asked of a chain: dictionaries, values in them that are not functions of templates. *)
Record chain_ok (cs : list cls) (ctx : dict) : Prop := ChainOk {
  ok_classes : Forall a_class cs;
  ok_context : a_dict ctx;
  ok_self : leaves_alone (L "self") cs ctx;
  ok_local : leaves_alone (L "local") cs ctx;
  ok_plain : plain ctx;
  ok_bases : Forall (fun c => plain (base_globals _ _ c)) cs }.
End Names.

(** The nearest definition of a function in the template number [j] or one that it extends. *)
Definition inherited_from {obj fn} (cs : list (cls obj fn)) (j : nat) (k : str) (f : fn) (m : nat) : Prop :=
  j <= m /\ defines obj fn cs m k f /\ forall m', j <= m' -> m' < m -> not_defined obj fn cs m' k.
