(** * Specification: what a document declares

    The functions, blocks, parents and module-level code of an expanded document, in the order in
    which they are met.  For every document, whatever its directives. *)

From Coq Require Import Ascii String List NArith ZArith Bool.
From Verif Require Import PyStr M_IR M_Text M_Entities M_Dom M_XCompile S_XDoc.
Import ListNotations.
Open Scope list_scope.

(** The directive that a tag names: [py:if], and also [py:x:if]. *)
Definition directive (tag d : str) : Prop :=
  ~ In c_colon d /\ exists pre, tag = L "py:" ++ pre ++ d /\ (pre = [] \/ exists q, pre = q ++ [c_colon]).
Definition leaf_directives : list str := [L "replace"; L "import"; L "include"].
Definition inner_directives : list str :=
  [L "call"; L "for"; L "with"; L "switch"; L "case"; L "if"; L "else"; L "nop"].
Definition known_directives : list str :=
  leaf_directives ++ inner_directives ++ [L "extends"; L "block"; L "def"; L "text"; L "comment"; L "pi"; L "node"].
(** A tag that is rendered. *)
Definition plain_tag (tag : str) : Prop := forall d, directive tag d -> ~ In d known_directives.

(** Embedded Python: the lines without the indentation of the first. *)
Definition without_mark (text rest : str) : Prop :=
  text = [c_hash; c_nl] ++ rest \/ (rest = text /\ forall r, text <> [c_hash; c_nl] ++ r).
Inductive dedented (text : str) : list str -> Prop :=
| dd_none : forall rest, without_mark text rest -> splitlines rest = [] -> dedented text []
| dd_some : forall rest p l ls l' ls', without_mark text rest -> splitlines rest = l :: ls ->
    Forall (fun c => is_space c = true) p -> l = p ++ l' -> (forall c r, l' = c :: r -> is_space c = false) ->
    Forall2 (fun x x' => x = p ++ x') ls ls' -> dedented text (l' :: ls').

Inductive decl : Type :=
| Declares (name : str) (elem : dnode)     (* a function, and the element it comes from *)
| Extends
| Module (lines : list str).
Inductive role : Type := Block (name : str) | Def (f : str) | Ext | Leaf | Inner.

Section Declared.
Variable autoblocks : list str.
Variable cdata_scripts : bool.

Definition autoblock (tag : str) (a : list (str * str)) : Prop :=
  In tag autoblocks /\ (absent (L "py:autoblock") a \/ lower (get_attr (L "py:autoblock") a) = L "true").

Inductive role_of (tag : str) (a : list (str * str)) : role -> Prop :=
| ro_auto : autoblock tag a -> role_of tag a (Block tag)
| ro_block : ~ autoblock tag a -> directive tag (L "block") -> role_of tag a (Block (get_attr (L "name") a))
| ro_def : ~ autoblock tag a -> directive tag (L "def") -> role_of tag a (Def (get_attr (L "function") a))
| ro_extends : ~ autoblock tag a -> directive tag (L "extends") -> role_of tag a Ext
| ro_leaf : forall d, ~ autoblock tag a -> directive tag d -> In d leaf_directives -> role_of tag a Leaf
| ro_inner : forall d, ~ autoblock tag a -> directive tag d -> In d inner_directives -> role_of tag a Inner
(* rendered: [py:content] and scripts have no content that is compiled *)
| ro_content : ~ autoblock tag a -> plain_tag tag -> get_attr (L "py:content") a <> [] -> role_of tag a Leaf
| ro_script : ~ autoblock tag a -> plain_tag tag -> get_attr (L "py:content") a = [] ->
    cdata_scripts = true -> script_or_style tag -> role_of tag a Leaf
| ro_elem : ~ autoblock tag a -> plain_tag tag -> get_attr (L "py:content") a = [] ->
    ~ (cdata_scripts = true /\ script_or_style tag) -> role_of tag a Inner.

(** [declares in_def n l].  A [py:def] inside a [py:def] is a local function: it is not declared,
    but the blocks in it are. *)
Inductive declares : bool -> dnode -> list decl -> Prop :=
| de_block : forall i ln tag a cs name l, role_of tag a (Block name) -> declare_all i cs l ->
    declares i (DElem ln tag a cs) (l ++ [Declares (L "_kj_block_" ++ name ++ L "()") (DElem ln tag a cs)])
| de_def : forall ln tag a cs f l, role_of tag a (Def f) -> declare_all true cs l ->
    declares false (DElem ln tag a cs) (l ++ [Declares f (DElem ln tag a cs)])
| de_local : forall ln tag a cs f l, role_of tag a (Def f) -> declare_all true cs l ->
    declares true (DElem ln tag a cs) l
| de_extends : forall i ln tag a cs l, role_of tag a Ext -> declare_all i cs l ->
    declares i (DElem ln tag a cs) (Extends :: l)
| de_leaf : forall i ln tag a cs, role_of tag a Leaf -> declares i (DElem ln tag a cs) []
| de_inner : forall i ln tag a cs l, role_of tag a Inner -> declare_all i cs l ->
    declares i (DElem ln tag a cs) l
| de_module : forall i ln t d code lines, strip d = c_pct :: code -> dedented code lines ->
    declares i (DPi ln t d) [Module lines]
| de_python : forall i ln t d, (forall code, strip d <> c_pct :: code) -> declares i (DPi ln t d) []
| de_text : forall i ln t e, declares i (DText ln t e) []
| de_mark : forall i ln t, declares i (DMark ln t) []
| de_comment : forall i ln t, declares i (DComment ln t) []
with declare_all : bool -> list dnode -> list decl -> Prop :=
| da_nil : forall i, declare_all i [] []
| da_cons : forall i n ns l l', declares i n l -> declare_all i ns l' -> declare_all i (n :: ns) (l ++ l').
End Declared.

(** The names declared, and the code at module level, in order. *)
Fixpoint declared_names (l : list decl) : list str :=
  match l with
  | [] => []
  | Declares k _ :: l' => k :: declared_names l'
  | _ :: l' => declared_names l'
  end.
Fixpoint module_code (l : list decl) : list (list str) :=
  match l with
  | [] => []
  | Module c :: l' => c :: module_code l'
  | _ :: l' => module_code l'
  end.
Definition extending (l : list decl) : Prop := In Extends l.

(** ** Bodies *)
Section Bodies.
Variable compile : str -> compiled.
Variable helper : nat -> str.
Variable autoblocks : list str.
Variable cdata_scripts : bool.
Variable mode : str.

(** The nodes compiled, one after the other: [s] and [s'] are the states of the compiler. *)
Inductive compiled_in (p : parent_node) : str -> list dnode -> cst -> list node -> cst -> Prop :=
| ci_nil : forall prev s, compiled_in p prev [] s [] s
| ci_cons : forall prev c cs s ns s1 ns' s2,
    compile_node compile helper autoblocks cdata_scripts mode p prev c s = Ok (ns, s1) ->
    compiled_in p (name_of c) cs s1 ns' s2 -> compiled_in p prev (c :: cs) s (ns ++ ns') s2.

(** A function has the content of its element as body.  A block without content does nothing; a
    block of a document that extends another can call what it replaces. *)
Definition or_pass (ns : list node) : list node := match ns with [] => [NPass 0] | _ => ns end.
Inductive body_of (child : bool) : dnode -> list node -> Prop :=
| bo_def : forall ln tag a a' cs f s ns s', role_of autoblocks cdata_scripts tag a (Def f) ->
    compiled_in (InElement tag a') [] cs s ns s' -> body_of child (DElem ln tag a cs) ns
| bo_block : forall ln tag a a' cs name s ns s', role_of autoblocks cdata_scripts tag a (Block name) -> child = false ->
    compiled_in (InElement tag a') [] cs s ns s' -> body_of child (DElem ln tag a cs) (or_pass ns)
| bo_override : forall ln tag a a' cs name s ns s' lines, role_of autoblocks cdata_scripts tag a (Block name) -> child = true ->
    compiled_in (InElement tag a') [] cs s ns s' -> dedented (L "parent_block=parent._kj_block_" ++ name) lines ->
    body_of child (DElem ln tag a cs) (NPython 0 lines false :: or_pass ns).
End Bodies.

(** ** Functions of a template *)
(** Each name where it was first declared. *)
Fixpoint distinct (seen : list str) (l : list str) : list str :=
  match l with
  | [] => []
  | k :: l' => if smem k seen then distinct seen l' else k :: distinct (k :: seen) l'
  end.
