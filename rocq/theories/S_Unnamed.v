(** * Specification: the names that a template mentions *)

From Coq Require Import Ascii String List NArith ZArith Bool.
From Verif Require Import PyStr M_Values M_IR S_IR M_Template M_Run.
Import ListNotations.
Open Scope list_scope.

(** The names in an expression: variables, functions that are called, and attributes. *)
Definition arg_names (a : arg) : list str := match a with ArgName x => [x] | ArgFun xs _ => xs end.
Definition callee_names (c : callee) : list str := match c with ByName f => [f] | ByAttr o f => [o; f] end.
Definition expr_names (e : expr) : list str :=
  match e with
  | EName x => [x]
  | EAttr o k => [o; k]
  | EFun xs _ => xs
  | ECall c args => callee_names c ++ flat_map (fun ka => arg_names (snd ka)) args
  end.
(** The names that a statement of embedded Python reads. *)
Definition pystm_reads (s : pystm) : list str := match s with PySet _ e => expr_names e | PyRun xs _ _ => xs end.

Section Mentions.
Variable py : python.
Definition source_names (e : str) : list str := expr_names (parse py e).
Definition guard_names (g : option str) : list str := match g with Some e => source_names e | None => [] end.
(** The names that a line of the generated Python reads, those of the run time apart. *)
Definition line_names (q : pstmt) : list str :=
  match q with
  | PText g _ | PGettext g _ => guard_names g
  | PYield e | PEscape e | PPushSwitch e | PIf e | PCase e | PAssign _ e | PForAttrs _ e _ => source_names e
  | PCollect n | PForAttr _ _ n _ => [n]
  | PFor d => expr_names (snd (parse_for py d))
  | _ => []
  end.
Fixpoint mentioned (b : blk) : list str :=
  match b with
  | Tx _ g => guard_names (truthy_guard g)
  | St q => line_names q
  | Bl q body => line_names q ++ flat_map mentioned body
  | Py lines => flat_map pystm_reads (python_of py lines)
  end.
(** The generated Python of a template reads no name but these. *)
Definition mentions_only (used : str -> Prop) (f : file) : Prop :=
  forall b x, In b (programs (defs (fst (fst f)))) -> In x (mentioned b) -> used x.
End Mentions.

(** The names that the run time reads. *)
Definition run_time_names : list str := map L ["local"; "self"; "gettext"; "parent"; "__main__"; "__kj__"]%string.
(** The functions that are given the name of a variable when the template runs. *)
Definition asks_by_name : list str := map L ["defined"; "value_of"]%string.

Definition same_on {A : Type} (used : str -> Prop) (c c' : list (str * A)) : Prop := forall x, used x -> get x c = get x c'.
