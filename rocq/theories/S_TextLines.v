(** * Specification: where the expressions of a text template stand *)

From Coq Require Import Ascii String List NArith ZArith Bool.
From Verif Require Import PyStr M_IR M_Text S_Text S_TextTree.
Import ListNotations.
Open Scope list_scope.

(** The expressions among the items of a template, outside of functions and blocks, in the order in which they are
    written, each with the line of its token. *)
Fixpoint shown_at (f : tree) : list (nat * str) :=
  match f with
  | G_nil => []
  | G_expr ln e f => (ln, e) :: shown_at f
  | G_in _ _ b f | G_call _ _ b f => shown_at b ++ shown_at f
  | G_def _ _ f | G_block _ _ f => shown_at f
  | G_text _ _ f | G_py _ f | G_module _ f | G_extends _ f | G_import _ _ f | G_include _ f | G_nothing f => shown_at f
  end.
(** All expressions of a template. *)
Definition expressions (ts : list tok) : list (nat * str) :=
  flat_map (fun t => match t with TExpr ln e => [(ln, e)] | _ => [] end) ts.
Definition no_function (t : tok) : Prop :=
  match t with TTag _ n _ => n <> L "def" /\ n <> L "block" | _ => True end.

(** The white space at the beginning of a text. *)
Fixpoint white (s : str) : str :=
  match s with
  | [] => []
  | c :: s' => if is_space c then c :: white s' else []
  end.
(** Blank lines directly before a tag. *)
Fixpoint blank_lines (pieces : list str) (ts : list tok) : nat :=
  match pieces, ts with
  | p :: pieces', TTag _ _ _ :: ts' => count_nl (white p) + blank_lines pieces' ts'
  | _ :: pieces', _ :: ts' => blank_lines pieces' ts'
  | _, _ => 0
  end.
