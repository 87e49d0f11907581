(** * Specification: interpolation in XML templates *)

From Coq Require Import Ascii String List NArith ZArith Bool.
From Verif Require Import PyStr Regex M_Values M_IR M_Exec M_Text S_Text M_XText.
Import ListNotations.
Open Scope list_scope.

(** A reference: [$$], [${], or [$] and the first character of a name. *)
Definition ref_start (s : str) : Prop :=
  exists c v, s = c_dollar :: c :: v /\ (name_start c = true \/ c = c_lbrace \/ c = c_dollar).
(** No reference begins inside [t] when [s] follows. *)
Definition no_ref (t s : str) : Prop :=
  forall t1 t2, t = t1 ++ t2 -> t2 <> [] -> ~ ref_start (t2 ++ s).

(** [reads ln s ps]: a text [s] on line [ln] is read as the pieces [ps].  Python finds the end
    of an expression: compiling what follows the brace fails at the closing brace
    ([compile s = CErr l o], line [l], column [o], that is at the place [expr_end s l o]), and the
    expression itself compiles. *)
Section Reads.
Variable compile : str -> compiled.

Inductive reads : nat -> str -> list piece -> Prop :=
| x_end : forall ln, reads ln [] []
| x_text : forall ln t s ps, t <> [] -> no_ref t s -> s = [] \/ ref_start s ->
    reads (ln + count_nl t) s ps ->
    reads ln (t ++ s) (XText ln t :: ps)
| x_dollar : forall ln s ps,
    reads ln s ps ->
    reads ln (L "$$" ++ s) (XText ln (L "$") :: ps)
| x_name : forall ln c n s ps,
    name_start c = true -> Forall (fun c => name_rest c = true) n -> stops (fun c => name_rest c = true) s ->
    reads ln s ps ->
    reads ln (L "$" ++ (c :: n) ++ s) (XExpr ln (c :: n) :: ps)
| x_braced : forall ln ws e s l o ps,
    Forall space ws -> stops space (e ++ L "}") ->
    compile (e ++ L "}" ++ s) = CErr l o -> expr_end (e ++ L "}" ++ s) l o = length e + 1 ->
    compile e = COk -> no_ref e (L "}") ->
    reads (ln + count_nl e) s ps ->
    reads ln (L "${" ++ ws ++ e ++ L "}" ++ s) (XExpr ln e :: ps)
(* a reference inside of the expression: what begins there is read (again) *)
| x_inner : forall ln ws e1 e2 s l o ps,
    Forall space ws -> stops space (e1 ++ e2) ->
    compile (e1 ++ e2 ++ L "}" ++ s) = CErr l o -> expr_end (e1 ++ e2 ++ L "}" ++ s) l o = length (e1 ++ e2) + 1 ->
    compile (e1 ++ e2) = COk -> no_ref e1 (e2 ++ L "}") -> ref_start (e2 ++ L "}") ->
    reads (ln + count_nl (e1 ++ e2)) (e2 ++ L "}" ++ s) ps ->
    reads ln (L "${" ++ ws ++ e1 ++ e2 ++ L "}" ++ s) (XExpr ln (e1 ++ e2) :: ps).
End Reads.

(** Expressions without references in them. *)
Definition simple_expr (p : piece) : Prop :=
  match p with XText _ _ => True | XExpr _ e => no_ref e (L "}") end.

(** What a piece is made from. *)
Inductive xspells : str -> piece -> Prop :=
| xs_text : forall ln t, xspells t (XText ln t)
| xs_dollar : forall ln, xspells (L "$$") (XText ln (L "$"))
| xs_name : forall ln e, xspells (L "$" ++ e) (XExpr ln e)
| xs_braced : forall ln ws e, Forall space ws -> xspells (L "${" ++ ws ++ e ++ L "}") (XExpr ln e).

Definition piece_line (p : piece) : nat := match p with XText ln _ => ln | XExpr ln _ => ln end.

(** Consecutive pieces, each with the line on which it starts, [ln] being the first one. *)
Inductive on_lines : nat -> list str -> list piece -> Prop :=
| ol_nil : forall ln, on_lines ln [] []
| ol_cons : forall ln s ss p ps, xspells s p -> piece_line p = ln ->
    on_lines (ln + count_nl s) ss ps -> on_lines ln (s :: ss) (p :: ps).

(** No line break after an opening brace. *)
Definition no_gap (s : str) : Prop :=
  forall a ws b, s = a ++ L "${" ++ ws ++ b -> Forall space ws -> ~ In c_nl ws.

(** What a piece shows: a text as it is or, unless it is blank, translated; an expression's
    value, escaped except in attributes (whose values are escaped later). *)
Definition shown (py : python) (e : env) (k : text_kind) (p : piece) : result value :=
  match p, k with
  | XText _ t, TK_text => Ok (if forallb is_space t then VStr t else trans py t)
  | XText _ t, _ => Ok (VStr t)
  | XExpr _ x, TK_attr => ev py e x
  | XExpr _ x, _ => rmap escape (ev py e x)
  end.
