(** * Specification: sources of layouts and pages *)

From Coq Require Import Ascii String List NArith ZArith Bool.
From Verif Require Import PyStr M_Values M_Template S_Template M_Text M_XText M_XRun M_Run S_Run S_XRun S_Blocks.
Import ListNotations.
Open Scope list_scope.

Definition block_declaration (b : str) : str := block_function b ++ L "()".
(** A document that says what a page or a layout does: what stands in it, its blocks, and perhaps other functions. *)
Record says_page (layout : bool) (pg : page) (r : reading) : Prop := SaysPage {
  sp_main : r_main r = (if layout then [] else [RExtend (pg_extends pg)]) ++ map item_stm (pg_main pg);
  sp_blocks : forall b its, In (b, its) (pg_blocks pg) -> In (block_declaration b, block_code layout b its) (r_functions r);
  sp_functions : forall d body, In (d, body) (r_functions r) ->
    (exists b its, In (b, its) (pg_blocks pg) /\ d = block_declaration b /\ body = block_code layout b its) \/ forall b, fun_name d <> block_function b;
  (* a block has a name: no parentheses in it, no space at its end *)
  sp_names : forall b its, In (b, its) (pg_blocks pg) -> fun_name (block_declaration b) = block_function b;
  sp_different : NoDup (L "__main__" :: map (fun db => fun_name (fst db)) (r_functions r));
  sp_apart : forall d body, In (d, body) (r_functions r) -> ~ In (fun_name d) [L "self"; L "local"; L "gettext"] }.
(** Objects that are given or made at module level leave [gettext] alone. *)
Definition leaves_gettext (l : list (str * value)) : Prop := ~ In (L "gettext") (map fst l).

Section Sources.
Variable expat : str -> result (list M_Dom.event).
Variable compile : str -> compiled.
Variable exec_module : list (list str) -> list (str * value).
Variable g : str.
Variable sources : bool -> str -> result xml_source.
(** Sources, each of which extends the next one. *)
Inductive site : list xml_source -> list page -> Prop :=
| si_layout : forall x pg r, xml_says expat compile (eq g) x r -> says_page true pg r -> leaves_gettext (x_given x) -> leaves_gettext (exec_module (r_module r)) ->
    site [x] [pg]
| si_page : forall x x' pg r xs pgs, xml_says expat compile (eq g) x r -> says_page false pg r -> leaves_gettext (x_given x) -> leaves_gettext (exec_module (r_module r)) ->
    sources false (pg_extends pg) = Ok x' -> site (x' :: xs) pgs -> site (x :: x' :: xs) (pg :: pgs).
End Sources.
