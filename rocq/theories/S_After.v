(** * Specification: one object after iterations that were left, failed or ended *)

From Coq Require Import Ascii String List NArith ZArith Bool.
From Verif Require Import PyStr M_Values M_IR M_Template M_Run S_Run.
Import ListNotations.
Open Scope list_scope.

(** The functions that are generated for attributes have declarations that bind no name of kajiki's own: they have no
    parameters. *)
Definition generated_functions (py : python) (gen : str -> Prop) : Prop := forall x, gen x -> a_decl py gen (x ++ L "()").
