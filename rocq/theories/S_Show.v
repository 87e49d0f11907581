(** * The text of a value: what [str()] of it is *)

From Coq Require Import Ascii String List NArith ZArith Bool.
From Verif Require Import PyStr M_Values.
Import ListNotations.
Open Scope list_scope.

(** Decimal numerals without leading zeros. *)
Inductive numeral : N -> str -> Prop :=
| nu_digit : forall d, (d < 10)%N -> numeral d [48 + d]%N
| nu_more : forall n d s, n <> 0%N -> (d < 10)%N -> numeral n s -> numeral (10 * n + d) (s ++ [48 + d]%N).

(** The text of a value that is not itself an output: an object that knows its markup also has a text of its own. *)
Inductive shown_as : M_Values.value -> str -> Prop :=
| sh_none : shown_as VNone (L "None")
| sh_true : shown_as (VBool true) (L "True")
| sh_false : shown_as (VBool false) (L "False")
| sh_natural : forall n s, numeral n s -> shown_as (VInt (Z.of_N n)) s
| sh_negative : forall n s, n <> 0%N -> numeral n s -> shown_as (VInt (- Z.of_N n)) (L "-" ++ s)
| sh_str : forall s, shown_as (VStr s) s
| sh_markup : forall h s, shown_as (VHtml h s) s
| sh_obj : forall s, shown_as (VObj s) s.
