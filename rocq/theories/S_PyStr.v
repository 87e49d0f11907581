(** * Specification: Python's strings

    What the functions of [PyStr] stand for, independent of how they are computed. *)

From Coq Require Import Ascii String List Arith NArith Bool.
From Verif Require Import PyStr.
Import ListNotations.
Open Scope list_scope.

Definition occurs (p s : str) : Prop := exists a b, s = a ++ p ++ b.
(** [s] is [a], an occurrence of [p] with none before it, and [b]. *)
Definition first_at (p s a b : str) : Prop := s = a ++ p ++ b /\ forall a' b', s = a' ++ p ++ b' -> length a <= length a'.

(** [str.replace]: from left to right. *)
Inductive replaced (old new : str) : str -> str -> Prop :=
| rp_none : forall s, ~ occurs old s -> replaced old new s s
| rp_first : forall s a b b', first_at old s a b -> replaced old new b b' -> replaced old new s (a ++ new ++ b').

(** [str.isspace] (Unicode 15, as listed by CPython). *)
Definition blanks : list char :=
  [9; 10; 11; 12; 13; 28; 29; 30; 31; 32; 133; 160; 5760; 8192; 8193; 8194; 8195; 8196; 8197; 8198; 8199; 8200; 8201; 8202;
   8232; 8233; 8239; 8287; 12288]%N.
Definition blank_str (s : str) : Prop := forall c, In c s -> In c blanks.
(** No blank at the left, or at the right. *)
Definition starts_well (s : str) : Prop := forall c t, s = c :: t -> ~ In c blanks.
Definition ends_well (s : str) : Prop := forall c t, s = t ++ [c] -> ~ In c blanks.

(** [str.splitlines]. *)
Definition breaks : list char := [10; 11; 12; 13; 28; 29; 30; 133; 8232; 8233]%N.
Definition one_line (s : str) : Prop := forall c, In c s -> ~ In c breaks.
Inductive line_end : str -> str -> Prop :=
| le_crlf : forall rest, line_end [13%N; 10%N] rest
| le_cr : forall rest, (forall t, rest <> 10%N :: t) -> line_end [13%N] rest
| le_other : forall c rest, In c breaks -> c <> 13%N -> line_end [c] rest.
Inductive lines : str -> list str -> Prop :=
| ln_none : lines [] []
| ln_last : forall s, s <> [] -> one_line s -> lines s [s]
| ln_more : forall s e rest ls, one_line s -> line_end e rest -> lines rest ls -> lines (s ++ e ++ rest) (s :: ls).

(** Decimal numbers: [numeral s n] reads the digits of [s] from the left. *)
Inductive numeral : str -> N -> Prop :=
| nm_digit : forall d, (d < 10)%N -> numeral [48 + d]%N d
| nm_more : forall s n d, numeral s n -> (d < 10)%N -> numeral (s ++ [48 + d]%N) (10 * n + d).
Definition no_leading_zero (s : str) : Prop := forall t, s = 48%N :: t -> t = [].

(** The order of strings: by the first character that differs. *)
Definition str_le (a b : str) : Prop :=
  (exists t, b = a ++ t) \/ exists p x y a' b', a = p ++ x :: a' /\ b = p ++ y :: b' /\ (x < y)%N.
