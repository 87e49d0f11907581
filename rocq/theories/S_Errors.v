(** * Specification of error excerpts *)

From Coq Require Import Ascii String List NArith ZArith Bool.
From Verif Require Import PyStr.
Import ListNotations.
Open Scope list_scope.

(** The text of line [k] of a source: those characters, other than newlines, which have
    [k - 1] newlines before them. *)
Fixpoint line_text_from (here k : Z) (s : str) : str :=
  match s with
  | [] => []
  | c :: s' => if N.eqb c c_nl then line_text_from (here + 1) k s'
               else if Z.eqb here k then c :: line_text_from here k s'
               else line_text_from here k s'
  end.
Definition line_text (s : str) (k : Z) : str := line_text_from 1 k s.

(** Newline is the only line boundary that occurs. *)
Definition only_newlines (s : str) : Prop := forall c, In c s -> is_linebreak c = true -> c = c_nl.

(** The rows a reader sees in the excerpt for line [n]. *)
Definition excerpt_rows (line : Z -> str) (n : Z) : list str :=
  [ [c_tab] ++ L "     " ++ line (n - 2)%Z;
    [c_tab] ++ L "     " ++ line (n - 1)%Z;
    [c_tab] ++ L " --> " ++ line n;
    [c_tab] ++ L "     " ++ line (n + 1)%Z;
    [c_tab] ++ L "     " ++ line (n + 2)%Z ].

(** A decimal numeral and the number it stands for. *)
Definition digits_only (s : str) : Prop := s <> [] /\ Forall (fun c => 48 <= c <= 57)%N s.
Definition number_of (s : str) : N := fold_left (fun n c => 10 * n + (c - 48))%N s 0%N.
