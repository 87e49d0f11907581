(** * Iterations over one template object that run at the same time

    Several threads that render one object, or several iterators over it: [M_Conc.v] has their steps.
    No proofs here. *)

From Coq Require Import Ascii String List NArith ZArith Bool.
From Verif Require Import PyStr M_Values M_IR M_Template M_Run M_Conc.
Import ListNotations.
Open Scope list_scope.

(** What happens: another iteration begins, the [k]-th one makes a step. *)
Inductive turn : Type :=
| Start
| Next (k : nat).

Section Same.
Variable py : python.
Variable files : bool -> str -> result file.

(** template.py:96-106: [__iter__] and [render] call the main function of the object anew. *)
Definition take (depth i : nat) (y : system) (e : turn) : system :=
  match e with
  | Start => let (t, s) := again py depth i (shared y) in System (threads y ++ [t]) s
  | Next k => happen py files (Go k) y
  end.
(** template.py:63-94: the object is made once. *)
Definition run_iterations (depth : nat) (f : file) (context : list (str * value)) (l : list turn) : result system :=
  rmap (fun c =>
    let (h, i) := new _ _ [] c (Given _ _ (objects context)) in
    fold_left (take depth i) l (System [] (new_stacks empty_state (World h []) i))) (class_of f).
End Same.
