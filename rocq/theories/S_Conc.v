(** * Specification: renderings at the same time *)

From Coq Require Import Ascii String List NArith ZArith Bool Arith.
From Verif Require Import PyStr M_Values M_Template M_Run M_Conc.
Import ListNotations.
Open Scope list_scope.

(** What is rendered: how deep calls may be nested, which template, with which context. *)
Definition job : Type := nat * file * list (str * value).
(** The renderings that a schedule begins, in order. *)
Definition jobs (l : list event) : list job := flat_map (fun e => match e with Begin d f c => [(d, f, c)] | Go _ => [] end) l.
(** How often it is the [k]-th one's turn, if [begun] have begun before. *)
Fixpoint turns (begun k : nat) (l : list event) : nat :=
  match l with
  | [] => 0
  | Begin _ _ _ :: l' => turns (S begun) k l'
  | Go j :: l' => (if Nat.eqb j k && Nat.ltb k begun then 1 else 0) + turns begun k l'
  end.

(** The result when nothing else is going on. *)
Definition alone (py : python) (files : bool -> str -> result file) (j : job) : result str :=
  let '(depth, f, context) := j in run_file py files depth f context.
(** How a rendering ended. *)
Definition ended (t : thread) : option (result str) :=
  match t with
  | Running _ _ _ => None
  | Done out => Some (Ok (render out))
  | Failed e => Some (Raise e)
  end.

(** What has been shown so far: before the function that runs was called, and by it; what a function
    whose output is collected has shown is not. *)
Fixpoint shown (out : list value) (todo : list item) : list value :=
  match todo with
  | [] => out
  | IShow before :: l => shown (before ++ [VFlat out]) l
  | ICollect before _ _ :: l => shown before l
  | _ :: l => shown out l
  end.
Definition delivered (t : thread) : str :=
  match t with
  | Running _ out todo => render (shown out todo)
  | Done out => render out
  | Failed _ => []
  end.
Definition prefix (a b : str) : Prop := exists c, b = a ++ c.
