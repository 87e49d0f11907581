(** * Specification: what a process has, and what it may do *)

From Coq Require Import Ascii String List NArith ZArith Bool.
From Verif Require Import PyStr M_Values M_IR M_Template M_Run M_Process.
Import ListNotations.
Open Scope list_scope.

(** Everything that is there is there afterwards, and has not changed: template objects (their globals, functions and
    contexts), the variables of calls, saved values. *)
Definition kept (s s' : state) : Prop :=
  (exists objects, w_heap (s_world s') = w_heap (s_world s) ++ objects) /\
  (exists frames, w_frames (s_world s') = w_frames (s_world s) ++ frames) /\
  (forall j, j < length (w_heap (s_world s)) -> s_with s' j = s_with s j /\ s_switch s' j = s_switch s j).

(** Pages of a process, one after the other.  When a page fails, anything may be left. *)
Inductive pages (py : python) (files : bool -> str -> result file) (depth : nat) : state -> list (file * list (str * value) * result str) -> Prop :=
| no_more : forall s, pages py files depth s []
| page : forall s f context t s' l, page_in py files depth f context s = Ok (t, s') -> pages py files depth s' l ->
    pages py files depth s ((f, context, Ok t) :: l)
| failure : forall s f context e s' l, page_in py files depth f context s = Raise e -> pages py files depth s' l ->
    pages py files depth s ((f, context, Raise e) :: l).
