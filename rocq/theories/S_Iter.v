(** * Specification: what a flattener yields at its first use *)

From Coq Require Import Ascii String List NArith.
From Verif Require Import PyStr M_Iter.
Import ListNotations.
Open Scope list_scope.

(** What the items of an iterator come to, if every flattener in them is new, and the iterators that takes. *)
Inductive unfolds (h : heap) : list ival -> list str -> list nat -> Prop :=
| unfolds_nil : unfolds h [] [] []
| unfolds_none : forall l o u, unfolds h l o u -> unfolds h (INone :: l) o u
| unfolds_str : forall s l o u, unfolds h l o u -> unfolds h (IStr s :: l) (s :: o) u
| unfolds_ref : forall j l o1 u1 o2 u2, unfolds h (nth j h []) o1 u1 -> unfolds h l o2 u2 -> unfolds h (IRef j :: l) (o1 ++ o2) (j :: u1 ++ u2).
