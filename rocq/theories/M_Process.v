(** * Model: template objects in a process

    [M_Run] creates one object in an empty process.  Here there may be other objects, of the same templates or of
    others, and what they have left behind.  No proofs. *)

From Coq Require Import Ascii String List NArith ZArith Bool.
From Verif Require Import PyStr M_Values M_IR M_Template M_Run.
Import ListNotations.
Open Scope list_scope.

Section Process.
Variable py : python.
Variable load : bool -> str -> result (cls (fobj bcode) (str * bcode)).

(** template.py:63-94 [cls(context)]: a new object, with empty stacks (template.py:90-91).  Nothing is behind it. *)
Definition create (c : cls (fobj bcode) (str * bcode)) (context : dict (fobj bcode) (str * bcode)) (s : state) : state * nat :=
  let (h, i) := new _ _ (w_heap (s_world s)) c (Given _ _ context) in
  (State (World h (w_frames (s_world s)))
     (fun j => if Nat.ltb j i then s_with s j else [])
     (fun j => if Nat.ltb j i then s_switch s j else []), i).

(** template.py:96-106 [render()] of an object. *)
Definition render_object (depth : nat) (i : nat) (s : state) : result (str * state) :=
  rbind (main_of py (w_heap (s_world s)) i) (fun f =>
  rmap (fun vs => (render [fst vs], snd vs)) (call_function py (invoke py load depth) f [] s)).
Definition render_new (depth : nat) (c : cls (fobj bcode) (str * bcode)) (context : dict (fobj bcode) (str * bcode)) (s : state) : result (str * state) :=
  let (s, i) := create c context s in render_object depth i s.
End Process.

(** A file that is loaded (loader.py:14-24), and the page.  Classes are not changed. *)
Definition load_from (files : bool -> str -> result file) (fragment : bool) (name : str) : result (cls (fobj bcode) (str * bcode)) :=
  rbind (files fragment name) class_of.
Definition page_in (py : python) (files : bool -> str -> result file) (depth : nat) (f : file) (context : list (str * value)) (s : state) : result (str * state) :=
  rbind (class_of f) (fun c => render_new py (load_from files) depth c (objects context) s).
