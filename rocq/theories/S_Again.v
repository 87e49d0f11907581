(** * Specification: templates that use no other templates, and rendering one object several times *)

From Coq Require Import Ascii String List NArith ZArith Bool.
From Verif Require Import PyStr M_Values M_IR M_Template M_Run S_Run M_Process.
Import ListNotations.
Open Scope list_scope.

(** Nothing in it extends, includes or imports. *)
Fixpoint by_itself (s : rstm) : Prop :=
  let all := fix go (l : list rstm) : Prop := match l with [] => True | m :: l' => by_itself m /\ go l' end in
  match s with
  | RImport _ _ | RInclude _ | RExtend _ => False
  | RIf _ b els | RFor _ b els => all b /\ all els
  | RWith _ b | RDef _ b | RCall _ _ b | RAttr _ b _ _ => all b
  | RSwitch _ cases els =>
      (fix go (l : list (str * list rstm)) : Prop := match l with [] => True | (_, b) :: l' => all b /\ go l' end) cases /\ all els
  | _ => True
  end.
(** All functions of the template. *)
Definition file_by_itself (f : file) : Prop :=
  let '(t, _, _) := f in forall fs, functions_of (defs t) = Some fs -> Forall (fun kf => Forall by_itself (snd (snd kf))) fs.

(** [render()] of one object, [n] times. *)
Fixpoint renders (py : python) (load : bool -> str -> result (cls (fobj bcode) (str * bcode))) (depth i n : nat) (s : state) : result (list str) :=
  match n with
  | O => Ok []
  | S n' => rbind (render_object py load depth i s) (fun ts => rmap (cons (fst ts)) (renders py load depth i n' (snd ts)))
  end.
(** A template object is made in a process, and rendered [n] times. *)
Definition pages_of_object (py : python) (files : bool -> str -> result file) (depth n : nat) (f : file) (context : list (str * value)) (s : state) : result (list str) :=
  rbind (class_of f) (fun c => let (s, i) := create c (objects context) s in renders py (load_from files) depth i n s).
