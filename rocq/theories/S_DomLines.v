(** * Specification: the lines on which the characters of texts stand *)

From Coq Require Import Ascii String List NArith ZArith Bool.
From Verif Require Import PyStr M_Text S_Text M_Entities M_Dom S_Dom.
Import ListNotations.
Open Scope list_scope.

(** The characters of a text that begins on line [ln], each with its line. *)
Fixpoint characters_at (ln : nat) (t : str) : list (nat * char) :=
  match t with
  | [] => []
  | c :: t' => (ln, c) :: characters_at (if N.eqb c c_nl then S ln else ln) t'
  end.
(** All characters of texts in a tree, in document order. *)
Fixpoint text_at (n : dnode) : list (nat * char) :=
  match n with
  | DElem _ _ _ cs => flat_map text_at cs
  | DText ln t _ => characters_at ln t
  | DMark _ _ | DComment _ _ | DPi _ _ _ => []
  end.
Definition visible (x : nat * char) : bool := negb (is_space (snd x)).

(** Where two texts follow each other, the second begins on the line on which the first ends. *)
Definition in_step (l : list dnode) : Prop :=
  forall a ln t e ln' t' e' b, l = a ++ DText ln t e :: DText ln' t' e' :: b -> ln' = ln + count_nl t.
Definition steps_right (n : dnode) : Prop := forall ln tag a cs, element_in n ln tag a cs -> in_step cs.

(** The same of what the XML parser reports: where texts are reported one directly after another, their lines fit. *)
Definition ends_on (e : event) : option nat :=
  match e with
  | EChars ln t => Some (ln + count_nl t)
  | ESkipped ln name => match skipped_entity true name with Ok (v, _) => Some (ln + count_nl v) | Raise _ => None end
  | _ => None
  end.
Definition begins_on (e : event) : option nat :=
  match e with EChars ln _ | ESkipped ln _ => Some ln | _ => None end.
Definition lines_fit (es : list event) : Prop :=
  forall a x y b l l', es = a ++ x :: y :: b -> ends_on x = Some l -> begins_on y = Some l' -> l' = l.
