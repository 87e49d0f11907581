(** * Specification: templates whose objects can be shared *)

From Coq Require Import Ascii String List NArith ZArith Bool Arith.
From Verif Require Import PyStr M_Values M_IR M_Run M_Same.
Import ListNotations.
Open Scope list_scope.

(** Nothing in it assigns variables for a while, switches, extends, includes or imports. *)
Fixpoint steady (n : node) : Prop :=
  let all := fix go (l : list node) : Prop := match l with [] => True | m :: l' => steady m /\ go l' end in
  match n with
  | NWith _ _ _ | NSwitch _ _ _ | NImport _ _ _ | NInclude _ _ | NExtend _ _ => False
  | NDef _ _ _ b | NCall _ _ _ b | NFor _ _ b | NCase _ _ b | NIf _ _ b | NElse _ b | NAttr _ _ b _ _ _ _ _ => all b
  | _ => True
  end.
Definition steady_file (f : file) : Prop := let '(t, _, _) := f in Forall steady (defs t).

(** How many iterations have begun; how often it is the [k]-th one's turn, if [begun] have begun before. *)
Definition begun (l : list turn) : nat := length (filter (fun e => match e with Start => true | Next _ => false end) l).
Fixpoint turns_of (n k : nat) (l : list turn) : nat :=
  match l with
  | [] => 0
  | Start :: l' => turns_of (S n) k l'
  | Next j :: l' => (if Nat.eqb j k && Nat.ltb k n then 1 else 0) + turns_of n k l'
  end.
