(** * Arguments and parameters, as the language reference says (6.3.4, 8.7) *)

From Coq Require Import Ascii String List NArith ZArith Bool Arith.
From Verif Require Import PyStr M_Args.
Import ListNotations.
Open Scope list_scope.

Section Values.
Variable V : Type.
Variable s : signature.
Variable defaults : list V.                    (* of the last positional parameters *)
Variable kwdefaults : list (str * V).
Variable args : list V.
Variable kws : list (str * V).

Definition option_list {A : Type} (o : option A) : list A := match o with Some a => [a] | None => [] end.
Definition positional : list str := s_posonly s ++ s_normal s.
(** Parameters that may be given by keyword. *)
Definition by_keyword : list str := s_normal s ++ s_kwonly s.
(** All the parameters, in the order of the variables of the code. *)
Definition parameters : list str := positional ++ s_kwonly s ++ option_list (s_varargs s) ++ option_list (s_varkw s).

(** [p] is the parameter for which the positional argument [v] stands. *)
Definition given_by_position (p : str) (v : V) : Prop := exists i, nth_error positional i = Some p /\ nth_error args i = Some v.
Definition given_by_keyword (p : str) (v : V) : Prop := In p by_keyword /\ In (p, v) kws.
(** Defaults belong to the last positional parameters; keyword-only ones have their own. *)
Definition has_default (p : str) (v : V) : Prop :=
  (exists before after before' after', positional = before ++ p :: after /\ defaults = before' ++ v :: after' /\ length after = length after') \/
  (In p (s_kwonly s) /\ In (p, v) kwdefaults).

(** What a parameter is bound to. *)
Inductive receives (p : str) : bound V -> Prop :=
| r_position : forall v, given_by_position p v -> receives p (One V v)
| r_keyword : forall v, given_by_keyword p v -> receives p (One V v)
| r_default : forall v, In p (positional ++ s_kwonly s) -> (forall v', ~ given_by_position p v') -> (forall v', ~ given_by_keyword p v') ->
    has_default p v -> receives p (One V v)
| r_rest : s_varargs s = Some p -> receives p (Rest V (skipn (length positional) args))
| r_others : s_varkw s = Some p -> receives p (Others V (filter (fun kv => negb (smem (fst kv) by_keyword)) kws)).
(** Calls that are allowed. *)
Definition allowed : Prop :=
  (s_varargs s = None -> length args <= length positional) /\
  (s_varkw s = None -> forall k, In k (map fst kws) -> In k by_keyword) /\
  (forall p v v', given_by_position p v -> ~ given_by_keyword p v') /\
  (forall p, In p parameters -> exists b, receives p b).
End Values.
