(** * What a loader used by several threads should do *)

From Coq Require Import Ascii String List NArith ZArith Bool.
From Verif Require Import PyStr M_Loader S_Loader M_Threads.
Import ListNotations.
Open Scope list_scope.

(** Nothing has been asked of a new loader. *)
Definition idle (n : nat) : system := System [] (new_loader n).

(** The outcome of a call. *)
Definition done (c : call) (r : result template) : Prop := call_prog c = Return r.
Definition pending (c : call) : Prop := forall r, ~ done c r.

(** How often the i-th call makes a step. *)
Definition is_go (i : nat) (e : event) : bool := match e with Go j => Nat.eqb i j | _ => false end.
Definition steps_of (i : nat) (l : list event) : nat := length (filter (is_go i) l).

(** [t] was made of what a file for [name] contained at one of the first [n] accesses, with the loader's options and
    those of one of the calls ([K]). *)
Definition made_of (fs : nat -> str -> option (Z * str)) (compile : kind -> kwargs -> str -> option string) (cfg : config)
    (K : kwargs -> Prop) (name : str) (n : nat) (t : template) : Prop :=
  exists fn kw k m id, candidate (c_path cfg) name fn /\ K kw /\ k < n /\ fs k fn = Some (m, t_contents t) /\
    built compile cfg fn kw (t_contents t) id = Ok t.

(** Why a call that began after [n] accesses has failed before the [n']-th. *)
Inductive failure (fs : nat -> str -> option (Z * str)) (compile : kind -> kwargs -> str -> option string) (cfg : config)
    (name : str) (kw : kwargs) (n n' : nat) : string -> Prop :=
| fa_unknown : (forall base, In base (c_path cfg) -> exists k, n <= k < n' /\ fs k (path_join base name) = None) ->
    failure fs compile cfg name kw n n' "OSError"
| fa_vanished : c_reload cfg = true ->
    (forall base, In base (c_path cfg) -> exists k, n <= k < n' /\ fs k (path_join base name) = None) ->
    failure fs compile cfg name kw n n' "TypeError"
| fa_gone : forall fn k, candidate (c_path cfg) name fn -> n <= k < n' -> fs k fn = None ->
    failure fs compile cfg name kw n n' "FileNotFoundError"
| fa_built : forall fn k m c id e, candidate (c_path cfg) name fn -> n <= k < n' -> fs k fn = Some (m, c) ->
    built compile cfg fn kw c id = Raise e -> failure fs compile cfg name kw n n' e
| fa_race : c_reload cfg = true -> failure fs compile cfg name kw n n' "KeyError".

(** The outcome of a call with options [kw] when the file is [r] and nothing changes: the template, or the exception that
    making it raises.  The template may be one that another call has made. *)
Definition outcome (compile : kind -> kwargs -> str -> option string) (cfg : config) (now : str -> option (Z * str))
    (r : option str) (K : kwargs -> Prop) (kw : kwargs) (x : result template) : Prop :=
  match r with
  | None => x = Raise "OSError"
  | Some fn => exists m c kw' id, now fn = Some (m, c) /\ K kw' /\ x = built compile cfg fn kw' c id /\
                 ((exists t, x = Ok t) \/ kw' = kw)
  end.

(** The files for a name do not change from the n-th access on. *)
Definition quiet_for (fs : nat -> str -> option (Z * str)) (files : str -> Prop) (n : nat)
    (now : str -> option (Z * str)) : Prop :=
  forall i f, files f -> n <= i -> fs i f = now f.

(** At no time there are two calls for the name. *)
Definition one_at_a_time fs import_ (name : str) (l : list event) (y : system) : Prop :=
  forall l1 l2, l = l1 ++ l2 -> forall i j a b,
    nth_error (calls (schedule fs import_ l1 y)) i = Some a -> nth_error (calls (schedule fs import_ l1 y)) j = Some b ->
    call_name a = name -> call_name b = name -> pending a -> pending b -> i = j.
