(** * Shared iterators: what happens when a [flattener] is used twice

    Model of [kajiki/util.py] [flattener.__init__], [__iter__] and [literal]
    with Python's reference semantics: a flattener holds a reference to an iterator
    object, and iterators live in a heap and are consumed by use. *)

From Coq Require Import Ascii String List NArith Bool.
From Verif Require Import PyStr.
Import ListNotations.
Open Scope list_scope.

(** A value: [None], a string, or a flattener (given by the address of its
    iterator; util.py:46-49 makes wrapping a flattener share that address). *)
Inductive ival := INone | IStr (s : str) | IRef (addr : nat).

(** The heap: the items each iterator has still to yield. *)
Definition heap := list (list ival).

Fixpoint update {A} (i : nat) (x : A) (l : list A) : list A :=
  match l, i with
  | [], _ => []
  | _ :: l', O => x :: l'
  | y :: l', S j => y :: update j x l'
  end.

(** [next(iterator)]: [None] is StopIteration. *)
Definition next (h : heap) (i : nat) : option (ival * heap) :=
  match nth i h [] with
  | [] => None
  | x :: rest => Some (x, update i rest h)
  end.

(** util.py:86-87 [literal(text)]: a new list iterator and a flattener for it. *)
Definition literal (h : heap) (text : str) : heap * ival :=
  (h ++ [[IStr text]], IRef (length h)).

(** util.py:76-83 [flattener.__iter__] run to exhaustion: the strings yielded
    and the heap afterwards. *)
Fixpoint drain (fuel : nat) (h : heap) (i : nat) : result (list str * heap) :=
  match fuel with
  | O => Raise "out of fuel"
  | S f =>
      match next h i with
      | None => Ok ([], h)
      | Some (INone, h1) => drain f h1 i
      | Some (IStr s, h1) => rmap (fun p => (s :: fst p, snd p)) (drain f h1 i)
      | Some (IRef j, h1) =>
          rbind (drain f h1 j) (fun p =>
          rmap (fun q => (fst p ++ fst q, snd q)) (drain f (snd p) i))
      end
  end.

(** Printing the same flattener several times. *)
Fixpoint print_times (fuel : nat) (n : nat) (h : heap) (i : nat) : result (list (list str)) :=
  match n with
  | O => Ok []
  | S m => rbind (drain fuel h i) (fun p => rmap (cons (fst p)) (print_times fuel m (snd p) i))
  end.
