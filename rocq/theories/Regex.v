(** * Regular expressions

    The part of Python's [re] module that kajiki's patterns use, as a structural
    backtracking matcher.  Leftmost, first alternative, greedy repetition, as in
    CPython.  Repetition is only used on character classes, which is what the patterns
    of kajiki need. *)

From Coq Require Import Ascii String List NArith Bool.
From Verif Require Import PyStr.
Import ListNotations.
Open Scope list_scope.

Inductive re : Type :=
| REmp                                              (* empty pattern *)
| RChr (p : char -> bool)                           (* one character of a class *)
| RSeq (a b : re)
| RAlt (a b : re)
| RRep (lo : nat) (hi : option nat) (p : char -> bool)   (* class{lo,hi}, greedy *)
| RGrp (g : nat) (r : re)                           (* capturing group *)
| RBol                                              (* ^ with re.MULTILINE *)
| RNot (r : re).                                    (* (?!r) *)

(** Captured groups, latest first. *)
Notation caps := (list (nat * list N)).

Definition rest_caps : Type := (str * caps)%type.
Definition cont : Type := option char -> str -> caps -> option rest_caps.

(** Greedy repetition, trying longer runs first. [prev] is the character before
    the current position. *)
Fixpoint rep_from (p : char -> bool) (prev : option char) (s : str) (c : caps)
    (k : cont) (lo : nat) (hi : option nat) : option rest_caps :=
  let stop := match lo with O => k prev s c | S _ => None end in
  match s, hi with
  | _, Some O => stop
  | [], _ => stop
  | x :: s', _ =>
      if p x then
        match rep_from p (Some x) s' c k (pred lo) (option_map pred hi) with
        | Some r => Some r
        | None => stop
        end
      else stop
  end.

Fixpoint rmatch (r : re) (prev : option char) (s : str) (c : caps) (k : cont) : option rest_caps :=
  match r with
  | REmp => k prev s c
  | RChr p => match s with
              | x :: s' => if p x then k (Some x) s' c else None
              | [] => None
              end
  | RSeq a b => rmatch a prev s c (fun prev' s' c' => rmatch b prev' s' c' k)
  | RAlt a b => match rmatch a prev s c k with
                | Some x => Some x
                | None => rmatch b prev s c k
                end
  | RRep lo hi p => rep_from p prev s c k lo hi
  | RGrp g a => rmatch a prev s c
                  (fun prev' s' c' => k prev' s' ((g, firstn (length s - length s') s) :: c'))
  | RBol => match prev with
            | None => k prev s c
            | Some x => if N.eqb x c_nl then k prev s c else None
            end
  | RNot a => match rmatch a prev s c (fun _ s' c' => Some (s', c')) with
              | Some _ => None
              | None => k prev s c
              end
  end.

(** [pattern.match] at a position: what is left of the string, and the groups. *)
Definition match_at (r : re) (prev : option char) (s : str) : option rest_caps :=
  rmatch r prev s [] (fun _ s' c => Some (s', c)).

(** A match object: start, end, groups. *)
Record mobj := MObj { mstart : nat; mend : nat; mcaps : caps }.

(** [mo.group(g)]; [None] when the group did not take part. *)
Definition group (m : mobj) (g : nat) : option str :=
  option_map snd (List.find (fun p => Nat.eqb (fst p) g) (mcaps m)).

(** [pattern.finditer(s)]; [pos] is the current position, [skip] characters
    belong to the previous match.  (No pattern of kajiki matches the empty string.) *)
Fixpoint finditer_from (r : re) (pos : nat) (prev : option char) (skip : nat) (s : str) : list mobj :=
  match s with
  | [] => match skip, match_at r prev [] with
          | O, Some (_, c) => [MObj pos pos c]
          | _, _ => []
          end
  | x :: s' =>
      match skip with
      | S k => finditer_from r (S pos) (Some x) k s'
      | O => match match_at r prev s with
             | Some (rest, c) =>
                 let n := length s - length rest in
                 MObj pos (pos + n) c :: finditer_from r (S pos) (Some x) (n - 1) s'
             | None => finditer_from r (S pos) (Some x) 0 s'
             end
      end
  end.
Definition finditer (r : re) (s : str) : list mobj := finditer_from r 0 None 0 s.

(** [pattern.search(s)]. *)
Fixpoint search_from (r : re) (pos : nat) (prev : option char) (s : str) : option mobj :=
  match match_at r prev s with
  | Some (rest, c) => Some (MObj pos (pos + (length s - length rest)) c)
  | None => match s with
            | [] => None
            | x :: s' => search_from r (S pos) (Some x) s'
            end
  end.
Definition search (r : re) (s : str) : option mobj := search_from r 0 None s.

(** [pattern.sub(f, s)] where [f] gets the groups. *)
Fixpoint sub_from (r : re) (f : caps -> result str) (prev : option char) (skip : nat) (s : str) : result str :=
  match s with
  | [] => Ok []
  | x :: s' =>
      match skip with
      | S k => sub_from r f (Some x) k s'
      | O => match match_at r prev s with
             | Some (rest, c) =>
                 rbind (f c) (fun t => rmap (app t)
                   (sub_from r f (Some x) (length s - length rest - 1) s'))
             | None => rmap (cons x) (sub_from r f (Some x) 0 s')
             end
      end
  end.
Definition sub (r : re) (f : caps -> result str) (s : str) : result str := sub_from r f None 0 s.

(** A literal string. *)
Fixpoint rlit (s : str) : re :=
  match s with
  | [] => REmp
  | c :: s' => RSeq (RChr (N.eqb c)) (rlit s')
  end.

(** One character with re.IGNORECASE (for an ASCII letter [c]): the letters of the
    same lower case, where U+0130 and U+0131 count as i, U+017F as s, U+212A as k. *)
Definition fold_c (c : char) : char :=
  if (c =? 304)%N || (c =? 305)%N then 105%N
  else if (c =? 383)%N then 115%N
  else if (c =? 8490)%N then 107%N
  else lower_c c.
Definition ci (c x : char) : bool := N.eqb (fold_c c) (fold_c x).

(** [[a-z]] with re.IGNORECASE. *)
Definition is_az (x : char) : bool := let y := fold_c x in ((97 <=? y) && (y <=? 122))%N.
