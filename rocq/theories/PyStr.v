(** * Python strings

    A Python [str] is modelled as the list of its code points.  This file
    holds the string methods of CPython 3 that kajiki calls, as total
    structural functions, without proofs. *)

From Coq Require Import Ascii String List NArith ZArith Bool.
Import ListNotations.
Open Scope list_scope.

(** A code point. *)
Notation char := N (only parsing).
(** A Python 3 [str]. *)
Notation str := (list N).

(** ASCII literal of the Coq [string] type as a Python string. *)
Fixpoint L (s : string) : str :=
  match s with
  | EmptyString => []
  | String a s' => N_of_ascii a :: L s'
  end.

(** Characters that occur in the code. *)
Notation c_tab := 9%N.
Notation c_nl := 10%N.
Notation c_cr := 13%N.
Notation c_sp := 32%N.
Notation c_bang := 33%N.
Notation c_dq := 34%N.
Notation c_hash := 35%N.
Notation c_dollar := 36%N.
Notation c_pct := 37%N.
Notation c_amp := 38%N.
Notation c_sq := 39%N.
Notation c_lpar := 40%N.
Notation c_rpar := 41%N.
Notation c_plus := 43%N.
Notation c_dash := 45%N.
Notation c_dot := 46%N.
Notation c_slash := 47%N.
Notation c_colon := 58%N.
Notation c_semi := 59%N.
Notation c_lt := 60%N.
Notation c_eq := 61%N.
Notation c_gt := 62%N.
Notation c_lbrack := 91%N.
Notation c_bsl := 92%N.
Notation c_rbrack := 93%N.
Notation c_us := 95%N.
Notation c_lbrace := 123%N.
Notation c_rbrace := 125%N.

(** [a == b] on strings. *)
Fixpoint seqb (a b : str) : bool :=
  match a, b with
  | [], [] => true
  | x :: a', y :: b' => N.eqb x y && seqb a' b'
  | _, _ => false
  end.

(** [x in l] for a list (or set) of strings. *)
Definition smem (x : str) (l : list str) : bool := existsb (seqb x) l.

(** [c in s] for a one-character string [c]. *)
Definition cmem (c : char) (s : str) : bool := existsb (N.eqb c) s.

(** [s.startswith(p)]. *)
Fixpoint prefixb (p s : str) : bool :=
  match p, s with
  | [], _ => true
  | x :: p', y :: s' => N.eqb x y && prefixb p' s'
  | _, _ => false
  end.

(** [s.endswith(p)]. *)
Definition suffixb (p s : str) : bool := prefixb (rev p) (rev s).

(** [s.find(p)] ([None] for -1). *)
Fixpoint find (p s : str) : option nat :=
  if prefixb p s then Some 0
  else match s with
       | [] => None
       | _ :: s' => option_map S (find p s')
       end.

(** [s.find(p, i)] for [0 <= i <= len(s)] ([None] for -1). *)
Definition find_from (p s : str) (i : nat) : option nat :=
  option_map (fun j => i + j) (find p (skipn i s)).

(** [p in s]. *)
Definition contains (p s : str) : bool :=
  match find p s with Some _ => true | None => false end.

(** [s.count(c)] for a one-character string [c]. *)
Fixpoint count (c : char) (s : str) : nat :=
  match s with
  | [] => 0
  | x :: s' => (if N.eqb x c then 1 else 0) + count c s'
  end.

(** [s.replace(old, new)] for non-empty [old]: leftmost, non-overlapping.
    [skip] counts characters of an occurrence already replaced. *)
Fixpoint replace_skip (old new : str) (skip : nat) (s : str) : str :=
  match s with
  | [] => []
  | c :: s' =>
      match skip with
      | S k => replace_skip old new k s'
      | O => if prefixb old s
             then new ++ replace_skip old new (length old - 1) s'
             else c :: replace_skip old new 0 s'
      end
  end.
Definition replace (old new s : str) : str := replace_skip old new 0 s.

(** [s.replace(old, new, 1)] for non-empty [old]. *)
Fixpoint replace1 (old new s : str) : str :=
  if prefixb old s then new ++ skipn (length old) s
  else match s with
       | [] => []
       | c :: s' => c :: replace1 old new s'
       end.

(** [c.isspace()] (Unicode), which is also [\s] of [re] for [str] patterns. *)
Definition is_space (c : char) : bool :=
  ((9 <=? c) && (c <=? 13) || (28 <=? c) && (c <=? 32) || (c =? 133) || (c =? 160)
   || (c =? 5760) || (8192 <=? c) && (c <=? 8202) || (c =? 8232) || (c =? 8233)
   || (c =? 8239) || (c =? 8287) || (c =? 12288))%N.

(** Line boundaries of [str.splitlines]. *)
Definition is_linebreak (c : char) : bool :=
  ((10 <=? c) && (c <=? 13) || (28 <=? c) && (c <=? 30) || (c =? 133)
   || (c =? 8232) || (c =? 8233))%N.

(** Longest prefix of characters satisfying [p], and what follows it. *)
Fixpoint takewhile (p : char -> bool) (s : str) : str :=
  match s with
  | [] => []
  | c :: s' => if p c then c :: takewhile p s' else []
  end.
Fixpoint dropwhile (p : char -> bool) (s : str) : str :=
  match s with
  | [] => []
  | c :: s' => if p c then dropwhile p s' else s
  end.

(** [s.lstrip()], [s.rstrip()], [s.strip()]. *)
Definition lstrip (s : str) : str := dropwhile is_space s.
Definition rstrip (s : str) : str := rev (dropwhile is_space (rev s)).
Definition strip (s : str) : str := rstrip (lstrip s).

(** [s.rstrip(c)] for a one-character string. *)
Definition rstrip_c (c : char) (s : str) : str := rev (dropwhile (N.eqb c) (rev s)).

(** [s.splitlines()]: break at line boundaries, CR LF counting once, no empty
    last line.  [cur] is the current line reversed, [cr] says whether the
    previous character was a CR (which has already ended a line). *)
Fixpoint splitlines_aux (cr : bool) (cur : str) (s : str) : list str :=
  match s with
  | [] => match cur with [] => [] | _ => [rev cur] end
  | c :: s' =>
      if cr && N.eqb c c_nl then splitlines_aux false cur s'
      else if is_linebreak c then rev cur :: splitlines_aux (N.eqb c c_cr) [] s'
      else splitlines_aux false (c :: cur) s'
  end.
Definition splitlines (s : str) : list str := splitlines_aux false [] s.

(** [s.split(c)] for a one-character separator. *)
Fixpoint split_c_aux (c : char) (cur : str) (s : str) : list str :=
  match s with
  | [] => [rev cur]
  | x :: s' => if N.eqb x c then rev cur :: split_c_aux c [] s'
               else split_c_aux c (x :: cur) s'
  end.
Definition split_c (c : char) (s : str) : list str := split_c_aux c [] s.

(** [sep.join(l)]. *)
Fixpoint join (sep : str) (l : list str) : str :=
  match l with
  | [] => []
  | [x] => x
  | x :: l' => x ++ sep ++ join sep l'
  end.

(** ASCII part of [s.lower()]. *)
Definition lower_c (c : char) : char :=
  if ((65 <=? c) && (c <=? 90))%N then (c + 32)%N else c.
Definition lower (s : str) : str := map lower_c s.

(** [' ' * n]. *)
Definition spaces (n : nat) : str := repeat c_sp n.

(** [s[i:j]] for [0 <= i], [0 <= j]. *)
Definition slice (i j : nat) (s : str) : str := firstn (j - i) (skipn i s).

(** Decimal digits of a natural number: ['%d' % n]. [fuel] bounds the number of
    digits; [S (N.size_nat n)] is always enough. *)
Fixpoint dec_aux (fuel : nat) (n : N) (acc : str) : str :=
  match fuel with
  | O => acc
  | S f => let acc' := (48 + n mod 10)%N :: acc in
           if (n <? 10)%N then acc' else dec_aux f (n / 10)%N acc'
  end.
Definition dec (n : N) : str := dec_aux (S (N.size_nat n)) n [].

(** Lexicographic order of code points: [a <= b] on strings. *)
Fixpoint sleb (a b : str) : bool :=
  match a, b with
  | [], _ => true
  | _ :: _, [] => false
  | x :: a', y :: b' => (x <? y)%N || (x =? y)%N && sleb a' b'
  end.

(** Outcome of Python code that may raise: an exception is a value carrying the
    exception class name. *)
Inductive result (A : Type) : Type :=
| Ok (a : A)
| Raise (exn : string).
Arguments Ok {A} _.
Arguments Raise {A} _.

Definition rbind {A B} (r : result A) (f : A -> result B) : result B :=
  match r with Ok a => f a | Raise e => Raise e end.
Definition rmap {A B} (f : A -> B) (r : result A) : result B :=
  match r with Ok a => Ok (f a) | Raise e => Raise e end.

(** Sequencing a list of computations, first exception wins. *)
Fixpoint rseq {A} (l : list (result A)) : result (list A) :=
  match l with
  | [] => Ok []
  | x :: l' => rbind x (fun a => rmap (cons a) (rseq l'))
  end.
