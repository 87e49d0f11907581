(** * What character references mean *)

From Coq Require Import Ascii String List NArith ZArith Bool.
From Verif Require Import PyStr M_Html5.
Import ListNotations.
Open Scope list_scope.

(** The entry of a name in the table of HTML. *)
Definition stands_for (name value : str) : Prop := In (name, value) html5.

(** Text as written in XML: each markup-significant character as a reference. *)
Definition xml_text (s : str) : str :=
  flat_map (fun c => if N.eqb c c_amp then L "&amp;"
                     else if N.eqb c c_lt then L "&lt;"
                     else if N.eqb c c_gt then L "&gt;" else [c]) s.

(** Numerals. *)
Definition dec_char (d : N) (c : char) : Prop := (d < 10 /\ c = 48 + d)%N.
Definition hex_char (d : N) (c : char) : Prop :=
  (d < 10 /\ c = 48 + d)%N \/ (10 <= d < 16 /\ (c = 87 + d \/ c = 55 + d))%N.
Definition value (base : N) (digits : list N) : N := fold_left (fun a d => a * base + d)%N digits 0%N.

(** Digits, among which single underscores may stand. *)
Inductive digits_text : list N -> str -> Prop :=
| one_digit : forall d c, hex_char d c -> digits_text [d] [c]
| more_digits : forall d c ds s, hex_char d c -> digits_text ds s -> digits_text (d :: ds) (c :: s)
| spaced_digits : forall d c ds s, hex_char d c -> digits_text ds s -> digits_text (d :: ds) (c :: 95%N :: s).
(** What may stand for a number after [&#]: as Python reads numbers, so that hexadecimal
    ones may have a prefix [0x] of their own. *)
Inductive number_text : str -> N -> Prop :=
| decimal_number : forall ds s, digits_text ds s -> Forall (fun d => d < 10)%N ds -> number_text s (value 10 ds)
| hex_number : forall x ds s, x = 120%N \/ x = 88%N -> digits_text ds s -> number_text (x :: s) (value 16 ds)
| prefixed_number : forall x y u ds s, x = 120%N \/ x = 88%N -> y = 120%N \/ y = 88%N -> u = [] \/ u = [95%N] ->
    digits_text ds s -> number_text ([x; 48%N; y] ++ u ++ s) (value 16 ds).

(** What a numeric reference gives: the character, itself when there is no such
    character, and an exception when the number does not fit a C int. *)
Definition numeric (reference : str) (n : N) (rest : result str) : result str :=
  if (n <? 1114112)%N then rmap (cons n) rest
  else if (n <? 2147483648)%N then rmap (app reference) rest
  else Raise "OverflowError".

(** Names: ASCII letters, digits and underscores. *)
Definition ascii_word (c : char) : Prop :=
  (48 <= c <= 57)%N \/ (65 <= c <= 90)%N \/ (97 <= c <= 122)%N \/ c = 95%N.
(** The text goes on with something that is neither part of a name nor a semicolon. *)
Definition name_ends (rest : str) : Prop :=
  match rest with [] => True | y :: _ => ~ ascii_word y /\ y <> 59%N end.

(** How much of a text is read as a reference after [&] or [&#]: the letters, digits and
    underscores there and a semicolon when it comes next; but not more than 32 of them,
    not counting an [x] in front, unless they are hexadecimal digits up to a semicolon. *)
Definition hex_digit (c : char) : Prop := exists d, hex_char d c.
Definition x_before (x : str) (word : str) : Prop :=
  x = [] \/ (x = [120%N] \/ x = [88%N]) /\ word <> [].
Inductive reference_text : str -> str -> str -> Prop :=
| whole_word : forall x w semi rest, x_before x w -> w <> [] -> Forall ascii_word w ->
    semi = L ";" \/ semi = [] /\ name_ends rest ->
    length w <= 32 \/ semi = L ";" /\ Forall hex_digit w ->
    reference_text (x ++ w) semi rest
| cut_word : forall x w y rest, x_before x w -> Forall ascii_word w -> length w = 32 -> ascii_word y ->
    (x = [] -> hd_error w <> Some 120%N /\ hd_error w <> Some 88%N) ->
    (forall numeral after, w ++ y :: rest = numeral ++ L ";" ++ after -> ~ Forall hex_digit numeral) ->
    reference_text (x ++ w) [] (y :: rest).
