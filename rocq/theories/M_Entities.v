(** * Character references

    Model of [unescape] and [_replace_entities] of [kajiki/entities.py], and of
    [characters] and [skippedEntity] of [_Parser] in [kajiki/xml_template.py]. *)

From Coq Require Import Ascii String List NArith ZArith Bool.
From Verif Require Import PyStr Regex M_Html5.
Import ListNotations.
Open Scope list_scope.

(** ** [int(s, base)] on ASCII letters, digits and underscores

    (Recent Pythons refuse decimal numerals of more than 4300 digits with a ValueError;
    that limit is not modelled.) *)

Definition digit (c : char) : option N :=
  if ((48 <=? c) && (c <=? 57))%N then Some (c - 48)%N
  else if ((97 <=? c) && (c <=? 122))%N then Some (c - 87)%N
  else if ((65 <=? c) && (c <=? 90))%N then Some (c - 55)%N
  else None.

(** Underscores may separate digits; [gap]: no digit just before. *)
Fixpoint int_digits (base : N) (gap : bool) (acc : N) (s : str) : option N :=
  match s with
  | [] => if gap then None else Some acc
  | c :: s' =>
      if N.eqb c c_us then (if gap then None else int_digits base true acc s')
      else match digit c with
           | Some d => if (d <? base)%N then int_digits base false (acc * base + d)%N s' else None
           | None => None
           end
  end.
Definition int10 (s : str) : option N := int_digits 10 true 0 s.
(** A prefix [0x] is accepted, and one underscore after it. *)
Definition int16 (s : str) : option N :=
  match s with
  | z :: x :: s' =>
      if N.eqb z 48 && (N.eqb x 120 || N.eqb x 88)
      then match s' with
           | u :: s'' => if N.eqb u c_us then int_digits 16 true 0 s'' else int_digits 16 true 0 s'
           | [] => None
           end
      else int_digits 16 true 0 s
  | _ => int_digits 16 true 0 s
  end.

(** ** entities.py *)

Definition is_word (c : char) : bool :=
  match digit c with Some _ => true | None => N.eqb c c_us end.
Definition is_hex (c : char) : bool :=
  match digit c with Some d => (d <? 16)%N | None => false end.
Definition is_x (c : char) : bool := N.eqb c 120 || N.eqb c 88.

(** entities.py:16-17 [UNESCAPE_RE]. *)
Definition unescape_re : re :=
  RSeq (RChr (N.eqb c_amp))
    (RGrp 1 (RSeq (RRep 0 (Some 1) (N.eqb c_hash))
            (RSeq (RRep 0 (Some 1) is_x)
                  (RAlt (RSeq (RRep 1 None is_hex) (RChr (N.eqb c_semi)))
                        (RSeq (RRep 1 (Some 32) is_word) (RRep 0 (Some 1) (N.eqb c_semi))))))).

Fixpoint assoc (k : str) (d : list (str * str)) : option str :=
  match d with
  | [] => None
  | (k', v) :: d' => if seqb k k' then Some v else assoc k d'
  end.

(** [chr(c)]; [None] is a ValueError. *)
Definition chr (c : N) : result (option str) :=
  if (c <=? 1114111)%N then Ok (Some [c])
  else if (c <=? 2147483647)%N then Ok None
  else Raise "OverflowError".

(** entities.py:37-41: the loop over the prefixes. *)
Fixpoint try_prefixes (s : str) (xs : list nat) : str :=
  match xs with
  | [] => [c_amp] ++ s
  | x :: xs' => match assoc (firstn x s) html5 with
                | Some v => v ++ skipn x s
                | None => try_prefixes s xs'
                end
  end.

(** entities.py:20-41 [_replace_entities], on the text of the group. *)
Definition replace_entity (s : str) : result str :=
  match s with
  | c :: s' =>
      if N.eqb c c_hash then
        let unchanged := [c_amp; c_hash] ++ s' in
        let number := match s' with
                      | x :: s'' => if is_x x then int16 (rstrip_c c_semi s'')
                                    else int10 (rstrip_c c_semi s')
                      | [] => None        (* not reached: the pattern wants a character here *)
                      end in
        match number with
        | None => Ok unchanged
        | Some n => rmap (fun o => match o with Some t => t | None => unchanged end) (chr n)
        end
      else match assoc s html5 with
           | Some v => Ok v
           | None => if suffixb [c_semi] s then Ok ([c_amp] ++ s)
                     else Ok (try_prefixes s (seq 2 (length s - 2)))
           end
  | [] => Raise "IndexError"
  end.

(** entities.py:10-14 [unescape]. *)
Definition unescape (s : str) : result str :=
  if cmem c_amp s
  then sub unescape_re
         (fun c => match List.find (fun p => Nat.eqb (fst p) 1) c with
                   | Some (_, g) => replace_entity g
                   | None => Raise "IndexError"
                   end) s
  else Ok s.

(** ** xml_template.py *)

(** [xml.sax.saxutils.escape(data)]. *)
Definition sax_escape (s : str) : str :=
  replace (L "<") (L "&lt;") (replace (L ">") (L "&gt;") (replace (L "&") (L "&amp;") s)).

(** xml_template.py:655-662 [characters]: the text put in the tree, and whether it was
    escaped; [cdata]: inside a CDATA section. *)
Definition characters (cdata : bool) (content : str) : str * bool :=
  (if cdata then content else sax_escape content, negb cdata).

(** xml_template.py:669-681 [skippedEntity]. *)
Definition skipped_entity (cdata : bool) (name : str) : result (str * bool) :=
  let name := match rev name with
              | c :: _ => if N.eqb c c_semi then name else name ++ [c_semi]
              | [] => name
              end in
  match assoc name html5 with
  | Some v => Ok (characters cdata v)
  | None => Raise "KeyError"
  end.
