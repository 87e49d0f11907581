(** * Line number tables

    Model of [kajiki/lnotab.py] (Python 3 branch), of [TplFunc.annotate_lnotab]
    and of the line bookkeeping in [from_ir] ([kajiki/template.py]). *)

From Coq Require Import Ascii String List ZArith Bool.
From Verif Require Import PyStr.
Import ListNotations.
Open Scope list_scope.
Open Scope Z_scope.

(** lnotab.py:74-78 and 79-83: [while d > 255: yield 255; yield 0; d -= 255] and
    then [yield d].  The loop runs at most [d] times. *)
Fixpoint chunks255 (fuel : nat) (d : Z) : list Z :=
  match fuel with
  | O => [d]
  | S f => if d >? 255 then 255 :: 0 :: chunks255 f (d - 255) else [d]
  end.
Definition delta (d : Z) : list Z := chunks255 (Z.to_nat d) d.

(** lnotab.py:68-84, the loop of [lnotab]. *)
Fixpoint lnotab_loop (cur_byte cur_line : Z) (pairs : list (Z * Z)) : result (list Z) :=
  match pairs with
  | [] => Ok []
  | (byte_off, line_off) :: pairs' =>
      let byte_delta := byte_off - cur_byte in
      let line_delta := line_off - cur_line in
      if negb (byte_delta >=? 0) then Raise "AssertionError"
      else if negb (line_delta >=? 0) then Raise "AssertionError"
      else rmap (fun t => delta byte_delta ++ delta line_delta ++ t)
             (lnotab_loop byte_off line_off pairs')
  end.

(** lnotab.py:65-84 [lnotab]. *)
Definition lnotab (pairs : list (Z * Z)) (first_lineno : Z) : result (list Z) :=
  match pairs with
  | [] => Raise "IndexError"
  | (_, l) :: _ =>
      if first_lineno <=? l then lnotab_loop 0 first_lineno pairs
      else Raise "AssertionError"
  end.

(** lnotab.py:58-59 and 87-88: [bytes([i])] wants 0..255. *)
Definition is_byte (b : Z) : bool := (0 <=? b) && (b <=? 255).
Definition lnotab_string (pairs : list (Z * Z)) (first_lineno : Z) : result (list Z) :=
  rbind (lnotab pairs first_lineno)
    (fun bs => if forallb is_byte bs then Ok bs else Raise "ValueError").

(** lnotab.py:91-94 [byte_pairs]. *)
Fixpoint byte_pairs (l : list Z) : result (list (Z * Z)) :=
  match l with
  | [] => Ok []
  | [_] => Raise "IndexError"
  | a :: b :: l' => rmap (cons (a, b)) (byte_pairs l')
  end.

(** [a != b] where [a] may be [None]. *)
Definition differs (a : option Z) (b : Z) : bool :=
  match a with None => true | Some x => negb (x =? b) end.

(** lnotab.py:101-109, the loop of [lnotab_numbers]. *)
Fixpoint numbers_loop (last_line : option Z) (cur_byte cur_line : Z)
    (pairs : list (Z * Z)) : list (Z * Z) :=
  match pairs with
  | [] => if differs last_line cur_line then [(cur_byte, cur_line)] else []
  | (byte_delta, line_delta) :: pairs' =>
      if byte_delta =? 0
      then numbers_loop last_line cur_byte (cur_line + line_delta) pairs'
      else if differs last_line cur_line
      then (cur_byte, cur_line) ::
           numbers_loop (Some cur_line) (cur_byte + byte_delta) (cur_line + line_delta) pairs'
      else numbers_loop last_line (cur_byte + byte_delta) (cur_line + line_delta) pairs'
  end.

(** lnotab.py:97-109 [lnotab_numbers]. *)
Definition lnotab_numbers (tab : list Z) (first_lineno : Z) : result (list (Z * Z)) :=
  rmap (numbers_loop None 0 first_lineno) (byte_pairs tab).

(** template.py:315-320 in [from_ir]: Python line number (from 1) to template line
    number.  The [_lineno] of a line, or 0, is given. *)
Fixpoint py_linenos_from (i last_lineno : Z) (lines : list Z) : list (Z * Z) :=
  match lines with
  | [] => []
  | l :: lines' =>
      let lno := Z.max last_lineno l in
      (i + 1, lno) :: py_linenos_from (i + 1) lno lines'
  end.
Definition py_linenos (lines : list Z) : list (Z * Z) := py_linenos_from 0 0 lines.

(** [dict(py_to_tpl).get(k)]: the last pair with that key counts. *)
Fixpoint dict_get (d : list (Z * Z)) (k : Z) : option Z :=
  match d with
  | [] => None
  | (k', v) :: d' => match dict_get d' k with
                     | Some v' => Some v'
                     | None => if k' =? k then Some v else None
                     end
  end.

(** template.py:381-400 [annotate_lnotab]: the pair (firstlineno, line table) of the new
    code object; [None] when the code object is left as it is.  (The message printed for
    an unknown line is not modelled.) *)
Definition annotate (py_to_tpl : list (Z * Z)) (tab : list Z) (firstlineno : Z)
  : result (option (Z * list Z)) :=
  match py_to_tpl with
  | [] => Ok None
  | _ =>
      rbind (lnotab_numbers tab firstlineno) (fun numbers =>
      let new_numbers :=
        flat_map (fun p => match dict_get py_to_tpl (snd p) with
                           | Some t => [(fst p, t)]
                           | None => []
                           end) numbers in
      match new_numbers with
      | [] => Ok None
      | _ =>
          let new_first := match dict_get py_to_tpl firstlineno with
                           | Some t => t
                           | None => 0
                           end in
          rmap (fun s => Some (new_first, s)) (lnotab_string new_numbers new_first)
      end)
  end.
