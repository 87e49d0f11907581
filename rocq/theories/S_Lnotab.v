(** * Specification of line number tables *)

From Coq Require Import Ascii String List ZArith Bool Sorted.
From Verif Require Import PyStr.
Import ListNotations.
Open Scope list_scope.
Open Scope Z_scope.

(** The meaning of a list of (bytecode offset, line) rows for a bytecode address: the
    line of the last row at or before the address, [first] when there is none. *)
Definition line_at (first : Z) (rows : list (Z * Z)) (address : Z) : Z :=
  fold_left (fun cur row => if fst row <=? address then snd row else cur) rows first.

(** The look-up loop which the interpreter uses, from the comment of Python/compile.c
    quoted in kajiki/lnotab.py: the table is a flat list of bytes; [lineno] starts at the
    first line of the code object. *)
Fixpoint lookup (address addr lineno : Z) (table : list Z) : Z :=
  match table with
  | addr_incr :: line_incr :: table' =>
      if addr + addr_incr >? address then lineno
      else lookup address (addr + addr_incr) (lineno + line_incr) table'
  | _ => lineno
  end.
Definition interpreter_line (first : Z) (table : list Z) (address : Z) : Z :=
  lookup address 0 first table.

(** The same loop since Python 3.6, where line increments are signed bytes. *)
Definition signed_byte (b : Z) : Z := if b >? 127 then b - 256 else b.
Fixpoint lookup_signed (address addr lineno : Z) (table : list Z) : Z :=
  match table with
  | addr_incr :: line_incr :: table' =>
      if addr + addr_incr >? address then lineno
      else lookup_signed address (addr + addr_incr) (lineno + signed_byte line_incr) table'
  | _ => lineno
  end.
Definition interpreter_line_36 (first : Z) (table : list Z) (address : Z) : Z :=
  lookup_signed address 0 first table.

(** Rows in increasing order of offsets, from [o] and line [l] on. *)
Fixpoint increasing_from (o l : Z) (rows : list (Z * Z)) : Prop :=
  match rows with
  | [] => True
  | (o', l') :: rows' => o < o' /\ l <= l' /\ increasing_from o' l' rows'
  end.
(** A table: the first row is at offset 0 and not before line [first]. *)
Definition good_table (first : Z) (rows : list (Z * Z)) : Prop :=
  match rows with
  | [] => False
  | (o, l) :: rows' => o = 0 /\ first <= l /\ increasing_from o l rows'
  end.

(** Rows that repeat the line of the row before them are redundant. *)
Fixpoint drop_redundant (last : option Z) (rows : list (Z * Z)) : list (Z * Z) :=
  match rows with
  | [] => []
  | (o, l) :: rows' =>
      match last with
      | Some x => if x =? l then drop_redundant last rows'
                  else (o, l) :: drop_redundant (Some l) rows'
      | None => (o, l) :: drop_redundant (Some l) rows'
      end
  end.

(** Even number of bytes. *)
Definition is_table (tab : list Z) : Prop :=
  Forall (fun b => 0 <= b <= 255) tab /\ Nat.Even (length tab).

(** No row is more than 127 lines after the one before it. *)
Fixpoint small_gaps_from (l : Z) (rows : list (Z * Z)) : Prop :=
  match rows with [] => True | (_, l') :: rows' => l' - l <= 127 /\ small_gaps_from l' rows' end.
