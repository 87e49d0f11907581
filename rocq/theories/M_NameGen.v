(** * Generation of helper names

    Model of [kajiki/util.py] [NameGen] and [gen_name]. *)

From Coq Require Import Ascii String List NArith Bool.
From Verif Require Import PyStr.
Import ListNotations.
Open Scope list_scope.

(** util.py:103-105: the loop of [_gen].  [rs] are the values that the successive
    calls of [randint(0, len(names) * 10)] return; a value outside that interval
    cannot occur, the model reports it as an error.  Python would go on for
    ever where the model runs out of [rs]. *)
Fixpoint gen_loop (names : list str) (hint r : str) (rs : list N) : result str :=
  if smem r names then
    match rs with
    | [] => Raise "out of random numbers"
    | n :: rs' =>
        if (n <=? N.of_nat (length names) * 10)%N
        then gen_loop names hint (hint ++ L "_" ++ dec n) rs'
        else Raise "not a result of randint"
    end
  else Ok r.

(** util.py:102-107 [_gen]: the name and the new set of names. *)
Definition gen (names : list str) (hint : str) (rs : list N) : result (str * list str) :=
  rmap (fun r => (r, r :: names)) (gen_loop names hint hint rs).

(** A history of calls [gen_name(hint)] in one thread (util.py:97-100 keeps one
    [NameGen] per thread), each with the random numbers it draws; the result is the list of the
    names returned, in order. *)
Fixpoint gen_history (names : list str) (calls : list (str * list N)) : result (list str) :=
  match calls with
  | [] => Ok []
  | (hint, rs) :: calls' =>
      rbind (gen names hint rs) (fun p => rmap (cons (fst p)) (gen_history (snd p) calls'))
  end.

(** util.py:110 default hint. *)
Definition default_hint : str := L "_kj_".

(** xml_template.py:334 and text.py:304: function name of a block. *)
Definition block_fname (name : str) : str := L "_kj_block_" ++ name.
