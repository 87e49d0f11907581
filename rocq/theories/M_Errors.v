(** * Error excerpts

    Model of [_get_source_snippet] and [_get_source_line], of which there are two
    copies: [XMLTemplateError] in [kajiki/xml_template.py] and [KajikiSyntaxError] in
    [kajiki/template.py]. *)

From Coq Require Import Ascii String List NArith ZArith Bool.
From Verif Require Import PyStr.
Import ListNotations.
Open Scope list_scope.

(** xml_template.py:925-932, template.py:464-471. *)
Definition get_source_line (source : str) (linen : Z) : str :=
  if (linen <? 0)%Z then []
  else match nth_error (splitlines source) (Z.to_nat linen) with
       | Some line => line
       | None => []
       end.

(** xml_template.py:914, template.py:453. *)
Definition surrounding : nat := 2.

(** xml_template.py:913-923, template.py:452-462. *)
Definition source_snippet (source : str) (linen : Z) : str :=
  let linen := (linen - 1)%Z in
  let row mark line := [c_tab] ++ mark ++ line ++ [c_nl] in
  concat
    (map (fun i => row (L "     ") (get_source_line source (linen - Z.of_nat i)))
         (rev (seq 1 surrounding))
     ++ [row (L " --> ") (get_source_line source linen)]
     ++ map (fun i => row (L "     ") (get_source_line source (linen + Z.of_nat i)))
            (seq 1 surrounding)).

(** xml_template.py:905-908, template.py:444-447: the message; [dec_Z] is given as an
    argument [show] here. *)
Definition error_message (show : Z -> str) (msg source filename : str) (linen : Z) : str :=
  L "[" ++ filename ++ L ":" ++ show linen ++ L "] " ++ msg ++ [c_nl] ++ source_snippet source linen.
