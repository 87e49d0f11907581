(** * Model: from the source of a text template to a file of the loader

    kajiki/text.py:53-67 [TextTemplate], kajiki/template.py:301-335 [from_ir]. *)

From Coq Require Import Ascii String List NArith ZArith Bool.
From Verif Require Import PyStr M_Values M_IR M_Template M_Text M_XText M_Entities M_Doctype M_Dom M_XCompile M_Run M_XRun.
Import ListNotations.
Open Scope list_scope.

(** The arguments of [TextTemplate] (the file name and the encoding, which only concern messages and
    decoding, left out), and the names that the compiler draws ([gen_name], ir.py). *)
Record text_source : Type := TextSource {
  t_text : str;
  t_file : bool;                           (* read from a file: then it may be empty (text.py:55-59) *)
  t_autoescape : bool;
  t_helper : nat -> str }.
Definition text_tree (compile : str -> compiled) (shlex_split : str -> result (list str)) (x : text_source) : result template :=
  if t_file x then M_Text.parse (t_autoescape x) shlex_split (t_helper x) (scan compile (t_text x))
  else text_template compile shlex_split (t_helper x) (t_autoescape x) (t_text x).
(** text.py:67, without [base_globals].  [exec_module]: what the code at module level assigns (template.py:323-331). *)
Definition text_file (compile : str -> compiled) (shlex_split : str -> result (list str))
    (exec_module : list (list str) -> list (str * value)) (x : text_source) : result file :=
  rmap (fun t => (t, [], exec_module (map snd (mod_py t)))) (text_tree compile shlex_split x).

(** loader.py:77-125: the files of a loader are of one kind or the other. *)
Inductive any_source : Type :=
| XmlFile (x : xml_source)
| TextFile (x : text_source).
Definition any_file (expat : str -> result (list event)) (compile : str -> compiled) (shlex_split : str -> result (list str))
    (exec_module : list (list str) -> list (str * value)) (x : any_source) : result file :=
  match x with
  | XmlFile x => xml_file expat compile exec_module x
  | TextFile x => text_file compile shlex_split exec_module x
  end.
