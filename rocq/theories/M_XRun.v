(** * Model: from the source of an XML template to a file of the loader

    kajiki/xml_template.py:30-57 [XMLTemplate], kajiki/template.py:301-335 [from_ir]. *)

From Coq Require Import Ascii String List NArith ZArith Bool.
From Verif Require Import PyStr M_Values M_IR M_Template M_Text M_XText M_Entities M_Doctype M_Dom M_XCompile M_Run.
Import ListNotations.
Open Scope list_scope.

(** The arguments of [XMLTemplate] (the file name and the encoding, which only concern messages and
    decoding, left out), and the names that the compiler draws ([gen_name], ir.py). *)
Record xml_source : Type := XmlSource {
  x_text : str;
  x_mode : option str;
  x_fragment : bool;
  x_autoblocks : list str;
  x_cdata : bool;
  x_strip : bool;
  x_given : list (str * value);            (* base_globals *)
  x_helper : nat -> str }.

(** xml_template.py:50-51: the document, with the directives made elements. *)
Definition xml_document (expat : str -> result (list event)) (x : xml_source) : result document :=
  let (dtd, source) := parser_source (x_text x) in
  rbind (expat source) (fun events =>
  rmap (fun nodes => transform (x_strip x) (Document dtd nodes)) (build events)).
(** xml_template.py:52-56.  [exec_module]: what the code at module level assigns (template.py:323-331). *)
Definition xml_file (expat : str -> result (list event)) (compile : str -> compiled)
    (exec_module : list (list str) -> list (str * value)) (x : xml_source) : result file :=
  rmap (fun t => (t, x_given x, exec_module (map snd (mod_py t))))
    (xml_template expat compile (x_helper x) (x_mode x) (x_fragment x) (x_autoblocks x) (x_cdata x) (x_strip x) (x_text x)).
