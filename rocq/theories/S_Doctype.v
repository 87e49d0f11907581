(** * Specification of document type declarations *)

From Coq Require Import Ascii String List NArith Bool.
From Verif Require Import PyStr.
Import ListNotations.
Open Scope list_scope.

(** A doctype declaration: the opening, at least one character other than the
    closing bracket, the closing bracket. *)
Definition is_doctype (t : str) : Prop :=
  exists body, t = L "<!DOCTYPE" ++ body ++ [c_gt] /\ body <> [] /\ ~ In c_gt body.

(** The doctype that names the entities of HTML to the XML parser. *)
Definition entity_doctype : str := L "<!DOCTYPE kajiki SYSTEM ""kajiki.dtd"">".

(** No doctype declaration occurs in a text. *)
Definition no_doctype (s : str) : Prop :=
  forall a t b, s = a ++ t ++ b -> ~ is_doctype t.

(** [rewritten eqc s t]: [t] is [s] where each space became some non-empty run of white
    space and each other character a character that is the same up to [eqc]. *)
Inductive rewritten (eqc : char -> char -> Prop) : str -> str -> Prop :=
| rw_end : rewritten eqc [] []
| rw_char : forall x y s t, x <> c_sp -> eqc x y -> rewritten eqc s t ->
    rewritten eqc (x :: s) (y :: t)
| rw_space : forall run s t, run <> [] -> forallb is_space run = true -> rewritten eqc s t ->
    rewritten eqc (c_sp :: s) (run ++ t).

(** Same letter in any ASCII case. *)
Definition same_letter (x y : char) : Prop := lower_c x = lower_c y.

(** Same letter for a case-insensitive pattern of Python's [re]: as before, and the
    dotted and dotless i count as i, the long s as s and the Kelvin sign as k. *)
Definition same_letter_re (x y : char) : Prop :=
  lower_c x = lower_c y \/
  (lower_c x = 105%N /\ (y = 304%N \/ y = 305%N)) \/
  (lower_c x = 115%N /\ y = 383%N) \/
  (lower_c x = 107%N /\ y = 8490%N).

(** The doctypes of the HTML and XHTML recommendations, with the way such documents are
    written. *)
Definition standard_doctypes : list (str * str) :=
  let public fpi uri mode := (L "<!DOCTYPE html PUBLIC """ ++ L fpi ++ L """ """ ++ L uri ++ L """>", L mode) in
  [ (L "<!DOCTYPE html>", L "html5");
    public "-//W3C//DTD HTML 4.01//EN" "http://www.w3.org/TR/html4/strict.dtd" "html";
    public "-//W3C//DTD HTML 4.01 Transitional//EN" "http://www.w3.org/TR/html4/loose.dtd" "html";
    public "-//W3C//DTD HTML 4.01 Frameset//EN" "http://www.w3.org/TR/html4/frameset.dtd" "html";
    public "-//W3C//DTD XHTML 1.0 Strict//EN" "http://www.w3.org/TR/xhtml1/DTD/xhtml1-strict.dtd" "xml";
    public "-//W3C//DTD XHTML 1.0 Transitional//EN" "http://www.w3.org/TR/xhtml1/DTD/xhtml1-transitional.dtd" "xml";
    public "-//W3C//DTD XHTML 1.0 Frameset//EN" "http://www.w3.org/TR/xhtml1/DTD/xhtml1-frameset.dtd" "xml";
    public "-//W3C//DTD XHTML 1.1//EN" "http://www.w3.org/TR/xhtml11/DTD/xhtml11.dtd" "xml";
    public "-//W3C//DTD XHTML Basic 1.1//EN" "http://www.w3.org/TR/xhtml-basic/xhtml-basic11.dtd" "xml";
    public "-//WAPFORUM//DTD XHTML Mobile 1.2//EN" "http://www.openmobilealliance.org/tech/DTD/xhtml-mobile12.dtd" "xml" ]%string.

(** Line number (from 1) of a position of a source, as the XML parser counts: newline
    characters before it. *)
Definition line_number (s : str) (position : nat) : nat := S (count c_nl (firstn position s)).
