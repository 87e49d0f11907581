(** * Extraction of messages

    Model of [kajiki/i18n.py].  No proofs here.  Babel's own extractor, which reads the expressions of
    the template when the option [extract_python] is set, is a parameter. *)

From Coq Require Import Ascii String List NArith ZArith Bool.
From Verif Require Import PyStr M_IR M_Text M_XText M_Dom M_Doctype M_XCompile.
Import ListNotations.
Open Scope list_scope.

(** i18n.py:36-39 on the nodes that iterating over a node yields (ir.py [__iter__]): [optimize] never
    touches a [TranslatableTextNode] (ir.py:435). Each message with its line number. *)
Fixpoint node_messages (n : node) : list (nat * str) :=
  let all := fix go (l : list node) : list (nat * str) :=
               match l with [] => [] | m :: l' => node_messages m ++ go l' end in
  match n with
  | NTrans ln t _ => match strip t with [] => [] | _ => [(ln, t)] end
  | NDef _ _ _ b | NCall _ _ _ b | NFor _ _ b | NWith _ _ b | NSwitch _ _ b | NCase _ _ b | NIf _ _ b | NElse _ b => all b
  | NAttr _ _ v _ _ _ _ _ => all v
  | _ => []
  end.
(** i18n.py:36: the module-level code of a template is Python only. *)
Definition messages (t : template) : list (nat * str) := flat_map node_messages (defs t).

(** i18n.py:33: the default is [xml], whatever the doctype; an empty option says nothing (xml_template.py:89-95). *)
Definition extraction_mode (mode : option str) (dtd : str) : str :=
  rendering_mode (Some (match mode with Some m => m | None => L "xml" end)) dtd.
(** i18n.py:15-44 [extract] on the text of the file.  The compiler is called without [autoblocks]
    and with the default [cdata_scripts]; the mode is an option, not guessed from the doctype. *)
Definition extract (expat : str -> result (list event)) (compile : str -> compiled) (helper : nat -> str)
    (mode : option str) (is_fragment strip_text : bool) (source : str) : result (list (nat * str)) :=
  let (dtd, source) := parser_source source in
  rbind (expat source) (fun events =>
  rbind (build events) (fun nodes =>
  rmap messages
    (compile_document compile helper [] true (extraction_mode mode dtd) is_fragment
       (transform strip_text (Document dtd nodes))))).

(** ** The option [extract_python] *)

(** What Babel yields for each message: the line number, the name of the function called, its argument
    (or its arguments, [None] for what is no string) and the comments of translators. *)
Inductive babel_message : Type := One (s : str) | Several (l : list (option str)).
Definition found : Type := (str * babel_message * list str)%type.
Record entry := Entry { e_line : nat; e_found : found }.
(** [extract_python] on the text of an expression: what it yields (its own line numbers are not used), and its
    exception, if it ends with one. *)
Definition babel : Type := str -> list found * option string.

(** i18n.py:36-46: the nodes that matter, in the order of iteration. *)
Inductive step : Type := StText (t : str) | StExpr (e : str).
Fixpoint node_steps (n : node) : list (nat * step) :=
  let all := fix go (l : list node) : list (nat * step) :=
               match l with [] => [] | m :: l' => node_steps m ++ go l' end in
  match n with
  | NTrans ln t _ => [(ln, StText t)]
  | NExpr ln e _ => [(ln, StExpr e)]
  | NDef _ _ _ b | NCall _ _ _ b | NFor _ _ b | NWith _ _ b | NSwitch _ _ b | NCase _ _ b | NIf _ _ b | NElse _ b => all b
  | NAttr _ _ v _ _ _ _ _ => all v
  | _ => []
  end.
Definition steps (t : template) : list (nat * step) := flat_map node_steps (defs t).

(** i18n.py:45-46: [TokenError] and [SyntaxError] (with its subclasses) become an error of the template,
    other exceptions go through. *)
Inductive failure : Type := Refused (line : nat) | Passed (e : string).
Definition syntax_errors : list string := ["TokenError"; "SyntaxError"; "IndentationError"; "TabError"]%string.
Definition failed (ln : nat) (e : string) : failure :=
  if existsb (String.eqb e) syntax_errors then Refused ln else Passed e.
(** i18n.py:36-46: what the generator yields, and how it ends. [b] is [None] when the option is not set, or
    Babel not installed (20-25). *)
Fixpoint yields (b : option babel) (l : list (nat * step)) : list entry * option failure :=
  match l with
  | [] => ([], None)
  | (ln, StText t) :: l' =>
      let r := yields b l' in
      (match strip t with [] => fst r | _ => Entry ln (L "_", One t, []) :: fst r end, snd r)
  | (ln, StExpr e) :: l' =>
      match b with
      | None => yields b l'
      | Some extract_python =>
          let (fs, err) := extract_python e in
          match err with
          | None => let r := yields b l' in (map (Entry ln) fs ++ fst r, snd r)
          | Some x => (map (Entry ln) fs, Some (failed ln x))
          end
      end
  end.
(** i18n.py:15-46 [extract], whole. *)
Definition extract_entries (expat : str -> result (list event)) (compile : str -> compiled) (helper : nat -> str) (b : option babel)
    (mode : option str) (is_fragment strip_text : bool) (source : str) : result (list entry * option failure) :=
  let (dtd, source) := parser_source source in
  rbind (expat source) (fun events =>
  rbind (build events) (fun nodes =>
  rmap (fun t => yields b (steps t))
    (compile_document compile helper [] true (extraction_mode mode dtd) is_fragment
       (transform strip_text (Document dtd nodes))))).
