(** * Document type declarations

    Model of [kajiki/doctype.py], of the doctype part of [_Parser.__init__] and of the
    choice of the rendering mode in [_Compiler.__init__] ([kajiki/xml_template.py]). *)

From Coq Require Import Ascii String List NArith Bool.
From Verif Require Import PyStr Regex.
Import ListNotations.
Open Scope list_scope.

(** doctype.py:37-48 the fields of a [DocumentTypeDeclaration]; an empty or missing
    part is the empty string ([dtd_uri_key] below keeps the difference between an empty
    and a missing URI). *)
Record dtd := Dtd { dtd_name : str; dtd_fpi : str; dtd_uri : option str;
                    dtd_mode : str; dtd_root : str; dtd_kind : str }.

(** doctype.py:50-61 [__str__]. *)
Definition dtd_str (d : dtd) : str :=
  let quoted s := [c_dq] ++ s ++ [c_dq] in
  let opt s := match s with [] => [] | _ => [s] end in
  let optq s := match s with [] => [] | _ => [quoted s] end in
  join [c_sp]
    ([L "<!DOCTYPE"; dtd_root d] ++ opt (dtd_kind d) ++ optq (dtd_fpi d)
     ++ optq (match dtd_uri d with Some u => u | None => [] end))
  ++ [c_gt].

(** doctype.py:65-66: the pattern text. *)
Definition dtd_pattern (d : dtd) : str :=
  replace (L "]") (L "\]")
    (replace (L "[") (L "\[")
       (replace (L ".") (L "\.")
          (replace (L " ") (L "\s+") (dtd_str d)))).

(** The part of the syntax of [re] that these patterns use: literal characters,
    a backslash escape of a punctuation character, the class [\s], and [+].  Anything
    else is [None]. *)
Inductive class := CLit (c : char) | CSpace.
Definition atom : Type := (class * bool)%type.      (* class, followed by + *)

Definition special (c : char) : bool := cmem c (L "\.^$*+?{}[]|()").

Fixpoint parse_pattern (p : str) : option (list atom) :=
  let add a rest := match rest with
                    | q :: rest' => if N.eqb q c_plus
                                    then option_map (cons (a, true)) (parse_pattern rest')
                                    else option_map (cons (a, false)) (parse_pattern rest)
                    | [] => Some [(a, false)]
                    end in
  match p with
  | [] => Some []
  | c :: p' =>
      if N.eqb c c_bsl then
        match p' with
        | e :: p'' => if N.eqb e 115%N then add CSpace p''
                      else if special e then add (CLit e) p''
                      else None
        | [] => None
        end
      else if special c then None
      else add (CLit c) p'
  end.

(** Compiled with re.IGNORECASE. *)
Definition class_pred (a : class) : char -> bool :=
  match a with CLit c => ci c | CSpace => is_space end.
Fixpoint re_of_atoms (l : list atom) : re :=
  match l with
  | [] => REmp
  | (a, plus) :: l' =>
      RSeq (if plus then RRep 1 None (class_pred a) else RChr (class_pred a)) (re_of_atoms l')
  end.

(** doctype.py:63-66 [regex]. *)
Definition dtd_regex (d : dtd) : option re := option_map re_of_atoms (parse_pattern (dtd_pattern d)).

(** doctype.py:37-38 default values. *)
Definition xhtml (name fpi uri : string) : dtd :=
  Dtd (L name) (L fpi) (Some (L uri)) (L "xml") (L "html") (L "PUBLIC").
Definition html4 (name fpi uri : string) : dtd :=
  Dtd (L name) (L fpi) (Some (L uri)) (L "html") (L "html") (L "PUBLIC").

(** doctype.py:85-121. *)
Definition dtd_html5 : dtd := Dtd (L "html5") [] (Some []) (L "html5") (L "html") [].
Definition dtd_xhtml5 : dtd := Dtd (L "xhtml5") [] None (L "xml") (L "html") [].
Definition dtd_xhtml1rdfa : dtd :=
  xhtml "xhtml1rdfa" "-//W3C//DTD XHTML+RDFa 1.0//EN" "http://www.w3.org/MarkUp/DTD/xhtml-rdfa-1.dtd".
Definition public_dtds : list dtd :=
  [ dtd_html5;
    dtd_xhtml5;
    xhtml "xhtml1transitional" "-//W3C//DTD XHTML 1.0 Transitional//EN"
      "http://www.w3.org/TR/xhtml1/DTD/xhtml1-transitional.dtd";
    xhtml "xhtml1strict" "-//W3C//DTD XHTML 1.0 Strict//EN"
      "http://www.w3.org/TR/xhtml1/DTD/xhtml1-strict.dtd";
    dtd_xhtml1rdfa;
    xhtml "xhtml11" "-//W3C//DTD XHTML 1.1//EN" "http://www.w3.org/TR/xhtml11/DTD/xhtml11.dtd";
    xhtml "xhtml1frameset" "-//W3C//DTD XHTML 1.0 Frameset//EN"
      "http://www.w3.org/TR/xhtml1/DTD/xhtml1-frameset.dtd";
    xhtml "xhtmlbasic11" "-//W3C//DTD XHTML Basic 1.1//EN"
      "http://www.w3.org/TR/xhtml-basic/xhtml-basic11.dtd";
    xhtml "xhtmlmobile12" "-//WAPFORUM//DTD XHTML Mobile 1.2//EN"
      "http://www.openmobilealliance.org/tech/DTD/xhtml-mobile12.dtd";
    html4 "html4transitional" "-//W3C//DTD HTML 4.01 Transitional//EN"
      "http://www.w3.org/TR/html4/loose.dtd";
    html4 "html4strict" "-//W3C//DTD HTML 4.01//EN" "http://www.w3.org/TR/html4/strict.dtd";
    html4 "html4frameset" "-//W3C//DTD HTML 4.01 Frameset//EN"
      "http://www.w3.org/TR/html4/frameset.dtd" ].

(** doctype.py:122 [by_uri[dtd.uri] = dtd]: a dict keeps the place of an existing key. *)
Definition uri_eqb (a b : option str) : bool :=
  match a, b with
  | None, None => true
  | Some x, Some y => seqb x y
  | _, _ => false
  end.
Fixpoint register (l : list dtd) (d : dtd) : list dtd :=
  match l with
  | [] => [d]
  | x :: l' => if uri_eqb (dtd_uri x) (dtd_uri d) then d :: l' else x :: register l' d
  end.
Definition by_uri : list dtd := fold_left register public_dtds [].

(** doctype.py:70-79 [matching]: first registered DTD whose pattern matches at
    the start of the string. *)
Definition dtd_matches (s : str) (d : dtd) : bool :=
  match dtd_regex d with
  | Some r => match match_at r None s with Some _ => true | None => false end
  | None => false
  end.
Definition matching (dtd_string : str) : option dtd := List.find (dtd_matches dtd_string) by_uri.

(** doctype.py:81 [REGEX]. *)
Definition dtd_re : re :=
  RSeq (rlit (L "<!DOCTYPE")) (RSeq (RRep 1 None (fun c => negb (N.eqb c c_gt))) (RChr (N.eqb c_gt))).

(** doctype.py:125-152 [extract_dtd]. *)
Definition extract_dtd (markup : str) : str * nat * str :=
  match search dtd_re markup with
  | None => ([], 0, markup)
  | Some m => let found := slice (mstart m) (mend m) markup in
              (found, mstart m, replace1 found [] markup)
  end.

(** xml_template.py:582 [_Parser.DTD]. *)
Definition parser_dtd : str := L "<!DOCTYPE kajiki SYSTEM ""kajiki.dtd"">".

(** xml_template.py:604-606: the doctype stored in the document, and the source given
    to the XML parser. *)
Definition parser_source (source : str) : str * str :=
  let '(d, position, rest) := extract_dtd source in
  (d, firstn position rest ++ parser_dtd ++ skipn position rest).

(** xml_template.py:89-95: the rendering mode; [mode] is the argument, [None] or empty
    when not given. *)
Definition rendering_mode (mode : option str) (doc_dtd : str) : str :=
  match mode with
  | Some (c :: m) => c :: m
  | _ => match matching doc_dtd with
         | Some d => dtd_mode d
         | None => L "xml"
         end
  end.
