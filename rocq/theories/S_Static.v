(** * Specification: documents without directives *)

From Coq Require Import Ascii String List NArith ZArith Bool Permutation Sorted.
From Verif Require Import PyStr M_Values S_Values S_XText M_Dom S_Entities S_XDoc S_Markup.
Import ListNotations.
Open Scope list_scope.

(** [plain_text t u]: the text [t] has no reference to an expression, and shows [u]: two dollar signs
    stand for one; a dollar sign before anything but a name, a brace or another one is itself. *)
Inductive plain_text : str -> str -> Prop :=
| pn_nil : plain_text [] []
| pn_char : forall c t u, c <> c_dollar -> plain_text t u -> plain_text (c :: t) (c :: u)
| pn_two : forall t u, plain_text t u -> plain_text (L "$$" ++ t) (L "$" ++ u)
| pn_lone : forall t u, ~ ref_start (L "$" ++ t) -> plain_text t u -> plain_text (L "$" ++ t) (L "$" ++ u).

(** Attributes that HTML writes without a value. *)
Definition bare_in_html (k : str) : Prop :=
  In k [L "checked"; L "disabled"; L "readonly"; L "multiple"; L "selected"; L "nohref"; L "ismap"; L "declare"; L "defer"].

(** How they are written: attributes between double quotes, elements without content in the short form of XML, or as HTML asks
    for. *)
Definition value_text (v : str) : str :=
  flat_map (fun c => if N.eqb c c_amp then L "&amp;" else if N.eqb c c_lt then L "&lt;" else if N.eqb c c_gt then L "&gt;"
                     else if N.eqb c c_dq then L "&quot;" else [c]) v.
Definition attr_text (kv : str * option str) : str :=
  match snd kv with Some v => L " " ++ fst kv ++ L "=""" ++ value_text v ++ L """" | None => L " " ++ fst kv end.
Definition attrs_text (a : list (str * option str)) : str := concat (map attr_text a).
Definition element_text (html : bool) (tag : str) (a : list (str * option str)) (empty : bool) (body : str) : str :=
  L "<" ++ tag ++ attrs_text a ++
  (if empty && html && voidb tag then L ">"
   else if empty && negb html && negb (seqb tag (L "script")) then L "/>"
   else L ">" ++ body ++ L "</" ++ tag ++ L ">").
Definition is_nil {A} (l : list A) : bool := match l with [] => true | _ => false end.

Section Static.
Variable autoblocks : list str.
Variable scripts : bool.         (* script and style elements are treated apart *)
Variable html : bool.            (* shown as HTML *)
Variable strips : bool.          (* the option [strip_text] *)
Variable joined : bool.          (* texts that follow each other are read as one *)

Definition static_tag (tag : str) : Prop :=
  legal_name tag /\ prefixb (L "!") tag = false /\ prefixb (L "py:") tag = false /\ ~ In tag autoblocks.
(** The only blanks in the value of an attribute are spaces. *)
Inductive static_attr : str * str -> str * option str -> Prop :=
| sa_value : forall k v w, legal_name k -> prefixb (L "py:") k = false -> ~ (html = true /\ bare_in_html k) -> plain_text v w ->
    ~ In 9%N v -> ~ In 10%N v -> ~ In 13%N v -> static_attr (k, v) (k, Some w)
| sa_bare : forall k v w, legal_name k -> html = true -> bare_in_html k -> plain_text v w -> static_attr (k, v) (k, None).
(** Elements that are shown without content, whatever is in them, or whose content is not markup. *)
Definition no_content (tag : str) : Prop := html = true /\ S_Markup.void tag \/ (scripts = true \/ html = true) /\ script_or_style tag.

(** A text, and texts that follow each other. *)
Definition shown_text (t u : str) : Prop := ~ In 13%N t /\ plain_text (if strips then strip t else t) u.
Definition shown_texts (ts : list str) (u : str) : Prop :=
  if joined then shown_text (concat ts) u else exists us, Forall2 shown_text ts us /\ u = concat us.

Inductive text_event : event -> str -> Prop :=
| te_chars : forall ln t, text_event (EChars ln t) t
| te_entity : forall ln name t, stands_for (name ++ [c_semi]) t -> text_event (ESkipped ln name) t.
Definition no_text_first (es : list event) : Prop :=
  match es with EChars _ _ :: _ | ESkipped _ _ :: _ => False | _ => True end.

(** [document_says es is s]: the events [es] of the XML parser for (a part of) a document without
    directives say [is]: its elements with their attributes in alphabetical order, its characters,
    its comments with a blank at both ends; written as [s].  Comments that begin with [!] are not shown.
    HTML has no CDATA sections. *)
Inductive document_says : list event -> list item -> str -> Prop :=
| ds_nil : document_says [] [] []
| ds_elem : forall ln ln' tag a sorted shown inner is s es is' s',
    static_tag tag -> NoDup (map fst a) -> Permutation a sorted -> StronglySorted by_name sorted -> Forall2 static_attr sorted shown ->
    (no_content tag -> inner = []) -> document_says inner is s -> document_says es is' s' ->
    document_says (EStart ln tag a :: inner ++ EEnd ln' tag :: es)
      (I_start tag shown :: is ++ I_end tag :: is') (element_text html tag shown (is_nil inner) s ++ s')
| ds_text : forall run ts u es is s, run <> [] -> Forall2 text_event run ts -> no_text_first es -> shown_texts ts u ->
    document_says es is s -> document_says (run ++ es) (map I_char u ++ is) (xml_text u ++ s)
| ds_cdata : forall ln ln' texts u es is s, html = false -> shown_texts (map snd texts) u -> ~ has (L "]]>") u ->
    document_says es is s ->
    document_says (EStartCDATA ln :: map (fun x => EChars (fst x) (snd x)) texts ++ EEndCDATA ln' :: es)
      (map I_char u ++ is) (L "<![CDATA[" ++ u ++ L "]]>" ++ s)
| ds_comment : forall ln t es is s, prefixb (L "!") t = false -> ~ has (L "--") t -> ~ In 13%N t -> document_says es is s ->
    document_says (EComment ln t :: es) (I_comment (L " " ++ t ++ L " ") :: is) (L "<!-- " ++ t ++ L " -->" ++ s)
| ds_hidden : forall ln t es is s, prefixb (L "!") t = true -> document_says es is s ->
    document_says (EComment ln t :: es) is s.
End Static.

Definition comment_event (e : event) : Prop := match e with EComment _ _ => True | _ => False end.
(** A whole document: one element, with comments around it that are not shown.  After a comment
    before the element texts are not joined. *)
Inductive static_document (autoblocks : list str) (scripts html strips : bool) : list event -> list item -> str -> Prop :=
| sd_document : forall pre post ln ln' tag a sorted shown inner is s,
    Forall comment_event pre -> Forall comment_event post ->
    static_tag autoblocks tag -> NoDup (map fst a) -> Permutation a sorted -> StronglySorted by_name sorted ->
    Forall2 (static_attr html) sorted shown -> (no_content scripts html tag -> inner = []) ->
    document_says autoblocks scripts html strips (match pre with [] => true | _ => false end) inner is s ->
    static_document autoblocks scripts html strips (pre ++ EStart ln tag a :: inner ++ EEnd ln' tag :: post)
      (I_start tag shown :: is ++ [I_end tag]) (element_text html tag shown (is_nil inner) s).
