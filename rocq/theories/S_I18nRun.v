(** * Specification: messages of whole templates

    Which templates ask for the translation of their texts only, and the same Python with other translations. *)

From Coq Require Import Ascii String List NArith ZArith Bool.
From Verif Require Import PyStr M_Values M_IR S_IR M_Text M_XText M_Dom M_XCompile M_Run S_Run M_XRun M_TextRun S_XRun M_I18n S_XFun.
Import ListNotations.
Open Scope list_scope.

(** Python where [gettext] translates as [f] does. *)
Definition retranslated (py : python) (f : str -> value) : python :=
  Python (parse py) (parse_block py) (parse_for py) (truth py) (iterate py) (unpack py) (attrs_of py) (bind_params py) (veq py)
    f (call_object py) (call_method py) (value_attr py) (builtin_value py).

(** The names of the translating function. *)
Definition translator_names : list str := [L "gettext"; L "_"].
Section Quiet.
Variable py : python.
Definition quiet_names (l : list str) : Prop := Forall (fun y => ~ In y translator_names) l.
(** Code that does not mention it. *)
Definition quiet_text (x : str) : Prop := quiet_names (expr_names (parse py x)).
Definition quiet_guard (g : option str) : Prop := match truthy_guard g with Some c => quiet_text c | None => True end.
Definition quiet_python (s : pystm) : Prop := match s with PySet _ e => quiet_names (expr_names e) | PyRun xs _ _ => quiet_names xs end.
Fixpoint quiet_node (n : node) : Prop :=
  let all := fix go (l : list node) : Prop := match l with [] => True | m :: l' => quiet_node m /\ go l' end in
  match n with
  | NText _ _ g | NTrans _ _ g => quiet_guard g
  | NExpr _ x _ => quiet_text x
  | NIf _ c b | NSwitch _ c b | NCase _ c b => quiet_text c /\ all b
  | NFor _ d b => quiet_names (expr_names (snd (parse_for py d))) /\ all b
  | NWith _ vars b => Forall (fun kx => quiet_text (snd kx)) vars /\ all b
  | NElse _ b | NDef _ _ _ b => all b
  | NCall _ _ c b => quiet_text c /\ all b
  | NAttr _ _ v g _ _ _ x => quiet_guard g /\ quiet_text x /\ all v
  | NAttrs _ e g _ x => quiet_guard g /\ quiet_text e /\ quiet_text x
  | NPython _ lines _ => Forall quiet_python (python_of py lines)
  | NPass _ | NImport _ _ _ | NInclude _ _ | NExtend _ _ => True
  end.
Definition quiet_file (x : file) : Prop := Forall quiet_node (defs (fst (fst x))).
End Quiet.

(** ** Sources of templates whose messages are all known to the translators *)
Section Covered.
Variable expat : str -> result (list event).
Variable compile : str -> compiled.
Variable shlex_split : str -> result (list str).
Variable exec_module : list (list str) -> list (str * value).
Variable py : python.
(** No function of the document is declared twice. *)
Definition distinct_functions (x : xml_source) : Prop :=
  forall d root l, xml_document expat x = Ok d -> filter not_comment (d_children d) = [root] ->
    declares (x_autoblocks x) (x_cdata x) false root l -> NoDup (L "__main__()" :: declared_names l).
(** The extractor finds messages in the source on which [f] agrees with the translation of [py], whatever mode it is told. *)
Definition catalogued (f : str -> value) (x : xml_source) : Prop :=
  exists helper mode fragment xs, extract expat compile helper mode fragment (x_strip x) (x_text x) = Ok xs /\
    forall ln m, In (ln, m) xs -> f m = gettext py m.
(** XML templates without the option [autoblocks]; text templates have no messages. *)
Definition covered (f : str -> value) (x : any_source) : Prop :=
  (forall y, any_file expat compile shlex_split exec_module x = Ok y -> quiet_file py y) /\
  match x with
  | XmlFile x => x_autoblocks x = [] /\ x_cdata x = true /\ distinct_functions x /\ catalogued f x
  | TextFile _ => True
  end.
End Covered.
