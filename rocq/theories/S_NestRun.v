(** * Specification: whole templates whose output is properly nested

    As [S_Nested], for templates with functions, calls, inheritance, inclusion and embedded Python ([S_Run], [S_XRun]). *)

From Coq Require Import Ascii String List NArith ZArith Bool.
From Verif Require Import PyStr M_Values S_Values M_IR M_Template M_Text M_XText M_Doctype M_Dom S_Entities S_XDoc S_XFun M_Run M_XRun S_Run S_XRun S_Markup S_Nested.
Import ListNotations.
Open Scope list_scope.

(** What does as the name says: [literal] and [Markup] show a value as it is; [__main__] shows a whole page. *)
Definition showing_all : list str := [L "literal"; L "Markup"; L "__main__"].
(** Names that are not functions of templates. *)
Definition helper_names : list str := [L "literal"; L "Markup"; L "gettext"; L "_"; L "defined"; L "value_of"].
(** Names that instances bind by themselves. *)
Definition own_names : list str := [L "local"; L "self"; L "child"; L "parent"; L "_"; L "value_of"].

Section Nested.
Variable py : python.
Variable html : bool.
(** Names that are given to functions and templates only, and names that keep the value the context gives them. *)
Variable function_name : str -> Prop.
Variable constant : str -> option M_Values.value.

Notation safe := (safe html).
Definition nested_text (s : str) : Prop := exists is, written html is s.
(** A name that variables may have. *)
Definition free_name (x : str) : Prop := ~ function_name x /\ constant x = None.

(** ** The user's expressions: safe values make safe values *)
Definition safe_result (r : result M_Values.value) : Prop := forall v, r = Ok v -> safe v.
Definition safe_function (f : list (result M_Values.value) -> result M_Values.value) : Prop :=
  forall rs, Forall safe_result rs -> safe_result (f rs).
Definition safe_callee (c : callee) : Prop :=
  match c with ByName f => ~ In f showing_all | ByAttr _ f => f <> L "__main__" end.
Definition safe_arg (a : arg) : Prop :=
  match a with ArgName x => ~ In x showing_all | ArgFun _ f => safe_function f end.
Definition safe_expr (e : expr) : Prop :=
  match e with
  | EName x => ~ In x showing_all
  | EAttr _ k => k <> L "__main__"
  | EFun _ f => safe_function f
  | ECall c args => safe_callee c /\ Forall (fun ka => safe_arg (snd ka)) args
  end.
Definition safe_text (x : str) : Prop := safe_expr (parse py x).
(** Embedded Python: what it yields is shown as it is. *)
Definition safe_pystm (s : pystm) : Prop :=
  match s with
  | PySet x e => free_name x /\ safe_expr e
  | PyRun _ ys f => Forall free_name ys /\
      forall rs out vs, Forall safe_result rs -> f rs = Ok (out, vs) ->
        nested_text (render out) /\ Forall (fun v => match v with Some v => safe v | None => True end) vs
  end.
(** Parameters, and their defaults. *)
Definition safe_decl (d : str) : Prop :=
  constant (fun_name d) = None /\
  forall ks l, bind_params py d ks = Ok l ->
    Forall (fun xa => free_name (fst xa) /\ match snd xa with inl _ => True | inr v => safe v end) l.
(** What a py:call calls is a function of a template: what it returns is shown as it is. *)
Definition calls_template (c : str) : Prop :=
  exists f args, parse py c = ECall f args /\ Forall function_name (callee_names f).

(** ** Templates *)
Fixpoint safe_rstm (s : rstm) : Prop :=
  let all := fix go (l : list rstm) : Prop := match l with [] => True | m :: l' => safe_rstm m /\ go l' end in
  match s with
  | RPass | RText _ _ | RTrans _ _ | RExtend _ => True
  | RExpr x _ => safe_text x
  | RIf _ b els => all b /\ all els
  | RFor d b els => (Forall free_name (fst (parse_for py d)) /\ safe_expr (snd (parse_for py d))) /\ all b /\ all els
  | RWith vars b => Forall (fun kx => free_name (fst kx) /\ safe_text (snd kx)) vars /\ all b
  | RSwitch _ cases els =>
      (fix go (l : list (str * list rstm)) : Prop := match l with [] => True | (_, b) :: l' => all b /\ go l' end) cases /\ all els
  | RAttr _ v _ _ => all v
  | RAttrs x _ _ => safe_text x
  | RDef d b => safe_decl d /\ all b
  | RCall d c b => safe_decl d /\ safe_text c /\ calls_template c /\ all b
  | RImport t a => constant (alias_name t a) = None
  | RInclude t => constant (alias_name t None) = None
  | RPython lines => Forall safe_pystm (python_of py lines)
  end.
Definition safe_reading (r : reading) : Prop :=
  safe_decl (L "__main__()") /\ Forall safe_rstm (r_main r) /\
  Forall (fun db => safe_decl (fst db) /\ Forall safe_rstm (snd db)) (r_functions r).

(** ** Python *)
Record gentle_python : Prop := Gentle {
  gp_iterate : forall v l, safe v -> iterate py v = Ok l -> Forall safe l;
  gp_unpack : forall v l, safe v -> unpack py v = Ok l -> Forall safe l;
  gp_attrs : forall v l, safe v -> attrs_of py v = Ok l ->
    Forall (fun kv => legal_name (fst kv) /\ (snd kv = VNone \/ S_Values.plain (snd kv))) l;
  gp_object : forall v args r, safe v -> Forall (fun kv => safe (snd kv)) args -> call_object py v args = Ok r -> safe r;
  gp_method : forall v k args r, safe v -> Forall (fun kv => safe (snd kv)) args -> call_method py v k args = Ok r -> safe r;
  gp_attr : forall v k r, safe v -> value_attr py v k = Ok r -> safe r;
  gp_builtin : forall k v, builtin_value py k = Some v -> safe v /\ ~ function_name k;
  gp_gettext : forall s, safe (gettext py s);
  gp_trans : forall t v, written_text v t -> exists v', written_text v' (render [gettext py t]) }.

(** A condition that does not change while the template runs. *)
Definition knows (w : world dcode) (p : place) : Prop :=
  forall k v, constant k = Some v -> lookup py w p k = Ok (val v).
Definition steady_run (g : option str) : Prop :=
  match truthy_guard g with
  | Some c => exists b, forall w p b', knows w p -> condition py w p c = Ok b' -> b' = b
  | None => True
  end.

(** ** Texts that are no markup: in scripts and CDATA sections *)
Definition shows_text (x : str) : Prop :=
  (forall c args, parse py x <> ECall c args) /\ forall w p v, knows w p -> evalue py w p x = Ok v -> as_text v.
Definition raw_run (s : rstm) : Prop :=
  match s with
  | RText t _ => fits html t
  | RTrans t _ => fits html t /\ fits html (render [gettext py t])
  | RExpr x false => shows_text x
  | _ => False
  end.

(** ** Documents

    Legal names, steady conditions in [py:strip], no [py:content] in void elements, [py:extends] only
    at the root; [scripts]: whether script and style elements are treated apart.  CDATA sections stand in XML elements
    that are neither directives nor blocks. *)
Variable compile : str -> compiled.
Variable autoblocks : list str.
Variable scripts : bool.
Variable mode : str.
Definition plain_element (tag : str) (a : list (str * str)) : Prop :=
  legal_name tag /\ prefixb (L "!") tag = false /\ ~ (script_or_style tag /\ (scripts = true \/ html = true)) /\
  legal_attrs a /\ (html = true -> void tag -> no_content_attr a) /\ (forall g, tag_condition a g -> steady_run g).
Definition raw_text_run (parent : str) (n : dnode) : Prop :=
  match n with
  | DText ln t _ => forall ss, text_says compile parent ln t ss -> Forall raw_run (map as_rstm ss)
  | _ => False
  end.
(** The content of a script or style element. *)
Definition raw_content_run (tag : str) (a : list (str * str)) (cs : list dnode) : Prop :=
  (html = true -> forall x, value_at (L "py:content") a x -> x <> [] -> shows_text x) /\
  (scripts = true -> (html = false -> mode = L "xml") /\ forall ss, script_says compile tag cs ss -> Forall raw_run (map as_rstm ss)) /\
  (scripts = false -> Forall (raw_text_run tag) cs).
Inductive ordinary_run : dnode -> Prop :=
| or_text : forall ln t e, ordinary_run (DText ln (xml_text t) e)
| or_comment : forall ln t, ~ has (L "--") t -> ordinary_run (DComment ln t)
| or_pi : forall ln t d, ordinary_run (DPi ln t d)
| or_elem : forall ln tag a cs, ~ directive tag (L "extends") -> (plain_tag tag -> plain_element tag a) ->
    Forall ordinary_run cs -> ordinary_run (DElem ln tag a cs)
| or_mixed : forall ln tag a cs, plain_tag tag -> ~ autoblock autoblocks tag a -> plain_element tag a -> html = false ->
    ordinaries_run tag cs -> ordinary_run (DElem ln tag a cs)
| or_raw : forall ln tag a cs, script_or_style tag -> ~ autoblock autoblocks tag a -> scripts = true \/ html = true ->
    legal_attrs a -> absent (L "py:strip") a -> raw_content_run tag a cs -> ordinary_run (DElem ln tag a cs)
(** Nodes and CDATA sections in an element [parent]. *)
with ordinaries_run : str -> list dnode -> Prop :=
| ors_nil : forall parent, ordinaries_run parent []
| ors_node : forall parent n l, ordinary_run n -> ordinaries_run parent l -> ordinaries_run parent (n :: l)
| ors_cdata : forall parent l1 l2 ts l, Forall (raw_text_run parent) ts -> ordinaries_run parent l ->
    ordinaries_run parent (DMark l1 (L "<![CDATA[") :: ts ++ DMark l2 (L "]]>") :: l).
Inductive ordinary_root : dnode -> Prop :=
| ort_plain : forall n, ordinary_run n -> ordinary_root n
| ort_extends : forall ln tag a cs, directive tag (L "extends") -> Forall ordinary_run cs -> ordinary_root (DElem ln tag a cs).
End Nested.

(** ** Sources *)
Section Sources.
Variable expat : str -> result (list event).
Variable compile : str -> compiled.
Variable gen : str -> Prop.
Variable py : python.
Variable html : bool.
Variable function_name : str -> Prop.
Variable constant : str -> option M_Values.value.

(** Objects that are given to templates. *)
Definition safe_objects (l : list (str * M_Values.value)) : Prop :=
  Forall (fun kv => safe html (snd kv) /\ ~ function_name (fst kv) /\ fst kv <> L "gettext") l.
(** [fragment]: the template is included or imported; it has no doctype then and does not extend another. *)
Definition ordinary_source (fragment : bool) (x : xml_source) : Prop :=
  safe_objects (x_given x) /\
  (forall r, xml_says expat compile gen x r -> safe_reading py html function_name constant r) /\
  forall d root, xml_document expat x = Ok d -> filter not_comment (d_children d) = [root] ->
    let mode := rendering_mode (x_mode x) (d_dtd d) in
    (html = true <-> is_html mode) /\
    (if fragment then x_fragment x = true /\ ordinary_run py html constant compile (x_autoblocks x) (x_cdata x) mode root
     else ordinary_root py html constant compile (x_autoblocks x) (x_cdata x) mode root).
(** What names stand for: functions are not what instances bind to other things; constants have the value that the
    context gives them, and nothing else binds them. *)
Definition fixed_names (context : list (str * M_Values.value)) : Prop :=
  (forall k, function_name k -> ~ In k helper_names) /\
  (forall k v, constant k = Some v -> ~ In k own_names /\ get k context = Some v).
End Sources.
