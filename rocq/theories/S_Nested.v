(** * Specification: documents and values whose output is properly nested *)

From Coq Require Import Ascii String List NArith ZArith Bool.
From Verif Require Import PyStr M_Values S_Values M_IR M_Exec S_Exec M_Text M_XText M_Dom S_Entities S_XDoc S_Markup.
Import ListNotations.
Open Scope list_scope.

(** Values that are shown as text, or as markup that is itself properly nested (see [C43_plain]). *)
Definition safe (html : bool) (v : M_Values.value) : Prop := exists is, written html is (render [escape v]).
(** What is shown as text. *)
Definition as_text (v : M_Values.value) : Prop := ~ In c_lt (render [escape v]) /\ ~ In c_gt (render [escape v]).
(** Variables have safe values; those in [texts] have values that are shown as text. *)
Definition safe_env (html : bool) (texts : str -> Prop) (e : env) : Prop :=
  Forall (fun kv => safe html (snd kv) /\ (texts (fst kv) -> as_text (snd kv))) e.

(** From safe variables expressions make safe values; translations of texts are texts; [py:attrs] gives
    attributes with legal names and plain values. *)
Record gentle (py : python) (html : bool) (texts : str -> Prop) : Prop := Gentle {
  gn_expr : forall e x v, safe_env html texts e -> ev py e x = Ok v -> safe html v;
  gn_for : forall e x rounds, safe_env html texts e -> ev_for py e x = Ok rounds -> Forall (safe_env html texts) rounds;
  gn_trans : forall t v, written_text v t -> exists v', written_text v' (render [trans py t]);
  gn_attrs : forall e x attrs, safe_env html texts e -> ev_attrs py e x = Ok attrs ->
    Forall (fun kv => legal_name (fst kv) /\ (snd kv = VNone \/ S_Values.plain (snd kv))) attrs }.

(** A condition that does not change while the template runs. *)
Definition steady (py : python) (g : option str) : Prop :=
  match truthy_guard g with Some c => exists b, forall e, ev_bool py e c = Ok b | None => True end.

(** ** Texts that are no markup

    A text that can stand in a script or style element of HTML: whatever follows it, it contains no end tag
    and starts no comment. *)
Definition no_tags (t : str) : Prop :=
  forall a b, t = a ++ c_lt :: b -> exists c b', b = c :: b' /\ c <> c_slash /\ c <> c_bang.
(** A text that can stand in a CDATA section: whatever stands before it, it does not end the section. *)
Definition no_end (t : str) : Prop :=
  forall a b, t = a ++ c_gt :: b -> exists a' c, a = a' ++ [c] /\ c <> c_rbrack.
Definition fits (html : bool) (t : str) : Prop := if html then no_tags t else no_end t.
Definition raw_stm (py : python) (html : bool) (texts : str -> Prop) (s : stm) : Prop :=
  match s with
  | SText t _ => fits html t
  | STrans t _ => fits html t /\ fits html (render [trans py t])
  | SExpr x false => forall e v, safe_env html texts e -> ev py e x = Ok v -> as_text v
  | _ => False
  end.

(** ** Documents

    With legal names, steady conditions in [py:strip], no [py:content] in void elements; [scripts]: whether script
    and style elements are treated apart.  CDATA sections stand in XML elements that are no directives. *)
Section Ordinary.
Variable py : python.
Variable html : bool.
Variable texts : str -> Prop.
Variable compile : str -> compiled.
Variable scripts : bool.
Variable mode : str.

Definition raw_text (parent : str) (n : dnode) : Prop :=
  match n with
  | DText ln t _ => forall ss, text_says compile parent ln t ss -> Forall (raw_stm py html texts) ss
  | _ => False
  end.
Definition legal_attrs (a : list (str * str)) : Prop := forall k v, In (k, v) a -> ~ special_attr k -> legal_name k.
(** The content of a script or style element. *)
Definition raw_content (tag : str) (a : list (str * str)) (cs : list dnode) : Prop :=
  (html = true -> forall c e v, value_at (L "py:content") a c -> c <> [] -> safe_env html texts e -> ev py e c = Ok v -> as_text v) /\
  (scripts = true -> (html = false -> mode = L "xml") /\ forall ss, script_says compile tag cs ss -> Forall (raw_stm py html texts) ss) /\
  (scripts = false -> Forall (raw_text tag) cs).

(** [py:with] gives them such values. *)
Definition with_texts (a : list (str * str)) : Prop :=
  forall vars, with_vars (get_attr (L "vars") a) = Ok vars ->
  Forall (fun kx => texts (fst kx) -> forall e v, safe_env html texts e -> ev py e (snd kx) = Ok v -> as_text v) vars.

Inductive ordinary : dnode -> Prop :=
| od_text : forall ln t e, ordinary (DText ln (xml_text t) e)
| od_comment : forall ln t, ~ has (L "--") t -> ordinary (DComment ln t)
| od_directive : forall ln tag a cs, prefixb (L "py:") tag = true -> (tag = L "py:with" -> with_texts a) -> Forall ordinary cs -> ordinary (DElem ln tag a cs)
| od_elem : forall ln tag a cs, prefixb (L "py:") tag = false ->
    legal_name tag -> prefixb (L "!") tag = false -> ~ (script_or_style tag /\ (scripts = true \/ html = true)) ->
    legal_attrs a -> (html = true -> void tag -> no_content_attr a) -> (forall g, tag_condition a g -> steady py g) ->
    ordinaries tag cs -> ordinary (DElem ln tag a cs)
| od_raw : forall ln tag a cs, script_or_style tag -> scripts = true \/ html = true ->
    legal_attrs a -> absent (L "py:strip") a -> raw_content tag a cs -> ordinary (DElem ln tag a cs)
(** The content of an element [parent]. *)
with ordinaries : str -> list dnode -> Prop :=
| os_nil : forall parent, ordinaries parent []
| os_node : forall parent n l, ordinary n -> ordinaries parent l -> ordinaries parent (n :: l)
| os_cdata : forall parent l1 l2 ts l, html = false -> Forall (raw_text parent) ts -> ordinaries parent l ->
    ordinaries parent (DMark l1 (L "<![CDATA[") :: ts ++ DMark l2 (L "]]>") :: l).
End Ordinary.
