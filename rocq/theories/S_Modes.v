(** * Specification: what the rendering mode does not change *)

From Coq Require Import Ascii String List NArith ZArith Bool.
From Verif Require Import PyStr M_Values S_Values M_IR M_Exec S_Exec M_Text M_XText M_Dom S_Entities S_XDoc S_Markup S_Nested.
Import ListNotations.
Open Scope list_scope.

(** In HTML a boolean attribute stands without a value ([checked]), in XML with one ([checked="checked"]);
    that it is there is all it says. *)
Definition boolean_attr (k : str) : Prop :=
  In k [L "checked"; L "disabled"; L "readonly"; L "multiple"; L "selected"; L "nohref"; L "ismap"; L "declare"; L "defer"].
Inductive same_attr : str * option str -> str * option str -> Prop :=
| sa_same : forall a, same_attr a a
| sa_boolean : forall k v v', boolean_attr k -> same_attr (k, v) (k, v').
Inductive same_item : item -> item -> Prop :=
| si_start : forall tag a b, Forall2 same_attr a b -> same_item (I_start tag a) (I_start tag b)
| si_same : forall i, same_item i i.

(** Values that are shown as the same thing in XML and in HTML: texts, or markup that reads the same. *)
Definition even (v : M_Values.value) : Prop :=
  exists is, written false is (render [escape v]) /\ written true is (render [escape v]).
Definition even_env (e : env) : Prop := Forall (fun kv => even (snd kv)) e.
(** From such values expressions make such values; the rest as in [gentle]. *)
Record evenly (py : python) : Prop := Evenly {
  en_expr : forall e x v, even_env e -> ev py e x = Ok v -> even v;
  en_for : forall e x rounds, even_env e -> ev_for py e x = Ok rounds -> Forall even_env rounds;
  en_trans : forall t v, written_text v t -> exists v', written_text v' (render [trans py t]);
  en_attrs : forall e x attrs, even_env e -> ev_attrs py e x = Ok attrs ->
    Forall (fun kv => legal_name (fst kv) /\ (snd kv = VNone \/ S_Values.plain (snd kv))) attrs }.

(** Documents without script and style elements and CDATA sections, with empty void elements, legal names and
    steady conditions in [py:strip]. *)
Inductive modeless (py : python) : dnode -> Prop :=
| md_text : forall ln t e, modeless py (DText ln (xml_text t) e)
| md_comment : forall ln t, ~ has (L "--") t -> modeless py (DComment ln t)
| md_directive : forall ln tag a cs, prefixb (L "py:") tag = true -> Forall (modeless py) cs -> modeless py (DElem ln tag a cs)
| md_elem : forall ln tag a cs, prefixb (L "py:") tag = false ->
    legal_name tag -> prefixb (L "!") tag = false -> ~ script_or_style tag ->
    legal_attrs a -> (S_Markup.void tag -> cs = [] /\ no_content_attr a) -> (forall g, tag_condition a g -> steady py g) ->
    Forall (modeless py) cs -> modeless py (DElem ln tag a cs).
