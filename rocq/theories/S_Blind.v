(** * Specification: what values cannot change *)

From Coq Require Import Ascii String List NArith ZArith Bool.
From Verif Require Import PyStr M_Values S_Values M_IR M_Exec S_Exec M_Text M_XText M_Dom S_Entities S_XDoc S_Markup S_Nested.
Import ListNotations.
Open Scope list_scope.

(** The structure of a page: its tags with the names of their attributes, and its comments; neither texts nor
    the values of attributes. *)
Inductive part : Type :=
| Start (tag : str) (names : list str)
| End_ (tag : str)
| Comment (t : str).
Definition structure_of (is : list item) : list part :=
  flat_map (fun i => match i with
                     | I_start tag a => [Start tag (map fst a)]
                     | I_end tag => [End_ tag]
                     | I_comment t => [Comment t]
                     | I_char _ => []
                     end) is.

(** Values that may be put in each other's place: strings, numbers and other objects without markup of their
    own; the truth values, 0 and 1 decide about boolean attributes and only stand for what is equal to them. *)
Definition alike (html : bool) (v v' : M_Values.value) : Prop :=
  (v = v' /\ safe html v) \/ (S_Values.plain v /\ S_Values.plain v' /\ as_bool v = as_bool v').
(** The variables in [free] have such values, the others the same; those in [texts] have values that are shown as text. *)
Definition alike_env (html : bool) (free texts : str -> Prop) (e e' : env) : Prop :=
  Forall2 (fun kv kv' => fst kv = fst kv' /\ alike html (snd kv) (snd kv') /\ (free (fst kv) \/ snd kv = snd kv') /\
                         (texts (fst kv) -> as_text (snd kv) /\ as_text (snd kv'))) e e'.
Definition alike_results {A B} (R : A -> B -> Prop) (r : result A) (r' : result B) : Prop :=
  match r, r' with
  | Ok a, Ok b => R a b
  | Raise x, Raise y => x = y
  | _, _ => False
  end.

(** [deciding]: expressions that decide what is shown, which do not depend on the free variables; loops over
    them run as often, with such values.  Any expression gives such values for such values; the rest as in [gentle]. *)
Record blind (py : python) (html : bool) (free texts deciding : str -> Prop) : Prop := Blind {
  bl_expr : forall e e' x, alike_env html free texts e e' -> alike_results (alike html) (ev py e x) (ev py e' x);
  bl_decide : forall e e' x, deciding x -> alike_env html free texts e e' -> ev py e x = ev py e' x /\ ev_bool py e x = ev_bool py e' x;
  bl_for : forall e e' x, deciding x -> alike_env html free texts e e' ->
    alike_results (Forall2 (alike_env html free texts)) (ev_for py e x) (ev_for py e' x);
  bl_trans : forall t v, written_text v t -> exists v', written_text v' (render [trans py t]);
  bl_attrs : forall e e' x, alike_env html free texts e e' ->
    alike_results (Forall2 (fun kv kv' => fst kv = fst kv' /\ legal_name (fst kv) /\ (snd kv = VNone \/ S_Values.plain (snd kv)) /\ alike html (snd kv) (snd kv')))
      (ev_attrs py e x) (ev_attrs py e' x) }.

(** Documents whose directives are decided by deciding expressions; otherwise as in [ordinary]. *)
Section Settled.
Variable py : python.
Variable html : bool.
Variables free texts deciding : str -> Prop.
Variable compile : str -> compiled.
Variable scripts : bool.
Variable mode : str.

(** Expressions whose values are shown as text. *)
Definition shows_text (x : str) : Prop :=
  forall e e', alike_env html free texts e e' -> (forall v, ev py e x = Ok v -> as_text v) /\ (forall v, ev py e' x = Ok v -> as_text v).
Definition raw_part (s : stm) : Prop :=
  match s with
  | SText t None => fits html t
  | STrans t None => fits html t /\ fits html (render [trans py t])
  | SExpr x false => shows_text x
  | _ => False
  end.
Definition raw_node (parent : str) (n : dnode) : Prop :=
  match n with
  | DText ln t _ => forall ss, text_says compile parent ln t ss -> Forall raw_part ss
  | _ => False
  end.
(** The content of a script or style element. *)
Definition raw_inside (tag : str) (a : list (str * str)) (cs : list dnode) : Prop :=
  (html = true -> forall c, value_at (L "py:content") a c -> c <> [] -> shows_text c) /\
  (scripts = true -> (html = false -> mode = L "xml") /\ forall ss, script_says compile tag cs ss -> Forall raw_part ss) /\
  (scripts = false -> Forall (raw_node tag) cs).

Definition settles (tag : str) (a : list (str * str)) : Prop :=
  (tag = L "py:if" -> deciding (get_attr (L "test") a)) /\
  (tag = L "py:for" -> deciding (get_attr (L "each") a)) /\
  (tag = L "py:switch" -> deciding (get_attr (L "test") a)) /\
  (tag = L "py:case" -> deciding (get_attr (L "value") a)) /\
  (tag = L "py:with" -> forall vars, with_vars (get_attr (L "vars") a) = Ok vars ->
     Forall (fun kx => (free (fst kx) \/ deciding (snd kx)) /\ (texts (fst kx) -> shows_text (snd kx))) vars).
Inductive settled : dnode -> Prop :=
| sd_text : forall ln t e, settled (DText ln (xml_text t) e)
| sd_comment : forall ln t, ~ has (L "--") t -> settled (DComment ln t)
| sd_directive : forall ln tag a cs, prefixb (L "py:") tag = true -> settles tag a -> Forall settled cs -> settled (DElem ln tag a cs)
| sd_elem : forall ln tag a cs, prefixb (L "py:") tag = false ->
    legal_name tag -> prefixb (L "!") tag = false -> ~ (script_or_style tag /\ (scripts = true \/ html = true)) ->
    legal_attrs a -> (html = true -> S_Markup.void tag -> no_content_attr a) -> (forall g, tag_condition a g -> steady py g) ->
    settleds tag cs -> settled (DElem ln tag a cs)
| sd_raw : forall ln tag a cs, script_or_style tag -> scripts = true \/ html = true ->
    legal_attrs a -> absent (L "py:strip") a -> raw_inside tag a cs -> settled (DElem ln tag a cs)
(** The content of an element [parent]. *)
with settleds : str -> list dnode -> Prop :=
| st_nil : forall parent, settleds parent []
| st_node : forall parent n l, settled n -> settleds parent l -> settleds parent (n :: l)
| st_cdata : forall parent l1 l2 ts l, html = false -> Forall (raw_node parent) ts -> settleds parent l ->
    settleds parent (DMark l1 (L "<![CDATA[") :: ts ++ DMark l2 (L "]]>") :: l).
End Settled.
