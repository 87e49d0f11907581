(** * Specification: messages of a template *)

From Coq Require Import Ascii String List NArith ZArith Bool.
From Verif Require Import PyStr M_IR M_Exec M_Text M_XText M_Entities M_Dom M_I18n S_XDoc S_XFun.
Import ListNotations.
Open Scope list_scope.

(** The calls of [gettext] in the generated Python, with the line numbers of the lines they are on. *)
Fixpoint gettext_calls (l : list pyline) : list (nat * str) :=
  match l with
  | [] => []
  | PyLine _ ln (PGettext _ m) :: l' => (ln, m) :: gettext_calls l'
  | _ :: l' => gettext_calls l'
  end.

(** The same Python with another [gettext]. *)
Definition with_gettext (py : python) (f : str -> M_Values.value) : python :=
  Python (ev py) (ev_bool py) (ev_for py) (ev_attrs py) (unpack py) (veq py) f.

(** ** In the document

    The messages of an expanded document: the texts between expressions that are not blank, wherever
    texts are shown, except directly in script and style elements. *)
Section Messages.
Variable compile : str -> compiled.
Variable autoblocks : list str.
Variable cdata_scripts : bool.

Definition not_blank (t : str) : Prop := exists c, In c t /\ is_space c = false.
(** A text under [parent]: its pieces are those of C36. *)
Definition text_message (parent : str) (ln : nat) (data : str) (x : nat * str) : Prop :=
  ~ script_or_style parent /\ not_blank (snd x) /\
  exists ps, pieces compile data ln = Ok ps /\ In (XText (fst x) (snd x)) ps.

Inductive message_in (parent : str) : dnode -> nat * str -> Prop :=
| mi_text : forall ln data e x, text_message parent ln data x -> message_in parent (DText ln data e) x
| mi_mark : forall ln data x, text_message parent ln data x -> message_in parent (DMark ln data) x
| mi_elem : forall ln tag a cs r c x, role_of autoblocks cdata_scripts tag a r -> r <> Leaf -> In c cs ->
    (* the marks of CDATA sections are shown as they are in elements, but not in directives and blocks *)
    (is_mark c -> plain_tag tag -> autoblock autoblocks tag a) ->
    message_in tag c x -> message_in parent (DElem ln tag a cs) x.

(** The expressions of an expanded document that are shown: in texts, in values of attributes, in
    [py:content] and [py:replace]; with [calls], also the calls of blocks, which the compiler adds. *)
Definition text_expression (ln : nat) (data : str) (x : nat * str) : Prop :=
  exists ps, pieces compile data ln = Ok ps /\ In (XExpr (fst x) (snd x)) ps.
Inductive expression_in (calls : bool) : dnode -> nat * str -> Prop :=
| ei_text : forall ln data e x, text_expression ln data x -> expression_in calls (DText ln data e) x
| ei_mark : forall ln data x, text_expression ln data x -> expression_in calls (DMark ln data) x
| ei_child : forall ln tag a cs r c x, role_of autoblocks cdata_scripts tag a r -> r <> Leaf -> In c cs ->
    (is_mark c -> plain_tag tag -> autoblock autoblocks tag a) ->
    expression_in calls c x -> expression_in calls (DElem ln tag a cs) x
| ei_attr : forall ln tag a cs k v x, ~ autoblock autoblocks tag a -> plain_tag tag -> In (k, v) a ->
    ~ special_attr k -> ~ (k = L "py:autoblock" /\ In tag autoblocks) ->
    text_expression ln v x -> expression_in calls (DElem ln tag a cs) x
| ei_content : forall ln tag a cs e, ~ autoblock autoblocks tag a -> plain_tag tag -> get_attr (L "py:content") a = e -> e <> [] ->
    expression_in calls (DElem ln tag a cs) (ln, e)
| ei_replace : forall ln tag a cs, ~ autoblock autoblocks tag a -> directive tag (L "replace") ->
    expression_in calls (DElem ln tag a cs) (ln, get_attr (L "value") a)
(* in scripts and styles that are treated apart, character references are replaced first *)
| ei_script : forall ln tag a cs ln' t x, ~ autoblock autoblocks tag a -> plain_tag tag -> get_attr (L "py:content") a = [] ->
    cdata_scripts = true -> script_or_style tag -> In (DText ln' t false) cs -> text_expression ln' t x ->
    expression_in calls (DElem ln tag a cs) x
| ei_escaped : forall ln tag a cs ln' t l e e', ~ autoblock autoblocks tag a -> plain_tag tag -> get_attr (L "py:content") a = [] ->
    cdata_scripts = true -> script_or_style tag -> In (DText ln' t true) cs -> text_expression ln' t (l, e) -> unescape e = Ok e' ->
    expression_in calls (DElem ln tag a cs) (l, e')
| ei_call : forall ln tag a cs name, calls = true -> role_of autoblocks cdata_scripts tag a (Block name) ->
    expression_in calls (DElem ln tag a cs) (ln, L "_kj_block_" ++ name ++ L "()").

(** What is to be reported when Babel reads the expressions: the messages of the texts and what Babel finds in
    each expression, with the line number of the expression in the document. *)
Inductive reported (b : babel) (calls : bool) (root : dnode) : entry -> Prop :=
| rp_message : forall ln m, message_in [] root (ln, m) -> reported b calls root (Entry ln (L "_", One m, []))
| rp_found : forall ln e f, expression_in calls root (ln, e) -> In f (fst (b e)) -> reported b calls root (Entry ln f).
End Messages.
(** Errors of Babel on an expression. *)
Definition syntax_error (x : string) : Prop :=
  (x = "SyntaxError" \/ x = "IndentationError" \/ x = "TabError" \/ x = "TokenError")%string.
