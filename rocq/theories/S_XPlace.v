(** * Specification: what is wrong with a document

    Which parts of an expanded document are compiled, and what can be wrong with each of them:
    directives in the wrong place, and texts, attributes and code that cannot be read. *)

From Coq Require Import Ascii String List NArith ZArith Bool.
From Verif Require Import PyStr M_IR M_Text M_Entities M_XText S_XText M_Dom M_XCompile S_XDoc S_XFun.
Import ListNotations.
Open Scope list_scope.

(** A node and where it stands: inside of a [py:def]; after a [py:extends]; in which element; after
    which element (empty: none, or something else). *)
Record spot := Spot { s_in_def : bool; s_extends : bool; s_parent : parent_node; s_before : str; s_node : dnode }.

(** The name of the last node. *)
Definition last_name (l : list dnode) : str := match rev l with [] => [] | n :: _ => name_of n end.

Section Place.
Variable compile : str -> compiled.
Variable autoblocks : list str.
Variable cdata_scripts : bool.
Notation Role := (role_of autoblocks cdata_scripts).
Notation Declare := (declares autoblocks cdata_scripts).
Notation DeclareAll := (declare_all autoblocks cdata_scripts).
Notation Auto := (autoblock autoblocks).

(** ** What is compiled: the content of elements, except where something else takes its place. *)
Definition inside (r : role) (i : bool) : bool := match r with Def _ => true | _ => i end.
Inductive step : spot -> spot -> Prop :=
| st_child : forall i x p b ln tag a l1 c l2 r d x',
    Role tag a r -> r <> Leaf ->
    (is_mark c -> Auto tag a \/ ~ plain_tag tag) ->      (* CDATA markers are no texts in what is rendered *)
    DeclareAll (inside r i) l1 d ->
    (x' = true <-> x = true \/ r = Ext \/ extending d) ->
    step (Spot i x p b (DElem ln tag a (l1 ++ c :: l2))) (Spot (inside r i) x' (InElement tag a) (last_name l1) c).
Inductive reaches : spot -> spot -> Prop :=
| rc_here : forall s, reaches s s
| rc_inside : forall s s1 s2, step s s1 -> reaches s1 s2 -> reaches s s2.

(** ** What a switch may contain: cases, elses, white space, and what shows nothing. *)
Definition blank_piece (p : piece) : Prop := match p with XText _ t => forallb is_space t = true | XExpr _ _ => False end.
Inductive switch_part : bool -> bool -> dnode -> Prop :=
| sp_case : forall i x ln tag a cs, ~ Auto tag a -> directive tag (L "case") -> switch_part i x (DElem ln tag a cs)
| sp_else : forall i x ln tag a cs, ~ Auto tag a -> directive tag (L "else") -> switch_part i x (DElem ln tag a cs)
| sp_nop : forall i x ln tag a cs, ~ Auto tag a -> directive tag (L "nop") -> switch_parts i x cs -> switch_part i x (DElem ln tag a cs)
| sp_text : forall i x ln t e ps, reads compile ln t ps -> Forall blank_piece ps -> switch_part i x (DText ln t e)
| sp_mark : forall i x ln t ps, reads compile ln t ps -> Forall blank_piece ps -> switch_part i x (DMark ln t)
| sp_hidden : forall i x ln t, prefixb (L "!") t = true -> switch_part i x (DComment ln t)
| sp_module : forall i x ln t d code, strip d = c_pct :: code -> switch_part i x (DPi ln t d)
| sp_def : forall x ln tag a cs f, Role tag a (Def f) -> switch_part false x (DElem ln tag a cs)
| sp_block : forall i x ln tag a cs name d, Role tag a (Block name) -> Declare i (DElem ln tag a cs) d ->
    x = true \/ extending d -> switch_part i x (DElem ln tag a cs)
with switch_parts : bool -> bool -> list dnode -> Prop :=
| sps_nil : forall i x, switch_parts i x []
| sps_cons : forall i x n l d x', switch_part i x n -> Declare i n d -> (x' = true <-> x = true \/ extending d) ->
    switch_parts i x' l -> switch_parts i x (n :: l).

(** ** What can be wrong *)
Definition unreadable (ln : nat) (t : str) : Prop := forall ps, ~ reads compile ln t ps.
Inductive wrong : spot -> string -> Prop :=
(** *** Directives *)
| wr_else : forall i x tag a b ln tag1 a1 cs, ~ Auto tag1 a1 -> directive tag1 (L "else") ->
    tag <> L "py:nop" -> absent (L "py:switch") a -> b <> L "py:if" ->
    wrong (Spot i x (InElement tag a) b (DElem ln tag1 a1 cs)) "XMLTemplateCompileError"
| wr_else_root : forall i x b ln tag1 a1 cs, ~ Auto tag1 a1 -> directive tag1 (L "else") ->
    wrong (Spot i x InDocument b (DElem ln tag1 a1 cs)) "AttributeError"
| wr_switch : forall i x p b ln tag a cs, ~ Auto tag a -> directive tag (L "switch") -> ~ switch_parts i x cs ->
    wrong (Spot i x p b (DElem ln tag a cs)) "XMLTemplateCompileError"
| wr_autoblock : forall i x p b ln tag a cs, In tag autoblocks -> ~ absent (L "py:autoblock") a ->
    ~ In (lower (get_attr (L "py:autoblock") a)) [L "true"; L "false"] ->
    wrong (Spot i x p b (DElem ln tag a cs)) "ValueError"
| wr_call_empty : forall i x p b ln tag a, ~ Auto tag a -> directive tag (L "call") ->
    wrong (Spot i x p b (DElem ln tag a [])) "IndexError"
| wr_call : forall i x p b ln tag a c cs, ~ Auto tag a -> directive tag (L "call") ->
    (forall ln1 tag1 a1 cs1, c <> DElem ln1 tag1 a1 cs1) ->
    wrong (Spot i x p b (DElem ln tag a (c :: cs))) "AttributeError"
| wr_with : forall i x p b ln tag a cs, ~ Auto tag a -> directive tag (L "with") ->
    (forall vars, with_vars (get_attr (L "vars") a) <> Ok vars) ->
    wrong (Spot i x p b (DElem ln tag a cs)) "AttributeError"
| wr_data : forall i x p b ln tag a cs d, ~ Auto tag a -> directive tag d -> In d [L "text"; L "comment"; L "pi"] ->
    wrong (Spot i x p b (DElem ln tag a cs)) "AttributeError"
| wr_node : forall i x p b ln tag a cs, ~ Auto tag a -> directive tag (L "node") ->
    wrong (Spot i x p b (DElem ln tag a cs)) "RecursionError"
(** *** Texts, attributes, embedded Python *)
| wr_text : forall i x tag a b ln t e exn, unreadable ln t -> wrong (Spot i x (InElement tag a) b (DText ln t e)) exn
| wr_mark : forall i x tag a b ln t exn, unreadable ln t -> wrong (Spot i x (InElement tag a) b (DMark ln t)) exn
| wr_text_root : forall i x b ln t e, wrong (Spot i x InDocument b (DText ln t e)) "AttributeError"
| wr_mark_root : forall i x b ln t, wrong (Spot i x InDocument b (DMark ln t)) "AttributeError"
| wr_attribute : forall i x p b ln tag a cs k v exn, ~ Auto tag a -> plain_tag tag ->
    In (k, v) a -> k <> L "py:strip" -> (In tag autoblocks -> k <> L "py:autoblock") -> unreadable ln v ->
    wrong (Spot i x p b (DElem ln tag a cs)) exn
| wr_script : forall i x p b ln tag a cs exn, ~ Auto tag a -> plain_tag tag -> get_attr (L "py:content") a = [] ->
    cdata_scripts = true -> script_or_style tag ->
    (exists ln1 t e, In (DText ln1 t e) cs /\ unreadable ln1 t) \/
    (exists ln1 t ss, In (DText ln1 t true) cs /\ text_says compile tag ln1 t ss /\ forall ss', ~ Forall2 decoded ss ss') ->
    wrong (Spot i x p b (DElem ln tag a cs)) exn
| wr_script_content : forall i x p b ln tag a cs c, ~ Auto tag a -> plain_tag tag -> get_attr (L "py:content") a = [] ->
    cdata_scripts = true -> script_or_style tag ->
    In c cs -> ~ is_mark c -> (forall ln1 t e, c <> DText ln1 t e) ->
    wrong (Spot i x p b (DElem ln tag a cs)) "AssertionError"
| wr_python_empty : forall i x p b ln t d, strip d = [] -> wrong (Spot i x p b (DPi ln t d)) "IndexError"
| wr_python : forall i x p b ln t d code, strip d = c_pct :: code \/ (strip d = code /\ code <> [] /\ forall r, code <> c_pct :: r) ->
    (forall lines, ~ dedented code lines) -> wrong (Spot i x p b (DPi ln t d)) "AssertionError".
End Place.
