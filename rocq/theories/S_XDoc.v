(** * Specification: what a document says

    A direct reading of an expanded document tree (C41) as directives, texts and tags, in the
    language of [S_Exec].  Covered: plain elements with [py:strip], [py:attrs], [py:content]; texts,
    comments, CDATA sections; [py:if], [py:else], [py:for], [py:with], [py:switch], [py:case],
    [py:replace], [py:nop].  Not covered: functions, blocks, imports, embedded Python. *)

From Coq Require Import Ascii String List NArith ZArith Bool Permutation Sorted.
From Verif Require Import PyStr M_Values S_Values M_IR M_Exec S_Exec M_Text M_XText S_XText M_Entities S_Entities M_Dom.
Import ListNotations.
Open Scope list_scope.

(** HTML elements that have no end tag. *)
Definition void (tag : str) : Prop :=
  In tag [L "area"; L "base"; L "br"; L "col"; L "hr"; L "img"; L "input"; L "link"; L "meta"; L "param"].
Definition script_or_style (tag : str) : Prop := tag = L "script" \/ tag = L "style".
Definition is_html (mode : str) : Prop := prefixb (L "html") mode = true.

Definition value_at (k : str) (a : list (str * str)) (v : str) : Prop := In (k, v) a.
Definition absent (k : str) (a : list (str * str)) : Prop := ~ In k (map fst a).

(** The condition under which the tags of an element are shown, given its attributes. *)
Inductive tag_condition (a : list (str * str)) : option str -> Prop :=
| tc_none : absent (L "py:strip") a -> tag_condition a None
| tc_always : value_at (L "py:strip") a [] -> tag_condition a (Some (L "False"))
| tc_if : forall c, value_at (L "py:strip") a c -> c <> [] -> tag_condition a (Some (L "not (" ++ c ++ L ")")).

(** A text or an expression inside a text ([k]: where it stands). *)
Definition text_stm (k : text_kind) (p : M_XText.piece) : stm :=
  match p with
  | XText _ t =>
      match k with
      | TK_text => if forallb is_space t then SText t None else STrans t None
      | _ => SText t None
      end
  | XExpr _ x => SExpr x (match k with TK_attr => true | _ => false end)
  end.
(** The same where character references are still to be replaced. *)
Inductive decoded : stm -> stm -> Prop :=
| dc_text : forall t t' g, unescape t = Ok t' -> decoded (SText t g) (SText t' g)
| dc_expr : forall x x' safe, unescape x = Ok x' -> decoded (SExpr x safe) (SExpr x' safe).

Definition blank_text (p : S_Exec.piece) : bool :=
  match p with
  | PcStm (SText t _) | PcStm (STrans t _) => forallb is_space t
  | _ => false
  end.

Definition name_of (n : dnode) : str := match n with DElem _ tag _ _ => tag | _ => [] end.
Definition is_mark (n : dnode) : Prop := match n with DMark _ _ => True | _ => False end.

Section Says.
Variable compile : str -> compiled.       (* Python's compiler, as in [reads] *)
Variable autoblocks : list str.
Variable cdata_scripts : bool.
Variable mode : str.

(** A text under an element [parent]. *)
Inductive text_says (parent : str) (ln : nat) (t : str) : list stm -> Prop :=
| ts_raw : forall ps, script_or_style parent -> reads compile ln t ps ->
    text_says parent ln t (map (text_stm TK_raw) ps)
| ts_text : forall ps, parent <> [] -> ~ script_or_style parent -> reads compile ln t ps ->
    text_says parent ln t (map (text_stm TK_text) ps).

(** The attributes, each under the condition [g]; [py:content], [py:attrs] and [py:strip] are not shown. *)
Definition special_attr (k : str) : Prop := k = L "py:content" \/ k = L "py:attrs" \/ k = L "py:strip".
Inductive attrs_say (ln : nat) (g : option str) : list (str * str) -> list stm -> Prop :=
| as_nil : attrs_say ln g [] []
| as_special : forall k v l ss ps, special_attr k -> (k <> L "py:strip" -> reads compile ln v ps) ->
    attrs_say ln g l ss -> attrs_say ln g ((k, v) :: l) ss
| as_attr : forall k v l ps ss, ~ special_attr k -> reads compile ln v ps -> attrs_say ln g l ss ->
    attrs_say ln g ((k, v) :: l) (SAttr k (map (text_stm TK_attr) ps) g mode :: ss).
(** [py:attrs]. *)
Inductive more_attrs (g : option str) (a : list (str * str)) : list stm -> Prop :=
| ma_none : absent (L "py:attrs") a \/ value_at (L "py:attrs") a [] -> more_attrs g a []
| ma_some : forall x, value_at (L "py:attrs") a x -> x <> [] -> more_attrs g a [SAttrs x g mode].

Definition no_content_attr (a : list (str * str)) : Prop := absent (L "py:content") a \/ value_at (L "py:content") a [].

(** How an element without content ends. *)
Inductive closes (tag : str) : str -> Prop :=
| cl_void : is_html mode -> void tag -> closes tag (L ">")
| cl_html : is_html mode -> ~ void tag -> closes tag (L "></" ++ tag ++ L ">")
| cl_script : tag = L "script" -> closes tag (L "></" ++ tag ++ L ">")
| cl_xml : ~ is_html mode -> tag <> L "script" -> closes tag (L "/>").

(** What stands around the content of a script or style element. *)
Definition cdata_open : list stm := if seqb mode (L "xml") then [SText (L "/*<![CDATA[*/") None] else [].
Definition cdata_close : list stm := if seqb mode (L "xml") then [SText (L "/*]]>*/") None] else [].

(** The content of a script or style element: texts only; character references are replaced,
    except in CDATA sections. *)
Inductive script_says (tag : str) : list dnode -> list stm -> Prop :=
| ss_nil : script_says tag [] []
| ss_mark : forall ln t l ss, script_says tag l ss -> script_says tag (DMark ln t :: l) ss
| ss_text : forall ln t l ss ss', text_says tag ln t ss -> script_says tag l ss' ->
    script_says tag (DText ln t false :: l) (ss ++ ss')
| ss_escaped : forall ln t l ss ss1 ss', text_says tag ln t ss -> Forall2 decoded ss ss1 -> script_says tag l ss' ->
    script_says tag (DText ln t true :: l) (ss1 ++ ss').

(** [says parent prev n ps]: the node [n], in an element [parent] and after an element [prev] (empty
    if there is none), says [ps].  [marks]: CDATA markers are passed on. *)
Inductive says : str -> str -> dnode -> list S_Exec.piece -> Prop :=
| sy_comment : forall parent prev ln t, prefixb (L "!") t = false ->
    says parent prev (DComment ln t) [PcStm (SText (L "<!-- " ++ t ++ L " -->") None)]
| sy_hidden : forall parent prev ln t, prefixb (L "!") t = true -> says parent prev (DComment ln t) []
| sy_text : forall parent prev ln t e ss, text_says parent ln t ss -> says parent prev (DText ln t e) (map PcStm ss)
| sy_mark : forall parent prev ln t ss, text_says parent ln t ss -> says parent prev (DMark ln t) (map PcStm ss)
| sy_if : forall parent prev ln a cs test ps b, ~ In (L "py:if") autoblocks -> get_attr (L "test") a = test ->
    all_say false (L "py:if") [] cs ps -> assemble_block ps = Some b ->
    says parent prev (DElem ln (L "py:if") a cs) [PcStm (SIf test b [])]
| sy_else : forall parent prev ln a cs ps b, ~ In (L "py:else") autoblocks ->
    parent = L "py:nop" \/ parent <> [] /\ prev = L "py:if" ->
    all_say false (L "py:else") [] cs ps -> assemble_block ps = Some b ->
    says parent prev (DElem ln (L "py:else") a cs) [PcElse b]
| sy_for : forall parent prev ln a cs each ps b, ~ In (L "py:for") autoblocks -> get_attr (L "each") a = each ->
    all_say false (L "py:for") [] cs ps -> assemble_block ps = Some b ->
    says parent prev (DElem ln (L "py:for") a cs) [PcStm (SFor each b [])]
| sy_with : forall parent prev ln a cs vars ps b, ~ In (L "py:with") autoblocks -> with_vars (get_attr (L "vars") a) = Ok vars ->
    all_say false (L "py:with") [] cs ps -> assemble ps = Some b ->
    says parent prev (DElem ln (L "py:with") a cs) [PcStm (SWith vars b)]
| sy_switch : forall parent prev ln a cs test ps cases els, ~ In (L "py:switch") autoblocks -> get_attr (L "test") a = test ->
    all_say false (L "py:switch") [] cs ps ->
    assemble_switch (filter (fun p => negb (blank_text p)) ps) = Some (cases, els) ->
    says parent prev (DElem ln (L "py:switch") a cs) [PcStm (SSwitch test cases els)]
| sy_case : forall parent prev ln a cs v ps b, ~ In (L "py:case") autoblocks -> get_attr (L "value") a = v ->
    all_say false (L "py:case") [] cs ps -> assemble_block ps = Some b ->
    says parent prev (DElem ln (L "py:case") a cs) [PcCase v b]
| sy_replace : forall parent prev ln a cs x, ~ In (L "py:replace") autoblocks -> get_attr (L "value") a = x ->
    says parent prev (DElem ln (L "py:replace") a cs) [PcStm (SExpr x false)]
| sy_nop : forall parent prev ln a cs ps, ~ In (L "py:nop") autoblocks -> all_say false (L "py:nop") [] cs ps ->
    says parent prev (DElem ln (L "py:nop") a cs) ps
| sy_elem : forall parent prev ln tag a cs g sorted shown more rest,
    prefixb (L "py:") tag = false -> ~ In tag autoblocks -> NoDup (map fst a) ->
    tag_condition a g -> Permutation a sorted -> StronglySorted by_name sorted ->
    attrs_say ln g sorted shown -> more_attrs g a more -> rest_says ln tag a g cs rest ->
    says parent prev (DElem ln tag a cs)
      (PcStm (SText (L "<" ++ tag) g) :: map PcStm shown ++ map PcStm more ++ rest)
(** What follows the attributes. *)
with rest_says : nat -> str -> list (str * str) -> option str -> list dnode -> list S_Exec.piece -> Prop :=
| rs_content : forall ln tag a g cs c, value_at (L "py:content") a c -> c <> [] ->
    rest_says ln tag a g cs [PcStm (SText (L ">") g); PcStm (SExpr c false); PcStm (SText (L "</" ++ tag ++ L ">") g)]
| rs_empty : forall ln tag a g t, no_content_attr a -> closes tag t ->
    rest_says ln tag a g [] [PcStm (SText t g)]
| rs_script : forall ln tag a g cs ss, no_content_attr a -> cs <> [] ->
    cdata_scripts = true -> script_or_style tag -> script_says tag cs ss ->
    rest_says ln tag a g cs
      (PcStm (SText (L ">") g) :: map PcStm (cdata_open ++ ss ++ cdata_close) ++ [PcStm (SText (L "</" ++ tag ++ L ">") g)])
| rs_children : forall ln tag a g cs ps, no_content_attr a -> cs <> [] ->
    ~ (cdata_scripts = true /\ script_or_style tag) -> ~ (is_html mode /\ void tag) ->
    all_say true tag [] cs ps ->
    rest_says ln tag a g cs (PcStm (SText (L ">") g) :: ps ++ [PcStm (SText (L "</" ++ tag ++ L ">") g)])
| rs_void_children : forall ln tag a g cs ps, no_content_attr a -> cs <> [] ->
    is_html mode -> void tag -> all_say true tag [] cs ps ->
    rest_says ln tag a g cs (PcStm (SText (L ">") g) :: ps)
with all_say : bool -> str -> str -> list dnode -> list S_Exec.piece -> Prop :=
| al_nil : forall marks parent prev, all_say marks parent prev [] []
| al_mark : forall parent prev ln t l ps, all_say true parent [] l ps ->
    all_say true parent prev (DMark ln t :: l) (PcStm (SText t None) :: ps)
| al_node : forall marks parent prev n l ps qs, marks = false \/ ~ is_mark n -> says parent prev n ps ->
    all_say marks parent (name_of n) l qs ->
    all_say marks parent prev (n :: l) (ps ++ qs).

(** The content of an element, without its tags. *)
Inductive content_says (tag : str) (a : list (str * str)) (cs : list dnode) : list S_Exec.piece -> Prop :=
| ct_expr : forall c, value_at (L "py:content") a c -> c <> [] -> content_says tag a cs [PcStm (SExpr c false)]
| ct_empty : no_content_attr a -> cs = [] -> content_says tag a cs []
| ct_script : forall ss, no_content_attr a -> cs <> [] -> cdata_scripts = true -> script_or_style tag ->
    script_says tag cs ss -> content_says tag a cs (map PcStm (cdata_open ++ ss ++ cdata_close))
| ct_children : forall ps, no_content_attr a -> cs <> [] -> ~ (cdata_scripts = true /\ script_or_style tag) ->
    all_say true tag [] cs ps -> content_says tag a cs ps.
End Says.

(** ** Whole documents *)

(** The line before the root: the document's own doctype, or that of HTML 5. *)
Inductive doctype_line (mode dtd : str) : str -> Prop :=
| dl_own : dtd <> [] -> doctype_line mode dtd (strip dtd ++ [c_nl])
| dl_html5 : dtd = [] -> mode = L "html5" -> doctype_line mode dtd (L "<!DOCTYPE html>" ++ [c_nl])
| dl_none : dtd = [] -> mode <> L "html5" -> doctype_line mode dtd [].

(** The attributes without one of them. *)
Definition without (k : str) (a : list (str * str)) : list (str * str) := filter (fun kv => negb (seqb k (fst kv))) a.

(** Only expressions of the user. *)
Section User.
Variables gen user : str -> Prop.
Fixpoint user_stm (s : stm) : Prop :=
  let all := fix go (l : list stm) : Prop := match l with [] => True | m :: l' => user_stm m /\ go l' end in
  match s with
  | SPass => True
  | SText _ g | STrans _ g => user_guard user g
  | SExpr x _ => user x
  | SIf c b els => user c /\ all b /\ all els
  | SFor d b els => user d /\ all b /\ all els
  | SWith vars b => Forall (fun kx => plain gen (fst kx) /\ user (snd kx)) vars /\ all b
  | SSwitch d cases els =>
      user d /\ (fix go (l : list (str * list stm)) : Prop :=
                   match l with [] => True | (c, b) :: l' => (user c /\ all b) /\ go l' end) cases /\ all els
  | SAttr _ v g _ => user_guard user g /\ all v
  | SAttrs x g _ => user_guard user g /\ user x
  end.
End User.

(** Python's reading of the conditions that [tag_condition] makes. *)
Definition negates (py : python) (c : str) : Prop :=
  (forall e, ev_bool py e (L "False") = Ok false) /\
  (forall e, ev_bool py e (L "not (" ++ c ++ L ")") = rmap negb (ev_bool py e c)).
(** Rendered text and the variables afterwards, or the exception. *)
Definition shown (m : result (list M_Values.value * env)) : result (str * env) := rmap (fun oe => (render (fst oe), snd oe)) m.
