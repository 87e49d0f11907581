(** * Specification: where the code of a document stands

    The expressions and statements of a document in the order in which they are read, each with the
    line on which it stands. *)

From Coq Require Import Ascii String List NArith ZArith Bool Permutation Sorted.
From Verif Require Import PyStr M_Values S_Values M_IR M_Text M_XText S_XText M_Entities M_Dom M_Lnotab S_XDoc S_XFun.
Import ListNotations.
Open Scope nat_scope.
Open Scope list_scope.

(** A line of the document and the code that stands there, if there is any. *)
Definition site : Type := (nat * option str)%type.
Fixpoint code_sites (l : list site) : list (nat * str) :=
  match l with
  | [] => []
  | (n, Some e) :: l' => (n, e) :: code_sites l'
  | (_, None) :: l' => code_sites l'
  end.
(** No code stands above something that is read before it.  Lines are counted from 1. *)
Definition in_order (l : list site) : Prop :=
  forall before n e rest, l = before ++ (n, Some e) :: rest -> 1 <= n /\ Forall (fun x => fst x <= n) before.

Definition piece_site (p : M_XText.piece) : site :=
  match p with XText ln _ => (ln, None) | XExpr ln e => (ln, Some e) end.

(** The code in the arguments of a directive. *)
Inductive argument (a : list (str * str)) : str -> list (option str) -> Prop :=
| ar_replace : argument a (L "replace") [Some (get_attr (L "value") a)]
| ar_import : argument a (L "import") [Some (get_attr (L "href") a)]
| ar_include : argument a (L "include") [Some (get_attr (L "href") a)]
| ar_for : argument a (L "for") [Some (get_attr (L "each") a)]
| ar_if : argument a (L "if") [Some (get_attr (L "test") a)]
| ar_switch : argument a (L "switch") [Some (get_attr (L "test") a)]
| ar_case : argument a (L "case") [Some (get_attr (L "value") a)]
| ar_with : forall vars, with_vars (get_attr (L "vars") a) = Ok vars ->
    argument a (L "with") (None :: map (fun kv => Some (fst kv ++ L " = " ++ snd kv)) vars)
| ar_else : argument a (L "else") [None]
| ar_nop : argument a (L "nop") []
(* the call itself has no line of its own *)
| ar_call : argument a (L "call") [None].

Section Stands.
Variable compile : str -> compiled.       (* Python's compiler, as in [reads] *)
Variable autoblocks : list str.
Variable cdata_scripts : bool.

(** [py:strip]: the condition under which the tags are shown. *)
Inductive strip_condition (a : list (str * str)) : option str -> Prop :=
| sc_none : absent (L "py:strip") a -> strip_condition a None
| sc_always : ~ absent (L "py:strip") a -> get_attr (L "py:strip") a = [] -> strip_condition a (Some (L "False"))
| sc_if : forall c, ~ absent (L "py:strip") a -> get_attr (L "py:strip") a = c -> c <> [] ->
    strip_condition a (Some (L "not (" ++ c ++ L ")")).

(** The values of the attributes that are shown. *)
Definition hidden_attr (tag k : str) : Prop :=
  special_attr k \/ (k = L "py:autoblock" /\ In tag autoblocks).
Inductive attrs_stand (ln : nat) (tag : str) : list (str * str) -> list site -> Prop :=
| at_nil : attrs_stand ln tag [] []
| at_hidden : forall k v l m, hidden_attr tag k -> attrs_stand ln tag l m -> attrs_stand ln tag ((k, v) :: l) m
| at_shown : forall k v l ps m, ~ hidden_attr tag k -> reads compile ln v ps -> attrs_stand ln tag l m ->
    attrs_stand ln tag ((k, v) :: l) (map piece_site ps ++ m).
(** [py:attrs]. *)
Inductive more_stand (ln : nat) (a : list (str * str)) : list site -> Prop :=
| ms_none : get_attr (L "py:attrs") a = [] -> more_stand ln a []
| ms_some : forall x, get_attr (L "py:attrs") a = x -> x <> [] -> strip_condition a None ->
    more_stand ln a [(ln, Some x)]
| ms_guarded : forall x g, get_attr (L "py:attrs") a = x -> x <> [] -> strip_condition a (Some g) ->
    more_stand ln a [(ln, Some g); (ln, Some x)].

(** The content of a script or style element: character references in it are replaced. *)
Inductive decoded_site : M_XText.piece -> site -> Prop :=
| ds_text : forall ln t, decoded_site (XText ln t) (ln, None)
| ds_expr : forall ln e e', unescape e = Ok e' -> decoded_site (XExpr ln e) (ln, Some e').
Inductive script_stands : list dnode -> list site -> Prop :=
| ssn_nil : script_stands [] []
| ssn_mark : forall ln t l m, script_stands l m -> script_stands (DMark ln t :: l) m
| ssn_text : forall ln t l ps m, reads compile ln t ps -> script_stands l m ->
    script_stands (DText ln t false :: l) (map piece_site ps ++ m)
| ssn_escaped : forall ln t l ps m1 m, reads compile ln t ps -> Forall2 decoded_site ps m1 -> script_stands l m ->
    script_stands (DText ln t true :: l) (m1 ++ m).

Definition extends_among (l : list decl) : bool :=
  existsb (fun d => match d with Extends => true | _ => false end) l.

(** [stands child n m]: where the code of the node [n] stands, outside of functions and blocks.
    [child]: a parent template was named before. *)
Inductive stands : bool -> dnode -> list site -> Prop :=
| sd_comment : forall child ln t, stands child (DComment ln t) [(ln, None)]
| sd_text : forall child ln t e ps, reads compile ln t ps -> stands child (DText ln t e) (map piece_site ps)
| sd_mark : forall child ln t ps, reads compile ln t ps -> stands child (DMark ln t) (map piece_site ps)
(* embedded Python counts as standing where it begins *)
| sd_python : forall child ln t d lines, (forall code, strip d <> c_pct :: code) -> dedented (strip d) lines ->
    stands child (DPi ln t d) (map (fun x => (ln, Some x)) lines)
| sd_module : forall child ln t d code, strip d = c_pct :: code -> stands child (DPi ln t d) []
(* a block is called where it stands, unless the template has a parent *)
| sd_block : forall child ln tag a cs name l, role_of autoblocks cdata_scripts tag a (Block name) ->
    declare_all autoblocks cdata_scripts false cs l ->
    stands child (DElem ln tag a cs)
      (if child || extends_among l then [] else [(ln, Some (L "_kj_block_" ++ name ++ L "()"))])
| sd_def : forall child ln tag a cs f, role_of autoblocks cdata_scripts tag a (Def f) -> stands child (DElem ln tag a cs) []
| sd_extends : forall child ln tag a cs m, role_of autoblocks cdata_scripts tag a Ext ->
    stand_all false true cs m -> stands child (DElem ln tag a cs) ((ln, Some (get_attr (L "href") a)) :: m)
| sd_leaf : forall child ln tag a cs d codes, ~ autoblock autoblocks tag a -> directive tag d -> In d leaf_directives ->
    argument a d codes -> stands child (DElem ln tag a cs) (map (pair ln) codes)
| sd_inner : forall child ln tag a cs d codes m, ~ autoblock autoblocks tag a -> directive tag d -> In d inner_directives ->
    argument a d codes -> stand_all false child cs m -> stands child (DElem ln tag a cs) (map (pair ln) codes ++ m)
| sd_elem : forall child ln tag a cs sorted shown more rest, ~ autoblock autoblocks tag a -> plain_tag tag ->
    NoDup (map fst a) -> Permutation a sorted -> StronglySorted by_name sorted ->
    attrs_stand ln tag sorted shown -> more_stand ln a more -> content_stands child ln tag a cs rest ->
    stands child (DElem ln tag a cs) ((ln, None) :: shown ++ more ++ rest)
with content_stands : bool -> nat -> str -> list (str * str) -> list dnode -> list site -> Prop :=
| cs_content : forall child ln tag a cs x, get_attr (L "py:content") a = x -> x <> [] ->
    content_stands child ln tag a cs [(ln, Some x)]
| cs_script : forall child ln tag a cs m, get_attr (L "py:content") a = [] -> cdata_scripts = true -> script_or_style tag ->
    script_stands cs m -> content_stands child ln tag a cs m
| cs_nodes : forall child ln tag a cs m, get_attr (L "py:content") a = [] ->
    ~ (cdata_scripts = true /\ script_or_style tag) -> stand_all true child cs m -> content_stands child ln tag a cs m
(** Nodes one after another; in rendered elements ([rendered]) the CDATA markers are passed over. *)
with stand_all : bool -> bool -> list dnode -> list site -> Prop :=
| sa_nil : forall rendered child, stand_all rendered child [] []
| sa_mark : forall child ln t cs m, stand_all true child cs m -> stand_all true child (DMark ln t :: cs) m
| sa_cons : forall (rendered child : bool) c l cs m m', (rendered = true -> ~ is_mark c) -> stands child c m ->
    declares autoblocks cdata_scripts false c l -> stand_all rendered (child || extends_among l) cs m' ->
    stand_all rendered child (c :: cs) (m ++ m').
End Stands.

(** ** Reported lines *)

(** The code of the document in a generated line (the condition of a text is not counted). *)
Definition code_of (p : pstmt) : option str :=
  match p with
  | PYield e | PEscape e | PFor e | PIf e | PCase e | PPushSwitch e | PForAttrs _ e _ => Some e
  | PAssign k v => Some (k ++ L " = " ++ v)
  | PImport t _ | PInclude t | PExtend t => Some t
  | PCode line => Some line
  | _ => None
  end.
(** The same for the lines that have a line number. *)
Definition numbered_code (l : pyline) : option str :=
  match p_lineno l with 0 => None | _ => code_of (p_stmt l) end.

(** The line of the template that is reported for each generated line: the table that [from_ir]
    hands to the interpreter (C14). *)
Definition reported (lines : list pyline) : list Z :=
  map snd (py_linenos (map (fun l => Z.of_nat (p_lineno l)) lines)).
Definition reported_code (lines : list pyline) : list (Z * str) :=
  flat_map (fun x : Z * pyline => match numbered_code (snd x) with Some e => [(fst x, e)] | None => [] end)
    (combine (reported lines) lines).
