(** * Specification: what a whole document says

    As [S_XDoc], in the language of [S_Run], for every directive: a document says what its main
    function does, which functions and blocks it has and which code stands at module level. *)

From Coq Require Import Ascii String List NArith ZArith Bool Permutation Sorted.
From Verif Require Import PyStr M_Values M_IR M_Template M_Text M_XText S_XText M_Entities S_Entities M_Doctype M_Dom S_XDoc S_XFun M_Run S_Run M_XRun.
From Verif Require M_Exec S_Exec.
Import ListNotations.
Open Scope list_scope.

(** The statements of [S_Exec] are statements of [S_Run]. *)
Fixpoint as_rstm (s : S_Exec.stm) : rstm :=
  match s with
  | S_Exec.SPass => RPass
  | S_Exec.SText t g => RText t g
  | S_Exec.STrans t g => RTrans t g
  | S_Exec.SExpr x safe => RExpr x safe
  | S_Exec.SIf c b els => RIf c (map as_rstm b) (map as_rstm els)
  | S_Exec.SFor d b els => RFor d (map as_rstm b) (map as_rstm els)
  | S_Exec.SWith vars b => RWith vars (map as_rstm b)
  | S_Exec.SSwitch d cases els => RSwitch d (map (fun cb => (fst cb, map as_rstm (snd cb))) cases) (map as_rstm els)
  | S_Exec.SAttr a v g mode => RAttr a (or_empty (map as_rstm v)) g mode
  | S_Exec.SAttrs x g mode => RAttrs x g mode
  end.
Definition simple (ss : list S_Exec.stm) : list rpiece := map (fun s => RcStm (as_rstm s)) ss.
Definition blank_piece (p : rpiece) : bool :=
  match p with
  | RcStm (RText t _) | RcStm (RTrans t _) => forallb is_space t
  | _ => false
  end.

(** What a document declares besides what it shows. *)
Inductive fact : Type :=
| Function (d : str) (b : list rstm)
| ModuleCode (lines : list str).

Section Tells.
Variable compile : str -> compiled.       (* Python's compiler, as in [reads] *)
Variable autoblocks : list str.
Variable cdata_scripts : bool.
Variable mode : str.
Variable gen : str -> Prop.               (* names that may be generated *)

(** The attributes of an element that is not a block by its name: [py:autoblock="false"] says so. *)
Inductive own_attrs (tag : str) (a : list (str * str)) : list (str * str) -> Prop :=
| oa_other : ~ In tag autoblocks -> own_attrs tag a a
| oa_false : In tag autoblocks -> ~ absent (L "py:autoblock") a -> lower (get_attr (L "py:autoblock") a) = L "false" ->
    own_attrs tag a (without (L "py:autoblock") a).
(** A directive and its attributes. *)
Definition is_directive (tag : str) (a : list (str * str)) (d : str) (a' : list (str * str)) : Prop :=
  directive tag d /\ own_attrs tag a a'.
(** A block, its name. *)
Inductive is_block (tag : str) (a : list (str * str)) : str -> Prop :=
| ib_auto : autoblock autoblocks tag a -> is_block tag a tag
| ib_block : forall a', is_directive tag a (L "block") a' -> is_block tag a (get_attr (L "name") a').

(** The parameters of the body of a py:call: the [args] of the element in it (empty if it has none). *)
Inductive caller_args : list dnode -> str -> Prop :=
| ca_first : forall ln tag a cs l, caller_args (DElem ln tag a cs :: l) (get_attr (L "args") a).
(** [%caller] stands for the name of the body. *)
Definition with_caller (x f : str) : str := replace (L "$caller") x (replace (L "%caller") (L "$caller") f).

(** [tells i c parent prev n ps fs c']: the node [n] shows [ps] and declares [fs].  [i]: it is inside
    of a function.  [c], [c']: before it, after it the document extends another. *)
Definition solid (b : list rstm) : Prop := exists s, In s b /\ says_something s = true.      (* not an empty block of Python *)
Inductive tells : bool -> bool -> str -> str -> dnode -> list rpiece -> list fact -> bool -> Prop :=
| tl_comment : forall i c parent prev ln t, prefixb (L "!") t = false ->
    tells i c parent prev (DComment ln t) [RcStm (RText (L "<!-- " ++ t ++ L " -->") None)] [] c
| tl_hidden : forall i c parent prev ln t, prefixb (L "!") t = true -> tells i c parent prev (DComment ln t) [] [] c
| tl_text : forall i c parent prev ln t e ss, text_says compile parent ln t ss ->
    tells i c parent prev (DText ln t e) (simple ss) [] c
| tl_mark : forall i c parent prev ln t ss, text_says compile parent ln t ss ->
    tells i c parent prev (DMark ln t) (simple ss) [] c
| tl_python : forall i c parent prev ln t d lines, strip d <> [] -> (forall code, strip d <> c_pct :: code) -> dedented (strip d) lines ->
    tells i c parent prev (DPi ln t d) [RcStm (RPython lines)] [] c
| tl_module : forall i c parent prev ln t d code lines, strip d = c_pct :: code -> dedented code lines ->
    tells i c parent prev (DPi ln t d) [] [ModuleCode lines] c
| tl_if : forall i c parent prev ln tag a a' cs ps b fs c', is_directive tag a (L "if") a' ->
    all_tell i c false tag [] cs ps fs c' -> assemble ps = Some b -> solid b ->
    tells i c parent prev (DElem ln tag a cs) [RcStm (RIf (get_attr (L "test") a') b [])] fs c'
| tl_else : forall i c parent prev ln tag a a' cs ps b fs c', is_directive tag a (L "else") a' ->
    parent = L "py:nop" \/ parent <> [] /\ prev = L "py:if" ->
    all_tell i c false tag [] cs ps fs c' -> assemble ps = Some b -> solid b ->
    tells i c parent prev (DElem ln tag a cs) [RcElse b] fs c'
| tl_for : forall i c parent prev ln tag a a' cs ps b fs c', is_directive tag a (L "for") a' ->
    all_tell i c false tag [] cs ps fs c' -> assemble ps = Some b -> solid b ->
    tells i c parent prev (DElem ln tag a cs) [RcStm (RFor (get_attr (L "each") a') b [])] fs c'
| tl_with : forall i c parent prev ln tag a a' cs vars ps b fs c', is_directive tag a (L "with") a' ->
    M_IR.with_vars (get_attr (L "vars") a') = Ok vars ->
    all_tell i c false tag [] cs ps fs c' -> assemble ps = Some b ->
    tells i c parent prev (DElem ln tag a cs) [RcStm (RWith vars b)] fs c'
| tl_switch : forall i c parent prev ln tag a a' cs ps cases els fs c', is_directive tag a (L "switch") a' ->
    all_tell i c false tag [] cs ps fs c' ->
    assemble_switch (filter (fun p => negb (blank_piece p)) ps) = Some (cases, els) ->
    tells i c parent prev (DElem ln tag a cs) [RcStm (RSwitch (get_attr (L "test") a') cases els)] fs c'
| tl_case : forall i c parent prev ln tag a a' cs ps b fs c', is_directive tag a (L "case") a' ->
    all_tell i c false tag [] cs ps fs c' -> assemble ps = Some b -> solid b ->
    tells i c parent prev (DElem ln tag a cs) [RcCase (get_attr (L "value") a') b] fs c'
| tl_replace : forall i c parent prev ln tag a a' cs, is_directive tag a (L "replace") a' ->
    tells i c parent prev (DElem ln tag a cs) [RcStm (RExpr (get_attr (L "value") a') false)] [] c
| tl_nop : forall i c parent prev ln tag a a' cs ps fs c', is_directive tag a (L "nop") a' ->
    all_tell i c false tag [] cs ps fs c' -> tells i c parent prev (DElem ln tag a cs) ps fs c'
(* functions: of the template, or inside of a function *)
| tl_def : forall c parent prev ln tag a a' cs ps b fs c', is_directive tag a (L "def") a' ->
    all_tell true c false tag [] cs ps fs c' -> assemble ps = Some b -> solid (or_pass b) ->
    tells false c parent prev (DElem ln tag a cs) [] (fs ++ [Function (get_attr (L "function") a') (or_pass b)]) c'
| tl_inner : forall c parent prev ln tag a a' cs ps b fs c', is_directive tag a (L "def") a' ->
    all_tell true c false tag [] cs ps fs c' -> assemble ps = Some b -> solid (or_pass b) ->
    tells true c parent prev (DElem ln tag a cs) [RcStm (RDef (get_attr (L "function") a') (or_pass b))] fs c'
| tl_call : forall i c parent prev ln tag a a' cs args x ps b fs c', is_directive tag a (L "call") a' -> caller_args cs args -> gen x ->
    all_tell i c false tag [] cs ps fs c' -> assemble ps = Some b -> solid b ->
    tells i c parent prev (DElem ln tag a cs)
      [RcStm (RCall (replace (L "$caller") x (L "$caller(" ++ args ++ L ")")) (with_caller x (get_attr (L "function") a')) b)] fs c'
(* blocks are functions; they are called where they stand, but not if the document extends another *)
| tl_block : forall i c parent prev ln tag a cs name ps b fs, is_block tag a name ->
    all_tell i c false tag [] cs ps fs false -> assemble ps = Some b -> solid (or_pass b) ->
    tells i c parent prev (DElem ln tag a cs) [RcStm (RExpr (L "_kj_block_" ++ name ++ L "()") false)]
      (fs ++ [Function (L "_kj_block_" ++ name ++ L "()") (or_pass b)]) false
| tl_override : forall i c parent prev ln tag a cs name lines ps b fs, is_block tag a name ->
    all_tell i c false tag [] cs ps fs true -> assemble ps = Some b ->
    dedented (L "parent_block=parent._kj_block_" ++ name) lines ->
    tells i c parent prev (DElem ln tag a cs) []
      (fs ++ [Function (L "_kj_block_" ++ name ++ L "()") (RPython lines :: or_pass b)]) true
| tl_extends : forall i c parent prev ln tag a a' cs ps fs c', is_directive tag a (L "extends") a' ->
    all_tell i true false tag [] cs ps fs c' ->
    tells i c parent prev (DElem ln tag a cs) (RcStm (RExtend (get_attr (L "href") a')) :: ps) fs c'
| tl_include : forall i c parent prev ln tag a a' cs, is_directive tag a (L "include") a' ->
    tells i c parent prev (DElem ln tag a cs) [RcStm (RInclude (get_attr (L "href") a'))] [] c
| tl_import : forall i c parent prev ln tag a a' cs alias, is_directive tag a (L "import") a' ->
    (absent (L "alias") a' /\ alias = None \/ ~ absent (L "alias") a' /\ alias = Some (get_attr (L "alias") a')) ->
    tells i c parent prev (DElem ln tag a cs) [RcStm (RImport (get_attr (L "href") a') alias)] [] c
| tl_elem : forall i c parent prev ln tag a0 a cs g sorted shown more rest fs c',
    plain_tag tag -> own_attrs tag a0 a -> NoDup (map fst a0) ->
    tag_condition a g -> Permutation a sorted -> StronglySorted S_Values.by_name sorted ->
    attrs_say compile mode ln g sorted shown -> more_attrs mode g a more -> rest_tells i c ln tag a g cs rest fs c' ->
    tells i c parent prev (DElem ln tag a0 cs)
      (RcStm (RText (L "<" ++ tag) g) :: simple shown ++ simple more ++ rest) fs c'
(** What follows the attributes. *)
with rest_tells : bool -> bool -> nat -> str -> list (str * str) -> option str -> list dnode -> list rpiece -> list fact -> bool -> Prop :=
| rt_content : forall i c ln tag a g cs x, value_at (L "py:content") a x -> x <> [] ->
    rest_tells i c ln tag a g cs
      [RcStm (RText (L ">") g); RcStm (RExpr x false); RcStm (RText (L "</" ++ tag ++ L ">") g)] [] c
| rt_empty : forall i c ln tag a g t, no_content_attr a -> closes mode tag t ->
    rest_tells i c ln tag a g [] [RcStm (RText t g)] [] c
| rt_script : forall i c ln tag a g cs ss, no_content_attr a -> cs <> [] ->
    cdata_scripts = true -> script_or_style tag -> script_says compile tag cs ss ->
    rest_tells i c ln tag a g cs
      (RcStm (RText (L ">") g) :: simple (cdata_open mode ++ ss ++ cdata_close mode) ++ [RcStm (RText (L "</" ++ tag ++ L ">") g)]) [] c
| rt_children : forall i c ln tag a g cs ps fs c', no_content_attr a -> cs <> [] ->
    ~ (cdata_scripts = true /\ script_or_style tag) -> ~ (is_html mode /\ void tag) ->
    all_tell i c true tag [] cs ps fs c' ->
    rest_tells i c ln tag a g cs (RcStm (RText (L ">") g) :: ps ++ [RcStm (RText (L "</" ++ tag ++ L ">") g)]) fs c'
| rt_void_children : forall i c ln tag a g cs ps fs c', no_content_attr a -> cs <> [] ->
    is_html mode -> void tag -> all_tell i c true tag [] cs ps fs c' ->
    rest_tells i c ln tag a g cs (RcStm (RText (L ">") g) :: ps) fs c'
with all_tell : bool -> bool -> bool -> str -> str -> list dnode -> list rpiece -> list fact -> bool -> Prop :=
| at_nil : forall i c marks parent prev, all_tell i c marks parent prev [] [] [] c
| at_mark : forall i c parent prev ln t l ps fs c', all_tell i c true parent [] l ps fs c' ->
    all_tell i c true parent prev (DMark ln t :: l) (RcStm (RText t None) :: ps) fs c'
| at_node : forall i c marks parent prev n l ps qs fs fs' c1 c2, marks = false \/ ~ is_mark n ->
    tells i c parent prev n ps fs c1 -> all_tell i c1 marks parent (name_of n) l qs fs' c2 ->
    all_tell i c marks parent prev (n :: l) (ps ++ qs) (fs ++ fs') c2.
End Tells.

(** ** Where directives belong

    A [py:case] belongs to a [py:switch] ([switch]); inside a [py:nop] a node is where the [py:nop] is.  The names of
    attributes are different, as XML asks for, and no [py:switch] is left over that could not be expanded. *)
Section InPlace.
Variable autoblocks : list str.
Definition names (tag : str) (a : list (str * str)) (d : str) : Prop := ~ autoblock autoblocks tag a /\ directive tag d.
Fixpoint node_in_place (switch : bool) (n : dnode) : Prop :=
  match n with
  | DElem _ tag a cs =>
      let inside (switch : bool) :=
        (fix go (l : list dnode) : Prop := match l with [] => True | m :: l' => node_in_place switch m /\ go l' end) cs in
      tag <> [] /\ NoDup (map fst a) /\ absent (L "py:switch") a /\
      (names tag a (L "case") -> switch = true) /\
      (names tag a (L "switch") -> inside true) /\
      (names tag a (L "nop") \/ names tag a (L "extends") -> inside switch) /\
      ((forall d, In d [L "switch"; L "nop"; L "extends"] -> ~ names tag a d) -> inside false)
  | _ => True
  end.
End InPlace.

(** ** Whole documents *)

(** What a template is: its main function, its other functions in the order of their declaration, the
    code at module level. *)
Record reading : Type := Reading {
  r_main : list rstm;
  r_functions : list (str * list rstm);
  r_module : list (list str) }.
Fixpoint functions (fs : list fact) : list (str * list rstm) :=
  match fs with [] => [] | Function d b :: fs' => (d, b) :: functions fs' | _ :: fs' => functions fs' end.
Fixpoint modules (fs : list fact) : list (list str) :=
  match fs with [] => [] | ModuleCode c :: fs' => c :: modules fs' | _ :: fs' => modules fs' end.

(** A document and how it is compiled. *)
Record settings : Type := Settings {
  s_autoblocks : list str;
  s_cdata : bool;
  s_mode : str;
  s_fragment : bool }.
Definition not_comment (n : dnode) : bool := match n with DComment _ _ => false | _ => true end.
Inductive document_tells (compile : str -> compiled) (gen : str -> Prop) (s : settings) (d : document) : reading -> Prop :=
| document_reading : forall root ps b fs (child : bool) line,
    filter not_comment (d_children d) = [root] ->
    tells compile (s_autoblocks s) (s_cdata s) (s_mode s) gen false false [] [] root ps fs child -> assemble ps = Some b ->
    (if s_fragment s || child then line = [] else doctype_line (s_mode s) (d_dtd d) line) ->
    solid (or_pass (match line with [] => [] | _ => [RText line None] end ++ b)) ->
    document_tells compile gen s d
      (Reading (match line with [] => [] | _ => [RText line None] end ++ b) (functions fs) (modules fs)).

(** The functions of the class: of declarations that are the same the last one counts, at the place of the
    first; [__main__()] is the main function, whatever else has that name. *)
Definition last_body (d : str) (l : list (str * list rstm)) (b : list rstm) : Prop :=
  exists l1 l2, l = l1 ++ (d, b) :: l2 /\ ~ In d (map fst l2).
Inductive final_functions (r : reading) : list (str * list rstm) -> Prop :=
| final : forall l, map fst l = distinct [] (L "__main__()" :: map fst (r_functions r)) ->
    Forall (fun db => last_body (fst db) (r_functions r ++ [(L "__main__()", or_pass (r_main r))]) (snd db)) l ->
    final_functions r l.
Definition with_name (db : str * list rstm) : str * (str * list rstm) := (fun_name (fst db), db).
Inductive class_tells (r : reading) (given module : dict (fobj dcode) (str * dcode)) : cls (fobj dcode) (str * dcode) -> Prop :=
| class_reading : forall l, final_functions r l ->
    class_tells r given module (from_ir _ _ (last_ones (map with_name l)) given module).

(** Only names of the user, in all expressions. *)
Section User.
Variable py : python.
Variable gen : str -> Prop.
Fixpoint user_rstm (s : rstm) : Prop :=
  let all := fix go (l : list rstm) : Prop := match l with [] => True | m :: l' => user_rstm m /\ go l' end in
  match s with
  | RPass => True
  | RText _ g | RTrans _ g => user_guard py gen g
  | RExpr x _ => user py gen x
  | RIf c b els => user py gen c /\ all b /\ all els
  | RFor d b els => user_for py gen d /\ all b /\ all els
  | RWith vars b => Forall (fun kx => M_Exec.is_name (fst kx) = true /\ a_name gen (fst kx) /\ user py gen (snd kx)) vars /\ all b
  | RSwitch d cases els =>
      user py gen d /\ (fix go (l : list (str * list rstm)) : Prop :=
                   match l with [] => True | (c, b) :: l' => (user py gen c /\ all b) /\ go l' end) cases /\ all els
  | RAttr _ v g _ => user_guard py gen g /\ all v
  | RAttrs x g _ => user_guard py gen g /\ user py gen x
  | RDef d b => a_decl py gen d /\ all b
  | RCall d c b => a_decl py gen d /\ user_call py gen d c /\ all b
  | RImport t a => ~ In (alias_name t a) reserved
  | RInclude t => ~ In (alias_name t None) reserved
  | RExtend _ => True
  | RPython lines => Forall (user_stm gen) (python_of py lines)
  end.
Definition user_reading (r : reading) : Prop :=
  a_decl py gen (L "__main__()") /\ Forall user_rstm (r_main r) /\
  Forall (fun db => a_decl py gen (fst db) /\ Forall user_rstm (snd db)) (r_functions r).
End User.

(** ** The templates of a loader *)
Definition settings_of (x : xml_source) (d : document) : settings :=
  Settings (x_autoblocks x) (x_cdata x) (rendering_mode (x_mode x) (d_dtd d)) (x_fragment x).
Section Sources.
Variable expat : str -> result (list event).
Variable compile : str -> compiled.
Variable exec_module : list (list str) -> list (str * M_Values.value).
Variable gen : str -> Prop.
(** What a source says. *)
Inductive xml_says (x : xml_source) : reading -> Prop :=
| xml_reading : forall d r, xml_document expat x = Ok d -> document_tells compile gen (settings_of x d) d r -> xml_says x r.
(** The class that a source describes. *)
Inductive source_tells (x : xml_source) : cls (fobj dcode) (str * dcode) -> Prop :=
| source_reading : forall r c, xml_says x r ->
    class_tells r (objects (x_given x)) (objects (exec_module (r_module r))) c -> source_tells x c.
(** Cases are inside of a switch, functions have different names. *)
Definition xml_placed (x : xml_source) : Prop :=
  forall d root, xml_document expat x = Ok d -> filter not_comment (d_children d) = [root] ->
    node_in_place (x_autoblocks x) false root /\
    forall l, declares (x_autoblocks x) (x_cdata x) false root l -> NoDup (L "__main__()" :: declared_names l).
(** Sources that can be read, or will be refused; what they say uses only names of the user. *)
Definition a_source (py : python) (x : xml_source) : Prop :=
  (forall i, gen (x_helper x i)) /\ object_names (x_given x) /\
  ((exists r, xml_says x r) \/ xml_placed x) /\ forall r, xml_says x r -> user_reading py gen r.
(** A loader finds the classes that its sources describe, and raises an error for those that say nothing. *)
Definition loads (sources : bool -> str -> result xml_source) (load : bool -> str -> result (cls (fobj dcode) (str * dcode))) : Prop :=
  forall fragment name, match sources fragment name with
    | Ok x => (exists c, load fragment name = Ok c /\ source_tells x c) \/ ((forall r, ~ xml_says x r) /\ exists e, load fragment name = Raise e)
    | Raise e => load fragment name = Raise e
    end.
End Sources.
