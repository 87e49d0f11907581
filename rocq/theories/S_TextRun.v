(** * Specification: what a whole text template says

    As [S_XRun] for XML templates: a text template says what its main function does, which functions and
    blocks it has and which code stands at module level. *)

From Coq Require Import Ascii String List NArith ZArith Bool.
From Verif Require Import PyStr M_Values M_IR M_Template M_Text S_Text S_TextTree M_Dom M_XCompile M_Run M_XRun S_XRun S_Run M_TextRun.
From Verif Require S_IR.
Import ListNotations.
Open Scope list_scope.

Section Tells.
Variable autoescape : bool.
Variable gen : str -> Prop.               (* names that may be generated *)

(** [text_tells i c f ps fs c']: the items [f] show [ps] and declare [fs].  [i]: they are inside of a
    function.  [c], [c']: before them, after them the template extends another. *)
Inductive text_tells : bool -> bool -> tree -> list rpiece -> list fact -> bool -> Prop :=
| tt_nil : forall i c, text_tells i c G_nil [] [] c
| tt_text : forall i c ln t f qs gs c', text_tells i c f qs gs c' ->
    text_tells i c (G_text ln t f) (RcStm (RText t None) :: qs) gs c'
| tt_expr : forall i c ln e f qs gs c', text_tells i c f qs gs c' ->
    text_tells i c (G_expr ln e f) (RcStm (RExpr e (negb autoescape)) :: qs) gs c'
| tt_for : forall i c e b f ps b' fs c1 qs gs c2,
    text_tells i c b ps fs c1 -> assemble ps = Some b' -> solid b' -> text_tells i c1 f qs gs c2 ->
    text_tells i c (G_in For e b f) (RcStm (RFor e b' []) :: qs) (fs ++ gs) c2
| tt_if : forall i c e b f ps b' fs c1 qs gs c2,
    text_tells i c b ps fs c1 -> assemble ps = Some b' -> solid b' -> text_tells i c1 f qs gs c2 ->
    text_tells i c (G_in If e b f) (RcStm (RIf e b' []) :: qs) (fs ++ gs) c2
(* [else] and [case] belong to what is around *)
| tt_else : forall i c e b f ps b' fs c1 qs gs c2,
    text_tells i c b ps fs c1 -> assemble ps = Some b' -> solid b' -> text_tells i c1 f qs gs c2 ->
    text_tells i c (G_in Else e b f) (RcElse b' :: qs) (fs ++ gs) c2
| tt_case : forall i c e b f ps b' fs c1 qs gs c2,
    text_tells i c b ps fs c1 -> assemble ps = Some b' -> solid b' -> text_tells i c1 f qs gs c2 ->
    text_tells i c (G_in Case e b f) (RcCase e b' :: qs) (fs ++ gs) c2
(* nothing but comments may stand before the first case *)
| tt_switch : forall i c e b f ps cases other fs c1 qs gs c2,
    text_tells i c b ps fs c1 -> assemble_switch (filter piece_says ps) = Some (cases, other) -> text_tells i c1 f qs gs c2 ->
    text_tells i c (G_in Switch e b f) (RcStm (RSwitch e cases other) :: qs) (fs ++ gs) c2
(* functions: of the template, or inside of a function *)
| tt_def : forall c d b f ps b' fs c1 qs gs c2,
    text_tells true c b ps fs c1 -> assemble ps = Some b' -> solid (or_pass b') -> text_tells false c1 f qs gs c2 ->
    text_tells false c (G_def d b f) qs (fs ++ Function (strip d) (or_pass b') :: gs) c2
| tt_inner : forall c d b f ps b' fs c1 qs gs c2,
    text_tells true c b ps fs c1 -> assemble ps = Some b' -> solid (or_pass b') -> text_tells true c1 f qs gs c2 ->
    text_tells true c (G_def d b f) (RcStm (RDef d (or_pass b')) :: qs) (fs ++ gs) c2
(* [$caller], and [%caller] in the call, stand for the name of the body *)
| tt_call : forall i c args call b f x ps b' fs c1 qs gs c2, gen x ->
    text_tells i c b ps fs c1 -> assemble ps = Some b' -> solid b' -> text_tells i c1 f qs gs c2 ->
    text_tells i c (G_call args call b f)
      (RcStm (RCall (replace (L "$caller") x (L "$caller(" ++ args ++ L ")")) (with_caller x (strip call)) b') :: qs) (fs ++ gs) c2
(* blocks are functions; they are called where they stand, but not if the template extends another *)
| tt_block : forall i c name b f ps b' fs qs gs c2,
    text_tells i c b ps fs false -> assemble ps = Some b' -> solid (or_pass b') -> text_tells i false f qs gs c2 ->
    text_tells i c (G_block name b f) (RcStm (RExpr (L "_kj_block_" ++ name ++ L "()") false) :: qs)
      (fs ++ Function (L "_kj_block_" ++ name ++ L "()") (or_pass b') :: gs) c2
| tt_override : forall i c name b f ps b' fs qs gs c2,
    text_tells i c b ps fs true -> assemble ps = Some b' -> text_tells i true f qs gs c2 ->
    text_tells i c (G_block name b f) qs
      (fs ++ Function (L "_kj_block_" ++ name ++ L "()") (RPython [L "parent_block=parent._kj_block_" ++ name] :: b') :: gs) c2
| tt_py : forall i c ls f qs gs c', text_tells i c f qs gs c' ->
    text_tells i c (G_py ls f) (RcStm (RPython ls) :: qs) gs c'
| tt_module : forall i c ls f qs gs c', text_tells i c f qs gs c' ->
    text_tells i c (G_module ls f) qs (ModuleCode ls :: gs) c'
| tt_extends : forall i c fn f qs gs c', text_tells i true f qs gs c' ->
    text_tells i c (G_extends fn f) (RcStm (RExtend fn) :: qs) gs c'
| tt_import : forall i c fn alias f qs gs c', text_tells i c f qs gs c' ->
    text_tells i c (G_import fn alias f) (RcStm (RImport fn alias) :: qs) gs c'
| tt_include : forall i c fn f qs gs c', text_tells i c f qs gs c' ->
    text_tells i c (G_include fn f) (RcStm (RInclude fn) :: qs) gs c'
| tt_nothing : forall i c f qs gs c', text_tells i c f qs gs c' -> text_tells i c (G_nothing f) qs gs c'.
End Tells.

(** Where items may be: a case in a switch, and there nothing but cases, an else and comments.  Python accepts more;
    see [S_Run.in_place]. *)
Fixpoint items_in_place (switch : bool) (f : tree) : Prop :=
  match f with
  | G_nil => True
  | G_in Case _ b f => switch = true /\ items_in_place false b /\ items_in_place switch f
  | G_in Else _ b f => items_in_place false b /\ items_in_place switch f
  | G_in Switch _ b f => switch = false /\ items_in_place true b /\ items_in_place switch f
  | G_in _ _ b f | G_def _ b f | G_call _ _ b f | G_block _ b f => switch = false /\ items_in_place false b /\ items_in_place switch f
  | G_py ls f => (switch = true -> forallb S_IR.ignored ls = true) /\ items_in_place switch f
  | G_text _ _ f | G_expr _ _ f | G_extends _ f | G_import _ _ f | G_include _ f => switch = false /\ items_in_place switch f
  | G_module _ f | G_nothing f => items_in_place switch f
  end.
(** The functions and blocks that items declare, by their declarations. *)
Fixpoint declared (inside : bool) (f : tree) : list str :=
  match f with
  | G_nil => []
  | G_in _ _ b f | G_call _ _ b f => declared inside b ++ declared inside f
  | G_def d b f => declared true b ++ (if inside then [] else [strip d]) ++ declared inside f
  | G_block name b f => declared inside b ++ [L "_kj_block_" ++ name ++ L "()"] ++ declared inside f
  | G_text _ _ f | G_expr _ _ f | G_py _ f | G_module _ f | G_extends _ f | G_import _ _ f | G_include _ f | G_nothing f => declared inside f
  end.

(** ** Whole templates *)
Section Sources.
Variable expat : str -> result (list event).
Variable compile : str -> compiled.
Variable shlex_split : str -> result (list str).
Variable exec_module : list (list str) -> list (str * M_Values.value).
Variable gen : str -> Prop.

(** What a text says: its tokens, what they are made into, what this says. *)
Inductive text_says (x : text_source) : reading -> Prop :=
| text_reading : forall ts f ps b fs c,
    t_file x = true \/ t_text x <> [] -> lex compile None 1 (t_text x) ts -> Forall block_on_a_line ts -> taken shlex_split f ts ->
    text_tells (t_autoescape x) gen false false f ps fs c -> assemble ps = Some b -> solid (or_pass b) ->
    text_says x (Reading b (functions fs) (modules fs)).
(** The class that a source describes. *)
Inductive any_tells : any_source -> cls (fobj dcode) (str * dcode) -> Prop :=
| any_xml : forall x c, source_tells expat compile exec_module gen x c -> any_tells (XmlFile x) c
| any_text : forall x r c, text_says x r -> class_tells r [] (objects (exec_module (r_module r))) c -> any_tells (TextFile x) c.
(** Cases are inside of a switch, functions have different names, and the text is one that C32 speaks about. *)
Definition text_placed (x : text_source) : Prop :=
  exists ts, lex compile None 1 (t_text x) ts /\ Forall block_on_a_line ts /\
    forall f, taken shlex_split f ts -> items_in_place false f /\ NoDup (L "__main__()" :: declared false f).
Definition any_says (x : any_source) (r : reading) : Prop :=
  match x with XmlFile x => xml_says expat compile gen x r | TextFile x => text_says x r end.
(** Sources that can be read, or will be refused; what they say uses only names of the user. *)
Definition a_template (py : python) (x : any_source) : Prop :=
  match x with
  | XmlFile x => a_source expat compile gen py x
  | TextFile x => (forall i, gen (t_helper x i)) /\ ((exists r, text_says x r) \/ text_placed x) /\ forall r, text_says x r -> user_reading py gen r
  end.
(** A loader finds the classes that its sources describe, and raises an error for those that say nothing. *)
Definition finds (sources : bool -> str -> result any_source) (load : bool -> str -> result (cls (fobj dcode) (str * dcode))) : Prop :=
  forall fragment name, match sources fragment name with
    | Ok x => (exists c, load fragment name = Ok c /\ any_tells x c) \/ ((forall r, ~ any_says x r) /\ exists e, load fragment name = Raise e)
    | Raise e => load fragment name = Raise e
    end.
End Sources.
