(** * Specification: what a whole template means

    A direct reading of the tree, as in [S_Exec], now with functions, calls, inheritance and inclusion:
    no Python text, no save stacks, no generated names.  Names are Python's (a name that a function
    binds anywhere is local to it). *)

From Coq Require Import Ascii String List NArith ZArith Bool.
From Verif Require Import PyStr M_Values M_IR M_Template M_Run.
From Verif Require M_Exec S_Exec.
Import ListNotations.
Open Scope list_scope.

(** ** Structure *)

(** Directives with their else parts ([[]] if there is none). *)
Inductive rstm : Type :=
| RPass
| RText (t : str) (g : option str)
| RTrans (t : str) (g : option str)
| RExpr (x : str) (safe : bool)
| RIf (c : str) (b els : list rstm)
| RFor (d : str) (b els : list rstm)
| RWith (vars : list (str * str)) (b : list rstm)
| RSwitch (d : str) (cases : list (str * list rstm)) (els : list rstm)
| RAttr (a : str) (v : list rstm) (g : option str) (mode : str)
| RAttrs (x : str) (g : option str) (mode : str)
| RDef (d : str) (b : list rstm)                     (* a function inside of a function *)
| RCall (d c : str) (b : list rstm)                  (* function [d] with body [b], then the call [c] *)
| RImport (t : str) (alias : option str)
| RInclude (t : str)
| RExtend (t : str)
| RPython (lines : list str).

(** A node by itself: a directive, or a part of one. *)
Inductive rpiece : Type :=
| RcStm (s : rstm)
| RcElse (b : list rstm)
| RcCase (c : str) (b : list rstm).

(** Comments say nothing. *)
Definition says_something (s : rstm) : bool := match s with RPython lines => negb (forallb S_IR.ignored lines) | _ => true end.
Definition piece_says (p : rpiece) : bool := match p with RcStm s => says_something s | _ => true end.

(** What an else may belong to: an if, a loop, and what has a condition, such as the end tag of an element with
    py:strip.  Attributes are written by a loop. *)
Definition with_else (s : rstm) (els : list rstm) : option (list rstm) :=
  match s with
  | RIf c b _ => Some [RIf c b els]
  | RFor d b _ => Some [RFor d b els]
  | RText t g => option_map (fun c => [RIf c [RText t None] els]) (truthy_guard g)
  | RTrans t g => option_map (fun c => [RIf c [RTrans t None] els]) (truthy_guard g)
  | RAttr a v g mode =>
      Some (match truthy_guard g with Some c => [RIf c [RAttr a v None mode] els] | None => RAttr a v None mode :: els end)
  | RAttrs x g mode =>
      Some (match truthy_guard g with Some c => [RIf c [RAttrs x None mode] els] | None => RAttrs x None mode :: els end)
  | _ => None
  end.
(** An else belongs to what comes right before it, comments aside.  The else at the beginning, if there is one, and
    what follows. *)
Fixpoint attach (l : list rpiece) : option (option (list rstm) * list rstm) :=
  match l with
  | [] => Some (None, [])
  | RcStm s :: l' =>
      match attach l' with
      | Some (None, r) => Some (None, s :: r)
      | Some (Some els, r) =>
          if says_something s then option_map (fun s' => (None, s' ++ r)) (with_else s els) else Some (Some els, s :: r)
      | None => None
      end
  | RcElse els :: l' => match attach l' with Some (None, r) => Some (Some els, r) | _ => None end
  | RcCase _ _ :: _ => None
  end.
Definition assemble (l : list rpiece) : option (list rstm) :=
  match attach l with Some (None, r) => Some r | _ => None end.
(** In a switch: cases, then possibly an else. *)
Fixpoint assemble_switch (l : list rpiece) : option (list (str * list rstm) * list rstm) :=
  match l with
  | [] => Some ([], [])
  | [RcElse els] => Some ([], els)
  | RcCase c b :: l' => option_map (fun ce => ((c, b) :: fst ce, snd ce)) (assemble_switch l')
  | _ => None
  end.

Notation obind := S_Exec.obind.

(** A function or an attribute with nothing in it shows the empty text. *)
Definition or_empty (l : list rstm) : list rstm := match l with [] => [RText [] None] | _ => l end.
Definition or_pass (l : list rstm) : list rstm := match l with [] => [RPass] | _ => l end.

(** Python has no empty blocks, and comments do not count. *)
Definition not_empty (l : list rstm) : option (list rstm) := if existsb says_something l then Some l else None.

Fixpoint piece_of (n : node) : option rpiece :=
  let pieces := (fix go (l : list node) : option (list rpiece) :=
     match l with
     | [] => Some []
     | m :: l' => obind (piece_of m) (fun p => option_map (cons p) (go l'))
     end) in
  let body := fun l => obind (pieces l) assemble in
  let block := fun l => obind (body l) not_empty in
  let block_or := fun f l => obind (body l) (fun b => not_empty (f b)) in
  match n with
  | NPass _ => Some (RcStm RPass)
  | NText _ t g => Some (RcStm (RText t g))
  | NTrans _ t g => Some (RcStm (RTrans t g))
  | NExpr _ x safe => Some (RcStm (RExpr x safe))
  | NIf _ c b => option_map (fun b' => RcStm (RIf c b' [])) (block b)
  | NElse _ b => option_map RcElse (block b)
  | NFor _ d b => option_map (fun b' => RcStm (RFor d b' [])) (block b)
  | NWith _ vars b => option_map (fun b' => RcStm (RWith vars b')) (body b)
  | NSwitch _ d b => option_map (fun ce => RcStm (RSwitch d (fst ce) (snd ce))) (obind (pieces b) (fun ps => assemble_switch (filter piece_says ps)))
  | NCase _ c b => option_map (RcCase c) (block b)
  | NAttr _ a v g mode _ _ _ => option_map (fun v' => RcStm (RAttr a v' g mode)) (block_or or_empty v)
  | NAttrs _ x g mode _ => Some (RcStm (RAttrs x g mode))
  | NDef _ true d b => option_map (fun b' => RcStm (RDef d b')) (block_or or_pass b)
  | NCall _ d c b => option_map (fun b' => RcStm (RCall d c b')) (block b)
  | NImport _ t a => Some (RcStm (RImport t a))
  | NInclude _ t => Some (RcStm (RInclude t))
  | NExtend _ t => Some (RcStm (RExtend t))
  | NPython _ lines false => Some (RcStm (RPython lines))
  | _ => None                             (* functions and module-level code of the template itself *)
  end.
Fixpoint pieces_of (l : list node) : option (list rpiece) :=
  match l with
  | [] => Some []
  | m :: l' => obind (piece_of m) (fun p => option_map (cons p) (pieces_of l'))
  end.
Definition structure (l : list node) : option (list rstm) := obind (pieces_of l) assemble.

(** ** Meaning *)
Notation dcode := (list rstm).
Notation dval := (gval (fobj dcode) (str * dcode)).
Notation dworld := (world dcode).
(** What is shown, and the world afterwards. *)
Notation meant := (result (list value * dworld)).

(** One after the other. *)
Definition then_ (a : meant) (f : dworld -> meant) : meant :=
  rbind a (fun ow => rmap (fun ow' => (fst ow ++ fst ow', snd ow')) (f (snd ow))).

Section Meaning.
Variable py : python.

(** The names a function binds. *)
Fixpoint binds (s : rstm) : list str :=
  let all := fix go (l : list rstm) : list str := match l with [] => [] | s :: l' => binds s ++ go l' end in
  match s with
  | RIf _ b els => all b ++ all els
  | RFor d b els => fst (parse_for py d) ++ all b ++ all els
  | RWith vars b => map fst vars ++ all b
  | RSwitch _ cases els =>
      (fix go (l : list (str * list rstm)) : list str := match l with [] => [] | (_, b) :: l' => all b ++ go l' end) cases
      ++ all els
  | RDef d _ | RCall d _ _ => [fun_name d]
  | RPython lines => flat_map pystm_names (python_of py lines)
  | _ => []
  end.

Variable load : bool -> str -> result (cls (fobj dcode) (str * dcode)).
Variable invoke : callable dcode -> list (str * dval) -> dworld -> meant.
Variable p : place.

(** Once per round, each round starting with its own variables set. *)
Fixpoint for_each (body : dworld -> meant) (l : list (list (str * dval))) (w : dworld) : meant :=
  match l with
  | [] => Ok ([], w)
  | r :: l' => then_ (body (set_names w p r)) (for_each body l')
  end.
(** Under a condition; the empty condition counts as no condition. *)
Definition under (g : option str) (w : dworld) (shown : meant) : meant :=
  match truthy_guard g with
  | None => shown
  | Some c => rbind (condition py w p c) (fun b : bool => if b then shown else Ok ([], w))
  end.
(** The variables of a py:with, in order; later ones see earlier ones. *)
Fixpoint assigns (vars : list (str * str)) (w : dworld) : result dworld :=
  match vars with
  | [] => Ok w
  | (k, x) :: vars' => rbind (eval py w p (parse py x)) (fun v => assigns vars' (set_name w p k v))
  end.
(** The values variables have; the empty tuple for those that have none. *)
Definition old_values (ks : list str) (w : dworld) : list (str * dval) :=
  map (fun k => (k, match local_value w p k with Some v => v | None => val M_Exec.unit_value end)) ks.
(** Showing the result of a function. *)
Definition show_call (c : callable dcode) (w : dworld) : meant :=
  rmap (fun vw => ([fst vw], snd vw)) (call_function py invoke c [] w).
Definition define (d : str) (b : dcode) (w : dworld) : dworld :=
  set_name w p (fun_name d) (GObj _ _ (RC d b (p_inst p) (p_scopes p))).

Fixpoint meaning (s : rstm) (w : dworld) : meant :=
  let body := (fix go (l : list rstm) (w : dworld) : meant :=
     match l with [] => Ok ([], w) | m :: l' => then_ (meaning m w) (go l') end) in
  match s with
  | RPass => Ok ([VStr []], w)
  | RText t g => under g w (Ok ([VStr t], w))
  | RTrans t g => under g w (match strip t with
                             | [] => Ok ([VStr t], w)
                             | _ => rmap (fun v => ([v], w)) (translate py w p t)
                             end)
  | RExpr x safe =>
      rmap (fun vw => ([if safe then fst vw else escape (fst vw)], snd vw)) (show_value py (fun w => w) invoke p x w)
  | RIf c b els => rbind (condition py w p c) (fun t : bool => if t then body b w else body els w)
  | RFor d b els => rbind (rounds py w p d) (fun l => then_ (for_each (body b) l w) (body els))
  | RWith vars b =>
      rbind (assigns vars w) (fun w1 =>
      rmap (fun ow => (fst ow, set_names (snd ow) p (old_values (map fst vars) w))) (body b w1))
  | RSwitch d cases els =>
      rbind (evalue py w p d) (fun x =>
        (fix first (cases : list (str * list rstm)) : meant :=
           match cases with
           | [] => body els w
           | (c, b) :: cases' =>
               rbind (evalue py w p c) (fun v => if veq py v x then body b w else first cases')
           end) cases)
  | RAttr a v g mode =>                              (* the value is computed like a function *)
      under g w
        (rbind (invoke ([], v, p_inst p, p_scopes p) [] w) (fun ow =>
         rbind (collect (fst ow)) (fun x =>
         rmap (fun chunks => (map VStr chunks, snd ow)) (render_attrs [(a, x)] mode))))
  | RAttrs x g mode =>
      under g w
        (rbind (attributes py w p x) (fun attrs =>
         rmap (fun chunks => (map VStr chunks, w)) (render_attrs attrs mode)))
  | RDef d b => Ok ([], define d b w)
  | RCall d c b =>
      rmap (fun vw => ([fst vw], snd vw)) (show_value py (fun w => w) invoke p c (define d b w))
  | RImport t a => rmap (fun wr => ([], fst wr)) (import_template py load w p t a)
  | RInclude t =>
      rbind (import_template py load w p t None) (fun wr =>
      rbind (main_of py (w_heap (fst wr)) (snd wr)) (fun c => show_call c (fst wr)))
  | RExtend t =>
      rbind (extend_template py load w p t) (fun wr =>
      rbind (main_of py (w_heap (fst wr)) (snd wr)) (fun c => show_call c (fst wr)))
  | RPython lines => run_block py w p (python_of py lines)
  end.
Fixpoint means (l : list rstm) (w : dworld) : meant :=
  match l with [] => Ok ([], w) | m :: l' => then_ (meaning m w) (means l') end.
End Meaning.

Section Whole.
Variable py : python.
Variable load : bool -> str -> result (cls (fobj dcode) (str * dcode)).

(** Calling a function: its parameters, and the names it binds, are its own. *)
Fixpoint apply (depth : nat) (c : callable dcode) (params : list (str * dval)) (w : dworld) : meant :=
  match depth with
  | O => Raise "RecursionError"
  | S depth' =>
      let '(_, body, inst, scopes) := c in
      let fr := Frame (map fst params ++ flat_map (binds py) body) params in
      means py load (apply depth') (Place inst (length (w_frames w) :: scopes)) body
        (World (w_heap w) (w_frames w ++ [fr]))
  end.
Definition template_means (depth : nat) (c : cls (fobj dcode) (str * dcode)) (context : dict (fobj dcode) (str * dcode)) : result str :=
  let (h, i) := new _ _ [] c (Given _ _ context) in
  rbind (main_of py h i) (fun f =>
  rmap (fun vw => render [fst vw]) (call_function py (apply depth) f [] (World h []))).
End Whole.

(** The functions of a template; of several with the same name the last one counts. *)
Fixpoint functions_of (l : list node) : option (list (str * (str * dcode))) :=
  match l with
  | [] => Some []
  | NDef _ false d b :: l' =>
      obind (obind (structure b) (fun b' => not_empty (or_pass b'))) (fun b' => option_map (cons (fun_name d, (d, b'))) (functions_of l'))
  | _ => None
  end.
Definition last_ones (l : list (str * (str * dcode))) : list (str * (str * dcode)) :=
  sort_attrs (fold_left (fun d kf => set (fst kf) (snd kf) d) l []).
Definition directive_class (t : template) (given module : dict (fobj dcode) (str * dcode))
  : option (cls (fobj dcode) (str * dcode)) :=
  option_map (fun fs => from_ir _ _ (last_ones fs) given module) (functions_of (defs t)).

(** A template that has no reading is refused when it is loaded, and so is one without functions. *)
Definition meaning_of (f : file) : result (cls (fobj dcode) (str * dcode)) :=
  let '(t, given, module) := f in
  match defs t, directive_class t (objects given) (objects module) with
  | _ :: _, Some c => Ok c
  | _, _ => Raise "KajikiSyntaxError"
  end.
(** What a file shows, given a context. *)
Definition file_means (py : python) (files : bool -> str -> result file) (depth : nat) (f : file) (context : list (str * value)) : result str :=
  rbind (meaning_of f) (fun c => template_means py (fun fragment name => rbind (files fragment name) meaning_of) depth c (objects context)).

(** ** Names

    [gen]: the names of the functions and variables that are generated for attributes. *)
Definition reserved : list str := [L "local"; L "self"; L "__kj__"].
Section Names.
Variable py : python.
Variable gen : str -> Prop.

Definition a_name (x : str) : Prop := ~ gen x /\ ~ In x reserved.
Definition callee_names (c : callee) : list str := match c with ByName f => [f] | ByAttr o _ => [o] end.
Definition arg_names (a : arg) : list str := match a with ArgName x => [x] | ArgFun xs _ => xs end.
Definition expr_names (e : expr) : list str :=
  match e with
  | EName x => [x]
  | EAttr o _ => [o]
  | EFun xs _ => xs
  | ECall c args => callee_names c ++ flat_map (fun ka => arg_names (snd ka)) args
  end.
(** The user's expressions do not use the generated names. *)
Definition user (x : str) : Prop := Forall (fun y => ~ gen y) (expr_names (parse py x)).
Definition user_for (d : str) : Prop :=
  Forall a_name (fst (parse_for py d)) /\ Forall (fun y => ~ gen y) (expr_names (snd (parse_for py d))).
(** Embedded Python neither reads nor binds them, and does not bind kajiki's own. *)
Definition user_stm (s : pystm) : Prop :=
  match s with
  | PySet x e => a_name x /\ Forall (fun y => ~ gen y) (expr_names e)
  | PyRun xs ys _ => Forall a_name ys /\ Forall (fun y => ~ gen y) xs
  end.
(** The call of a py:call uses the function it defines, whose name is a generated one. *)
Definition user_call (d c : str) : Prop := Forall (fun y => ~ gen y \/ y = fun_name d) (expr_names (parse py c)).
(** A declaration binds no reserved name, and the parameters are not generated names. *)
Definition a_decl (d : str) : Prop :=
  ~ In (fun_name d) reserved /\ forall ks l, bind_params py d ks = Ok l -> Forall (fun xa => a_name (fst xa)) l.
Definition user_guard (g : option str) : Prop :=
  match truthy_guard g with Some c => user c | None => True end.
(** The name under which an imported template is known. *)
Definition alias_name (t : str) (a : option str) : str := match a with Some a => a | None => M_Loader.default_alias_for t end.

Fixpoint well_named (n : node) : Prop :=
  let all := fix go (l : list node) : Prop := match l with [] => True | m :: l' => well_named m /\ go l' end in
  match n with
  | NText _ _ g | NTrans _ _ g => user_guard g
  | NExpr _ x _ => user x
  | NIf _ c b => user c /\ all b
  | NElse _ b => all b
  | NFor _ d b => user_for d /\ all b
  | NWith _ vars b => Forall (fun kx => M_Exec.is_name (fst kx) = true /\ a_name (fst kx) /\ user (snd kx)) vars /\ all b
  | NSwitch _ d b => user d /\ all b
  | NCase _ c b => user c /\ all b
  | NAttr _ _ v g _ g1 g2 x => user_guard g /\ gen g1 /\ gen g2 /\ gen x /\ all v
  | NAttrs _ e g _ x => user_guard g /\ user e /\ gen x
  | NDef _ _ d b => a_decl d /\ all b
  | NCall _ d c b => a_decl d /\ user_call d c /\ all b
  | NPython _ lines _ => Forall user_stm (python_of py lines)
  | NImport _ t a => ~ In (alias_name t a) reserved
  | NInclude _ t => ~ In (alias_name t None) reserved
  | _ => True
  end.

(** Where the parts of a template may be: a case in a switch, where there is nothing but cases, an else and comments;
    functions for other templates and module-level Python not inside of functions.  Python accepts more: a case
    after an if, text between the cases. *)
Fixpoint in_place (switch : bool) (n : node) : Prop :=
  let all := fix go (switch : bool) (l : list node) : Prop := match l with [] => True | m :: l' => in_place switch m /\ go switch l' end in
  match n with
  | NCase _ _ b => switch = true /\ all false b
  | NElse _ b => all false b
  | NPython _ lines module => module = false /\ (switch = true -> forallb S_IR.ignored lines = true)
  | NSwitch _ _ b => switch = false /\ all true b
  | NDef _ inner _ b => switch = false /\ inner = true /\ all false b
  | NCall _ _ _ b | NFor _ _ b | NWith _ _ b | NIf _ _ b | NAttr _ _ b _ _ _ _ _ => switch = false /\ all false b
  | _ => switch = false
  end.
Definition function_in_place (n : node) : Prop :=
  match n with NDef _ false _ b => Forall (in_place false) b | _ => False end.

(** Names of objects: none twice, none of kajiki's own. *)
Definition object_names (l : list (str * value)) : Prop := NoDup (map fst l) /\ Forall (fun k => ~ In k reserved) (map fst l).
Definition a_file (f : file) : Prop :=
  let '(t, given, module) := f in
  Forall function_in_place (defs t) /\ Forall well_named (defs t) /\ object_names given /\ object_names module.

(** The generated names are names, and not those of kajiki itself. *)
Definition generated_names : Prop := forall x, gen x -> parse py x = EName x /\ ~ In x reserved.
End Names.
