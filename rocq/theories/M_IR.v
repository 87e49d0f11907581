(** * Intermediate representation and generation of Python

    Model of [kajiki/ir.py].  No proofs here. *)

From Coq Require Import Ascii String List NArith ZArith Bool.
From Verif Require Import PyStr Regex.
Import ListNotations.
Open Scope list_scope.

(** ** [repr] of a string (CPython 3, [unicode_repr])

    [printable]: [str.isprintable] on non-ASCII characters. *)

Definition hex_digit (d : N) : char := if (d <? 10)%N then (48 + d)%N else (87 + d)%N.
Fixpoint hex_fixed (width : nat) (c : N) (acc : str) : str :=
  match width with
  | O => acc
  | S w => hex_fixed w (c / 16)%N (hex_digit (c mod 16)%N :: acc)
  end.

Definition repr_char (printable : char -> bool) (quote c : char) : str :=
  if N.eqb c quote || N.eqb c c_bsl then [c_bsl; c]
  else if N.eqb c c_tab then L "\t"
  else if N.eqb c c_nl then L "\n"
  else if N.eqb c c_cr then L "\r"
  else if ((c <? 32) || (c =? 127))%N then L "\x" ++ hex_fixed 2 c []
  else if (c <? 127)%N then [c]
  else if printable c then [c]
  else if (c <=? 255)%N then L "\x" ++ hex_fixed 2 c []
  else if (c <=? 65535)%N then L "\u" ++ hex_fixed 4 c []
  else L "\U" ++ hex_fixed 8 c [].

Definition repr (printable : char -> bool) (s : str) : str :=
  let quote := if cmem c_sq s && negb (cmem c_dq s) then c_dq else c_sq in
  [quote] ++ flat_map (repr_char printable quote) s ++ [quote].

(** ** Nodes

    One constructor per class; the first argument is [lineno] (the file name, which is
    only used in [PyLine.__repr__], is left out).  A guard is [None], or a string which
    counts as absent when empty.  Names that the Python code draws from [gen_name] are
    fields: ir.py draws some of them while generating code and this model beforehand,
    which changes their order only. *)
Inductive node : Type :=
| NPass (ln : nat)                                                       (* 38-41 *)
| NImport (ln : nat) (tpl : str) (alias : option str)                    (* 105-114 *)
| NInclude (ln : nat) (tpl : str)                                        (* 117-125 *)
| NExtend (ln : nat) (tpl : str)                                         (* 128-136 *)
| NDef (ln : nat) (inner : bool) (decl : str) (body : list node)         (* 139-163; inner: InnerDefNode *)
| NCall (ln : nat) (decl call : str) (body : list node)                  (* 166-191 *)
| NFor (ln : nat) (decl : str) (body : list node)                        (* 194-200 *)
| NWith (ln : nat) (vars : list (str * str)) (body : list node)          (* 203-240 *)
| NSwitch (ln : nat) (decl : str) (body : list node)                     (* 243-260 *)
| NCase (ln : nat) (decl : str) (body : list node)                       (* 263-269 *)
| NIf (ln : nat) (decl : str) (body : list node)                         (* 272-278 *)
| NElse (ln : nat) (body : list node)                                    (* 281-286 *)
| NText (ln : nat) (text : str) (guard : option str)                     (* 289-301 *)
| NTrans (ln : nat) (text : str) (guard : option str)                    (* 304-314 *)
| NExpr (ln : nat) (text : str) (safe : bool)                            (* 317-330 *)
| NAttr (ln : nat) (attr : str) (value : list node) (guard : option str) (mode gen gen2 x : str)
                       (* 333-375; gen2: name drawn by the inner AttrNode when guarded; x: by AttrTail *)
| NAttrs (ln : nat) (attrs : str) (guard : option str) (mode x : str)    (* 378-399 *)
| NPython (ln : nat) (lines : list str) (module_level : bool).           (* 402-429 *)

Definition truthy_guard (g : option str) : option str :=
  match g with Some [] => None | _ => g end.

(** ** Lines of Python

    One constructor per kind of line that ir.py writes. *)
Inductive pstmt : Type :=
| PText (guard : option str) (s : str)
| PGettext (guard : option str) (s : str)
| PYield (e : str)
| PEscape (e : str)
| PPass
| PYieldVar (x : str)
| PDefGen (name : str)
| PCollect (name : str)
| PForAttr (x attr name mode : str)
| PForAttrs (x e mode : str)
| PFor (decl : str)
| PIf (e : str)
| PCase (e : str)
| PElse
| PExpose
| PDecorate
| PDef (decl : str)
| PPushWith (names : list str)
| PAssign (k v : str)
| PPopWith (names : list str)
| PPushSwitch (e : str)
| PIfFalse
| PPopSwitch
| PImport (tpl : str) (alias : option str)
| PInclude (tpl : str)
| PExtend (tpl : str)
| PClass
| PTemplate
| PCode (line : str).

Section Show.
Variable printable : char -> bool.

Definition show_guarded (guard : option str) (s : str) : str :=
  match guard with
  | Some g => L "if " ++ g ++ L ": " ++ s
  | None => s
  end.

(** The text of a line. *)
Definition show (p : pstmt) : str :=
  match p with
  | PText g s => show_guarded g (L "yield " ++ repr printable s)                 (* 297-301 *)
  | PGettext g s => show_guarded g (L "yield local.__kj__.gettext(" ++ repr printable s ++ L ")")  (* 308-314 *)
  | PYield e => L "yield " ++ e                                                   (* 173, 328 *)
  | PEscape e => L "yield self.__kj__.escape(" ++ e ++ L ")"                      (* 330 *)
  | PPass => L "yield """""                                                       (* 41 *)
  | PYieldVar x => L "    yield " ++ x                                            (* 347, 392 *)
  | PDefGen n => L "def " ++ n ++ L "():"                                         (* 357 *)
  | PCollect n => n ++ L " = self.__kj__.collect(" ++ n ++ L "())"                (* 343 *)
  | PForAttr x a n m => L "for " ++ x ++ L " in self.__kj__.render_attrs({" ++ repr printable a ++ L ":" ++ n
                        ++ L "}, " ++ repr printable m ++ L "):"                  (* 344-346 *)
  | PForAttrs x e m => L "for " ++ x ++ L " in self.__kj__.render_attrs(" ++ e ++ L ", "
                        ++ repr printable m ++ L "):"                             (* 389-391 *)
  | PFor d => L "for " ++ d ++ L ":"                                              (* 200 *)
  | PIf e => L "if " ++ e ++ L ":"                                                (* 278, 394 *)
  | PCase e => L "elif local.__kj__.case(" ++ e ++ L "):"                         (* 269 *)
  | PElse => L "else:"                                                            (* 286 *)
  | PExpose => L "@kajiki.expose"                                                 (* 140 *)
  | PDecorate => L "@__kj__.flattener.decorate"                                   (* 163, 182 *)
  | PDef d => L "def " ++ d ++ L ":"                                              (* 148, 183 *)
  | PPushWith ns => L "local.__kj__.push_with(locals(), [" ++
                    join (L ",") (map (fun k => [c_dq] ++ k ++ [c_dq]) ns) ++ L "])"   (* 230-232 *)
  | PAssign k v => k ++ L " = " ++ v                                              (* 234 *)
  | PPopWith ns => L "(" ++ join (L ",") ns ++ L ",) = local.__kj__.pop_with()"   (* 213-214 *)
  | PPushSwitch e => L "local.__kj__.push_switch(" ++ e ++ L ")"                  (* 253 *)
  | PIfFalse => L "if False: pass"                                                (* 254 *)
  | PPopSwitch => L "local.__kj__.pop_switch()"                                   (* 246 *)
  | PImport t a => L "local.__kj__.import_(" ++ repr printable t ++ L ", " ++
                   match a with Some a => repr printable a | None => L "None" end ++
                   L ", self.__globals__)"                                        (* 112-114 *)
  | PInclude t => L "yield local.__kj__.import_(" ++ repr printable t ++
                  L ", None, self.__globals__).__main__()"                        (* 123-125 *)
  | PExtend t => L "yield local.__kj__.extend(" ++ repr printable t ++ L ").__main__()"   (* 134-136 *)
  | PClass => L "class template:"                                                 (* 95 *)
  | PTemplate => L "template = kajiki.Template(template)"                         (* 84 *)
  | PCode l => l                                                                  (* 417-418 *)
  end.
End Show.

(** ** Iterating over nodes

    What the iteration of a node yields: indentation marks, text nodes (which [optimize]
    may join), and other nodes, represented by the lines their [py] method yields; each
    line with its own [PyLine] indent (non-zero only for lines of a guarded [AttrsNode]). *)
Inductive item : Type :=
| IIndent
| IDedent
| IText (ln : nat) (text : str) (guard : option str)
| ILines (ln : nat) (lines : list (nat * pstmt)).

Definition at0 (l : list pstmt) : list (nat * pstmt) := map (fun p => (0, p)) l.

(** ir.py:289-301 and 304-314: the line of a text. *)
Definition text_stmt (text : str) (guard : option str) : pstmt := PText (truthy_guard guard) text.
Definition trans_stmt (text : str) (guard : option str) : pstmt :=
  match strip text with
  | [] => PText (truthy_guard guard) text
  | _ => PGettext (truthy_guard guard) text
  end.

Definition oseqb (a b : option str) : bool :=
  match a, b with
  | None, None => true
  | Some x, Some y => seqb x y
  | _, _ => false
  end.

(** ir.py:432-444 [optimize]; [last] is [last_node]. *)
Fixpoint optimize_from (last : option item) (l : list item) : list item :=
  match l with
  | [] => match last with Some n => [n] | None => [] end
  | node :: l' =>
      match node, last with
      | IText _ t g, Some (IText ln t0 g0) =>
          if oseqb g0 g then optimize_from (Some (IText ln (t0 ++ t) g0)) l'
          else IText ln t0 g0 :: optimize_from (Some node) l'
      | _, Some n => n :: optimize_from (Some node) l'
      | _, None => optimize_from (Some node) l'
      end
  end.
Definition optimize (l : list item) : list item := optimize_from None l.

(** [__iter__] of each class.  Nodes created during the iteration have line number 0
    (ir.py:24-26). *)
Fixpoint iter (n : node) : list item :=
  let body_iter := fun body => optimize ((fix go (l : list node) : list item :=
                     match l with [] => [] | m :: l' => iter m ++ go l' end) body) in   (* 51-53 *)
  match n with
  | NPass ln => [ILines ln (at0 [PPass])]
  | NImport ln t a => [ILines ln (at0 [PImport t a])]
  | NInclude ln t => [ILines ln (at0 [PInclude t])]
  | NExtend ln t => [ILines ln (at0 [PExtend t])]
  | NDef ln inner d body =>                                                             (* 150-159 *)
      ILines ln (at0 [if inner then PDecorate else PExpose; PDef d]) :: IIndent ::
      (match body_iter body with [] => [ILines 0 (at0 [PPass])] | b => b end) ++ [IDedent]
  | NCall ln d c body =>                                                                (* 185-191 *)
      ILines ln (at0 [PDecorate; PDef d]) :: IIndent :: body_iter body ++
      [IDedent; ILines 0 (at0 [PYield c])]
  | NFor ln d body => ILines ln (at0 [PFor d]) :: IIndent :: body_iter body ++ [IDedent]    (* 55-60 *)
  | NWith ln vars body =>                                                               (* 229-240 *)
      ILines ln (at0 (PPushWith (map fst vars) :: map (fun kv => PAssign (fst kv) (snd kv)) vars)) ::
      body_iter body ++ [ILines 0 (at0 [PPopWith (map fst vars)])]
  | NSwitch ln d body =>                                                                (* 252-260 *)
      ILines ln (at0 [PPushSwitch d; PIfFalse]) :: body_iter body ++ [ILines 0 (at0 [PPopSwitch])]
  | NCase ln d body => ILines ln (at0 [PCase d]) :: IIndent :: body_iter body ++ [IDedent]
  | NIf ln d body => ILines ln (at0 [PIf d]) :: IIndent :: body_iter body ++ [IDedent]
  | NElse ln body => ILines ln (at0 [PElse]) :: IIndent :: body_iter body ++ [IDedent]
  | NText ln t g => [IText ln t g]
  | NTrans ln t g => [ILines ln (at0 [trans_stmt t g])]
  | NExpr ln e safe => [ILines ln (at0 [if safe then PYield e else PEscape e])]
  | NAttr ln a value g mode gen gen2 x =>                                               (* 359-375 *)
      let attr := fun ln gen =>
        ILines ln (at0 [PDefGen gen]) :: IIndent ::
        (match value with [] => [IText 0 [] None] | _ => body_iter value end) ++
        [IDedent; ILines 0 (at0 [PCollect gen; PForAttr x a gen mode; PYieldVar x])] in
      match truthy_guard g with
      | Some c => ILines 0 (at0 [PIf c]) :: IIndent :: optimize (attr 0 gen2) ++ [IDedent]
      | None => attr ln gen
      end
  | NAttrs ln e g mode x =>                                                             (* 385-399 *)
      let body := [PForAttrs x e mode; PYieldVar x] in
      match truthy_guard g with
      | Some c => [ILines ln ((0, PIf c) :: map (fun p => (4, p)) body)]
      | None => [ILines ln (at0 body)]
      end
  | NPython ln lines _ => [ILines ln (at0 (map PCode lines))]
  end.
Definition body_iter (body : list node) : list item := optimize (flat_map iter body).

(** A [TemplateNode] (ir.py:71-102).  The compilers only put module-level [PythonNode]s in
    [mod_py]; each is given by its line number and its lines. *)
Record template := TemplateNode { t_lineno : nat; mod_py : list (nat * list str); defs : list node }.

Definition template_iter (t : template) : list item :=
  map (fun m => ILines (fst m) (at0 (map PCode (snd m)))) (mod_py t) ++
  ILines (t_lineno t) (at0 [PClass]) :: IIndent :: body_iter (defs t) ++
  [IDedent; ILines 0 (at0 [PTemplate])].

(** ** Lines *)

(** ir.py:448-460 [PyLine]. *)
Record pyline := PyLine { p_indent : nat; p_lineno : nat; p_stmt : pstmt }.

(** ir.py:12-20 [generate_python]. *)
Fixpoint generate_from (cur_indent : nat) (l : list item) : list pyline :=
  match l with
  | [] => []
  | IIndent :: l' => generate_from (cur_indent + 4) l'
  | IDedent :: l' => generate_from (cur_indent - 4) l'
  | IText ln t g :: l' => PyLine cur_indent ln (text_stmt t g) :: generate_from cur_indent l'
  | ILines ln ps :: l' =>
      map (fun p => PyLine (fst p + cur_indent) ln (snd p)) ps ++ generate_from cur_indent l'
  end.
Definition generate_python (t : template) : list pyline := generate_from 0 (template_iter t).

(** ir.py:459-460 [str(line)]; template.py:314 joins these with newlines. *)
Definition line_str (printable : char -> bool) (l : pyline) : str :=
  spaces (p_indent l) ++ show printable (p_stmt l).
Definition py_text (printable : char -> bool) (t : template) : str :=
  join [c_nl] (map (line_str printable) (generate_python t)).

(** ** Constructors that do more than storing their arguments *)

(** ir.py:175-179 [CallNode.__init__]; [fname] is the generated name. *)
Definition mk_call (ln : nat) (fname caller callee : str) (body : list node) : node :=
  NCall ln (replace (L "$caller") fname caller) (replace (L "$caller") fname callee) body.

(** ir.py:205 [assignment_pattern]. *)
Definition not_semi_eq (c : char) : bool := negb (N.eqb c c_semi) && negb (N.eqb c c_eq).
Definition assignment_pattern : re :=
  RSeq (RAlt RBol (RChr (N.eqb c_semi)))
  (RSeq (RRep 0 None is_space)
  (RSeq (RGrp 1 (RRep 1 None not_semi_eq))
  (RSeq (RChr (N.eqb c_eq)) (RNot (RChr (N.eqb c_eq)))))).

(** ir.py:219-227 and util.py:114-121 [window]. *)
Fixpoint assignments_from (vars : str) (matches : list mobj) : list (str * str) :=
  match matches with
  | [] => []
  | m1 :: rest =>
      let stop := match rest with m2 :: _ => mstart m2 | [] => length vars end in
      (strip (match group m1 1 with Some g => g | None => [] end), slice (mend m1) stop vars)
      :: assignments_from vars rest
  end.
(** With no match at all [window] yields a pair of [None], on which [.group] fails. *)
Definition with_vars (vars : str) : result (list (str * str)) :=
  match finditer assignment_pattern vars with
  | [] => Raise "AttributeError"
  | ms => Ok (assignments_from vars ms)
  end.
Definition mk_with (ln : nat) (vars : str) (body : list node) : result node :=
  rmap (fun vs => NWith ln vs body) (with_vars vars).

(** ir.py:420-429 [PythonNode._normalize]. *)
Fixpoint strip_prefix (prefix : option str) (lines : list str) : result (list str) :=
  match lines with
  | [] => Ok []
  | line :: rest =>
      let p := match prefix with
               | Some p => p
               | None => firstn (length line - length (lstrip line)) line
               end in
      if prefixb p line then rmap (cons (skipn (length p) line)) (strip_prefix (Some p) rest)
      else Raise "AssertionError"
  end.
Definition normalize (text : str) : result (list str) :=
  let text := if prefixb (L "#" ++ [c_nl]) text then skipn 2 text else text in
  strip_prefix None (splitlines text).
(** ir.py:403-414 [PythonNode.__init__], on the texts of its body. *)
Definition mk_python (ln : nat) (blocks : list str) : result node :=
  let text := concat blocks in
  match text with
  | [] => Raise "IndexError"
  | c :: text' =>
      if N.eqb c c_pct then rmap (fun ls => NPython ln ls true) (normalize text')
      else rmap (fun ls => NPython ln ls false) (normalize text)
  end.

(** ** Effect of generation on the nodes

    [optimize] appends to the text of the first node of a run of texts: the body of a
    node afterwards (ir.py:437). *)
Fixpoint absorb (t : str) (g : option str) (l : list node) : str :=
  match l with
  | NText _ t' g' :: l' => if oseqb g g' then absorb (t ++ t') g l' else t
  | _ => t
  end.
Fixpoint mutate_body (prev : option (option str)) (l : list node) : list node :=
  match l with
  | [] => []
  | NText ln t g :: l' =>
      let joins := match prev with Some g0 => oseqb g0 g | None => false end in
      (if joins then NText ln t g else NText ln (absorb t g l') g) :: mutate_body (Some g) l'
  | m :: l' => m :: mutate_body None l'
  end.
Fixpoint mutate (n : node) : node :=
  let body_after := fun body => mutate_body None (map mutate body) in
  match n with
  | NDef ln i d b => NDef ln i d (body_after b)
  | NCall ln d c b => NCall ln d c (body_after b)
  | NFor ln d b => NFor ln d (body_after b)
  | NWith ln v b => NWith ln v (body_after b)
  | NSwitch ln d b => NSwitch ln d (body_after b)
  | NCase ln d b => NCase ln d (body_after b)
  | NIf ln d b => NIf ln d (body_after b)
  | NElse ln b => NElse ln (body_after b)
  | NAttr ln a v g m gen gen2 x => NAttr ln a (body_after v) g m gen gen2 x
  | _ => n
  end.
Definition template_after (t : template) : template :=
  TemplateNode (t_lineno t) (mod_py t) (mutate_body None (map mutate (defs t))).
(** Generating code draws the names [gen2] and [x] (ir.py:342, 365, 386), so that generating it again draws
    other names: [draw] gives the name drawn in place of each.  (Simplification: in the code the new names come from
    the generator of names of the thread, [M_NameGen].) *)
Fixpoint redraw (draw : str -> str) (n : node) : node :=
  match n with
  | NDef ln i d b => NDef ln i d (map (redraw draw) b)
  | NCall ln d c b => NCall ln d c (map (redraw draw) b)
  | NFor ln d b => NFor ln d (map (redraw draw) b)
  | NWith ln v b => NWith ln v (map (redraw draw) b)
  | NSwitch ln d b => NSwitch ln d (map (redraw draw) b)
  | NCase ln d b => NCase ln d (map (redraw draw) b)
  | NIf ln d b => NIf ln d (map (redraw draw) b)
  | NElse ln b => NElse ln (map (redraw draw) b)
  | NAttr ln a v g m gen gen2 x => NAttr ln a (map (redraw draw) v) g m gen (draw gen2) (draw x)
  | NAttrs ln e g m x => NAttrs ln e g m (draw x)
  | _ => n
  end.
Definition template_redrawn (draw : str -> str) (t : template) : template :=
  TemplateNode (t_lineno t) (mod_py t) (map (redraw draw) (defs t)).
Definition template_again (draw : str -> str) (t : template) : template := template_redrawn draw (template_after t).
