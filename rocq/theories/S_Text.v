(** * Specification: the lexical grammar of text templates, and block structure *)

From Coq Require Import Ascii String List NArith ZArith Bool.
From Verif Require Import PyStr Regex M_IR M_Text M_NameGen.
Import ListNotations.
Open Scope list_scope.

(** ** Lexical grammar *)

Definition letter (c : char) : Prop := is_az c = true.
Definition space (c : char) : Prop := is_space c = true.
Definition blank (c : char) : Prop := c = c_sp \/ c = c_tab.
(** [s] does not go on with a character of a class. *)
Definition stops (p : char -> Prop) (s : str) : Prop := match s with [] => True | c :: _ => ~ p c end.
(** At the beginning of a line, [prev] being the character before. *)
Definition line_start (prev : option char) : Prop := prev = None \/ prev = Some c_nl.
Definition last_of (prev : option char) (s : str) : option char := fold_left (fun _ c => Some c) s prev.

(** The line and the column, counted from 1, of what stands after a text. *)
Inductive place : str -> nat -> nat -> Prop :=
| pl_start : place [] 1 1
| pl_newline : forall s l o, place s l o -> place (s ++ [c_nl]) (l + 1) 1
| pl_char : forall s l o c, c <> c_nl -> place s l o -> place (s ++ [c]) l (o + 1).
(** Letters, as patterns see them that ignore the case: some that are not ASCII count as [i], [s] and [k]. *)
Definition letters : str :=
  L "abcdefghijklmnopqrstuvwxyzABCDEFGHIJKLMNOPQRSTUVWXYZ" ++ [304; 305; 383; 8490]%N.

(** Something other than text begins here. *)
Definition begins (prev : option char) (s : str) : Prop :=
  (exists v, s = c_dollar :: v) \/
  (exists v, s = L "{%" ++ v) \/
  (line_start prev /\ exists ws c v, Forall space ws /\ letter c /\
     (s = ws ++ L "%" ++ c :: v \/ s = ws ++ L "{%-" ++ c :: v)).
(** Nothing begins inside [t] when [s] follows. *)
Definition only_text (prev : option char) (t s : str) : Prop :=
  forall t1 t2, t = t1 ++ t2 -> t2 <> [] -> ~ begins (last_of prev t1) (t2 ++ s).

(** How a tag in braces ends: [%}], or [-%}] and then blanks are skipped. *)
Inductive tag_close (body : str) : str -> str -> str -> Prop :=
| close_plain : forall s, suffixb (L "-") body = false -> tag_close body [] [] s
| close_dash : forall bl s, Forall blank bl -> s <> [] -> stops blank s -> tag_close body (L "-") bl s.

(** [grammar prev ln s ts]: [s], standing after the character [prev] on line [ln], is read as
    the tokens [ts].  [compile s = CErr l o] says that Python stops reading an expression at line [l],
    column [o] of [s]; its place is given by [expr_end]. *)
Section Grammar.
Variable compile : str -> compiled.

Inductive grammar : option char -> nat -> str -> list tok -> Prop :=
| g_end : forall prev ln, grammar prev ln [] []
| g_text : forall prev ln t s ts, t <> [] -> only_text prev t s ->
    grammar (last_of prev t) (ln + count_nl t) s ts ->
    grammar prev ln (t ++ s) (TText (ln + count_nl t) t :: ts)
| g_dollar : forall prev ln s ts,
    grammar (Some c_dollar) ln s ts ->
    grammar prev ln (L "$$" ++ s) (TText ln (L "$") :: ts)
| g_name : forall prev ln c n s ts,
    name_start c = true -> Forall (fun c => name_rest c = true) n -> stops (fun c => name_rest c = true) s ->
    grammar (last_of None (c :: n)) ln s ts ->
    grammar prev ln (L "$" ++ (c :: n) ++ s) (TExpr ln (c :: n) :: ts)
| g_braced : forall prev ln e s l o ts,
    compile (e ++ L "}" ++ s) = CErr l o -> expr_end (e ++ L "}" ++ s) l o = length e + 1 ->
    grammar (Some c_rbrace) (ln + count_nl e) s ts ->
    grammar prev ln (L "${" ++ e ++ L "}" ++ s) (TExpr (ln + count_nl e) e :: ts)
| g_line : forall prev ln ws name body s ts,
    line_start prev -> Forall space ws -> name <> [] -> Forall letter name -> stops letter body -> ~ In c_nl body ->
    grammar (Some c_nl) (ln + 1) s ts ->
    grammar prev ln (ws ++ L "%" ++ name ++ body ++ [c_nl] ++ s) (TTag (ln + 1) name body :: ts)
| g_last_line : forall prev ln ws name body,
    line_start prev -> Forall space ws -> name <> [] -> Forall letter name -> stops letter body -> ~ In c_nl body ->
    grammar prev ln (ws ++ L "%" ++ name ++ body) [TTag (ln + 1) name body; TText (ln + 1) []]
| g_tag : forall prev ln opening name body dash bl s ts,
    opening = L "{%" \/ (line_start prev /\ exists ws, Forall space ws /\ opening = ws ++ L "{%-") ->
    name <> [] -> Forall letter name -> stops letter body ->
    tag_close body dash bl s ->
    find (L "%}") (body ++ dash ++ L "%}" ++ bl ++ s) = Some (length (body ++ dash)) ->
    grammar (last_of (Some c_rbrace) bl) (ln + count_nl body) s ts ->
    grammar prev ln (opening ++ name ++ body ++ dash ++ L "%}" ++ bl ++ s) (TTag ln name body :: ts).
End Grammar.

(** ** The same exactly: how text is cut, and what may stand in expressions and tags *)

(** A percent sign at the beginning of a line that begins no tag is text; the scanner cuts the text before it. *)
Definition stray (prev : option char) (head s : str) : Prop :=
  line_start prev /\ stops letter s /\ exists ws, Forall space ws /\ head = ws ++ L "%".
Definition strays (prev : option char) (s : str) : Prop := exists head v, s = head ++ v /\ stray prev head v.
(** [t] is the text up to [s]: to the end, to the next thing that begins or to the next such percent sign. *)
Inductive text_to (prev : option char) : str -> str -> Prop :=
| text_piece : forall head t s, head ++ t <> [] -> head = [] \/ stray prev head (t ++ s) ->
    (forall t1 t2, t = t1 ++ t2 -> t2 <> [] ->
       ~ begins (last_of prev (head ++ t1)) (t2 ++ s) /\ ~ strays (last_of prev (head ++ t1)) (t2 ++ s)) ->
    s = [] \/ begins (last_of prev (head ++ t)) s \/ strays (last_of prev (head ++ t)) s ->
    text_to prev (head ++ t) s.
(** As [grammar], but nothing that begins something may stand inside of an expression or a tag. *)
Section Lex.
Variable compile : str -> compiled.

Inductive lex : option char -> nat -> str -> list tok -> Prop :=
| l_end : forall prev ln, lex prev ln [] []
| l_text : forall prev ln t s ts, text_to prev t s ->
    lex (last_of prev t) (ln + count_nl t) s ts ->
    lex prev ln (t ++ s) (TText (ln + count_nl t) t :: ts)
| l_dollar : forall prev ln s ts,
    lex (Some c_dollar) ln s ts ->
    lex prev ln (L "$$" ++ s) (TText ln (L "$") :: ts)
| l_name : forall prev ln c n s ts,
    name_start c = true -> Forall (fun c => name_rest c = true) n -> stops (fun c => name_rest c = true) s ->
    lex (last_of None (c :: n)) ln s ts ->
    lex prev ln (L "$" ++ (c :: n) ++ s) (TExpr ln (c :: n) :: ts)
| l_braced : forall prev ln e s l o ts,
    compile (e ++ L "}" ++ s) = CErr l o -> expr_end (e ++ L "}" ++ s) l o = length e + 1 ->
    only_text (Some c_lbrace) (e ++ L "}") s ->
    lex (Some c_rbrace) (ln + count_nl e) s ts ->
    lex prev ln (L "${" ++ e ++ L "}" ++ s) (TExpr (ln + count_nl e) e :: ts)
| l_line : forall prev ln ws name body s ts,
    line_start prev -> Forall space ws -> name <> [] -> Forall letter name -> stops letter body -> ~ In c_nl body ->
    only_text (last_of None name) body ([c_nl] ++ s) ->
    lex (Some c_nl) (ln + 1) s ts ->
    lex prev ln (ws ++ L "%" ++ name ++ body ++ [c_nl] ++ s) (TTag (ln + 1) name body :: ts)
| l_last_line : forall prev ln ws name body,
    line_start prev -> Forall space ws -> name <> [] -> Forall letter name -> stops letter body -> ~ In c_nl body ->
    only_text (last_of None name) body [] ->
    lex prev ln (ws ++ L "%" ++ name ++ body) [TTag (ln + 1) name body; TText (ln + 1) []]
| l_tag : forall prev ln opening name body dash bl s ts,
    opening = L "{%" \/ (line_start prev /\ exists ws, Forall space ws /\ opening = ws ++ L "{%-") ->
    name <> [] -> Forall letter name -> stops letter body ->
    tag_close body dash bl s ->
    find (L "%}") (body ++ dash ++ L "%}" ++ bl ++ s) = Some (length (body ++ dash)) ->
    only_text (last_of None name) (body ++ dash ++ L "%}") (bl ++ s) ->
    lex (last_of (Some c_rbrace) bl) (ln + count_nl body) s ts ->
    lex prev ln (opening ++ name ++ body ++ dash ++ L "%}" ++ bl ++ s) (TTag ln name body :: ts).
End Lex.

(** What a token is made from. *)
Inductive spells : str -> tok -> Prop :=
| sp_text : forall ln t, spells t (TText ln t)
| sp_dollar : forall ln, spells (L "$$") (TText ln (L "$"))
| sp_name : forall ln e, spells (L "$" ++ e) (TExpr ln e)
| sp_braced : forall ln e, spells (L "${" ++ e ++ L "}") (TExpr ln e)
| sp_line : forall ln ws name body nl, Forall space ws -> nl = [c_nl] \/ nl = [] ->
    spells (ws ++ L "%" ++ name ++ body ++ nl) (TTag ln name body)
| sp_tag : forall ln ws o name body c bl, Forall space ws -> Forall blank bl -> In o [L "{%"; L "{%-"] -> In c [L "%}"; L "-%}"] ->
    spells (ws ++ o ++ name ++ body ++ c ++ bl) (TTag ln name body).

(** ** Line continuations *)

(** A text without backslashes is itself; a backslash and a newline disappear; a backslash before
    another character gives that character. *)
Inductive unescaped : str -> str -> Prop :=
| u_end : unescaped [] []
| u_char : forall c s t, c <> c_bsl -> unescaped s t -> unescaped (c :: s) (c :: t)
| u_newline : forall s t, unescaped s t -> unescaped (c_bsl :: c_nl :: s) t
| u_other : forall c s t, c <> c_nl -> unescaped s t -> unescaped (c_bsl :: c :: s) (c :: t).

(** ** Blocks *)

(** What a template is made of: a list of items, some with blocks of their own. *)
Inductive forest : Type :=
| F_nil
| F_text (ln : nat) (t : str) (f : forest)
| F_expr (ln : nat) (e : str) (f : forest)
| F_for (e : str) (body f : forest)
| F_if (e : str) (body f : forest)
| F_if_else (e : str) (body alt f : forest)
| F_switch (e : str) (before : forest) (c : cases) (f : forest)
| F_def (decl : str) (body f : forest)
| F_call (args call : str) (body f : forest)
| F_block (name : str) (body f : forest)
| F_py (lines : list str) (f : forest)
| F_module (lines : list str) (f : forest)
| F_extends (fn : str) (f : forest)
| F_import (fn : str) (alias : option str) (f : forest)
| F_include (fn : str) (f : forest)
with cases : Type :=
| C_nil
| C_else (body : forest)
| C_case (e : str) (body : forest) (c : cases).

(** How it is written, as tokens.  Lines of tags and what follows [end] or [else] do not matter. *)
Section Written.
Variable shlex_split : str -> result (list str).

Inductive written : forest -> list tok -> Prop :=
| w_nil : written F_nil []
| w_text : forall ln raw t f ts, unescaped raw t -> written f ts ->
    written (F_text ln t f) (TText ln raw :: ts)
| w_expr : forall ln e f ts, written f ts -> written (F_expr ln e f) (TExpr ln e :: ts)
| w_for : forall l e b bs l' x f ts, written b bs -> written f ts ->
    written (F_for e b f) (TTag l (L "for") e :: bs ++ TTag l' (L "end") x :: ts)
| w_if : forall l e b bs l' x f ts, written b bs -> written f ts ->
    written (F_if e b f) (TTag l (L "if") e :: bs ++ TTag l' (L "end") x :: ts)
| w_if_else : forall l e b bs l' x a xs l'' y f ts, written b bs -> written a xs -> written f ts ->
    written (F_if_else e b a f)
      (TTag l (L "if") e :: bs ++ TTag l' (L "else") x :: xs ++ TTag l'' (L "end") y :: ts)
| w_switch : forall l e b bs c cs l' x f ts, written b bs -> written_cases c cs -> written f ts ->
    written (F_switch e b c f) (TTag l (L "switch") e :: bs ++ cs ++ TTag l' (L "end") x :: ts)
| w_def : forall l d b bs l' x f ts, written b bs -> written f ts ->
    written (F_def d b f) (TTag l (L "def") d :: bs ++ TTag l' (L "end") x :: ts)
| w_call : forall l u args call b bs l' x f ts,
    ~ In c_lpar u -> ~ In c_rpar args -> written b bs -> written f ts ->
    written (F_call args call b f)
      (TTag l (L "call") (u ++ L "(" ++ args ++ L ")" ++ call) :: bs ++ TTag l' (L "end") x :: ts)
| w_block : forall l name b bs l' x f ts,
    (forall c, In c (strip name) -> is_linebreak c = false) -> written b bs -> written f ts ->
    written (F_block (strip name) b f) (TTag l (L "block") name :: bs ++ TTag l' (L "end") x :: ts)
| w_py : forall l code ls f ts, strip code <> [] -> mk_python 0 [strip code] = Ok (NPython 0 ls false) -> written f ts ->
    written (F_py ls f) (TTag l (L "py") code :: ts)
| w_module : forall l code ls f ts, strip code <> [] -> mk_python 0 [strip code] = Ok (NPython 0 ls true) -> written f ts ->
    written (F_module ls f) (TTag l (L "py") code :: ts)
| w_py_block : forall l z raws texts ls l' x f ts, strip z = [] ->
    Forall2 (fun raw t => unescaped (snd raw) t) raws texts -> mk_python 0 texts = Ok (NPython 0 ls false) -> written f ts ->
    written (F_py ls f)
      (TTag l (L "py") z :: map (fun r => TText (fst r) (snd r)) raws ++ TTag l' (L "end") x :: ts)
| w_module_block : forall l z raws texts ls l' x f ts, strip z = [] ->
    Forall2 (fun raw t => unescaped (snd raw) t) raws texts -> mk_python 0 texts = Ok (NPython 0 ls true) -> written f ts ->
    written (F_module ls f)
      (TTag l (L "py") z :: map (fun r => TText (fst r) (snd r)) raws ++ TTag l' (L "end") x :: ts)
| w_extends : forall l x fn f ts, shlex_split x = Ok [fn] -> written f ts ->
    written (F_extends fn f) (TTag l (L "extends") x :: ts)
| w_import : forall l x fn f ts, shlex_split x = Ok [fn] -> written f ts ->
    written (F_import fn None f) (TTag l (L "import") x :: ts)
| w_import_as : forall l x fn alias more f ts, shlex_split x = Ok (fn :: L "as" :: alias :: more) -> written f ts ->
    written (F_import fn (Some alias) f) (TTag l (L "import") x :: ts)
| w_include : forall l x fn f ts, shlex_split x = Ok [fn] -> written f ts ->
    written (F_include fn f) (TTag l (L "include") x :: ts)
with written_cases : cases -> list tok -> Prop :=
| wc_nil : written_cases C_nil []
| wc_else : forall l x b bs, written b bs ->
    written_cases (C_else b) (TTag l (L "else") x :: bs)
| wc_case : forall l e b bs c cs, written b bs -> written_cases c cs ->
    written_cases (C_case e b c) (TTag l (L "case") e :: bs ++ cs).
End Written.

(** An [if] with an [else] stands directly in a list of items. *)
Fixpoint has_else (f : forest) : bool :=
  match f with
  | F_nil => false
  | F_if_else _ _ _ _ => true
  | F_text _ _ f | F_expr _ _ f | F_for _ _ f | F_if _ _ f | F_switch _ _ _ f | F_def _ _ f
  | F_call _ _ _ f | F_block _ _ f | F_py _ f | F_module _ f | F_extends _ f | F_import _ _ f
  | F_include _ f => has_else f
  end.
(** No [if] with an [else] stands directly in an [if] or in a [case], and no [switch] has an [else]. *)
Fixpoint else_apart (f : forest) : Prop :=
  match f with
  | F_nil => True
  | F_text _ _ f | F_expr _ _ f | F_py _ f | F_module _ f | F_extends _ f | F_import _ _ f | F_include _ f => else_apart f
  | F_for _ b f | F_def _ b f | F_call _ _ b f | F_block _ b f => else_apart b /\ else_apart f
  | F_if _ b f => has_else b = false /\ else_apart b /\ else_apart f
  | F_if_else _ b a f => has_else b = false /\ else_apart b /\ else_apart a /\ else_apart f
  | F_switch _ b c f => else_apart b /\ cases_apart c /\ else_apart f
  end
with cases_apart (c : cases) : Prop :=
  match c with
  | C_nil => True
  | C_else b => False
  | C_case _ b c => has_else b = false /\ else_apart b /\ cases_apart c
  end.

(** Number of [call]s, and whether another template is extended. *)
Fixpoint calls (f : forest) : nat :=
  match f with
  | F_nil => 0
  | F_text _ _ f | F_expr _ _ f | F_py _ f | F_module _ f | F_extends _ f | F_import _ _ f | F_include _ f => calls f
  | F_for _ b f | F_def _ b f | F_block _ b f | F_if _ b f => calls b + calls f
  | F_call _ _ b f => calls b + 1 + calls f
  | F_if_else _ b a f => calls b + calls a + calls f
  | F_switch _ b c f => calls b + case_calls c + calls f
  end
with case_calls (c : cases) : nat :=
  match c with
  | C_nil => 0
  | C_else b => calls b
  | C_case _ b c => calls b + case_calls c
  end.
Fixpoint extending (f : forest) : bool :=
  match f with
  | F_nil => false
  | F_extends _ _ => true
  | F_text _ _ f | F_expr _ _ f | F_py _ f | F_module _ f | F_import _ _ f | F_include _ f => extending f
  | F_for _ b f | F_def _ b f | F_block _ b f | F_if _ b f | F_call _ _ b f => extending b || extending f
  | F_if_else _ b a f => extending b || extending a || extending f
  | F_switch _ b c f => extending b || cases_extending c || extending f
  end
with cases_extending (c : cases) : bool :=
  match c with
  | C_nil => false
  | C_else b => extending b
  | C_case _ b c => extending b || cases_extending c
  end.

(** The intermediate representation of a forest: the nodes in place, the functions that are
    registered, the code that goes to module level.  [ind]: inside a [def]; [ch]: another template has been
    extended before; [k]: number of [call]s before. *)
Section IR.
Variable autoescape : bool.
Variable helper : nat -> str.

Fixpoint nodes (ind ch : bool) (k : nat) (f : forest) : list node :=
  match f with
  | F_nil => []
  | F_text ln t f => NText ln t None :: nodes ind ch k f
  | F_expr ln e f => NExpr ln e (negb autoescape) :: nodes ind ch k f
  | F_for e b f => NFor 0 e (nodes ind ch k b) :: nodes ind (ch || extending b) (k + calls b) f
  | F_if e b f => NIf 0 e (nodes ind ch k b) :: nodes ind (ch || extending b) (k + calls b) f
  | F_if_else e b a f =>
      NIf 0 e (nodes ind ch k b) :: NElse 0 (nodes ind (ch || extending b) (k + calls b) a)
      :: nodes ind (ch || extending b || extending a) (k + calls b + calls a) f
  | F_switch e b c f =>
      NSwitch 0 e (nodes ind ch k b ++ case_nodes ind (ch || extending b) (k + calls b) c)
      :: nodes ind (ch || extending b || cases_extending c) (k + calls b + case_calls c) f
  | F_def d b f =>
      (if ind then [NDef 0 true d (nodes true ch k b)] else [])
      ++ nodes ind (ch || extending b) (k + calls b) f
  | F_call args call b f =>
      mk_call 0 (helper (k + calls b)) (L "$caller(" ++ args ++ L ")")
              (replace (L "%caller") (L "$caller") (strip call)) (nodes ind ch k b)
      :: nodes ind (ch || extending b) (k + calls b + 1) f
  | F_block name b f =>
      (if ch || extending b then [] else [NExpr 0 (L "_kj_block_" ++ name ++ L "()") false])
      ++ nodes ind (ch || extending b) (k + calls b) f
  | F_py ls f => NPython 0 ls false :: nodes ind ch k f
  | F_module ls f => nodes ind ch k f
  | F_extends fn f => NExtend 0 fn :: nodes ind true k f
  | F_import fn alias f => NImport 0 fn alias :: nodes ind ch k f
  | F_include fn f => NInclude 0 fn :: nodes ind ch k f
  end
with case_nodes (ind ch : bool) (k : nat) (c : cases) : list node :=
  match c with
  | C_nil => []
  | C_else b => [NElse 0 (nodes ind ch k b)]
  | C_case e b c => NCase 0 e (nodes ind ch k b) :: case_nodes ind (ch || extending b) (k + calls b) c
  end.

Fixpoint defined (ind ch : bool) (k : nat) (f : forest) : list (str * list node) :=
  match f with
  | F_nil => []
  | F_text _ _ f | F_expr _ _ f | F_py _ f | F_module _ f | F_import _ _ f | F_include _ f => defined ind ch k f
  | F_extends _ f => defined ind true k f
  | F_for _ b f | F_if _ b f => defined ind ch k b ++ defined ind (ch || extending b) (k + calls b) f
  | F_call _ _ b f => defined ind ch k b ++ defined ind (ch || extending b) (k + calls b + 1) f
  | F_if_else _ b a f =>
      defined ind ch k b ++ defined ind (ch || extending b) (k + calls b) a
      ++ defined ind (ch || extending b || extending a) (k + calls b + calls a) f
  | F_switch _ b c f =>
      defined ind ch k b ++ case_defined ind (ch || extending b) (k + calls b) c
      ++ defined ind (ch || extending b || cases_extending c) (k + calls b + case_calls c) f
  | F_def d b f =>
      defined true ch k b ++ (if ind then [] else [(strip d, nodes true ch k b)])
      ++ defined ind (ch || extending b) (k + calls b) f
  | F_block name b f =>
      defined ind ch k b ++
      [(L "_kj_block_" ++ name ++ L "()",
        (if ch || extending b then [NPython 0 [L "parent_block=parent._kj_block_" ++ name] false] else [])
        ++ nodes ind ch k b)]
      ++ defined ind (ch || extending b) (k + calls b) f
  end
with case_defined (ind ch : bool) (k : nat) (c : cases) : list (str * list node) :=
  match c with
  | C_nil => []
  | C_else b => defined ind ch k b
  | C_case _ b c => defined ind ch k b ++ case_defined ind (ch || extending b) (k + calls b) c
  end.

Fixpoint module_code (f : forest) : list (list str) :=
  match f with
  | F_nil => []
  | F_module ls f => ls :: module_code f
  | F_text _ _ f | F_expr _ _ f | F_py _ f | F_extends _ f | F_import _ _ f | F_include _ f => module_code f
  | F_for _ b f | F_def _ b f | F_block _ b f | F_if _ b f | F_call _ _ b f => module_code b ++ module_code f
  | F_if_else _ b a f => module_code b ++ module_code a ++ module_code f
  | F_switch _ b c f => module_code b ++ case_module_code c ++ module_code f
  end
with case_module_code (c : cases) : list (list str) :=
  match c with
  | C_nil => []
  | C_else b => module_code b
  | C_case _ b c => module_code b ++ case_module_code c
  end.

(** Of several definitions of a name the last one counts; names come in the order in which they
    were first defined. *)
Definition last_def (n : str) (ds : list (str * list node)) : list node :=
  fold_left (fun old d => if seqb (fst d) n then snd d else old) ds [].
Fixpoint first_names (seen : list str) (ds : list (str * list node)) : list str :=
  match ds with
  | [] => []
  | (n, _) :: ds' => if smem n seen then first_names seen ds' else n :: first_names (n :: seen) ds'
  end.
Definition template_of (f : forest) : template :=
  let ds := (L "__main__()", []) :: defined false false 0 f ++ [(L "__main__()", nodes false false 0 f)] in
  TemplateNode 0 (map (pair 0) (module_code f))
    (map (fun n => NDef 0 false n (last_def n ds)) (first_names [] ds)).
End IR.
