(** * Specification: which lists of tokens are text templates, and what they are made into

    [S_Text] says what properly nested templates are.  The parser accepts others too: [for], [def], [call], [block],
    [switch] and [else] may be left open at the end, [else] and [case] may stand anywhere, and an [else] belongs to
    what stands before it when everything is put together.  This file says exactly what is accepted. *)

From Coq Require Import Ascii String List NArith ZArith Bool.
From Verif Require Import PyStr M_NameGen M_IR M_Text S_Text.
Import ListNotations.
Open Scope list_scope.

(** Tags with a body that just become a node around it. *)
Inductive construct : Type := For | If | Else | Switch | Case.
Inductive tree : Type :=
| G_nil
| G_text (ln : nat) (t : str) (f : tree)
| G_expr (ln : nat) (e : str) (f : tree)
| G_in (c : construct) (e : str) (body f : tree)
| G_def (decl : str) (body f : tree)
| G_call (args call : str) (body f : tree)
| G_block (name : str) (body f : tree)
| G_py (lines : list str) (f : tree)
| G_module (lines : list str) (f : tree)
| G_extends (fn : str) (f : tree)
| G_import (fn : str) (alias : option str) (f : tree)
| G_include (fn : str) (f : tree)
| G_nothing (f : tree).

(** Nothing but texts. *)
Fixpoint only_texts (f : tree) : option (list str) :=
  match f with
  | G_nil => Some []
  | G_text _ t f => option_map (cons t) (only_texts f)
  | _ => None
  end.

Section Takes.
Variable shlex_split : str -> result (list str).

(** The code of a [py] tag is its text, or if there is none, the texts up to [end]. *)
Inductive item_of_code (texts : list str) : (tree -> tree) -> Prop :=
| code_here : forall ls, mk_python 0 texts = Ok (NPython 0 ls false) -> item_of_code texts (G_py ls)
| code_module : forall ls, mk_python 0 texts = Ok (NPython 0 ls true) -> item_of_code texts (G_module ls).

(** [takes stops ts f e rest]: from the tokens [ts] the items [f] are taken, up to the tag [e], which is one of
    [stops], or to the end of the tokens, when [e] is [None]; [rest] is left. *)
Inductive takes (stops : list str) : list tok -> tree -> option tok -> list tok -> Prop :=
| g_end : takes stops [] G_nil None []
| g_stop : forall l n x ts, In n stops -> takes stops (TTag l n x :: ts) G_nil (Some (TTag l n x)) ts
| g_text : forall ln raw t ts f e r, unescaped raw t -> takes stops ts f e r ->
    takes stops (TText ln raw :: ts) (G_text ln t f) e r
| g_expr : forall ln x ts f e r, takes stops ts f e r -> takes stops (TExpr ln x :: ts) (G_expr ln x f) e r
(* what goes to the next [end], or to the end of the template *)
| g_for : forall l x ts b e1 ts1 f e r, takes [L "end"] ts b e1 ts1 -> takes stops ts1 f e r ->
    takes stops (TTag l (L "for") x :: ts) (G_in For x b f) e r
| g_switch : forall l x ts b e1 ts1 f e r, takes [L "end"] ts b e1 ts1 -> takes stops ts1 f e r ->
    takes stops (TTag l (L "switch") x :: ts) (G_in Switch x b f) e r
| g_else : forall l x ts b e1 ts1 f e r, ~ In (L "else") stops -> takes [L "end"] ts b e1 ts1 -> takes stops ts1 f e r ->
    takes stops (TTag l (L "else") x :: ts) (G_in Else [] b f) e r
| g_def : forall l x ts b e1 ts1 f e r, takes [L "end"] ts b e1 ts1 -> takes stops ts1 f e r ->
    takes stops (TTag l (L "def") x :: ts) (G_def x b f) e r
| g_call : forall l u args call ts b e1 ts1 f e r, ~ In c_lpar u -> ~ In c_rpar args ->
    takes [L "end"] ts b e1 ts1 -> takes stops ts1 f e r ->
    takes stops (TTag l (L "call") (u ++ L "(" ++ args ++ L ")" ++ call) :: ts) (G_call args call b f) e r
| g_block : forall l x ts b e1 ts1 f e r, takes [L "end"] ts b e1 ts1 -> takes stops ts1 f e r ->
    takes stops (TTag l (L "block") x :: ts) (G_block (strip x) b f) e r
(* an [if] goes to its [end], or to an [else], which is then the next item *)
| g_if : forall l x ts b l' y ts1 f e r, takes [L "end"; L "else"] ts b (Some (TTag l' (L "end") y)) ts1 ->
    takes stops ts1 f e r -> takes stops (TTag l (L "if") x :: ts) (G_in If x b f) e r
| g_if_else : forall l x ts b l' y ts1 f e r, takes [L "end"; L "else"] ts b (Some (TTag l' (L "else") y)) ts1 ->
    takes stops (TTag l' (L "else") y :: ts1) f e r -> takes stops (TTag l (L "if") x :: ts) (G_in If x b f) e r
(* a [case] goes to the next [case], [else] or [end], which is then the next item, or ends what is around *)
| g_case : forall l x ts b t ts1 f e r, ~ In (L "case") stops ->
    takes [L "case"; L "else"; L "end"] ts b (Some t) ts1 -> takes stops (t :: ts1) f e r ->
    takes stops (TTag l (L "case") x :: ts) (G_in Case x b f) e r
| g_py : forall l x ts item f e r, strip x <> [] -> item_of_code [strip x] item -> takes stops ts f e r ->
    takes stops (TTag l (L "py") x :: ts) (item f) e r
| g_py_block : forall l x ts b e1 ts1 texts item f e r, strip x = [] -> takes [L "end"] ts b e1 ts1 ->
    only_texts b = Some texts -> item_of_code texts item -> takes stops ts1 f e r ->
    takes stops (TTag l (L "py") x :: ts) (item f) e r
| g_extends : forall l x fn ts f e r, shlex_split x = Ok [fn] -> takes stops ts f e r ->
    takes stops (TTag l (L "extends") x :: ts) (G_extends fn f) e r
| g_import : forall l x fn ts f e r, shlex_split x = Ok [fn] -> takes stops ts f e r ->
    takes stops (TTag l (L "import") x :: ts) (G_import fn None f) e r
| g_import_as : forall l x fn alias more ts f e r, shlex_split x = Ok (fn :: L "as" :: alias :: more) -> takes stops ts f e r ->
    takes stops (TTag l (L "import") x :: ts) (G_import fn (Some alias) f) e r
| g_include : forall l x fn ts f e r, shlex_split x = Ok [fn] -> takes stops ts f e r ->
    takes stops (TTag l (L "include") x :: ts) (G_include fn f) e r
(* a tag that no user means *)
| g_nothing : forall l x ts f e r, takes stops ts f e r -> takes stops (TTag l (L "body") x :: ts) (G_nothing f) e r.

(** A whole template: all tokens are taken.  *)
Definition taken (f : tree) (ts : list tok) : Prop := takes [] ts f None [].
End Takes.

(** Names of blocks stand on one line. *)
Definition block_on_a_line (t : tok) : Prop :=
  match t with
  | TTag _ n x => n = L "block" -> forall c, In c (strip x) -> is_linebreak c = false
  | _ => True
  end.

(** ** What the items are made into; as in [S_Text] *)
Fixpoint tree_calls (f : tree) : nat :=
  match f with
  | G_nil => 0
  | G_text _ _ f | G_expr _ _ f | G_py _ f | G_module _ f | G_extends _ f | G_import _ _ f | G_include _ f | G_nothing f => tree_calls f
  | G_in _ _ b f | G_def _ b f | G_block _ b f => tree_calls b + tree_calls f
  | G_call _ _ b f => tree_calls b + 1 + tree_calls f
  end.
Fixpoint tree_extends (f : tree) : bool :=
  match f with
  | G_nil => false
  | G_extends _ _ => true
  | G_text _ _ f | G_expr _ _ f | G_py _ f | G_module _ f | G_import _ _ f | G_include _ f | G_nothing f => tree_extends f
  | G_in _ _ b f | G_def _ b f | G_block _ b f | G_call _ _ b f => tree_extends b || tree_extends f
  end.
Fixpoint tree_module (f : tree) : list (list str) :=
  match f with
  | G_nil => []
  | G_module ls f => ls :: tree_module f
  | G_text _ _ f | G_expr _ _ f | G_py _ f | G_extends _ f | G_import _ _ f | G_include _ f | G_nothing f => tree_module f
  | G_in _ _ b f | G_def _ b f | G_block _ b f | G_call _ _ b f => tree_module b ++ tree_module f
  end.
Definition construct_node (c : construct) (e : str) (b : list node) : node :=
  match c with
  | For => NFor 0 e b
  | If => NIf 0 e b
  | Else => NElse 0 b
  | Switch => NSwitch 0 e b
  | Case => NCase 0 e b
  end.

Section IR.
Variable autoescape : bool.
Variable helper : nat -> str.

(** [ind]: inside a [def]; [ch]: another template has been extended before; [k]: number of [call]s before. *)
Fixpoint tree_nodes (ind ch : bool) (k : nat) (f : tree) : list node :=
  match f with
  | G_nil => []
  | G_text ln t f => NText ln t None :: tree_nodes ind ch k f
  | G_expr ln e f => NExpr ln e (negb autoescape) :: tree_nodes ind ch k f
  | G_in c e b f => construct_node c e (tree_nodes ind ch k b) :: tree_nodes ind (ch || tree_extends b) (k + tree_calls b) f
  | G_def d b f =>
      (if ind then [NDef 0 true d (tree_nodes true ch k b)] else [])
      ++ tree_nodes ind (ch || tree_extends b) (k + tree_calls b) f
  | G_call args call b f =>
      mk_call 0 (helper (k + tree_calls b)) (L "$caller(" ++ args ++ L ")")
              (replace (L "%caller") (L "$caller") (strip call)) (tree_nodes ind ch k b)
      :: tree_nodes ind (ch || tree_extends b) (k + tree_calls b + 1) f
  | G_block name b f =>
      (if ch || tree_extends b then [] else [NExpr 0 (L "_kj_block_" ++ name ++ L "()") false])
      ++ tree_nodes ind (ch || tree_extends b) (k + tree_calls b) f
  | G_py ls f => NPython 0 ls false :: tree_nodes ind ch k f
  | G_module _ f | G_nothing f => tree_nodes ind ch k f
  | G_extends fn f => NExtend 0 fn :: tree_nodes ind true k f
  | G_import fn alias f => NImport 0 fn alias :: tree_nodes ind ch k f
  | G_include fn f => NInclude 0 fn :: tree_nodes ind ch k f
  end.
Fixpoint tree_defined (ind ch : bool) (k : nat) (f : tree) : list (str * list node) :=
  match f with
  | G_nil => []
  | G_text _ _ f | G_expr _ _ f | G_py _ f | G_module _ f | G_import _ _ f | G_include _ f | G_nothing f => tree_defined ind ch k f
  | G_extends _ f => tree_defined ind true k f
  | G_in _ _ b f => tree_defined ind ch k b ++ tree_defined ind (ch || tree_extends b) (k + tree_calls b) f
  | G_call _ _ b f => tree_defined ind ch k b ++ tree_defined ind (ch || tree_extends b) (k + tree_calls b + 1) f
  | G_def d b f =>
      tree_defined true ch k b ++ (if ind then [] else [(strip d, tree_nodes true ch k b)])
      ++ tree_defined ind (ch || tree_extends b) (k + tree_calls b) f
  | G_block name b f =>
      tree_defined ind ch k b ++
      [(L "_kj_block_" ++ name ++ L "()",
        (if ch || tree_extends b then [NPython 0 [L "parent_block=parent._kj_block_" ++ name] false] else [])
        ++ tree_nodes ind ch k b)]
      ++ tree_defined ind (ch || tree_extends b) (k + tree_calls b) f
  end.
Definition tree_template (f : tree) : template :=
  let ds := (L "__main__()", []) :: tree_defined false false 0 f ++ [(L "__main__()", tree_nodes false false 0 f)] in
  TemplateNode 0 (map (pair 0) (tree_module f))
    (map (fun n => NDef 0 false n (last_def n ds)) (first_names [] ds)).
End IR.
