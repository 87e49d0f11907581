(** * Specification: layouts, pages, and their blocks

    A site is a list of pages.  Each extends the next one; the last one is the layout.  A layout shows
    its blocks where they stand.  A page has its own versions of them, in which [parent_block()] stands for the
    version of the nearest page that it extends. *)

From Coq Require Import Ascii String List NArith ZArith Bool.
From Verif Require Import PyStr M_Values M_Template S_Template M_Run S_Run.
Import ListNotations.
Open Scope list_scope.

(** What stands in a page or in a block: text, text to translate, a variable, a block, [parent_block()]. *)
Inductive item : Type :=
| Words (t : str)
| Message (t : str)
| Shown (x : str)
| BlockHere (b : str)
| ParentBlock.
(** [pg_extends]: the page that it extends (nothing to the layout). *)
Record page : Type := Page {
  pg_extends : str;
  pg_main : list item;
  pg_blocks : list (str * list item) }.

Section Site.
Variable py : python.
Variable context : list (str * value).
Variable pages : list page.

(** The first version of a block, starting from page number [i]: that of page number [j]. *)
Inductive nearest (b : str) : nat -> nat -> list item -> Prop :=
| ne_here : forall i pg its, nth_error pages i = Some pg -> In (b, its) (pg_blocks pg) -> nearest b i i its
| ne_above : forall i pg j its, nth_error pages i = Some pg -> ~ In b (map fst (pg_blocks pg)) -> nearest b (S i) j its -> nearest b i j its.
Definition is_layout (i : nat) : Prop := S i = length pages.
(** A version of a block, unless it is the one of the layout, is a version of something. *)
Definition has_parent (b : str) (i : nat) : Prop := is_layout i \/ exists j its, nearest b (S i) j its.

(** [text_of i inside its t]: the items, in page number [i], in its main part or in a block. *)
Inductive text_of : nat -> option str -> list item -> str -> Prop :=
| te_nil : forall i inside, text_of i inside [] []
| te_words : forall i inside w l t, text_of i inside l t -> text_of i inside (Words w :: l) (w ++ t)
| te_blank : forall i inside w l t, strip w = [] -> text_of i inside l t -> text_of i inside (Message w :: l) (w ++ t)
| te_message : forall i inside w l t, strip w <> [] -> text_of i inside l t ->
    text_of i inside (Message w :: l) (render [gettext py w] ++ t)
| te_variable : forall i inside x v l t, In (x, v) context -> text_of i inside l t ->
    text_of i inside (Shown x :: l) (render [escape v] ++ t)
(* the version of the page that is asked for, if it has one, or of the next one *)
| te_block : forall i inside b j its l t1 t2, is_layout i -> nearest b 0 j its -> has_parent b j -> text_of j (Some b) its t1 ->
    text_of i inside l t2 -> text_of i inside (BlockHere b :: l) (t1 ++ t2)
| te_parent : forall i b j its l t1 t2, ~ is_layout i -> nearest b (S i) j its -> has_parent b j -> text_of j (Some b) its t1 ->
    text_of i (Some b) l t2 -> text_of i (Some b) (ParentBlock :: l) (t1 ++ t2).
(** What page number [i] shows: what it extends, then what is in it outside of blocks. *)
Inductive page_text : nat -> str -> Prop :=
| pt_layout : forall i pg t, nth_error pages i = Some pg -> is_layout i -> text_of i None (pg_main pg) t -> page_text i t
| pt_page : forall i pg t t', nth_error pages i = Some pg -> page_text (S i) t -> text_of i None (pg_main pg) t' -> page_text i (t ++ t').

(** ** Pages as templates *)
Definition block_function (b : str) : str := L "_kj_block_" ++ b.
Definition item_stm (it : item) : rstm :=
  match it with
  | Words t => RText t None
  | Message t => RTrans t None
  | Shown x => RExpr x false
  | BlockHere b => RExpr (block_function b ++ L "()") false
  | ParentBlock => RExpr (L "parent_block()") false
  end.
Definition items_code (its : list item) : list rstm := or_pass (map item_stm its).
Definition main_code (layout : bool) (pg : page) : list rstm :=
  if layout then items_code (pg_main pg) else RExtend (pg_extends pg) :: map item_stm (pg_main pg).
Definition block_code (layout : bool) (b : str) (its : list item) : list rstm :=
  if layout then items_code its else RPython [L "parent_block=parent." ++ block_function b] :: items_code its.
(** The class of a page has these functions, and perhaps others. *)
Record describes (layout : bool) (pg : page) (c : cls (fobj dcode) (str * dcode)) : Prop := Describes {
  de_main : In (L "__main__", (L "__main__()", main_code layout pg)) (methods _ _ c);
  de_blocks : forall b f, In (block_function b, f) (methods _ _ c) <->
    exists its, In (b, its) (pg_blocks pg) /\ f = (block_function b ++ L "()", block_code layout b its) }.
End Site.

(** Python reads what is generated for blocks, and the variables, as one expects. *)
Record reads_blocks (py : python) (pages : list page) : Prop := ReadsBlocks {
  rb_main : bind_params py (L "__main__()") [] = Ok [];
  rb_function : forall pg b its, In pg pages -> In (b, its) (pg_blocks pg) -> bind_params py (block_function b ++ L "()") [] = Ok [];
  rb_call : forall pg b its, In pg pages -> In (b, its) (pg_blocks pg) -> parse py (block_function b ++ L "()") = ECall (ByName (block_function b)) [];
  rb_set : forall pg b its, In pg pages -> In (b, its) (pg_blocks pg) ->
    parse_block py [L "parent_block=parent." ++ block_function b] = [PySet (L "parent_block") (EAttr (L "parent") (block_function b))];
  rb_parent : parse py (L "parent_block()") = ECall (ByName (L "parent_block")) [] }.
(** The names of the context: variables of the user, not names that blocks use. *)
Record user_context (py : python) (context : list (str * value)) : Prop := UserContext {
  uc_object : object_names context;
  uc_variables : forall x v, In (x, v) context -> parse py x = EName x /\ ~ In x special /\ x <> L "parent_block" /\ x <> L "gettext" /\
    forall b, x <> block_function b }.
(** The templates leave [self], [local] and [gettext] alone. *)
Record names_apart {fn : Type} (cs : list (cls (fobj dcode) fn)) : Prop := NamesApart {
  na_classes : forall c, In c cs -> a_class _ _ c /\ plain _ _ (base_globals _ _ c);
  na_others : forall c k, In c cs -> In k [L "self"; L "local"; L "gettext"] -> unknown k (methods _ _ c) /\ unknown k (base_globals _ _ c) }.
