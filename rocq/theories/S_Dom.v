(** * Specification: the passes over the document tree *)

From Coq Require Import Ascii String List NArith ZArith Bool.
From Verif Require Import PyStr M_Text S_Text M_Dom.
From Verif Require S_Entities.
Import ListNotations.
Open Scope list_scope.

(** ** What a document says

    Its start tags, end tags, characters (with the flag of their text), CDATA markers, comments and
    processing instructions in document order; the division of text into nodes and the line
    numbers are left out. *)
Inductive token : Type :=
| T_start (tag : str) (attrs : list (str * str))
| T_end (tag : str)
| T_char (escaped : bool) (c : char)
| T_mark (data : str)
| T_comment (data : str)
| T_pi (target data : str).
Fixpoint tokens (n : dnode) : list token :=
  match n with
  | DElem _ tag a cs => T_start tag a :: flat_map tokens cs ++ [T_end tag]
  | DText _ t e => map (T_char e) t
  | DMark _ t => [T_mark t]
  | DComment _ t => [T_comment t]
  | DPi _ t d => [T_pi t d]
  end.

(** All but the tags: the characters, CDATA markers, comments and processing instructions. *)
Definition content (n : dnode) : list token :=
  filter (fun t => match t with T_start _ _ | T_end _ => false | _ => true end) (tokens n).

Definition is_text (n : dnode) : Prop := match n with DText _ _ _ => True | _ => False end.
Definition data_of (n : dnode) : str := match n with DText _ t _ => t | _ => [] end.
Definition no_text_first (l : list dnode) : Prop := match l with [] => True | n :: _ => ~ is_text n end.

(** Every element of a tree, at any depth. *)
Inductive element_in : dnode -> nat -> str -> list (str * str) -> list dnode -> Prop :=
| ei_here : forall ln tag a cs, element_in (DElem ln tag a cs) ln tag a cs
| ei_below : forall ln tag a cs c ln' tag' a' cs', In c cs -> element_in c ln' tag' a' cs' ->
    element_in (DElem ln tag a cs) ln' tag' a' cs'.

(** Neighbouring texts agree on whether they were escaped. *)
Definition same_flags (l : list dnode) : Prop :=
  forall a ln t e ln' t' e' b, l = a ++ DText ln t e :: DText ln' t' e' :: b -> e = e'.
Definition uniform (n : dnode) : Prop := forall ln tag a cs, element_in n ln tag a cs -> same_flags cs.

(** ** Merging texts *)

(** A maximal run of texts becomes one text, on the line of its first part; all else stays. *)
Inductive merged : dnode -> dnode -> Prop :=
| mg_elem : forall ln tag a cs cs', merged_list cs cs' -> merged (DElem ln tag a cs) (DElem ln tag a cs')
| mg_mark : forall ln t, merged (DMark ln t) (DMark ln t)
| mg_comment : forall ln t, merged (DComment ln t) (DComment ln t)
| mg_pi : forall ln t d, merged (DPi ln t d) (DPi ln t d)
with merged_list : list dnode -> list dnode -> Prop :=
| ml_nil : merged_list [] []
| ml_run : forall ln t e run rest rest', Forall is_text run -> no_text_first rest -> merged_list rest rest' ->
    merged_list (DText ln t e :: run ++ rest) (DText ln (t ++ concat (map data_of run)) e :: rest')
| ml_other : forall n n' l l', ~ is_text n -> merged n n' -> merged_list l l' -> merged_list (n :: l) (n' :: l').

(** No two neighbouring texts. *)
Definition apart (l : list dnode) : Prop :=
  forall a x y b, l = a ++ x :: y :: b -> is_text x -> ~ is_text y.

(** ** White space around texts *)

Definition no_space_at_ends (t : str) : Prop :=
  stops space t /\ stops space (rev t).

(** A text is its leading white space, a middle, its trailing white space; the middle is not empty. *)
Definition three_parts (t a b c : str) : Prop :=
  t = a ++ b ++ c /\ Forall space a /\ Forall space c /\ b <> [] /\ no_space_at_ends b.
(** The texts it is split into, with their lines; an all-blank text is left alone. *)
Definition part (ln : nat) (t : str) (e : bool) : list dnode := match t with [] => [] | _ => [DText ln t e] end.
Inductive split_into (ln : nat) (t : str) (e : bool) : list dnode -> Prop :=
| sp_blank : Forall space t -> split_into ln t e [DText ln t e]
| sp_parts : forall a b c, three_parts t a b c ->
    split_into ln t e (part ln a e ++ part (ln + count_nl a) b e ++ part (ln + count_nl (a ++ b)) c e).
Inductive spaced : dnode -> dnode -> Prop :=
| sd_elem : forall ln tag a cs cs', spaced_list cs cs' -> spaced (DElem ln tag a cs) (DElem ln tag a cs')
| sd_mark : forall ln t, spaced (DMark ln t) (DMark ln t)
| sd_comment : forall ln t, spaced (DComment ln t) (DComment ln t)
| sd_pi : forall ln t d, spaced (DPi ln t d) (DPi ln t d)
with spaced_list : list dnode -> list dnode -> Prop :=
| sl_nil : spaced_list [] []
| sl_text : forall ln t e ts l l', split_into ln t e ts -> spaced_list l l' -> spaced_list (DText ln t e :: l) (ts ++ l')
| sl_other : forall n n' l l', ~ is_text n -> spaced n n' -> spaced_list l l' -> spaced_list (n :: l) (n' :: l').

(** A text that is all white space or has none at its ends. *)
Definition tidy (n : dnode) : Prop :=
  match n with DText _ t _ => Forall space t \/ no_space_at_ends t | _ => True end.

(** ** Stripping texts *)

(** Exactly the white space at both ends of each text is removed, its line number is that of
    what is left. *)
Inductive stripped : dnode -> dnode -> Prop :=
| st_elem : forall ln tag a cs cs', Forall2 stripped cs cs' -> stripped (DElem ln tag a cs) (DElem ln tag a cs')
| st_blank : forall ln t e, Forall space t -> stripped (DText ln t e) (DText (ln + count_nl t) [] e)
| st_text : forall ln t e a b c, three_parts t a b c -> stripped (DText ln t e) (DText (ln + count_nl a) b e)
| st_mark : forall ln t, stripped (DMark ln t) (DMark ln t)
| st_comment : forall ln t, stripped (DComment ln t) (DComment ln t)
| st_pi : forall ln t d, stripped (DPi ln t d) (DPi ln t d).

(** ** Directives *)

(** The directives in the order in which they are applied, outermost first, with the attribute
    that holds the argument in the element form. *)
Definition directives : list (str * str) :=
  [ (L "py:def", L "function"); (L "py:call", L "function"); (L "py:case", L "value");
    (L "py:else", L ""); (L "py:for", L "each"); (L "py:if", L "test");
    (L "py:switch", L "test"); (L "py:with", L "vars"); (L "py:replace", L "value");
    (L "py:block", L "name"); (L "py:extends", L "href") ].
Definition directive_name (k : str) : Prop := In k (map fst directives).
Definition directive_nameb (k : str) : bool := smem k (map fst directives).

(** A directive element around something. *)
Definition around (ln : nat) (d : (str * str) * str) (n : dnode) : dnode :=
  let '((name, arg), value) := d in DElem ln name (match arg with [] => [] | _ => [(arg, value)] end) [n].
(** The directives present among some attributes, with their values. *)
Definition applied (attrs : list (str * str)) : list ((str * str) * str) :=
  flat_map (fun d => if has_attr (fst d) attrs then [(d, get_attr (fst d) attrs)] else []) directives.
Definition others (attrs : list (str * str)) : list (str * str) :=
  filter (fun kv => negb (directive_nameb (fst kv))) attrs.

(** The tree without directives: directive elements (and [py:nop]) are replaced by their
    content, directive attributes are dropped. *)
Fixpoint bare (n : dnode) : list dnode :=
  match n with
  | DElem ln tag a cs =>
      if directive_nameb tag || seqb tag (L "py:nop") then flat_map bare cs
      else [DElem ln tag (others a) (flat_map bare cs)]
  | _ => [n]
  end.

(** [expands n n']: an element gets the directives among its attributes wrapped around it; the
    element form of a directive is [py:nop] with that directive as an attribute (the first of them: an
    attribute of the same name has no effect); [py:extends] as an attribute of another element becomes
    its first child. *)
Inductive expands : dnode -> dnode -> Prop :=
| ex_plain : forall ln tag a cs cs', ~ directive_name tag -> tag = L "py:nop" \/ has_attr (L "py:extends") a = false ->
    Forall2 expands cs cs' ->
    expands (DElem ln tag a cs) (fold_right (around ln) (DElem ln tag (others a) cs') (applied a))
| ex_extends : forall ln tag a cs cs' href, ~ directive_name tag -> tag <> L "py:nop" ->
    has_attr (L "py:extends") a = true -> href = get_attr (L "py:extends") a ->
    Forall2 expands cs cs' ->
    expands (DElem ln tag a cs)
      (fold_right (around ln)
         (DElem ln tag (others a)
            (DElem ln (L "py:extends") [(L "href", href)] [DElem ln (L "py:nop") [(L "href", href)] []] :: cs'))
         (applied (remove_attr (L "py:extends") a)))
| ex_directive : forall ln d arg a cs cs', In (d, arg) directives ->
    Forall2 expands cs cs' ->
    expands (DElem ln d a cs)
      (fold_right (around ln) (DElem ln (L "py:nop") (others a) cs') (applied ((d, get_attr arg a) :: a)))
| ex_text : forall ln t e, expands (DText ln t e) (DText ln t e)
| ex_mark : forall ln t, expands (DMark ln t) (DMark ln t)
| ex_comment : forall ln t, expands (DComment ln t) (DComment ln t)
| ex_pi : forall ln t d, expands (DPi ln t d) (DPi ln t d).

(** Nothing but the argument of a directive. *)
Definition only_argument (d : str * str) (a : list (str * str)) : Prop :=
  match snd d with [] => a = [] | arg => exists v, a = [(arg, v)] end.
Definition argument (d : str * str) (v : str) : list (str * str) := match snd d with [] => [] | arg => [(arg, v)] end.
(** No element has a directive as an attribute; each directive element has its argument and one child. *)
Definition well_placed (n : dnode) : Prop := forall ln tag a cs, element_in n ln tag a cs ->
  (forall k, directive_name k -> has_attr k a = false) /\
  (forall d, In d directives -> tag = fst d -> only_argument d a /\ exists inner, cs = [inner]).

(** [py:nop] elements dissolved: the compiler treats them as their children. *)
Fixpoint dissolve (n : dnode) : list dnode :=
  match n with
  | DElem ln tag a cs => if seqb tag (L "py:nop") then flat_map dissolve cs else [DElem ln tag a (flat_map dissolve cs)]
  | _ => [n]
  end.

(** ** Parsing

    The events that a tree stands for.  Outside CDATA sections texts are given unescaped. *)
Inductive reported : list dnode -> list event -> Prop :=
| rp_nil : reported [] []
| rp_elem : forall ln ln' tag a cs es l es', reported cs es -> reported l es' ->
    reported (DElem ln tag a cs :: l) (EStart ln tag a :: es ++ EEnd ln' tag :: es')
| rp_text : forall ln t l es, reported l es ->
    reported (DText ln (S_Entities.xml_text t) true :: l) (EChars ln t :: es)
| rp_entity : forall ln name v l es, S_Entities.stands_for (name ++ [c_semi]) v -> reported l es ->
    reported (DText ln (S_Entities.xml_text v) true :: l) (ESkipped ln name :: es)
| rp_cdata : forall ln ln' texts l es, reported l es ->
    reported (DMark ln (L "<![CDATA[") :: map (fun x => DText (fst x) (snd x) false) texts ++ DMark ln' (L "]]>") :: l)
             (EStartCDATA ln :: map (fun x => EChars (fst x) (snd x)) texts ++ EEndCDATA ln' :: es)
| rp_comment : forall ln t l es, reported l es -> reported (DComment ln t :: l) (EComment ln t :: es)
| rp_pi : forall ln t d l es, reported l es -> reported (DPi ln t d :: l) (EPi ln t d :: es).
(** Texts and CDATA sections occur inside elements only. *)
Definition outer (n : dnode) : Prop := match n with DText _ _ _ | DMark _ _ => False | _ => True end.
