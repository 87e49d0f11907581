(** * The document tree of XML templates

    Model of [_Parser] (its handlers) and [_DomTransformer] of [kajiki/xml_template.py], and of
    [kajiki/markup_template.py].  No proofs here. *)

From Coq Require Import Ascii String List NArith ZArith Bool.
From Verif Require Import PyStr M_Text M_Html5 M_Entities.
Import ListNotations.
Open Scope list_scope.

(** ** Nodes of [xml.dom.minidom], with the attributes that kajiki adds

    The first argument is [lineno].  [DText]: a text node with its [escaped] flag; [DMark]: a
    text node with the [_cdata] flag.  Attributes are in no particular order. *)
Inductive dnode : Type :=
| DElem (ln : nat) (tag : str) (attrs : list (str * str)) (children : list dnode)
| DText (ln : nat) (data : str) (escaped : bool)
| DMark (ln : nat) (data : str)
| DComment (ln : nat) (data : str)
| DPi (ln : nat) (target data : str).

(** A document: [_dtd] and [childNodes]. *)
Record document := Document { d_dtd : str; d_children : list dnode }.

(** [hasAttribute], [getAttribute] (an absent attribute is empty), [setAttribute], [removeAttribute]. *)
Definition has_attr (k : str) (a : list (str * str)) : bool := existsb (fun kv => seqb k (fst kv)) a.
Fixpoint get_attr (k : str) (a : list (str * str)) : str :=
  match a with
  | [] => []
  | (k', v) :: a' => if seqb k k' then v else get_attr k a'
  end.
Definition remove_attr (k : str) (a : list (str * str)) : list (str * str) :=
  filter (fun kv => negb (seqb k (fst kv))) a.
Fixpoint set_attr (k v : str) (a : list (str * str)) : list (str * str) :=
  match a with
  | [] => [(k, v)]
  | (k', v') :: a' => if seqb k k' then (k, v) :: a' else (k', v') :: set_attr k v a'
  end.

(** ** Events of the XML parser

    What expat reports; the first argument is the parser's line number. *)
Inductive event : Type :=
| EStart (ln : nat) (name : str) (attrs : list (str * str))
| EEnd (ln : nat) (name : str)
| EChars (ln : nat) (content : str)
| EPi (ln : nat) (target data : str)
| ESkipped (ln : nat) (name : str)
| EComment (ln : nat) (text : str)
| EStartCDATA (ln : nat)
| EEndCDATA (ln : nat).

(** The stack [_els]: open elements, innermost first, each with its children so far (last
    first), then the children of the document; and the length of [_cdata_stack]. *)
Record pstate := PState {
  open_els : list (nat * str * list (str * str) * list dnode);
  doc_nodes : list dnode;
  cdata_depth : nat }.

(** [self._els[-1].appendChild(node)]. *)
Definition append_node (n : dnode) (p : pstate) : pstate :=
  match open_els p with
  | (ln, tag, a, cs) :: els => PState ((ln, tag, a, n :: cs) :: els) (doc_nodes p) (cdata_depth p)
  | [] => PState [] (n :: doc_nodes p) (cdata_depth p)
  end.
(** minidom refuses a text as a child of the document. *)
Definition append_text (n : dnode) (p : pstate) : result pstate :=
  match open_els p with
  | [] => Raise "HierarchyRequestErr"
  | _ => Ok (append_node n p)
  end.

(** The handlers.  An element is put into its parent when it ends, not when it starts
    (643-653), which comes to the same for a whole document. *)
Definition handle (p : pstate) (e : event) : result pstate :=
  let cdata := negb (Nat.eqb (cdata_depth p) 0) in
  match e with
  | EStart ln name attrs =>                                                    (* 643-649 *)
      Ok (PState ((ln, name, attrs, []) :: open_els p) (doc_nodes p) (cdata_depth p))
  | EEnd _ name =>                                                             (* 651-653 *)
      match open_els p with
      | [] => Raise "AttributeError"
      | (ln, tag, a, cs) :: els =>
          if seqb name tag
          then Ok (append_node (DElem ln tag a (rev cs)) (PState els (doc_nodes p) (cdata_depth p)))
          else Raise "AssertionError"
      end
  | EChars ln content =>                                                       (* 655-662 *)
      let '(data, escaped) := characters cdata content in append_text (DText ln data escaped) p
  | EPi ln target data => Ok (append_node (DPi ln target data) p)              (* 664-667 *)
  | ESkipped ln name =>                                                        (* 669-681 *)
      rbind (skipped_entity cdata name) (fun de => append_text (DText ln (fst de) (snd de)) p)
  | EComment ln text => Ok (append_node (DComment ln text) p)                  (* 696-699 *)
  | EStartCDATA ln =>                                                          (* 701-706 *)
      rmap (fun p => PState (open_els p) (doc_nodes p) (S (cdata_depth p)))
           (append_text (DMark ln (L "<![CDATA[")) p)
  | EEndCDATA ln =>                                                            (* 708-713 *)
      rbind (append_text (DMark ln (L "]]>")) p) (fun p =>
        match cdata_depth p with
        | O => Raise "IndexError"
        | S d => Ok (PState (open_els p) (doc_nodes p) d)
        end)
  end.
Fixpoint handle_all (p : pstate) (es : list event) : result pstate :=
  match es with
  | [] => Ok p
  | e :: es' => rbind (handle p e) (fun p' => handle_all p' es')
  end.
(** The nodes of the document after these events (elements that are not closed are left out;
    expat reports none without an error). *)
Definition build (es : list event) : result (list dnode) :=
  rmap (fun p => rev (doc_nodes p)) (handle_all (PState [] [] 0) es).

(** ** Directives *)

(** markup_template.py:6-21 [QDIRECTIVES]. *)
Definition qdirectives : list (str * str) :=
  [ (L "py:def", L "function"); (L "py:call", L "function"); (L "py:case", L "value");
    (L "py:else", L ""); (L "py:for", L "each"); (L "py:if", L "test");
    (L "py:switch", L "test"); (L "py:with", L "vars"); (L "py:replace", L "value");
    (L "py:block", L "name"); (L "py:extends", L "href") ].
(** 22 [QDIRECTIVES_DICT]. *)
Definition qdirective (tag : str) : option str :=
  option_map snd (List.find (fun kv => seqb tag (fst kv)) qdirectives).

(** ** [_DomTransformer] *)

Definition py_nop : str := L "py:nop".
Definition py_extends : str := L "py:extends".

(** xml_template.py:871-875: a directive element becomes [py:nop] with the directive as an attribute. *)
Definition rename (tag : str) (attrs : list (str * str)) : str * list (str * str) :=
  match qdirective tag with
  | Some arg => (py_nop, set_attr tag (get_attr arg attrs) attrs)
  | None => (tag, attrs)
  end.

(** xml_template.py:883-897: the loop over the directives.  After each one that is found the
    function calls itself on the element without it.  [fuel]: at most one call per attribute. *)
Fixpoint wrap (fuel : nat) (ln : nat) (tag : str) (attrs : list (str * str)) (children : list dnode) : dnode :=
  match fuel, List.find (fun d => has_attr (fst d) attrs) qdirectives with
  | S fuel', Some (d, arg) =>
      DElem ln d (match arg with [] => [] | _ => [(arg, get_attr d attrs)] end)
        [wrap fuel' ln tag (remove_attr d attrs) children]
  | _, _ => DElem ln tag attrs children
  end.

(** xml_template.py:846-900 [_expand_directives] on an element whose children are expanded; 876-882
    insert an element, which is expanded with the children. *)
Definition expand_elem (ln : nat) (tag : str) (attrs : list (str * str)) (children : list dnode) : dnode :=
  let (tag, attrs) := rename tag attrs in
  if negb (seqb tag py_nop) && has_attr py_extends attrs then
    let value := get_attr py_extends attrs in
    let (tag', attrs') := rename py_extends [(L "href", value)] in
    wrap (length attrs) ln tag (remove_attr py_extends attrs) (wrap (length attrs') ln tag' attrs' [] :: children)
  else wrap (length attrs) ln tag attrs children.
Fixpoint expand (n : dnode) : dnode :=
  match n with
  | DElem ln tag attrs cs => expand_elem ln tag attrs (map expand cs)
  | _ => n
  end.

(** The passes treat the document's first node only (762-764, 866-868). *)
Definition on_first (f : dnode -> dnode) (l : list dnode) : list dnode :=
  match l with [] => [] | n :: l' => f n :: l' end.

(** xml_template.py:769-781: [run] is [merge_node]. *)
Fixpoint merge_list (run : option (nat * str * bool)) (l : list dnode) : list dnode :=
  let flush := match run with Some (ln, t, e) => [DText ln t e] | None => [] end in
  match l with
  | [] => flush
  | DText ln t e :: l' =>
      match run with
      | None => merge_list (Some (ln, t, e)) l'
      | Some (ln0, t0, e0) => merge_list (Some (ln0, t0 ++ t, e0)) l'
      end
  | n :: l' => flush ++ n :: merge_list None l'
  end.
(** xml_template.py:754-788 [_merge_text_nodes] (here the children's own children come first). *)
Fixpoint merge (n : dnode) : dnode :=
  match n with
  | DElem ln tag attrs cs => DElem ln tag attrs (merge_list None (map merge cs))
  | _ => n
  end.

(** xml_template.py:801-827: what a text node is replaced by.  (The loop then visits the new
    nodes as well, which changes nothing more.) *)
Definition split_text (ln : nat) (data : str) (escaped : bool) : list dnode :=
  match strip data with
  | [] => [DText ln data escaped]
  | _ =>
      let lstripped := lstrip data in
      let n := length data - length lstripped in
      let front := firstn n data in
      let '(before, ln, data) :=
        if negb (Nat.eqb (length lstripped) (length data))
        then ([DText ln front escaped], ln + count_nl front, lstripped)
        else ([], ln, data) in
      let rstripped := rstrip data in
      if negb (Nat.eqb (length rstripped) (length data))
      then
        let k := length data - length rstripped in
        let back := skipn (length data - k) data in
        before ++ [DText ln rstripped escaped;
                   DText (ln + count_nl (firstn (length data - k) data)) back escaped]
      else before ++ [DText ln data escaped]
  end.
(** xml_template.py:790-830 [_extract_nodes_leading_and_trailing_spaces]. *)
Fixpoint extract_spaces (n : dnode) : dnode :=
  match n with
  | DElem ln tag attrs cs =>
      DElem ln tag attrs (flat_map (fun c => match c with
                                             | DText l t e => split_text l t e
                                             | _ => [extract_spaces c]
                                             end) cs)
  | _ => n
  end.

(** xml_template.py:832-844 [_strip_text_nodes]. *)
Fixpoint strip_texts (n : dnode) : dnode :=
  match n with
  | DElem ln tag attrs cs => DElem ln tag attrs (map strip_texts cs)
  | DText ln t e => DText (ln + count_nl (firstn (length t - length (lstrip t)) t)) (strip t) e
  | _ => n
  end.

(** xml_template.py:739-752 [transform]. *)
Definition transform (strip_text : bool) (d : document) : document :=
  let cs := on_first expand (d_children d) in
  let cs := on_first merge cs in
  let cs := map extract_spaces cs in
  Document (d_dtd d) (if strip_text then map strip_texts cs else cs).
