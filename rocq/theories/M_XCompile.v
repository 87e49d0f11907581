(** * Compilation of XML templates

    Model of [_Compiler] and [XMLTemplate] of [kajiki/xml_template.py] and of the tag tables of
    [kajiki/html_utils.py].  No proofs here.

    Simplifications: the generators of the code run one after the other; the nodes get the line
    number of their DOM node when they are made (in the code: when they are yielded,
    [annotate] 60-65 and [_anno] 148-152; the line numbers of DOM nodes are not 0). *)

From Coq Require Import Ascii String List NArith ZArith Bool.
From Verif Require Import PyStr M_Values M_IR M_Text M_Entities M_XText M_Dom M_Doctype.
Import ListNotations.
Open Scope list_scope.

(** html_utils.py:17-28. *)
Definition html_optional_end_tags : list str :=
  [L "area"; L "base"; L "br"; L "col"; L "hr"; L "img"; L "input"; L "link"; L "meta"; L "param"].
(** html_utils.py:29-30. *)
Definition html_required_end_tags : list str := [L "script"].
Definition html_cdata_tags : list str := [L "script"; L "style"].

(** What [_Compiler] keeps: [functions] in insertion order, [mod_py], [in_def], [is_child];
    and how many names [gen_name] has given. *)
Record cst := Cst {
  c_funs : list (str * list node);
  c_mod : list (nat * list str);
  c_in_def : bool;
  c_is_child : bool;
  c_names : nat }.
Definition M (A : Type) : Type := cst -> result (A * cst).
Definition ret {A} (a : A) : M A := fun s => Ok (a, s).
Definition fail {A} (e : string) : M A := fun _ => Raise e.
Definition bind {A B} (m : M A) (f : A -> M B) : M B := fun s => rbind (m s) (fun r => f (fst r) (snd r)).
Definition lift {A} (r : result A) : M A := fun s => rmap (fun a => (a, s)) r.
(** Both outputs, one after the other. *)
Definition cat (a b : M (list node)) : M (list node) := bind a (fun x => bind b (fun y => ret (x ++ y))).
(** The number of the first of [k] new names. *)
Definition draw (k : nat) : M nat :=
  fun s => Ok (c_names s, Cst (c_funs s) (c_mod s) (c_in_def s) (c_is_child s) (c_names s + k)).
(** [d[k] = v]. *)
Fixpoint set_function (k : str) (v : list node) (l : list (str * list node)) : list (str * list node) :=
  match l with
  | [] => [(k, v)]
  | (k', v') :: l' => if seqb k k' then (k, v) :: l' else (k', v') :: set_function k v l'
  end.
Definition add_function (k : str) (v : list node) : M unit :=
  fun s => Ok (tt, Cst (set_function k v (c_funs s)) (c_mod s) (c_in_def s) (c_is_child s) (c_names s)).
Definition add_module (ln : nat) (lines : list str) : M unit :=
  fun s => Ok (tt, Cst (c_funs s) (c_mod s ++ [(ln, lines)]) (c_in_def s) (c_is_child s) (c_names s)).
Definition get_in_def : M bool := fun s => Ok (c_in_def s, s).
Definition set_in_def (b : bool) : M unit :=
  fun s => Ok (tt, Cst (c_funs s) (c_mod s) b (c_is_child s) (c_names s)).
Definition get_is_child : M bool := fun s => Ok (c_is_child s, s).
Definition set_is_child : M unit :=
  fun s => Ok (tt, Cst (c_funs s) (c_mod s) (c_in_def s) true (c_names s)).

(** [sorted(node.attributes.items())]: names are different, so they decide. *)
Definition sorted_attrs (l : list (str * str)) : list (str * str) := sort_attrs l.

(** The [parentNode]: the document or an element. *)
Inductive parent_node : Type := InDocument | InElement (tag : str) (attrs : list (str * str)).

(** Which method [_compile_node] calls for a tag [py:...] (189-194). *)
Inductive method : Type :=
| KXml | KReplace | KImport | KExtends | KInclude | KBlock | KDef | KCall | KFor | KWith | KSwitch
| KCase | KIf | KElse | KNop
| KData       (* _compile_text, _compile_comment, _compile_pi: an element has no [data] *)
| KNode.      (* _compile_node itself *)
Definition methods : list (str * method) :=
  [ (L "xml", KXml); (L "replace", KReplace); (L "import", KImport); (L "extends", KExtends);
    (L "include", KInclude); (L "block", KBlock); (L "def", KDef); (L "call", KCall);
    (L "for", KFor); (L "with", KWith); (L "switch", KSwitch); (L "case", KCase); (L "if", KIf);
    (L "else", KElse); (L "nop", KNop); (L "text", KData); (L "comment", KData); (L "pi", KData);
    (L "node", KNode) ].
Definition method_of (tag : str) : method :=
  if prefixb (L "py:") tag then
    match List.find (fun kv => seqb (last (split_c c_colon tag) []) (fst kv)) methods with
    | Some (_, m) => m
    | None => KXml
    end
  else KXml.

(** The text of a node as [_compile_switch] and [_compile_xml] use it: [isinstance(n, ir.TextNode)]. *)
Definition ir_text (n : node) : option str :=
  match n with NText _ t _ | NTrans _ t _ => Some t | _ => None end.
Definition is_case_or_else (n : node) : bool :=
  match n with NCase _ _ _ | NElse _ _ => true | _ => false end.
(** xml_template.py:409-419: the loop of [_compile_switch]. *)
Fixpoint switch_body (l : list node) : result (list node) :=
  match l with
  | [] => Ok []
  | n :: l' =>
      match ir_text n with
      | Some t => match strip t with [] => switch_body l' | _ => Raise "XMLTemplateCompileError" end
      | None => if is_case_or_else n then rmap (cons n) (switch_body l') else Raise "XMLTemplateCompileError"
      end
  end.

(** [x.text = unescape(x.text)] on the nodes of a text. *)
Definition unescape_node (n : node) : result node :=
  match n with
  | NText ln t g => rmap (fun t => NText ln t g) (unescape t)
  | NExpr ln t safe => rmap (fun t => NExpr ln t safe) (unescape t)
  | _ => Ok n
  end.

Section Compiler.
Variable compile : str -> compiled.     (* Python's compiler, see [M_Text] *)
Variable helper : nat -> str.           (* the names that [gen_name] returns *)
Variable autoblocks : list str.
Variable cdata_scripts : bool.
Variable mode : str.

Definition html : bool := prefixb (L "html") mode.

(** xml_template.py:154-168 [_is_autoblock]: the answer and the attributes afterwards. *)
Definition is_autoblock (tag : str) (attrs : list (str * str)) : result (bool * list (str * str)) :=
  if smem tag autoblocks then
    if has_attr (L "py:autoblock") attrs then
      let guard := lower (get_attr (L "py:autoblock") attrs) in
      if seqb guard (L "false") then Ok (false, remove_attr (L "py:autoblock") attrs)
      else if seqb guard (L "true") then Ok (true, attrs)
      else Raise "ValueError"
    else Ok (true, attrs)
  else Ok (false, attrs).

(** xml_template.py:374-384 [_compile_text]. *)
Definition compile_text (p : parent_node) (ln : nat) (data : str) : M (list node) :=
  match p with
  | InDocument => fail "AttributeError"
  | InElement tag _ => lift (text_nodes compile (if smem tag html_cdata_tags then TK_raw else TK_text) ln data)
  end.
(** xml_template.py:386-390 [_compile_comment]. *)
Definition compile_comment (ln : nat) (data : str) : list node :=
  if prefixb (L "!") data then [] else [NText ln (L "<!-- " ++ data ++ L " -->") None].
(** xml_template.py:288-301 [_compile_pi]. *)
Definition compile_pi (ln : nat) (data : str) : M (list node) :=
  bind (lift (mk_python ln [strip data])) (fun n =>
    match n with
    | NPython _ lines true => bind (add_module 0 lines) (fun _ => ret [])
    | _ => ret [n]
    end).

(** xml_template.py:225-235: attributes, and what [py:content] and [py:attrs] say. *)
Fixpoint compile_attrs (ln : nat) (guard : option str) (l : list (str * str)) : M (list node) :=
  match l with
  | [] => ret []
  | (k, v) :: l' =>
      bind (lift (text_nodes compile TK_attr ln v)) (fun value =>
      if seqb k (L "py:content") || seqb k (L "py:attrs") then compile_attrs ln guard l'
      else bind (draw 3) (fun i =>
           cat (ret [NAttr ln k value guard mode (helper i) (helper (i + 1)) (helper (i + 2))])
               (compile_attrs ln guard l')))
  end.

(** xml_template.py:250-258: the content of a script or style element. *)
Fixpoint script_nodes (tag : str) (attrs : list (str * str)) (l : list dnode) : M (list node) :=
  match l with
  | [] => ret []
  | DMark _ _ :: l' => script_nodes tag attrs l'
  | DText ln t escaped :: l' =>
      bind (compile_text (InElement tag attrs) ln t) (fun ns =>
      bind (lift (if escaped then rseq (map unescape_node ns) else Ok ns)) (fun ns =>
      cat (ret ns) (script_nodes tag attrs l')))
  | _ :: _ => fail "AssertionError"
  end.

(** The tag of a previous sibling. *)
Definition tag_of (n : dnode) : str := match n with DElem _ tag _ _ => tag | _ => [] end.

(** xml_template.py:438-445: where an else may stand. *)
Definition else_allowed (p : parent_node) (prev : str) : result bool :=
  match p with
  | InDocument => Raise "AttributeError"
  | InElement tag attrs =>
      Ok (seqb tag (L "py:nop") || has_attr (L "py:switch") attrs || seqb prev (L "py:if"))
  end.

(** xml_template.py:365-368: the declaration of the caller. *)
Definition caller_decl (children : list dnode) : result str :=
  match children with
  | [] => Raise "IndexError"
  | DElem _ _ a _ :: _ =>
      Ok (if has_attr (L "args") a then L "$caller(" ++ get_attr (L "args") a ++ L ")" else L "$caller()")
  | _ => Raise "AttributeError"
  end.

(** xml_template.py:170-454 [_compile_node] and the methods it calls.  [prev]: the tag of the
    previous sibling. *)
Fixpoint compile_node (p : parent_node) (prev : str) (n : dnode) {struct n} : M (list node) :=
  match n with
  | DComment ln t => ret (compile_comment ln t)
  | DText ln t _ | DMark ln t => compile_text p ln t
  | DPi ln _ d => compile_pi ln d
  | DElem ln tag attrs0 cs =>
      bind (lift (is_autoblock tag attrs0)) (fun ba =>
      let attrs := snd ba in
      let self := InElement tag attrs in
      (* 450-454 [_compile_nop]; with [keep_marks], CDATA markers are passed on (262-268) *)
      let children (keep_marks : bool) :=
        (fix go (prev : str) (l : list dnode) : M (list node) :=
           match l with
           | [] => ret []
           | c :: l' =>
               cat (match keep_marks, c with
                    | true, DMark _ t => ret [NText ln t None]
                    | _, _ => compile_node self prev c
                    end) (go (tag_of c) l')
           end) [] cs in
      let nop := children false in
      (* 327-345 [_compile_block] *)
      let block (name : str) :=
        let fname := L "_kj_block_" ++ name in
        bind nop (fun body =>
        let body := match body with [] => [NPass 0] | _ => body end in
        bind get_is_child (fun child : bool =>
        if child then
          bind (lift (mk_python 0 [L "parent_block=parent." ++ fname])) (fun h =>
          bind (add_function (fname ++ L "()") (h :: body)) (fun _ => ret []))
        else bind (add_function (fname ++ L "()") body) (fun _ => ret [NExpr ln (fname ++ L "()") false]))) in
      (* 198-281 [_compile_xml] *)
      let xml :=
        let guard := if has_attr (L "py:strip") attrs
                     then Some (match get_attr (L "py:strip") attrs with
                                | [] => L "False"
                                | g => L "not (" ++ g ++ L ")"
                                end)
                     else None in
        let attrs := remove_attr (L "py:strip") attrs in
        let text (t : str) := NText ln t guard in
        let end_tag := text (L "</" ++ tag ++ L ">") in
        cat (ret [text (L "<" ++ tag)])
       (cat (compile_attrs ln guard (sorted_attrs attrs))
       (cat (match get_attr (L "py:attrs") attrs with
             | [] => ret []
             | a => bind (draw 1) (fun i => ret [NAttrs ln a guard mode (helper i)])
             end)
            (match get_attr (L "py:content") attrs with
             | c0 :: c => ret [text (L ">"); NExpr ln (c0 :: c) false; end_tag]
             | [] =>
                 match cs with
                 | _ :: _ =>
                     cat (ret [text (L ">")])
                    (cat (if cdata_scripts && smem tag html_cdata_tags then
                            let marked (t : str) := if seqb mode (L "xml") then [NText ln t None] else [] in
                            cat (ret (marked (L "/*<![CDATA[*/")))
                           (cat (script_nodes tag attrs cs) (ret (marked (L "/*]]>*/"))))
                          else children true)
                         (ret (if html && smem tag html_optional_end_tags then [] else [end_tag])))
                 | [] =>
                     if smem tag html_required_end_tags then ret [text (L "></" ++ tag ++ L ">")]
                     else if html then
                       if smem tag html_optional_end_tags then ret [text (L ">")]
                       else ret [text (L "></" ++ tag ++ L ">")]
                     else ret [text (L "/>")]
                 end
             end))) in
      if fst ba then block tag
      else
        match method_of tag with
        | KXml => xml
        | KReplace => ret [NExpr ln (get_attr (L "value") attrs) false]                      (* 283-286 *)
        | KImport =>                                                                         (* 303-310 *)
            ret [NImport ln (get_attr (L "href") attrs)
                   (if has_attr (L "alias") attrs then Some (get_attr (L "alias") attrs) else None)]
        | KExtends =>                                                                        (* 312-319 *)
            bind set_is_child (fun _ => cat (ret [NExtend ln (get_attr (L "href") attrs)]) nop)
        | KInclude => ret [NInclude ln (get_attr (L "href") attrs)]                          (* 321-325 *)
        | KBlock => block (get_attr (L "name") attrs)
        | KDef =>                                                                            (* 347-360 *)
            let f := get_attr (L "function") attrs in
            bind get_in_def (fun old =>
            bind (set_in_def true) (fun _ =>
            bind nop (fun body =>
            bind (set_in_def old) (fun _ =>
            if old then ret [NDef ln true f body]
            else bind (add_function f body) (fun _ => ret [])))))
        | KCall =>                                                                           (* 362-372 *)
            bind (lift (caller_decl cs)) (fun caller =>
            bind nop (fun body =>
            bind (draw 1) (fun i =>
            ret [mk_call ln (helper i) caller
                   (replace (L "%caller") (L "$caller") (get_attr (L "function") attrs)) body])))
        | KFor => bind nop (fun body => ret [NFor ln (get_attr (L "each") attrs) body])
        | KWith => bind nop (fun body => bind (lift (mk_with ln (get_attr (L "vars") attrs) body)) (fun n => ret [n]))
        | KSwitch =>
            bind nop (fun body => bind (lift (switch_body body)) (fun body =>
            ret [NSwitch ln (get_attr (L "test") attrs) body]))
        | KCase => bind nop (fun body => ret [NCase ln (get_attr (L "value") attrs) body])
        | KIf => bind nop (fun body => ret [NIf ln (get_attr (L "test") attrs) body])
        | KElse =>
            bind (lift (else_allowed p prev)) (fun ok : bool =>
            if ok then bind nop (fun body => ret [NElse ln body]) else fail "XMLTemplateCompileError")
        | KNop => nop
        | KData => fail "AttributeError"
        | KNode => fail "RecursionError"
        end)
  end.

(** xml_template.py:97-146 [compile]. *)
Definition no_comment (n : dnode) : bool := match n with DComment _ _ => false | _ => true end.
Definition doctype_text (is_fragment is_child : bool) (dtd : str) : list node :=
  if is_fragment || is_child then []
  else match dtd with
       | _ :: _ => [NText 1 (strip dtd ++ [c_nl]) None]
       | [] => if seqb mode (L "html5") then [NText 1 (L "<!DOCTYPE html>" ++ [c_nl]) None] else []
       end.
Definition main_decl : str := L "__main__()".
(** (The line number of the functions is [None], here 0.) *)
Definition compile_document (is_fragment : bool) (d : document) : result template :=
  match filter no_comment (d_children d) with
  | [root] =>
      rmap (fun r =>
        let body := doctype_text is_fragment (c_is_child (snd r)) (d_dtd d) ++ fst r in
        TemplateNode 0 (c_mod (snd r))
          (map (fun kv => NDef 0 false (fst kv) (snd kv)) (set_function main_decl body (c_funs (snd r)))))
        (compile_node InDocument [] root (Cst [(main_decl, [])] [] false false 0))
  | _ => Raise "XMLTemplateCompileError"
  end.
End Compiler.

(** xml_template.py:30-57 [XMLTemplate], up to the intermediate representation.  [expat]: the events
    that the XML parser reports for a source, or its exception. *)
Definition xml_template (expat : str -> result (list event)) (compile : str -> compiled) (helper : nat -> str)
    (mode : option str) (is_fragment : bool) (autoblocks : list str) (cdata_scripts strip_text : bool)
    (source : str) : result template :=
  let (dtd, source) := parser_source source in
  rbind (expat source) (fun events =>
  rbind (build events) (fun nodes =>
  compile_document compile helper autoblocks cdata_scripts (rendering_mode mode dtd) is_fragment
    (transform strip_text (Document dtd nodes)))).
