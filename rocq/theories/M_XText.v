(** * Interpolation in XML templates

    Model of [_TextCompiler] and [make_text_node] of [kajiki/xml_template.py].  No proofs here. *)

From Coq Require Import Ascii String List NArith ZArith Bool.
From Verif Require Import PyStr Regex M_IR M_Text.
Import ListNotations.
Open Scope list_scope.

(** xml_template.py:503-510 [_re_pattern]; groups: 1 expr_named, 2 expr_braced. *)
Definition interp_pattern : re :=
  RSeq (chr c_dollar)
    (RAlt (RGrp 1 (RSeq (RChr name_start) (RRep 0 None name_rest)))
    (RAlt (RSeq (chr c_lbrace) (RGrp 2 REmp))
          (chr c_dollar))).

(** What the iteration yields: a text or an expression, with its line number. *)
Inductive piece : Type :=
| XText (ln : nat) (text : str)
| XExpr (ln : nat) (text : str).

Section TextCompiler.
(** [compile(s, '', 'eval')], see [M_Text].  (A SyntaxError without an offset is a
    TypeError of [sum]: [CExn].) *)
Variable compile : str -> compiled.
Variable source : str.

(** xml_template.py:485-501 [text] and [expr]: the new line number comes with the piece.
    The line number here is [real_lineno], the sum of [orig_lineno] and [lineno]. *)
Definition xtext (ln : nat) (t : str) : nat * piece := (ln + count_nl t, XText ln t).
Definition xexpr (ln : nat) (t : str) : nat * piece := (ln + count_nl t, XExpr ln t).

(** xml_template.py:534-572 [_get_braced_expr]: new position, line number and piece. *)
Definition xget_braced (pos ln : nat) : result (nat * nat * piece) :=
  let pos := pos + (length (skipn pos source) - length (lstrip (skipn pos source))) in
  let rest := skipn pos source in
  match compile rest with
  | COk => Raise "XMLTemplateCompileError"
  | CExn e => Raise e
  | CErr lineno offset =>
      let stop := pos + expr_end rest lineno offset in
      match rev (slice pos stop source) with
      | [] => Raise "IndexError"
      | c :: _ =>
          if N.eqb c c_rbrace then
            match compile (slice pos (stop - 1) source) with
            | CErr _ _ => Raise "XMLTemplateCompileError"
            | CExn e => Raise e
            | COk => let (ln', p) := xexpr ln (slice pos (stop - 1) source) in Ok (stop, ln', p)
            end
          else Raise "XMLTemplateCompileError"
      end
  end.

(** xml_template.py:512-532 [__iter__], from the remaining matches on. *)
Fixpoint pieces_loop (ms : list mobj) (pos ln : nat) : result (list piece) :=
  match ms with
  | [] => if Nat.eqb pos (length source) then Ok [] else Ok [snd (xtext ln (skipn pos source))]
  | m :: ms' =>
      let '(before, ln) :=
        if Nat.ltb pos (mstart m)
        then let (ln', p) := xtext ln (slice pos (mstart m) source) in ([p], ln')
        else ([], ln) in
      rmap (app before)
        (rbind (match group m 2, group m 1 with
                | Some _, _ => xget_braced (mend m) ln
                | None, Some e => let (ln', p) := xexpr ln e in Ok (mend m, ln', p)
                | None, None => let (ln', p) := xtext ln (L "$") in Ok (mend m, ln', p)
                end)
           (fun r => let '(pos', ln', p) := r in rmap (cons p) (pieces_loop ms' pos' ln')))
  end.
Definition pieces (ln : nat) : result (list piece) := pieces_loop (finditer interp_pattern source) 0 ln.
End TextCompiler.

(** xml_template.py:457-465 [make_text_node]; the line number is set by [text]. *)
Definition make_text_node (ln : nat) (text : str) : node :=
  match strip text with
  | [] => NText ln text None
  | _ => NTrans ln text None
  end.

(** The nodes of a text (382-384 with the default [node_type]), of the text of a script or
    style element ([ir.TextNode], 377-380) and of an attribute value (226-228). *)
Inductive text_kind := TK_text | TK_raw | TK_attr.
Definition piece_node (k : text_kind) (p : piece) : node :=
  match p with
  | XText ln t => match k with TK_text => make_text_node ln t | _ => NText ln t None end
  | XExpr ln e => NExpr ln e (match k with TK_attr => true | _ => false end)
  end.
Definition text_nodes (compile : str -> compiled) (k : text_kind) (ln : nat) (source : str) : result (list node) :=
  rmap (map (piece_node k)) (pieces compile source ln).
