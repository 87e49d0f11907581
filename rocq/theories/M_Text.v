(** * Text templates

    Model of [kajiki/text.py].  File names are left out.  No proofs here. *)

From Coq Require Import Ascii String List NArith ZArith Bool.
From Verif Require Import PyStr Regex M_NameGen M_IR.
Import ListNotations.
Open Scope list_scope.

(** ** Scanner *)

(** text.py:33-50 [_re_pattern]; groups: 1 expr_escaped, 2 expr_named, 3 expr_braced, 4 expr_invalid,
    5 tag_bare, 6 tag_bare_invalid, 7 tag_begin_ljust, 8 tag_begin, 9 tag_begin_invalid. *)
Definition name_start (c : char) : bool := N.eqb c c_us || is_az c.
Definition name_rest (c : char) : bool :=
  name_start c || ((48 <=? c) && (c <=? 57))%N || N.eqb c c_dot.
Definition chr (c : char) : re := RChr (N.eqb c).
Definition text_pattern : re :=
  RAlt (RSeq (chr c_dollar)
         (RAlt (RGrp 1 (chr c_dollar))
         (RAlt (RGrp 2 (RSeq (RChr name_start) (RRep 0 None name_rest)))
         (RAlt (RSeq (chr c_lbrace) (RGrp 3 REmp))
               (RGrp 4 REmp)))))
  (RAlt (RSeq RBol (RSeq (RRep 0 None is_space) (RSeq (chr c_pct)
         (RAlt (RGrp 5 (RRep 1 None is_az))
               (RGrp 6 REmp)))))
  (RAlt (RSeq RBol (RSeq (RRep 0 None is_space) (RSeq (rlit (L "{%-")) (RGrp 7 (RRep 1 None is_az)))))
        (RSeq (rlit (L "{%"))
         (RAlt (RGrp 8 (RRep 1 None is_az))
               (RGrp 9 REmp))))).

(** Tokens (text.py:317-342) with their line numbers.  [TNone]: the scanner yielded [None];
    [TRaise]: it raised an exception, nothing follows. *)
Inductive tok : Type :=
| TText (ln : nat) (text : str)
| TExpr (ln : nat) (text : str)
| TTag (ln : nat) (tagname body : str)
| TNone
| TRaise (e : string).

(** [compile(s, '', 'eval')]: it compiles, it is a SyntaxError at this line and offset, or
    something else is raised. *)
Inductive compiled : Type := COk | CErr (lineno offset : nat) | CExn (e : string).

Definition nat_sum (l : list nat) : nat := fold_right Nat.add 0 l.
Definition count_nl (s : str) : nat := count c_nl s.

Section Scan.
Variable compile : str -> compiled.
Variable source : str.

(** text.py:122-128 [text], [expr]; 130-133 [tag] (a tag's text is name, space, body).  The new
    line number comes with the token. *)
Definition text_tok (ln : nat) (t : str) : nat * tok := let ln' := ln + count_nl t in (ln', TText ln' t).
Definition expr_tok (ln : nat) (t : str) : nat * tok := let ln' := ln + count_nl t in (ln', TExpr ln' t).
Definition tag_tok (ln : nat) (name body : str) : nat * tok :=
  (ln + count_nl (name ++ L " " ++ body), TTag ln name body).

(** text.py:135-142 [_get_tag_bare]: new position, line number and token. *)
Definition get_tag_bare (name : str) (pos ln : nat) : nat * nat * tok :=
  let stop := match find_from [c_nl] source pos with Some i => i | None => length source end in
  let body := slice pos stop source in
  let (ln', t) := tag_tok (ln + 1) name body in
  (stop + 1, ln', t).

(** text.py:151-152: skipping blanks; [s] is what is left from [pos] on. *)
Fixpoint skip_blanks (pos : nat) (s : str) : result nat :=
  match s with
  | [] => Raise "IndexError"
  | c :: s' => if N.eqb c c_sp || N.eqb c c_tab then skip_blanks (S pos) s' else Ok pos
  end.
(** text.py:144-153 [_get_tag]. *)
Definition get_tag (name : str) (pos ln : nat) : result (nat * nat * tok) :=
  match find_from (L "%}") source pos with
  | None => Raise "AssertionError"
  | Some stop =>
      let body := slice pos stop source in
      if suffixb (L "-") body then
        let body := firstn (length body - 1) body in
        rmap (fun pos' => let (ln', t) := tag_tok ln name body in (pos', ln', t))
             (skip_blanks (stop + 2) (skipn (stop + 2) source))
      else let (ln', t) := tag_tok ln name body in Ok (stop + 2, ln', t)
  end.

(** text.py:159-161: position after an expression that fails at this line and offset. *)
Definition expr_end (rest : str) (lineno offset : nat) : nat :=
  offset + nat_sum (map (fun line => length line + 1) (firstn (lineno - 1) (splitlines rest))).
(** text.py:155-164 [_get_braced_expr]; without a SyntaxError it returns [None]. *)
Definition get_braced_expr (pos ln : nat) : result (nat * nat * tok) :=
  match compile (skipn pos source) with
  | COk => Ok (pos, ln, TNone)
  | CExn e => Raise e
  | CErr lineno offset =>
      let stop := pos + expr_end (skipn pos source) lineno offset in
      let (ln', t) := expr_tok ln (slice pos (stop - 1) source) in
      Ok (stop, ln', t)
  end.

(** text.py:77-112 [__iter__]: what is yielded for the remaining matches; the setter
    of [pos] (117-119) refuses to go back. *)
Fixpoint scan_loop (ms : list mobj) (pos ln : nat) : list tok :=
  match ms with
  | [] => if Nat.eqb pos (length source) then [] else [snd (text_tok ln (skipn pos source))]
  | m :: ms' =>
      let start := mstart m in
      let '(before, pos, ln) :=
        if Nat.ltb pos start
        then let (ln', t) := text_tok ln (slice pos start source) in ([t], start, ln')
        else ([], pos, ln) in
      let moving (k : nat -> list tok) :=
        if Nat.leb pos (mend m) then k (mend m) else [TRaise "AssertionError"] in
      let yielding (r : result (nat * nat * tok)) :=
        match r with
        | Raise e => [TRaise e]
        | Ok (pos', ln', t) => t :: scan_loop ms' pos' ln'
        end in
      before ++
      match group m 3, group m 2, group m 1, group m 5, group m 8, group m 7, group m 6 with
      | Some _, _, _, _, _, _, _ => moving (fun pos => yielding (get_braced_expr pos ln))
      | _, Some e, _, _, _, _, _ =>
          moving (fun pos => let (ln', t) := expr_tok ln e in yielding (Ok (pos, ln', t)))
      | _, _, Some _, _, _, _, _ =>
          moving (fun pos => let (ln', t) := text_tok ln (L "$") in yielding (Ok (pos, ln', t)))
      | _, _, _, Some tag, _, _, _ => moving (fun pos => yielding (Ok (get_tag_bare tag pos ln)))
      | _, _, _, _, Some tag, _, _ => moving (fun pos => yielding (get_tag tag pos ln))
      | _, _, _, _, _, Some tag, _ => moving (fun pos => yielding (get_tag tag pos ln))
      | _, _, _, _, _, _, Some _ => scan_loop ms' pos ln
      | _, _, _, _, _, _, _ => [TRaise "AssertionError"]
      end
  end.
Definition scan : list tok := scan_loop (finditer text_pattern source) 0 1.
End Scan.

(** ** Parser *)

(** text.py:345-355 [_unescape_newlines]. *)
Fixpoint unescape_newlines (s : str) : result str :=
  match s with
  | [] => Ok []
  | c :: s' =>
      if N.eqb c c_bsl then
        match s' with
        | [] => Raise "IndexError"
        | d :: s'' => rmap (fun t => if N.eqb d c_nl then t else d :: t) (unescape_newlines s'')
        end
      else rmap (cons c) (unescape_newlines s')
  end.

(** Parser state: tokens to come (including pushed back ones), functions in order of first
    definition, module level code, the two flags, and the number of helper names drawn.
    Bodies may hold [None]s, which [HierNode] drops (ir.py:49). *)
Record pst := Pst {
  p_toks : list tok;
  p_funs : list (str * list (option node));
  p_mod : list (nat * list str);
  p_in_def : bool;
  p_child : bool;
  p_calls : nat }.
Definition with_toks (s : pst) (t : list tok) : pst :=
  Pst t (p_funs s) (p_mod s) (p_in_def s) (p_child s) (p_calls s).
(** [d[k] = v]. *)
Fixpoint set_fun (k : str) (v : list (option node)) (l : list (str * list (option node))) : list (str * list (option node)) :=
  match l with
  | [] => [(k, v)]
  | (k', v') :: l' => if seqb k k' then (k, v) :: l' else (k', v') :: set_fun k v l'
  end.
Definition somes {A} (l : list (option A)) : list A :=
  flat_map (fun o => match o with Some a => [a] | None => [] end) l.

(** ir.py:405-408: the body of a [PythonNode] must be texts. *)
Fixpoint texts_of (l : list (option node)) : result (list str) :=
  match l with
  | [] => Ok []
  | Some (NText _ t _) :: l' => rmap (cons t) (texts_of l')
  | _ => Raise "AssertionError"
  end.
Definition python_of (l : list (option node)) : result node := rbind (texts_of l) (mk_python 0).

Section Parse.
Variable autoescape : bool.
Variable shlex_split : str -> result (list str).
Variable helper : nat -> str.      (* the names that [gen_name] returns, in order (C11, C12) *)

(** How a body ends: with a stop tag, or at the end of the tokens. *)
Definition stop : Type := option tok.

(** text.py:200-219 [_parse_body] and the [_parse_<tagname>] methods.  The fuel is enough when it
    exceeds the number of tokens. *)
Fixpoint parse_body (fuel : nat) (stoptags : list str) (s : pst) {struct fuel}
  : result (list (option node) * stop * pst) :=
  match fuel with
  | O => Raise "out of fuel"
  | S f =>
    (* yield a node and go on *)
    let continue_with (n : option node) (s : pst) :=
      rmap (fun r => let '(ns, e, s') := r in (n :: ns, e, s')) (parse_body f stoptags s) in
    let yielding (r : result (option node * pst)) := rbind r (fun p => continue_with (fst p) (snd p)) in
    (* a body that ends with one of these tags *)
    let body (tags : list str) (s : pst) (k : list (option node) -> stop -> pst -> result (option node * pst)) :=
      rbind (parse_body f tags s) (fun r => let '(ns, e, s') := r in k ns e s') in
    let push_tok (e : stop) (s : pst) :=                                      (* 197-198 *)
      with_toks s (match e with Some t => t | None => TNone end :: p_toks s) in
    match p_toks s with
    | [] => Ok ([], None, s)
    | TRaise e :: _ => Raise e
    | TNone :: _ => Raise "AssertionError"
    | TText ln t :: ts =>                                                     (* 184-189 *)
        rbind (unescape_newlines t) (fun t' => continue_with (Some (NText ln t' None)) (with_toks s ts))
    | TExpr ln t :: ts =>                                                     (* 191-195 *)
        continue_with (Some (NExpr ln t (negb autoescape))) (with_toks s ts)
    | (TTag ln tag tbody) as token :: ts =>
        let s := with_toks s ts in
        if smem tag stoptags then Ok ([], Some token, s)
        else yielding (
          if seqb tag (L "def") then                                          (* 221-229 *)
            body [L "end"] (Pst ts (p_funs s) (p_mod s) true (p_child s) (p_calls s)) (fun ns _ s' =>
              let s' := Pst (p_toks s') (p_funs s') (p_mod s') (p_in_def s) (p_child s') (p_calls s') in
              if p_in_def s then Ok (Some (NDef 0 true tbody (somes ns)), s')
              else Ok (None, Pst (p_toks s') (set_fun (strip tbody) ns (p_funs s')) (p_mod s')
                               (p_in_def s') (p_child s') (p_calls s')))
          else if seqb tag (L "call") then                                    (* 231-241 *)
            match find_from (L "(") tbody 0 with
            | None => Raise "AssertionError"
            | Some b =>
                match find_from (L ")") tbody b with
                | None => Raise "AssertionError"
                | Some e =>
                    let arglist := slice b (e + 1) tbody in
                    let call := strip (skipn (e + 1) tbody) in
                    body [L "end"] s (fun ns _ s' =>
                      Ok (Some (mk_call 0 (helper (p_calls s')) (L "$caller" ++ arglist)
                                  (replace (L "%caller") (L "$caller") call) (somes ns)),
                          Pst (p_toks s') (p_funs s') (p_mod s') (p_in_def s') (p_child s') (S (p_calls s'))))
                end
            end
          else if seqb tag (L "if") then                                      (* 243-248 *)
            body [L "end"; L "else"] s (fun ns e s' =>
              match e with
              | Some (TTag _ tg _) =>
                  Ok (Some (NIf 0 tbody (somes ns)), if seqb tg (L "else") then push_tok e s' else s')
              | _ => Raise "AttributeError"
              end)
          else if seqb tag (L "for") then                                     (* 250-252 *)
            body [L "end"] s (fun ns _ s' => Ok (Some (NFor 0 tbody (somes ns)), s'))
          else if seqb tag (L "switch") then                                  (* 254-256 *)
            body [L "end"] s (fun ns _ s' => Ok (Some (NSwitch 0 tbody (somes ns)), s'))
          else if seqb tag (L "case") then                                    (* 258-262 *)
            body [L "case"; L "else"; L "end"] s (fun ns e s' =>
              Ok (Some (NCase 0 tbody (somes ns)), push_tok e s'))
          else if seqb tag (L "else") then                                    (* 264-266 *)
            body [L "end"] s (fun ns _ s' => Ok (Some (NElse 0 (somes ns)), s'))
          else if seqb tag (L "extends") then                                 (* 268-273 *)
            rbind (shlex_split tbody) (fun parts =>
              match parts with
              | [] => Raise "IndexError"
              | [fn] => Ok (Some (NExtend 0 fn),
                            Pst (p_toks s) (p_funs s) (p_mod s) (p_in_def s) true (p_calls s))
              | _ => Raise "AssertionError"
              end)
          else if seqb tag (L "import") then                                  (* 275-282 *)
            rbind (shlex_split tbody) (fun parts =>
              match parts with
              | [] => Raise "IndexError"
              | [fn] => Ok (Some (NImport 0 fn None), s)
              | fn :: as_ :: more =>
                  if seqb as_ (L "as") then
                    match more with
                    | [] => Raise "IndexError"
                    | alias :: _ => Ok (Some (NImport 0 fn (Some alias)), s)
                    end
                  else Raise "AssertionError"
              end)
          else if seqb tag (L "include") then                                 (* 284-288 *)
            rbind (shlex_split tbody) (fun parts =>
              match parts with
              | [] => Raise "IndexError"
              | [fn] => Ok (Some (NInclude 0 fn), s)
              | _ => Raise "AssertionError"
              end)
          else if seqb tag (L "py") then                                      (* 290-301 *)
            let finish (ns : list (option node)) (s' : pst) :=
              rbind (python_of ns) (fun n =>
                match n with
                | NPython ln ls true =>
                    Ok (None, Pst (p_toks s') (p_funs s') (p_mod s' ++ [(ln, ls)]) (p_in_def s') (p_child s') (p_calls s'))
                | _ => Ok (Some n, s')
                end) in
            match strip tbody with
            | [] => body [L "end"] s (fun ns _ s' => finish ns s')
            | code => finish [Some (NText 0 code None)] s
            end
          else if seqb tag (L "block") then                                   (* 303-314 *)
            let fname := block_fname (strip tbody) in
            let decl := fname ++ L "()" in
            body [L "end"] s (fun ns _ s' =>
              let register ns := Pst (p_toks s') (set_fun decl ns (p_funs s')) (p_mod s')
                                   (p_in_def s') (p_child s') (p_calls s') in
              if p_child s' then
                rmap (fun n => (None, register (Some n :: ns)))
                     (mk_python 0 [L "parent_block=" ++ L "parent." ++ fname])
              else Ok (Some (NExpr 0 decl false), register ns))
          else if seqb tag (L "body") then
            (* [_parse_body] itself is found: a generator over what is then the end of the tokens, no node *)
            Ok (None, s)
          else Raise "AttributeError")
    end
  end.

(** text.py:178-182 [parse]. *)
Definition parse (ts : list tok) : result template :=
  rmap (fun r => let '(ns, _, s) := r in
          TemplateNode 0 (p_mod s)
            (map (fun kv => NDef 0 false (fst kv) (somes (snd kv))) (set_fun (L "__main__()") ns (p_funs s))))
       (parse_body (S (length ts)) [] (Pst ts [(L "__main__()", [])] [] false false 0)).
End Parse.

(** text.py:53-67 [TextTemplate], up to the intermediate representation, for a given source. *)
Definition text_template (compile : str -> compiled) (shlex_split : str -> result (list str))
    (helper : nat -> str) (autoescape : bool) (source : str) : result template :=
  match source with
  | [] => Raise "AssertionError"
  | _ => parse autoescape shlex_split helper (scan compile source)
  end.
