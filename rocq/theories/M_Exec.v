(** * Execution of generated Python

    Big-step semantics of the Python that ir.py generates for the body of a function, with
    the run-time support of [kajiki/template.py].  Statements are those of [pstmt], nested
    in blocks as Python's parser nests them (C21).  Left out, with an explicit error: nested
    functions, imports, extends, embedded Python.  No proofs here. *)

From Coq Require Import Ascii String List NArith ZArith Bool.
From Verif Require Import PyStr M_Values M_IR S_IR.
Import ListNotations.
Open Scope list_scope.

(** Local variables. *)
Notation env := (list (str * value)).
Fixpoint lookup (x : str) (e : env) : option value :=
  match e with
  | [] => None
  | (y, v) :: e' => if seqb x y then Some v else lookup x e'
  end.
Definition set_var (x : str) (v : value) (e : env) : env := (x, v) :: e.

(** What Python does with the user's expressions.  Expressions are functions of the local
    variables; the items of a loop are computed when it starts. *)
Record python := Python {
  ev : env -> str -> result value;                      (* an expression *)
  ev_bool : env -> str -> result bool;                  (* a condition *)
  ev_for : env -> str -> result (list env);             (* [target in iterable]: the variables of each round *)
  ev_attrs : env -> str -> result (list (str * value)); (* a mapping or a list of pairs, [None]: empty *)
  unpack : value -> result (list value);                (* the items of a right-hand side [a, b = ...] *)
  veq : value -> value -> bool;                         (* == *)
  trans : str -> value }.                               (* gettext *)

(** The empty tuple. *)
Definition unit_value : value := VObj (L "()").

(** Assignment to a comma-separated list of names ([a] or [a, b]). *)
Definition targets (k : str) : list str := map strip (split_c 44 k).
Definition is_name_char (c : char) : bool :=
  ((97 <=? c) && (c <=? 122) || (65 <=? c) && (c <=? 90) || (48 <=? c) && (c <=? 57) || (c =? 95) || (128 <=? c) && negb (is_space c))%N.
Definition is_name (s : str) : bool := match s with [] => false | _ => forallb is_name_char s end.
Fixpoint set_vars (ks : list str) (vs : list value) (e : env) : result env :=
  match ks, vs with
  | [], [] => Ok e
  | k :: ks', v :: vs' => if is_name k then set_vars ks' vs' (set_var k v e) else Raise "not modelled"
  | _, _ => Raise "ValueError"
  end.
Definition assign (py : python) (k : str) (v : value) (e : env) : result env :=
  match targets k with
  | [x] => set_vars [x] [v] e
  | xs => rbind (unpack py v) (fun vs => set_vars xs vs e)
  end.

(** What the statement before has left for an [elif] or [else] to join. *)
Inductive chain : Type :=
| CNone
| CIf (taken : bool)         (* after if, elif *)
| CFor.                      (* after for (which cannot break) *)

(** A generator function for an attribute: given the variables and the stacks at the time of the
    call, the items it yields and the stacks afterwards. *)
Definition generator : Type := env -> list (list value) -> list value ->
  result (list value * list (list value) * list value).

(** Local variables, [_with_stack], [_switch_stack] (last pushed first), attribute functions. *)
Record st := St_ {
  s_env : env;
  s_with : list (list value);
  s_switch : list value;
  s_funs : list (str * generator) }.
Definition set_env (s : st) (e : env) : st := St_ e (s_with s) (s_switch s) (s_funs s).

Fixpoint find_fun (x : str) (l : list (str * generator)) : option generator :=
  match l with
  | [] => None
  | (y, g) :: l' => if seqb x y then Some g else find_fun x l'
  end.

(** [for] over a list of rounds. *)
Fixpoint loop (body : st -> result (list value * st)) (rounds : list env) (s : st) : result (list value * st) :=
  match rounds with
  | [] => Ok ([], s)
  | r :: rounds' =>
      rbind (body (set_env s (r ++ s_env s))) (fun os =>
      rmap (fun os' => (fst os ++ fst os', snd os')) (loop body rounds' (snd os)))
  end.

Section Exec.
Variable py : python.

(** [if g: yield v] and [yield v]. *)
Definition guarded (g : option str) (v : value) (s : st) : result (list value * chain * st) :=
  match g with
  | None => Ok ([v], CNone, s)
  | Some g => rmap (fun b : bool => (if b then [v] else [], CIf b, s)) (ev_bool py (s_env s) g)
  end.

Definition exec_stmt (p : pstmt) (s : st) : result (list value * chain * st) :=
  match p with
  | PText g t => guarded g (VStr t) s
  | PGettext g t => guarded g (trans py t) s                              (* template.py:108-110 *)
  | PYield e => rmap (fun v => ([v], CNone, s)) (ev py (s_env s) e)
  | PEscape e => rmap (fun v => ([escape v], CNone, s)) (ev py (s_env s) e)
  | PPass => Ok ([VStr []], CNone, s)
  | PCollect n =>                                                         (* template.py:248-260 *)
      match find_fun n (s_funs s) with
      | None => Raise "NameError"
      | Some g =>
          rbind (g (s_env s) (s_with s) (s_switch s)) (fun r =>
          let '(items, w, sw) := r in
          rmap (fun v => ([], CNone, St_ (set_var n v (s_env s)) w sw (s_funs s))) (collect items))
      end
  | PPushWith names =>                                                    (* template.py:112-120 *)
      let saved := map (fun k => match lookup k (s_env s) with Some v => v | None => unit_value end) names in
      Ok ([], CNone, St_ (s_env s) (saved :: s_with s) (s_switch s) (s_funs s))
  | PAssign k v =>
      rbind (ev py (s_env s) v) (fun x =>
      rmap (fun e => ([], CNone, set_env s e)) (assign py k x (s_env s)))
  | PPopWith names =>                                                     (* template.py:122-129 *)
      match s_with s with
      | [] => Raise "IndexError"
      | saved :: w =>
          rmap (fun e => ([], CNone, St_ e w (s_switch s) (s_funs s)))
               (set_vars (flat_map targets names) saved (s_env s))
      end
  | PPushSwitch e =>                                                      (* template.py:171-179 *)
      rmap (fun v => ([], CNone, St_ (s_env s) (s_with s) (v :: s_switch s) (s_funs s))) (ev py (s_env s) e)
  | PIfFalse => Ok ([], CIf false, s)
  | PPopSwitch =>                                                         (* template.py:181-187 *)
      match s_switch s with
      | [] => Raise "IndexError"
      | _ :: sw => Ok ([], CNone, St_ (s_env s) (s_with s) sw (s_funs s))
      end
  | _ => Raise "not modelled"
  end.

(** A block, given the meaning of its body. *)
Definition exec_block (h : pstmt) (body : st -> result (list value * st)) (c : chain) (s : st)
  : result (list value * chain * st) :=
  let run (c : chain) := rmap (fun os => (fst os, c, snd os)) (body s) in
  match h with
  | PIf e =>
      rbind (ev_bool py (s_env s) e) (fun b : bool => if b then run (CIf true) else Ok ([], CIf false, s))
  | PCase e =>
      match c with
      | CIf true => Ok ([], CIf true, s)
      | CIf false =>
          rbind (ev py (s_env s) e) (fun v =>
          match s_switch s with                                           (* template.py:189-191 *)
          | [] => Raise "IndexError"
          | w :: _ => if veq py v w then run (CIf true) else Ok ([], CIf false, s)
          end)
      | _ => Raise "SyntaxError"
      end
  | PElse =>
      match c with
      | CIf true => Ok ([], CNone, s)
      | CIf false | CFor => run CNone
      | CNone => Raise "SyntaxError"
      end
  | PFor d =>
      rbind (ev_for py (s_env s) d) (fun rounds =>
      rmap (fun os => (fst os, CFor, snd os)) (loop body rounds s))
  | PDefGen n =>
      (* a call runs the body with the variables of that time; it has no other effect on them *)
      let g := fun e w sw =>
        rmap (fun os : list value * st => (fst os, s_with (snd os), s_switch (snd os))) (body (St_ e w sw [])) in
      Ok ([], CNone, St_ (s_env s) (s_with s) (s_switch s) ((n, g) :: s_funs s))
  | PForAttr x a n mode =>                                                (* template.py:228-246 *)
      match lookup n (s_env s) with
      | None => Raise "NameError"
      | Some v =>
          rbind (render_attrs [(a, v)] mode) (fun chunks =>
          rmap (fun os => (fst os, CFor, snd os)) (loop body (map (fun t => [(x, VStr t)]) chunks) s))
      end
  | PForAttrs x e mode =>
      rbind (ev_attrs py (s_env s) e) (fun attrs =>
      rbind (render_attrs attrs mode) (fun chunks =>
      rmap (fun os => (fst os, CFor, snd os)) (loop body (map (fun t => [(x, VStr t)]) chunks) s)))
  | _ => Raise "not modelled"
  end.

Fixpoint exec (b : blk) (c : chain) (s : st) : result (list value * chain * st) :=
  match b with
  | Tx t g => guarded (truthy_guard g) (VStr t) s
  | St p => exec_stmt p s
  | Bl h body =>
      exec_block h (fun s => rmap (fun r => (fst (fst r), snd r))
        ((fix go (l : list blk) (c : chain) (s : st) : result (list value * chain * st) :=
            match l with
            | [] => Ok ([], c, s)
            | b :: l' =>
                rbind (exec b c s) (fun r =>
                rmap (fun r' => (fst (fst r) ++ fst (fst r'), snd (fst r'), snd r'))
                     (go l' (snd (fst r)) (snd r)))
            end) body CNone s)) c s
  | Py _ => Raise "not modelled"
  end.
Fixpoint execs (l : list blk) (c : chain) (s : st) : result (list value * chain * st) :=
  match l with
  | [] => Ok ([], c, s)
  | b :: l' =>
      rbind (exec b c s) (fun r =>
      rmap (fun r' => (fst (fst r) ++ fst (fst r'), snd (fst r'), snd r'))
           (execs l' (snd (fst r)) (snd r)))
  end.

(** Calling a function with this body: the items it yields, and the stacks afterwards. *)
Definition exec_body (body : list blk) (e : env) (w : list (list value)) (sw : list value)
  : result (list value * list (list value) * list value) :=
  rmap (fun r => (fst (fst r), s_with (snd r), s_switch (snd r))) (execs body CNone (St_ e w sw [])).
End Exec.

(** Python's parser, on nested statements: every [elif] and [else] must join something, and blocks
    must not be empty.  Comments do not count: not for that, nor between an [if] and its [else]. *)
Inductive before : Type := BNone | BIf | BFor.
Definition stmt_leaves (p : pstmt) : before :=
  match p with
  | PText (Some _) _ | PGettext (Some _) _ | PIfFalse => BIf
  | _ => BNone
  end.
Definition leaves (b : blk) : before :=
  match b with
  | Tx _ g => match truthy_guard g with Some _ => BIf | None => BNone end
  | St p => stmt_leaves p
  | Bl (PIf _) _ | Bl (PCase _) _ => BIf
  | Bl (PFor _) _ | Bl (PForAttr _ _ _ _) _ | Bl (PForAttrs _ _ _) _ => BFor
  | _ => BNone
  end.
Definition may_follow (p : before) (b : blk) : bool :=
  match b with
  | Bl PElse _ => match p with BNone => false | _ => true end
  | Bl (PCase _) _ => match p with BIf => true | _ => false end
  | _ => true
  end.
Definition counts (b : blk) : bool := match b with Py lines => negb (forallb ignored lines) | _ => true end.
Definition after (p : before) (b : blk) : before := if counts b then leaves b else p.
Fixpoint parses (b : blk) : bool :=
  match b with
  | Bl h body =>
      existsb counts body &&
      (fix go (p : before) (l : list blk) : bool :=
         match l with
         | [] => true
         | b :: l' => may_follow p b && parses b && go (after p b) l'
         end) BNone body
  | _ => true
  end.
Fixpoint parses_all (p : before) (l : list blk) : bool :=
  match l with
  | [] => true
  | b :: l' => may_follow p b && parses b && parses_all (after p b) l'
  end.
