(** * Renderings that run at the same time

    The Python of [M_Run.v], one statement at a time, so that several renderings may take turns: threads
    that render, or iterators over templates of which now one and now the other is asked for more.  All
    renderings work in one state (instances, variables, stacks); [M_Run.v] has the statements that do not
    call functions of templates.  No proofs here.

    A step is a statement, the head of a block or of a round of a loop, or the return from a function.
    (Python may switch threads inside of a statement as well.) *)

From Coq Require Import Ascii String List NArith ZArith Bool.
From Verif Require Import PyStr M_Values M_IR S_IR M_Template M_Run.
From Verif Require M_Exec.
Import ListNotations.
Open Scope list_scope.

(** What is still to be done, innermost first: statements of a block, rounds of a loop, and what happens
    with the output of a function when it ends: it is shown (after what was shown before it), or
    collected in a variable. *)
Inductive item : Type :=
| IBlock (p : place) (l : list blk) (c : M_Exec.chain)
| ILoop (p : place) (body : list blk) (rounds : list (list (str * bval)))
| IShow (before : list value)
| ICollect (before : list value) (p : place) (n : str).

(** A rendering: how deep calls may still be nested, the output of the function that runs, what is to be
    done; or how it ended. *)
Inductive thread : Type :=
| Running (depth : nat) (out : list value) (todo : list item)
| Done (out : list value)
| Failed (e : string).

(** A function that is to be called: with its parameters, and what to do at its end. *)
Record pending := Pending {
  c_fun : callable bcode;
  c_params : list (str * bval);
  c_end : list value -> item;
  c_state : state }.

(** What the head of a block decides: not to run it, to run it, to run it once per round. *)
Inductive decision : Type :=
| Skip (c : M_Exec.chain) (s : state)
| Enter (c : M_Exec.chain)
| Repeat (rounds : list (list (str * bval))).

Section Step.
Variable py : python.
Variable load : bool -> str -> result (cls (fobj bcode) (str * bcode)).

Definition no_invoke (c : callable bcode) (params : list (str * bval)) (s : state) : result (list value * state) := Raise "not modelled".

(** The calls of functions of templates (ir.py:117-136, 173, 326-330, 343): in expressions that are shown, of
    attributes, and of the main functions of other templates. *)
Definition call_named (p : place) (x : str) (s : state) : result (option pending) :=
  match parse py x with
  | ECall c args =>
      rbind (find_callee py (s_world s) p c) (fun fo =>
      match fo with
      | FTemplate f =>
          rbind (eval_args py (s_world s) p args) (fun args =>
          rmap (fun params => Some (Pending f params IShow s)) (bind_args py (fst (fst (fst f))) args))
      | _ => Ok None
      end)
  | _ => Ok None
  end.
Definition call_main (s : state) (i : nat) : result (option pending) :=
  rbind (main_of py (w_heap (s_world s)) i) (fun f =>
  rmap (fun params => Some (Pending f params IShow s)) (bind_args py (fst (fst (fst f))) [])).
Definition call_of (p : place) (q : pstmt) (s : state) : result (option pending) :=
  let w := s_world s in
  match q with
  | PYield e => call_named p e s
  | PEscape e => rbind (instance py w p (L "self")) (fun _ => call_named p e s)
  | PCollect n =>
      rbind (instance py w p (L "self")) (fun _ =>
      rbind (lookup py w p n) (fun g =>
      match g with
      | GObj _ _ (RC d b i ss) => Ok (Some (Pending (d, b, i, ss) [] (fun before => ICollect before p n) s))
      | _ => Raise "TypeError"
      end))
  | PInclude t => rbind (import_template py load w p t None) (fun wr => call_main (new_stacks s (fst wr) (snd wr)) (snd wr))
  | PExtend t => rbind (extend_template py load w p t) (fun wr => call_main (new_stacks s (fst wr) (snd wr)) (snd wr))
  | _ => Ok None
  end.

(** Heads of blocks, as in [M_Run.exec_block]. *)
Definition decide (p : place) (h : pstmt) (code : bcode) (c : M_Exec.chain) (s : state) : result decision :=
  let w := s_world s in
  let define (x d : str) := Ok (Skip M_Exec.CNone (set_world s (set_name w p x (GObj _ _ (RC d code (p_inst p) (p_scopes p)))))) in
  let write (x : str) (chunks : list str) := Ok (Repeat (map (fun t => [(x, val (VStr t))]) chunks)) in
  match h with
  | PIf e => rmap (fun b : bool => if b then Enter (M_Exec.CIf true) else Skip (M_Exec.CIf false) s) (condition py w p e)
  | PCase e =>
      match c with
      | M_Exec.CIf true => Ok (Skip (M_Exec.CIf true) s)
      | M_Exec.CIf false =>
          rbind (instance py w p (L "local")) (fun i =>
          rbind (evalue py w p e) (fun v =>
          match s_switch s i with
          | [] => Raise "IndexError"
          | x :: _ => Ok (if veq py v x then Enter (M_Exec.CIf true) else Skip (M_Exec.CIf false) s)
          end))
      | _ => Raise "SyntaxError"
      end
  | PElse =>
      match c with
      | M_Exec.CIf true => Ok (Skip M_Exec.CNone s)
      | M_Exec.CIf false | M_Exec.CFor => Ok (Enter M_Exec.CNone)
      | M_Exec.CNone => Raise "SyntaxError"
      end
  | PFor d => rmap Repeat (rounds py w p d)
  | PDefGen n => define n (n ++ L "()")
  | PDef d => define (fun_name d) d
  | PForAttr x a n mode =>
      rbind (instance py w p (L "self")) (fun _ =>
      rbind (lookup py w p n) (fun g => rbind (render_attrs [(a, as_value g)] mode) (write x)))
  | PForAttrs x e mode =>
      rbind (instance py w p (L "self")) (fun _ =>
      rbind (attributes py w p e) (fun attrs => rbind (render_attrs attrs mode) (write x)))
  | _ => Raise "not modelled"
  end.

Definition attempt {A : Type} (r : result A) (s : state) (k : A -> thread * state) : thread * state :=
  match r with Ok x => k x | Raise e => (Failed e, s) end.

(** Calling a function: new variables, then its body (as in [M_Run.invoke]). *)
Definition enter (depth : nat) (out : list value) (todo : list item) (q : pending) : thread * state :=
  match depth with
  | O => (Failed "RecursionError", c_state q)
  | S depth' =>
      let '(_, body, inst, scopes) := c_fun q in
      let w := s_world (c_state q) in
      let fr := Frame (map fst (c_params q) ++ all_names py body) (c_params q) in
      (Running depth' [] (IBlock (Place inst (length (w_frames w) :: scopes)) body M_Exec.CNone :: c_end q out :: todo),
       set_world (c_state q) (World (w_heap w) (w_frames w ++ [fr])))
  end.

(** One step, as in [M_Run.exec], [exec_block] and [invoke]: what the generated functions yield is taken
    from them at once (util.py:76-83, template.py:101-102). *)
Definition step (t : thread) (s : state) : thread * state :=
  match t with
  | Running depth out todo =>
      match todo with
      | [] => (Done out, s)
      | IBlock p [] c :: todo => (Running depth out todo, s)
      | IBlock p (b :: l) c :: todo =>
          let simple := attempt (exec py load no_invoke p b c s) s (fun r =>
            (Running depth (out ++ fst (fst r)) (IBlock p l (snd (fst r)) :: todo), snd r)) in
          match b with
          | St q =>
              attempt (call_of p q s) s (fun o =>
              match o with
              | Some call => enter depth out (IBlock p l M_Exec.CNone :: todo) call
              | None => simple
              end)
          | Bl h body =>
              attempt (decide p h body c s) s (fun d =>
              match d with
              | Skip c' s' => (Running depth out (IBlock p l c' :: todo), s')
              | Enter c' => (Running depth out (IBlock p body M_Exec.CNone :: IBlock p l c' :: todo), s)
              | Repeat rs => (Running depth out (ILoop p body rs :: IBlock p l M_Exec.CFor :: todo), s)
              end)
          | _ => simple
          end
      | ILoop p body [] :: todo => (Running depth out todo, s)
      | ILoop p body (r :: rs) :: todo =>
          (Running depth out (IBlock p body M_Exec.CNone :: ILoop p body rs :: todo), set_world s (set_names (s_world s) p r))
      | IShow before :: todo => (Running (S depth) (before ++ [VFlat out]) todo, s)
      | ICollect before p n :: todo =>
          attempt (collect out) s (fun v =>
          (Running (S depth) before todo, set_world s (set_name (s_world s) p n (val v))))
      end
  | _ => (t, s)
  end.

(** template.py:63-106: a new rendering. *)
Definition begin (depth : nat) (c : cls (fobj bcode) (str * bcode)) (context : dict (fobj bcode) (str * bcode)) (s : state)
  : thread * state :=
  let (h, i) := new _ _ (w_heap (s_world s)) c (Given _ _ context) in
  let s := new_stacks s (World h (w_frames (s_world s))) i in
  attempt (call_main s i) s (fun o =>
  match o with
  | Some call => enter depth [] [] call
  | None => (Failed "not modelled", s)
  end).
(** template.py:96-106: another rendering of a template object that is there already. *)
Definition again (depth : nat) (i : nat) (s : state) : thread * state :=
  attempt (call_main s i) s (fun o =>
  match o with
  | Some call => enter depth [] [] call
  | None => (Failed "not modelled", s)
  end).
End Step.

(** ** Several renderings

    What happens: a rendering begins, the [k]-th one makes a step. *)
Inductive event : Type :=
| Begin (depth : nat) (f : file) (context : list (str * value))
| Go (k : nat).
Record system := System { threads : list thread; shared : state }.
Definition empty_state : state := State (World [] []) (fun _ => []) (fun _ => []).

Fixpoint replace_thread (l : list thread) (k : nat) (t : thread) : list thread :=
  match l, k with
  | [], _ => []
  | _ :: l', O => t :: l'
  | y :: l', S k' => y :: replace_thread l' k' t
  end.

Section Schedule.
Variable py : python.
Variable files : bool -> str -> result file.
Definition load_file (fragment : bool) (name : str) : result (cls (fobj bcode) (str * bcode)) := rbind (files fragment name) class_of.

Definition happen (e : event) (y : system) : system :=
  match e with
  | Begin depth f context =>
      match class_of f with
      | Ok c => let (t, s) := begin py depth c (objects context) (shared y) in System (threads y ++ [t]) s
      | Raise x => System (threads y ++ [Failed x]) (shared y)
      end
  | Go k =>
      match nth_error (threads y) k with
      | Some t => let (t', s) := step py load_file t (shared y) in System (replace_thread (threads y) k t') s
      | None => y
      end
  end.
Definition run_schedule (l : list event) : system := fold_left (fun y e => happen e y) l (System [] empty_state).

(** Two iterations over one template object (template.py:96-102), with the turns they take. *)
Definition run_object (depth : nat) (f : file) (context : list (str * value)) (l : list nat) : result system :=
  rmap (fun c =>
    let (t0, s0) := begin py depth c (objects context) empty_state in
    let (t1, s1) := again py depth 0 s0 in
    fold_left (fun y k => happen (Go k) y) l (System [t0; t1] s1)) (class_of f).
End Schedule.
