(** * Specification: what a template tree means

    A direct reading of the tree: no Python text, no save stacks, no generated names.
    First the structure (which else belongs to which if), then the meaning. *)

From Coq Require Import Ascii String List NArith ZArith Bool.
From Verif Require Import PyStr M_Values M_IR M_Exec.
Import ListNotations.
Open Scope list_scope.

(** ** Structure *)

(** Directives with their else parts ([[]] if there is none). *)
Inductive stm : Type :=
| SPass
| SText (t : str) (g : option str)
| STrans (t : str) (g : option str)
| SExpr (x : str) (safe : bool)
| SIf (c : str) (b els : list stm)
| SFor (d : str) (b els : list stm)
| SWith (vars : list (str * str)) (b : list stm)
| SSwitch (d : str) (cases : list (str * list stm)) (els : list stm)
| SAttr (a : str) (v : list stm) (g : option str) (mode : str)
| SAttrs (x : str) (g : option str) (mode : str).

(** A node by itself: a directive, or a part of one. *)
Inductive piece : Type :=
| PcStm (s : stm)
| PcElse (b : list stm)
| PcCase (c : str) (b : list stm).

(** An else comes right after the if or the loop it belongs to. *)
Fixpoint assemble (l : list piece) : option (list stm) :=
  match l with
  | [] => Some []
  | PcStm (SIf c b _) :: PcElse els :: l' => option_map (cons (SIf c b els)) (assemble l')
  | PcStm (SFor d b _) :: PcElse els :: l' => option_map (cons (SFor d b els)) (assemble l')
  | PcStm s :: l' => option_map (cons s) (assemble l')
  | _ => None
  end.
(** In a switch: cases, then possibly an else. *)
Fixpoint assemble_switch (l : list piece) : option (list (str * list stm) * list stm) :=
  match l with
  | [] => Some ([], [])
  | [PcElse els] => Some ([], els)
  | PcCase c b :: l' => option_map (fun ce => ((c, b) :: fst ce, snd ce)) (assemble_switch l')
  | _ => None
  end.

Definition obind {A B} (o : option A) (f : A -> option B) : option B :=
  match o with Some a => f a | None => None end.

(** Python has no empty blocks. *)
Definition assemble_block (l : list piece) : option (list stm) :=
  obind (assemble l) (fun b => match b with [] => None | _ => Some b end).

Fixpoint piece_of (n : node) : option piece :=
  let pieces := (fix go (l : list node) : option (list piece) :=
     match l with
     | [] => Some []
     | m :: l' => obind (piece_of m) (fun p => option_map (cons p) (go l'))
     end) in
  let body := fun l => obind (pieces l) assemble in
  let block := fun l => obind (pieces l) assemble_block in
  match n with
  | NPass _ => Some (PcStm SPass)
  | NText _ t g => Some (PcStm (SText t g))
  | NTrans _ t g => Some (PcStm (STrans t g))
  | NExpr _ x safe => Some (PcStm (SExpr x safe))
  | NIf _ c b => option_map (fun b' => PcStm (SIf c b' [])) (block b)
  | NElse _ b => option_map PcElse (block b)
  | NFor _ d b => option_map (fun b' => PcStm (SFor d b' [])) (block b)
  | NWith _ vars b => option_map (fun b' => PcStm (SWith vars b')) (body b)
  | NSwitch _ d b => option_map (fun ce => PcStm (SSwitch d (fst ce) (snd ce))) (obind (pieces b) assemble_switch)
  | NCase _ c b => option_map (PcCase c) (block b)
  | NAttr _ a v g mode _ _ _ => option_map (fun v' => PcStm (SAttr a v' g mode)) (body v)
  | NAttrs _ x g mode _ => Some (PcStm (SAttrs x g mode))
  | _ => None                             (* functions, imports, embedded Python: not covered *)
  end.
Fixpoint pieces_of (l : list node) : option (list piece) :=
  match l with
  | [] => Some []
  | m :: l' => obind (piece_of m) (fun p => option_map (cons p) (pieces_of l'))
  end.
Definition structure (l : list node) : option (list stm) := obind (pieces_of l) assemble.

(** ** Meaning *)

(** What is shown, and the variables afterwards. *)
Notation meant := (result (list value * env)).

(** One after the other. *)
Definition then_ (a : meant) (f : env -> meant) : meant :=
  rbind a (fun oe => rmap (fun oe' => (fst oe ++ fst oe', snd oe')) (f (snd oe))).

(** Once per round, each round starting with its own variables set. *)
Fixpoint for_each (body : env -> meant) (rounds : list env) (e : env) : meant :=
  match rounds with
  | [] => Ok ([], e)
  | r :: rounds' => then_ (body (r ++ e)) (for_each body rounds')
  end.

Section Meaning.
Variable py : python.

(** Under a condition; the empty condition counts as no condition. *)
Definition under (g : option str) (e : env) (shown : meant) : meant :=
  match truthy_guard g with
  | None => shown
  | Some c => rbind (ev_bool py e c) (fun b : bool => if b then shown else Ok ([], e))
  end.

(** The variables of a py:with, in order; later ones see earlier ones. *)
Fixpoint assigns (vars : list (str * str)) (e : env) : result env :=
  match vars with
  | [] => Ok e
  | (k, x) :: vars' => rbind (ev py e x) (fun v => assigns vars' (set_var k v e))
  end.
(** Giving variables back the values they had; a variable that had none gets the empty tuple. *)
Definition restore (names : list str) (old e : env) : env :=
  fold_left (fun e k => set_var k (match lookup k old with Some v => v | None => unit_value end) e) names e.

Fixpoint meaning (s : stm) (e : env) : meant :=
  let body := (fix go (l : list stm) (e : env) : meant :=
     match l with [] => Ok ([], e) | m :: l' => then_ (meaning m e) (go l') end) in
  match s with
  | SPass => Ok ([VStr []], e)
  | SText t g => under g e (Ok ([VStr t], e))
  | STrans t g => under g e (Ok ([match strip t with [] => VStr t | _ => trans py t end], e))
  | SExpr x safe => rmap (fun v => ([if safe then v else escape v], e)) (ev py e x)
  | SIf c b els => rbind (ev_bool py e c) (fun t : bool => if t then body b e else body els e)
  | SFor d b els =>
      rbind (ev_for py e d) (fun rounds => then_ (for_each (body b) rounds e) (body els))
  | SWith vars b =>
      rbind (assigns vars e) (fun e1 =>
      rmap (fun oe => (fst oe, restore (map fst vars) e (snd oe))) (body b e1))
  | SSwitch d cases els =>
      rbind (ev py e d) (fun w =>
        (fix first (cases : list (str * list stm)) : meant :=
           match cases with
           | [] => body els e
           | (c, b) :: cases' =>
               rbind (ev py e c) (fun v => if veq py v w then body b e else first cases')
           end) cases)
  | SAttr a v g mode =>
      under g e
        (rbind (match v with [] => Ok ([VStr []], e) | _ => body v e end) (fun oe =>   (* no value: empty *)
         rbind (collect (fst oe)) (fun x =>
         rmap (fun chunks => (map VStr chunks, e)) (render_attrs [(a, x)] mode))))
  | SAttrs x g mode =>
      under g e
        (rbind (ev_attrs py e x) (fun attrs =>
         rmap (fun chunks => (map VStr chunks, e)) (render_attrs attrs mode)))
  end.
Fixpoint means (l : list stm) (e : env) : meant :=
  match l with [] => Ok ([], e) | m :: l' => then_ (meaning m e) (means l') end.
End Meaning.

(** ** Hygiene

    [gen]: the names kajiki generates.  [user]: the user's expressions, which do not
    depend on those names. *)

Definition agree (gen : str -> Prop) (e1 e2 : env) : Prop :=
  forall x, ~ gen x -> lookup x e1 = lookup x e2.

Record hygienic (py : python) (gen user : str -> Prop) : Prop := Hygienic {
  h_ev : forall x e1 e2, user x -> agree gen e1 e2 -> ev py e1 x = ev py e2 x;
  h_bool : forall x e1 e2, user x -> agree gen e1 e2 -> ev_bool py e1 x = ev_bool py e2 x;
  h_for : forall x e1 e2, user x -> agree gen e1 e2 -> ev_for py e1 x = ev_for py e2 x;
  h_attrs : forall x e1 e2, user x -> agree gen e1 e2 -> ev_attrs py e1 x = ev_attrs py e2 x;
  (* a generated name evaluates to its value *)
  h_gen : forall x e v, gen x -> lookup x e = Some v -> ev py e x = Ok v }.

(** A variable that can be assigned: a plain name that is not generated. *)
Definition plain (gen : str -> Prop) (k : str) : Prop := is_name k = true /\ ~ gen k.

Definition user_guard (user : str -> Prop) (g : option str) : Prop :=
  match truthy_guard g with Some c => user c | None => True end.
Fixpoint well_named (gen user : str -> Prop) (n : node) : Prop :=
  let all := fix go (l : list node) : Prop := match l with [] => True | m :: l' => well_named gen user m /\ go l' end in
  match n with
  | NText _ _ g | NTrans _ _ g => user_guard user g
  | NExpr _ x _ => user x
  | NIf _ c b => user c /\ all b
  | NElse _ b => all b
  | NFor _ d b => user d /\ all b
  | NWith _ vars b => Forall (fun kx => plain gen (fst kx) /\ user (snd kx)) vars /\ all b
  | NSwitch _ d b => user d /\ all b
  | NCase _ c b => user c /\ all b
  | NAttr _ _ v g _ g1 g2 x => user_guard user g /\ gen g1 /\ gen g2 /\ gen x /\ all v
  | NAttrs _ e g _ x => user_guard user g /\ user e /\ gen x
  | _ => True
  end.

(** ** Same effect

    Running Python from state [s] and the reading [m] do the same: both fail with the same
    exception, or both show the same text (also when an attribute value is collected) and
    agree on the variables, the stacks being as before. *)
Definition same_effect (gen : str -> Prop) (s : st) (r : result (list value * chain * st)) (m : meant) : Prop :=
  match r, m with
  | Ok (o, _, s'), Ok (o', e') =>
      render o = render o' /\ collect o = collect o' /\ agree gen (s_env s') e' /\
      s_with s' = s_with s /\ s_switch s' = s_switch s
  | Raise x, Raise y => x = y
  | _, _ => False
  end.

(** Cases of a switch on [w]. *)
Definition is_case (py : python) (e : env) (w : value) (c : str) : Prop :=
  exists v, ev py e c = Ok v /\ veq py v w = true.
Definition not_case (py : python) (e : env) (w : value) (c : str) : Prop :=
  exists v, ev py e c = Ok v /\ veq py v w = false.
