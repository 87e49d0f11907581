(** * Specification: reading Python source back *)

From Coq Require Import Ascii String List NArith ZArith Bool.
From Verif Require Import PyStr M_IR.
Import ListNotations.
Open Scope list_scope.

(** ** String literals

    Reading a one-line Python string literal (language reference 2.4.1): the text it
    denotes, and what follows it. *)

Definition hex_value (c : char) : option N :=
  if ((48 <=? c) && (c <=? 57))%N then Some (c - 48)%N
  else if ((97 <=? c) && (c <=? 102))%N then Some (c - 87)%N
  else if ((65 <=? c) && (c <=? 70))%N then Some (c - 55)%N
  else None.
Fixpoint read_hex (digits : nat) (acc : N) (s : str) : option (N * str) :=
  match digits, s with
  | O, _ => Some (acc, s)
  | S d, c :: s' => match hex_value c with
                    | Some v => read_hex d (acc * 16 + v)%N s'
                    | None => None
                    end
  | _, [] => None
  end.

(** The character denoted by an escape sequence, [s] being what follows the backslash. *)
Definition read_escape (s : str) : option (N * str) :=
  match s with
  | [] => None
  | c :: s' =>
      if N.eqb c 110 then Some (10%N, s')                (* n *)
      else if N.eqb c 114 then Some (13%N, s')           (* r *)
      else if N.eqb c 116 then Some (9%N, s')            (* t *)
      else if N.eqb c 92 || N.eqb c 39 || N.eqb c 34 then Some (c, s')
      else if N.eqb c 120 then read_hex 2 0 s'           (* x *)
      else if N.eqb c 117 then read_hex 4 0 s'           (* u *)
      else if N.eqb c 85 then read_hex 8 0 s'            (* U *)
      else None
  end.
Fixpoint read_chars (fuel : nat) (quote : char) (s : str) : option (str * str) :=
  match fuel, s with
  | S f, c :: s' =>
      if N.eqb c quote then Some ([], s')
      else if N.eqb c 10 || N.eqb c 13 then None         (* a literal ends on its line *)
      else if N.eqb c 92 then
        match read_escape s' with
        | Some (d, s'') => option_map (fun p => (d :: fst p, snd p)) (read_chars f quote s'')
        | None => None
        end
      else option_map (fun p => (c :: fst p, snd p)) (read_chars f quote s')
  | _, _ => None
  end.
Definition read_literal (s : str) : option (str * str) :=
  match s with
  | q :: s' => if N.eqb q 39 || N.eqb q 34 then read_chars (length s) q s' else None
  | [] => None
  end.

(** ** Indentation

    Python's rule (language reference 2.1.8) on a list of logical lines: a line that ends with
    a colon opens a block, which is what follows with deeper indentation and must not be
    empty; no other line may be followed by deeper indentation; a line may return to the
    indentation of an enclosing block only. *)

Inductive tblock : Type :=
| TStmt (line : str)
| TBlock (header : str) (body : list tblock).

Definition ignored (line : str) : bool :=
  match lstrip line with [] => true | c :: _ => N.eqb c c_hash end.
Definition opens (line : str) : bool :=
  match rev (rstrip line) with c :: _ => N.eqb c c_colon | [] => false end.
Definition is_sp (c : char) : bool := N.eqb c c_sp.
Definition column (line : str) : nat := length (takewhile is_sp line).
Definition content (line : str) : str := dropwhile is_sp line.

(** Open blocks, innermost first: column, statements so far (last one first), and
    the header of the block. [r_head]: the line just read opened a block. *)
Record reader := Reader {
  r_col : nat;
  r_done : list tblock;
  r_open : list (nat * list tblock * str);
  r_head : option str }.

(** Leaving blocks until column [i]. *)
Fixpoint close_to (i col : nat) (done : list tblock) (open : list (nat * list tblock * str))
  : option (nat * list tblock * list (nat * list tblock * str)) :=
  if Nat.eqb i col then Some (col, done, open)
  else if Nat.ltb i col then
    match open with
    | (col', done', h) :: open' => close_to i col' (TBlock h (rev done) :: done') open'
    | [] => None
    end
  else None.

Definition add_line (line : str) (r : nat * list tblock * list (nat * list tblock * str)) : reader :=
  let '(col, done, open) := r in
  if opens line then Reader col done open (Some line)
  else Reader col (TStmt line :: done) open None.

Definition read_line (r : reader) (line : str) : option reader :=
  if ignored line then Some r
  else
    let i := column line in
    match r_head r with
    | Some h => if Nat.ltb (r_col r) i
                then Some (add_line (content line) (i, [], (r_col r, r_done r, h) :: r_open r))
                else None
    | None => option_map (add_line (content line)) (close_to i (r_col r) (r_done r) (r_open r))
    end.
Fixpoint read_lines (r : reader) (lines : list str) : option reader :=
  match lines with
  | [] => Some r
  | l :: ls => match read_line r l with Some r' => read_lines r' ls | None => None end
  end.
Definition read_end (r : reader) : option (list tblock) :=
  match r_head r with
  | Some _ => None
  | None => option_map (fun x => rev (snd (fst x))) (close_to 0 (r_col r) (r_done r) (r_open r))
  end.
Definition read_blocks (lines : list str) : option (list tblock) :=
  match read_lines (Reader 0 [] [] None) lines with
  | Some r => read_end r
  | None => None
  end.

(** ** The program of a template

    What each node stands for, without any flattening: statements, and blocks. *)
Inductive blk : Type :=
| Tx (text : str) (guard : option str)          (* static text; neighbours are joined *)
| St (p : pstmt)
| Bl (header : pstmt) (body : list blk)
| Py (lines : list str).                        (* embedded Python *)

Fixpoint join_texts (l : list blk) : list blk :=
  match l with
  | [] => []
  | Tx t g :: l' =>
      match join_texts l' with
      | Tx t' g' :: r => if oseqb g g' then Tx (t ++ t') g :: r else Tx t g :: Tx t' g' :: r
      | r => Tx t g :: r
      end
  | b :: l' => b :: join_texts l'
  end.

Fixpoint program (n : node) : list blk :=
  let body := fun l => join_texts ((fix go (l : list node) : list blk :=
                match l with [] => [] | m :: l' => program m ++ go l' end) l) in
  match n with
  | NPass _ => [St PPass]
  | NImport _ t a => [St (PImport t a)]
  | NInclude _ t => [St (PInclude t)]
  | NExtend _ t => [St (PExtend t)]
  | NDef _ inner d b => [St (if inner then PDecorate else PExpose);
                         Bl (PDef d) (match b with [] => [St PPass] | _ => body b end)]
  | NCall _ d c b => [St PDecorate; Bl (PDef d) (body b); St (PYield c)]
  | NFor _ d b => [Bl (PFor d) (body b)]
  | NWith _ vars b => St (PPushWith (map fst vars)) :: map (fun kv => St (PAssign (fst kv) (snd kv))) vars
                      ++ body b ++ [St (PPopWith (map fst vars))]
  | NSwitch _ d b => St (PPushSwitch d) :: St PIfFalse :: body b ++ [St PPopSwitch]
  | NCase _ d b => [Bl (PCase d) (body b)]
  | NIf _ d b => [Bl (PIf d) (body b)]
  | NElse _ b => [Bl PElse (body b)]
  | NText _ t g => [Tx t g]
  | NTrans _ t g => [St (trans_stmt t g)]
  | NExpr _ e safe => [St (if safe then PYield e else PEscape e)]
  | NAttr _ a v g mode gen gen2 x =>
      let attr := fun gen =>
        [Bl (PDefGen gen) (match v with [] => [Tx [] None] | _ => body v end);
         St (PCollect gen);
         Bl (PForAttr x a gen mode) [St (PYield x)]] in
      match truthy_guard g with
      | Some c => [Bl (PIf c) (attr gen2)]
      | None => attr gen
      end
  | NAttrs _ e g mode x =>
      let loop := Bl (PForAttrs x e mode) [St (PYield x)] in
      match truthy_guard g with
      | Some c => [Bl (PIf c) [loop]]
      | None => [loop]
      end
  | NPython _ lines _ => [Py lines]
  end.
Definition programs (l : list node) : list blk := join_texts (flat_map program l).
Definition template_program (t : template) : list blk :=
  map (fun m => Py (snd m)) (mod_py t) ++ [Bl PClass (programs (defs t)); St PTemplate].

(** Layout with four columns per level. *)
Section Layout.
Variable printable : char -> bool.

Fixpoint layout (indent : nat) (b : blk) : list str :=
  match b with
  | Tx t g => [spaces indent ++ show printable (PText (truthy_guard g) t)]
  | St p => [spaces indent ++ show printable p]
  | Bl h body => (spaces indent ++ show printable h) ::
      (fix go (l : list blk) : list str :=
         match l with [] => [] | c :: l' => layout (4 + indent) c ++ go l' end) body
  | Py lines => map (fun line => spaces indent ++ line) lines
  end.

(** What a reader should make of it: embedded Python is read on its own. *)
Fixpoint reading (b : blk) : option (list tblock) :=
  match b with
  | Tx t g => Some [TStmt (show printable (PText (truthy_guard g) t))]
  | St p => Some [TStmt (show printable p)]
  | Bl h body =>
      match (fix go (l : list blk) : option (list tblock) :=
         match l with
         | [] => Some []
         | c :: l' => match reading c, go l' with
                      | Some x, Some y => Some (x ++ y)
                      | _, _ => None
                      end
         end) body with
      | Some [] => None                       (* an empty block is an error *)
      | Some body' => Some [TBlock (show printable h) body']
      | None => None
      end
  | Py lines => read_blocks lines
  end.
Fixpoint readings (l : list blk) : option (list tblock) :=
  match l with
  | [] => Some []
  | c :: l' => match reading c, readings l' with
               | Some x, Some y => Some (x ++ y)
               | _, _ => None
               end
  end.
End Layout.

(** ** What the user's pieces of Python must look like for the layout to be readable *)

(** Does not end with a colon. *)
Definition no_colon (e : str) : Prop := opens e = false.
(** Starts with a visible character that is not a hash. *)
Definition visible (e : str) : Prop :=
  match e with c :: _ => is_space c = false /\ c <> c_hash | [] => False end.

(** The first line that counts is not indented. *)
Fixpoint at_margin (lines : list str) : Prop :=
  match lines with
  | [] => True
  | l :: ls => if ignored l then at_margin ls else column l = 0
  end.

Fixpoint tidy (n : node) : Prop :=
  let all := (fix go (l : list node) : Prop := match l with [] => True | m :: l' => tidy m /\ go l' end) in
  match n with
  | NDef _ _ _ b | NFor _ _ b | NSwitch _ _ b | NCase _ _ b | NIf _ _ b | NElse _ b => all b
  | NCall _ _ c b => no_colon c /\ all b
  | NWith _ vars b => Forall (fun kv => visible (fst kv) /\ no_colon (snd kv)) vars /\ all b
  | NExpr _ e safe => safe = true -> no_colon e
  | NAttr _ _ v _ _ gen gen2 x =>
      visible gen /\ visible gen2 /\ no_colon x /\ all v
  | NAttrs _ _ _ _ x => no_colon x
  | NPython _ lines _ => at_margin lines
  | _ => True
  end.

(** ** Joining texts *)

(** What a list of nodes shows, character by character, under a valuation of the guards. *)
Fixpoint events (rho : option str -> bool) (l : list item) : list (char + item) :=
  match l with
  | [] => []
  | IText _ t g :: l' => (if rho g then map inl t else []) ++ events rho l'
  | i :: l' => inr i :: events rho l'
  end.

(** Neighbouring texts with the same guard are empty but for the first of them. *)
Fixpoint no_repeats (l : list node) : Prop :=
  match l with
  | [] => True
  | NText _ _ g :: l' =>
      match l' with NText _ t' g' :: _ => g = g' -> t' = [] | _ => True end /\ no_repeats l'
  | _ :: l' => no_repeats l'
  end.
Fixpoint settled (n : node) : Prop :=
  let all := fun b => no_repeats b /\
    (fix go (l : list node) : Prop := match l with [] => True | m :: l' => settled m /\ go l' end) b in
  match n with
  | NDef _ _ _ b | NFor _ _ b | NSwitch _ _ b | NCase _ _ b | NIf _ _ b | NElse _ b
  | NCall _ _ _ b | NWith _ _ b | NAttr _ _ b _ _ _ _ _ => all b
  | _ => True
  end.

(** The names of helpers that generating code draws, in the order of the tree. *)
Fixpoint drawn (n : node) : list str :=
  match n with
  | NDef _ _ _ b | NFor _ _ b | NSwitch _ _ b | NCase _ _ b | NIf _ _ b | NElse _ b | NCall _ _ _ b | NWith _ _ b => flat_map drawn b
  | NAttr _ _ b _ _ _ gen2 x => gen2 :: x :: flat_map drawn b
  | NAttrs _ _ _ _ x => [x]
  | _ => []
  end.

(** ** Blocks of embedded Python *)

(** The white space a line starts with. *)
Definition margin_of (m line : str) : Prop :=
  Forall (fun c => is_space c = true) m /\
  exists rest, line = m ++ rest /\ match rest with [] => True | c :: _ => is_space c = false end.

(** ** Variable lists *)

(** One item: white space, the name, more white space, and the expression. *)
Record assignment := Assign { a_pre : str; a_name : str; a_post : str; a_expr : str }.
Definition white (s : str) : Prop := Forall (fun c => is_space c = true) s.
Definition ok_assignment (a : assignment) : Prop :=
  white (a_pre a) /\ white (a_post a) /\
  a_name a <> [] /\ ~ In c_semi (a_name a) /\ ~ In c_eq (a_name a) /\
  (match a_name a with c :: _ => is_space c = false | [] => True end) /\
  (match rev (a_name a) with c :: _ => is_space c = false | [] => True end) /\
  ~ In c_semi (a_expr a) /\ ~ In c_nl (a_expr a) /\
  (match a_expr a with c :: _ => c <> c_eq | [] => True end).
Definition written (a : assignment) : str := a_pre a ++ a_name a ++ a_post a ++ L "=" ++ a_expr a.

(** What is assigned: the expressions run up to the next item; a final semicolon (with
    white space) stays with the last one, where Python ignores it. *)
Fixpoint assigned (l : list assignment) (tail : str) : list (str * str) :=
  match l with
  | [] => []
  | [a] => [(a_name a, a_expr a ++ tail)]
  | a :: l' => (a_name a, a_expr a) :: assigned l' tail
  end.

(** ** Empty blocks *)

(** A block with nothing in it, here or inside; function bodies may be empty. *)
Fixpoint hollow (n : node) : bool :=
  let any := fix go (l : list node) : bool := match l with [] => false | m :: l' => hollow m || go l' end in
  match n with
  | NCall _ _ _ b | NFor _ _ b | NCase _ _ b | NIf _ _ b | NElse _ b =>
      match b with [] => true | _ => any b end
  | NDef _ _ _ b | NWith _ _ b | NSwitch _ _ b | NAttr _ _ b _ _ _ _ _ => any b
  | _ => false
  end.
Fixpoint no_python (n : node) : Prop :=
  let all := fix go (l : list node) : Prop := match l with [] => True | m :: l' => no_python m /\ go l' end in
  match n with
  | NCall _ _ _ b | NFor _ _ b | NCase _ _ b | NIf _ _ b | NElse _ b
  | NDef _ _ _ b | NWith _ _ b | NSwitch _ _ b | NAttr _ _ b _ _ _ _ _ => all b
  | NPython _ _ _ => False
  | _ => True
  end.

(** Everything the user wrote in Python is in the right form. *)
Definition tidy_template (t : template) : Prop :=
  Forall (fun m => at_margin (snd m)) (mod_py t) /\ Forall tidy (defs t).
