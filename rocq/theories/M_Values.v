(** * Template values, escaping, attributes, flattening

    Model of [kajiki/template.py] [_Template._escape], [_render_attrs],
    [_collect], [__iter__], [render] and of [kajiki/util.py] [flattener].
    No proofs here. *)

From Coq Require Import Ascii String List NArith ZArith Bool.
From Verif Require Import PyStr.
Import ListNotations.
Open Scope list_scope.

(** Values a template expression can produce.  A [flattener] (the result of
    [literal()], [Markup()] or of calling a template function) is modelled by
    the finite list of items its iterator is going to yield; sharing of the
    iterator between several uses is modelled separately in [M_Iter].
    [VHtml h s] is an object whose [__html__()] returns [h] and whose [str()]
    is [s]; [VObj s] is any other object with [str() = s]. *)
Inductive value : Type :=
| VNone
| VBool (b : bool)
| VInt (z : Z)
| VStr (s : str)
| VFlat (items : list value)
| VHtml (h s : str)
| VObj (s : str).

(** [str(z)] for an integer. *)
Definition dec_Z (z : Z) : str :=
  match z with
  | Z0 => dec 0
  | Zpos p => dec (Npos p)
  | Zneg p => c_dash :: dec (Npos p)
  end.

(** [str(v)].  The default representation of a [flattener] object contains its
    address; the model uses a fixed text for it (simplification). *)
Definition to_str (v : value) : str :=
  match v with
  | VNone => L "None"
  | VBool true => L "True"
  | VBool false => L "False"
  | VInt z => dec_Z z
  | VStr s => s
  | VFlat _ => L "<kajiki.util.flattener object>"
  | VHtml _ s => s
  | VObj s => s
  end.

(** template.py:214 and 226 [_re_escape.search(uval)]: some character is one of
    ampersand, less-than, greater-than, double quote. *)
Definition needs_escape (s : str) : bool :=
  existsb (fun c => N.eqb c c_amp || N.eqb c c_lt || N.eqb c c_gt || N.eqb c c_dq) s.

(** template.py:213-225, the string part of [_escape]. *)
Definition escape_str (uval : str) : str :=
  if needs_escape uval then
    replace [c_dq] (L "&quot;")
      (replace [c_gt] (L "&gt;")
         (replace [c_lt] (L "&lt;")
            (replace [c_amp] (L "&amp;") uval)))
  else uval.

(** template.py:207-225 [_escape]. *)
Definition escape (v : value) : value :=
  match v with
  | VNone | VFlat _ => v
  | VHtml h _ => VStr h
  | _ => VStr (escape_str (to_str v))
  end.

(** html_utils.py:6-16 [HTML_EMPTY_ATTRS]. *)
Definition html_empty_attrs : list str :=
  map L ["checked"; "disabled"; "readonly"; "multiple"; "selected"; "nohref";
         "ismap"; "declare"; "defer"]%string.

(** [v in (True, False)] and, if so, the truth of [v]: Python's [==] identifies
    [True] with 1 and [False] with 0.  (Objects with their own [__eq__] and
    floats are not modelled.) *)
Definition as_bool (v : value) : option bool :=
  match v with
  | VBool b => Some b
  | VInt 1%Z => Some true
  | VInt 0%Z => Some false
  | _ => None
  end.

(** [sorted(attrs)] on pairs with pairwise different keys, which then compares
    keys only: stable insertion sort by key. *)
Fixpoint insert_attr {A} (kv : str * A) (l : list (str * A)) : list (str * A) :=
  match l with
  | [] => [kv]
  | kv' :: l' => if sleb (fst kv) (fst kv') then kv :: l
                 else kv' :: insert_attr kv l'
  end.
Fixpoint sort_attrs {A} (l : list (str * A)) : list (str * A) :=
  match l with
  | [] => []
  | kv :: l' => insert_attr kv (sort_attrs l')
  end.

(** Some key occurs twice. *)
Fixpoint dup_keys {A} (l : list (str * A)) : bool :=
  match l with
  | [] => false
  | (k, _) :: l' => smem k (map fst l') || dup_keys l'
  end.

(** template.py:238-246, one iteration of the loop of [_render_attrs]: the
    chunks yielded for one item. *)
Definition render_attr1 (mode : str) (kv : str * value) : list str :=
  let (k, v) := kv in
  let v := if smem k html_empty_attrs then
             match as_bool v with
             | Some true => VStr k
             | Some false => VNone
             | None => v
             end
           else v in
  match v with
  | VNone => []
  | _ =>
      if prefixb (L "html") mode && smem k html_empty_attrs
      then [[c_sp] ++ lower k]
      else [[c_sp] ++ k ++ L "=""" ++ to_str (escape v) ++ [c_dq]]
  end.

(** template.py:228-246 [_render_attrs] for a mapping or a list of pairs; the
    generator is modelled by the list of the chunks it yields.  With equal
    keys Python compares the values, which is not modelled. *)
Definition render_attrs (attrs : list (str * value)) (mode : str) : result (list str) :=
  if dup_keys attrs then Raise "sorted: equal keys (not modelled)"
  else Ok (flat_map (render_attr1 mode) (sort_attrs attrs)).

(** util.py:76-83 [flattener.__iter__]. *)
Fixpoint flat_item (x : value) : list value :=
  match x with
  | VFlat items =>
      filter (fun v => match v with VNone => false | _ => true end)
        ((fix go (l : list value) : list value :=
            match l with [] => [] | y :: l' => flat_item y ++ go l' end) items)
  | VNone => []
  | _ => [x]
  end.
Definition flat_iter (items : list value) : list value := flat_map flat_item items.

(** util.py:57-74 [accumulate_str]: loop with an explicit stack of iterators.
    [s += x] raises unless [x] is a string. *)
Fixpoint accumulate (fuel : nat) (s : str) (stack : list (list value)) : result str :=
  match fuel with
  | O => Raise "out of fuel"
  | S f =>
      match stack with
      | [] => Ok s
      | [] :: rest => accumulate f s rest                 (* StopIteration: pop *)
      | (x :: it) :: rest =>
          match x with
          | VFlat items => accumulate f s (items :: it :: rest)
          | VNone => accumulate f s (it :: rest)
          | VStr t => accumulate f (s ++ t) (it :: rest)
          | _ => Raise "TypeError"
          end
      end
  end.

(** Number of steps of the loop: an upper bound used as fuel. *)
Fixpoint vsize (v : value) : nat :=
  match v with
  | VFlat items =>
      S (S ((fix go (l : list value) : nat :=
               match l with [] => 0 | y :: l' => vsize y + go l' end) items))
  | _ => 1
  end.
Definition vsizes (l : list value) : nat := fold_right (fun v n => vsize v + n) 0 l.
Definition accumulate_str (items : list value) : result str :=
  accumulate (S (S (vsizes items))) [] [items].

(** template.py:250-256, the loop of [_collect]. *)
Fixpoint collect_parts (it : list value) : result (list str) :=
  match it with
  | [] => Ok []
  | VNone :: it' => collect_parts it'
  | VFlat items :: it' =>
      rbind (accumulate_str items) (fun t => rmap (cons t) (collect_parts it'))
  | part :: it' => rmap (cons (to_str part)) (collect_parts it')
  end.

(** template.py:248-260 [_collect]. *)
Definition collect (it : list value) : result value :=
  rmap (fun result => match result with
                      | [] => VNone
                      | _ => VStr (concat result)
                      end)
       (collect_parts it).

(** template.py:96-102 [__iter__] and 104-106 [render]; [main] is what the
    generator of [__main__] yields, [TplFunc] wraps it in a flattener
    (template.py:378). *)
Definition tpl_iter (main : list value) : list str := map to_str (flat_iter main).
Definition render (main : list value) : str := concat (tpl_iter main).
