(** * Specification of escaping, attribute rendering and flattening

    Written from the documentation, independently of [M_Values]; it only
    shares the type of values and the string type. *)

From Coq Require Import Ascii String List NArith ZArith Bool Sorted.
From Verif Require Import PyStr M_Values.
Import ListNotations.
Open Scope list_scope.

(** The character references that may appear in escaped text: what follows the
    ampersand, and the character meant. *)
Definition references : list (str * char) :=
  [(L "amp;", c_amp); (L "lt;", c_lt); (L "gt;", c_gt); (L "quot;", c_dq)].

(** Text that cannot be read as markup, in element content or between double
    quotes: none of the three delimiters, and each ampersand starts one of the
    four references. *)
Definition inert (s : str) : Prop :=
  ~ In c_lt s /\ ~ In c_gt s /\ ~ In c_dq s /\
  forall before after, s = before ++ c_amp :: after ->
    exists name c rest, In (name, c) references /\ after = name ++ rest.

(** What a reader of HTML makes of escaped text: each of the four references is
    replaced by its character, everything else stands for itself. *)
Fixpoint find_reference (t : str) (l : list (str * char)) : option (str * char) :=
  match l with
  | [] => None
  | (name, c) :: l' => if prefixb name t then Some (name, c) else find_reference t l'
  end.
Fixpoint decode_skip (skip : nat) (s : str) : str :=
  match s with
  | [] => []
  | c :: t =>
      match skip with
      | S k => decode_skip k t
      | O => if N.eqb c c_amp then
               match find_reference t references with
               | Some (name, d) => d :: decode_skip (length name) t
               | None => c :: decode_skip 0 t
               end
             else c :: decode_skip 0 t
      end
  end.
Definition decode (s : str) : str := decode_skip 0 s.

(** Values that are neither absent nor already markup. *)
Definition plain (v : value) : Prop :=
  match v with
  | VBool _ | VInt _ | VStr _ | VObj _ => True
  | _ => False
  end.

(** ** Attributes *)

(** The HTML boolean attributes. *)
Definition boolean_attribute (k : str) : Prop :=
  In k [L "checked"; L "disabled"; L "readonly"; L "multiple"; L "selected";
        L "nohref"; L "ismap"; L "declare"; L "defer"].

(** [True] and 1 (resp. [False] and 0) are the same for Python. *)
Definition is_true (v : value) : Prop := v = VBool true \/ v = VInt 1.
Definition is_false (v : value) : Prop := v = VBool false \/ v = VInt 0.

(** What a reader of the page should see of attribute [k] with value [v]:
    nothing, or the name alone, or the name with a text.  [html] says whether the
    output is HTML rather than XML. *)
Inductive seen (html : bool) (k : str) (v : value) : option (str * option str) -> Prop :=
| seen_absent : v = VNone -> seen html k v None
| seen_off : boolean_attribute k -> is_false v -> seen html k v None
| seen_on_xml : boolean_attribute k -> is_true v -> html = false ->
    seen html k v (Some (k, Some k))
| seen_bare : boolean_attribute k -> v <> VNone -> ~ is_false v -> html = true ->
    seen html k v (Some (k, None))
| seen_text_xml : boolean_attribute k -> v <> VNone -> ~ is_false v -> ~ is_true v -> html = false ->
    seen html k v (Some (k, Some (to_str v)))
| seen_text : ~ boolean_attribute k -> v <> VNone ->
    seen html k v (Some (k, Some (to_str v))).

(** A character that may occur in an attribute name. *)
Definition name_char (c : char) : bool :=
  negb (is_space c) && negb (cmem c [c_eq; c_dq; c_sq; c_lt; c_gt; c_slash; c_amp]).
Definition legal_name (k : str) : Prop := k <> [] /\ forallb name_char k = true.

Definition not_quote (c : char) : bool := negb (N.eqb c c_dq).

(** Reader of a list of attributes: each is a blank, a name and optionally
    an equals sign and a text between double quotes, in which references are decoded.
    [fuel] bounds the number of attributes. *)
Fixpoint read_attrs_fuel (fuel : nat) (s : str) : option (list (str * option str)) :=
  match fuel with
  | O => None
  | S f =>
      match s with
      | [] => Some []
      | c :: t =>
          if N.eqb c c_sp then
            match takewhile name_char t with
            | [] => None
            | name =>
                if prefixb (L "=""") (dropwhile name_char t) then
                  let body := skipn 2 (dropwhile name_char t) in
                  match dropwhile not_quote body with
                  | [] => None
                  | _ :: rest =>
                      option_map (cons (name, Some (decode (takewhile not_quote body))))
                        (read_attrs_fuel f rest)
                  end
                else option_map (cons (name, None))
                       (read_attrs_fuel f (dropwhile name_char t))
            end
          else None
      end
  end.
Definition read_attrs (s : str) : option (list (str * option str)) :=
  read_attrs_fuel (S (length s)) s.

(** Keeping the attributes that are seen. *)
Inductive all_seen (html : bool) : list (str * value) -> list (str * option str) -> Prop :=
| all_seen_nil : all_seen html [] []
| all_seen_some : forall k v l a o,
    seen html k v (Some a) -> all_seen html l o -> all_seen html ((k, v) :: l) (a :: o)
| all_seen_none : forall k v l o,
    seen html k v None -> all_seen html l o -> all_seen html ((k, v) :: l) o.

(** Increasing order of names (code point order). *)
Definition by_name {A} (a b : str * A) : Prop := sleb (fst a) (fst b) = true.

(** ** Nested output *)

(** The leaves of nested outputs other than [None], from left to right. *)
Fixpoint leaves (v : value) : list value :=
  match v with
  | VNone => []
  | VFlat items => flat_map leaves items
  | _ => [v]
  end.

Definition is_str (v : value) : Prop := exists s, v = VStr s.

(** The text contributed by a value: the texts of all its leaves. *)
Definition text_of (v : value) : str := flat_map to_str (leaves v).
