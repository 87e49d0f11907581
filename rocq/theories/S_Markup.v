(** * Specification: markup

    How elements, attributes, texts and comments are written in XML (and, with void elements, in
    HTML), as a grammar, and a reader of it. *)

From Coq Require Import Ascii String List NArith ZArith Bool.
From Verif Require Import PyStr M_Values S_Values.
Import ListNotations.
Open Scope list_scope.

(** What a reader sees. *)
Inductive item : Type :=
| I_start (tag : str) (attrs : list (str * option str))     (* [None]: a name without a value *)
| I_end (tag : str)
| I_char (c : char)
| I_comment (t : str).

(** HTML elements that have no end tag. *)
Definition void (tag : str) : Prop :=
  In tag [L "area"; L "base"; L "br"; L "col"; L "hr"; L "img"; L "input"; L "link"; L "meta"; L "param"].

(** HTML elements whose content is no markup: it ends at the first end tag (HTML 4.01, B.3.2). *)
Definition raw (tag : str) : Prop := tag = L "script" \/ tag = L "style".

(** ** The grammar *)

(** The character references that stand for [c], if it is not written as itself. *)
Inductive written_char : char -> str -> Prop :=
| wc_self : forall c, c <> c_lt -> c <> c_amp -> written_char c [c]
| wc_ref : forall name c, In (name, c) references -> written_char c (c_amp :: name).
Inductive written_text : str -> str -> Prop :=
| wt_nil : written_text [] []
| wt_char : forall c s t u, written_char c s -> written_text t u -> written_text (c :: t) (s ++ u).
(** Attributes: the value between double quotes, where all blanks are spaces (XML 1.0, 3.3.3). *)
Definition in_attr (c : char) : char := if cmem c [9; 10; 13]%N then c_sp else c.
Inductive written_attrs : list (str * option str) -> str -> Prop :=
| wa_nil : written_attrs [] []
| wa_value : forall k v s l u, legal_name k -> written_text v (map in_attr s) -> ~ In c_dq s -> written_attrs l u ->
    written_attrs ((k, Some v) :: l) (L " " ++ k ++ L "=""" ++ s ++ L """" ++ u)
| wa_bare : forall k l u, legal_name k -> written_attrs l u -> written_attrs ((k, None) :: l) (L " " ++ k ++ u).
(** [t] contains [d]. *)
Definition has (d t : str) : Prop := exists a b, t = a ++ d ++ b.

(** [written html is s]: [s] is a sequence of texts, comments, CDATA sections and whole elements, which are
    [is].  An end tag has the name of its start tag. *)
Inductive written (html : bool) : list item -> str -> Prop :=
| w_nil : written html [] []
| w_char : forall c s is u, written_char c s -> written html is u -> written html (I_char c :: is) (s ++ u)
| w_comment : forall t is u, ~ has (L "--") t -> ~ (exists t', t = t' ++ L "-") -> written html is u ->
    written html (I_comment t :: is) (L "<!--" ++ t ++ L "-->" ++ u)
| w_cdata : forall t is u, ~ has (L "]]>") t -> written html is u ->
    written html (map I_char t ++ is) (L "<![CDATA[" ++ t ++ L "]]>" ++ u)
| w_empty : forall tag a s is u, legal_name tag -> prefixb (L "!") tag = false -> html = false -> written_attrs a s -> written html is u ->
    written html (I_start tag a :: I_end tag :: is) (L "<" ++ tag ++ s ++ L "/>" ++ u)
| w_void : forall tag a s is u, html = true -> void tag -> written_attrs a s -> written html is u ->
    written html (I_start tag a :: I_end tag :: is) (L "<" ++ tag ++ s ++ L ">" ++ u)
| w_raw : forall tag a s body is u, html = true -> raw tag -> written_attrs a s -> ~ has (L "</") body -> ~ has (L "<!--") body ->
    written html is u ->
    written html (I_start tag a :: map I_char body ++ I_end tag :: is)
      (L "<" ++ tag ++ s ++ L ">" ++ body ++ L "</" ++ tag ++ L ">" ++ u)
| w_elem : forall tag a s inner body is u, legal_name tag -> prefixb (L "!") tag = false -> ~ (html = true /\ void tag) -> ~ (html = true /\ raw tag) ->
    written_attrs a s -> written html inner body -> written html is u ->
    written html (I_start tag a :: inner ++ I_end tag :: is)
      (L "<" ++ tag ++ s ++ L ">" ++ body ++ L "</" ++ tag ++ L ">" ++ u).

(** ** The reader *)

(** One character of a text; what is left. *)
Definition read_char (s : str) : option (char * str) :=
  match s with
  | [] => None
  | c :: t =>
      if N.eqb c c_lt then None
      else if N.eqb c c_amp then
        option_map (fun r => (snd r, skipn (length (fst r)) t)) (find_reference t references)
      else Some (c, t)
  end.
Fixpoint read_text (fuel : nat) (s : str) : option str :=
  match fuel, s with
  | _, [] => Some []
  | O, _ => None
  | S f, _ => match read_char s with Some (c, s') => option_map (cons c) (read_text f s') | None => None end
  end.
Fixpoint read_attributes (fuel : nat) (s : str) : option (list (str * option str) * str) :=
  match fuel with
  | O => None
  | S f =>
      match s with
      | c :: t =>
          if N.eqb c c_sp then
            let k := takewhile name_char t in
            let t := dropwhile name_char t in
            match k with
            | [] => None
            | _ =>
                if prefixb (L "=""") t then
                  let t := skipn 2 t in
                  match dropwhile not_quote t with
                  | [] => None
                  | _ :: rest =>
                      match read_text (length t) (map in_attr (takewhile not_quote t)) with
                      | None => None
                      | Some v => option_map (fun r => ((k, Some v) :: fst r, snd r)) (read_attributes f rest)
                      end
                  end
                else option_map (fun r => ((k, None) :: fst r, snd r)) (read_attributes f t)
            end
          else Some ([], s)
      | [] => Some ([], s)
      end
  end.

(** The next items, the elements that are open afterwards, and what is left to read. *)
Definition voidb (tag : str) : bool :=
  smem tag [L "area"; L "base"; L "br"; L "col"; L "hr"; L "img"; L "input"; L "link"; L "meta"; L "param"].
Definition rawb (tag : str) : bool := smem tag [L "script"; L "style"].
Definition upto (d s : str) : option (str * str) :=
  match find d s with Some i => Some (firstn i s, skipn (i + length d) s) | None => None end.
Definition read_item (html : bool) (open : list str) (s : str) : option (list item * list str * str) :=
  match s with
  | [] => None
  | c :: t =>
      if N.eqb c c_lt then
        if prefixb (L "!--") t then
          match upto (L "--") (skipn 3 t) with
          | Some (x, r) => if prefixb (L ">") r then Some ([I_comment x], open, skipn 1 r) else None
          | None => None
          end
        else if prefixb (L "![CDATA[") t then
          match upto (L "]]>") (skipn 8 t) with
          | Some (x, r) => Some (map I_char x, open, r)
          | None => None
          end
        else if prefixb (L "!") t then None
        else if prefixb (L "/") t then
          let t := skipn 1 t in
          match open with
          | tag :: open' =>
              if seqb (takewhile name_char t) tag && prefixb (L ">") (dropwhile name_char t)
              then Some ([I_end tag], open', skipn 1 (dropwhile name_char t)) else None
          | [] => None
          end
        else
          let tag := takewhile name_char t in
          match tag, read_attributes (length t) (dropwhile name_char t) with
          | _ :: _, Some (a, r) =>
              if prefixb (L "/>") r then
                if html then None else Some ([I_start tag a; I_end tag], open, skipn 2 r)
              else if prefixb (L ">") r then
                if html && voidb tag then Some ([I_start tag a; I_end tag], open, skipn 1 r)
                else if html && rawb tag then
                  match upto (L "</") (skipn 1 r) with
                  | Some (x, r') =>
                      if prefixb (tag ++ L ">") r' && negb (contains (L "<!--") x)
                      then Some (I_start tag a :: map I_char x ++ [I_end tag], open, skipn (length tag + 1) r') else None
                  | None => None
                  end
                else Some ([I_start tag a], tag :: open, skipn 1 r)
              else None
          | _, _ => None
          end
      else option_map (fun r => ([I_char (fst r)], open, snd r)) (read_char s)
  end.
Fixpoint read_items (html : bool) (fuel : nat) (open : list str) (s : str) : option (list item) :=
  match s, open with
  | [], [] => Some []
  | _, _ =>
      match fuel with
      | O => None
      | S f =>
          match read_item html open s with
          | Some (is, open', s') => option_map (app is) (read_items html f open' s')
          | None => None
          end
      end
  end.
(** [read html s]: what [s] says, if all its elements are closed in the right order. *)
Definition read (html : bool) (s : str) : option (list item) := read_items html (length s) [] s.

(** A reader of XML first turns line breaks into line feeds (XML 1.0, 2.11). *)
Fixpoint line_ends (s : str) : str :=
  match s with
  | [] => []
  | c :: s' =>
      if N.eqb c 13 then
        match s' with
        | d :: _ => if N.eqb d c_nl then line_ends s' else c_nl :: line_ends s'
        | [] => [c_nl]
        end
      else c :: line_ends s'
  end.
Definition read_xml (s : str) : option (list item) := read false (line_ends s).
