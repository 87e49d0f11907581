(** * What integrations with web frameworks should do *)

From Coq Require Import Ascii String List NArith ZArith Bool.
From Verif Require Import PyStr M_Loader S_Loader M_Integration.
Import ListNotations.
Open Scope list_scope.

Section Context.
Variable V : Type.
(** The variables of a template: what the view has returned ([items], the last one counts) comes before what the
    framework has given. *)
Inductive variable_is (system items : dict V) (k : str) (v : V) : Prop :=
| vi_view : forall l1 l2, items = l1 ++ (k, v) :: l2 -> ~ In k (map fst l2) -> variable_is system items k v
| vi_system : ~ In k (map fst items) -> In (k, v) system -> variable_is system items k v.
(** The variables of [d] are those. *)
Definition has_variables (system items d : dict V) : Prop :=
  NoDup (map fst d) /\ forall k v, In (k, v) d <-> variable_is system items k v.

(** The template asked for. *)
Inductive asked (pv : python_values V) (system : dict V) (v : V) : Prop :=
| as_name : In (L "renderer_name", v) system -> truthy V pv v = true -> asked pv system v
| as_info : forall i, (forall w, In (L "renderer_name", w) system -> truthy V pv w = false) ->
    In (L "renderer_info", i) system -> name_attr V pv i = Ok v -> asked pv system v.
End Context.

(** ** What has been served before *)
Inductive served (V : Type) : Type :=
| Responded (value : V) (system : dict V) (is_fragment : bool)
| Fragment (renderer_name dic view request : V)
| Imported (name : str) (kw : kwargs).
Definition serve (V : Type) (pv : python_values V) (import_ : str -> kwargs -> io template) (render : code -> dict V -> rendering)
    (q : served V) (s : state) : state :=
  match q with
  | Responded _ value system frag => snd (respond V pv import_ render value system frag s)
  | Fragment _ n d v r => snd (fragment V pv import_ render n d v r s)
  | Imported _ name kw => snd (import_ name kw s)
  end.
Definition after_serving (V : Type) (pv : python_values V) (import_ : str -> kwargs -> io template) (render : code -> dict V -> rendering)
    (history : list (served V)) (s : state) : state := fold_left (fun s q => serve V pv import_ render q s) history s.

(** The template of a file, for Pyramid. *)
Definition pyramid_code (mode : opt) (path : str) (kw : kwargs) (contents : str) : code :=
  (Xml, [(L "source", ONone); (L "filename", OStr path); (L "mode", mode)] ++ kw, contents).
(** What comes of asking for it, if the files are [now] and do not change. *)
Definition pyramid_answer (compile : kind -> kwargs -> str -> option string) (mode : opt) (now : str -> option (Z * str)) (path : str) (kw : kwargs) : result code :=
  match now path with
  | None => Raise "FileNotFoundError"
  | Some (_, contents) =>
      let c := pyramid_code mode path kw contents in
      match compile (fst (fst c)) (snd (fst c)) contents with Some e => Raise e | None => Ok c end
  end.
(** So that a rendering ends in the same way, whenever it is done. *)
Inductive comes_to (answer : str -> kwargs -> result code) : rendering -> result str -> Prop :=
| ct_ends : forall r, comes_to answer (Ends r) r
| ct_extends : forall name go r, comes_to answer (go (answer name [])) r -> comes_to answer (Asks name false go) r
| ct_includes : forall name go r, comes_to answer (go (answer name [(L "is_fragment", OBool true)])) r -> comes_to answer (Asks name true go) r.

(** ** Words *)
Inductive words_of : str -> list str -> Prop :=
| wo_end : forall sp, Forall (fun c => is_space c = true) sp -> words_of sp []
| wo_word : forall sp w rest l, Forall (fun c => is_space c = true) sp -> w <> [] -> Forall (fun c => is_space c = false) w ->
    (rest = [] \/ exists c r, rest = c :: r /\ is_space c = true) -> words_of rest l -> words_of (sp ++ w ++ rest) (w :: l).
