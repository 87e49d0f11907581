(** * Integration with web frameworks

    Model of [kajiki/integration/pyramid.py] (its loading part is [pyramid_import] of [M_Loader]) and of
    [kajiki/integration/turbogears1.py].  No proofs here.

    The values of Python are a parameter, with what the code asks of them.  What rendering a template does
    is a parameter too, except that it reaches the loader only by asking for templates. *)

From Coq Require Import Ascii String List NArith ZArith Bool.
From Verif Require Import PyStr M_Loader.
Import ListNotations.
Open Scope list_scope.

(** ** Renderings *)

(** What a template consists of, its identity aside. *)
Definition code : Type := (kind * kwargs * str)%type.
Definition code_of (t : template) : code := (t_kind t, t_args t, t_contents t).
(** A rendering asks for templates (template.py:137 for extensions, without arguments, and 201 for includes and
    imports, with [include_kwargs]) and goes on according to the answer, until it has a result. *)
Inductive rendering : Type :=
| Ends (r : result str)
| Asks (name : str) (included : bool) (go : result code -> rendering).
Fixpoint run_rendering (import_ : str -> kwargs -> io template) (r : rendering) : io str :=
  match r with
  | Ends r => lift r
  | Asks name included go => fun s =>
      let (t, s') := import_ name (if included then include_kwargs else []) s in run_rendering import_ (go (rmap code_of t)) s'
  end.

Section Values.
Variable V : Type.

(** ** Dictionaries *)
Definition dict : Type := list (str * V).
Fixpoint dget (k : str) (d : dict) : option V :=
  match d with [] => None | (k', v) :: d' => if seqb k k' then Some v else dget k d' end.
Fixpoint dset (k : str) (v : V) (d : dict) : dict :=
  match d with [] => [(k, v)] | (k', v') :: d' => if seqb k k' then (k', v) :: d' else (k', v') :: dset k v d' end.
Definition dupdate (d items : dict) : dict := fold_left (fun d kv => dset (fst kv) (snd kv) d) items d.

(** What the code asks of values: [None]; whether a value is true; [x.name], [x.request]; a value as a string (other
    values are refused by [abspath_from_resource_spec]); the items [d.update(x)] sets, in order, and its exception,
    which comes after them. *)
Record python_values := PyValues {
  none : V;
  truthy : V -> bool;
  name_attr : V -> result V;
  request_attr : V -> result V;
  as_string : V -> result str;
  items_of : V -> dict * option string }.
Variable pv : python_values.

(** ** Pyramid *)

Section Pyramid.
Variable import_ : str -> kwargs -> io template.      (* pyramid.py:78-89, the loader *)
Variable render : code -> dict -> rendering.          (* [template(context).render()] *)

(** pyramid.py:105: [system.get('renderer_name') or system['renderer_info'].name]. *)
Definition template_name (system : dict) : result V :=
  let info := match dget (L "renderer_info") system with Some i => name_attr pv i | None => Raise "KeyError" end in
  match dget (L "renderer_name") system with
  | Some v => if truthy pv v then Ok v else info
  | None => info
  end.
(** pyramid.py:109: what is caught (an exception of a subclass is taken for one of the class). *)
Definition not_a_dictionary (e : string) : bool := String.eqb e "TypeError" || String.eqb e "ValueError".
(** pyramid.py:91-113 [__call__]: the response, the caller's dictionary and the loader afterwards. *)
Definition respond (value : V) (system : dict) (is_fragment : bool) (s : state) : result str * dict * state :=
  match rbind (template_name system) (as_string pv) with
  | Raise e => (Raise e, system, s)
  | Ok name =>
      match import_ name [(L "is_fragment", OBool is_fragment)] s with
      | (Raise e, s1) => (Raise e, system, s1)
      | (Ok t, s1) =>
          let (items, err) := items_of pv value in
          let system := dupdate system items in
          match err with
          | Some e => (Raise (if not_a_dictionary e then "ValueError" else e), system, s1)
          | None => let (r, s2) := run_rendering import_ (render (code_of t) system) s1 in (r, system, s2)
          end
      end
  end.
(** pyramid.py:126-137 [fragment]. *)
Definition fragment (renderer_name dic view request : V) (s : state) : result str * state :=
  match (if truthy pv request then Ok request else request_attr pv view) with
  | Raise e => (Raise e, s)
  | Ok rq =>
      let '(r, _, s') := respond dic [(L "renderer_name", renderer_name); (L "request", rq); (L "view", view); (L "context", dic)] true s in
      (r, s')
  end.
End Pyramid.
End Values.

(** [s.split()]. *)
Fixpoint words_aux (cur : str) (s : str) : list str :=
  let done := match cur with [] => [] | _ => [rev cur] end in
  match s with
  | [] => done
  | c :: s' => if is_space c then done ++ words_aux [] s' else words_aux (c :: cur) s'
  end.
Definition words (s : str) : list str := words_aux [] s.

(** ** The configuration of an application *)

(** The settings that matter: strings, or the other values of [pyramid.reload_templates]. *)
Record application := App {
  a_renderers : list str;                        (* extensions with [renderer_factory], as they were added *)
  a_loader : option (bool * str) }.              (* [registry.kajiki_loader]: auto_reload and mode *)
(** pyramid.py:43-56 [includeme]; [asbool] is paste's, on the setting (or None). *)
Definition includeme (asbool : option str -> result bool) (settings : list (str * str)) (a : application) : result unit * application :=
  match a_loader a with
  | Some _ => (Ok tt, a)
  | None =>
      let extensions := words (match lookup (L "kajiki.extensions") settings with Some x => x | None => L ".kajiki" end) in
      let a := App (a_renderers a ++ extensions) None in
      match asbool (lookup (L "pyramid.reload_templates") settings) with
      | Raise e => (Raise e, a)
      | Ok reload => (Ok tt, App (a_renderers a) (Some (reload, match lookup (L "kajiki.mode") settings with Some m => m | None => L "html5" end)))
      end
  end.
(** pyramid.py:140-152 [renderer_factory]: a renderer is the loader of the application. *)
Definition renderer_factory (a : application) : result (bool * str) :=
  match a_loader a with Some l => Ok l | None => Raise "AttributeError" end.

(** ** TurboGears 1 *)

Section TurboGears.
Variable V : Type.
(** turbogears1.py:57-64 [load_template]; [load] is the loader's, [from_string] the template class. *)
Variable load : str -> io code.
Variable from_string : str -> result code.
Definition load_template (name : str) (source : option str) : io code :=
  match source with Some x => lift (from_string x) | None => load name end.

(** A template is given by name or as itself. *)
Inductive template_argument : Type := ByName (name : str) | Itself (c : code).
Variable python2 : bool.                          (* whether the name [basestring] is defined *)
(** [get_extra_vars]: [None] if the plugin was created without; else the items it returns, or its exception. *)
Variable extra_vars : option (result (dict V)).
Variable render : code -> dict V -> io str.
(** turbogears1.py:71-78 [transform] and 66-69 [render]: the response, the caller's dictionary and the loader. *)
Definition turbogears_render (info : dict V) (t : template_argument) (s : state) : result str * dict V * state :=
  if negb python2 then (Raise "NameError", info, s)
  else
    match (match t with ByName n => load_template n None | Itself c => ret c end) s with
    | (Raise e, s1) => (Raise e, info, s1)
    | (Ok c, s1) =>
        match extra_vars with
        | None => (Raise "TypeError", info, s1)
        | Some (Raise e) => (Raise e, info, s1)
        | Some (Ok items) =>
            let info := dupdate V info items in
            let (r, s2) := render c info s1 in (r, info, s2)
        end
    end.
End TurboGears.

(** turbogears1.py:28-43: the options of the loader, and its class. *)
Definition plugin_options (engine : list (str * opt)) : list (str * opt) :=
  [(L "reload", match lookup (L "kajiki.reload") engine with Some x => x | None => OBool true end);
   (L "force_mode", match lookup (L "kajiki.force_mode") engine with Some x => x | None => ONone end)].
(** turbogears1.py:45-55 [_import_loader]; [get] imports a module and takes an attribute of it. Any exception is
    turned into one (a name without a dot cannot be split into two). *)
Definition import_loader {A : Type} (get : str -> str -> result A) (name : str) : result A :=
  match rsplit_dot name with
  | None => Raise "ConfigurationError"
  | Some (m, c) => match get m c with Ok x => Ok x | Raise _ => Raise "ConfigurationError" end
  end.
