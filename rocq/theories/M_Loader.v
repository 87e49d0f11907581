(** * Template loaders

    Model of [kajiki/loader.py] and of the loading part of
    [kajiki/integration/pyramid.py].

    The file system is an argument, [fs : nat -> path -> option (mtime * contents)]: what
    the n-th access of the process to the file system finds.  Since [fs] is arbitrary,
    other processes may write between any two accesses.  Every [os.path.exists], [os.stat]
    and reading of a file is one access.  Compilation is an oracle. *)

From Coq Require Import Ascii String List NArith ZArith Bool.
From Verif Require Import PyStr.
Import ListNotations.
Open Scope list_scope.

(** ** Paths (POSIX) *)

(** [os.path.join(base, name)]. *)
Definition path_join (base name : str) : str :=
  match name with
  | c :: _ => if N.eqb c c_slash then name
              else match rev base with
                   | [] => name
                   | d :: _ => if N.eqb d c_slash then base ++ name else base ++ [c_slash] ++ name
                   end
  | [] => match rev base with
          | [] => []
          | d :: _ => if N.eqb d c_slash then base else base ++ [c_slash]
          end
  end.

(** [os.path.basename(p)]. *)
Definition basename (p : str) : str := rev (takewhile (fun c => negb (N.eqb c c_slash)) (rev p)).

(** [os.path.splitext(p)]: the extension starts at the last dot of the base name, unless only
    dots come before it. *)
Definition splitext (p : str) : str * str :=
  let b := basename p in
  let e := rev (takewhile (fun c => negb (N.eqb c c_dot)) (rev b)) in   (* after the last dot *)
  let before := firstn (length b - length e - 1) b in
  if cmem c_dot b && existsb (fun c => negb (N.eqb c c_dot)) before
  then (firstn (length p - length e - 1) p, [c_dot] ++ e)
  else (p, []).

(** loader.py:26-27 [default_alias_for]. *)
Definition default_alias_for (name : str) : str := fst (splitext (basename name)).

(** ** Templates and options *)

(** Values of the options that matter here. *)
Inductive opt := ONone | OBool (b : bool) | OStr (s : str) | OOther (n : nat).

(** Keyword arguments, as a dict. *)
Definition kwargs : Type := list (str * opt).
Fixpoint kw_get (k : str) (d : kwargs) : option opt :=
  match d with
  | [] => None
  | (k', v) :: d' => if seqb k k' then Some v else kw_get k d'
  end.
Fixpoint kw_set (k : str) (v : opt) (d : kwargs) : kwargs :=
  match d with
  | [] => [(k, v)]
  | (k', v') :: d' => if seqb k k' then (k, v) :: d' else (k', v') :: kw_set k v d'
  end.
(** [d.update(e)]. *)
Definition kw_update (d e : kwargs) : kwargs := fold_left (fun d kv => kw_set (fst kv) (snd kv) d) e d.

Inductive kind := Text | Xml.

(** text.py:53-54 and xml_template.py:30-32: the parameters of [TextTemplate] and
    [XMLTemplate]. *)
Definition parameters (k : kind) : list str :=
  match k with
  | Text => map L ["source"; "filename"; "autoescape"; "encoding"]%string
  | Xml => map L ["source"; "filename"; "mode"; "is_fragment"; "encoding"; "autoblocks";
                  "cdata_scripts"; "strip_text"; "base_globals"]%string
  end.

(** A call with the keyword arguments [given] and [**options]: Python raises TypeError for a
    keyword given twice or unknown to the function. *)
Definition bind_kwargs (k : kind) (given options : kwargs) : result kwargs :=
  if existsb (fun kv => smem (fst kv) (map fst options)) given then Raise "TypeError"
  else if forallb (fun kv => smem (fst kv) (parameters k)) (given ++ options)
  then Ok (given ++ options)
  else Raise "TypeError".

(** A template object: an identity, what kind it is, the keyword arguments it was built with
    and the contents it was compiled from. *)
Record template := Template {
  t_id : nat;
  t_kind : kind;
  t_args : kwargs;
  t_contents : str }.

(** ** Loaders *)

Record config := Config {
  c_path : list str;              (* loader.py:48-51, after splitting *)
  c_reload : bool;
  c_force_mode : option str;
  c_autoescape_text : opt;
  c_xml_autoblocks : opt;
  c_template_options : kwargs }.

Record state := State {
  modules : list (str * template);
  timestamps : list (str * Z);
  clock : nat }.                  (* number of accesses so far *)

Fixpoint lookup {A} (k : str) (d : list (str * A)) : option A :=
  match d with
  | [] => None
  | (k', v) :: d' => if seqb k k' then Some v else lookup k d'
  end.
Fixpoint remove {A} (k : str) (d : list (str * A)) : list (str * A) :=
  match d with
  | [] => []
  | (k', v) :: d' => if seqb k k' then remove k d' else (k', v) :: remove k d'
  end.
Definition set {A} (k : str) (v : A) (d : list (str * A)) : list (str * A) := (k, v) :: remove k d.

Definition set_module (name : str) (t : template) (s : state) : state :=
  State (set name t (modules s)) (timestamps s) (clock s).
Definition del_module (name : str) (s : state) : state :=
  State (remove name (modules s)) (timestamps s) (clock s).
Definition set_timestamp (name : str) (z : Z) (s : state) : state :=
  State (modules s) (set name z (timestamps s)) (clock s).
Definition tick (s : state) : state := State (modules s) (timestamps s) (S (clock s)).

(** Code with side effects: the result (or exception) and the new state. *)
Definition io (A : Type) : Type := state -> result A * state.
Definition ret {A} (a : A) : io A := fun s => (Ok a, s).
Definition fail {A} (e : string) : io A := fun s => (Raise e, s).
Definition bind {A B} (m : io A) (f : A -> io B) : io B :=
  fun s => match m s with
           | (Ok a, s') => f a s'
           | (Raise e, s') => (Raise e, s')
           end.
Notation "x <- m ;; f" := (bind m (fun x => f)) (at level 61, m at next level, right associativity).
Definition lift {A} (r : result A) : io A := fun s => (r, s).

Section Loader.
Variable fs : nat -> str -> option (Z * str).
(** Compiling contents: [None], or the exception raised. *)
Variable compile : kind -> kwargs -> str -> option string.

(** [os.path.exists(fn)]. *)
Definition exists_file (fn : str) : io bool :=
  fun s => (Ok (match fs (clock s) fn with Some _ => true | None => false end), tick s).
(** [os.stat(fn).st_mtime]; [None] stands for Python's None. *)
Definition stat (fn : option str) : io Z :=
  fun s => match fn with
           | None => (Raise "TypeError", s)
           | Some f => match fs (clock s) f with
                       | Some (mtime, _) => (Ok mtime, tick s)
                       | None => (Raise "FileNotFoundError", tick s)
                       end
           end.
(** [open(fn).read()]. *)
Definition read_file (fn : str) : io str :=
  fun s => match fs (clock s) fn with
           | Some (_, contents) => (Ok contents, tick s)
           | None => (Raise "FileNotFoundError", tick s)
           end.

(** loader.py:65-70 [FileLoader._filename]. *)
Fixpoint filename_in (path : list str) (name : str) : io (option str) :=
  match path with
  | [] => ret None
  | base :: path' =>
      let fn := path_join base name in
      e <- exists_file fn ;;
      if e then ret (Some fn) else filename_in path' name
  end.

(** Building a template from a file: bind the arguments (before anything is read),
    read (text.py:57-59, xml_template.py:47-49), compile.  The identity is the number of the
    access. *)
Definition build (k : kind) (given options : kwargs) (filename : str) : io template :=
  args <- lift (bind_kwargs k given options) ;;
  contents <- read_file filename ;;
  fun s => match compile k args contents with
           | Some e => (Raise e, s)
           | None => (Ok (Template (clock s) k args contents), s)
           end.

(** loader.py:58-63 [extension_map] and 101-104. *)
Definition build_by_extension (cfg : config) (filename : str) (options : kwargs) : io template :=
  let ext := skipn 1 (snd (splitext filename)) in
  let file := [(L "source", ONone); (L "filename", OStr filename)] in
  if seqb ext (L "txt")
  then build Text ((L "autoescape", c_autoescape_text cfg) :: file) options filename
  else if seqb ext (L "xml") then build Xml file options filename
  else if seqb ext (L "html")
  then build Xml ((L "mode", OStr (L "html")) :: file) options filename
  else if seqb ext (L "html5")
  then build Xml ((L "mode", OStr (L "html5")) :: file) options filename
  else fail "KeyError".

(** loader.py:80-104 [FileLoader._load]; [locate] is [_filename].  The parameter
    [encoding] takes the keyword of that name, which is then not passed on. *)
Definition kw_del (k : str) (d : kwargs) : kwargs :=
  filter (fun kv => negb (seqb k (fst kv))) d.
Definition load (cfg : config) (locate : str -> io (option str)) (name : str) (kw : kwargs) : io template :=
  let options := kw_update (c_template_options cfg) (kw_del (L "encoding") kw) in
  fn <- locate name ;;
  match fn with
  | None => fail "OSError"
  | Some filename =>
      mtime <- stat (Some filename) ;;
      _ <- (fun s => (Ok tt, set_timestamp name mtime s)) ;;
      match c_force_mode cfg with
      | Some (c :: mode) =>
          if seqb (c :: mode) (L "text")
          then build Text [(L "filename", OStr filename); (L "autoescape", c_autoescape_text cfg)]
                 options filename
          else build Xml [(L "filename", OStr filename); (L "mode", OStr (c :: mode));
                          (L "autoblocks", c_xml_autoblocks cfg)] options filename
      | _ => build_by_extension cfg filename options
      end
  end.

(** loader.py:14-24 [Loader.import_]; [do_load] is [_load]. *)
Definition base_import (do_load : io template) (name : str) : io template :=
  fun s => match lookup name (modules s) with
           | Some t => (Ok t, s)
           | None => bind do_load (fun t s' => (Ok t, set_module name t s')) s
           end.

(** loader.py:74-77 and pyramid.py:85-88: drop a cached template whose file is newer. *)
Definition expire (reload : bool) (name : str) (filename : option str) : io unit :=
  fun s => match reload, lookup name (modules s) with
           | true, Some _ =>
               match stat filename s with
               | (Ok mtime, s') =>
                   let old := match lookup name (timestamps s') with Some z => z | None => 0%Z end in
                   (Ok tt, if (old <? mtime)%Z then del_module name s' else s')
               | (Raise e, s') => (Raise e, s')
               end
           | _, _ => (Ok tt, s)
           end.

(** loader.py:72-78 [FileLoader.import_]. *)
Definition import_with (cfg : config) (locate : str -> io (option str)) (name : str) (kw : kwargs) : io template :=
  filename <- locate name ;;
  _ <- expire (c_reload cfg) name filename ;;
  base_import (load cfg locate name kw) name.

Definition file_import (cfg : config) (name : str) (kw : kwargs) : io template :=
  import_with cfg (filename_in (c_path cfg)) name kw.

(** template.py:201: how [<py:include>], [<py:import>], [%include] and [%import] load. *)
Definition include_kwargs : kwargs := [(L "is_fragment", OBool true)].

(** pyramid.py:61-89 [PyramidKajikiLoader]; [abspath] is
    [abspath_from_resource_spec]. *)
Definition pyramid_import (auto_reload : bool) (mode : opt) (abspath : str -> str)
    (name : str) (kw : kwargs) : io template :=
  let name := abspath name in
  _ <- expire auto_reload name (Some name) ;;
  base_import (build Xml [(L "source", ONone); (L "filename", OStr name); (L "mode", mode)] kw name) name.

End Loader.

(** ** Package loader *)

(** [s.rsplit('.', 1)] when there is a dot. *)
Definition rsplit_dot (s : str) : option (str * str) :=
  if cmem c_dot s then
    let e := rev (takewhile (fun c => negb (N.eqb c c_dot)) (rev s)) in
    Some (firstn (length s - length e - 1) s, e)
  else None.

(** loader.py:113-119: the loop over the listing: [inl] is an early return. *)
Fixpoint scan_listing (name module : str) (listing : list str) (found : list (str * str)) :
    str + list (str * str) :=
  match listing with
  | [] => inr found
  | fn :: listing' =>
      if seqb fn name then inl fn
      else let (root, ext) := splitext fn in
           if seqb root module then scan_listing name module listing' (set ext fn found)
           else scan_listing name module listing' found
  end.

(** loader.py:111-124 [PackageLoader._filename]; [listing] is
    [pkg_resources.resource_listdir(package, '.')], and the result is the package and the
    file name given to [resource_filename]. *)
Definition package_filename (listing : str -> list str) (name : str) : result (str * str) :=
  match rsplit_dot name with
  | None => Raise "ValueError"
  | Some (package, module) =>
      match scan_listing name module (listing package) [] with
      | inl fn => Ok (package, fn)
      | inr found =>
          match flat_map (fun ext => match lookup ext found with Some fn => [fn] | None => [] end)
                  [L ".xml"; L ".html"; L ".html5"; L ".txt"] with
          | fn :: _ => Ok (package, fn)
          | [] => Raise "OSError"
          end
      end
  end.

(** loader.py:107-124: the loader itself.  [listing n] is what the n-th access finds;
    [resource] is [pkg_resources.resource_filename]. *)
Definition package_locate (listing : nat -> str -> list str) (resource : str -> str -> str)
    (name : str) : io (option str) :=
  fun s => (rmap (fun pf => Some (resource (fst pf) (snd pf))) (package_filename (listing (clock s)) name),
            tick s).
Definition package_config (reload : bool) (force_mode : option str) : config :=
  Config [] reload force_mode (OBool false) ONone [].
Definition package_import fs compile listing resource reload force_mode name kw : io template :=
  import_with fs compile (package_config reload force_mode) (package_locate listing resource) name kw.
