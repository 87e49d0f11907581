(** * Loaders used by several threads

    The same code as in [M_Loader] ([kajiki/loader.py], [kajiki/integration/pyramid.py]), taken apart into the steps
    between which other threads may run: each access to the file system and each operation on one of
    the loader's two dictionaries is a step.  (CPython runs other threads between bytecodes, and an operation on
    a dictionary whose keys are strings is one bytecode.)  What happens between two steps is local to the
    thread. *)

From Coq Require Import Ascii String List NArith ZArith Bool.
From Verif Require Import PyStr M_Loader.
Import ListNotations.
Open Scope list_scope.

(** A call of [import_] in progress: what it does next. *)
Inductive prog : Type :=
| Return (r : result template)
| Exists (fn : str) (k : bool -> prog)                (* [os.path.exists(fn)] *)
| Stat (fn : option str) (k : Z -> prog)              (* [os.stat(fn).st_mtime] *)
| Read (fn : str) (k : nat -> str -> prog)            (* reading the file; the number names the template *)
| Cached (name : str) (k : option template -> prog)   (* [name in self.modules], [self.modules.get(name)] *)
| Forget (name : str) (k : prog)                      (* [del self.modules[name]] *)
| Keep (name : str) (t : template) (k : prog)         (* [self.modules[name] = t] *)
| Stamp (name : str) (k : Z -> prog)                  (* [self._timestamps.get(name, 0)] *)
| SetStamp (name : str) (z : Z) (k : prog).           (* [self._timestamps[name] = z] *)

Section Threads.
Variable fs : nat -> str -> option (Z * str).
Variable compile : kind -> kwargs -> str -> option string.

(** One step. *)
Definition step (p : prog) (s : state) : prog * state :=
  match p with
  | Return r => (p, s)
  | Exists fn k => (k (match fs (clock s) fn with Some _ => true | None => false end), tick s)
  | Stat None k => (Return (Raise "TypeError"), s)
  | Stat (Some fn) k =>
      match fs (clock s) fn with
      | Some (mtime, _) => (k mtime, tick s)
      | None => (Return (Raise "FileNotFoundError"), tick s)
      end
  | Read fn k =>
      match fs (clock s) fn with
      | Some (_, contents) => (k (S (clock s)) contents, tick s)
      | None => (Return (Raise "FileNotFoundError"), tick s)
      end
  | Cached name k => (k (lookup name (modules s)), s)
  | Forget name k =>
      match lookup name (modules s) with
      | Some _ => (k, del_module name s)
      | None => (Return (Raise "KeyError"), s)
      end
  | Keep name t k => (k, set_module name t s)
  | Stamp name k => (k (match lookup name (timestamps s) with Some z => z | None => 0%Z end), s)
  | SetStamp name z k => (k, set_timestamp name z s)
  end.

(** loader.py:65-70 [FileLoader._filename]. *)
Fixpoint filename_steps (path : list str) (name : str) (k : option str -> prog) : prog :=
  match path with
  | [] => k None
  | base :: path' =>
      Exists (path_join base name) (fun e => if e then k (Some (path_join base name)) else filename_steps path' name k)
  end.

(** text.py:53-65, xml_template.py:30-60: bind the arguments, read, compile. *)
Definition build_steps (kd : kind) (given options : kwargs) (filename : str) (k : template -> prog) : prog :=
  match bind_kwargs kd given options with
  | Raise e => Return (Raise e)
  | Ok args =>
      Read filename (fun id contents =>
        match compile kd args contents with
        | Some e => Return (Raise e)
        | None => k (Template id kd args contents)
        end)
  end.

(** loader.py:58-63 and 101-104. *)
Definition extension_steps (cfg : config) (filename : str) (options : kwargs) (k : template -> prog) : prog :=
  let ext := skipn 1 (snd (splitext filename)) in
  let file := [(L "source", ONone); (L "filename", OStr filename)] in
  if seqb ext (L "txt")
  then build_steps Text ((L "autoescape", c_autoescape_text cfg) :: file) options filename k
  else if seqb ext (L "xml") then build_steps Xml file options filename k
  else if seqb ext (L "html")
  then build_steps Xml ((L "mode", OStr (L "html")) :: file) options filename k
  else if seqb ext (L "html5")
  then build_steps Xml ((L "mode", OStr (L "html5")) :: file) options filename k
  else Return (Raise "KeyError").

(** loader.py:92-104: by the mode of the loader, or by the extension. *)
Definition mode_steps (cfg : config) (filename : str) (options : kwargs) (k : template -> prog) : prog :=
  match c_force_mode cfg with
  | Some (c :: mode) =>
      if seqb (c :: mode) (L "text")
      then build_steps Text [(L "filename", OStr filename); (L "autoescape", c_autoescape_text cfg)]
             options filename k
      else build_steps Xml [(L "filename", OStr filename); (L "mode", OStr (c :: mode));
                            (L "autoblocks", c_xml_autoblocks cfg)] options filename k
  | _ => extension_steps cfg filename options k
  end.

(** loader.py:80-104 [FileLoader._load]. *)
Definition load_steps (cfg : config) (name : str) (kw : kwargs) (k : template -> prog) : prog :=
  let options := kw_update (c_template_options cfg) (kw_del (L "encoding") kw) in
  filename_steps (c_path cfg) name (fun fn =>
  match fn with
  | None => Return (Raise "OSError")
  | Some filename =>
      Stat (Some filename) (fun mtime => SetStamp name mtime (mode_steps cfg filename options k))
  end).

(** loader.py:14-24 [Loader.import_]; [do_load] is [_load].  (The template's attribute [loader] is not
    modelled.) *)
Definition base_steps (do_load : (template -> prog) -> prog) (name : str) : prog :=
  Cached name (fun o =>
  match o with
  | Some t => Return (Ok t)
  | None => do_load (fun t => Keep name t (Return (Ok t)))
  end).

(** loader.py:74-77 and pyramid.py:85-88. *)
Definition expire_steps (reload : bool) (name : str) (filename : option str) (k : prog) : prog :=
  if reload then
    Cached name (fun o =>
    match o with
    | None => k
    | Some _ =>
        Stat filename (fun mtime =>
        Stamp name (fun old => if (old <? mtime)%Z then Forget name k else k))
    end)
  else k.

(** loader.py:72-78 [FileLoader.import_]. *)
Definition import_steps (cfg : config) (name : str) (kw : kwargs) : prog :=
  filename_steps (c_path cfg) name (fun filename =>
  expire_steps (c_reload cfg) name filename (base_steps (load_steps cfg name kw) name)).

(** pyramid.py:61-89 [PyramidKajikiLoader.import_]. *)
Definition pyramid_steps (auto_reload : bool) (mode : opt) (abspath : str -> str) (name : str) (kw : kwargs) : prog :=
  let name := abspath name in
  expire_steps auto_reload name (Some name)
    (base_steps (build_steps Xml [(L "source", ONone); (L "filename", OStr name); (L "mode", mode)] kw name) name).

(** ** Threads

    A call: what was asked for, when it began (how many accesses had been made to the file system), what it does
    next. *)
Record call := Call { call_name : str; call_kw : kwargs; call_start : nat; call_prog : prog }.
Record system := System { calls : list call; loader : state }.

Inductive event : Type :=
| Begin (name : str) (kw : kwargs)           (* some thread calls [import_] *)
| Go (i : nat).                              (* the i-th call makes a step *)

Fixpoint replace_nth {A} (i : nat) (x : A) (l : list A) : list A :=
  match l, i with
  | [], _ => []
  | _ :: l', O => x :: l'
  | y :: l', S i' => y :: replace_nth i' x l'
  end.

Variable import_ : str -> kwargs -> prog.

Definition advance (y : system) (e : event) : system :=
  match e with
  | Begin name kw => System (calls y ++ [Call name kw (clock (loader y)) (import_ name kw)]) (loader y)
  | Go i =>
      match nth_error (calls y) i with
      | None => y
      | Some c =>
          let (p, s) := step (call_prog c) (loader y) in
          System (replace_nth i (Call (call_name c) (call_kw c) (call_start c) p) (calls y)) s
      end
  end.
(** A schedule: which thread runs when. *)
Definition schedule (l : list event) (y : system) : system := fold_left advance l y.
End Threads.
