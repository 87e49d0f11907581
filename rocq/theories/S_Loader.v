(** * What loaders should do *)

From Coq Require Import Ascii String List NArith ZArith Bool Permutation.
From Verif Require Import PyStr M_Loader.
Import ListNotations.
Open Scope list_scope.

(** A history: imports one after the other (whatever their outcome). *)
Definition request : Type := (str * kwargs)%type.
Definition after (import_ : str -> kwargs -> io template) (history : list request) (s : state) : state :=
  fold_left (fun s q => snd (import_ (fst q) (snd q) s)) history s.

(** A new loader, created when the process has made [n] accesses to the file system. *)
Definition new_loader (n : nat) : state := State [] [] n.

(** The files a name may stand for. *)
Definition candidate (path : list str) (name fn : str) : Prop :=
  exists base, In base path /\ fn = path_join base name.

(** Modification times tell versions apart: between two accesses to files of the set (the
    same or not), the mtime does not decrease, and it increases if the contents differ. *)
Definition mtimes_tell (fs : nat -> str -> option (Z * str)) (files : str -> Prop) : Prop :=
  forall i j f g m c m' c',
    i <= j -> files f -> files g -> fs i f = Some (m, c) -> fs j g = Some (m', c') ->
    (m <= m')%Z /\ (c <> c' -> m < m')%Z.

(** The files do not change from the n-th access on. *)
Definition quiet_from (fs : nat -> str -> option (Z * str)) (n : nat)
    (now : str -> option (Z * str)) : Prop :=
  forall i f, n <= i -> fs i f = now f.

(** The first file of the path that exists. *)
Inductive found_in (now : str -> option (Z * str)) (name : str) : list str -> option str -> Prop :=
| found_none : found_in now name [] None
| found_here base path : now (path_join base name) <> None ->
    found_in now name (base :: path) (Some (path_join base name))
| found_later base path r : now (path_join base name) = None ->
    found_in now name path r -> found_in now name (base :: path) r.

(** What the file names a package lists mean: a file is a version of a template if its
    name is the template's plus an extension. *)
Definition extensions : list str := [L ".xml"; L ".html"; L ".html5"; L ".txt"].
Definition picks (listing : list str) (module fn : str) : Prop :=
  exists before ext rest,
    extensions = before ++ ext :: rest /\ fn = module ++ ext /\ In fn listing /\
    (forall e, In e before -> ~ In (module ++ e) listing).

(** The kind of template and the keyword arguments the loader chooses for a file: by
    the mode forced for the loader, else by the extension. *)
Definition choice (cfg : config) (fn : str) : option (kind * kwargs) :=
  let file := [(L "source", ONone); (L "filename", OStr fn)] in
  match c_force_mode cfg with
  | Some (c :: mode) =>
      if seqb (c :: mode) (L "text")
      then Some (Text, [(L "filename", OStr fn); (L "autoescape", c_autoescape_text cfg)])
      else Some (Xml, [(L "filename", OStr fn); (L "mode", OStr (c :: mode));
                       (L "autoblocks", c_xml_autoblocks cfg)])
  | _ =>
      let ext := skipn 1 (snd (splitext fn)) in
      if seqb ext (L "txt") then Some (Text, (L "autoescape", c_autoescape_text cfg) :: file)
      else if seqb ext (L "xml") then Some (Xml, file)
      else if seqb ext (L "html") then Some (Xml, (L "mode", OStr (L "html")) :: file)
      else if seqb ext (L "html5") then Some (Xml, (L "mode", OStr (L "html5")) :: file)
      else None
  end.

(** The options given to the loader, overridden by those given to the import, without
    [encoding], which is not passed on. *)
Definition options_of (cfg : config) (kw : kwargs) : kwargs :=
  kw_update (c_template_options cfg) (kw_del (L "encoding") kw).

(** Building a template of these contents. *)
Definition built (compile : kind -> kwargs -> str -> option string) (cfg : config) (fn : str)
    (kw : kwargs) (contents : str) (id : nat) : result template :=
  match choice cfg fn with
  | None => Raise "KeyError"
  | Some (k, given) =>
      rbind (bind_kwargs k given (options_of cfg kw)) (fun args =>
        match compile k args contents with
        | Some e => Raise e
        | None => Ok (Template id k args contents)
        end)
  end.

(** When a call accepts its keyword arguments. *)
Definition accepted (k : kind) (given options : kwargs) : Prop :=
  (forall x, In x (map fst given) -> ~ In x (map fst options)) /\
  (forall x, In x (map fst given ++ map fst options) -> In x (parameters k)).
