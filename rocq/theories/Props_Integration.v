(** * Properties of the integration with web frameworks (C72 - C74) *)

From Coq Require Import Ascii String List NArith ZArith Bool Lia Arith.
From Verif Require Import PyStr PyStrLemmas M_Loader S_Loader P_Loader P_Loader2 M_Integration S_Integration P_Integration.
Import ListNotations.
Open Scope list_scope.
Open Scope nat_scope.

(** ** C72: responses of Pyramid

    [fs] is any history of the file system, [pv] any values, [render] anything that templates may do. *)

(** With reloading, after whatever has been served, a response is the rendering of the template asked for, compiled
    during this call from what was in its file, in the mode of the application and as a fragment or not as was
    asked for, with the variables of the view before those of the framework. *)
Theorem C72_response : forall fs compile mode abspath V pv render n history value system frag text system' s',
  (forall k f m c, fs k f = Some (m, c) -> (0 < m)%Z) -> NoDup (map fst system) ->
  let import_ := pyramid_import fs compile true mode abspath in
  let s := after_serving V pv import_ render history (new_loader n) in
  respond V pv import_ render value system frag s = (Ok text, system', s') ->
  exists v name k m contents items s1,
    asked V pv system v /\ as_string V pv v = Ok name /\
    clock s <= k < clock s' /\ fs k (abspath name) = Some (m, contents) /\
    items_of V pv value = (items, None) /\ has_variables V system items system' /\
    run_rendering import_ (render (pyramid_code mode (abspath name) [(L "is_fragment", OBool frag)] contents) system') s1 = (Ok text, s').
Proof.
  intros fs compile mode abspath V pv render n history value system frag text system' s' Pos ND import_ s E. unfold respond in E.
  destruct (template_name V pv system) as [v|] eqn:Et; [|discriminate]. cbn [rbind] in E. destruct (as_string V pv v) as [name|] eqn:Ea; [|discriminate].
  destruct (import_ name [(L "is_fragment", OBool frag)] s) as [[t|] s1] eqn:Ei; [|discriminate].
  destruct (items_of V pv value) as [items [e|]] eqn:Ev; [discriminate|].
  destruct (run_rendering import_ (render (code_of t) (dupdate V system items)) s1) as [r s2] eqn:Er. injection E as -> <- <-.
  pose proof (run_keeps fs compile mode abspath true (render (code_of t) (dupdate V system items)) s1) as [_ C2]. unfold import_ in Er. rewrite Er in C2. cbn [snd] in C2.
  assert (T : timestamps s = []) by (unfold s, import_; now rewrite (proj1 (serving_keeps fs compile mode abspath V pv render true history (new_loader n)))).
  unfold import_ in Ei. destruct (pyramid_fresh fs compile mode abspath name _ s t s1 Pos T Ei) as (j & m & Hj & Hf & Hc).
  apply asked_name in Et; [|exact ND]. exists v, name, j, m, (t_contents t), items, s1.
  split; [exact Et|]. split; [exact Ea|]. split; [lia|]. split; [exact Hf|]. split; [first [exact Ev|reflexivity]|]. split; [now apply update_variables|]. now rewrite <- Hc.
Qed.
Print Assumptions C72_response.

(** If the files do not change, a response does not depend on what has been served before. *)
Theorem C72_history : forall fs compile mode abspath V pv render n history now value system frag v name,
  quiet_from fs n now -> (forall f m c, now f = Some (m, c) -> (0 < m)%Z) -> NoDup (map fst system) ->
  asked V pv system v -> as_string V pv v = Ok name ->
  let import_ := pyramid_import fs compile true mode abspath in
  let s := after_serving V pv import_ render history (new_loader n) in
  let answer := fun name kw => pyramid_answer compile mode now (abspath name) kw in
  let response := fst (fst (respond V pv import_ render value system frag s)) in
  match answer name [(L "is_fragment", OBool frag)] with
  | Raise e => response = Raise e
  | Ok c =>
      match items_of V pv value with
      | (_, Some e) => response = Raise (if String.eqb e "TypeError" then "ValueError" else e)
      | (items, None) => exists variables, has_variables V system items variables /\ comes_to answer (render c variables) response
      end
  end.
Proof.
  intros fs compile mode abspath V pv render n history now value system frag v name Q Pos ND As Ea import_ s answer response.
  assert (TC : timestamps s = [] /\ n <= clock s) by (unfold s, import_; pose proof (serving_keeps fs compile mode abspath V pv render true history (new_loader n)) as [T C]; split; [exact T|exact C]).
  destruct TC as [T C]. apply asked_name in As; [|exact ND].
  assert (Qs : quiet_from fs (clock s) now) by (intros i f Hi; apply Q; lia).
  assert (A : rmap code_of (fst (import_ name [(L "is_fragment", OBool frag)] s)) = answer name [(L "is_fragment", OBool frag)])
    by (apply pyramid_quiet; auto; right; now exists frag).
  rewrite <- A. unfold response, respond. rewrite As. cbn [rbind]. rewrite Ea.
  destruct (import_ name [(L "is_fragment", OBool frag)] s) as [[t|e] s1] eqn:Ei; cbn [fst rmap rbind]; [|reflexivity].
  apply pyramid_inv in Ei as (T1 & C1 & _). destruct (items_of V pv value) as [items [e|]].
  - cbn [fst]. unfold not_a_dictionary. destruct (String.eqb_spec e "TypeError"); [reflexivity|]. destruct (String.eqb_spec e "ValueError"); [|reflexivity]. now subst.
  - exists (dupdate V system items). split; [now apply update_variables|].
    pose proof (run_quiet fs compile mode abspath now (render (code_of t) (dupdate V system items)) s1) as R.
    unfold import_. destruct (run_rendering _ _ s1) as [r s2]. cbn [fst] in *. apply R; [intros i f Hi; apply Q; lia|exact Pos|congruence].
Qed.
Print Assumptions C72_history.
(** A rendering comes to one result. *)
Theorem C72_one_result : forall answer r x y, comes_to answer r x -> comes_to answer r y -> x = y.
Proof. intros answer r x y Hx Hy. exact (comes_unique answer r x Hx y Hy). Qed.
Print Assumptions C72_one_result.

(** Without a template's name, nothing is loaded. *)
Theorem C72_no_name : forall import_ V pv render value system frag s, NoDup (map fst system) ->
  (forall v, asked V pv system v -> exists e, as_string V pv v = Raise e) ->
  exists e, respond V pv import_ render value system frag s = (Raise e, system, s).
Proof.
  intros import_ V pv render value system frag s ND H. unfold respond. destruct (template_name V pv system) as [v|e] eqn:Et; cbn [rbind]; [|now exists e].
  apply asked_name in Et; [|exact ND]. destruct (H v Et) as [e ->]. now exists e.
Qed.
Print Assumptions C72_no_name.
(** If neither a name nor an object that has it is given, that is a KeyError; if the object has none, its error. *)
Theorem C72_missing : forall import_ V pv render value system frag s, NoDup (map fst system) ->
  (forall w, In (L "renderer_name", w) system -> truthy V pv w = false) ->
  (~ In (L "renderer_info") (map fst system) -> respond V pv import_ render value system frag s = (Raise "KeyError", system, s)) /\
  (forall i e, In (L "renderer_info", i) system -> name_attr V pv i = Raise e -> respond V pv import_ render value system frag s = (Raise e, system, s)).
Proof.
  intros import_ V pv render value system frag s ND H.
  assert (T : template_name V pv system = match dget V (L "renderer_info") system with Some i => name_attr V pv i | None => Raise "KeyError" end).
  { unfold template_name. destruct (dget V (L "renderer_name") system) as [v|] eqn:G; [|reflexivity]. apply dget_in in G. now rewrite (H v G). }
  unfold respond. rewrite T. split.
  - intros N. destruct (dget V (L "renderer_info") system) as [i|] eqn:G; [|reflexivity]. apply dget_in in G. destruct N. exact (in_map fst _ _ G).
  - intros i e I1 E. apply in_dget in I1; [|exact ND]. rewrite I1, E. reflexivity.
Qed.
Print Assumptions C72_missing.
(** The dictionary of the caller is changed as soon as the template is loaded: it then has the variables of the
    view, those before the error if the value is refused. *)
Theorem C72_caller : forall import_ V pv render value system frag s r system' s', NoDup (map fst system) ->
  respond V pv import_ render value system frag s = (r, system', s') ->
  system' = system \/ has_variables V system (fst (items_of V pv value)) system'.
Proof.
  intros import_ V pv render value system frag s r system' s' ND E. unfold respond in E. destruct (rbind _ _) as [name|]; [|left; congruence].
  destruct (import_ name _ s) as [[t|] s1]; [|left; congruence]. destruct (items_of V pv value) as [items [e|]]; cbn [fst].
  - right. assert (system' = dupdate V system items) as -> by congruence. now apply update_variables.
  - destruct (run_rendering _ _ _) as [r0 s2]. right. assert (system' = dupdate V system items) as -> by congruence. now apply update_variables.
Qed.
Print Assumptions C72_caller.
(** [fragment] is a response as a fragment, for the request given or the view's. *)
Theorem C72_fragment : forall import_ V pv render name dic view request s,
  fragment V pv import_ render name dic view request s =
  match (if truthy V pv request then Ok request else request_attr V pv view) with
  | Ok rq => let r := respond V pv import_ render dic [(L "renderer_name", name); (L "request", rq); (L "view", view); (L "context", dic)] true s in (fst (fst r), snd r)
  | Raise e => (Raise e, s)
  end.
Proof. intros. unfold fragment. destruct (if truthy V pv request then Ok request else request_attr V pv view); [|reflexivity]. now destruct (respond _ _ _ _ _ _ _ _) as [[r d] s']. Qed.
Print Assumptions C72_fragment.

(** Without reloading, the template first compiled for a file serves all later responses, whatever was asked for. *)
Theorem C72_first_stays : forall fs compile mode abspath V pv render kw name s t s1 history value system frag v name',
  let import_ := pyramid_import fs compile false mode abspath in
  import_ name kw s = (Ok t, s1) -> NoDup (map fst system) ->
  asked V pv system v -> as_string V pv v = Ok name' -> abspath name' = abspath name ->
  let s2 := after_serving V pv import_ render history s1 in
  respond V pv import_ render value system frag s2 =
  match items_of V pv value with
  | (items, Some e) => (Raise (if not_a_dictionary e then "ValueError" else e), dupdate V system items, s2)
  | (items, None) => let (r, s3) := run_rendering import_ (render (code_of t) (dupdate V system items)) s2 in (r, dupdate V system items, s3)
  end.
Proof.
  intros fs compile mode abspath V pv render kw name s t s1 history value system frag v name' import_ E ND As Ea Eq s2.
  apply asked_name in As; [|exact ND]. unfold respond. rewrite As. cbn [rbind]. rewrite Ea.
  unfold import_ in E. apply pyramid_inv in E as (_ & _ & _ & R). destruct (R t eq_refl) as (Hl & _).
  assert (Hl2 : lookup (abspath name') (modules s2) = Some t) by (rewrite Eq; now apply serving_stays).
  unfold import_ at 1. unfold pyramid_import, bind, expire, base_import. rewrite Hl2. now destruct (items_of V pv value) as [items [e|]].
Qed.
Print Assumptions C72_first_stays.

(** *** Examples *)
(** Values: strings, dictionaries, and objects with a name or a request. *)
Inductive xvalue : Type := XNone | XStr (s : str) | XDict (l : list (str * xvalue)) | XInfo (name : str) | XView (request : xvalue).
Definition xpv : python_values xvalue := PyValues xvalue XNone
  (fun v => match v with XNone | XStr [] | XDict [] => false | _ => true end)
  (fun v => match v with XInfo n => Ok (XStr n) | _ => Raise "AttributeError" end)
  (fun v => match v with XView r => Ok r | _ => Raise "AttributeError" end)
  (fun v => match v with XStr s => Ok s | _ => Raise "TypeError" end)
  (fun v => match v with XDict l => (l, None) | XNone => ([], Some "TypeError"%string) | _ => ([], Some "ValueError"%string) end).
(** A template whose text is shown with the doctype (unless it is a fragment) and the value of [x]. *)
Definition xrender (c : code) (d : dict xvalue) : rendering :=
  let doctype := match kw_get (L "is_fragment") (snd (fst c)) with Some (OBool true) => [] | _ => L "<!DOCTYPE html>" end in
  Ends (Ok (doctype ++ snd c ++ match dget xvalue (L "x") d with Some (XStr s) => s | _ => [] end)).
Definition xfs (k : nat) (f : str) : option (Z * str) := if seqb f (L "/a") then Some (5%Z, if Nat.ltb k 3 then L "old " else L "new ") else None.
Definition ximport (auto : bool) := pyramid_import xfs (fun _ _ _ => None) auto (OStr (L "html5")) (fun n => L "/" ++ n).
Definition xsystem : dict xvalue := [(L "renderer_info", XInfo (L "a")); (L "x", XStr (L "1")); (L "y", XStr (L "2"))].
Example C72_example :
  (forall k f m c, xfs k f = Some (m, c) -> (0 < m)%Z) /\ NoDup (map fst xsystem) /\
  asked xvalue xpv xsystem (XStr (L "a")) /\
  (let '(r, d, s) := respond xvalue xpv (ximport true) xrender (XDict [(L "x", XStr (L "3"))]) xsystem false (new_loader 0) in
   r = Ok (L "<!DOCTYPE html>old 3") /\ dget xvalue (L "x") d = Some (XStr (L "3")) /\ dget xvalue (L "y") d = Some (XStr (L "2")) /\
   fst (fst (respond xvalue xpv (ximport true) xrender (XDict []) xsystem false s)) = Ok (L "<!DOCTYPE html>old 1") /\
   fst (fst (respond xvalue xpv (ximport true) xrender (XDict []) xsystem true (tick (tick s)))) = Ok (L "new 1")) /\
  fst (fst (respond xvalue xpv (ximport true) xrender XNone xsystem false (new_loader 0))) = Raise "ValueError" /\
  fst (fragment xvalue xpv (ximport true) xrender (XStr (L "a")) (XDict []) XNone XNone (new_loader 0)) = Raise "AttributeError" /\
  quiet_from xfs 3 (fun f => if seqb f (L "/a") then Some (5%Z, L "new ") else None).
Proof.
  split.
  { intros k f m c. unfold xfs. destruct (seqb f (L "/a")); [|discriminate]. intros E. assert (m = 5%Z) by congruence. lia. }
  split; [cbn [xsystem map fst]; repeat constructor; cbn [In]; intuition discriminate|].
  split; [apply (as_info xvalue xpv xsystem (XStr (L "a")) (XInfo (L "a"))); [intros w [E|[E|[E|[]]]]; discriminate|now left|reflexivity]|].
  split; [vm_compute; repeat split|]. split; [reflexivity|]. split; [reflexivity|].
  intros i f Hi. unfold xfs. assert (Nat.ltb i 3 = false) as -> by (apply Nat.ltb_ge; lia). reflexivity.
Qed.
(** A page that was first shown as a fragment has no doctype any more, as long as templates are not reloaded. *)
Theorem C72_fragment_refuted : exists s1 r1 r2,
  fragment xvalue xpv (ximport false) xrender (XStr (L "a")) (XDict []) (XView (XStr (L "r"))) XNone (new_loader 0) = (Ok r1, s1) /\
  fst (fst (respond xvalue xpv (ximport false) xrender (XDict []) xsystem false s1)) = Ok r2 /\
  r2 <> L "<!DOCTYPE html>old 1" /\
  fst (fst (respond xvalue xpv (ximport false) xrender (XDict []) xsystem false (new_loader 0))) = Ok (L "<!DOCTYPE html>old 1").
Proof. do 3 eexists. split; [vm_compute; reflexivity|]. split; [vm_compute; reflexivity|]. split; [vm_compute; discriminate|vm_compute; reflexivity]. Qed.
Print Assumptions C72_fragment_refuted.

(** ** C73: including the integration in an application *)

(** Including it a second time changes nothing. *)
Theorem C73_once : forall asbool settings a a', includeme asbool settings a = (Ok tt, a') ->
  forall asbool' settings', includeme asbool' settings' a' = (Ok tt, a').
Proof.
  intros asbool settings a a' E asbool' settings'. unfold includeme in *. destruct (a_loader a) eqn:El.
  - injection E as <-. now rewrite El.
  - destruct (asbool _); [|discriminate]. injection E as <-. reflexivity.
Qed.
Print Assumptions C73_once.
(** The first time, every extension of the settings gets the one loader of the application. *)
Theorem C73_settings : forall asbool settings r l a', includeme asbool settings (App r None) = (l, a') ->
  exists extensions, words_of (match lookup (L "kajiki.extensions") settings with Some x => x | None => L ".kajiki" end) extensions /\
    a_renderers a' = r ++ extensions /\
    match asbool (lookup (L "pyramid.reload_templates") settings) with
    | Ok reload => l = Ok tt /\
        renderer_factory a' = Ok (reload, match lookup (L "kajiki.mode") settings with Some m => m | None => L "html5" end)
    | Raise e => l = Raise e /\ renderer_factory a' = Raise "AttributeError"
    end.
Proof.
  intros asbool settings r l a' E. unfold includeme in E. cbn [a_loader a_renderers] in E. eexists. split; [apply words_exact; reflexivity|].
  destruct (asbool _) as [b|e]; injection E as <- <-; (split; [reflexivity|]); now split.
Qed.
Print Assumptions C73_settings.
Example C73_example :
  includeme (fun x => Ok (match x with Some _ => true | None => false end)) [(L "kajiki.extensions", L " .pt  .kajiki ")] (App [] None) =
    (Ok tt, App [L ".pt"; L ".kajiki"] (Some (false, L "html5"))).
Proof. vm_compute. reflexivity. Qed.
(** A failure leaves the renderers registered, and including again registers them again. *)
Theorem C73_failure_refuted : exists asbool settings a1 a2, includeme asbool settings (App [] None) = (Raise "ValueError", a1) /\
  includeme (fun _ => Ok true) settings a1 = (Ok tt, a2) /\ a_renderers a2 = [L ".kajiki"; L ".kajiki"].
Proof. exists (fun _ => Raise "ValueError"), []. do 2 eexists. split; [reflexivity|]. split; reflexivity. Qed.
Print Assumptions C73_failure_refuted.

(** ** C74: TurboGears *)

(** With Python 2: a template given by name or as itself is shown with the variables of the plugin before those of
    the caller, whose dictionary is changed. *)
Theorem C74_render_partial : forall V load from_string items render info t s, NoDup (map fst info) ->
  match (match t with ByName n => load n | Itself c => ret c end) s with
  | (Raise e, s1) => turbogears_render V load from_string true (Some (Ok items)) render info t s = (Raise e, info, s1)
  | (Ok c, s1) => exists variables, has_variables V info items variables /\
      turbogears_render V load from_string true (Some (Ok items)) render info t s = (fst (render c variables s1), variables, snd (render c variables s1))
  end.
Proof.
  intros V load from_string items render info t s ND. unfold turbogears_render. cbn [negb]. unfold load_template.
  destruct ((match t with ByName n => load n | Itself c => ret c end) s) as [[c|e] s1]; [|reflexivity].
  exists (dupdate V info items). split; [now apply update_variables|]. now destruct (render c (dupdate V info items) s1).
Qed.
Print Assumptions C74_render_partial.
(** With Python 3, nothing is ever shown. *)
Theorem C74_python3_refuted : forall V load from_string extra render info t s,
  turbogears_render V load from_string false extra render info t s = (Raise "NameError", info, s).
Proof. reflexivity. Qed.
Print Assumptions C74_python3_refuted.
(** Created as its defaults say, without a function for variables, the plugin shows nothing either. *)
Theorem C74_default_refuted : forall V load from_string render info t s,
  exists e, fst (fst (turbogears_render V load from_string true None render info t s)) = Raise e.
Proof.
  intros. unfold turbogears_render. cbn [negb]. unfold load_template. destruct ((match t with ByName n => load n | Itself c => ret c end) s) as [[c|e] s1]; [|now exists e].
  now exists "TypeError"%string.
Qed.
Print Assumptions C74_default_refuted.
(** The loader: reloading unless told otherwise, a class taken from a module by its dotted name. *)
Theorem C74_loader_class : forall A (get : str -> str -> result A) name,
  match import_loader get name with
  | Ok x => exists m c, name = m ++ c_dot :: c /\ ~ In c_dot c /\ get m c = Ok x
  | Raise e => e = "ConfigurationError"%string /\ forall m c x, name = m ++ c_dot :: c -> ~ In c_dot c -> get m c <> Ok x
  end.
Proof.
  intros A get name. unfold import_loader.
  assert (R : forall m c, rsplit_dot name = Some (m, c) <-> name = m ++ c_dot :: c /\ ~ In c_dot c) by (intros; apply rsplit_exact).
  destruct (rsplit_dot name) as [[m c]|] eqn:E.
  - destruct (proj1 (R m c) eq_refl) as [En Nc]. destruct (get m c) as [x|e] eqn:Eg; [now exists m, c|]. split; [reflexivity|].
    intros m' c' x En' Nc'. assert (Q : Some (m, c) = Some (m', c')) by now apply R. injection Q as <- <-. congruence.
  - split; [reflexivity|]. intros m c x En Nc. exfalso. assert (Q : None = Some (m, c)) by now apply R. discriminate.
Qed.
Print Assumptions C74_loader_class.
(** The options the loader gets: those of the application under their own names, and where it gives none,
    reloading and the mode by the name of the file. *)
Theorem C74_options : forall engine, NoDup (map fst engine) ->
  map fst (plugin_options engine) = [L "reload"; L "force_mode"] /\
  (forall v, In (L "kajiki.reload", v) engine -> In (L "reload", v) (plugin_options engine)) /\
  (~ In (L "kajiki.reload") (map fst engine) -> In (L "reload", OBool true) (plugin_options engine)) /\
  (forall v, In (L "kajiki.force_mode", v) engine -> In (L "force_mode", v) (plugin_options engine)) /\
  (~ In (L "kajiki.force_mode") (map fst engine) -> In (L "force_mode", ONone) (plugin_options engine)).
Proof.
  intros engine Nd.
  assert (S1 : forall (k : str) (v : opt), In (k, v) engine -> lookup k engine = Some v).
  { intros k v. induction engine as [|[k' v'] e IH]; intros I1; [destruct I1|]. cbn [lookup]. apply NoDup_cons_iff in Nd as [Nk Nd].
    destruct I1 as [E|I1]; [injection E as -> ->; now rewrite seqb_refl|].
    destruct (seqb_spec k k') as [->|_]; [destruct Nk; apply in_map_iff; now exists (k', v)|now apply IH]. }
  assert (N1 : forall k, ~ In k (map fst engine) -> lookup k engine = None).
  { intros k. clear S1 Nd. induction engine as [|[k' v'] e IH]; intros N; [reflexivity|]. cbn [lookup map fst] in *.
    destruct (seqb_spec k k') as [->|_]; [destruct N; now left|apply IH; intros I1; apply N; now right]. }
  unfold plugin_options. split; [reflexivity|]. split; [|split; [|split]].
  - intros v I1. rewrite (S1 _ _ I1). now left.
  - intros I1. rewrite (N1 _ I1). now left.
  - intros v I1. rewrite (S1 _ _ I1). right. now left.
  - intros I1. rewrite (N1 _ I1). right. now left.
Qed.
Print Assumptions C74_options.
Example C74_options_example : plugin_options [(L "kajiki.force_mode", OStr (L "html"))] = [(L "reload", OBool true); (L "force_mode", OStr (L "html"))].
Proof. reflexivity. Qed.
Example C74_example :
  fst (fst (turbogears_render str (fun n => ret (Xml, [], n)) (fun _ => Raise "not used") true (Some (Ok [(L "x", L "2")]))
    (fun c d => ret (snd c ++ match dget str (L "x") d with Some v => v | None => [] end)) [(L "x", L "1")] (ByName (L "page ")) (new_loader 0))) = Ok (L "page 2") /\
  import_loader (fun m c => if seqb m (L "kajiki.loader") then Ok c else Raise "ImportError") (L "kajiki.loader.FileLoader") = Ok (L "FileLoader") /\
  import_loader (fun m c => Ok c) (L "FileLoader") = Raise "ConfigurationError".
Proof. vm_compute. repeat split. Qed.
