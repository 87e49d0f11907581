(** * Start and end tags of whole templates: theorems C43 *)

From Coq Require Import Ascii String List NArith ZArith Bool Lia Arith.
From Verif Require S_Exec P_XText.
From Verif Require Import PyStr PyStrLemmas M_Values S_Values M_IR M_Template M_Text M_XText S_XText M_Entities S_Entities M_Doctype M_Dom M_XCompile
  S_XDoc S_XFun P_XFun M_Run S_Run M_XRun S_XRun P_XRun4 S_Markup P_Markup S_Nested P_Nested S_NestRun P_NestRun P_NestRun5 Props_Run Props_XText Props_XDoc Props_XRun Props_Markup Props_Script.
Import ListNotations.
Open Scope list_scope.

(** ** C43: start and end tags are properly nested

    For whole templates with functions, calls, py:call, blocks, inheritance of any depth, inclusion, imports and embedded
    Python, from any loader: what is rendered is a doctype, or none, and then text in which start and end tags are properly
    nested.  The values of the context are shown as text or are properly nested themselves, expressions keep to this, embedded Python
    yields properly nested text, py:call calls functions of templates (it is false otherwise: [C43_call_refuted]).  Script and
    style elements and CDATA sections hold texts and expressions whose values are shown as text, see C78.
    Partial: [py:strip] with a condition that changes while the template runs ([C30_rebound_refuted]), the functions [literal] and
    [Markup], and the inclusion of templates that extend others (a doctype is shown where they are included) are left out. *)
Theorem C43_whole_partial : forall expat compile exec_module gen py html function_name constant sources depth x context out,
  generated_names py gen -> (forall l, object_names (exec_module l)) ->
  (forall fragment name x, sources fragment name = Ok x -> a_source expat compile gen py x) ->
  a_source expat compile gen py x -> object_names context ->
  gentle_python py html function_name -> fixed_names function_name constant context ->
  safe_objects html function_name context -> (forall l, safe_objects html function_name (exec_module l)) ->
  (forall fragment name x, sources fragment name = Ok x -> ordinary_source expat compile gen py html function_name constant fragment x) ->
  ordinary_source expat compile gen py html function_name constant false x ->
  rbind (xml_file expat compile exec_module x) (fun f =>
    run_file py (fun fragment name => rbind (sources fragment name) (xml_file expat compile exec_module)) depth f context) = Ok out ->
  exists line s is, out = line ++ s /\ (line = [] \/ exists mode dtd, doctype_line mode dtd line) /\
    written html is s /\ read html s = Some is /\ balanced is.
Proof.
  intros expat compile exec_module gen py html F const sources depth x context out Hg Hm Hs Hx Hc G Fn Sc Sm Os Ox E.
  destruct (sources_nested expat compile exec_module gen py html F const Sm sources depth x context out Hg Hm Hs Hx Hc G Fn Sc Os Ox E) as (line & s & El & Al & is & W).
  exists line, s, is. split; [exact El|]. split; [exact Al|]. split; [exact W|]. split; [now apply read_written|now apply (C43_balanced html is s)].
Qed.
Print Assumptions C43_whole_partial.

(** The page of [C61_whole_example]: a block that is overridden, a function that is called with a body. *)
Definition npages (fragment : bool) (name : str) : result xml_source := if fragment then Raise "OSError" else xsources fragment name.
Definition ncontext : list (str * M_Values.value) := [(L "x", VStr (L "a<"))].
Definition nconstant (k : str) : option M_Values.value := if seqb k (L "x") then Some (VStr (L "a<")) else None.
Definition nfunction (k : str) : Prop := k = L "twice".
Lemma safe_str : forall html s, safe html (VStr s).
Proof. intros html s. apply C43_plain. right. exact Logic.I. Qed.
Lemma demo_gentle : gentle_python demo false nfunction.
Proof.
  constructor; cbn [demo iterate unpack attrs_of call_object call_method value_attr builtin_value gettext]; try discriminate.
  - intros v l _ E. destruct v; try discriminate. injection E as <-. apply Forall_map. apply Forall_forall. intros c _. apply safe_str.
  - intros v l _ E. injection E as <-. constructor.
  - intros s. apply safe_str.
  - intros t v W. exists (v ++ L "!"). rewrite render_str. apply written_text_app; [exact W|]. apply (written_escape (L "!")).
Qed.
Lemma nfixed : fixed_names nfunction nconstant ncontext.
Proof.
  split.
  - intros k ->. vm_compute. intuition discriminate.
  - intros k v E. unfold nconstant in E. destruct (seqb_spec k (L "x")) as [->|]; [|discriminate]. injection E as <-. split; [vm_compute; intuition discriminate|reflexivity].
Qed.
Lemma nfree : forall k, seqb k (L "twice") = false -> seqb k (L "x") = false -> free_name nfunction nconstant k.
Proof. intros k N1 N2. split; [unfold nfunction; intros ->; discriminate|]. unfold nconstant. now rewrite N2. Qed.
Lemma ndecl : forall d, seqb (fun_name d) (L "x") = false -> Forall (fun k => seqb k (L "twice") = false /\ seqb k (L "x") = false) (demo_names d) -> safe_decl demo false nfunction nconstant d.
Proof.
  intros d N0 H. split; [unfold nconstant; now rewrite N0|]. intros ks l E. cbn [demo bind_params] in E. unfold demo_params in E. destruct (Nat.eqb _ _); [|discriminate].
  assert (l = combine (demo_names d) (map inl (seq 0 (length (demo_names d))))) as -> by congruence. apply Forall_forall. intros [y a] I1. cbn [fst snd]. rewrite Forall_forall in H.
  destruct (H y) as [H1 H2]; [now apply in_combine_l in I1|]. split; [now apply nfree|]. destruct a as [n|v]; [exact Logic.I|]. apply in_combine_r in I1. apply in_map_iff in I1. destruct I1 as (m & E' & _). discriminate.
Qed.
Lemma nsafe : safe_reading demo false nfunction nconstant xlayout_reading /\ safe_reading demo false nfunction nconstant xpage_reading.
Proof.
  assert (SF : forall t : str, safe_function false (fun _ => Ok (VStr t))) by (intros t rs _ v E; injection E as <-; apply safe_str).
  split; (split; [apply ndecl; [reflexivity|constructor]|]); cbn [xlayout_reading xpage_reading r_main r_functions].
  - split; repeat constructor; try (vm_compute; intuition discriminate). apply ndecl; [reflexivity|constructor].
  - split; [repeat constructor|]. constructor; [|constructor; [|constructor]]; cbn [fst snd].
    + split; [apply ndecl; [reflexivity|repeat constructor]|]. repeat constructor; try (vm_compute; intuition discriminate). apply (SF (L "b")).
    + split; [apply ndecl; [reflexivity|constructor]|]. constructor; [|repeat constructor].
      * cbn [safe_rstm]. constructor; [|constructor]. split; [apply nfree; reflexivity|]. vm_compute. discriminate.
      * vm_compute. intuition discriminate.
      * apply ndecl; [reflexivity|repeat constructor].
      * vm_compute. intuition discriminate.
      * vm_compute. intuition discriminate.
      * exists (ByName (L "twice")), [(None, ArgName (L "_kj_1"))]. split; [reflexivity|]. repeat constructor.
      * vm_compute. intuition discriminate.
Qed.
Lemma not_plain : forall d, In d known_directives -> forallb (fun c => negb (N.eqb c c_colon)) d = true -> ~ plain_tag (L "py:" ++ d).
Proof. intros d K N0 P. apply (P d); [|exact K]. apply (xdir d [] N0). Qed.
Ltac known := vm_compute; repeat (first [left; reflexivity|right]).
Notation nord := (ordinary_run demo false nconstant xex_compile [] true (L "xml")).
Notation nroot := (ordinary_root demo false nconstant xex_compile [] true (L "xml")).
Lemma nelem : forall ln tag cs, legal_name tag -> prefixb (L "!") tag = false -> prefixb (L "py:") tag = false -> ~ script_or_style tag ->
  forall a, Forall (fun kv => legal_name (fst kv)) a -> absent (L "py:strip") a -> Forall (nord) cs -> nord (DElem ln tag a cs).
Proof.
  intros ln tag cs Lt Nb Np Ns a La Ab Fc. apply or_elem; [|intros _|exact Fc].
  - intros [_ (pre & -> & _)]. discriminate.
  - split; [exact Lt|]. split; [exact Nb|]. split; [intros [S _]; now apply Ns|]. split; [intros k v I1 _; rewrite Forall_forall in La; exact (La _ I1)|]. split; [discriminate|].
    intros g [_|V|c V _]; [exact Logic.I| |]; exfalso; apply Ab; apply in_map_iff; eexists; (split; [|exact V]); reflexivity.
Qed.
Lemma ntext : forall ln t raw e, t = xml_text raw -> nord (DText ln t e).
Proof. intros ln t raw e ->. constructor. Qed.
Lemma ndir : forall ln d a cs, In d known_directives -> d <> L "extends" -> forallb (fun c => negb (N.eqb c c_colon)) d = true ->
  Forall (nord) cs -> nord (DElem ln (L "py:" ++ d) a cs).
Proof.
  intros ln d a cs K Ne N0 Fc. apply or_elem; [|intros P; exfalso; now apply (not_plain d K N0)|exact Fc].
  intros D. apply Ne. apply (directive_fun (L "py:" ++ d)); [apply (xdir d [] N0)|exact D].
Qed.
Ltac nlegal := split; [discriminate|vm_compute; repeat constructor; intuition discriminate].
Lemma nroots : nord (DElem 1 (L "h") [] [DElem 1 (L "py:block") [(L "name", L "title")] [DElem 1 (L "t") [] [DText 1 (L "Base") true]]; DText 1 (L "$x") true]) /\
  nroot xpage_root.
Proof.
  split.
  - apply nelem; [nlegal|reflexivity|reflexivity|intros [|]; discriminate|constructor|intros []|]. constructor; [|constructor; [now apply (ntext _ _ (L "$x"))|constructor]].
    apply (ndir 1 (L "block")); [known|discriminate|reflexivity|]. constructor; [|constructor]. apply nelem; [nlegal|reflexivity|reflexivity|intros [|]; discriminate|constructor|intros []|]. constructor; [now apply (ntext _ _ (L "Base"))|constructor].
  - apply ort_extends; [apply (xdir (L "extends") [] eq_refl)|]. constructor; [|constructor]. apply (ndir 1 (L "nop")); [known|discriminate|reflexivity|]. constructor; [|constructor; [|constructor]].
    + apply (ndir 1 (L "def")); [known|discriminate|reflexivity|]. constructor; [|constructor]. apply (ndir 1 (L "nop")); [known|discriminate|reflexivity|]. constructor; [|constructor]. now apply (ntext _ _ (L "${f(x)}, ${f('b')}")).
    + apply (ndir 1 (L "block")); [known|discriminate|reflexivity|]. constructor; [|constructor]. apply (ndir 1 (L "nop")); [known|discriminate|reflexivity|].
      constructor; [now apply (ntext _ _ (L "${parent_block()}:"))|]. constructor; [now apply (ntext _ _ (L " "))|]. constructor; [|constructor].
      apply (ndir 1 (L "call")); [known|discriminate|reflexivity|]. constructor; [|constructor]. apply nelem; [nlegal|reflexivity|reflexivity|intros [|]; discriminate| |intros [|[]]; discriminate|].
      * constructor; [nlegal|constructor].
      * constructor; [now apply (ntext _ _ (L "$n"))|constructor].
Qed.
Lemma nordinary : ordinary_source xexpat xex_compile (eq (L "_kj_1")) demo false nfunction nconstant false (xsource xlayout) /\
  ordinary_source xexpat xex_compile (eq (L "_kj_1")) demo false nfunction nconstant false (xsource xpage).
Proof.
  assert (One : forall s d root r0, xml_document xexpat (xsource s) = Ok d -> document_tells xex_compile (eq (L "_kj_1")) (settings_of (xsource s) d) d r0 ->
    safe_reading demo false nfunction nconstant r0 -> filter not_comment (d_children d) = [root] -> prefixb (L "html") (rendering_mode (Some (L "xml")) (d_dtd d)) = false -> nroot root ->
    ordinary_source xexpat xex_compile (eq (L "_kj_1")) demo false nfunction nconstant false (xsource s)).
  { intros s d root r0 Ed T U Er Hh O. split; [constructor|]. split.
    - intros r [d' r' Ed' T']. assert (d' = d) as -> by congruence. rewrite (reading_unique _ _ _ _ _ _ T' T). exact U.
    - intros d' root' Ed' Er'. assert (d' = d) as -> by congruence. assert (root' = root) as -> by congruence. split; [|exact O]. cbn [x_mode xsource]. unfold is_html. rewrite Hh. split; discriminate. }
  split; eapply One.
  - vm_compute; reflexivity.
  - exact xlayout_reads.
  - apply nsafe.
  - reflexivity.
  - reflexivity.
  - apply ort_plain. apply nroots.
  - vm_compute; reflexivity.
  - exact xpage_reads.
  - apply nsafe.
  - reflexivity.
  - reflexivity.
  - apply nroots.
Qed.
Example C43_whole_example :
  generated_names demo (eq (L "_kj_1")) /\ (forall l, object_names (no_module l)) /\
  (forall fragment name x, npages fragment name = Ok x -> a_source xexpat xex_compile (eq (L "_kj_1")) demo x) /\
  a_source xexpat xex_compile (eq (L "_kj_1")) demo (xsource xpage) /\ object_names ncontext /\
  gentle_python demo false nfunction /\ fixed_names nfunction nconstant ncontext /\
  safe_objects false nfunction ncontext /\ (forall l, safe_objects false nfunction (no_module l)) /\
  (forall fragment name x, npages fragment name = Ok x -> ordinary_source xexpat xex_compile (eq (L "_kj_1")) demo false nfunction nconstant fragment x) /\
  ordinary_source xexpat xex_compile (eq (L "_kj_1")) demo false nfunction nconstant false (xsource xpage) /\
  rbind (xml_file xexpat xex_compile no_module (xsource xpage)) (fun f =>
    run_file demo (fun fragment name => rbind (npages fragment name) (xml_file xexpat xex_compile no_module)) 9 f ncontext) =
  Ok (L "<h><t>Base!</t>:! <b args=""n"">a&lt;</b>, !<b args=""n"">b</b>a&lt;</h>").
Proof.
  destruct C61_whole_example as (H1 & H2 & H3 & H4 & H5 & _). split; [exact H1|]. split; [exact H2|]. split.
  { intros fragment name x E. unfold npages in E. destruct fragment; [discriminate|]. exact (H3 _ _ _ E). }
  split; [exact H4|]. split; [exact H5|]. split; [exact demo_gentle|]. split; [exact nfixed|]. split.
  { constructor; [|constructor]. cbn [fst snd]. split; [apply safe_str|]. split; discriminate. }
  split; [intros l; constructor|]. split.
  { intros fragment name x E. unfold npages, xsources in E. destruct fragment; [discriminate|]. destruct (seqb name (L "layout.html")); [|discriminate]. assert (x = xsource xlayout) as -> by congruence. apply nordinary. }
  split; [apply nordinary|]. vm_compute. reflexivity.
Qed.

(** A script and a CDATA section with a value of the context in them. *)
Lemma nshows : shows_text demo nconstant (L "x").
Proof.
  split; [intros c args; vm_compute; discriminate|]. intros w p v K E. assert (Ep : parse demo (L "x") = EName (L "x")) by (vm_compute; reflexivity). unfold evalue in E. rewrite Ep in E. cbn [eval] in E.
  rewrite (K (L "x") (VStr (L "a<")) eq_refl) in E. cbn [rmap rbind as_value] in E. injection E as <-. apply C78_plain. now right.
Qed.
Example C43_whole_raw_example :
  ordinary_run demo true nconstant xex_compile [] true (L "html") (DElem 1 (L "py:def") [(L "function", L "f()")] [DElem 1 (L "script") [] sdoc]) /\
  ordinary_run demo false nconstant xex_compile [] true (L "xml")
    (DElem 1 (L "p") [] [DMark 1 (L "<![CDATA["); DText 1 (L "a<b $x") false; DMark 1 (L "]]>"); DElem 1 (L "script") [] sdoc]).
Proof.
  assert (Sc : forall html mode, (html = false -> mode = L "xml") -> ordinary_run demo html nconstant xex_compile [] true mode (DElem 1 (L "script") [] sdoc)).
  { intros html mode Hm. apply or_raw; [now left|intros [[] _]|now left|intros k v []|intros []|]. split; [intros _ x []|]. split; [|discriminate]. intros _. split; [exact Hm|]. intros ss H.
    apply Forall_map. revert H. apply (sdoc_all _ html); [intros t; apply fitsb_fits|exact nshows]. }
  split.
  - apply or_elem; [| |constructor; [now apply Sc|constructor]].
    + intros D. assert (X : L "def" = L "extends") by (apply (directive_fun (L "py:def")); [apply (xdir (L "def") [] eq_refl)|exact D]). discriminate X.
    + intros P. exfalso. apply (not_plain (L "def")); [known|reflexivity|exact P].
  - apply or_mixed; [intros d [_ (pre & E & _)]; discriminate E|intros [[] _]| |reflexivity|].
    + split; [nlegal|]. split; [reflexivity|]. split; [intros [[X|X] _]; discriminate|]. split; [intros k v []|]. split; [discriminate|]. intros g [_|V|c V _]; [exact Logic.I| |]; destruct V.
    + apply (ors_cdata demo false nconstant xex_compile [] true (L "xml") (L "p") 1 1 [DText 1 (L "a<b $x") false]); [|apply ors_node; [now apply Sc|constructor]].
      constructor; [|constructor]. intros ss T. destruct T as [ps SS R|ps N1 N2 R]; [destruct SS; discriminate|]. apply P_XText.pieces_spec in R. vm_compute in R. injection R as <-. cbn [map text_stm].
      apply Forall_cons; [|apply Forall_cons; [exact nshows|constructor]]. change (raw_run demo false nconstant (RTrans (L "a<b ") None)). split; [|cbn [gettext demo]; rewrite render_str]; now apply fitsb_fits.
Qed.

(** What py:call calls is shown as it is: for an object that is no template function the claim is false, though all values are
    plain. *)
Definition ccall : str := L "<a><py:call function=""f()""><i/></py:call></a>".
Definition cevents : list event :=
  [EStart 1 (L "a") []; EStart 1 (L "py:call") [(L "function", L "f()")]; EStart 1 (L "i") []; EEnd 1 (L "i"); EEnd 1 (L "py:call"); EEnd 1 (L "a")].
Definition cpython : python :=
  Python demo_parse demo_block demo_for (truth demo) (iterate demo) (unpack demo) (attrs_of demo) demo_params (veq demo) (gettext demo)
    (fun _ _ => Ok (VStr (L "<"))) (call_method demo) (value_attr demo) (builtin_value demo).
Theorem C43_call_refuted : exists expat compile py x context out,
  gentle_python py false (fun _ => False) /\ safe_objects false (fun _ => False) context /\
  rbind (xml_file expat compile no_module x) (fun f => run_file py (fun _ _ => Raise "OSError") 9 f context) = Ok out /\
  forall line s is, out = line ++ s -> line = [] \/ (exists mode dtd, doctype_line mode dtd line) -> ~ written false is s.
Proof.
  exists (fun _ => Ok cevents), xex_compile, cpython, (xsource ccall), [(L "f", VStr (L "f"))], (L "<a><</a>").
  split; [|split; [|split; [vm_compute; reflexivity|]]].
  - constructor; cbn [cpython demo iterate unpack attrs_of call_object call_method value_attr builtin_value gettext]; try discriminate.
    + intros v l _ E. destruct v; try discriminate. injection E as <-. apply Forall_map. apply Forall_forall. intros c _. apply safe_str.
    + intros v l _ E. injection E as <-. constructor.
    + intros v args r _ _ E. injection E as <-. apply safe_str.
    + intros s. apply safe_str.
    + intros t v W. exists (v ++ L "!"). rewrite render_str. apply written_text_app; [exact W|]. apply (written_escape (L "!")).
  - constructor; [|constructor]. cbn [fst snd]. split; [apply safe_str|]. split; [tauto|discriminate].
  - intros line s is E [->|(mode & dtd & D)] W.
    + cbn [app] in E. subst s. apply read_written in W. vm_compute in W. discriminate.
    + destruct D as [Nd|_ _|_ _].
      * assert (I1 : In c_nl (L "<a><</a>")) by (rewrite E; apply in_or_app; left; apply in_or_app; right; now left). vm_compute in I1. intuition discriminate.
      * discriminate.
      * cbn [app] in E. subst s. apply read_written in W. vm_compute in W. discriminate.
Qed.
Print Assumptions C43_call_refuted.
