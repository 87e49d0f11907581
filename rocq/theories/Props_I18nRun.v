(** * Messages of whole templates: theorems C44 *)

From Coq Require Import Ascii String List NArith ZArith Bool Lia Arith.
From Verif Require Import PyStr PyStrLemmas M_Values M_IR M_Template M_Text M_XText S_XText M_Entities M_Doctype M_Dom M_XCompile
  S_XDoc S_XFun P_XFun P_XFun2 M_Run S_Run M_XRun M_TextRun S_XRun P_XRun3 M_I18n S_I18n P_I18n3 S_I18nRun P_I18nRun P_I18nText Props_Run Props_XText Props_XDoc Props_XRun Props_I18n.
Import ListNotations.
Open Scope list_scope.

(** ** C44: the translations that a rendering uses are those of the messages of its files

    For files with functions, calls, py:call, blocks, inheritance of any depth, inclusion, imports and embedded Python: translators
    that agree on the messages of the files give the same result, the same output or the same error, provided that the code of the
    files does not itself mention [gettext] or [_]. *)
Theorem C44_files : forall py f files depth x context,
  let known x := quiet_file py x /\ forall ln m, In (ln, m) (messages (fst (fst x))) -> f m = gettext py m in
  (forall fragment name y, files fragment name = Ok y -> known y) -> known x ->
  run_file (retranslated py f) files depth x context = run_file py files depth x context.
Proof.
  intros py f files depth x context known Hf Hx. assert (K : forall y, known y -> file_ok py f y).
  { intros y [Q K]. split; [exact Q|]. intros m I1. apply in_map_iff in I1. destruct I1 as [[ln m'] [<- I1]]. exact (K ln m' I1). }
  apply run_file_same; [|now apply K]. intros fragment name y E. apply K. exact (Hf _ _ _ E).
Qed.
Print Assumptions C44_files.

(** Text templates have no messages. *)
Theorem C44_text : forall compile shlex_split x t, text_tree compile shlex_split x = Ok t -> messages t = [].
Proof.
  intros compile shlex_split x t E. unfold text_tree, text_template in E. destruct (t_file x).
  - exact (parse_silent _ _ _ _ _ E).
  - destruct (t_text x); [discriminate|]. exact (parse_silent _ _ _ _ _ E).
Qed.
Print Assumptions C44_text.

(** For the sources of templates: it is enough that the translators agree on the messages that the extractor finds in the
    sources of XML templates, whatever mode and names of functions the extractor uses.
    Partial: without the option [autoblocks] (it is false otherwise: [C44_autoblocks_refuted]) and with the default of [cdata_scripts]. *)
Theorem C44_whole_partial : forall expat compile shlex_split exec_module py f sources depth x context,
  (forall fragment name y, sources fragment name = Ok y -> covered expat compile shlex_split exec_module py f y) ->
  covered expat compile shlex_split exec_module py f x ->
  let result py := rbind (any_file expat compile shlex_split exec_module x) (fun y =>
    run_file py (fun fragment name => rbind (sources fragment name) (any_file expat compile shlex_split exec_module)) depth y context) in
  result (retranslated py f) = result py.
Proof.
  intros expat compile shlex_split exec_module py f sources depth x context Hs Hx result.
  assert (K : forall x y, covered expat compile shlex_split exec_module py f x -> any_file expat compile shlex_split exec_module x = Ok y -> file_ok py f y).
  { clear. intros x y [Q H] E. split; [now apply Q|]. clear Q. destruct x as [x|x]; cbn [any_file] in E.
    - destruct H as (Ha & Hc & ND & helper & mode & fragment & xs & Ex & H).
      unfold xml_file in E. destruct (xml_document expat x) as [d|e] eqn:Ed.
      + rewrite (xml_compiles _ _ _ _ Ed) in E. match type of E with rmap _ ?m = _ => destruct m as [t|] eqn:Et end; [|discriminate].
        cbn [rmap] in E. assert (y = (t, x_given x, exec_module (map snd (mod_py t)))) as -> by congruence. cbn [fst].
        assert (Em : exists m' t', compile_document compile helper [] true m' fragment d = Ok t' /\ xs = messages t').
        { unfold extract in Ex. unfold xml_document in Ed. destruct (parser_source (x_text x)) as [dtd source]. destruct (expat source) as [ev|]; [|discriminate].
          cbn [rbind] in *. destruct (build ev) as [ns|]; [|discriminate]. cbn [rbind rmap] in *. assert (d = transform (x_strip x) (Document dtd ns)) as -> by congruence.
          match type of Ex with rmap _ ?m = _ => destruct m as [t'|] eqn:Ec end; [|discriminate]. eexists _, t'. cbn [rmap] in Ex. split; [eassumption|congruence]. }
        destruct Em as (mo & t' & Et' & ->). rewrite Ha, Hc in Et. intros m I1. apply in_map_iff in I1. destruct I1 as [[ln m'] [<- I1]]. apply (H ln).
        refine (proj1 (C44_mode _ _ _ _ _ _ _ _ _ _ _ _ Et Et' _ _) I1). intros root l R D. apply (ND d root l Ed R). now rewrite Ha, Hc.
      + exfalso. unfold xml_template in E. unfold xml_document in Ed. destruct (parser_source (x_text x)) as [dtd source]. destruct (expat source) as [ev|]; [|discriminate].
        cbn [rbind] in *. destruct (build ev) as [ns|]; [discriminate|]. discriminate.
    - unfold text_file in E. destruct (text_tree compile shlex_split x) as [t|] eqn:Et; [|discriminate]. cbn [rmap] in E.
      assert (y = (t, [], exec_module (map snd (mod_py t)))) as -> by congruence. cbn [fst]. rewrite (C44_text _ _ _ _ Et). intros m []. }
  unfold result. destruct (any_file expat compile shlex_split exec_module x) as [y|] eqn:Ey; [|reflexivity]. cbn [rbind]. apply run_file_same.
  - intros fragment name y' E. destruct (sources fragment name) as [s|] eqn:Es; [|discriminate]. exact (K s y' (Hs _ _ _ Es) E).
  - exact (K x y Hx Ey).
Qed.
Print Assumptions C44_whole_partial.

(** The page of [C61_whole_example] and its layout.  Their messages are [Base], a comma and a colon. *)
Definition mtranslate (m : str) : M_Values.value :=
  if smem m [L "Base"; L ", "; L ":"] then VStr (m ++ L "!") else VNone.
Definition msources (fragment : bool) (name : str) : result any_source := rmap XmlFile (xsources fragment name).
Lemma quiet_by : forall l, forallb (fun y => negb (smem y translator_names)) l = true -> quiet_names l.
Proof. intros l H. apply Forall_forall. intros y I1. rewrite forallb_forall in H. specialize (H y I1). apply negb_true_iff in H. now apply smem_notIn. Qed.
Ltac declared := repeat first
  [ apply da_nil | apply de_text | eapply da_cons
  | eapply de_extends; [apply ro_extends; [intros [[] _]|now apply ex_directive]|]
  | eapply de_def; [apply ro_def; [intros [[] _]|now apply ex_directive]|]
  | eapply de_block; [apply ro_block; [intros [[] _]|now apply ex_directive]|]
  | eapply de_inner; [apply (ro_inner [] true _ _ (L "nop")); [intros [[] _]|now apply ex_directive|cbn; tauto]|]
  | eapply de_inner; [apply (ro_inner [] true _ _ (L "call")); [intros [[] _]|now apply ex_directive|cbn; tauto]|]
  | eapply de_inner; [apply ro_elem; [intros [[] _]|now apply xtag|reflexivity|intros [_ [E|E]]; discriminate]|] ].
Ltac mquiet := cbn [quiet_node]; repeat first
  [ exact Logic.I | split | (apply quiet_by; vm_compute; reflexivity) | (vm_compute; constructor; [apply quiet_by; vm_compute; reflexivity|constructor]) ].
Lemma mdistinct : distinct_functions xexpat (xsource xlayout) /\ distinct_functions xexpat (xsource xpage).
Proof.
  assert (One : forall s root0 l0, xml_document xexpat (xsource s) = Ok (Document [] [root0]) -> no_comment root0 = true -> declares [] true false root0 l0 ->
    NoDup (L "__main__()" :: declared_names l0) -> distinct_functions xexpat (xsource s)).
  { intros s root0 l0 Ed Nc D0 ND d root l E R D. assert (d = Document [] [root0]) as -> by congruence. cbn [d_children filter] in R. change (not_comment root0) with (no_comment root0) in R. rewrite Nc in R.
    assert (root = root0) as -> by congruence. cbn [x_autoblocks x_cdata xsource] in D. now rewrite (proj1 (declares_unique [] true) _ _ _ D _ D0). }
  assert (D1 : exists l, declares [] true false (DElem 1 (L "h") [] [DElem 1 (L "py:block") [(L "name", L "title")] [DElem 1 (L "t") [] [DText 1 (L "Base") true]]; DText 1 (L "$x") true]) l /\ declared_names l = [L "_kj_block_title()"]).
  { eexists. split; [declared|vm_compute; reflexivity]. }
  assert (D2 : exists l, declares [] true false xpage_root l /\ declared_names l = [L "twice(f)"; L "_kj_block_title()"]).
  { eexists. split; [unfold xpage_root; declared|vm_compute; reflexivity]. }
  destruct D1 as (l1 & D1 & E1). destruct D2 as (l2 & D2 & E2).
  split; [refine (One _ _ l1 _ _ D1 _)|refine (One _ _ l2 _ _ D2 _)]; try (vm_compute; reflexivity).
  - rewrite E1. repeat constructor; cbn [In]; intuition discriminate.
  - rewrite E2. repeat constructor; cbn [In]; intuition discriminate.
Qed.
Example C44_whole_example :
  let shlex_split := fun _ => Raise "ValueError" in
  covered xexpat xex_compile shlex_split no_module demo mtranslate (XmlFile (xsource xpage)) /\
  (forall fragment name y, msources fragment name = Ok y -> covered xexpat xex_compile shlex_split no_module demo mtranslate y) /\
  mtranslate (L "b") <> gettext demo (L "b") /\
  rbind (any_file xexpat xex_compile shlex_split no_module (XmlFile (xsource xpage))) (fun f =>
    run_file (retranslated demo mtranslate) (fun fragment name => rbind (msources fragment name) (any_file xexpat xex_compile shlex_split no_module)) 9 f [(L "x", VStr (L "a<"))]) =
  Ok (L "<h><t>Base!</t>:! <b args=""n"">a&lt;</b>, !<b args=""n"">b</b>a&lt;</h>").
Proof.
  intros shlex_split.
  assert (C : forall s t xs, xml_file xexpat xex_compile no_module (xsource s) = Ok t -> quiet_file demo t -> distinct_functions xexpat (xsource s) ->
    extract xexpat xex_compile mhelper None false false s = Ok xs -> Forall (fun x => mtranslate (snd x) = VStr (snd x ++ L "!")) xs ->
    covered xexpat xex_compile shlex_split no_module demo mtranslate (XmlFile (xsource s))).
  { intros s t xs E Q D Ex F. split; [intros y Ey; cbn [any_file] in Ey; now assert (y = t) as -> by congruence|]. split; [reflexivity|]. split; [reflexivity|]. split; [exact D|].
    exists mhelper, None, false, xs. split; [exact Ex|]. intros ln m I1. rewrite Forall_forall in F. exact (F _ I1). }
  assert (C1 : covered xexpat xex_compile shlex_split no_module demo mtranslate (XmlFile (xsource xlayout))).
  { eapply C; [vm_compute; reflexivity| |apply mdistinct|vm_compute; reflexivity|repeat (constructor; [vm_compute; reflexivity|]); constructor].
    cbv [quiet_file defs fst]. repeat (constructor; [mquiet|]). constructor. }
  assert (C2 : covered xexpat xex_compile shlex_split no_module demo mtranslate (XmlFile (xsource xpage))).
  { eapply C; [vm_compute; reflexivity| |apply mdistinct|vm_compute; reflexivity|repeat (constructor; [vm_compute; reflexivity|]); constructor].
    cbv [quiet_file defs fst]. repeat (constructor; [mquiet|]). constructor. }
  split; [exact C2|]. split; [|split; [discriminate|vm_compute; reflexivity]].
  intros fragment name y E. unfold msources, xsources in E. destruct (seqb name (L "layout.html")); [|discriminate]. cbn [rmap] in E. assert (y = XmlFile (xsource xlayout)) as -> by congruence. exact C1.
Qed.

(** Calls of the translating function in expressions are not messages: the extractor does not find them. *)
Theorem C44_mentioned_refuted :
  let t := L "<p>${_('b')}</p>" in
  let expat := fun _ => Ok [EStart 1 (L "p") []; EChars 1 (L "${_('b')}"); EEnd 1 (L "p")] in
  let render py := rbind (xml_file expat xex_compile no_module (xsource t)) (fun f => run_file py (fun _ _ => Raise "OSError") 9 f []) in
  extract expat xex_compile mhelper None false false t = Ok [] /\
  render demo = Ok (L "<p>b!</p>") /\ render (retranslated demo (fun m => VStr (m ++ L "?"))) = Ok (L "<p>b?</p>").
Proof. cbv zeta. split; [vm_compute; reflexivity|]. split; vm_compute; reflexivity. Qed.
Print Assumptions C44_mentioned_refuted.
