(** * Loaders with sources that are refused *)

From Coq Require Import Ascii String List Arith NArith ZArith Bool Lia.
From Verif Require Import PyStr PyStrLemmas M_Values M_IR P_IR M_Template M_Text S_Text S_TextTree P_Text3 P_Text6 P_Text9 M_Doctype M_Dom M_XCompile
  S_XFun M_Run P_Run4 P_Run5 P_Run8 M_XRun S_XRun P_XRun1 P_XRun2 P_XRun3 S_Run M_TextRun S_TextRun P_TextRun P_TextRun2 P_XRun5.
From Verif Require S_Exec P_Run12.
Import ListNotations.
Open Scope list_scope.

Lemma no_document : forall expat compile exec_module x e, xml_document expat x = Raise e -> exists e', xml_file expat compile exec_module x = Raise e'.
Proof.
  intros expat compile exec_module x e Ed. unfold xml_document in Ed. unfold xml_file, xml_template. destruct (parser_source (x_text x)) as [dtd source]. destruct (expat source) as [ev|]; [|now eexists].
  cbn [rbind] in *. destruct (build ev); [discriminate Ed|now eexists].
Qed.
Lemma no_root : forall expat compile exec_module x d, xml_document expat x = Ok d -> (forall root, filter not_comment (d_children d) <> [root]) ->
  exists e, xml_file expat compile exec_module x = Raise e.
Proof.
  intros expat compile exec_module x d Ed H. unfold xml_file. rewrite (xml_compiles _ compile _ _ Ed). unfold compile_document. change no_comment with not_comment.
  destruct (filter not_comment (d_children d)) as [|root [|? ?]]; [now eexists|now elim (H root)|now eexists].
Qed.

Lemma made_of : forall compile shlex_split exec_module x ts f, lex compile None 1 (t_text x) ts -> Forall block_on_a_line ts ->
  text_file compile shlex_split exec_module x = Ok f -> exists tr, taken shlex_split tr ts /\ (t_file x = true \/ t_text x <> []).
Proof.
  intros compile shlex_split exec_module x ts f Lx Bl E. unfold text_file in E. destruct (text_tree compile shlex_split x) as [t|e] eqn:Et; [|discriminate E].
  assert (Ne : t_file x = true \/ t_text x <> []).
  { clear - Et. unfold text_tree in Et. destruct (t_file x); [now left|right]. intros X. rewrite X in Et. discriminate Et. }
  assert (Ep : M_Text.parse (t_autoescape x) shlex_split (t_helper x) ts = Ok t).
  { unfold text_tree, text_template in Et. rewrite (lex_scan _ _ _ Lx) in Et. destruct (t_file x); [exact Et|]. destruct (t_text x); [discriminate Et|exact Et]. }
  destruct (proj1 (parse_exact (t_autoescape x) shlex_split (t_helper x) ts t Bl) Ep) as (tr & W & _). now exists tr.
Qed.

Section Sources.
Variable expat : str -> result (list event).
Variable compile : str -> compiled.
Variable shlex_split : str -> result (list str).
Variable exec_module : list (list str) -> list (str * M_Values.value).
Variable gen : str -> Prop.
Variable py : python.
Hypothesis modules_named : forall l, object_names (exec_module l).

(** What becomes of a source. *)
Inductive outcome (x : any_source) : result file -> Prop :=
| out_says : forall f c, a_file py gen f -> meaning_of f = Ok c -> any_tells expat compile shlex_split exec_module gen x c -> outcome x (Ok f)
| out_refused : forall f, refused f -> (forall r, ~ any_says expat compile shlex_split gen x r) -> outcome x (Ok f)
| out_raise : forall e, (forall r, ~ any_says expat compile shlex_split gen x r) -> outcome x (Raise e).

Lemma xml_said : forall x r0, (forall i, gen (x_helper x i)) -> xml_says expat compile gen x r0 -> exists t r l,
  xml_file expat compile exec_module x = Ok (t, x_given x, exec_module (map snd (mod_py t))) /\ xml_says expat compile gen x r /\
  map snd (mod_py t) = r_module r /\ final_functions r l /\ functions_of (defs t) = Some (map with_name l) /\
  (user_reading py gen r -> Forall (well_named py gen) (defs t)).
Proof.
  intros x r0 Hg [d r Ed T]. destruct (document_compiles compile (x_helper x) gen Hg py _ _ _ T) as (t & r1 & l & Ec & T1 & Em & Fl & Ef & W & _).
  exists t, r1, l. unfold xml_file. rewrite (xml_compiles _ compile _ _ Ed). cbn [settings_of s_autoblocks s_cdata s_mode s_fragment] in Ec. rewrite Ec.
  split; [reflexivity|]. split; [now apply (xml_reading _ _ _ _ d)|]. split; [congruence|]. split; [exact Fl|split; [exact Ef|exact W]].
Qed.
Lemma xml_outcome : forall x, a_source expat compile gen py x -> outcome (XmlFile x) (xml_file expat compile exec_module x).
Proof.
  intros x (Hg & On & Ex & U).
  assert (Sd : (exists r, xml_says expat compile gen x r) -> outcome (XmlFile x) (xml_file expat compile exec_module x)).
  { intros [r0 T0]. destruct (xml_said x r0 Hg T0) as (t & r & l & -> & T & Em & Fl & Ef & W).
    apply (out_says _ _ (from_ir _ _ (last_ones (map with_name l)) (objects (x_given x)) (objects (exec_module (map snd (mod_py t)))))).
    - split; [now apply P_Run12.functions_placed in Ef|]. split; [apply W, U, T|]. split; [exact On|apply modules_named].
    - unfold meaning_of, directive_class. rewrite Ef. cbn [option_map]. destruct (defs t); [|reflexivity].
      exfalso. cbn [functions_of] in Ef. now apply (final_some r l Fl); destruct l.
    - constructor. apply (source_reading _ _ _ _ _ r); [exact T|]. rewrite Em. now constructor. }
  destruct Ex as [Ex|Pl]; [now apply Sd|].
  destruct (xml_file expat compile exec_module x) as [f|e] eqn:E.
  - pose proof E as E0. unfold xml_file in E. destruct (xml_document expat x) as [d|e] eqn:Ed.
    + rewrite (xml_compiles _ compile _ _ Ed) in E.
      destruct (compile_document compile (x_helper x) (x_autoblocks x) (x_cdata x) (rendering_mode (x_mode x) (d_dtd d)) (x_fragment x) d) as [t|e] eqn:Ec; [|discriminate E]. cbn [rmap] in E.
      destruct (filter not_comment (d_children d)) as [|root [|? ?]] eqn:Er; [destruct (no_root _ compile exec_module _ _ Ed); [now rewrite Er|congruence]| |destruct (no_root _ compile exec_module _ _ Ed); [now rewrite Er|congruence]].
      destruct (Pl d root Ed Er) as [Pn Nd].
      destruct (document_complete compile (x_helper x) gen (settings_of x d) d root t Hg Er Pn Nd Ec) as [Ft R].
      destruct (functions_of (defs t)) as [fs|] eqn:Ef.
      * apply Sd. destruct R as [r R]; [discriminate|]. exists r. now apply (xml_reading _ _ _ _ d).
      * apply out_refused; [assert (f = (t, x_given x, exec_module (map snd (mod_py t)))) as -> by congruence; now split|].
        intros r T. destruct (xml_said x r Hg T) as (t' & r' & l & Et & _ & _ & _ & Ef' & _). assert (t' = t) as -> by congruence. congruence.
    + destruct (no_document _ compile exec_module _ _ Ed). congruence.
  - apply out_raise. intros r T. destruct (xml_said x r Hg T) as (t' & r' & l & Et & _). congruence.
Qed.
Lemma text_outcome : forall x, a_template expat compile shlex_split gen py (TextFile x) -> outcome (TextFile x) (text_file compile shlex_split exec_module x).
Proof.
  intros x (Hg & Ex & U).
  assert (Sd : (exists r, text_says compile shlex_split gen x r) -> outcome (TextFile x) (text_file compile shlex_split exec_module x)).
  { intros [r0 T0]. destruct (text_compiles compile shlex_split gen py x r0 Hg T0) as (t & r & l & Et & T & Em & Fl & Ef & W & _). unfold text_file. rewrite Et. cbn [rmap].
    apply (out_says _ _ (from_ir _ _ (last_ones (map with_name l)) [] (objects (exec_module (map snd (mod_py t)))))).
    - split; [now apply P_Run12.functions_placed in Ef|]. split; [apply W, U, T|]. split; [split; constructor|apply modules_named].
    - unfold meaning_of, directive_class. rewrite Ef. cbn [option_map]. destruct (defs t); [|reflexivity].
      exfalso. cbn [functions_of] in Ef. now apply (final_some r l Fl); destruct l.
    - apply (any_text _ _ _ _ _ x r); [exact T|]. rewrite Em. now constructor. }
  destruct Ex as [Ex|(ts & Lx & Bl & Pl)]; [now apply Sd|].
  destruct (text_file compile shlex_split exec_module x) as [f|e] eqn:E.
  - destruct (made_of compile shlex_split exec_module x ts f Lx Bl E) as (tr & W & Ne). unfold text_file in E. destruct (text_tree compile shlex_split x) as [t|e] eqn:Et; [|discriminate E].
    destruct (Pl tr W) as [Pi Nd].
    destruct (P_TextRun2.text_complete compile shlex_split gen x ts tr Hg Ne Lx Bl W Pi Nd) as (t' & Et' & Ft & R). assert (t' = t) as -> by congruence. clear Et'. cbn [rmap] in E.
    destruct (functions_of (defs t)) as [fs|] eqn:Ef; [apply Sd, R; discriminate|].
    apply out_refused; [assert (f = (t, [], exec_module (map snd (mod_py t)))) as -> by congruence; now split|].
    intros r T. destruct (text_compiles compile shlex_split gen py x r Hg T) as (t' & r' & l & Et' & _ & _ & _ & Ef' & _). congruence.
  - apply out_raise. intros r T. destruct (text_compiles compile shlex_split gen py x r Hg T) as (t' & r' & l & Et & _). unfold text_file in E. rewrite Et in E. discriminate.
Qed.
Lemma any_outcome : forall x, a_template expat compile shlex_split gen py x -> outcome x (any_file expat compile shlex_split exec_module x).
Proof. intros [x|x] H; [now apply xml_outcome|now apply text_outcome]. Qed.

Lemma outcome_files : forall X (sources : bool -> str -> result X) file_of (inject : X -> any_source),
  (forall fragment name x, sources fragment name = Ok x -> outcome (inject x) (file_of x)) ->
  (forall fragment name f, rbind (sources fragment name) file_of = Ok f -> a_file py gen f \/ refused f) /\
  forall fragment name, match sources fragment name with
    | Ok x => (exists c, rbind (rbind (sources fragment name) file_of) meaning_of = Ok c /\ any_tells expat compile shlex_split exec_module gen (inject x) c) \/
              ((forall r, ~ any_says expat compile shlex_split gen (inject x) r) /\ exists e, rbind (rbind (sources fragment name) file_of) meaning_of = Raise e)
    | Raise e => rbind (rbind (sources fragment name) file_of) meaning_of = Raise e
    end.
Proof.
  intros X sources file_of inject H. split; intros fragment name.
  - intros f E. specialize (H fragment name). destruct (sources fragment name) as [x|]; [|discriminate E]. cbn [rbind] in E. specialize (H x eq_refl). rewrite E in H. inversion H; auto.
  - specialize (H fragment name). destruct (sources fragment name) as [x|]; [|reflexivity]. cbn [rbind]. specialize (H x eq_refl). destruct H as [f c A M T|f R No|e No]; cbn [rbind].
    + left. now exists c.
    + right. split; [exact No|]. destruct (refused_class f R) as [_ ->]. now eexists.
    + right. split; [exact No|]. now eexists.
Qed.
Hypothesis names : generated_names py gen.
Lemma outcome_runs : forall x o files depth context, outcome x o -> object_names context ->
  (forall fragment name f, files fragment name = Ok f -> a_file py gen f \/ refused f) ->
  (exists c, any_tells expat compile shlex_split exec_module gen x c /\
     rbind o (fun f => run_file py files depth f context) = template_means py (fun fragment name => rbind (files fragment name) meaning_of) depth c (objects context)) \/
  ((forall r, ~ any_says expat compile shlex_split gen x r) /\ exists e, rbind o (fun f => run_file py files depth f context) = Raise e).
Proof.
  intros x o files depth context H On Hf. destruct H as [f c A M T|f R No|e No]; cbn [rbind].
  - left. exists c. split; [exact T|]. rewrite (run_means py gen names); [|exact Hf|now left|exact On]. unfold file_means. now rewrite M.
  - right. split; [exact No|]. rewrite (run_means py gen names); [|exact Hf|now right|exact On]. unfold file_means. destruct (refused_class f R) as [_ ->]. now eexists.
  - right. split; [exact No|]. now eexists.
Qed.
Theorem sources_mean : forall sources depth x context,
  (forall fragment name x, sources fragment name = Ok x -> a_source expat compile gen py x) -> a_source expat compile gen py x -> object_names context ->
  exists load, loads expat compile exec_module gen sources load /\
    let result := rbind (xml_file expat compile exec_module x) (fun f =>
      run_file py (fun fragment name => rbind (sources fragment name) (xml_file expat compile exec_module)) depth f context) in
    (exists c, source_tells expat compile exec_module gen x c /\ result = template_means py load depth c (objects context)) \/
    ((forall r, ~ xml_says expat compile gen x r) /\ exists e, result = Raise e).
Proof.
  intros sources depth x context Hs Hx On.
  destruct (outcome_files _ sources (xml_file expat compile exec_module) XmlFile) as [Hf Hl]; [intros; apply xml_outcome; eapply Hs; eassumption|].
  eexists. split; [|destruct (outcome_runs (XmlFile x) _ _ depth context (xml_outcome x Hx) On Hf) as [(c & T & E)|No]; [left; exists c; split; [now inversion T|exact E]|right; exact No]].
  intros fragment name. specialize (Hl fragment name). destruct (sources fragment name) as [y|]; [|exact Hl]. destruct Hl as [(c & E & T)|No]; [left; exists c; split; [exact E|now inversion T]|right; exact No].
Qed.
Theorem any_sources_mean : forall sources depth x context,
  (forall fragment name x, sources fragment name = Ok x -> a_template expat compile shlex_split gen py x) -> a_template expat compile shlex_split gen py x -> object_names context ->
  exists load, finds expat compile shlex_split exec_module gen sources load /\
    let result := rbind (any_file expat compile shlex_split exec_module x) (fun f =>
      run_file py (fun fragment name => rbind (sources fragment name) (any_file expat compile shlex_split exec_module)) depth f context) in
    (exists c, any_tells expat compile shlex_split exec_module gen x c /\ result = template_means py load depth c (objects context)) \/
    ((forall r, ~ any_says expat compile shlex_split gen x r) /\ exists e, result = Raise e).
Proof.
  intros sources depth x context Hs Hx On.
  destruct (outcome_files _ sources (any_file expat compile shlex_split exec_module) (fun x => x)) as [Hf Hl]; [intros; apply any_outcome; eapply Hs; eassumption|].
  eexists. split; [exact Hl|]. exact (outcome_runs x _ _ depth context (any_outcome x Hx) On Hf).
Qed.
End Sources.
