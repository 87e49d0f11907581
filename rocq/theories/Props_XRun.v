(** * Whole XML templates: theorems C61 *)

From Coq Require Import Ascii String List NArith ZArith Bool Lia Arith Permutation Sorted.
From Verif Require Import PyStr PyStrLemmas M_Values S_Values M_IR S_IR M_Template M_Text M_XText S_XText P_XText M_Entities S_Entities M_Doctype M_Dom M_XCompile
  S_XDoc P_XDoc S_XFun P_XFun M_Run S_Run P_Run8 M_XRun S_XRun P_XRun3 P_XRun4 P_XRun5 P_Refused Props_Run Props_XText Props_XDoc.
From Verif Require M_Exec S_Exec P_XRun1 P_XFun2.
Import ListNotations.
Open Scope list_scope.

(** ** C61: a document renders what it says *)

(** XML templates with all directives, from their sources to what they show: functions, calls, py:call, blocks,
    inheritance of any depth, inclusion, imports, embedded Python, code at module level, from any loader.
    Sources that say nothing raise an error: those that are not XML, that the compiler rejects, or for which it generates
    what Python rejects, such as one with a py:else after nothing, or a py:if with nothing in it.
    Not covered, as in C29: calls of template functions whose result is not shown but used; py:with that takes a
    value apart; sources that say nothing and have a py:case outside of a py:switch, or two functions of the same name. *)
Theorem C61_whole_partial : forall expat compile exec_module gen py sources depth x context,
  generated_names py gen -> (forall l, object_names (exec_module l)) ->
  (forall fragment name x, sources fragment name = Ok x -> a_source expat compile gen py x) ->
  a_source expat compile gen py x -> object_names context ->
  exists load, loads expat compile exec_module gen sources load /\
    let result := rbind (xml_file expat compile exec_module x) (fun f =>
      run_file py (fun fragment name => rbind (sources fragment name) (xml_file expat compile exec_module)) depth f context) in
    (exists c, source_tells expat compile exec_module gen x c /\ result = template_means py load depth c (objects context)) \/
    ((forall r, ~ xml_says expat compile gen x r) /\ exists e, result = Raise e).
Proof. intros expat compile exec_module gen py sources depth x context Hg Hm Hs Hx Hc. exact (sources_mean expat compile (fun _ => Ok []) exec_module gen py Hm Hg sources depth x context Hs Hx Hc). Qed.
Print Assumptions C61_whole_partial.

(** What a document says is unique, once the names of the bodies of calls are chosen; so is the class that a
    source describes. *)
Theorem C61_reading_unique : forall compile g s d r r',
  document_tells compile (eq g) s d r -> document_tells compile (eq g) s d r' -> r = r'.
Proof. exact reading_unique. Qed.
Print Assumptions C61_reading_unique.
Theorem C61_class_unique : forall expat compile exec_module g x c c',
  source_tells expat compile exec_module (eq g) x c -> source_tells expat compile exec_module (eq g) x c' -> c = c'.
Proof. exact source_unique. Qed.
Print Assumptions C61_class_unique.

(** A layout with a block; a page that extends it, overrides the block, using the one of the layout, and calls a
    function with a body. *)
Definition xlayout : str := L "<h><t py:block=""title"">Base</t>$x</h>".
Definition xlayout_events : list event :=
  [EStart 1 (L "h") []; EStart 1 (L "t") [(L "py:block", L "title")]; EChars 1 (L "Base"); EEnd 1 (L "t"); EChars 1 (L "$x"); EEnd 1 (L "h")].
Definition xpage : str := L "<py:extends href=""layout.html""><py:def function=""twice(f)"">${f(x)}, ${f('b')}</py:def><py:block name=""title"">${parent_block()}: <b py:call=""twice(%caller)"" args=""n"">$n</b></py:block></py:extends>".
Definition xpage_events : list event :=
  [EStart 1 (L "py:extends") [(L "href", L "layout.html")];
   EStart 1 (L "py:def") [(L "function", L "twice(f)")]; EChars 1 (L "${f(x)}, ${f('b')}"); EEnd 1 (L "py:def");
   EStart 1 (L "py:block") [(L "name", L "title")]; EChars 1 (L "${parent_block()}: ");
   EStart 1 (L "b") [(L "py:call", L "twice(%caller)"); (L "args", L "n")]; EChars 1 (L "$n"); EEnd 1 (L "b"); EEnd 1 (L "py:block");
   EEnd 1 (L "py:extends")].
Definition xexpat (s : str) : result (list event) :=
  if seqb s (snd (parser_source xlayout)) then Ok xlayout_events
  else if seqb s (snd (parser_source xpage)) then Ok xpage_events else Raise "SAXParseException".
Definition xsource (s : str) : xml_source := XmlSource s (Some (L "xml")) false [] true false [] (fun _ => L "_kj_1").
Definition xsources (fragment : bool) (name : str) : result xml_source :=
  if seqb name (L "layout.html") then Ok (xsource xlayout) else Raise "OSError".
Definition no_module (l : list (list str)) : list (str * M_Values.value) := [].
Definition xsettings : settings := Settings [] true (L "xml") false.
Definition xlayout_reading : reading :=
  Reading [RText (L "<h") None; RText (L ">") None; RExpr (L "_kj_block_title()") false; RExpr (L "x") false; RText (L "</h>") None]
    [(L "_kj_block_title()", [RText (L "<t") None; RText (L ">") None; RTrans (L "Base") None; RText (L "</t>") None])] [].
Definition xpage_reading : reading :=
  Reading [RExtend (L "layout.html")]
    [(L "twice(f)", [RExpr (L "f(x)") false; RTrans (L ", ") None; RExpr (L "f('b')") false]);
     (L "_kj_block_title()",
      [RPython [L "parent_block=parent._kj_block_title"]; RExpr (L "parent_block()") false; RTrans (L ":") None; RText (L " ") None;
       RCall (L "_kj_1(n)") (L "twice(_kj_1)")
         [RText (L "<b") None; RAttr (L "args") [RText (L "n") None] None (L "xml"); RText (L ">") None; RExpr (L "n") false; RText (L "</b>") None]])] [].

Notation xTells := (tells xex_compile [] true (L "xml") (eq (L "_kj_1"))).
Notation xAll := (all_tell xex_compile [] true (L "xml") (eq (L "_kj_1"))).
Lemma xdir : forall d a, forallb (fun c => negb (N.eqb c c_colon)) d = true -> is_directive [] (L "py:" ++ d) a d a.
Proof.
  intros d a H. split; [|apply oa_other; intros []]. split.
  - intros I1. rewrite forallb_forall in H. specialize (H _ I1). now rewrite N.eqb_refl in H.
  - exists []. split; [reflexivity|now left].
Qed.
Lemma xtag : forall tag, prefixb (L "py:") tag = false -> plain_tag tag.
Proof. intros tag H d D. apply directive_py in D. congruence. Qed.
Lemma xother : forall tag, smem tag (html_optional_end_tags ++ html_cdata_tags) = false -> ~ void tag /\ ~ script_or_style tag.
Proof.
  intros tag E. apply smem_notIn in E. split; intros H; apply E; apply in_or_app.
  - now left.
  - right. destruct H as [->| ->]; [now left|right; now left].
Qed.
Lemma xreads : forall ln s ps, M_XText.pieces xex_compile s ln = Ok ps ->
  forallb (fun p => match p with XExpr _ e => forallb (fun c => negb (N.eqb c c_dollar)) e | _ => true end) ps = true -> S_XText.reads xex_compile ln s ps.
Proof.
  intros ln s ps E F. apply reads_by; [exact E|]. rewrite forallb_forall in F. apply Forall_forall. intros [? ?|n e] I1; [exact Logic.I|].
  specialize (F _ I1). cbn [simple_expr] in *. intros t1 t2 E1 Ne (c' & v & E' & _).
  assert (X : In c_dollar (e ++ L "}")) by (rewrite E1, <- app_assoc, E'; apply in_elt).
  apply in_app_or in X as [X|[X|[]]]; [|discriminate]. rewrite forallb_forall in F. specialize (F _ X). now rewrite N.eqb_refl in F.
Qed.
Lemma xtext : forall i c parent prev ln t e ps, parent <> [] -> smem parent (html_optional_end_tags ++ html_cdata_tags) = false ->
  M_XText.pieces xex_compile t ln = Ok ps ->
  forallb (fun p => match p with XExpr _ e => forallb (fun c => negb (N.eqb c c_dollar)) e | _ => true end) ps = true ->
  xTells i c parent prev (DText ln t e) (simple (map (text_stm TK_text) ps)) [] c.
Proof. intros i c parent prev ln t e ps Np T E F. apply tl_text. apply ts_text; [exact Np|now apply xother|now apply xreads]. Qed.
Lemma xelem : forall i c parent prev ln tag cs ps fs c', prefixb (L "py:") tag = false -> smem tag (html_optional_end_tags ++ html_cdata_tags) = false -> cs <> [] ->
  xAll i c true tag [] cs ps fs c' ->
  xTells i c parent prev (DElem ln tag [] cs)
    (RcStm (RText (L "<" ++ tag) None) :: simple [] ++ simple [] ++ RcStm (RText (L ">") None) :: ps ++ [RcStm (RText (L "</" ++ tag ++ L ">") None)]) fs c'.
Proof.
  intros i c parent prev ln tag cs ps fs c' Py T Ne A. apply xother in T as [NV NS].
  apply (tl_elem _ _ _ _ _ _ _ _ _ _ _ [] [] _ None []); auto.
  - now apply xtag.
  - apply oa_other. intros [].
  - constructor.
  - apply tc_none. intros [].
  - constructor.
  - constructor.
  - apply ma_none. left. intros [].
  - apply rt_children; auto; [left; intros []|tauto|tauto].
Qed.
Ltac xsolid := apply P_XRun1.solid_eq; vm_compute; reflexivity.
Ltac xnode := eapply at_node; [first [left; reflexivity|right; intros []]| |].
Lemma xlayout_reads : document_tells xex_compile (eq (L "_kj_1")) xsettings
  (Document [] [DElem 1 (L "h") [] [DElem 1 (L "py:block") [(L "name", L "title")] [DElem 1 (L "t") [] [DText 1 (L "Base") true]]; DText 1 (L "$x") true]]) xlayout_reading.
Proof.
  assert (E : exists ps fs, xTells false false [] [] (DElem 1 (L "h") [] [DElem 1 (L "py:block") [(L "name", L "title")] [DElem 1 (L "t") [] [DText 1 (L "Base") true]]; DText 1 (L "$x") true]) ps fs false /\
    assemble ps = Some (r_main xlayout_reading) /\ functions fs = r_functions xlayout_reading /\ modules fs = []).
  { eexists _, _. split; [|split; [|split]].
    - eapply xelem; [reflexivity|reflexivity|discriminate|]. xnode; [|xnode; [|constructor]].
      + eapply tl_block; [exact (ib_block [] _ _ _ (xdir (L "block") [(L "name", L "title")] eq_refl))| | |].
        * xnode; [|constructor]. eapply xelem; [reflexivity|reflexivity|discriminate|]. xnode; [|constructor]. apply xtext; [discriminate|reflexivity|vm_compute; reflexivity|reflexivity].
        * vm_compute. reflexivity.
        * xsolid.
      + apply xtext; [discriminate|reflexivity|vm_compute; reflexivity|reflexivity].
    - vm_compute. reflexivity.
    - vm_compute. reflexivity.
    - vm_compute. reflexivity. }
  destruct E as (ps & fs & T & A & F & M0). change xlayout_reading with (Reading ([] ++ r_main xlayout_reading) (r_functions xlayout_reading) []). rewrite <- F, <- M0.
  eapply (document_reading _ _ _ _ _ ps _ fs false []); [reflexivity|exact T|exact A| |xsolid]. cbn [s_fragment s_mode xsettings orb d_dtd]. apply dl_none; [reflexivity|discriminate].
Qed.
Definition xpage_root : dnode :=
  DElem 1 (L "py:extends") [(L "href", L "layout.html")]
    [DElem 1 (L "py:nop") [(L "href", L "layout.html")]
       [DElem 1 (L "py:def") [(L "function", L "twice(f)")] [DElem 1 (L "py:nop") [(L "function", L "twice(f)")] [DText 1 (L "${f(x)}, ${f('b')}") true]];
        DElem 1 (L "py:block") [(L "name", L "title")]
          [DElem 1 (L "py:nop") [(L "name", L "title")]
             [DText 1 (L "${parent_block()}:") true; DText 1 (L " ") true;
              DElem 1 (L "py:call") [(L "function", L "twice(%caller)")] [DElem 1 (L "b") [(L "args", L "n")] [DText 1 (L "$n") true]]]]]].
Ltac xone := eapply at_node; [left; reflexivity| |constructor].
Lemma xpage_reads : document_tells xex_compile (eq (L "_kj_1")) xsettings (Document [] [xpage_root]) xpage_reading.
Proof.
  assert (E : exists ps fs, xTells false false [] [] xpage_root ps fs true /\
    assemble ps = Some (r_main xpage_reading) /\ functions fs = r_functions xpage_reading /\ modules fs = []).
  { eexists _, _. split; [|split; [|split]].
    - eapply tl_extends; [exact (xdir (L "extends") [(L "href", L "layout.html")] eq_refl)|]. xone.
      eapply tl_nop; [exact (xdir (L "nop") [(L "href", L "layout.html")] eq_refl)|]. xnode; [|xone].
      + eapply tl_def; [exact (xdir (L "def") [(L "function", L "twice(f)")] eq_refl)| | |].
        * xone. eapply tl_nop; [exact (xdir (L "nop") [(L "function", L "twice(f)")] eq_refl)|]. xone.
          apply xtext; [discriminate|reflexivity|vm_compute; reflexivity|reflexivity].
        * vm_compute. reflexivity.
        * xsolid.
      + eapply tl_override; [exact (ib_block [] _ _ _ (xdir (L "block") [(L "name", L "title")] eq_refl))| | |].
        * xone. eapply tl_nop; [exact (xdir (L "nop") [(L "name", L "title")] eq_refl)|]. xnode; [|xnode; [|xone]].
          -- apply xtext; [discriminate|reflexivity|vm_compute; reflexivity|reflexivity].
          -- apply xtext; [discriminate|reflexivity|vm_compute; reflexivity|reflexivity].
          -- eapply tl_call; [exact (xdir (L "call") [(L "function", L "twice(%caller)")] eq_refl)|apply ca_first|reflexivity| | |].
             ++ xone. destruct (xother (L "b") eq_refl) as [NV NS].
                eapply (tl_elem _ _ _ _ _ _ _ _ _ _ _ [(L "args", L "n")] [(L "args", L "n")] _ None [(L "args", L "n")]).
                ** now apply xtag.
                ** apply oa_other. intros [].
                ** repeat constructor. intros [].
                ** apply tc_none. intros [|[]]; discriminate.
                ** apply Permutation_refl.
                ** repeat constructor.
                ** apply as_attr; [intros [|[|]]; discriminate|apply xreads; [vm_compute; reflexivity|reflexivity]|constructor].
                ** apply ma_none. left. intros [|[]]; discriminate.
                ** apply rt_children; [left; intros [|[]]; discriminate|discriminate|tauto|tauto|]. xnode; [|constructor].
                   apply xtext; [discriminate|reflexivity|vm_compute; reflexivity|reflexivity].
             ++ vm_compute. reflexivity.
             ++ xsolid.
        * vm_compute. reflexivity.
        * apply normalize_spec. vm_compute. reflexivity.
    - vm_compute. reflexivity.
    - vm_compute. reflexivity.
    - vm_compute. reflexivity. }
  destruct E as (ps & fs & T & A & F & M0). change xpage_reading with (Reading ([] ++ r_main xpage_reading) (r_functions xpage_reading) []). rewrite <- F, <- M0.
  eapply (document_reading _ _ _ _ _ ps _ fs true []); [reflexivity|exact T|exact A|reflexivity|xsolid].
Qed.
Lemma xgenerated : generated_names demo (eq (L "_kj_1")).
Proof. intros x E. assert (x = L "_kj_1") as -> by now rewrite E. split; [vm_compute; reflexivity|]. intros [E'|[E'|[E'|[]]]]; discriminate. Qed.
Lemma xuser : user_reading demo (eq (L "_kj_1")) xlayout_reading /\ user_reading demo (eq (L "_kj_1")) xpage_reading.
Proof.
  assert (NP : forall d, Forall (a_name (eq (L "_kj_1"))) (demo_names d) -> forall ks l, bind_params demo d ks = Ok l -> Forall (fun xa => a_name (eq (L "_kj_1")) (fst xa)) l).
  { intros d H ks l E. cbn [demo bind_params] in E. unfold demo_params in E. destruct (Nat.eqb _ _); [|discriminate].
    assert (l = combine (demo_names d) (map inl (seq 0 (length (demo_names d))))) as -> by congruence. rewrite Forall_forall in *.
    intros [y a] I1. apply H. now apply in_combine_l in I1. }
  assert (ND : forall x, seqb (L "_kj_1") x = false -> L "_kj_1" <> x) by (intros x E E'; rewrite <- E', seqb_refl in E; discriminate).
  split.
  all: cbv [user_reading xlayout_reading xpage_reading r_main r_functions].
  all: repeat (match goal with |- _ \/ _ => fail 1 | |- L "_kj_1" = _ -> False => fail 1 | |- _ <> _ => fail 1 | |- _ => constructor end); cbn [user_rstm].
  all: match goal with
       | |- ~ (_ = _) \/ _ => first [right; vm_compute; reflexivity|left; apply ND; vm_compute; reflexivity]
       | |- ~ In _ reserved => intros [E|[E|[E|[]]]]; vm_compute in E; discriminate E
       | |- forall ks l, bind_params _ _ _ = Ok _ -> _ => apply NP; repeat constructor; first [apply ND; vm_compute; reflexivity|intros [E|[E|[E|[]]]]; vm_compute in E; discriminate E]
       | |- _ => apply ND; vm_compute; reflexivity
       end.
Qed.
Lemma xsources_read : a_source xexpat xex_compile (eq (L "_kj_1")) demo (xsource xlayout) /\ a_source xexpat xex_compile (eq (L "_kj_1")) demo (xsource xpage).
Proof.
  assert (One : forall s d r0, xml_document xexpat (xsource s) = Ok d -> document_tells xex_compile (eq (L "_kj_1")) (settings_of (xsource s) d) d r0 ->
    user_reading demo (eq (L "_kj_1")) r0 -> a_source xexpat xex_compile (eq (L "_kj_1")) demo (xsource s)).
  { intros s d r0 Ed T U. split; [reflexivity|]. split; [split; constructor|]. split; [left; exists r0; now apply (xml_reading _ _ _ _ d)|].
    intros r [d' r' Ed' T']. assert (d' = d) as -> by congruence. rewrite (reading_unique _ _ _ _ _ _ T' T). exact U. }
  split; eapply One; [vm_compute; reflexivity|exact xlayout_reads|apply xuser|vm_compute; reflexivity|exact xpage_reads|apply xuser].
Qed.
(** (Gettext of [demo] appends [!].) *)
Example C61_whole_example :
  generated_names demo (eq (L "_kj_1")) /\ (forall l, object_names (no_module l)) /\
  (forall fragment name x, xsources fragment name = Ok x -> a_source xexpat xex_compile (eq (L "_kj_1")) demo x) /\
  a_source xexpat xex_compile (eq (L "_kj_1")) demo (xsource xpage) /\ object_names [(L "x", VStr (L "a<"))] /\
  rbind (xml_file xexpat xex_compile no_module (xsource xpage)) (fun f =>
    run_file demo (fun fragment name => rbind (xsources fragment name) (xml_file xexpat xex_compile no_module)) 9 f [(L "x", VStr (L "a<"))]) =
  Ok (L "<h><t>Base!</t>:! <b args=""n"">a&lt;</b>, !<b args=""n"">b</b>a&lt;</h>").
Proof.
  split; [exact xgenerated|]. split; [intros l; split; constructor|]. split; [|split; [apply xsources_read|split; [|vm_compute; reflexivity]]].
  - intros fragment name x E. unfold xsources in E. destruct (seqb name (L "layout.html")); [|discriminate].
    assert (x = xsource xlayout) as -> by congruence. apply xsources_read.
  - split; repeat constructor; [intros []|]. intros [E|[E|[E|[]]]]; discriminate.
Qed.

(** How sources without a reading are refused: the compiler raises an error, or Python rejects what it generates. *)
Theorem C61_refused : forall expat compile exec_module (gen : str -> Prop) py files depth x context,
  (forall i, gen (x_helper x i)) -> xml_placed expat x ->
  (exists r, xml_says expat compile gen x r) \/
  (exists e, xml_file expat compile exec_module x = Raise e) \/
  rbind (xml_file expat compile exec_module x) (fun f => run_file py files depth f context) = Raise "KajikiSyntaxError".
Proof.
  intros expat compile exec_module gen py files depth x context Hg Hp.
  destruct (xml_document expat x) as [d|e] eqn:Ed; [|right; left; now apply (no_document _ _ _ _ e)].
  destruct (filter not_comment (d_children d)) as [|root [|? ?]] eqn:Er; [right; left; now apply (no_root _ _ _ _ _ Ed); rewrite Er| |right; left; now apply (no_root _ _ _ _ _ Ed); rewrite Er].
  destruct (Hp d root Ed Er) as [Hi Hn].
  unfold xml_file. rewrite (xml_compiles _ compile _ _ Ed).
  destruct (compile_document compile (x_helper x) (x_autoblocks x) (x_cdata x) (rendering_mode (x_mode x) (d_dtd d)) (x_fragment x) d) as [t|e] eqn:E; [|right; left; now exists e].
  destruct (document_complete compile (x_helper x) gen (settings_of x d) d root t Hg Er Hi Hn E) as [Ft R].
  destruct (functions_of (defs t)) as [fs|] eqn:Ef; [left; destruct R as [r R]; [discriminate|]; exists r; now apply (xml_reading _ _ _ _ d)|right; right]. cbn [rmap rbind]. now apply C29_refused.
Qed.
Print Assumptions C61_refused.
(** An else in a [py:nop], after a text. *)
Definition xorphan : str := L "<h><py:nop>a<py:else>b</py:else></py:nop></h>".
Definition xorphan_events (s : str) : result (list event) :=
  Ok [EStart 1 (L "h") []; EStart 1 (L "py:nop") []; EChars 1 (L "a"); EStart 1 (L "py:else") []; EChars 1 (L "b"); EEnd 1 (L "py:else"); EEnd 1 (L "py:nop"); EEnd 1 (L "h")].
Definition xorphan_root : dnode :=
  DElem 1 (L "h") [] [DElem 1 (L "py:nop") [] [DText 1 (L "a") true; DElem 1 (L "py:else") [] [DElem 1 (L "py:nop") [] [DText 1 (L "b") true]]]].
Example C61_refused_example :
  xml_placed xorphan_events (xsource xorphan) /\
  forall py files depth context,
    rbind (xml_file xorphan_events xex_compile no_module (xsource xorphan)) (fun f => run_file py files depth f context) = Raise "KajikiSyntaxError".
Proof.
  split; [|intros; vm_compute; reflexivity].
  assert (Doc : exists d, xml_document xorphan_events (xsource xorphan) = Ok d /\ filter not_comment (d_children d) = [xorphan_root]) by (eexists; split; vm_compute; reflexivity).
  intros doc root Ed Er. assert (root = xorphan_root) as -> by (destruct Doc as (d' & Ed' & Er'); congruence). cbn [xsource x_autoblocks x_cdata]. split.
  - cbv [xorphan_root node_in_place].
    assert (No : forall tag d, seqb (last (split_c c_colon tag) []) d = false -> ~ names [] tag [] d).
    { intros tag d E [_ D]. apply directive_last in D. rewrite D, seqb_refl in E. discriminate. }
    repeat match goal with
           | |- _ /\ _ => split
           | |- absent _ [] => intros []
           | |- NoDup _ => constructor
           | |- True => exact Logic.I
           | |- names _ ?t _ ?d -> _ => intros X; exfalso; revert X; apply No; vm_compute; reflexivity
           | |- _ <> _ => discriminate
           | |- _ => intros _
           end.
  - assert (NA : forall tag, ~ autoblock [] tag []) by (intros tag [[] _]). intros l0 Hl. assert (l0 = []) as ->; [|repeat constructor; intros []].
    refine (proj1 (P_XFun2.declares_unique [] true) _ _ _ Hl _ _).
    assert (Dd : forall d, forallb (fun c => negb (N.eqb c c_colon)) d = true -> directive (L "py:" ++ d) d) by (intros d H; exact (proj1 (xdir d [] H))).
    assert (In : forall d cs l, forallb (fun c => negb (N.eqb c c_colon)) d = true -> In d inner_directives -> declare_all [] true false cs l -> declares [] true false (DElem 1 (L "py:" ++ d) [] cs) l).
    { intros d cs l H1 H2 H3. apply de_inner; [|exact H3]. apply (ro_inner [] true _ _ d); auto. }
    assert (One : forall n cs, declares [] true false n [] -> declare_all [] true false cs [] -> declare_all [] true false (n :: cs) []).
    { intros n cs H1 H2. change (@nil decl) with (@nil decl ++ []). now constructor. }
    apply de_inner.
    + destruct (xother (L "h") eq_refl) as [_ NS]. apply ro_elem; [apply NA|now apply xtag|reflexivity|tauto].
    + apply One; [|constructor]. apply (In (L "nop")); [reflexivity|cbn; tauto|]. apply One; [constructor|]. apply One; [|constructor].
      apply (In (L "else")); [reflexivity|cbn; tauto|]. apply One; [|constructor]. apply (In (L "nop")); [reflexivity|cbn; tauto|]. apply One; constructor.
Qed.
