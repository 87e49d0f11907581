(** * Layouts, pages, and their blocks: theorems C76 *)

From Coq Require Import Ascii String List NArith ZArith Bool Lia Arith.
From Verif Require Import PyStr PyStrLemmas M_Values S_Values M_IR S_IR M_Template S_Template M_Text M_XText S_XText P_XText M_Dom M_XCompile
  M_Entities S_Entities M_Doctype S_XDoc P_XDoc S_XFun P_XFun M_Run S_Run M_XRun S_XRun P_XRun3 P_XRun4 P_XRun5 Props_Run Props_XText Props_XDoc Props_XRun S_Blocks P_Blocks S_Blocks2 P_Blocks2.
From Verif Require P_XRun1.
Import ListNotations.
Open Scope list_scope.

(** ** C76: a page shows its layout, with its own blocks in it

    For any number of pages, each extending the next one: the layout is shown, each of its blocks in the version
    of the page that was asked for or of the nearest one that it extends; where that version calls
    [parent_block()], the next version up stands, and so on.  What a page has outside of its blocks comes after what
    it extends.  Blocks may be in blocks of the layout. *)
Theorem C76_pages_partial : forall py context pages c cs t,
  length pages = length (c :: cs) -> reads_blocks py pages -> user_context py context -> names_apart (c :: cs) ->
  (forall i pg c', nth_error pages i = Some pg -> nth_error (c :: cs) i = Some c' -> describes (S i =? length pages) pg c') ->
  page_text py context pages 0 t ->
  exists enough, forall depth load, enough <= depth ->
    (forall i pg c', nth_error pages i = Some pg -> nth_error (c :: cs) (S i) = Some c' -> load false (pg_extends pg) = Ok c') ->
    template_means py load depth c (objects context) = Ok t.
Proof. intros py context pages c cs t H1 H2 H3 H4 H5. exact (site_renders py context pages c cs H1 H2 H3 H4 H5 t). Qed.
Print Assumptions C76_pages_partial.

(** From the sources: XML documents that a loader finds, compiled, executed.
    Not covered: what else may stand in a page than text, variables and blocks, such as loops and functions (for single
    templates see C61); the text templates. *)
Theorem C76_sources_partial : forall expat compile exec_module g py sources x xs pages context t,
  generated_names py (eq g) -> (forall l, object_names (exec_module l)) ->
  (forall fragment name x, sources fragment name = Ok x -> a_source expat compile (eq g) py x) ->
  a_source expat compile (eq g) py x -> user_context py context -> reads_blocks py pages ->
  site expat compile exec_module g sources (x :: xs) pages -> page_text py context pages 0 t ->
  exists enough, forall depth, enough <= depth ->
    rbind (xml_file expat compile exec_module x) (fun f =>
      run_file py (fun fragment name => rbind (sources fragment name) (xml_file expat compile exec_module)) depth f context) = Ok t.
Proof. intros expat compile exec_module g py sources x xs pages context t Hg Hm Hs. exact (site_shows expat compile exec_module g py sources Hg Hm Hs x xs pages context t). Qed.
Print Assumptions C76_sources_partial.

(** Three pages: the layout of C61, a page that puts brackets around its title, and one that puts a name before that. *)
Notation xTells := (tells xex_compile [] true (L "xml") (eq (L "_kj_1"))).
Ltac xsolid := apply P_XRun1.solid_eq; vm_compute; reflexivity.
Ltac xnode := eapply at_node; [first [left; reflexivity|right; intros []]| |].
Ltac xone := eapply at_node; [left; reflexivity| |constructor].
Definition bmid : str := L "<py:extends href=""layout.html""><py:block name=""title"">[${parent_block()}]</py:block></py:extends>".
Definition bmid_events : list event :=
  [EStart 1 (L "py:extends") [(L "href", L "layout.html")]; EStart 1 (L "py:block") [(L "name", L "title")];
   EChars 1 (L "[${parent_block()}]"); EEnd 1 (L "py:block"); EEnd 1 (L "py:extends")].
Definition bpage : str := L "<py:extends href=""mid.html""><py:block name=""title"">$x${parent_block()}</py:block>end</py:extends>".
Definition bpage_events : list event :=
  [EStart 1 (L "py:extends") [(L "href", L "mid.html")]; EStart 1 (L "py:block") [(L "name", L "title")];
   EChars 1 (L "$x${parent_block()}"); EEnd 1 (L "py:block"); EChars 1 (L "end"); EEnd 1 (L "py:extends")].
Definition bexpat (s : str) : result (list event) :=
  if seqb s (snd (parser_source xlayout)) then Ok xlayout_events
  else if seqb s (snd (parser_source bmid)) then Ok bmid_events
  else if seqb s (snd (parser_source bpage)) then Ok bpage_events else Raise "SAXParseException".
Definition bsources (fragment : bool) (name : str) : result xml_source :=
  if seqb name (L "layout.html") then Ok (xsource xlayout)
  else if seqb name (L "mid.html") then Ok (xsource bmid) else Raise "OSError".
Definition bmid_reading : reading :=
  Reading [RExtend (L "layout.html")]
    [(L "_kj_block_title()", [RPython [L "parent_block=parent._kj_block_title"]; RTrans (L "[") None; RExpr (L "parent_block()") false; RTrans (L "]") None])] [].
Definition bpage_reading : reading :=
  Reading [RExtend (L "mid.html"); RTrans (L "end") None]
    [(L "_kj_block_title()", [RPython [L "parent_block=parent._kj_block_title"]; RExpr (L "x") false; RExpr (L "parent_block()") false])] [].
Definition bpages : list page :=
  [Page (L "mid.html") [Message (L "end")] [(L "title", [Shown (L "x"); ParentBlock])];
   Page (L "layout.html") [] [(L "title", [Message (L "["); ParentBlock; Message (L "]")])];
   Page [] [Words (L "<h"); Words (L ">"); BlockHere (L "title"); Shown (L "x"); Words (L "</h>")]
     [(L "title", [Words (L "<t"); Words (L ">"); Message (L "Base"); Words (L "</t>")])]].
Definition bcontext : list (str * M_Values.value) := [(L "x", VStr (L "a<"))].

Definition bmid_root : dnode :=
  DElem 1 (L "py:extends") [(L "href", L "layout.html")] [DElem 1 (L "py:nop") [(L "href", L "layout.html")]
    [DElem 1 (L "py:block") [(L "name", L "title")] [DElem 1 (L "py:nop") [(L "name", L "title")] [DText 1 (L "[${parent_block()}]") true]]]].
Definition bpage_root : dnode :=
  DElem 1 (L "py:extends") [(L "href", L "mid.html")] [DElem 1 (L "py:nop") [(L "href", L "mid.html")]
    [DElem 1 (L "py:block") [(L "name", L "title")] [DElem 1 (L "py:nop") [(L "name", L "title")] [DText 1 (L "$x${parent_block()}") true]];
     DText 1 (L "end") true]].

Lemma bmid_reads : document_tells xex_compile (eq (L "_kj_1")) xsettings (Document [] [bmid_root]) bmid_reading.
Proof.
  assert (E : exists ps fs, xTells false false [] [] bmid_root ps fs true /\
    assemble ps = Some (r_main bmid_reading) /\ functions fs = r_functions bmid_reading /\ modules fs = []).
  { eexists _, _. split; [|split; [|split]].
    - eapply tl_extends; [exact (xdir (L "extends") [(L "href", L "layout.html")] eq_refl)|]. xone.
      eapply tl_nop; [exact (xdir (L "nop") [(L "href", L "layout.html")] eq_refl)|]. xone.
      eapply tl_override; [exact (ib_block [] _ _ _ (xdir (L "block") [(L "name", L "title")] eq_refl))| | |].
      * xone. eapply tl_nop; [exact (xdir (L "nop") [(L "name", L "title")] eq_refl)|]. xone.
        apply xtext; [discriminate|reflexivity|vm_compute; reflexivity|reflexivity].
      * vm_compute. reflexivity.
      * apply normalize_spec. vm_compute. reflexivity.
    - vm_compute. reflexivity.
    - vm_compute. reflexivity.
    - vm_compute. reflexivity. }
  destruct E as (ps & fs & T & A & F & M0). change bmid_reading with (Reading ([] ++ r_main bmid_reading) (r_functions bmid_reading) []). rewrite <- F, <- M0.
  eapply (document_reading _ _ _ _ _ ps _ fs true []); [reflexivity|exact T|exact A|reflexivity|xsolid].
Qed.
Lemma bpage_reads : document_tells xex_compile (eq (L "_kj_1")) xsettings (Document [] [bpage_root]) bpage_reading.
Proof.
  assert (E : exists ps fs, xTells false false [] [] bpage_root ps fs true /\
    assemble ps = Some (r_main bpage_reading) /\ functions fs = r_functions bpage_reading /\ modules fs = []).
  { eexists _, _. split; [|split; [|split]].
    - eapply tl_extends; [exact (xdir (L "extends") [(L "href", L "mid.html")] eq_refl)|]. xone.
      eapply tl_nop; [exact (xdir (L "nop") [(L "href", L "mid.html")] eq_refl)|]. xnode; [|xone].
      + eapply tl_override; [exact (ib_block [] _ _ _ (xdir (L "block") [(L "name", L "title")] eq_refl))| | |].
        * xone. eapply tl_nop; [exact (xdir (L "nop") [(L "name", L "title")] eq_refl)|]. xone.
          apply xtext; [discriminate|reflexivity|vm_compute; reflexivity|reflexivity].
        * vm_compute. reflexivity.
        * apply normalize_spec. vm_compute. reflexivity.
      + apply xtext; [discriminate|reflexivity|vm_compute; reflexivity|reflexivity].
    - vm_compute. reflexivity.
    - vm_compute. reflexivity.
    - vm_compute. reflexivity. }
  destruct E as (ps & fs & T & A & F & M0). change bpage_reading with (Reading ([] ++ r_main bpage_reading) (r_functions bpage_reading) []). rewrite <- F, <- M0.
  eapply (document_reading _ _ _ _ _ ps _ fs true []); [reflexivity|exact T|exact A|reflexivity|xsolid].
Qed.
Lemma buser : user_reading demo (eq (L "_kj_1")) bmid_reading /\ user_reading demo (eq (L "_kj_1")) bpage_reading.
Proof.
  assert (NP : forall d, Forall (a_name (eq (L "_kj_1"))) (demo_names d) -> forall ks l, bind_params demo d ks = Ok l -> Forall (fun xa => a_name (eq (L "_kj_1")) (fst xa)) l).
  { intros d H ks l E. cbn [demo bind_params] in E. unfold demo_params in E. destruct (Nat.eqb _ _); [|discriminate].
    assert (l = combine (demo_names d) (map inl (seq 0 (length (demo_names d))))) as -> by congruence. rewrite Forall_forall in *.
    intros [y a] I1. apply H. now apply in_combine_l in I1. }
  assert (ND : forall x, seqb (L "_kj_1") x = false -> L "_kj_1" <> x) by (intros x E E'; rewrite <- E', seqb_refl in E; discriminate).
  split.
  all: cbv [user_reading bmid_reading bpage_reading r_main r_functions].
  all: repeat (match goal with |- _ \/ _ => fail 1 | |- L "_kj_1" = _ -> False => fail 1 | |- _ <> _ => fail 1 | |- _ => constructor end); cbn [user_rstm].
  all: match goal with
       | |- ~ In _ reserved => intros [E|[E|[E|[]]]]; vm_compute in E; discriminate E
       | |- forall ks l, bind_params _ _ _ = Ok _ -> _ => apply NP; repeat constructor; first [apply ND; vm_compute; reflexivity|intros [E|[E|[E|[]]]]; vm_compute in E; discriminate E]
       | |- _ => apply ND; vm_compute; reflexivity
       end.
Qed.
Lemma bsays : forall s d r, xml_document bexpat (xsource s) = Ok d -> document_tells xex_compile (eq (L "_kj_1")) (settings_of (xsource s) d) d r ->
  user_reading demo (eq (L "_kj_1")) r -> xml_says bexpat xex_compile (eq (L "_kj_1")) (xsource s) r /\ a_source bexpat xex_compile (eq (L "_kj_1")) demo (xsource s).
Proof.
  intros s d r Ed T U. assert (X : xml_says bexpat xex_compile (eq (L "_kj_1")) (xsource s) r) by now apply (xml_reading _ _ _ _ d). split; [exact X|].
  split; [reflexivity|]. split; [split; constructor|]. split; [left; now exists r|].
  intros r' [d' r1 Ed' T']. assert (d' = d) as -> by congruence. rewrite (reading_unique _ _ _ _ _ _ T' T). exact U.
Qed.
Lemma bread : (xml_says bexpat xex_compile (eq (L "_kj_1")) (xsource xlayout) xlayout_reading /\ a_source bexpat xex_compile (eq (L "_kj_1")) demo (xsource xlayout)) /\
  (xml_says bexpat xex_compile (eq (L "_kj_1")) (xsource bmid) bmid_reading /\ a_source bexpat xex_compile (eq (L "_kj_1")) demo (xsource bmid)) /\
  (xml_says bexpat xex_compile (eq (L "_kj_1")) (xsource bpage) bpage_reading /\ a_source bexpat xex_compile (eq (L "_kj_1")) demo (xsource bpage)).
Proof.
  split; [|split]; eapply bsays; [vm_compute; reflexivity|exact xlayout_reads|apply xuser|vm_compute; reflexivity|exact bmid_reads|apply buser
    |vm_compute; reflexivity|exact bpage_reads|apply buser].
Qed.
Lemma bsay : forall layout pg r its body, pg_blocks pg = [(L "title", its)] -> r_functions r = [(L "_kj_block_title()", body)] ->
  body = block_code layout (L "title") its -> r_main r = (if layout then [] else [RExtend (pg_extends pg)]) ++ map item_stm (pg_main pg) -> says_page layout pg r.
Proof.
  intros layout pg r its body Eb Ef Ec Em. subst body. constructor; rewrite ?Eb, ?Ef.
  - exact Em.
  - intros b its' [E|[]]. assert (b = L "title" /\ its' = its) as [-> ->] by (split; congruence). now left.
  - intros d body [E|[]]. assert (d = L "_kj_block_title()" /\ body = block_code layout (L "title") its) as [-> ->] by (split; congruence).
    left. exists (L "title"), its. split; [now left|]. split; reflexivity.
  - intros b its' [E|[]]. assert (b = L "title") as -> by congruence. vm_compute. reflexivity.
  - constructor; [intros [E|[]]; vm_compute in E; discriminate|]. constructor; [intros []|constructor].
  - intros d body [E|[]]. assert (d = L "_kj_block_title()") as -> by congruence. intros [E1|[E1|[E1|[]]]]; vm_compute in E1; discriminate.
Qed.
Lemma bsite : site bexpat xex_compile no_module (L "_kj_1") bsources [xsource bpage; xsource bmid; xsource xlayout] bpages.
Proof.
  destruct bread as ((L1 & _) & (M1 & _) & P1 & _).
  eapply si_page; [exact P1|eapply bsay; reflexivity|intros []|intros []|reflexivity|].
  eapply si_page; [exact M1|eapply bsay; reflexivity|intros []|intros []|reflexivity|].
  eapply S_Blocks2.si_layout; [exact L1|eapply bsay; reflexivity|intros []|intros []].
Qed.
Lemma bnames : user_context demo bcontext /\ reads_blocks demo bpages.
Proof.
  split.
  - constructor; [split; repeat constructor; [intros []|intros [E|[E|[E|[]]]]; discriminate]|]. intros x v [E|[]]. assert (x = L "x") as -> by congruence.
    split; [reflexivity|]. split; [intros H; cbn in H; repeat destruct H as [H|H]; try discriminate; contradiction|]. split; [discriminate|]. split; [discriminate|]. intros b. discriminate.
  - assert (B : forall pg b its, In pg bpages -> In (b, its) (pg_blocks pg) -> b = L "title").
    { intros pg b its H1 H2. destruct H1 as [<-|[<-|[<-|[]]]]; destruct H2 as [E|[]]; congruence. }
    constructor; try (vm_compute; reflexivity); intros pg b its H1 H2; rewrite (B pg b its H1 H2); vm_compute; reflexivity.
Qed.
(** (Gettext of [demo] appends [!].) *)
Definition btext : str := L "<h>a&lt;[!<t>Base!</t>]!a&lt;</h>end!".
Lemma bshows : page_text demo bcontext bpages 0 btext.
Proof.
  change btext with ((L "<h>a&lt;[!<t>Base!</t>]!a&lt;</h>" ++ []) ++ L "end!" ++ []).
  assert (N2 : forall i, i <= 2 -> exists its, nearest bpages (L "title") i i its) by (intros i Hi; destruct i as [|[|[|i]]]; [| | |lia]; eexists; eapply ne_here; [reflexivity|now left|reflexivity|now left|reflexivity|now left]).
  eapply pt_page; [reflexivity| |].
  - eapply pt_page; [reflexivity| |constructor]. eapply pt_layout; [reflexivity|reflexivity|].
    change (L "<h>a&lt;[!<t>Base!</t>]!a&lt;</h>") with (L "<h" ++ L ">" ++ ((L "a&lt;" ++ (L "[!" ++ (L "<t" ++ L ">" ++ L "Base!" ++ L "</t>" ++ []) ++ L "]!" ++ []) ++ []) ++ L "a&lt;" ++ L "</h>" ++ [])).
    apply te_words, te_words. eapply te_block; [reflexivity|eapply ne_here; [reflexivity|now left]|right; destruct (N2 1) as [its H]; [lia|now exists 1, its]| |].
    + change (L "a&lt;") with (render [escape (VStr (L "a<"))]). apply te_variable; [now left|].
      eapply te_parent; [discriminate|eapply ne_here; [reflexivity|now left]|right; destruct (N2 2) as [its H]; [lia|now exists 2, its]| |constructor].
      apply (te_message demo); [discriminate|].
      eapply te_parent; [discriminate|eapply ne_here; [reflexivity|now left]|now left| |].
      * apply te_words, te_words. apply (te_message demo); [discriminate|]. apply te_words. constructor.
      * apply (te_message demo); [discriminate|constructor].
    + change (L "a&lt;") with (render [escape (VStr (L "a<"))]). apply te_variable; [now left|]. apply te_words. constructor.
  - apply (te_message demo); [discriminate|constructor].
Qed.
Example C76_example :
  generated_names demo (eq (L "_kj_1")) /\ (forall l, object_names (no_module l)) /\
  (forall fragment name x, bsources fragment name = Ok x -> a_source bexpat xex_compile (eq (L "_kj_1")) demo x) /\
  a_source bexpat xex_compile (eq (L "_kj_1")) demo (xsource bpage) /\ user_context demo bcontext /\ reads_blocks demo bpages /\
  site bexpat xex_compile no_module (L "_kj_1") bsources [xsource bpage; xsource bmid; xsource xlayout] bpages /\
  page_text demo bcontext bpages 0 btext /\
  rbind (xml_file bexpat xex_compile no_module (xsource bpage)) (fun f =>
    run_file demo (fun fragment name => rbind (bsources fragment name) (xml_file bexpat xex_compile no_module)) 9 f bcontext) = Ok btext.
Proof.
  split; [exact xgenerated|]. split; [intros l; split; constructor|]. split; [|split; [apply bread|split; [apply bnames|split; [apply bnames|split; [exact bsite|split; [exact bshows|vm_compute; reflexivity]]]]]].
  intros fragment name x E. unfold bsources in E. destruct (seqb name (L "layout.html")); [assert (x = xsource xlayout) as -> by congruence; apply bread|].
  destruct (seqb name (L "mid.html")); [|discriminate]. assert (x = xsource bmid) as -> by congruence. apply bread.
Qed.
