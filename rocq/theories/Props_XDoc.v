(** * Properties of compiled documents (C18, C30, C43, C45, C61) *)

From Coq Require Import Ascii String List Arith NArith ZArith Bool Permutation Sorted.
From Verif Require Import PyStr PyStrLemmas M_Values S_Values M_IR S_IR M_Exec S_Exec P_Exec P_Exec2 P_Exec3 P_Exec4 P_Exec5
  M_Text M_XText S_XText P_XText M_Entities S_Entities M_Dom M_XCompile S_XDoc S_XFun P_XDoc P_XDoc2 P_XFun P_XFun2 P_XStrip.
From Verif Require Import Props_Exec Props_XText.
Import ListNotations.
Open Scope list_scope.

(** ** C61: a document renders what it says

    [says] is a direct reading of an expanded document; [means] what its directives mean (C29).
    Partial: documents with functions, blocks, imports or embedded Python are not covered. *)
Theorem C61_node_partial : forall compile helper autoblocks cdata_scripts mode py (gen user : str -> Prop) p prev n ps ss s e w sw,
  (forall i, gen (helper i)) -> hygienic py gen user ->
  says compile autoblocks cdata_scripts mode (parent_tag p) prev n ps -> assemble ps = Some ss -> Forall (user_stm gen user) ss ->
  exists ns s', compile_node compile helper autoblocks cdata_scripts mode p prev n s = Ok (ns, s') /\
    c_funs s' = c_funs s /\ c_mod s' = c_mod s /\ c_is_child s' = c_is_child s /\
    rmap (fun r => (render (fst (fst r)), snd (fst r), snd r)) (exec_body py (programs ns) e w sw) =
    rmap (fun oe => (render (fst oe), w, sw)) (means py ss e).
Proof.
  intros compile helper autoblocks cdata_scripts mode py gen user p prev n ps ss s e w sw Hg Hy S A U.
  destruct (proj1 (compiles_says compile helper autoblocks cdata_scripts mode gen Hg) _ _ _ _ S p eq_refl s) as (ns & s' & E & P & N0 & K1 & K2 & _ & K4).
  exists ns, s'. split; [exact E|]. split; [exact K1|]. split; [exact K2|]. split; [exact K4|].
  assert (St : structure ns = Some ss) by (unfold structure; rewrite P; exact A).
  apply (C29_body_partial py gen user); [exact Hy|exact St|]. now apply (users_well_named gen user ns ss).
Qed.
Print Assumptions C61_node_partial.
Theorem C61_document_partial : forall compile helper autoblocks cdata_scripts mode py (gen user : str -> Prop) (frag : bool) d root ps ss (line : str) e,
  (forall i, gen (helper i)) -> hygienic py gen user ->
  filter no_comment (d_children d) = [root] ->
  says compile autoblocks cdata_scripts mode [] [] root ps -> assemble ps = Some ss -> Forall (user_stm gen user) ss ->
  (if frag then line = [] else doctype_line mode (d_dtd d) line) ->
  exists body, compile_document compile helper autoblocks cdata_scripts mode frag d =
      Ok (TemplateNode 0 [] [NDef 0 false (L "__main__()") body]) /\
    rmap (fun r => (render (fst (fst r)), snd (fst r), snd r)) (exec_body py (programs body) e [] []) =
    rmap (fun oe => (line ++ render (fst oe), [], [])) (means py ss e).
Proof. exact document_renders. Qed.
Print Assumptions C61_document_partial.
(** The reading is unique. *)
Theorem C61_unique : forall compile autoblocks cdata_scripts mode parent prev n ps ps',
  says compile autoblocks cdata_scripts mode parent prev n ps -> says compile autoblocks cdata_scripts mode parent prev n ps' -> ps = ps'.
Proof. exact says_unique. Qed.
Print Assumptions C61_unique.

(** [<ul class="c$x"><li py:for="i in 012">$i: <b py:strip="x">a&lt;b</b></li></ul>], expanded. *)
Definition xdoc : dnode :=
  DElem 1 (L "ul") [(L "class", L "c$x")]
    [DElem 2 (L "py:for") [(L "each", L "i in 012")]
       [DElem 2 (L "li") []
          [DText 2 (L "$i: ") true; DElem 2 (L "b") [(L "py:strip", L "x")] [DText 2 (L "a&lt;b") true]]]].
Definition xdoc_says : list stm :=
  [SText (L "<ul") None; SAttr (L "class") [SText (L "c") None; SExpr (L "x") true] None (L "xml"); SText (L ">") None;
   SFor (L "i in 012")
     [SText (L "<li") None; SText (L ">") None; SExpr (L "i") false; STrans (L ": ") None;
      SText (L "<b") (Some (L "not (x)")); SText (L ">") (Some (L "not (x)")); STrans (L "a&lt;b") None;
      SText (L "</b>") (Some (L "not (x)")); SText (L "</li>") None] [];
   SText (L "</ul>") None].
Definition xpy : python :=
  Python ex_value
    (fun e x =>
       if seqb x (L "False") then Ok false
       else if prefixb (L "not (") x then rmap (fun v => seqb (to_str v) (L "0")) (ex_value e (firstn (length x - 6) (skipn 5 x)))
       else rmap (fun v => negb (seqb (to_str v) (L "0"))) (ex_value e x))
    (ev_for ex_python) (ev_attrs ex_python) (unpack ex_python) (veq ex_python) (fun s => VStr s).
Lemma reads_by : forall ln s ps, pieces xex_compile s ln = Ok ps -> Forall simple_expr ps -> reads xex_compile ln s ps.
Proof. intros. now apply pieces_spec. Qed.
Lemma simple_name : forall ln c, c <> c_dollar -> simple_expr (XExpr ln [c]).
Proof.
  intros ln c Ne t1 t2 E Ne' (c' & v & E' & _). assert (X : In c_dollar ([c] ++ L "}")) by (rewrite E, <- app_assoc, E'; apply in_elt).
  destruct X as [X|[X|[]]]; [now apply Ne|discriminate].
Qed.
Lemma ex_tag : forall tag, smem tag (html_optional_end_tags ++ html_cdata_tags) = false -> ~ void tag /\ ~ script_or_style tag.
Proof.
  intros tag E. apply smem_notIn in E. split; intros H; apply E; apply in_or_app.
  - now left.
  - right. destruct H as [->| ->]; [now left|right; now left].
Qed.
Lemma ex_plain : forall parent prev ln tag cs ps, prefixb (L "py:") tag = false -> smem tag (html_optional_end_tags ++ html_cdata_tags) = false -> cs <> [] ->
  all_say xex_compile [] true (L "xml") true tag [] cs ps ->
  says xex_compile [] true (L "xml") parent prev (DElem ln tag [] cs)
    (PcStm (SText (L "<" ++ tag) None) :: map PcStm [] ++ map PcStm [] ++ PcStm (SText (L ">") None) :: ps ++ [PcStm (SText (L "</" ++ tag ++ L ">") None)]).
Proof.
  intros parent prev ln tag cs ps Py T Ne A. apply ex_tag in T as [NV NS].
  apply (sy_elem _ _ _ _ _ _ _ _ _ _ None []); auto.
  - constructor.
  - apply tc_none. intros [].
  - constructor.
  - constructor.
  - apply ma_none. left. intros [].
  - apply rs_children; auto; [left; intros []|tauto|tauto].
Qed.
Lemma xdoc_reads : exists ps, says xex_compile [] true (L "xml") [] [] xdoc ps /\ assemble ps = Some xdoc_says.
Proof.
  assert (V : forall k v, absent k [] /\ no_content_attr [(L "class", v)] /\ no_content_attr [] /\ no_content_attr [(L "py:strip", v)]).
  { intros k v. split; [intros []|]. repeat split; left; intros H; try destruct H as [H|H]; try discriminate; destruct H. }
  eexists. split.
  - unfold xdoc. eapply (sy_elem _ _ _ _ _ _ _ _ _ _ None [(L "class", L "c$x")]); try reflexivity; try (intros []).
    + repeat constructor. intros [].
    + apply tc_none. intros [H|[]]. discriminate.
    + repeat constructor.
    + eapply as_attr; [intros [H|[H|H]]; discriminate| |constructor].
      apply reads_by; [vm_compute; reflexivity|]. repeat (constructor; try exact Logic.I). apply simple_name. discriminate.
    + apply ma_none. left. intros [H|[]]. discriminate.
    + eapply rs_children; [apply (V [])|discriminate|intros [_ S]; now apply (ex_tag (L "ul") eq_refl)|intros [S _]; discriminate|].
      eapply al_node; [now right| |constructor]. eapply sy_for; [intros []|reflexivity| |].
      * eapply al_node; [now left| |constructor]. eapply ex_plain; [reflexivity|reflexivity|discriminate|].
        eapply al_node; [now right| |eapply al_node; [now right| |constructor]].
           ++ apply sy_text. apply ts_text; [discriminate|now apply (ex_tag (L "li") eq_refl)|].
              apply reads_by; [vm_compute; reflexivity|]. repeat (constructor; try exact Logic.I). apply simple_name. discriminate.
           ++ eapply (sy_elem _ _ _ _ _ _ _ _ _ _ (Some (L "not (x)")) [(L "py:strip", L "x")]); try reflexivity; try (intros []).
              ** repeat constructor. intros [].
              ** apply (tc_if _ (L "x")); [now left|discriminate].
              ** repeat constructor.
              ** eapply (as_special _ _ _ _ _ _ _ _ []); [right; now right|intros H; now destruct H|constructor].
              ** apply ma_none. left. intros [H|[]]. discriminate.
              ** eapply rs_children; [apply (V [])|discriminate|intros [_ S]; now apply (ex_tag (L "b") eq_refl)|intros [S _]; discriminate|].
                 eapply al_node; [now right| |constructor]. apply sy_text. apply ts_text; [discriminate|now apply (ex_tag (L "b") eq_refl)|].
                 apply reads_by; [vm_compute; reflexivity|]. repeat (constructor; try exact Logic.I).
      * vm_compute. reflexivity.
  - vm_compute. reflexivity.
Qed.
Definition xuser (x : str) : Prop := contains (L "_kj") x = false.
Lemma xuser_part : forall a b c, xuser (a ++ b ++ c) -> xuser b.
Proof.
  intros a b c H. unfold xuser, contains in *. destruct (find (L "_kj") b) as [i|] eqn:E; [|reflexivity]. exfalso.
  destruct (find (L "_kj") (a ++ b ++ c)) as [j|] eqn:F; [discriminate|].
  apply find_Some in E as (b1 & b2 & -> & _). apply (find_None _ _ F (a ++ b1) (b2 ++ c)). now rewrite <- !app_assoc.
Qed.
Lemma xpy_hygienic : hygienic xpy ex_gen xuser.
Proof.
  assert (V : forall x e1 e2, xuser x -> agree ex_gen e1 e2 -> ex_value e1 x = ex_value e2 x).
  { intros x e1 e2 U A. unfold ex_value. rewrite (A x); [reflexivity|]. intros G. unfold ex_gen in G. apply prefixb_spec in G as [t ->].
    unfold xuser, contains in U. destruct (find (L "_kj") (L "_kj" ++ t)) eqn:E; [discriminate|]. now apply (find_None _ _ E [] t). }
  constructor.
  - intros x e1 e2 U A. cbn [ev xpy]. now apply V.
  - intros x e1 e2 U A. cbn [ev_bool xpy]. destruct (seqb x (L "False")); [reflexivity|]. destruct (prefixb (L "not (") x); [|now rewrite (V x e1 e2)].
    set (y := firstn (length x - 6) (skipn 5 x)). assert (xuser y); [|now rewrite (V y e1 e2)]. unfold y.
    apply (xuser_part (firstn 5 x) _ (skipn (length x - 6) (skipn 5 x))). now rewrite firstn_skipn, firstn_skipn.
  - intros x e1 e2 U A. reflexivity.
  - intros x e1 e2 U A. reflexivity.
  - intros x e v G E. cbn [ev xpy]. unfold ex_value. now rewrite E.
Qed.
Definition xdocument : document := Document (L "<!DOCTYPE ul>") [xdoc].
Example C61_example :
  (forall i, ex_gen (L "_kj" ++ dec (N.of_nat i))) /\
  filter no_comment (d_children xdocument) = [xdoc] /\
  (exists ps, says xex_compile [] true (L "xml") [] [] xdoc ps /\ assemble ps = Some xdoc_says) /\
  hygienic xpy ex_gen xuser /\ Forall (user_stm ex_gen xuser) xdoc_says /\
  doctype_line (L "xml") (d_dtd xdocument) (L "<!DOCTYPE ul>" ++ [c_nl]) /\
  rmap (fun oe => (L "<!DOCTYPE ul>" ++ [c_nl]) ++ render (fst oe)) (means xpy xdoc_says [(L "x", VStr (L "0"))]) =
  Ok (L "<!DOCTYPE ul>" ++ [c_nl] ++ L "<ul class=""c0""><li>0: <b>a&lt;b</b></li><li>1: <b>a&lt;b</b></li><li>2: <b>a&lt;b</b></li></ul>").
Proof.
  split; [reflexivity|]. split; [reflexivity|]. split; [exact xdoc_reads|]. split; [exact xpy_hygienic|]. split.
  - unfold xdoc_says. repeat constructor.
  - split; [|vm_compute; reflexivity]. apply dl_own. discriminate.
Qed.

(** ** C18: doctype *)

(** Of every document that is compiled, whatever its directives, the main function is the line
    of the doctype, once and first, and what the root element compiles to; without the line in fragments
    and in documents that extend another. *)
Theorem C18_doctype : forall compile helper autoblocks cdata_scripts mode (frag : bool) d t,
  compile_document compile helper autoblocks cdata_scripts mode frag d = Ok t ->
  exists root l ns s line body, filter no_comment (d_children d) = [root] /\
    declares autoblocks cdata_scripts false root l /\
    compile_node compile helper autoblocks cdata_scripts mode InDocument [] root (Cst [(L "__main__()", [])] [] false false 0) = Ok (ns, s) /\
    doctype_line mode (d_dtd d) line /\
    (forall b, In (NDef 0 false (L "__main__()") b) (defs t) <-> b = body) /\
    (frag = true \/ extending l -> body = ns) /\
    (frag = false -> ~ extending l -> line <> [] -> body = NText 1 line None :: ns) /\
    (line = [] -> body = ns).
Proof.
  intros compile helper autoblocks cdata_scripts mode frag d t E.
  apply document_declares in E as (root & l & ns & s & funs & R & D & C & -> & K & ND & B).
  destruct (doctype_exists mode (d_dtd d)) as [line Dl].
  exists root, l, ns, s, line, (doctype_text mode frag (extends_b l) (d_dtd d) ++ ns).
  split; [exact R|]. split; [exact D|]. split; [exact C|]. split; [exact Dl|]. split; [|split; [|split]].
  - intros b. cbn [defs]. rewrite in_map_iff. split.
    + intros ([k v] & E & I1). cbn [fst snd] in E. assert (k = L "__main__()" /\ v = b) as [-> ->] by (split; congruence).
      destruct (B _ _ I1) as [[_ Ev]|[Ne _]]; [exact Ev|now destruct Ne].
    + intros ->. assert (I1 : In main_decl (map fst funs)) by (rewrite K; now left).
      apply in_map_iff in I1 as ([k v] & Ek & I1). cbn [fst] in Ek. subst k. exists (main_decl, v). split; [|exact I1].
      cbn [fst snd]. destruct (B _ _ I1) as [[_ Ev]|[Ne _]]; [now rewrite Ev|now destruct Ne].
  - intros H. unfold doctype_text. assert (E : frag || extends_b l = true).
    { destruct H as [->|H]; [reflexivity|]. apply extends_spec in H. rewrite H. apply orb_true_r. }
    now rewrite E.
  - intros -> H Ne. assert (E : extends_b l = false).
    { destruct (extends_b l) eqn:E; [|reflexivity]. apply extends_spec in E. contradiction. }
    rewrite E, (doctype_is _ _ _ Dl). destruct line; [congruence|reflexivity].
  - intros ->. inversion Dl as [Ne El|Ed Em El|Ed Nm El].
    + destruct (strip (d_dtd d)); discriminate El.
    + unfold doctype_text. rewrite Ed. destruct (frag || extends_b l); [reflexivity|]. rewrite (P_Dom2.seqb_neq _ _ Nm). reflexivity.
Qed.
Print Assumptions C18_doctype.
Definition xinherit : document :=
  Document [] [DComment 1 (L "c"); DElem 1 (L "py:extends") [(L "href", L "p.html")]
    [DElem 2 (L "py:block") [(L "name", L "a")] [DElem 3 (L "py:def") [(L "function", L "f(x)")] [DElem 3 (L "br") [] []]]; DElem 4 (L "i") [] []]].
Example C18_example :
  (exists t, compile_document xex_compile (fun i => dec (N.of_nat i)) [] true (L "html5") false xinherit = Ok t) /\
  (exists t, compile_document xex_compile (fun i => dec (N.of_nat i)) [] true (L "html5") true xdocument = Ok t) /\
  (exists t, compile_document xex_compile (fun i => dec (N.of_nat i)) [] true (L "html5") false xdocument = Ok t).
Proof. repeat split; eexists; vm_compute; reflexivity. Qed.

(** ** C45: functions *)

(** The functions of a template: [__main__()], and each name declared, once, in order of the first
    declarations; and the code at module level, in order. *)
Theorem C45_functions : forall compile helper autoblocks cdata_scripts mode (frag : bool) d t,
  compile_document compile helper autoblocks cdata_scripts mode frag d = Ok t ->
  exists root l bodies, filter no_comment (d_children d) = [root] /\
    declares autoblocks cdata_scripts false root l /\
    mod_py t = map (fun code => (0, code)) (module_code l) /\
    defs t = map (fun kb => NDef 0 false (fst kb) (snd kb)) (combine (L "__main__()" :: distinct [L "__main__()"] (declared_names l)) bodies) /\
    length bodies = S (length (distinct [L "__main__()"] (declared_names l))).
Proof.
  intros compile helper autoblocks cdata_scripts mode frag d t E.
  apply document_declares in E as (root & l & ns & s & funs & R & D & C & -> & K & ND & B).
  exists root, l, (map snd funs). split; [exact R|]. split; [exact D|]. split; [reflexivity|]. cbn [defs]. change main_decl with (L "__main__()") in K. rewrite <- K.
  split.
  - f_equal. clear. induction funs as [|[k v] funs IH]; [reflexivity|]. cbn [map fst snd combine]. now rewrite <- IH.
  - rewrite map_length. apply (f_equal (@length _)) in K. rewrite map_length in K. exact K.
Qed.
Print Assumptions C45_functions.
(** The body of a function is the compiled content of the element that declared it last. *)
Theorem C45_bodies : forall compile helper autoblocks cdata_scripts mode (frag : bool) d t k body,
  compile_document compile helper autoblocks cdata_scripts mode frag d = Ok t ->
  In (NDef 0 false k body) (defs t) -> k <> L "__main__()" ->
  exists root l l1 e l2 child, filter no_comment (d_children d) = [root] /\
    declares autoblocks cdata_scripts false root l /\ l = l1 ++ Declares k e :: l2 /\ ~ In k (declared_names l2) /\
    (child = true <-> extending l1) /\ body_of compile helper autoblocks cdata_scripts mode child e body.
Proof.
  intros compile helper autoblocks cdata_scripts mode frag d t k body E I1 Ne.
  apply document_declares in E as (root & l & ns & s & funs & R & D & C & -> & K & ND & B). cbn [defs] in I1.
  apply in_map_iff in I1 as ([k1 v] & E & I1). cbn [fst snd] in E. assert (k1 = k /\ v = body) as [-> ->] by (split; congruence).
  destruct (B _ _ I1) as [[Ek _]|[_ (l1 & e & l2 & El & Nk & Bo)]]; [contradiction|].
  exists root, l, l1, e, l2, (extends_b l1). split; [exact R|]. split; [exact D|]. split; [exact El|]. split; [exact Nk|]. split; [apply extends_spec|exact Bo].
Qed.
Print Assumptions C45_bodies.
(** What a document declares is unique. *)
Theorem C45_unique : forall autoblocks cdata_scripts i n l l',
  declares autoblocks cdata_scripts i n l -> declares autoblocks cdata_scripts i n l' -> l = l'.
Proof. intros autoblocks cdata_scripts i n l l' D D'. eapply (proj1 (declares_unique autoblocks cdata_scripts)); eassumption. Qed.
Print Assumptions C45_unique.
(** In its place a block is called, unless the document extends another (as far as it has been
    read: a [py:extends] element after the block comes too late); a function leaves nothing, or the
    definition of a local function inside another function. *)
Theorem C45_block_place : forall compile helper autoblocks cdata_scripts mode p prev ln tag a cs name s ns s',
  role_of autoblocks cdata_scripts tag a (Block name) ->
  compile_node compile helper autoblocks cdata_scripts mode p prev (DElem ln tag a cs) s = Ok (ns, s') ->
  exists l, declares autoblocks cdata_scripts (c_in_def s) (DElem ln tag a cs) l /\
    (c_is_child s = true \/ extending l -> ns = []) /\
    (c_is_child s = false -> ~ extending l -> ns = [NExpr ln (L "_kj_block_" ++ name ++ L "()") false]).
Proof.
  intros compile helper autoblocks cdata_scripts mode p prev ln tag a cs name s ns s' Ro E.
  pose proof (block_place _ _ _ _ _ _ _ _ _ _ _ _ _ _ _ Ro E) as P.
  destruct (compile_records compile helper autoblocks cdata_scripts mode _ _ _ _ _ _ E) as (l & D & R & _).
  apply runs_child in R. exists l. split; [exact D|]. rewrite R in P. split.
  - intros H. rewrite P. assert (X : c_is_child s || extends_b l = true); [|now rewrite X].
    destruct H as [H|H]; [now rewrite H|]. apply extends_spec in H. rewrite H. apply orb_true_r.
  - intros H0 H. rewrite P, H0. cbn [orb]. destruct (extends_b l) eqn:X; [|reflexivity]. apply extends_spec in X. contradiction.
Qed.
Print Assumptions C45_block_place.
Theorem C45_def_place : forall compile helper autoblocks cdata_scripts mode p prev ln tag a cs f s ns s',
  role_of autoblocks cdata_scripts tag a (Def f) ->
  compile_node compile helper autoblocks cdata_scripts mode p prev (DElem ln tag a cs) s = Ok (ns, s') ->
  (c_in_def s = false -> ns = []) /\
  (c_in_def s = true -> exists a' s0 body s1, ns = [NDef ln true f body] /\
     compiled_in compile helper autoblocks cdata_scripts mode (InElement tag a') [] cs s0 body s1).
Proof.
  intros compile helper autoblocks cdata_scripts mode p prev ln tag a cs f s ns s' Ro E.
  pose proof (def_place _ _ _ _ _ _ _ _ _ _ _ _ _ _ _ Ro E) as P. split; intros H; rewrite H in P; exact P.
Qed.
Print Assumptions C45_def_place.
Lemma ex_directive : forall tag d, tag = L "py:" ++ d -> cmem c_colon d = false -> directive tag d.
Proof.
  intros tag d -> H. split; [|exists []; split; [reflexivity|now left]]. intros I1. apply cmem_In in I1. congruence.
Qed.
Lemma ex_plain_tag : forall tag, prefixb (L "py:") tag = false -> plain_tag tag.
Proof. intros tag H d D. apply directive_py in D. congruence. Qed.
Example C45_example :
  (exists t, compile_document xex_compile (fun i => dec (N.of_nat i)) [] true (L "xml") false xinherit = Ok t) /\
  (exists root l, filter no_comment (d_children xinherit) = [root] /\ declares [] true false root l /\
     extending l /\ declared_names l = [L "f(x)"; L "_kj_block_a()"]).
Proof.
  split; [eexists; vm_compute; reflexivity|].
  eexists; exists [Extends; Declares (L "f(x)") (DElem 3 (L "py:def") [(L "function", L "f(x)")] [DElem 3 (L "br") [] []]);
    Declares (L "_kj_block_a()") (DElem 2 (L "py:block") [(L "name", L "a")] [DElem 3 (L "py:def") [(L "function", L "f(x)")] [DElem 3 (L "br") [] []]])].
  split; [reflexivity|]. split; [|split; [now left|reflexivity]].
  apply de_extends; [apply ro_extends; [intros [[] _]|now apply ex_directive]|].
  apply (da_cons [] true false _ _ [_; _] []).
  - apply (de_block [] true false 2 _ _ _ (L "a") [_]); [apply (ro_block [] true (L "py:block") [(L "name", L "a")]); [intros [[] _]|now apply ex_directive]|].
    apply (da_cons [] true false _ _ [_] []); [|constructor].
    apply (de_def [] true 3 _ _ _ (L "f(x)") []); [apply (ro_def [] true (L "py:def") [(L "function", L "f(x)")]); [intros [[] _]|now apply ex_directive]|].
    apply (da_cons [] true true _ _ [] []); [|constructor]. apply de_inner; [|constructor].
    apply ro_elem; [intros [[] _]|now apply ex_plain_tag|reflexivity|intros [_ [E|E]]; discriminate].
  - apply (da_cons [] true false _ _ [] []); [|constructor]. apply de_inner; [|constructor].
    apply ro_elem; [intros [[] _]|now apply ex_plain_tag|reflexivity|intros [_ [E|E]]; discriminate].
Qed.

(** ** C30: py:strip *)

(** An element, [py:strip] or not, is its start tag, its content and its end tag. *)
Theorem C30_always : forall compile autoblocks cdata_scripts mode py parent prev ln tag a cs ps ss e,
  prefixb (L "py:") tag = false -> says compile autoblocks cdata_scripts mode parent prev (DElem ln tag a cs) ps -> assemble ps = Some ss ->
  value_at (L "py:strip") a [] -> negates py [] ->
  exists cps content, content_says compile autoblocks cdata_scripts mode tag a cs cps /\ assemble cps = Some content /\
    means py ss e = means py content e.
Proof.
  intros compile autoblocks cdata_scripts mode py parent prev ln tag a cs ps ss e Py S As V [F _].
  assert (ND : NoDup (map fst a)) by (inversion S; subst; try discriminate Py; assumption).
  destruct (element_parts _ _ _ _ _ _ _ _ _ _ _ Py S) as (g & A & A' & B & B' & cps & Tc & -> & FA & FB & Ct & _).
  assert (g = Some (L "False")).
  { destruct Tc as [Ab|_|c V' Ne]; [|reflexivity|].
    - destruct Ab. apply in_map_iff. now exists (L "py:strip", []).
    - exfalso. apply Ne. rewrite <- (get_attr_value _ _ _ ND V'). now apply get_attr_value. }
  subst g. destruct (assemble_between A cps B ss) as (content & Ac & ->); [exact (proj1 (part_loose _ A A' FA))|exact (proj1 (part_loose _ B B' FB))|exact As|].
  exists cps, content. split; [exact Ct|]. split; [exact Ac|]. rewrite !means_app. unfold then_.
  rewrite (part_false py (Some (L "False")) (L "False") A A' e eq_refl FA (F e)). cbn [rbind fst snd]. rewrite means_app. unfold then_.
  destruct (means py content e) as [[o e1]|x]; [|reflexivity]. cbn [rbind rmap fst snd].
  rewrite (part_false py (Some (L "False")) (L "False") B B' e1 eq_refl FB (F e1)). cbn [rmap fst snd app]. now rewrite app_nil_r.
Qed.
Print Assumptions C30_always.
(** With a condition that is true before and after the content, the content alone. *)
Theorem C30_true : forall compile autoblocks cdata_scripts mode py parent prev ln tag a cs ps ss c e,
  prefixb (L "py:") tag = false -> says compile autoblocks cdata_scripts mode parent prev (DElem ln tag a cs) ps -> assemble ps = Some ss ->
  value_at (L "py:strip") a c -> c <> [] -> negates py c -> ev_bool py e c = Ok true ->
  exists cps content, content_says compile autoblocks cdata_scripts mode tag a cs cps /\ assemble cps = Some content /\
    ((forall o e', means py content e = Ok (o, e') -> ev_bool py e' c = Ok true) -> means py ss e = means py content e).
Proof.
  intros compile autoblocks cdata_scripts mode py parent prev ln tag a cs ps ss c e Py S As V Ne [_ Neg] B0.
  assert (ND : NoDup (map fst a)) by (inversion S; subst; try discriminate Py; assumption).
  destruct (element_parts _ _ _ _ _ _ _ _ _ _ _ Py S) as (g & A & A' & B & B' & cps & Tc & -> & FA & FB & Ct & _).
  assert (g = Some (L "not (" ++ c ++ L ")")).
  { destruct Tc as [Ab|V'|c' V' Ne'].
    - destruct Ab. apply in_map_iff. now exists (L "py:strip", c).
    - exfalso. apply Ne. rewrite <- (get_attr_value _ _ _ ND V). now apply get_attr_value.
    - do 3 f_equal. rewrite <- (get_attr_value _ _ _ ND V'). now apply get_attr_value. }
  subst g. destruct (assemble_between A cps B ss) as (content & Ac & ->); [exact (proj1 (part_loose _ A A' FA))|exact (proj1 (part_loose _ B B' FB))|exact As|].
  exists cps, content. split; [exact Ct|]. split; [exact Ac|]. intros After. rewrite !means_app. unfold then_.
  assert (F0 : ev_bool py e (L "not (" ++ c ++ L ")") = Ok false) by (rewrite Neg, B0; reflexivity).
  rewrite (part_false py (Some (L "not (" ++ c ++ L ")")) (L "not (" ++ c ++ L ")") A A' e eq_refl FA F0). cbn [rbind fst snd]. rewrite means_app. unfold then_.
  destruct (means py content e) as [[o e1]|x] eqn:Ec; [|reflexivity]. cbn [rbind rmap fst snd].
  assert (F1 : ev_bool py e1 (L "not (" ++ c ++ L ")") = Ok false) by (rewrite Neg, (After o e1 eq_refl); reflexivity).
  rewrite (part_false py (Some (L "not (" ++ c ++ L ")")) (L "not (" ++ c ++ L ")") B B' e1 eq_refl FB F1). cbn [rmap fst snd app]. now rewrite app_nil_r.
Qed.
Print Assumptions C30_true.
(** With a condition that is false before and after the content, the same as without [py:strip]. *)
Theorem C30_false : forall compile autoblocks cdata_scripts mode py parent prev ln tag a cs ps ss c e,
  prefixb (L "py:") tag = false -> says compile autoblocks cdata_scripts mode parent prev (DElem ln tag a cs) ps -> assemble ps = Some ss ->
  value_at (L "py:strip") a c -> c <> [] -> negates py c -> ev_bool py e c = Ok false ->
  exists cps content ps' ss', content_says compile autoblocks cdata_scripts mode tag a cs cps /\ assemble cps = Some content /\
    says compile autoblocks cdata_scripts mode parent prev (DElem ln tag (without (L "py:strip") a) cs) ps' /\ assemble ps' = Some ss' /\
    ((forall o e', means py content e = Ok (o, e') -> ev_bool py e' c = Ok false) -> means py ss e = means py ss' e).
Proof.
  intros compile autoblocks cdata_scripts mode py parent prev ln tag a cs ps ss c e Py S As V Ne [_ Neg] B0.
  assert (ND : NoDup (map fst a)) by (inversion S; subst; try discriminate Py; assumption).
  destruct (element_parts _ _ _ _ _ _ _ _ _ _ _ Py S) as (g & A & A' & B & B' & cps & Tc & -> & FA & FB & Ct & S').
  assert (g = Some (L "not (" ++ c ++ L ")")).
  { destruct Tc as [Ab|V'|c' V' Ne'].
    - destruct Ab. apply in_map_iff. now exists (L "py:strip", c).
    - exfalso. apply Ne. rewrite <- (get_attr_value _ _ _ ND V). now apply get_attr_value.
    - do 3 f_equal. rewrite <- (get_attr_value _ _ _ ND V'). now apply get_attr_value. }
  subst g. destruct (assemble_between A cps B ss) as (content & Ac & ->); [exact (proj1 (part_loose _ A A' FA))|exact (proj1 (part_loose _ B B' FB))|exact As|].
  exists cps, content, (map PcStm A' ++ cps ++ map PcStm B'), (A' ++ content ++ B'). split; [exact Ct|]. split; [exact Ac|]. split; [exact S'|].
  split; [rewrite assemble_loose, (assemble_last (length cps)) by (try exact (proj2 (part_loose _ A A' FA)); try exact (proj2 (part_loose _ B B' FB)); auto); now rewrite Ac|].
  intros After. rewrite !means_app. unfold then_.
  assert (F0 : ev_bool py e (L "not (" ++ c ++ L ")") = Ok true) by (rewrite Neg, B0; reflexivity).
  destruct (part_true py (Some (L "not (" ++ c ++ L ")")) (L "not (" ++ c ++ L ")") A A' e eq_refl FA F0) as [EA KA]. rewrite <- EA.
  destruct (means py A e) as [[o1 e1]|x]; [|reflexivity]. cbn [rbind fst snd]. rewrite (KA o1 e1 eq_refl), !means_app. unfold then_.
  destruct (means py content e) as [[o e2]|x] eqn:Ec; [|reflexivity]. cbn [rbind rmap fst snd].
  assert (F1 : ev_bool py e2 (L "not (" ++ c ++ L ")") = Ok true) by (rewrite Neg, (After o e2 eq_refl); reflexivity).
  destruct (part_true py (Some (L "not (" ++ c ++ L ")")) (L "not (" ++ c ++ L ")") B B' e2 eq_refl FB F1) as [EB _]. now rewrite EB.
Qed.
Print Assumptions C30_false.
(** The condition is evaluated again for each part of the tags.  If the content rebinds its variables,
    the end tag may be shown without the start tag:
    [<b py:strip="i"><py:for each="i in 10">x</py:for></b>]. *)
Definition xrebound : dnode :=
  DElem 1 (L "b") [(L "py:strip", L "i")]
    [DElem 1 (L "py:for") [(L "each", L "i in 10")] [DText 1 (L "x") true]].
Theorem C30_rebound_refuted : exists n ps ss,
  says xex_compile [] true (L "xml") [] [] n ps /\ assemble ps = Some ss /\ negates xpy (L "i") /\
  ev_bool xpy [(L "i", VStr (L "1"))] (L "i") = Ok true /\
  rmap (fun oe => render (fst oe)) (means xpy ss [(L "i", VStr (L "1"))]) = Ok (L "xx</b>").
Proof.
  exists xrebound. eexists.
  exists [SText (L "<b") (Some (L "not (i)")); SText (L ">") (Some (L "not (i)")); SFor (L "i in 10") [STrans (L "x") None] []; SText (L "</b>") (Some (L "not (i)"))].
  split; [|split; [|split; [|split]]].
  - eapply (sy_elem _ _ _ _ _ _ _ _ _ _ (Some (L "not (i)")) [(L "py:strip", L "i")]); try reflexivity; try (intros []).
    + repeat constructor. intros [].
    + apply (tc_if _ (L "i")); [now left|discriminate].
    + repeat constructor.
    + eapply (as_special _ _ _ _ _ _ _ _ []); [right; now right|intros H; now destruct H|constructor].
    + apply ma_none. left. intros [H|[]]. discriminate.
    + eapply rs_children; [left; intros [H|[]]; discriminate|discriminate|intros [_ S]; now apply (ex_tag (L "b") eq_refl)|intros [S _]; discriminate|].
      eapply al_node; [now right| |constructor]. eapply sy_for; [intros []|reflexivity| |].
      * eapply al_node; [now left| |constructor]. apply sy_text. apply ts_text; [discriminate|now apply (ex_tag (L "py:for") eq_refl)|].
        apply reads_by; [vm_compute; reflexivity|]. repeat (constructor; try exact Logic.I).
      * vm_compute. reflexivity.
  - vm_compute. reflexivity.
  - split; intros e; [reflexivity|]. cbn [ev_bool xpy].
    change (L "not (" ++ L "i" ++ L ")") with (L "not (i)").
    change (seqb (L "not (i)") (L "False")) with false. change (prefixb (L "not (") (L "not (i)")) with true.
    change (firstn (length (L "not (i)") - 6) (skipn 5 (L "not (i)"))) with (L "i"). change (seqb (L "i") (L "False")) with false.
    change (prefixb (L "not (") (L "i")) with false. cbv iota. destruct (ex_value e (L "i")); [|reflexivity]. cbn [rmap]. now rewrite negb_involutive.
  - vm_compute. reflexivity.
  - vm_compute. reflexivity.
Qed.
Print Assumptions C30_rebound_refuted.
Example C30_example : exists n ps ss,
  says xex_compile [] true (L "xml") [] [] n ps /\ assemble ps = Some ss /\ n = xdoc /\
  rmap (fun oe => render (fst oe)) (means xpy ss [(L "x", VStr (L "1"))]) =
    Ok (L "<ul class=""c1""><li>0: a&lt;b</li><li>1: a&lt;b</li><li>2: a&lt;b</li></ul>").
Proof.
  destruct xdoc_reads as (ps & S & A). exists xdoc, ps, xdoc_says. split; [exact S|]. split; [exact A|]. split; [reflexivity|]. vm_compute. reflexivity.
Qed.

(** ** C43: how elements end *)

(** Everything an element shows apart from its attributes ([A], under the condition [g] like the tags)
    and its content: void elements in HTML have no end tag, even if they have content; every other element with content has one;
    an element without content is closed at once, in XML in short, except script. *)
Theorem C43_element : forall compile autoblocks cdata_scripts mode parent prev ln tag a cs ps,
  prefixb (L "py:") tag = false -> says compile autoblocks cdata_scripts mode parent prev (DElem ln tag a cs) ps ->
  exists g A cps, tag_condition a g /\
    Forall (fun s => (exists k v, s = SAttr k v g mode) \/ exists x, s = SAttrs x g mode) A /\
    content_says compile autoblocks cdata_scripts mode tag a cs cps /\
    let start := map PcStm (SText (L "<" ++ tag) g :: A) in
    let text t := [PcStm (SText t g)] in
    let expr := exists c, value_at (L "py:content") a c /\ c <> [] in
    (is_html mode -> void tag -> ~ expr -> ps = start ++ text (L ">") ++ cps) /\
    (~ (is_html mode /\ void tag) -> cs <> [] \/ expr -> ps = start ++ text (L ">") ++ cps ++ text (L "</" ++ tag ++ L ">")) /\
    (is_html mode -> void tag -> expr -> ps = start ++ text (L ">") ++ cps ++ text (L "</" ++ tag ++ L ">")) /\
    (is_html mode \/ tag = L "script" -> ~ void tag -> cs = [] -> ~ expr -> ps = start ++ text (L "></" ++ tag ++ L ">")) /\
    (~ is_html mode -> tag <> L "script" -> cs = [] -> ~ expr -> ps = start ++ text (L "/>")).
Proof.
  intros compile autoblocks cdata_scripts mode parent prev ln tag a cs ps Py S.
  inversion S; subst; try discriminate Py.
  match goal with H : attrs_say _ _ _ _ _ _ |- _ => rename H into As end.
  match goal with H : more_attrs _ _ _ _ |- _ => rename H into Ma end.
  match goal with H : rest_says _ _ _ _ _ _ _ _ _ _ |- _ => rename H into Rs end.
  match goal with H : NoDup _ |- _ => rename H into ND end.
  assert (FA : Forall (fun s => (exists k v, s = SAttr k v g mode) \/ exists x, s = SAttrs x g mode) (shown ++ more)).
  { apply Forall_app. split.
    - clear - As. induction As; [constructor|assumption|]. constructor; [left; eauto|assumption].
    - destruct Ma; [constructor|]. constructor; [right; eauto|constructor]. }
  assert (NE : forall c, no_content_attr a -> value_at (L "py:content") a c -> c <> [] -> False).
  { intros c [Ab|V] V' Ne.
    - apply Ab. apply in_map_iff. now exists (L "py:content", c).
    - apply Ne. rewrite <- (get_attr_value _ _ _ ND V'). now apply get_attr_value. }
  assert (VS : void (L "script") -> False) by (intros V; apply (script_not_void (L "script")); [now left|exact V]).
  exists g, (shown ++ more).
  inversion Rs; subst; (eexists; split; [assumption|]; split; [exact FA|]; split;
    [first [eapply ct_expr; eassumption|apply ct_empty; [assumption|reflexivity]|eapply ct_script; first [reflexivity|eassumption]
           |eapply ct_children; [assumption|assumption|first [assumption|intros [_ SS]; now apply (script_not_void tag)]|eassumption]]|]);
    cbv zeta; cbn [map]; rewrite ?map_app; cbn [app]; rewrite <- ?app_assoc; cbn [app].
  - (* py:content *) repeat split.
    + intros _ _ X. exfalso. apply X. eauto.
    + intros _ _ _ X. exfalso. apply X. eauto.
    + intros _ _ _ X. exfalso. apply X. eauto.
  - (* empty *) match goal with H : closes _ _ _ |- _ => destruct H as [Hh V|Hh V| ->|Hh Ns] end; repeat split;
      try (intros; reflexivity); try tauto; try (intros; exfalso; tauto);
      try (intros _ _ (c & X & Y); exfalso; eapply NE; eassumption);
      try (intros _ [X|(c & X & Y)]; exfalso; [congruence|eapply NE; eassumption]).
  - (* script *) repeat split; intros; try congruence. exfalso. now apply (script_not_void tag).
  - repeat split; intros; try congruence; exfalso; tauto.
  - repeat split; intros; try congruence; try (exfalso; tauto).
    match goal with X : exists c, _ |- _ => destruct X as (c & X & Y) end. exfalso. eapply NE; eassumption.
Qed.
Print Assumptions C43_element.
