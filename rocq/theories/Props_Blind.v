(** * What values contain does not change the structure of the page (C80) *)

From Coq Require Import Ascii String List Arith NArith ZArith Bool Permutation Sorted.
From Verif Require Import PyStr PyStrLemmas M_Values S_Values P_Values M_IR S_IR M_Exec S_Exec P_Exec P_Exec2 P_Exec3 P_Exec4 P_Exec5
  M_Text M_XText S_XText P_XText M_Entities S_Entities P_Entities M_Dom M_Doctype M_XCompile S_XDoc P_XDoc P_XDoc2 P_XStrip S_Markup P_Markup S_Nested P_Nested P_Raw P_Nested2 S_Blind P_Blind.
From Verif Require Import Props_Exec Props_XText Props_XDoc Props_Markup Props_Script.
Import ListNotations.
Open Scope list_scope.

(** The same document run twice, with variables that differ only in the plain values of the [free] ones: both
    runs raise the same exception, or both show texts with the same line before the root that read as the same
    tags with the same names of attributes, and the same comments.
    Partial: in scripts, style sheets and CDATA sections values must be shown as text, with texts beside them that
    neither end the element nor the section (as in C78); functions, blocks, imports and embedded Python as in C61.  Values that are markup themselves and [None] are no plain
    values: [C80_literal_refuted], [C80_none_refuted]. *)
Theorem C80_structure_partial : forall compile helper autoblocks scripts mode py (gen user free texts deciding : str -> Prop) (frag : bool) d root ps ss (line : str) e e',
  (forall i, gen (helper i)) -> hygienic py gen user ->
  filter no_comment (d_children d) = [root] ->
  says compile autoblocks scripts mode [] [] root ps -> assemble ps = Some ss -> Forall (user_stm gen user) ss ->
  (if frag then line = [] else doctype_line mode (d_dtd d) line) ->
  let html := prefixb (L "html") mode in
  blind py html free texts deciding -> settled py html free texts deciding compile scripts mode root -> alike_env html free texts e e' ->
  exists body,
    compile_document compile helper autoblocks scripts mode frag d = Ok (TemplateNode 0 [] [NDef 0 false (L "__main__()") body]) /\
    match exec_body py (programs body) e [] [], exec_body py (programs body) e' [] [] with
    | Ok (o, w, sw), Ok (o', w', sw') =>
        w = w' /\ sw = sw' /\
        exists s s' is is', render o = line ++ s /\ render o' = line ++ s' /\
          read html s = Some is /\ read html s' = Some is' /\ structure_of is = structure_of is'
    | Raise x, Raise y => x = y
    | _, _ => False
    end.
Proof.
  intros compile helper autoblocks scripts mode py gen user free texts deciding frag d root ps ss line e e' Hg Hy Fl S A U Hl html G O Se.
  pose proof (document_blind py html mode free texts deciding eq_refl G compile autoblocks scripts [] [] root ps ss e e' S A O Se) as Hb.
  destruct (document_renders compile helper autoblocks scripts mode py gen user frag d root ps ss line e Hg Hy Fl S A U Hl) as (body & Ec & Er).
  destruct (document_renders compile helper autoblocks scripts mode py gen user frag d root ps ss line e' Hg Hy Fl S A U Hl) as (body' & Ec' & Er').
  assert (body' = body) as -> by congruence. exists body. split; [exact Ec|]. unfold both in Hb.
  destruct (means py ss e) as [[o1 e1]|x1]; destruct (means py ss e') as [[o1' e1']|x1']; try contradiction; cbn [rmap fst] in Er, Er';
    destruct (exec_body py (programs body) e [] []) as [[[o w] sw]|x]; destruct (exec_body py (programs body) e' [] []) as [[[o' w'] sw']|x']; try discriminate; cbn [rmap fst snd] in Er, Er'.
  - destruct Hb as [_ (i & j & Wi & Wj & Si)]. split; [congruence|]. split; [congruence|]. exists (render o1), (render o1'), i, j. split; [congruence|]. split; [congruence|].
    split; [now apply read_written|]. split; [now apply read_written|exact Si].
  - congruence.
Qed.
Print Assumptions C80_structure_partial.

(** Any two strings, and a string and a number other than the truth values, may stand for each other. *)
Theorem C80_strings : forall html s s', alike html (VStr s) (VStr s').
Proof. intros html s s'. right. repeat split. Qed.
Print Assumptions C80_strings.

(** [<ul class="c$x">...] of C43, with any two strings for [x]. *)
Notation decides := (eq (L "i in 012")).
Lemma xpy_value : forall html e e' x, alike_env html only_x only_x e e' -> alike_results (alike html) (ex_value e x) (ex_value e' x) /\ (L "x" <> x -> ex_value e x = ex_value e' x).
Proof.
  intros html e e' x Se. pose proof (alike_lookup html only_x only_x e e' x Se) as H. unfold ex_value. destruct (lookup x e) as [v|]; destruct (lookup x e') as [v'|]; try contradiction.
  - destruct H as (Al & Fr & _). split; [exact Al|]. intros Ne. destruct Fr as [Fr| ->]; [now destruct Ne|reflexivity].
  - split; [|reflexivity]. destruct x as [|c [|? ?]]; try reflexivity. destruct ((48 <=? c) && (c <=? 57))%N; [|reflexivity]. apply C80_strings.
Qed.
Lemma xpy_blind : forall html, blind xpy html only_x only_x decides.
Proof.
  intros html. constructor.
  - intros e e' x Se. apply (xpy_value html e e' x Se).
  - intros e e' x <- Se. destruct (xpy_value html e e' (L "i in 012") Se) as [_ Ev]. assert (E : ex_value e (L "i in 012") = ex_value e' (L "i in 012")) by (apply Ev; discriminate). split; [exact E|]. cbn [ev_bool xpy].
    change (seqb (L "i in 012") (L "False")) with false. change (prefixb (L "not (") (L "i in 012")) with false. cbn iota. now rewrite E.
  - intros e e' x <- Se. cbn [ev_for xpy ex_python alike_results]. change (L "i in 012") with (105%N :: 32%N :: 105%N :: 110%N :: 32%N :: L "012"). cbn [alike_results]. repeat (apply Forall2_cons; [apply Forall2_cons; [|apply Forall2_nil]|]); try apply Forall2_nil.
    all: split; [reflexivity|]; split; [apply C80_strings|]; split; [now right|discriminate].
  - intros t v W. exists v. cbn [trans xpy]. now rewrite render_str.
  - intros e e' x Se. constructor.
Qed.
Lemma x_alike : forall html s s', alike_env html only_x only_x [(L "x", VStr s)] [(L "x", VStr s')].
Proof. intros html s s'. constructor; [|constructor]. split; [reflexivity|]. split; [apply C80_strings|]. split; [now left|]. intros _. split; apply C78_plain; now right. Qed.
Example C80_example : forall s s',
  (forall i, ex_gen (L "_kj" ++ dec (N.of_nat i))) /\ hygienic xpy ex_gen xuser /\
  (exists ps, says xex_compile [] true (L "xml") [] [] ndoc ps /\ assemble ps = Some ndoc_says) /\
  Forall (user_stm ex_gen xuser) ndoc_says /\ doctype_line (L "xml") [] [] /\
  blind xpy false only_x only_x decides /\ settled xpy false only_x only_x decides xex_compile true (L "xml") ndoc /\
  alike_env false only_x only_x [(L "x", VStr s)] [(L "x", VStr s')].
Proof.
  intros s s'. split; [reflexivity|]. split; [exact xpy_hygienic|]. split; [exact ndoc_reads|]. split; [unfold ndoc_says; repeat constructor|]. split; [now apply dl_none|]. split; [apply xpy_blind|]. split; [|apply x_alike].
  assert (T : forall ln s e, settled xpy false only_x only_x decides xex_compile true (L "xml") (DText ln (xml_text s) e)) by (intros; constructor).
  assert (Ns : forall tag, smem tag (html_optional_end_tags ++ html_cdata_tags) = false -> ~ (script_or_style tag /\ (true = true \/ false = true))) by (intros tag E [X _]; now apply (ex_tag tag E)).
  apply sd_elem; try (split; [discriminate|reflexivity]); try reflexivity; try discriminate; [now apply Ns| | |apply st_node; [|constructor]].
  - intros k v [E|[]] _. injection E as <- _. split; [discriminate|reflexivity].
  - intros g Tc. destruct Tc as [_|V|c V Nc]; [exact Logic.I| |]; destruct V as [V|[]]; discriminate.
  - apply sd_directive; [reflexivity| |].
    + unfold settles. repeat (split; [discriminate||reflexivity|]). discriminate.
    + constructor; [|constructor]. apply sd_elem; try (split; [discriminate|reflexivity]); try reflexivity; try discriminate; [now apply Ns|intros k v []| |apply st_node; [|apply st_node; [|constructor]]].
      * intros g Tc. destruct Tc as [_|V|c V Nc]; [exact Logic.I| |]; destruct V.
      * apply (T 2 (L "$i: ") true).
      * apply sd_elem; try (split; [discriminate|reflexivity]); try reflexivity; try discriminate; [now apply Ns| | |apply st_node; [apply (T 2 (L "a<b") true)|constructor]].
        -- intros k v [E|[]] Nsp. injection E as <- _. destruct Nsp. right. now right.
        -- intros g Tc. destruct Tc as [_|V|c V Nc]; [exact Logic.I|exists false; reflexivity|]. destruct V as [V|[]]. injection V as <-. now destruct Nc.
Qed.
(** Scripts and CDATA sections with any strings in them. *)
Lemma x_shows : forall html, shows_text xpy html only_x only_x (L "x").
Proof.
  intros html e e' Se. pose proof (alike_lookup html only_x only_x e e' (L "x") Se) as H. cbn [ev xpy]. unfold ex_value.
  destruct (lookup (L "x") e) as [w|]; destruct (lookup (L "x") e') as [w'|]; try contradiction; [|split; discriminate].
  destruct H as (_ & _ & T). destruct (T eq_refl) as [T1 T2]. split; intros v E; injection E as <-; assumption.
Qed.
Example C80_script_example :
  settled xpy true only_x only_x decides xex_compile true (L "html") (DElem 1 (L "p") [] [DElem 1 (L "script") [] sdoc]) /\
  settled xpy false only_x only_x decides xex_compile true (L "xml")
    (DElem 1 (L "p") [] [DMark 1 (L "<![CDATA["); DText 1 (L "a<b $x") false; DMark 1 (L "]]>"); DElem 1 (L "script") [] sdoc]).
Proof.
  assert (Sc : forall html mode, (html = false -> mode = L "xml") -> settled xpy html only_x only_x decides xex_compile true mode (DElem 1 (L "script") [] sdoc)).
  { intros html mode Hm. apply sd_raw; [now left|now left|intros k v []|intros []|]. split; [intros _ c []|]. split; [|discriminate]. intros _. split; [exact Hm|]. intros ss. apply (sdoc_all _ html); [intros t; apply fitsb_fits|apply x_shows]. }
  assert (El : forall html mode cs, settleds xpy html only_x only_x decides xex_compile true mode (L "p") cs -> settled xpy html only_x only_x decides xex_compile true mode (DElem 1 (L "p") [] cs)).
  { intros html mode cs F. apply sd_elem; [reflexivity|split; [discriminate|reflexivity]|reflexivity|intros [S _]; now apply (ex_tag (L "p") eq_refl)|intros k v []|intros _ _; left; intros []| |exact F].
    intros g Tc. destruct Tc as [_|V|c V Nc]; [exact Logic.I| |]; destruct V. }
  split; apply El.
  - apply st_node; [apply Sc; discriminate|constructor].
  - apply (st_cdata xpy false only_x only_x decides xex_compile true (L "xml") (L "p") 1 1 [DText 1 (L "a<b $x") false]); [reflexivity| |apply st_node; [now apply Sc|constructor]].
    constructor; [|constructor]. intros ss T. destruct T as [ps SS R|ps N1 N2 R]; [destruct SS; discriminate|]. apply pieces_spec in R. vm_compute in R. injection R as <-. cbn [map text_stm].
    apply Forall_cons; [|apply Forall_cons; [apply x_shows|constructor]]. change (raw_part xpy false only_x only_x (STrans (L "a<b ") None)). split; [|cbn [trans xpy]; rewrite render_str]; now apply fitsb_fits.
Qed.

(** Running the template whose source is parsed as [es] with variables [e]. *)
Definition run_with (e : env) (es : list event) : result str :=
  rbind (xml_template (fun _ => Ok es) xex_compile (fun i => L "_kj" ++ dec (N.of_nat i)) (Some (L "xml")) true [] true false (L "<x/>")) (fun t =>
    match defs t with
    | [NDef _ _ _ body] => rmap (fun r => render (fst (fst r))) (exec_body xpy (programs body) e [] [])
    | _ => Raise "no main function"
    end).
Example C80_text : exists es s s' is is', es = [EStart 1 (L "p") [(L "id", L "$x")]; EChars 1 (L "$x"); EEnd 1 (L "p")] /\
  run_with [(L "x", VStr (L "a"))] es = Ok s /\ run_with [(L "x", VStr (L """><b>"))] es = Ok s' /\ read false s = Some is /\ read false s' = Some is' /\
  structure_of is = structure_of is' /\ s' = L "<p id=""&quot;&gt;&lt;b&gt;"">&quot;&gt;&lt;b&gt;</p>".
Proof.
  eexists. eexists. eexists. eexists. eexists. split; [reflexivity|]. split; [vm_compute; reflexivity|]. split; [vm_compute; reflexivity|]. split; [vm_compute; reflexivity|]. split; [vm_compute; reflexivity|]. split; vm_compute; reflexivity.
Qed.

(** What is marked as markup is shown as it is. *)
Theorem C80_literal_refuted : exists es v v' s s' is is', es = [EStart 1 (L "p") []; EChars 1 (L "$x"); EEnd 1 (L "p")] /\ S_Values.plain v /\ (exists h t, v' = VHtml h t) /\
  run_with [(L "x", v)] es = Ok s /\ run_with [(L "x", v')] es = Ok s' /\ read false s = Some is /\ read false s' = Some is' /\ structure_of is <> structure_of is'.
Proof.
  eexists. exists (VStr (L "a")), (VHtml (L "<b></b>") (L "b")). eexists. eexists. eexists. eexists. split; [reflexivity|]. split; [exact Logic.I|]. split; [eexists; eexists; reflexivity|]. split; [vm_compute; reflexivity|]. split; [vm_compute; reflexivity|]. split; [vm_compute; reflexivity|]. split; [vm_compute; reflexivity|]. vm_compute. discriminate.
Qed.
Print Assumptions C80_literal_refuted.
(** An attribute whose whole value is [None] is left out. *)
Theorem C80_none_refuted : exists es v s s' is is', es = [EStart 1 (L "p") [(L "id", L "$x")]; EEnd 1 (L "p")] /\ S_Values.plain v /\
  run_with [(L "x", v)] es = Ok s /\ run_with [(L "x", VNone)] es = Ok s' /\ read false s = Some is /\ read false s' = Some is' /\ structure_of is <> structure_of is'.
Proof.
  eexists. exists (VStr (L "a")). eexists. eexists. eexists. eexists. split; [reflexivity|]. split; [exact Logic.I|]. split; [vm_compute; reflexivity|]. split; [vm_compute; reflexivity|]. split; [vm_compute; reflexivity|]. split; [vm_compute; reflexivity|]. vm_compute. discriminate.
Qed.
Print Assumptions C80_none_refuted.
