(** * The rendering mode changes the syntax only (C79) *)

From Coq Require Import Ascii String List Arith NArith ZArith Bool Permutation Sorted.
From Verif Require Import PyStr PyStrLemmas M_Values S_Values P_Values M_IR S_IR M_Exec S_Exec P_Exec P_Exec2 P_Exec3 P_Exec4 P_Exec5
  M_Text M_XText S_XText P_XText M_Entities S_Entities P_Entities M_Dom M_Doctype M_XCompile S_XDoc P_XDoc P_XDoc2 P_XStrip S_Markup P_Markup S_Nested P_Nested P_Raw P_Nested2 S_Modes P_Modes.
From Verif Require Import Props_Exec Props_XText Props_XDoc Props_Markup.
Import ListNotations.
Open Scope list_scope.

(** Whatever the two modes, the same document run with the same variables raises the same exception, or shows
    texts that read as the same elements, attributes, texts and comments, each text by the rules of its own mode
    ([read true]: HTML); only the line before the root and the values of boolean attributes may differ.
    Partial: script and style elements, CDATA sections and void elements with content are left out, since
    the claim is false of them ([C79_void_refuted], [C79_script_refuted]); functions, blocks, imports and embedded Python as in C61. *)
Theorem C79_modes_partial : forall compile helper autoblocks scripts mode mode' py (gen user : str -> Prop) (frag : bool) d root ps ss (line line' : str) e,
  (forall i, gen (helper i)) -> hygienic py gen user ->
  filter no_comment (d_children d) = [root] ->
  says compile autoblocks scripts mode [] [] root ps -> assemble ps = Some ss -> Forall (user_stm gen user) ss ->
  (if frag then line = [] else doctype_line mode (d_dtd d) line) ->
  (if frag then line' = [] else doctype_line mode' (d_dtd d) line') ->
  evenly py -> modeless py root -> even_env e ->
  exists body body',
    compile_document compile helper autoblocks scripts mode frag d = Ok (TemplateNode 0 [] [NDef 0 false (L "__main__()") body]) /\
    compile_document compile helper autoblocks scripts mode' frag d = Ok (TemplateNode 0 [] [NDef 0 false (L "__main__()") body']) /\
    match exec_body py (programs body) e [] [], exec_body py (programs body') e [] [] with
    | Ok (o, w, sw), Ok (o', w', sw') =>
        w = w' /\ sw = sw' /\
        exists s s' is is', render o = line ++ s /\ render o' = line' ++ s' /\
          read (prefixb (L "html") mode) s = Some is /\ read (prefixb (L "html") mode') s' = Some is' /\ Forall2 same_item is is'
    | Raise x, Raise y => x = y
    | _, _ => False
    end.
Proof.
  intros compile helper autoblocks scripts mode mode' py gen user frag d root ps ss line line' e Hg Hy Fl S A U Hl Hl' G O Se.
  destruct (document_two py mode mode' gen user G compile autoblocks scripts [] [] root ps ss S A O) as (ps' & ss' & S' & A' & (_ & Hu & Hb)).
  destruct (document_renders compile helper autoblocks scripts mode py gen user frag d root ps ss line e Hg Hy Fl S A U Hl) as (body & Ec & Er).
  destruct (document_renders compile helper autoblocks scripts mode' py gen user frag d root ps' ss' line' e Hg Hy Fl S' A' (Hu U) Hl') as (body' & Ec' & Er').
  exists body, body'. split; [exact Ec|]. split; [exact Ec'|]. specialize (Hb e Se). unfold both in Hb.
  destruct (means py ss e) as [[o1 e1]|x1]; destruct (means py ss' e) as [[o1' e1']|x1']; try destruct Hb; cbn [rmap fst] in Er, Er';
    destruct (exec_body py (programs body) e [] []) as [[[o w] sw]|x]; destruct (exec_body py (programs body') e [] []) as [[[o' w'] sw']|x']; try discriminate; cbn [rmap fst snd] in Er, Er'.
  - destruct H0 as [_ (i & j & Wi & Wj & Si)]. split; [congruence|]. split; [congruence|]. exists (render o1), (render o1'), i, j. split; [congruence|]. split; [congruence|].
    split; [now apply read_written|]. split; [now apply read_written|exact Si].
  - congruence.
Qed.
Print Assumptions C79_modes_partial.

(** Values that are shown alike: nothing, plain values, markup that reads the same in both ways, sequences of such. *)
Theorem C79_plain : forall v, v = VNone \/ S_Values.plain v -> even v.
Proof.
  intros v [->|P]; [exists []; split; constructor|]. exists (map I_char (to_str v)).
  assert (escape v = VStr (escape_str (to_str v))) as -> by (destruct v; try destruct P; reflexivity). rewrite render_str. split; apply written_of_text, written_escape.
Qed.
Print Assumptions C79_plain.
Theorem C79_markup : forall h s, (exists is, written false is h /\ written true is h) <-> even (VHtml h s).
Proof. intros h s. unfold even. cbn [escape]. rewrite render_str. reflexivity. Qed.
Print Assumptions C79_markup.

(** What is the same up to the values of boolean attributes is the same without them. *)
Theorem C79_exact : forall is is', Forall2 same_item is is' ->
  Forall (fun i => match i with I_start _ a => Forall (fun kv => ~ boolean_attr (fst kv)) a | _ => True end) is -> is = is'.
Proof.
  intros is is' F. induction F as [|i j is is' Hi F IH]; intros N; [reflexivity|]. apply Forall_cons_iff in N. destruct N as [Ni N]. rewrite (IH N). f_equal.
  destruct Hi as [tag a b Ha|i]; [|reflexivity]. f_equal. clear - Ha Ni. induction Ha as [|x y a b Hx Ha IH]; [reflexivity|]. apply Forall_cons_iff in Ni. destruct Ni as [Nx Ni]. rewrite (IH Ni). f_equal.
  destruct Hx as [x|k v v' B]; [reflexivity|]. now destruct Nx.
Qed.
Print Assumptions C79_exact.

(** [<ul class="c$x">...] of C43 in XML and HTML 5. *)
Lemma xpy_evenly : evenly xpy.
Proof.
  constructor.
  - intros e x v Se E. cbn [ev xpy] in E. unfold ex_value in E. destruct (lookup x e) as [w|] eqn:Lk; [injection E as <-; now apply (even_lookup e x)|].
    destruct x as [|c [|? ?]]; try discriminate. destruct ((48 <=? c) && (c <=? 57))%N; [|discriminate]. injection E as <-. apply C79_plain. now right.
  - intros e x rounds Se E. cbn [ev_for xpy ex_python] in E. revert E.
    repeat match goal with |- match ?c with _ => _ end = _ -> _ => destruct c end; intros E; try discriminate E.
    all: injection E as <-; apply Forall_forall; intros r I1; apply in_map_iff in I1; destruct I1 as (i & <- & _); constructor; [|constructor]; apply C79_plain; now right.
  - intros t v W. exists v. cbn [trans xpy]. now rewrite render_str.
  - intros e x attrs Se E. cbn [ev_attrs xpy ex_python] in E. injection E as <-. constructor.
Qed.
Example C79_example :
  (forall i, ex_gen (L "_kj" ++ dec (N.of_nat i))) /\ hygienic xpy ex_gen xuser /\
  (exists ps, says xex_compile [] true (L "xml") [] [] ndoc ps /\ assemble ps = Some ndoc_says) /\
  Forall (user_stm ex_gen xuser) ndoc_says /\ evenly xpy /\ modeless xpy ndoc /\ even_env [(L "x", VStr (L "0"))] /\
  doctype_line (L "xml") [] [] /\ doctype_line (L "html5") [] (L "<!DOCTYPE html>" ++ [c_nl]).
Proof.
  split; [reflexivity|]. split; [exact xpy_hygienic|]. split; [exact ndoc_reads|]. split; [unfold ndoc_says; repeat constructor|]. split; [exact xpy_evenly|]. split; [|split; [|split]].
  - assert (T : forall ln s e, modeless xpy (DText ln (xml_text s) e)) by (intros; constructor).
    assert (Nv : forall tag, smem tag (html_optional_end_tags ++ html_cdata_tags) = false -> forall P, S_Markup.void tag -> P) by (intros tag E P V; apply void_spec in V; apply smem_notIn in E; destruct E; apply in_or_app; left; now apply smem_In).
    assert (Ns : forall tag, smem tag (html_optional_end_tags ++ html_cdata_tags) = false -> ~ script_or_style tag) by (intros tag E X; now apply (ex_tag tag E)).
    apply md_elem; try (split; [discriminate|reflexivity]); try reflexivity; [now apply Ns| |now apply (Nv (L "ul"))| |constructor; [|constructor]].
    + intros k v [E|[]] _. injection E as <- _. split; [discriminate|reflexivity].
    + intros g Tc. destruct Tc as [_|V|c V Nc]; [exact Logic.I| |]; destruct V as [V|[]]; discriminate.
    + apply md_directive; [reflexivity|]. constructor; [|constructor].
      apply md_elem; try (split; [discriminate|reflexivity]); try reflexivity; [now apply Ns|intros k v []|now apply (Nv (L "li"))| |constructor; [|constructor; [|constructor]]].
      * intros g Tc. destruct Tc as [_|V|c V Nc]; [exact Logic.I| |]; destruct V.
      * apply (T 2 (L "$i: ") true).
      * apply md_elem; try (split; [discriminate|reflexivity]); try reflexivity; [now apply Ns| |now apply (Nv (L "b"))| |constructor; [apply (T 2 (L "a<b") true)|constructor]].
        -- intros k v [E|[]] Nsp. injection E as <- _. destruct Nsp. right. now right.
        -- intros g Tc. destruct Tc as [_|V|c V Nc]; [exact Logic.I|exists false; reflexivity|]. destruct V as [V|[]]. injection V as <-. now destruct Nc.
  - constructor; [|constructor]. apply C79_plain. now right.
  - now apply dl_none.
  - now apply dl_html5.
Qed.
(** [<p><input checked="checked"/><br/></p>], read from an XML file. *)
Example C79_text : exists es s s' is is',
  es = [EStart 1 (L "p") []; EStart 1 (L "input") [(L "checked", L "checked")]; EEnd 1 (L "input"); EStart 1 (L "br") []; EEnd 1 (L "br"); EEnd 1 (L "p")] /\
  run_as (L "xml") false es = Ok s /\ run_as (L "html") false es = Ok s' /\ read false s = Some is /\ read true s' = Some is' /\ Forall2 same_item is is' /\
  s = L "<p><input checked=""checked""/><br/></p>" /\ s' = L "<p><input checked><br></p>".
Proof.
  eexists. eexists. eexists. eexists. eexists. split; [reflexivity|]. split; [vm_compute; reflexivity|]. split; [vm_compute; reflexivity|]. split; [vm_compute; reflexivity|]. split; [vm_compute; reflexivity|]. split; [|split; vm_compute; reflexivity].
  apply Forall2_cons; [apply si_start; constructor|]. apply Forall2_cons; [apply si_start; constructor; [apply sa_boolean; now left|constructor]|]. repeat (apply Forall2_cons; [apply si_same|]). constructor.
Qed.

(** A void element with content: in HTML the content stands after the element. *)
Theorem C79_void_refuted : exists es s s' is is', es = [EStart 1 (L "br") []; EChars 1 (L "x"); EEnd 1 (L "br")] /\
  run_as (L "xml") false es = Ok s /\ run_as (L "html") false es = Ok s' /\ read false s = Some is /\ read true s' = Some is' /\ ~ Forall2 same_item is is'.
Proof.
  eexists. eexists. eexists. eexists. eexists. split; [reflexivity|]. split; [vm_compute; reflexivity|]. split; [vm_compute; reflexivity|]. split; [vm_compute; reflexivity|]. split; [vm_compute; reflexivity|].
  intros F. inversion F as [|a0 b0 l0 r0 Q0 F1]. inversion F1 as [|a1 b1 l1 r1 Q1 F2]. inversion Q1.
Qed.
Print Assumptions C79_void_refuted.
(** A script: in XML its text is put into a CDATA section between comments, which are read as text. *)
Theorem C79_script_refuted : exists es s s' is is', es = [EStart 1 (L "script") []; EChars 1 (L "x"); EEnd 1 (L "script")] /\
  run_as (L "xml") false es = Ok s /\ run_as (L "html") false es = Ok s' /\ read false s = Some is /\ read true s' = Some is' /\ ~ Forall2 same_item is is'.
Proof.
  eexists. eexists. eexists. eexists. eexists. split; [reflexivity|]. split; [vm_compute; reflexivity|]. split; [vm_compute; reflexivity|]. split; [vm_compute; reflexivity|]. split; [vm_compute; reflexivity|].
  intros F. inversion F as [|a0 b0 l0 r0 Q0 F1]. inversion F1 as [|a1 b1 l1 r1 Q1 F2]. inversion Q1.
Qed.
Print Assumptions C79_script_refuted.
