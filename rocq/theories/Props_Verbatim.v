(** * Markup that is rendered as it is written (C77) *)

From Coq Require Import Ascii String List Arith NArith ZArith Bool Permutation Sorted.
From Verif Require Import PyStr PyStrLemmas M_Values S_Values P_Values M_IR S_IR M_Exec S_Exec P_Exec P_Exec2 P_Exec3 P_Exec4 P_Exec5
  M_Text M_XText S_XText P_XText M_Entities S_Entities P_Entities M_Dom M_Doctype S_Doctype P_Doctype M_XCompile S_XDoc P_XDoc P_XDoc2 P_XStrip S_Markup P_Markup S_Nested P_Nested P_Nested2 S_Static P_Static S_Verbatim P_Verbatim.
From Verif Require Import Props_Exec Props_XText Props_XDoc Props_Markup.
Import ListNotations.
Open Scope list_scope.

Lemma mode_xml : forall mode, mode = None \/ mode = Some (L "xml") -> rendering_mode mode [] = L "xml".
Proof. intros mode [->| ->]; reflexivity. Qed.

(** A document in its plainest form (no directives, no references to expressions, no comments, attributes sorted,
    empty elements in the short form) is rendered in XML as it is written, character by character, wherever the XML
    parser cuts its texts. *)
Theorem C77_verbatim : forall expat compile helper mode (frag : bool) autoblocks scripts tag a cs es py (gen user : str -> Prop) e,
  let source := text_of (MElem tag a cs) in
  canonical autoblocks scripts [MElem tag a cs] -> expat (parser_dtd ++ source) = Ok es -> parsed [MElem tag a cs] es ->
  mode = None \/ mode = Some (L "xml") -> (forall i, gen (helper i)) -> hygienic py gen user -> (forall t, trans py t = VStr t) ->
  exists body, xml_template expat compile helper mode frag autoblocks scripts false source = Ok (TemplateNode 0 [] [NDef 0 false (L "__main__()") body]) /\
    rmap (fun r => (render (fst (fst r)), snd (fst r), snd r)) (exec_body py (programs body) e [] []) = Ok (source, [], []).
Proof.
  intros expat compile helper mode frag ab sc tag a cs es py gen user e source C Ex P Hm Hg Hy Ht.
  assert (Esrc : flat_map text_of [MElem tag a cs] = source) by (cbn [flat_map]; apply app_nil_r).
  assert (Ps : parser_source source = ([], parser_dtd ++ source)).
  { unfold parser_source. rewrite extract_dtd_none; [reflexivity|]. apply clean_no_doctype. rewrite <- Esrc. eapply canonical_clean. exact C. }
  assert (D : exists is, static_document ab sc false false es is source).
  { subst source. inversion C as [|tag' a' cs' l St Nd Ss Fa Nc C1 C2| |]; subst. inversion P as [|ln ln' tag' a' cs' inner l' es' P1 P2| |]; subst. inversion P2; subst.
    destruct (canonical_says _ _ _ C1 _ P1) as (is1 & D1). eexists. cbn [text_of]. rewrite (is_nil_iff _ _ cs inner) by now apply parsed_nil.
    apply (sd_document ab sc false false [] [] ln ln' tag a a (map (fun kv => (fst kv, Some (snd kv))) a) inner is1 (flat_map text_of cs)); [constructor|constructor|exact St|exact Nd|apply Permutation_refl|exact Ss|now apply sorted_attrs| |exact D1].
    intros N. specialize (Nc N). subst cs. now inversion P1. }
  destruct D as (is & D).
  destruct (C42_static_partial expat compile helper mode frag ab sc false false source [] (parser_dtd ++ source) es is source [] py gen user e Ps Ex D) as (body & T & R & _); try assumption.
  - rewrite (mode_xml mode Hm). split; discriminate.
  - destruct frag; [reflexivity|]. rewrite (mode_xml mode Hm). apply dl_none; [reflexivity|discriminate].
  - exists body. split; [exact T|exact R].
Qed.
Print Assumptions C77_verbatim.

(** The rendering of any document without directives, dollar signs and comments is in this form; so rendering it
    again changes nothing. *)
Theorem C77_rendered_partial : forall autoblocks scripts es is s,
  static_document autoblocks scripts false false es is s -> Forall tidy es -> ~ has (L "<!DOCTYPE") s ->
  exists tag a cs, canonical autoblocks scripts [MElem tag a cs] /\ text_of (MElem tag a cs) = s.
Proof. exact document_canonical. Qed.
Print Assumptions C77_rendered_partial.
Theorem C77_again_partial : forall expat compile helper mode (frag : bool) autoblocks scripts source src es is s py (gen user : str -> Prop) e,
  parser_source source = ([], src) -> expat src = Ok es -> static_document autoblocks scripts false false es is s -> Forall tidy es -> ~ has (L "<!DOCTYPE") s ->
  mode = None \/ mode = Some (L "xml") -> (forall i, gen (helper i)) -> hygienic py gen user -> (forall t, trans py t = VStr t) ->
  (forall m, canonical autoblocks scripts [m] -> text_of m = s -> exists es', expat (parser_dtd ++ s) = Ok es' /\ parsed [m] es') ->
  let renders source := exists body, xml_template expat compile helper mode frag autoblocks scripts false source = Ok (TemplateNode 0 [] [NDef 0 false (L "__main__()") body]) /\
    rmap (fun r => (render (fst (fst r)), snd (fst r), snd r)) (exec_body py (programs body) e [] []) = Ok (s, [], []) in
  renders source /\ renders s.
Proof.
  intros expat compile helper mode frag ab sc source src es is s py gen user e Ps Ex D T Nd Hm Hg Hy Ht Hp renders. split.
  - destruct (C42_static_partial expat compile helper mode frag ab sc false false source [] src es is s [] py gen user e Ps Ex D) as (body & T0 & R & _); try assumption.
    + rewrite (mode_xml mode Hm). split; discriminate.
    + destruct frag; [reflexivity|]. rewrite (mode_xml mode Hm). apply dl_none; [reflexivity|discriminate].
    + exists body. split; [exact T0|exact R].
  - destruct (C77_rendered_partial _ _ _ _ _ D T Nd) as (tag & a & cs & C & Et). destruct (Hp _ C Et) as (es' & Ex' & Pd). subst s.
    exact (C77_verbatim expat compile helper mode frag ab sc tag a cs es' py gen user e C Ex' Pd Hm Hg Hy Ht).
Qed.
Print Assumptions C77_again_partial.

(** [<a b="&lt;" id="1">x &amp; y<br/><![CDATA[<c>]]></a>]: the document is in the form, and what the parser reports. *)
Definition plain_doc : markup := MElem (L "a") [(L "b", L "<"); (L "id", L "1")] [MText (L "x & y"); MElem (L "br") [] []; MCdata (L "<c>")].
Definition plain_events : list event :=
  [EStart 1 (L "a") [(L "b", L "<"); (L "id", L "1")]; EChars 1 (L "x "); EChars 1 (L "&"); EChars 1 (L " y"); EStart 1 (L "br") []; EEnd 1 (L "br");
   EStartCDATA 1; EChars 1 (L "<c>"); EEndCDATA 1; EEnd 1 (L "a")].
Example C77_example : canonical [] true [plain_doc] /\ parsed [plain_doc] plain_events /\
  text_of plain_doc = L "<a b=""&lt;"" id=""1"">x &amp; y<br/><![CDATA[<c>]]></a>" /\ run plain_events = Ok (text_of plain_doc).
Proof.
  assert (Tag : forall tag, tag = L "a" \/ tag = L "br" -> static_tag [] tag).
  { intros tag [->| ->]; (split; [split; [discriminate|reflexivity]|]); (split; [reflexivity|]); (split; [reflexivity|]); intros []. }
  split; [|split; [|split; vm_compute; reflexivity]].
  - unfold plain_doc. apply cn_elem; [apply Tag; now left|repeat constructor; no_in|repeat constructor| | | |constructor].
    + repeat constructor; cbn [fst snd]; try (split; [discriminate|reflexivity]); try plain; try no_in; intros [X _]; discriminate X.
    + intros [[X _]|[_ [X|X]]]; discriminate X.
    + apply cn_text; [discriminate|no_in|plain|exact Logic.I|]. apply cn_elem; [apply Tag; now right|constructor|constructor|constructor|reflexivity|constructor|].
      apply cn_cdata; [no_in|plain|not_has|not_has|constructor].
  - apply (pd_elem 1 1 (L "a") _ _ [EChars 1 (L "x "); EChars 1 (L "&"); EChars 1 (L " y"); EStart 1 (L "br") []; EEnd 1 (L "br"); EStartCDATA 1; EChars 1 (L "<c>"); EEndCDATA 1] [] []); [|constructor].
    apply (pd_text [(1, L "x "); (1, L "&"); (1, L " y")]); [discriminate|]. apply (pd_elem 1 1 (L "br") [] [] [] _ _); [constructor|]. apply (pd_cdata 1 1 [(1, L "<c>")]). constructor.
Qed.
(** The same document with its attributes in another order: what is rendered is in the form. *)
Example C77_rendered_example : exists es is, static_document [] true false false es is (text_of plain_doc) /\ Forall tidy es /\ ~ has (L "<!DOCTYPE") (text_of plain_doc) /\ ~ parsed [plain_doc] es.
Proof.
  exists [EStart 1 (L "a") [(L "id", L "1"); (L "b", L "<")]; EChars 1 (L "x & y"); EStart 1 (L "br") []; EEnd 1 (L "br"); EStartCDATA 1; EChars 1 (L "<c>"); EEndCDATA 1; EEnd 1 (L "a")].
  destruct C77_example as (C & _). unfold plain_doc in C.
  inversion C as [|tag' a' cs' l St Nd Ss Fa Nc C1 C2| |]; clear C C2; subst.
  destruct (canonical_says _ _ _ C1 [EChars 1 (L "x & y"); EStart 1 (L "br") []; EEnd 1 (L "br"); EStartCDATA 1; EChars 1 (L "<c>"); EEndCDATA 1]) as (is & D).
  { apply (pd_text [(1, L "x & y")]); [discriminate|]. apply (pd_elem 1 1 (L "br") [] [] [] _ _); [constructor|]. apply (pd_cdata 1 1 [(1, L "<c>")]). constructor. }
  eexists. split; [|split; [|split]].
  - apply (sd_document [] true false false [] [] 1 1 (L "a") [(L "id", L "1"); (L "b", L "<")] [(L "b", L "<"); (L "id", L "1")] [(L "b", Some (L "<")); (L "id", Some (L "1"))]
      [EChars 1 (L "x & y"); EStart 1 (L "br") []; EEnd 1 (L "br"); EStartCDATA 1; EChars 1 (L "<c>"); EEndCDATA 1] is (flat_map text_of [MText (L "x & y"); MElem (L "br") [] []; MCdata (L "<c>")])); [constructor|constructor|exact St|repeat constructor; no_in|apply perm_swap|exact Ss|exact (sorted_attrs _ Fa)| |exact D].
    intros [[X _]|[_ [X|X]]]; discriminate X.
  - repeat constructor; try discriminate; no_in.
  - change (text_of plain_doc) with (L "<a b=""&lt;"" id=""1"">x &amp; y<br/><![CDATA[<c>]]></a>"). not_has.
  - intros P. inversion P.
Qed.

(** ** What is not rendered as it is written *)

(** Comments get one more blank at both ends each time. *)
Definition comment_doc (t : str) : list event := [EStart 1 (L "a") []; EComment 1 t; EEnd 1 (L "a")].
Theorem C77_comment_refuted : run (comment_doc (L "c")) = Ok (L "<a><!-- c --></a>") /\ run (comment_doc (L " c ")) = Ok (L "<a><!--  c  --></a>").
Proof. split; vm_compute; reflexivity. Qed.
Print Assumptions C77_comment_refuted.
(** Of four dollar signs two are left, then one. *)
Definition dollar_doc (t : str) : list event := [EStart 1 (L "a") []; EChars 1 t; EEnd 1 (L "a")].
Theorem C77_dollar_refuted : run (dollar_doc (L "$$$$")) = Ok (L "<a>$$</a>") /\ run (dollar_doc (L "$$")) = Ok (L "<a>$</a>").
Proof. split; vm_compute; reflexivity. Qed.
Print Assumptions C77_dollar_refuted.
(** An element whose content is not shown is not written in the short form: [<p> </p>] with [strip_text] and
    [<p><!--! c --></p>] are rendered as [<p></p>], which is rendered as [<p/>]. *)
Theorem C77_empty_refuted :
  run_as (L "xml") true [EStart 1 (L "p") []; EChars 1 (L " "); EEnd 1 (L "p")] = Ok (L "<p></p>") /\
  run [EStart 1 (L "p") []; EComment 1 (L "! c "); EEnd 1 (L "p")] = Ok (L "<p></p>") /\
  run [EStart 1 (L "p") []; EEnd 1 (L "p")] = Ok (L "<p/>").
Proof. repeat split; vm_compute; reflexivity. Qed.
Print Assumptions C77_empty_refuted.
(** A doctype in a CDATA section (or in a comment) is taken for the doctype of the document: in its place stands
    what Kajiki tells the parser, and the document is rendered in HTML after that doctype. *)
Definition cdata_doc (t : str) : str := L "<a><![CDATA[" ++ t ++ L "]]></a>".
Definition cdata_run (t : str) : result str :=
  rbind (xml_template (fun src => if seqb src (cdata_doc parser_dtd) then Ok [EStart 1 (L "a") []; EStartCDATA 1; EChars 1 parser_dtd; EEndCDATA 1; EEnd 1 (L "a")] else Raise "?")
      xex_compile (fun i => L "_kj" ++ dec (N.of_nat i)) None false [] true false (cdata_doc t)) (fun t =>
    match defs t with
    | [NDef _ _ _ body] => rmap (fun r => render (fst (fst r))) (exec_body xpy (programs body) [] [] [])
    | _ => Raise "no main function"
    end).
Theorem C77_doctype_refuted : parser_source (cdata_doc (L "<!DOCTYPE html>")) = (L "<!DOCTYPE html>", cdata_doc parser_dtd) /\
  cdata_run (L "<!DOCTYPE html>") = Ok (L "<!DOCTYPE html>" ++ [c_nl] ++ L "<a><![CDATA[<!DOCTYPE kajiki SYSTEM ""kajiki.dtd"">]]></a>").
Proof. split; vm_compute; reflexivity. Qed.
Print Assumptions C77_doctype_refuted.
