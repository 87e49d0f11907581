(** * Properties of script and style elements (C78) *)

From Coq Require Import Ascii String List Arith NArith ZArith Bool Permutation Sorted.
From Verif Require Import PyStr PyStrLemmas M_Values S_Values P_Values M_IR S_IR M_Exec S_Exec P_Exec P_Exec2 P_Exec3 P_Exec4 P_Exec5
  M_Text M_XText S_XText P_XText M_Entities S_Entities P_Entities M_Dom M_Doctype M_XCompile S_XDoc P_XDoc P_XDoc2 P_XStrip S_Markup P_Markup S_Nested P_Nested P_Raw P_Nested2.
From Verif Require Import Props_Exec Props_XText Props_XDoc Props_Markup.
Import ListNotations.
Open Scope list_scope.

(** ** C78: values do not end the script or style element they stand in

    A document that is a script or style element shows, in HTML, its content between the two tags, and
    in XML in a CDATA section; a reader finds one element with exactly this content, whatever the values of the
    expressions are.  Partial: a less-than sign directly before an expression and a greater-than sign directly after one
    are left out, see below. *)
Definition shown_content (html : bool) (body : str) : str := if html then body else L "/*<![CDATA[*/" ++ body ++ L "/*]]>*/".
Definition read_content (html : bool) (body : str) : str := if html then body else L "/**/" ++ body ++ L "/**/".
Lemma script_doc : forall compile autoblocks mode ln tag cs ss, script_or_style tag -> ~ In tag autoblocks -> cs <> [] -> script_says compile tag cs ss ->
  says compile autoblocks true mode [] [] (DElem ln tag [] cs)
    (map PcStm (SText (L "<" ++ tag) None :: SText (L ">") None :: (cdata_open mode ++ ss ++ cdata_close mode) ++ [SText (L "</" ++ tag ++ L ">") None])).
Proof.
  intros compile autoblocks mode ln tag cs ss SS Na Ne H. destruct (raw_tag tag SS) as (_ & _ & _ & Py).
  change (map PcStm (SText (L "<" ++ tag) None :: SText (L ">") None :: (cdata_open mode ++ ss ++ cdata_close mode) ++ [SText (L "</" ++ tag ++ L ">") None]))
    with (PcStm (SText (L "<" ++ tag) None) :: map PcStm [] ++ map PcStm [] ++ map PcStm (SText (L ">") None :: (cdata_open mode ++ ss ++ cdata_close mode) ++ [SText (L "</" ++ tag ++ L ">") None])).
  eapply (sy_elem _ _ _ _ _ _ _ _ _ _ None []); [exact Py|exact Na|constructor|apply tc_none; intros []|constructor|constructor|constructor|apply ma_none; left; intros []|].
  cbn [map]. rewrite map_app. cbn [map]. apply rs_script; [left; intros []|exact Ne|reflexivity|exact SS|exact H].
Qed.
Theorem C78_script_partial : forall compile helper autoblocks mode html texts py (gen user : str -> Prop) (frag : bool) d ln tag cs ss (line : str) e,
  (forall i, gen (helper i)) -> hygienic py gen user ->
  filter no_comment (d_children d) = [DElem ln tag [] cs] -> script_or_style tag -> ~ In tag autoblocks -> cs <> [] ->
  script_says compile tag cs ss -> Forall (user_stm gen user) ss -> Forall (raw_stm py html texts) ss ->
  (if frag then line = [] else doctype_line mode (d_dtd d) line) ->
  (if html then is_html mode else mode = L "xml") -> gentle py html texts -> safe_env html texts e ->
  exists body, compile_document compile helper autoblocks true mode frag d =
      Ok (TemplateNode 0 [] [NDef 0 false (L "__main__()") body]) /\
    forall out w sw, rmap (fun r => (render (fst (fst r)), snd (fst r), snd r)) (exec_body py (programs body) e [] []) = Ok (out, w, sw) ->
      exists o e', means py ss e = Ok (o, e') /\
        let s := L "<" ++ tag ++ L ">" ++ shown_content html (render o) ++ L "</" ++ tag ++ L ">" in
        out = line ++ s /\ read html s = Some (I_start tag [] :: map I_char (read_content html (render o)) ++ [I_end tag]).
Proof.
  intros compile helper autoblocks mode html texts py gen user frag d ln tag cs ss line e Hg Hy Fl SS Na Ne Sc U R Hl Hm G Se.
  pose proof (script_doc compile autoblocks mode ln tag cs ss SS Na Ne Sc) as S.
  set (all := SText (L "<" ++ tag) None :: SText (L ">") None :: (cdata_open mode ++ ss ++ cdata_close mode) ++ [SText (L "</" ++ tag ++ L ">") None]) in S.
  assert (Lo : Forall loose all).
  { subst all. do 2 (constructor; [exact Logic.I|]). unfold cdata_open, cdata_close. rewrite !Forall_app. split; [split; [destruct (seqb mode (L "xml")); repeat constructor|split; [now apply (raw_loose py html texts)|destruct (seqb mode (L "xml")); repeat constructor]]|repeat constructor]. }
  assert (A : assemble (map PcStm all) = Some all).
  { pose proof (assemble_loose all [] Lo) as E. rewrite app_nil_r in E. rewrite E. cbn [assemble option_map]. now rewrite app_nil_r. }
  assert (Ua : Forall (user_stm gen user) all).
  { subst all. do 2 (constructor; [exact Logic.I|]). unfold cdata_open, cdata_close. rewrite !Forall_app. split; [split; [destruct (seqb mode (L "xml")); repeat constructor|split; [exact U|destruct (seqb mode (L "xml")); repeat constructor]]|repeat constructor]. }
  destruct (document_renders compile helper autoblocks true mode py gen user frag d _ _ all line e Hg Hy Fl S A Ua Hl) as (body & Ec & Er).
  exists body. split; [exact Ec|]. intros out w sw E. rewrite Er in E. clear Er Ec S.
  assert (Means : forall a b, means py all e = Ok (a, b) -> exists o, means py ss e = Ok (o, b) /\ render a = L "<" ++ tag ++ L ">" ++ shown_content html (render o) ++ L "</" ++ tag ++ L ">").
  { intros a b E1. subst all.
    assert (Q : means py (SText (L "<" ++ tag) None :: SText (L ">") None :: (cdata_open mode ++ ss ++ cdata_close mode) ++ [SText (L "</" ++ tag ++ L ">") None]) e =
      rmap (fun oe => ([VStr (L "<" ++ tag); VStr (L ">")] ++ (if html then [] else [VStr (L "/*<![CDATA[*/")]) ++ fst oe ++ (if html then [] else [VStr (L "/*]]>*/")]) ++ [VStr (L "</" ++ tag ++ L ">")], snd oe)) (means py ss e)).
    { unfold cdata_open, cdata_close. destruct html.
      - assert (seqb mode (L "xml") = false) as -> by (destruct (seqb_spec mode (L "xml")) as [->|]; [discriminate Hm|reflexivity]). cbn [app]. rewrite app_nil_r. cbn [means meaning]. unfold then_, under. cbn [truthy_guard rbind rmap fst snd].
        rewrite means_app. unfold then_. destruct (means py ss e) as [[o1 e1]|]; [|reflexivity]. cbn [rbind fst snd means meaning]. unfold then_, under. cbn [truthy_guard rbind rmap fst snd]. reflexivity.
      - rewrite Hm, seqb_refl. cbn [app]. cbn [means meaning]. unfold then_, under. cbn [truthy_guard rbind rmap fst snd]. rewrite <- app_assoc.
        rewrite means_app. unfold then_. destruct (means py ss e) as [[o1 e1]|]; [|reflexivity]. cbn [rbind fst snd means meaning app]. unfold then_, under. cbn [truthy_guard rbind rmap fst snd]. reflexivity. }
    rewrite Q in E1. destruct (means py ss e) as [[o e1]|]; [|discriminate]. cbn [rmap] in E1. assert (a = ([VStr (L "<" ++ tag)] ++ [VStr (L ">")]) ++ (if html then [] else [VStr (L "/*<![CDATA[*/")]) ++ o ++ (if html then [] else [VStr (L "/*]]>*/")]) ++ [VStr (L "</" ++ tag ++ L ">")] /\ b = e1) as [-> ->].
    { cbn [fst snd] in E1. split; [|congruence]. cbn [app] in *. congruence. }
    exists o. split; [reflexivity|].
    rewrite !render_app. unfold shown_content. destruct html; rewrite ?render_app, ?render_str, ?app_nil_r, <- ?app_assoc; reflexivity. }
  destruct (means py all e) as [[a b]|] eqn:M; [|discriminate]. cbn [rmap fst snd] in E. injection E as <- <- <-. destruct (Means a b eq_refl) as (o & Mo & Ra). exists o, b. split; [exact Mo|]. cbn zeta. rewrite Ra. split; [reflexivity|].
  destruct (raw_flat py html texts ss R e o b Se Mo) as [_ F]. apply read_written. destruct (raw_tag tag SS) as (Lt & Nb & Nv & _). unfold shown_content, read_content. destruct html.
  - assert (W : written true (I_start tag [] :: map I_char (render o) ++ I_end tag :: []) (L "<" ++ tag ++ [] ++ L ">" ++ render o ++ L "</" ++ tag ++ L ">" ++ [])).
    { apply w_raw; [reflexivity|exact SS|constructor|now apply fits_end_tag|now apply fits_comment|constructor]. }
    rewrite app_nil_r in W. exact W.
  - assert (W : written false (I_start tag [] :: map I_char (L "/**/" ++ render o ++ L "/**/") ++ I_end tag :: []) (L "<" ++ tag ++ [] ++ L ">" ++ (L "/*<![CDATA[*/" ++ render o ++ L "/*]]>*/") ++ L "</" ++ tag ++ L ">" ++ [])).
    { apply w_elem; [exact Lt|exact Nb|intros [X _]; discriminate X|intros [X _]; discriminate X|constructor|now apply section_items|constructor]. }
    rewrite app_nil_r in W. exact W.
Qed.
Print Assumptions C78_script_partial.
(** Values that are shown as text: nothing and plain values. *)
Theorem C78_plain : forall v, v = VNone \/ S_Values.plain v -> as_text v.
Proof. exact plain_as_text. Qed.
Print Assumptions C78_plain.

(** [<script>if (a &lt; $x &amp;&amp; b) f("$x")</script>] *)
Definition sdoc : list dnode := [DText 1 (L "if (a &lt; $x &amp;&amp; b) f(""$x"")") true].
Definition sdoc_says : list stm := [SText (L "if (a < ") None; SExpr (L "x") false; SText (L " && b) f(""") None; SExpr (L "x") false; SText (L """)") None].
Lemma script_of : forall tag t ps ss, script_or_style tag -> reads xex_compile 1 t ps -> Forall2 decoded (map (text_stm TK_raw) ps) ss -> script_says xex_compile tag [DText 1 t true] ss.
Proof. intros tag t ps ss SS R D. rewrite <- (app_nil_r ss). eapply ss_escaped; [apply ts_raw; [exact SS|exact R]|exact D|constructor]. Qed.
Ltac reads_ex := apply reads_by; [vm_compute; reflexivity|]; repeat (constructor; try exact Logic.I); try (apply simple_name; discriminate).
Ltac decodes := repeat (constructor; [constructor; vm_compute; reflexivity|]); constructor.
Lemma sdoc_script : forall tag, script_or_style tag -> script_says xex_compile tag sdoc sdoc_says.
Proof. intros tag SS. eapply script_of; [exact SS|reads_ex|decodes]. Qed.
Definition only_x : str -> Prop := eq (L "x").
Lemma x_text : forall html, raw_stm xpy html only_x (SExpr (L "x") false).
Proof.
  intros html e v Se E. cbn [ev xpy] in E. unfold ex_value in E. destruct (lookup (L "x") e) as [w|] eqn:Lk; [|discriminate]. injection E as <-. now apply (safe_lookup html only_x e (L "x")).
Qed.
Fixpoint fitsb (html : bool) (before : char) (t : str) : bool :=
  match t with
  | [] => true
  | c :: t' =>
      (if html then negb (N.eqb c c_lt) || match t' with [] => false | d :: _ => negb (N.eqb d c_slash) && negb (N.eqb d c_bang) end
       else negb (N.eqb c c_gt) || negb (N.eqb before c_rbrack)) && fitsb html c t'
  end.
Lemma fitsb_fits : forall html t, fitsb html c_rbrack t = true -> fits html t.
Proof.
  intros [|] t H.
  - revert H. generalize c_rbrack. induction t as [|c t IH]; intros k H a b E; [destruct a; discriminate|]. cbn [fitsb] in H. apply andb_true_iff in H. destruct H as [Hc H]. destruct a as [|x a].
    + cbn [app] in E. injection E as -> ->. cbn [N.eqb Pos.eqb negb orb] in Hc. destruct b as [|d b]; [discriminate|]. exists d, b. apply andb_true_iff in Hc. destruct Hc as [H1 H2]. split; [reflexivity|].
      split; intros ->; discriminate.
    + cbn [app] in E. injection E as _ E. exact (IH c H a b E).
  - assert (Q : forall t k, fitsb false k t = true -> forall a b, t = a ++ c_gt :: b -> exists a' c, k :: a = a' ++ [c] /\ c <> c_rbrack).
    { clear. induction t as [|c t IH]; intros k H a b E; [destruct a; discriminate|]. cbn [fitsb] in H. apply andb_true_iff in H. destruct H as [Hc H]. destruct a as [|x a].
      - cbn [app] in E. injection E as -> ->. cbn [N.eqb Pos.eqb negb orb] in Hc. exists [], k. split; [reflexivity|]. intros ->. discriminate.
      - cbn [app] in E. injection E as <- E. destruct (IH c H a b E) as (a' & d & Ea & Nd). exists (k :: a'), d. cbn [app]. now rewrite Ea. }
    intros a b E. specialize (Q t c_rbrack H a b E).
    destruct Q as (a' & c & Ea & Nc). destruct a as [|x a] using rev_ind; [destruct a' as [|y a']; [injection Ea as <-; now destruct Nc|destruct a'; discriminate]|]. exists a, x. split; [reflexivity|].
    change (c_rbrack :: a ++ [x]) with ((c_rbrack :: a) ++ [x]) in Ea. apply app_inj_tail in Ea. destruct Ea as [_ ->]. exact Nc.
Qed.
Example C78_example : forall html,
  Forall (user_stm ex_gen xuser) sdoc_says /\ gentle xpy html only_x /\ safe_env html only_x [(L "x", VStr (L "</script>"))] /\
  Forall (raw_stm xpy html only_x) sdoc_says /\ (forall tag, script_or_style tag -> script_says xex_compile tag sdoc sdoc_says) /\
  rmap (fun oe => render (fst oe)) (means xpy sdoc_says [(L "x", VStr (L "</script>"))]) = Ok (L "if (a < &lt;/script&gt; && b) f(""&lt;/script&gt;"")").
Proof.
  intros html. split; [unfold sdoc_says; repeat constructor|]. split; [apply xpy_gentle|]. split.
  { constructor; [|constructor]. split; [apply C43_plain; now right|intros _; apply C78_plain; now right]. }
  split; [|split; [exact sdoc_script|vm_compute; reflexivity]].
  assert (T : forall t, fitsb html c_rbrack t = true -> raw_stm xpy html only_x (SText t None)) by (intros t; apply fitsb_fits).
  unfold sdoc_says. repeat (apply Forall_cons; [first [apply x_text|apply T; destruct html; reflexivity]|]). constructor.
Qed.

(** Without the blank: in [<script>if (a &lt;$x)</script>] the less-than sign and a value that begins with a slash are an end
    tag in HTML; in [<script>$x&gt;</script>] two closing brackets and the greater-than sign end the CDATA section in XML. *)
Lemma rendered : forall t ps ss mode v out, reads xex_compile 1 t ps -> Forall2 decoded (map (text_stm TK_raw) ps) ss ->
  let all := SText (L "<script") None :: SText (L ">") None :: (cdata_open mode ++ ss ++ cdata_close mode) ++ [SText (L "</script>") None] in
  Forall (user_stm ex_gen xuser) all -> assemble (map PcStm all) = Some all -> doctype_line mode [] [] ->
  rmap (fun oe => render (fst oe)) (means xpy all [(L "x", v)]) = Ok out ->
  exists body, compile_document xex_compile (fun i => L "_kj" ++ dec (N.of_nat i)) [] true mode false (Document [] [DElem 1 (L "script") [] [DText 1 t true]]) =
      Ok (TemplateNode 0 [] [NDef 0 false (L "__main__()") body]) /\
    rmap (fun r => (render (fst (fst r)), snd (fst r), snd r)) (exec_body xpy (programs body) [(L "x", v)] [] []) = Ok (out, [], []).
Proof.
  intros t ps ss mode v out R D all U A Dl M.
  assert (S : says xex_compile [] true mode [] [] (DElem 1 (L "script") [] [DText 1 t true]) (map PcStm all)).
  { apply (script_doc xex_compile [] mode 1 (L "script") [DText 1 t true] ss); [now left|intros []|discriminate|]. apply (script_of (L "script") t ps ss); [now left|exact R|exact D]. }
  destruct (document_renders xex_compile (fun i => L "_kj" ++ dec (N.of_nat i)) [] true mode xpy ex_gen xuser false (Document [] [DElem 1 (L "script") [] [DText 1 t true]]) _ _ all [] [(L "x", v)] (fun i => eq_refl) xpy_hygienic eq_refl S A U Dl) as (body & Ec & Er).
  exists body. split; [exact Ec|]. rewrite Er. destruct (means xpy all [(L "x", v)]) as [oe|]; [|discriminate]. cbn [rmap] in M |- *. injection M as <-. reflexivity.
Qed.
Theorem C78_tag_refuted : exists v body out, S_Values.plain v /\
  compile_document xex_compile (fun i => L "_kj" ++ dec (N.of_nat i)) [] true (L "html") false (Document [] [DElem 1 (L "script") [] [DText 1 (L "if (a &lt;$x)") true]]) =
    Ok (TemplateNode 0 [] [NDef 0 false (L "__main__()") body]) /\
  rmap (fun r => (render (fst (fst r)), snd (fst r), snd r)) (exec_body xpy (programs body) [(L "x", v)] [] []) = Ok (out, [], []) /\
  out = L "<script>if (a </script )</script>" /\ read true out = None.
Proof.
  exists (VStr (L "/script ")).
  destruct (rendered (L "if (a &lt;$x)") [XText 1 (L "if (a &lt;"); XExpr 1 (L "x"); XText 1 (L ")")] [SText (L "if (a <") None; SExpr (L "x") false; SText (L ")") None] (L "html") (VStr (L "/script ")) (L "<script>if (a </script )</script>")) as (body & H1 & H2).
  - reads_ex.
  - decodes.
  - repeat constructor.
  - reflexivity.
  - apply dl_none; [reflexivity|discriminate].
  - vm_compute. reflexivity.
  - exists body. eexists. split; [exact Logic.I|]. split; [exact H1|]. split; [exact H2|]. split; [reflexivity|vm_compute; reflexivity].
Qed.
Print Assumptions C78_tag_refuted.
Theorem C78_section_refuted : exists v body out, S_Values.plain v /\
  compile_document xex_compile (fun i => L "_kj" ++ dec (N.of_nat i)) [] true (L "xml") false (Document [] [DElem 1 (L "script") [] [DText 1 (L "a[$x&gt;b;") true]]) =
    Ok (TemplateNode 0 [] [NDef 0 false (L "__main__()") body]) /\
  rmap (fun r => (render (fst (fst r)), snd (fst r), snd r)) (exec_body xpy (programs body) [(L "x", v)] [] []) = Ok (out, [], []) /\
  out = L "<script>/*<![CDATA[*/a[]]>b;/*]]>*/</script>" /\ read false out = Some (I_start (L "script") [] :: map I_char (L "/**/a[b;/*]]>*/") ++ [I_end (L "script")]).
Proof.
  exists (VStr (L "]]")).
  destruct (rendered (L "a[$x&gt;b;") [XText 1 (L "a["); XExpr 1 (L "x"); XText 1 (L "&gt;b;")] [SText (L "a[") None; SExpr (L "x") false; SText (L ">b;") None] (L "xml") (VStr (L "]]")) (L "<script>/*<![CDATA[*/a[]]>b;/*]]>*/</script>")) as (body & H1 & H2).
  - reads_ex.
  - decodes.
  - repeat constructor.
  - reflexivity.
  - apply dl_none; [reflexivity|discriminate].
  - vm_compute. reflexivity.
  - exists body. eexists. split; [exact Logic.I|]. split; [exact H1|]. split; [exact H2|]. split; [reflexivity|vm_compute; reflexivity].
Qed.
Print Assumptions C78_section_refuted.

(** [<p><![CDATA[a<b $x]]><script>if (a &lt; $x &amp;&amp; b) f("$x")</script></p>] meets the hypotheses of
    [C43_nested_partial], and with the section only in XML. *)
Lemma raw_by : forall html t, fitsb html c_rbrack t = true -> raw_stm xpy html only_x (SText t None).
Proof. intros html t H. now apply fitsb_fits. Qed.
Lemma decoded_by : forall (P : stm -> Prop) ss us, Forall (fun s => forall s', decoded s s' -> P s') ss -> Forall2 decoded ss us -> Forall P us.
Proof. intros P ss us F D. induction D as [|s s' ss us D1 D IH]; [constructor|]. apply Forall_cons_iff in F. destruct F as [F1 F]. constructor; [now apply F1|now apply IH]. Qed.
Lemma sdoc_all : forall (P : stm -> Prop) html ss, (forall t, fitsb html c_rbrack t = true -> P (SText t None)) -> P (SExpr (L "x") false) ->
  script_says xex_compile (L "script") sdoc ss -> Forall P ss.
Proof.
  intros P html ss Pt Px H. remember sdoc as cs eqn:Ec. destruct H as [|ln t l ss H|ln t l ss ss' T H|ln t l ss ss1 ss' T D H]; try discriminate Ec. unfold sdoc in Ec.
  assert (t = L "if (a &lt; $x &amp;&amp; b) f(""$x"")" /\ l = [] /\ ln = 1) as (-> & -> & ->) by (repeat split; congruence). clear Ec. remember (@nil dnode) as l eqn:El. destruct H; try discriminate El. rewrite app_nil_r.
  destruct T as [ps SS R|ps N1 N2 R]; [|destruct N2; now left]. apply pieces_spec in R. vm_compute in R. injection R as <-. revert D. apply decoded_by. cbn [map text_stm].
  assert (Tx : forall t u, unescape t = Ok u -> fitsb html c_rbrack u = true -> forall s', decoded (SText t None) s' -> P s').
  { intros t u E1 E2 s' D. remember (SText t None) as s eqn:Es. destruct D as [t0 t' g0 E3|]; try discriminate Es. assert (t0 = t) as -> by congruence. assert (t' = u) as -> by congruence. assert (g0 = None) as -> by congruence. now apply Pt. }
  assert (Ex : forall s', decoded (SExpr (L "x") false) s' -> P s').
  { intros s' D. remember (SExpr (L "x") false) as s eqn:Es. destruct D as [|x x' safe E3]; try discriminate Es. assert (x = L "x" /\ safe = false) as [-> ->] by (split; congruence). assert (x' = L "x") as -> by (assert (unescape (L "x") = Ok (L "x")) by (vm_compute; reflexivity); congruence). exact Px. }
  repeat (apply Forall_cons; [first [exact Ex|eapply Tx; [vm_compute; reflexivity|destruct html; reflexivity]]|]). constructor.
Qed.
Lemma sdoc_raw : forall html ss, script_says xex_compile (L "script") sdoc ss -> Forall (raw_stm xpy html only_x) ss.
Proof. intros html ss. apply (sdoc_all _ html); [intros t; apply fitsb_fits|apply x_text]. Qed.
Example C43_raw_example :
  ordinary xpy true only_x xex_compile true (L "html") (DElem 1 (L "p") [] [DElem 1 (L "script") [] sdoc]) /\
  ordinary xpy false only_x xex_compile true (L "xml")
    (DElem 1 (L "p") [] [DMark 1 (L "<![CDATA["); DText 1 (L "a<b $x") false; DMark 1 (L "]]>"); DElem 1 (L "script") [] sdoc]).
Proof.
  assert (Sc : forall html mode, (html = false -> mode = L "xml") -> ordinary xpy html only_x xex_compile true mode (DElem 1 (L "script") [] sdoc)).
  { intros html mode Hm. apply od_raw; [now left|now left|intros k v []|intros []|]. split; [intros _ c e v []|]. split; [|discriminate]. intros _. split; [exact Hm|apply sdoc_raw]. }
  assert (El : forall html mode cs, ordinaries xpy html only_x xex_compile true mode (L "p") cs -> ordinary xpy html only_x xex_compile true mode (DElem 1 (L "p") [] cs)).
  { intros html mode cs F. apply od_elem; [reflexivity|split; [discriminate|reflexivity]|reflexivity|intros [S _]; now apply (ex_tag (L "p") eq_refl)|intros k v []|intros _ _; left; intros []| |exact F].
    intros g Tc. destruct Tc as [_|V|c V Nc]; [exact Logic.I| |]; destruct V. }
  split; apply El.
  - apply os_node; [apply Sc; discriminate|constructor].
  - apply (os_cdata xpy false only_x xex_compile true (L "xml") (L "p") 1 1 [DText 1 (L "a<b $x") false]); [reflexivity| |apply os_node; [now apply Sc|constructor]].
    constructor; [|constructor]. intros ss T. destruct T as [ps SS R|ps N1 N2 R]; [destruct SS; discriminate|]. apply pieces_spec in R. vm_compute in R. injection R as <-. cbn [map text_stm].
    apply Forall_cons; [|apply Forall_cons; [apply x_text|constructor]]. change (raw_stm xpy false only_x (STrans (L "a<b ") None)). split; [|cbn [trans xpy]; rewrite render_str]; now apply fitsb_fits.
Qed.
