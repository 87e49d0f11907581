(** * Script and style elements with attributes (C78) *)

From Coq Require Import Ascii String List Arith NArith ZArith Bool Permutation Sorted.
From Verif Require Import PyStr PyStrLemmas M_Values S_Values P_Values M_IR S_IR M_Exec S_Exec P_Exec P_Exec2 P_Exec3 P_Exec4 P_Exec5
  M_Text M_XText S_XText P_XText M_Entities S_Entities P_Entities M_Dom M_Doctype M_XCompile S_XDoc P_XDoc P_XDoc2 P_XStrip S_Markup P_Markup S_Nested P_Nested P_Raw P_Nested2.
From Verif Require Import Props_Exec Props_XText Props_XDoc Props_Markup Props_Script.
From Verif Require P_NestRun3.
Import ListNotations.
Open Scope list_scope.

(** ** C78, with attributes

    As [C78_script_partial], for elements with attributes, computed or not, and with py:attrs: they are written in the start
    tag, whatever their values are, and the content follows as before. *)
Theorem C78_attributes_partial : forall compile helper autoblocks mode html texts py (gen user : str -> Prop) (frag : bool) d ln tag attrs sorted shown more cs ss (line : str) e,
  (forall i, gen (helper i)) -> hygienic py gen user ->
  filter no_comment (d_children d) = [DElem ln tag attrs cs] -> script_or_style tag -> ~ In tag autoblocks -> cs <> [] ->
  NoDup (map fst attrs) -> absent (L "py:strip") attrs -> no_content_attr attrs -> (forall k v, In (k, v) attrs -> ~ special_attr k -> legal_name k) ->
  Permutation attrs sorted -> StronglySorted by_name sorted -> attrs_say compile mode ln None sorted shown -> more_attrs mode None attrs more ->
  script_says compile tag cs ss -> Forall (user_stm gen user) (shown ++ more ++ ss) -> Forall (raw_stm py html texts) ss ->
  (if frag then line = [] else doctype_line mode (d_dtd d) line) ->
  (if html then is_html mode else mode = L "xml") -> gentle py html texts -> safe_env html texts e ->
  exists body, compile_document compile helper autoblocks true mode frag d =
      Ok (TemplateNode 0 [] [NDef 0 false (L "__main__()") body]) /\
    forall out w sw, rmap (fun r => (render (fst (fst r)), snd (fst r), snd r)) (exec_body py (programs body) e [] []) = Ok (out, w, sw) ->
      exists oa o e' a, means py (shown ++ more) e = Ok (oa, e) /\ means py ss e = Ok (o, e') /\ written_attrs a (render oa) /\
        let s := L "<" ++ tag ++ render oa ++ L ">" ++ shown_content html (render o) ++ L "</" ++ tag ++ L ">" in
        out = line ++ s /\ read html s = Some (I_start tag a :: map I_char (read_content html (render o)) ++ [I_end tag]).
Proof.
  intros compile helper autoblocks mode html texts py gen user frag d ln tag attrs sorted shown more cs ss line e Hg Hy Fl SS Na Ne Nd St Nc Lg Pm So As Mo Sc U R Hl Hm G Se.
  assert (Hmode : prefixb (L "html") mode = html) by (destruct html; [exact Hm|now rewrite Hm]).
  assert (FA : Forall (tag_attr mode None) (shown ++ more)).
  { apply Forall_app. split; [eapply shown_attrs; [exact As|]|eapply more_good; exact Mo]. intros k v I1. apply (Lg k v). now apply (Permutation_in _ (Permutation_sym Pm)). }
  set (A := shown ++ more) in *.
  set (all := SText (L "<" ++ tag) None :: A ++ SText (L ">") None :: (cdata_open mode ++ ss ++ cdata_close mode) ++ [SText (L "</" ++ tag ++ L ">") None]).
  assert (S : says compile autoblocks true mode [] [] (DElem ln tag attrs cs) (map PcStm all)).
  { destruct (raw_tag tag SS) as (_ & _ & _ & Py). subst all A. cbn [map]. rewrite !map_app, <- app_assoc.
    eapply (sy_elem _ _ _ _ _ _ _ _ _ _ None sorted); [exact Py|exact Na|exact Nd|now apply tc_none|exact Pm|exact So|exact As|exact Mo|].
    cbn [map]. rewrite !map_app. cbn [map]. rewrite <- !map_app. apply rs_script; [exact Nc|exact Ne|reflexivity|exact SS|exact Sc]. }
  assert (Lo : Forall loose all).
  { subst all. constructor; [exact Logic.I|]. apply Forall_app. split; [now apply (attr_loose mode None)|]. constructor; [exact Logic.I|]. unfold cdata_open, cdata_close. rewrite !Forall_app. split; [split; [destruct (seqb mode (L "xml")); repeat constructor|split; [now apply (raw_loose py html texts)|destruct (seqb mode (L "xml")); repeat constructor]]|repeat constructor]. }
  assert (As' : assemble (map PcStm all) = Some all).
  { pose proof (assemble_loose all [] Lo) as E. rewrite app_nil_r in E. rewrite E. cbn [assemble option_map]. now rewrite app_nil_r. }
  assert (Ua : Forall (user_stm gen user) all).
  { subst A. rewrite app_assoc in U. apply Forall_app in U as [U1 U2]. subst all. constructor; [exact Logic.I|]. apply Forall_app. split; [exact U1|]. constructor; [exact Logic.I|]. unfold cdata_open, cdata_close. rewrite !Forall_app. split; [split; [destruct (seqb mode (L "xml")); repeat constructor|split; [exact U2|destruct (seqb mode (L "xml")); repeat constructor]]|repeat constructor]. }
  destruct (document_renders compile helper autoblocks true mode py gen user frag d _ _ all line e Hg Hy Fl S As' Ua Hl) as (body & Ec & Er).
  exists body. split; [exact Ec|]. intros out w sw E. rewrite Er in E. clear Er Ec S.
  assert (Means : forall x b, means py all e = Ok (x, b) -> exists oa o a, means py A e = Ok (oa, e) /\ means py ss e = Ok (o, b) /\ written_attrs a (render oa) /\ render x = L "<" ++ tag ++ render oa ++ L ">" ++ shown_content html (render o) ++ L "</" ++ tag ++ L ">").
  { intros x b E1. subst all. cbn [means meaning] in E1. unfold then_ in E1. unfold under in E1 at 1. cbn [truthy_guard rbind rmap fst snd] in E1. rewrite means_app in E1. unfold then_ in E1 at 1.
    destruct (means py A e) as [[oa ea]|] eqn:Ma; [|discriminate E1]. destruct (attrs_mean py html texts mode G None A e oa ea Se FA Ma) as [-> [a Wa]]. cbn [rbind fst snd] in E1.
    assert (Q : means py (SText (L ">") None :: (cdata_open mode ++ ss ++ cdata_close mode) ++ [SText (L "</" ++ tag ++ L ">") None]) e =
      rmap (fun oe => ([VStr (L ">")] ++ (if html then [] else [VStr (L "/*<![CDATA[*/")]) ++ fst oe ++ (if html then [] else [VStr (L "/*]]>*/")]) ++ [VStr (L "</" ++ tag ++ L ">")], snd oe)) (means py ss e)).
    { unfold cdata_open, cdata_close. destruct html.
      - assert (seqb mode (L "xml") = false) as -> by (destruct (seqb_spec mode (L "xml")) as [->|]; [discriminate Hm|reflexivity]). cbn [app]. rewrite app_nil_r. cbn [means meaning]. unfold then_, under. cbn [truthy_guard rbind rmap fst snd].
        rewrite means_app. unfold then_. destruct (means py ss e) as [[o1 e1]|]; [|reflexivity]. cbn [rbind fst snd means meaning]. unfold then_, under. cbn [truthy_guard rbind rmap fst snd]. reflexivity.
      - rewrite Hm, seqb_refl. cbn [app]. cbn [means meaning]. unfold then_, under. cbn [truthy_guard rbind rmap fst snd]. rewrite <- app_assoc.
        rewrite means_app. unfold then_. destruct (means py ss e) as [[o1 e1]|]; [|reflexivity]. cbn [rbind fst snd means meaning app]. unfold then_, under. cbn [truthy_guard rbind rmap fst snd]. reflexivity. }
    rewrite Q in E1. destruct (means py ss e) as [[o e1]|]; [|discriminate E1]. cbn [rmap fst snd] in E1.
    assert (x = [VStr (L "<" ++ tag)] ++ oa ++ [VStr (L ">")] ++ (if html then [] else [VStr (L "/*<![CDATA[*/")]) ++ o ++ (if html then [] else [VStr (L "/*]]>*/")]) ++ [VStr (L "</" ++ tag ++ L ">")] /\ b = e1) as [-> ->].
    { split; [|congruence]. cbn [app] in *. congruence. }
    exists oa, o, a. split; [reflexivity|]. split; [reflexivity|]. split; [exact Wa|].
    rewrite !render_app. unfold shown_content. destruct html; rewrite ?render_app, ?render_str, ?app_nil_r, <- ?app_assoc; reflexivity. }
  destruct (means py all e) as [[x b]|] eqn:M; [|discriminate]. cbn [rmap fst snd] in E. injection E as <- <- <-. destruct (Means x b eq_refl) as (oa & o & a & Ma & Mo' & Wa & Ra). exists oa, o, b, a. split; [exact Ma|]. split; [exact Mo'|]. split; [exact Wa|]. cbn zeta. rewrite Ra. split; [reflexivity|].
  destruct (raw_flat py html texts ss R e o b Se Mo') as [_ F]. apply read_written. destruct (raw_tag tag SS) as (Lt & Nb & Nv & _). unfold shown_content, read_content. destruct html.
  - assert (W : written true (I_start tag a :: map I_char (render o) ++ I_end tag :: []) (L "<" ++ tag ++ render oa ++ L ">" ++ render o ++ L "</" ++ tag ++ L ">" ++ [])).
    { apply w_raw; [reflexivity|exact SS|exact Wa|now apply fits_end_tag|now apply fits_comment|constructor]. }
    rewrite app_nil_r in W. exact W.
  - assert (W : written false (I_start tag a :: map I_char (L "/**/" ++ render o ++ L "/**/") ++ I_end tag :: []) (L "<" ++ tag ++ render oa ++ L ">" ++ (L "/*<![CDATA[*/" ++ render o ++ L "/*]]>*/") ++ L "</" ++ tag ++ L ">" ++ [])).
    { apply w_elem; [exact Lt|exact Nb|intros [X _]; discriminate X|intros [X _]; discriminate X|exact Wa|now apply section_items|constructor]. }
    rewrite app_nil_r in W. exact W.
Qed.
Print Assumptions C78_attributes_partial.

(** [<script type="text/$x" src="a">if (a &lt; $x &amp;&amp; b) f("$x")</script>], where the attributes come sorted. *)
Definition sattrs : list (str * str) := [(L "type", L "text/$x"); (L "src", L "a")].
Definition sattrs_sorted : list (str * str) := [(L "src", L "a"); (L "type", L "text/$x")].
Definition sattrs_shown (mode : str) : list stm :=
  [SAttr (L "src") [SText (L "a") None] None mode; SAttr (L "type") [SText (L "text/") None; SExpr (L "x") true] None mode].
Example C78_attributes_example : forall mode,
  NoDup (map fst sattrs) /\ absent (L "py:strip") sattrs /\ no_content_attr sattrs /\ (forall k v, In (k, v) sattrs -> ~ special_attr k -> legal_name k) /\
  Permutation sattrs sattrs_sorted /\ StronglySorted by_name sattrs_sorted /\ attrs_say xex_compile mode 1 None sattrs_sorted (sattrs_shown mode) /\ more_attrs mode None sattrs [] /\
  Forall (user_stm ex_gen xuser) (sattrs_shown mode ++ [] ++ sdoc_says) /\
  rmap (fun oe => render (fst oe)) (means xpy (sattrs_shown (L "html")) [(L "x", VStr (L "</script>"))]) = Ok (L " src=""a"" type=""text/&lt;/script&gt;""").
Proof.
  intros mode. split; [repeat constructor; [intros [E|[]]; discriminate E|intros []]|].
  split; [intros I1; cbn in I1; destruct I1 as [E|[E|[]]]; discriminate E|].
  split; [left; intros I1; cbn in I1; destruct I1 as [E|[E|[]]]; discriminate E|].
  split; [intros k v [E|[E|[]]] _; injection E as <- <-; (split; [discriminate|reflexivity])|].
  split; [apply perm_swap|].
  split; [repeat constructor|].
  split; [|split; [|split; [unfold sattrs_shown, sdoc_says; cbn [app]; do 7 (apply Forall_cons; [repeat constructor|]); apply Forall_nil|vm_compute; reflexivity]]].
  - assert (NS : forall k, smem k [L "py:content"; L "py:attrs"; L "py:strip"] = false -> ~ special_attr k) by (intros k H [->|[->| ->]]; discriminate H).
    apply (as_attr xex_compile mode 1 None (L "src") (L "a") _ [XText 1 (L "a")]); [now apply NS|reads_ex|].
    apply (as_attr xex_compile mode 1 None (L "type") (L "text/$x") _ [XText 1 (L "text/"); XExpr 1 (L "x")]); [now apply NS|reads_ex|constructor].
  - apply ma_none. left. intros I1; cbn in I1; destruct I1 as [E|[E|[]]]; discriminate E.
Qed.

(** Values with several parts, as template functions give them: if the parts are shown as text, so are they. *)
Theorem C78_parts : forall vs, Forall as_text vs -> as_text (VFlat (map escape vs)).
Proof.
  intros vs F. unfold as_text. cbn [escape]. rewrite P_NestRun3.render_flat. induction F as [|v vs [H1 H2] F [IH1 IH2]]; [split; intros []|].
  cbn [map]. change (escape v :: map escape vs) with ([escape v] ++ map escape vs). rewrite render_app. split; intros I1; apply in_app_or in I1 as [I1|I1]; auto.
Qed.
Print Assumptions C78_parts.
Example C78_parts_example : Forall as_text [VStr (L "</script>"); VInt 3; VNone; VFlat [VStr (L "&lt;b"); VObj (L "[1]")]].
Proof.
  do 3 (apply Forall_cons; [apply C78_plain; first [now left|now right]|]). apply Forall_cons; [|constructor].
  split; vm_compute; intros H; repeat (destruct H as [H|H]; [discriminate H|]); destruct H.
Qed.
