(** * Proofs: texts that are no markup *)

From Coq Require Import Ascii String List Arith NArith ZArith Bool Lia Permutation Sorted.
From Verif Require Import PyStr PyStrLemmas M_Values S_Values P_Values M_IR S_IR P_IR M_Exec S_Exec P_Exec P_Exec2 P_Exec3 P_Exec4 P_Exec5
  M_Text M_XText S_Text S_XText P_XText P_XText2 M_Entities S_Entities P_Entities M_Dom M_XCompile S_XDoc P_XDoc P_XDoc2 P_XStrip S_Markup P_Markup S_Nested P_Nested.
Import ListNotations.
Open Scope list_scope.

Lemma split_at : forall (a : str) x b u v, a ++ x :: b = u ++ v -> (exists w, u = a ++ x :: w /\ b = w ++ v) \/ exists w, v = w ++ x :: b /\ a = u ++ w.
Proof.
  induction a as [|c a IH]; intros x b u v E.
  - destruct u as [|d u]; [right; exists []; now split|]. left. cbn [app] in E. injection E as <- ->. now exists u.
  - destruct u as [|d u]; [right; exists (c :: a); now split|]. cbn [app] in E. injection E as <- E. destruct (IH x b u v E) as [(w & -> & ->)|(w & -> & ->)]; [left|right]; now exists w.
Qed.
Lemma fits_nil : forall html, fits html [].
Proof. intros [|] a b E; destruct a; discriminate. Qed.
Lemma fits_app : forall html s t, fits html s -> fits html t -> fits html (s ++ t).
Proof.
  intros [|] s t Hs Ht a b E; symmetry in E; apply split_at in E; destruct E as [(w & E1 & E2)|(w & E1 & E2)].
  - destruct (Hs _ _ E1) as (c & b' & -> & H). exists c, (b' ++ t). subst b. now split.
  - exact (Ht _ _ E1).
  - exact (Hs _ _ E1).
  - destruct (Ht _ _ E1) as (a' & c & -> & H). exists (s ++ a'), c. subst a. now rewrite app_assoc.
Qed.
Lemma fits_plain : forall html s, ~ In c_lt s -> ~ In c_gt s -> fits html s.
Proof. intros [|] s N1 N2 a b ->; [destruct N1|destruct N2]; apply in_or_app; right; now left. Qed.
Lemma fits_end_tag : forall s, fits true s -> ~ has (L "</") s.
Proof. intros s H (a & b & E). destruct (H a (c_slash :: b) E) as (c & b' & E1 & N1 & _). apply N1. now injection E1 as <- _. Qed.
Lemma fits_comment : forall s, fits true s -> ~ has (L "<!--") s.
Proof. intros s H (a & b & E). destruct (H a (c_bang :: c_dash :: c_dash :: b) E) as (c & b' & E1 & _ & N1). apply N1. now injection E1 as <- _. Qed.
Lemma fits_section : forall s, fits false s -> ~ has (L "]]>") s.
Proof.
  intros s H (a & b & E). assert (E2 : s = (a ++ L "]]") ++ c_gt :: b) by (rewrite E, <- app_assoc; reflexivity).
  destruct (H _ _ E2) as (a' & c & E1 & N1). change (L "]]") with ([c_rbrack] ++ [c_rbrack]) in E1. rewrite app_assoc in E1. apply app_inj_tail in E1. now apply N1.
Qed.

Section Raw.
Variable py : python.
Variable html : bool.
Variable texts : str -> Prop.
Hypothesis G : gentle py html texts.
Notation wr := (wr html).
Notation goods := (goods py html texts).
(** What is shown fits. *)
Definition flats (ss : list stm) : Prop := forall e o e', safe_env html texts e -> means py ss e = Ok (o, e') -> safe_env html texts e' /\ fits html (render o).
Lemma flats_app : forall a b, flats a -> flats b -> flats (a ++ b).
Proof.
  intros a b Ha Hb e o e' Se E. rewrite means_app in E. unfold then_ in E. destruct (means py a e) as [[o1 e1]|] eqn:E1; [|discriminate]. cbn [rbind fst snd] in E.
  destruct (means py b e1) as [[o2 e2]|] eqn:E2; [|discriminate]. cbn [rmap fst snd] in E. assert (o = o1 ++ o2 /\ e' = e2) as [-> ->] by (split; congruence).
  destruct (Ha e o1 e1 Se E1) as [S1 F1]. destruct (Hb e1 o2 e2 S1 E2) as [S2 F2]. split; [exact S2|]. rewrite render_app. now apply fits_app.
Qed.
Lemma raw_flat1 : forall s, raw_stm py html texts s -> flats [s].
Proof.
  intros s H e o e' Se E. rewrite means_single in E. destruct s as [ |t g|t g|x [|]|c b els|d b els|vars b|d cases els|k v g m|x g m]; try (now destruct H); cbn [raw_stm] in H; cbn [meaning] in E.
  - apply under_cases in E. destruct E as [E|[-> ->]]; [|split; [exact Se|apply fits_nil]]. assert (o = [VStr t] /\ e' = e) as [-> ->] by (split; congruence). split; [exact Se|]. now rewrite render_str.
  - apply under_cases in E. destruct E as [E|[-> ->]]; [|split; [exact Se|apply fits_nil]]. assert (o = [match strip t with [] => VStr t | _ => trans py t end] /\ e' = e) as [-> ->] by (split; congruence).
    split; [exact Se|]. destruct (strip t); [rewrite render_str|]; apply H.
  - destruct (ev py e x) as [v|] eqn:Ex; [|discriminate]. cbn [rbind rmap] in E. injection E as <- <-. split; [exact Se|]. destruct (H e v Se Ex). now apply fits_plain.
Qed.
Lemma raw_flat : forall ss, Forall (raw_stm py html texts) ss -> flats ss.
Proof.
  intros ss F. induction F as [|s ss Hs F IH].
  - intros e o e' Se E. injection E as <- <-. split; [exact Se|apply fits_nil].
  - change (s :: ss) with ([s] ++ ss). apply flats_app; [now apply raw_flat1|exact IH].
Qed.
Lemma raw_loose : forall ss, Forall (raw_stm py html texts) ss -> Forall loose ss.
Proof. intros ss F. eapply Forall_impl; [|exact F]. intros s H. destruct s; try exact Logic.I; destruct H. Qed.
(** Between two texts. *)
Lemma flats_good : forall a ss b, flats ss -> (forall body, fits html body -> wr (a ++ body ++ b)) -> goods (SText a None :: ss ++ [SText b None]).
Proof.
  intros a ss b F H e o e' Se E. cbn [means] in E. unfold then_ at 1 in E. cbn [meaning under] in E. unfold under in E. cbn [truthy_guard] in E. cbn [rbind fst snd] in E. rewrite means_app in E. unfold then_ in E.
  destruct (means py ss e) as [[o1 e1]|] eqn:E1; [|discriminate]. cbn [rbind fst snd] in E. rewrite means_single in E. cbn [meaning] in E. unfold under in E. cbn [truthy_guard rmap rbind fst snd] in E.
  injection E as <- <-. destruct (F e o1 e1 Se E1) as [S1 F1]. split; [exact S1|]. change (VStr a :: o1 ++ [VStr b]) with ([VStr a] ++ o1 ++ [VStr b]). rewrite !render_app, !render_str. now apply H.
Qed.
(** An element that is always shown, around texts. *)
Variable mode : str.
Lemma element_flat : forall tag A content fin, Forall (tag_attr mode None) A -> flats content ->
  (forall a s body, written_attrs a s -> fits html body -> wr (L "<" ++ tag ++ s ++ L ">" ++ body ++ fin)) ->
  goods (SText (L "<" ++ tag) None :: A ++ SText (L ">") None :: content ++ [SText fin None]).
Proof.
  intros tag A content fin FA Gc H e o e' Se E. cbn [means] in E. unfold then_ at 1 in E.
  destruct (meaning py (SText (L "<" ++ tag) None) e) as [[o1 e1]|] eqn:E1; [|discriminate]. cbn [rbind fst snd] in E. rewrite means_app in E. unfold then_ at 1 in E.
  destruct (means py A e1) as [[o2 e2]|] eqn:E2; [|discriminate]. cbn [rbind fst snd] in E. cbn [means] in E. unfold then_ at 1 in E.
  destruct (meaning py (SText (L ">") None) e2) as [[o3 e3]|] eqn:E3; [|discriminate]. cbn [rbind fst snd] in E. rewrite means_app in E. unfold then_ at 1 in E.
  destruct (means py content e3) as [[o4 e4]|] eqn:E4; [|discriminate]. cbn [rbind fst snd] in E. rewrite means_single in E.
  destruct (meaning py (SText fin None) e4) as [[o5 e5]|] eqn:E5; [|discriminate]. cbn [rmap fst snd] in E. assert (o = o1 ++ o2 ++ o3 ++ o4 ++ o5 /\ e' = e5) as [-> ->] by (split; congruence). clear E.
  rewrite !render_app. destruct (text_means _ _ _ _ _ _ E1) as [-> T1]. destruct (attrs_mean py html texts mode G None A e o2 e2 Se FA E2) as [-> [a W]]. destruct (text_means _ _ _ _ _ _ E3) as [-> T3].
  destruct (text_means _ _ _ _ _ _ E5) as [-> T5]. destruct (Gc e o4 e4 Se E4) as [S4 W4]. split; [exact S4|]. cbn [truthy_guard] in *. rewrite T1, T3, T5. rewrite <- !app_assoc. now apply (H a).
Qed.
End Raw.
(** The content of a script or style element in a CDATA section. *)
Lemma section_items : forall body, fits false body -> written false (map I_char (L "/**/" ++ body ++ L "/**/")) (L "/*<![CDATA[*/" ++ body ++ L "/*]]>*/").
Proof.
  intros body F. assert (F2 : fits false (L "*/" ++ body ++ L "/*")) by (apply fits_app; [|apply fits_app; [exact F|]]; apply fits_plain; vm_compute; intuition discriminate).
  assert (Ei : map I_char (L "/**/" ++ body ++ L "/**/") = I_char 47%N :: I_char 42%N :: map I_char (L "*/" ++ body ++ L "/*") ++ I_char 42%N :: I_char 47%N :: []) by (rewrite !map_app, <- !app_assoc; reflexivity).
  assert (E : L "/*<![CDATA[*/" ++ body ++ L "/*]]>*/" = [47%N] ++ [42%N] ++ L "<![CDATA[" ++ (L "*/" ++ body ++ L "/*") ++ L "]]>" ++ [42%N] ++ [47%N] ++ []) by (rewrite <- !app_assoc; reflexivity).
  rewrite E, Ei. do 2 (apply w_char; [apply wc_self; discriminate|]). apply w_cdata; [now apply fits_section|]. do 2 (apply w_char; [apply wc_self; discriminate|]). constructor.
Qed.
Lemma section_written : forall body, fits false body -> wr false (L "/*<![CDATA[*/" ++ body ++ L "/*]]>*/").
Proof. intros body F. eexists. now apply section_items. Qed.
Lemma cdata_written : forall body, fits false body -> wr false (L "<![CDATA[" ++ body ++ L "]]>").
Proof. intros body F. exists (map I_char body ++ []). rewrite <- (app_nil_r (L "]]>")). apply w_cdata; [now apply fits_section|constructor]. Qed.
Lemma rawb_cases : forall html tag, html = true /\ raw tag \/ ~ (html = true /\ raw tag).
Proof.
  intros html tag. destruct html; [|right; intros [X _]; discriminate]. destruct (rawb tag) eqn:R.
  - left. split; [reflexivity|]. now apply raw_rawb.
  - right. intros [_ X]. apply raw_rawb in X. congruence.
Qed.
Lemma raw_tag : forall tag, script_or_style tag -> legal_name tag /\ prefixb (L "!") tag = false /\ ~ S_Markup.void tag /\ prefixb (L "py:") tag = false.
Proof. intros tag [->| ->]; (split; [split; [discriminate|reflexivity]|split; [reflexivity|split; [|reflexivity]]]); vm_compute; intuition discriminate. Qed.
Lemma escape_no_angle : forall t, ~ In c_lt (escape_str t) /\ ~ In c_gt (escape_str t).
Proof.
  intros t. rewrite escape_str_enc. induction t as [|c t [IH1 IH2]]; [split; intros []|]. cbn [flat_map]. unfold enc at 1 3.
  destruct (N.eqb_spec c c_amp) as [->|N1]; [split; intros I1; apply in_app_or in I1; destruct I1 as [I1|I1]; [vm_compute in I1; intuition discriminate|tauto|vm_compute in I1; intuition discriminate|tauto]|].
  destruct (N.eqb_spec c c_lt) as [->|N2]; [split; intros I1; apply in_app_or in I1; destruct I1 as [I1|I1]; [vm_compute in I1; intuition discriminate|tauto|vm_compute in I1; intuition discriminate|tauto]|].
  destruct (N.eqb_spec c c_gt) as [->|N3]; [split; intros I1; apply in_app_or in I1; destruct I1 as [I1|I1]; [vm_compute in I1; intuition discriminate|tauto|vm_compute in I1; intuition discriminate|tauto]|].
  match goal with |- context[if ?b then _ else _] => destruct b end; split; intros I1; apply in_app_or in I1; (destruct I1 as [I1|I1]; [cbn [In L list_ascii_of_string map] in I1|tauto]); try (vm_compute in I1; intuition discriminate); destruct I1 as [I1|[]]; congruence.
Qed.
Lemma plain_as_text : forall v, v = VNone \/ S_Values.plain v -> as_text v.
Proof.
  intros v [->|P]; [split; intros []|].
  assert (escape v = VStr (escape_str (to_str v))) as E by (destruct v; try destruct P; reflexivity). unfold as_text. rewrite E, render_str. apply escape_no_angle.
Qed.
