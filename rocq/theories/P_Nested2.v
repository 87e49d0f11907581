(** * Proofs: the output is properly nested, whole documents *)

From Coq Require Import Ascii String List Arith NArith ZArith Bool Lia Permutation Sorted.
From Verif Require Import PyStr PyStrLemmas M_Values S_Values P_Values M_IR S_IR P_IR M_Exec S_Exec P_Exec P_Exec2 P_Exec3 P_Exec4 P_Exec5
  M_Text M_XText S_Text S_XText P_XText P_XText2 M_Entities S_Entities P_Entities M_Dom M_XCompile S_XDoc P_XDoc P_XDoc2 P_XStrip S_Markup P_Markup S_Nested P_Nested P_Raw.
Import ListNotations.
Open Scope list_scope.

Lemma comment_written : forall html t, ~ has (L "--") t -> written html [I_comment (L " " ++ t ++ L " ")] (L "<!-- " ++ t ++ L " -->").
Proof.
  intros html t N0.
  assert (L "<!-- " ++ t ++ L " -->" = L "<!--" ++ (L " " ++ t ++ L " ") ++ L "-->" ++ []) as -> by (rewrite <- !app_assoc; reflexivity).
  constructor; [| |constructor].
  - intros (a & b & E). destruct a as [|c a]; [discriminate|]. apply (f_equal (@tl _)) in E. change (t ++ [c_sp] = a ++ L "--" ++ b) in E.
    destruct (@exists_last _ (L "--" ++ b) ltac:(discriminate)) as (b1 & x & Eb).
    rewrite Eb, app_assoc in E. apply app_inj_tail in E. destruct E as [E <-]. destruct b as [|b0 b] using rev_ind.
    + change (L "--" ++ []) with ([c_dash] ++ [c_dash]) in Eb. apply app_inj_tail in Eb. destruct Eb as [_ Eb]. discriminate.
    + rewrite app_assoc in Eb. apply app_inj_tail in Eb. destruct Eb as [<- _]. apply N0. now exists a, b.
  - intros (t' & E). rewrite app_assoc in E. apply app_inj_tail in E. destruct E as [_ E]. discriminate.
Qed.

Section Nested.
Variable py : python.
Variable html : bool.
Variable texts : str -> Prop.
Variable mode : str.
Hypothesis Hmode : prefixb (L "html") mode = html.
Hypothesis G : gentle py html texts.
Notation goods := (goods py html texts).
Notation wr := (wr html).
Notation tag_attr := (tag_attr mode).

(** ** Sequences of pieces *)
Definition piece_ok (p : S_Exec.piece) : Prop :=
  match p with
  | PcStm (SIf _ b els) | PcStm (SFor _ b els) => goods b /\ goods els
  | PcStm s => goods [s]
  | PcElse b | PcCase _ b => goods b
  end.
Inductive goodl : list S_Exec.piece -> Prop :=
| gl_nil : goodl []
| gl_piece : forall p l, piece_ok p -> goodl l -> goodl (p :: l)
| gl_elem : forall A c B l, Forall loose A -> A <> [] -> Forall loose B -> B <> [] -> goodl c ->
    (forall content, assemble c = Some content -> goods content -> goods (A ++ content ++ B)) ->
    goodl l -> goodl (map PcStm A ++ c ++ map PcStm B ++ l).
Lemma goodl_app : forall a b, goodl a -> goodl b -> goodl (a ++ b).
Proof.
  intros a b Ga Gb. induction Ga as [|p l Hp Ga IH|A c B l FA NA FB NB Gc IHc H Gl IHl]; [exact Gb| |].
  - cbn [app]. now constructor.
  - rewrite <- !app_assoc. now apply gl_elem.
Qed.
Lemma ok_stm : forall s, piece_ok (PcStm s) -> goods [s].
Proof. intros s H. destruct s; try exact H; destruct H as [H1 H2]; [now apply good_if|now apply (good_for py html texts G)]. Qed.

(** Splitting after the element. *)
Lemma assemble_app_loose : forall n c B l ss, length c <= n -> Forall loose B -> B <> [] -> assemble (c ++ map PcStm B ++ l) = Some ss ->
  exists s1 s2, assemble c = Some s1 /\ assemble l = Some s2 /\ ss = s1 ++ B ++ s2.
Proof.
  induction n as [|n IH]; intros c B l ss Hn FB NB E.
  { destruct c; [|cbn in Hn; lia]. cbn [app] in E. rewrite assemble_loose in E by assumption. destruct (assemble l) as [s2|] eqn:El; [|discriminate].
    exists [], s2. repeat split. cbn [option_map] in E. cbn [app]. congruence. }
  destruct c as [|p c]; [apply (IH [] B l ss); [cbn; lia|assumption..]|]. cbn [length] in Hn. cbn [app] in E.
  destruct p as [s|b|cc b]; [|discriminate|discriminate].
  assert (Q : option_map (cons s) (assemble (c ++ map PcStm B ++ l)) = Some ss -> option_map (cons s) (assemble c) = assemble (PcStm s :: c) -> exists s1 s2, assemble (PcStm s :: c) = Some s1 /\ assemble l = Some s2 /\ ss = s1 ++ B ++ s2).
  { intros E1 E2. destruct (assemble (c ++ map PcStm B ++ l)) as [s0|] eqn:E0; [|discriminate]. destruct (IH c B l s0 ltac:(lia) FB NB E0) as (s1 & s2 & Ec & El & ->).
    exists (s :: s1), s2. rewrite <- E2, Ec. repeat split; [exact El|]. cbn [option_map] in E1. cbn [app]. congruence. }
  destruct s; try (apply Q; [exact E|reflexivity]).
  - destruct c as [|[s'|b'|c' b'] c].
    + destruct B as [|s' B]; [congruence|]. apply Q; [exact E|reflexivity].
    + apply Q; [exact E|reflexivity].
    + cbn [app assemble] in E. cbn [assemble]. destruct (assemble (c ++ map PcStm B ++ l)) as [s0|] eqn:E0; [|discriminate].
      destruct (IH c B l s0 ltac:(cbn [length] in Hn; lia) FB NB E0) as (s1 & s2 & Ec & El & ->). rewrite Ec. cbn [option_map] in *. eexists. exists s2. split; [reflexivity|]. split; [exact El|]. cbn [app]. congruence.
    + apply Q; [exact E|reflexivity].
  - destruct c as [|[s'|b'|c' b'] c].
    + destruct B as [|s' B]; [congruence|]. apply Q; [exact E|reflexivity].
    + apply Q; [exact E|reflexivity].
    + cbn [app assemble] in E. cbn [assemble]. destruct (assemble (c ++ map PcStm B ++ l)) as [s0|] eqn:E0; [|discriminate].
      destruct (IH c B l s0 ltac:(cbn [length] in Hn; lia) FB NB E0) as (s1 & s2 & Ec & El & ->). rewrite Ec. cbn [option_map] in *. eexists. exists s2. split; [reflexivity|]. split; [exact El|]. cbn [app]. congruence.
    + apply Q; [exact E|reflexivity].
Qed.
(** Every statement list that results is good. *)
Lemma goodl_else : forall l, goodl l -> forall b l', l = PcElse b :: l' -> goods b /\ goodl l'.
Proof.
  intros l Gl. destruct Gl as [|p l Hp Gl|A c B l FA NA FB NB Gc H Gl]; intros b l' E; [discriminate| |].
  - injection E as -> ->. split; assumption.
  - destruct A as [|a A]; [congruence|discriminate].
Qed.
Lemma goodl_assemble : forall n ps ss, length ps <= n -> goodl ps -> assemble ps = Some ss -> goods ss.
Proof.
  induction n as [|n IH]; intros ps ss Hn Gl E.
  { destruct ps; [|cbn in Hn; lia]. injection E as <-. apply goods_nil. }
  destruct Gl as [|p l Hp Gl|A c B l FA NA FB NB Gc H Gl].
  - injection E as <-. apply goods_nil.
  - cbn [length] in Hn. destruct p as [s|b|c b]; [|discriminate|discriminate].
    assert (Q : option_map (cons s) (assemble l) = Some ss -> goods ss).
    { intros E1. destruct (assemble l) as [s0|] eqn:El; [|discriminate]. assert (ss = [s] ++ s0) as -> by (cbn [option_map] in E1; cbn [app]; congruence).
      apply goods_app; [now apply ok_stm|]. apply (IH l); [lia|assumption..]. }
    destruct s; try (apply Q; exact E).
    + destruct l as [|[s'|b'|c' b'] l]; try (apply Q; exact E). cbn [assemble] in E. destruct (assemble l) as [s0|] eqn:El; [|discriminate].
      destruct (goodl_else _ Gl _ _ eq_refl) as [Gb Gl']. assert (ss = [SIf c b b'] ++ s0) as -> by (cbn [option_map] in E; cbn [app]; congruence).
      apply goods_app; [apply good_if; [apply Hp|exact Gb]|]. apply (IH l); [cbn [length] in Hn; lia|assumption..].
    + destruct l as [|[s'|b'|c' b'] l]; try (apply Q; exact E). cbn [assemble] in E. destruct (assemble l) as [s0|] eqn:El; [|discriminate].
      destruct (goodl_else _ Gl _ _ eq_refl) as [Gb Gl']. assert (ss = [SFor d b b'] ++ s0) as -> by (cbn [option_map] in E; cbn [app]; congruence).
      apply goods_app; [apply (good_for py html texts G); [apply Hp|exact Gb]|]. apply (IH l); [cbn [length] in Hn; lia|assumption..].
  - rewrite !app_length, !map_length in Hn. assert (0 < length A) by (destruct A; [congruence|cbn; lia]).
    rewrite assemble_loose in E by assumption. destruct (assemble (c ++ map PcStm B ++ l)) as [s0|] eqn:E0; [|discriminate].
    destruct (assemble_app_loose (length c) c B l s0 (le_n _) FB NB E0) as (s1 & s2 & Ec & El & ->). assert (ss = (A ++ s1 ++ B) ++ s2) as -> by (cbn [option_map] in E; rewrite <- !app_assoc; congruence).
    apply goods_app; [|apply (IH l); [lia|assumption..]]. apply H; [exact Ec|]. apply (IH c); [lia|assumption..].
Qed.
Definition part_ok (p : S_Exec.piece) : Prop := match p with PcElse b | PcCase _ b => goods b | _ => True end.
Lemma stms_parts : forall A, Forall part_ok (map PcStm A).
Proof. induction A; constructor; [exact Logic.I|assumption]. Qed.
Lemma goodl_parts : forall l, goodl l -> Forall part_ok l.
Proof.
  intros l Gl. induction Gl as [|p l Hp Gl IH|A c B l FA NA FB NB Gc IHc H Gl IHl]; [constructor| |].
  - constructor; [|exact IH]. destruct p; [exact Logic.I|exact Hp..].
  - rewrite !Forall_app. repeat split; try assumption; apply stms_parts.
Qed.
Lemma parts_switch : forall n l cases els, length l <= n -> Forall part_ok l -> assemble_switch l = Some (cases, els) ->
  Forall (fun cb => goods (snd cb)) cases /\ goods els.
Proof.
  induction n as [|n IH]; intros l cases els Hn F E.
  { destruct l; [|cbn in Hn; lia]. injection E as <- <-. split; [constructor|apply goods_nil]. }
  destruct l as [|p l]; [injection E as <- <-; split; [constructor|apply goods_nil]|]. apply Forall_cons_iff in F. destruct F as [Fp F]. cbn [length] in Hn.
  destruct p as [s|b|c b]; cbn [assemble_switch] in E; [discriminate| |].
  - destruct l; [|discriminate]. injection E as <- <-. split; [constructor|exact Fp].
  - destruct (assemble_switch l) as [[cs es]|] eqn:El; [|discriminate]. cbn [option_map fst snd] in E. injection E as <- <-.
    destruct (IH l cs es ltac:(lia) F El) as [F1 F2]. split; [constructor; assumption|exact F2].
Qed.

(** ** Documents *)
Variable compile : str -> compiled.
Variable autoblocks : list str.
Variable scripts : bool.
Lemma texts_good : forall parent ln t ss, text_says compile parent ln t ss -> forall raw, t = xml_text raw -> goodl (map PcStm ss).
Proof.
  intros parent ln t ss T raw E. destruct T as [ps SS R|ps N1 N2 R]; pose proof (reads_texts compile ln t ps R raw E) as F; clear R; induction F as [|p ps Hp F IH]; cbn [map]; try constructor; try exact IH; clear IH F.
  - destruct p as [l x|l x]; cbn [text_stm].
    + destruct Hp as [v W]. cbn [piece_ok]. apply good_text. now apply (wr_text html v).
    + cbn [piece_ok]. now apply good_expr.
  - destruct p as [l x|l x]; cbn [text_stm].
    + destruct Hp as [v W]. destruct (forallb is_space x); cbn [piece_ok]; [apply good_text; now apply (wr_text html v)|now apply (good_trans py html texts G x None v)].
    + cbn [piece_ok]. now apply good_expr.
Qed.
Lemma comment_good : forall t, ~ has (L "--") t -> wr (L "<!-- " ++ t ++ L " -->").
Proof. intros t N0. exists [I_comment (L " " ++ t ++ L " ")]. now apply comment_written. Qed.
Lemma shown_attrs : forall ln g l ss, attrs_say compile mode ln g l ss -> (forall k v, In (k, v) l -> ~ special_attr k -> legal_name k) -> Forall (tag_attr g) ss.
Proof.
  intros ln g l ss H Hl. induction H as [|k v l ss ps Sp Hr H IH|k v l ps ss Sp R H IH]; [constructor| |].
  - apply IH. intros k' v' I1. apply (Hl k' v'). now right.
  - constructor; [|apply IH; intros k' v' I1; apply (Hl k' v'); now right]. left. exists k. eexists. split; [reflexivity|]. apply (Hl k v); [now left|exact Sp].
Qed.
Lemma more_good : forall g a ss, more_attrs mode g a ss -> Forall (tag_attr g) ss.
Proof. intros g a ss [|x V Nx]; [constructor|]. constructor; [|constructor]. right. now exists x. Qed.
Lemma attr_loose : forall g A, Forall (tag_attr g) A -> Forall loose A.
Proof. intros g A F. eapply Forall_impl; [|exact F]. intros s [(k & v & -> & _)|(x & ->)]; exact Logic.I. Qed.

Definition rest_ok (tag : str) (g : option str) (rest : list S_Exec.piece) : Prop :=
  legal_name tag -> prefixb (L "!") tag = false -> steady py g -> forall A, Forall (tag_attr g) A ->
  goodl (PcStm (SText (L "<" ++ tag) g) :: map PcStm A ++ rest).
(** [rest] is [>], content and an end tag. *)
Lemma rest_between : forall tag g cps, goodl cps -> ~ (html = true /\ void tag) -> ~ (html = true /\ raw tag) -> rest_ok tag g (PcStm (SText (L ">") g) :: cps ++ [PcStm (SText (L "</" ++ tag ++ L ">") g)]).
Proof.
  intros tag g cps Gc Nv Nr Lt Nb St A FA.
  assert (E : PcStm (SText (L "<" ++ tag) g) :: map PcStm A ++ PcStm (SText (L ">") g) :: cps ++ [PcStm (SText (L "</" ++ tag ++ L ">") g)] =
    map PcStm (SText (L "<" ++ tag) g :: A ++ [SText (L ">") g]) ++ cps ++ map PcStm [SText (L "</" ++ tag ++ L ">") g] ++ []).
  { cbn [map]. rewrite map_app, app_nil_r. cbn [map app]. now rewrite <- app_assoc. }
  rewrite E. clear E. apply gl_elem; [|discriminate|repeat constructor|discriminate|exact Gc| |constructor].
  - constructor; [exact Logic.I|]. rewrite Forall_app. split; [now apply (attr_loose g)|repeat constructor].
  - intros content _ Gd. pose proof (element_good py html texts mode G g tag A content (L "</" ++ tag ++ L ">") St FA Gd) as H. cbn [app]. rewrite <- app_assoc. cbn [app]. apply H.
    intros a s body W [is Wb]. exists (I_start tag a :: is ++ I_end tag :: []). rewrite <- (app_nil_r (L "</" ++ tag ++ L ">")), <- !app_assoc. apply w_elem; try assumption. constructor.
Qed.
Lemma rest_closed : forall tag g t, closes mode tag t -> rest_ok tag g [PcStm (SText t g)].
Proof.
  intros tag g t C Lt Nb St A FA.
  assert (E : PcStm (SText (L "<" ++ tag) g) :: map PcStm A ++ [PcStm (SText t g)] = map PcStm (SText (L "<" ++ tag) g :: A) ++ [] ++ map PcStm [SText t g] ++ []) by reflexivity.
  rewrite E. clear E. apply gl_elem; [|discriminate|repeat constructor|discriminate|constructor| |constructor].
  - constructor; [exact Logic.I|]. now apply (attr_loose g).
  - intros content Ec _. cbn [assemble] in Ec. assert (content = []) as -> by congruence. cbn [app]. apply (empty_good py html texts mode G g tag A t St FA). intros a s W.
    assert (Wb : ~ (html = true /\ void tag) -> wr (L "<" ++ tag ++ s ++ L "></" ++ tag ++ L ">")).
    { intros Nv. destruct (rawb_cases html tag) as [[Hh Hr]|Nr].
      { exists (I_start tag a :: map I_char [] ++ I_end tag :: []). change (L "></" ++ tag ++ L ">") with (L ">" ++ [] ++ L "</" ++ tag ++ L ">" ++ []). apply w_raw; try assumption; try constructor; intros (x & y & Ex); destruct x; discriminate. }
      exists (I_start tag a :: [] ++ I_end tag :: []). change (L "></" ++ tag ++ L ">") with (L ">" ++ [] ++ L "</" ++ tag ++ L ">" ++ []). apply w_elem; try assumption; constructor. }
    destruct C as [Hh V|Hh Nv| ->|Hh Ns].
    + exists [I_start tag a; I_end tag]. rewrite <- (app_nil_r (L ">")). apply w_void; [unfold is_html in Hh; congruence|exact V|exact W|constructor].
    + apply Wb. intros [_ V]. now apply Nv.
    + apply Wb. intros [_ V]. vm_compute in V. intuition discriminate.
    + exists [I_start tag a; I_end tag]. rewrite <- (app_nil_r (L "/>")). apply w_empty; try assumption; [|constructor]. unfold is_html in Hh. destruct html; [congruence|reflexivity].
Qed.
Lemma rest_void : forall tag g cps, goodl cps -> html = true -> void tag -> rest_ok tag g (PcStm (SText (L ">") g) :: cps).
Proof.
  intros tag g cps Gc Hh V Lt Nb St A FA.
  assert (E : PcStm (SText (L "<" ++ tag) g) :: map PcStm A ++ PcStm (SText (L ">") g) :: cps = map PcStm (SText (L "<" ++ tag) g :: A) ++ [] ++ map PcStm [SText (L ">") g] ++ cps) by reflexivity.
  rewrite E. clear E. apply gl_elem; [|discriminate|repeat constructor|discriminate|constructor| |exact Gc].
  - constructor; [exact Logic.I|]. now apply (attr_loose g).
  - intros content Ec _. cbn [assemble] in Ec. assert (content = []) as -> by congruence. cbn [app]. apply (empty_good py html texts mode G g tag A (L ">") St FA). intros a s W.
    exists [I_start tag a; I_end tag]. rewrite <- (app_nil_r (L ">")). apply w_void; try assumption; constructor.
Qed.
(** A script or style element. *)
Notation raw_stm := (raw_stm py html texts).
Lemma rest_flat : forall tag ss, script_or_style tag -> Forall loose ss ->
  (forall A, Forall (tag_attr None) A -> goods (SText (L "<" ++ tag) None :: A ++ SText (L ">") None :: ss ++ [SText (L "</" ++ tag ++ L ">") None])) ->
  rest_ok tag None (PcStm (SText (L ">") None) :: map PcStm ss ++ [PcStm (SText (L "</" ++ tag ++ L ">") None)]).
Proof.
  intros tag ss SS Fl H Lt Nb St A FA.
  assert (E : PcStm (SText (L "<" ++ tag) None) :: map PcStm A ++ PcStm (SText (L ">") None) :: map PcStm ss ++ [PcStm (SText (L "</" ++ tag ++ L ">") None)] =
    map PcStm (SText (L "<" ++ tag) None :: A ++ SText (L ">") None :: ss) ++ [] ++ map PcStm [SText (L "</" ++ tag ++ L ">") None] ++ []).
  { cbn [map]. rewrite map_app, app_nil_r. cbn [map app]. now rewrite <- app_assoc. }
  rewrite E. clear E. apply gl_elem; [|discriminate|repeat constructor|discriminate|constructor| |constructor].
  - constructor; [exact Logic.I|]. rewrite Forall_app. split; [now apply (attr_loose None)|]. constructor; [exact Logic.I|exact Fl].
  - intros content Ec _. cbn [assemble] in Ec. assert (content = []) as -> by congruence. cbn [app]. rewrite <- app_assoc. cbn [app]. now apply H.
Qed.
Lemma rest_html : forall tag ss, html = true -> script_or_style tag -> Forall raw_stm ss -> rest_ok tag None (PcStm (SText (L ">") None) :: map PcStm ss ++ [PcStm (SText (L "</" ++ tag ++ L ">") None)]).
Proof.
  intros tag ss Hh SS F. apply rest_flat; [exact SS|now apply (raw_loose py html texts)|]. intros A FA. apply (element_flat py html texts G mode); [exact FA|now apply raw_flat|].
  intros a s body W Fb. exists (I_start tag a :: map I_char body ++ I_end tag :: []). rewrite <- (app_nil_r (L "</" ++ tag ++ L ">")), <- !app_assoc. rewrite Hh in Fb. apply w_raw; try assumption; [now apply fits_end_tag|now apply fits_comment|constructor].
Qed.
Lemma rest_xml : forall tag ss, html = false -> script_or_style tag -> Forall raw_stm ss ->
  rest_ok tag None (PcStm (SText (L ">") None) :: map PcStm (SText (L "/*<![CDATA[*/") None :: ss ++ [SText (L "/*]]>*/") None]) ++ [PcStm (SText (L "</" ++ tag ++ L ">") None)]).
Proof.
  intros tag ss Hh SS F. destruct (raw_tag tag SS) as (Lt & Nb & _). apply rest_flat; [exact SS| |].
  - constructor; [exact Logic.I|]. apply Forall_app. split; [now apply (raw_loose py html texts)|repeat constructor].
  - intros A FA. apply (element_good py html texts mode G None tag A (SText (L "/*<![CDATA[*/") None :: ss ++ [SText (L "/*]]>*/") None]) (L "</" ++ tag ++ L ">")); [exact Logic.I|exact FA| |].
    + apply flats_good; [now apply raw_flat|]. rewrite Hh. apply section_written.
    + intros a s body W [is Wb]. exists (I_start tag a :: is ++ I_end tag :: []). rewrite <- (app_nil_r (L "</" ++ tag ++ L ">")), <- !app_assoc. apply w_elem; try assumption; try (intros [X _]; congruence). constructor.
Qed.
Notation ordinary := (ordinary py html texts compile scripts mode).
Notation ordinaries := (ordinaries py html texts compile scripts mode).
Notation raw_text := (raw_text py html texts compile).
Lemma cdata_good : forall ss l, html = false -> Forall raw_stm ss -> goodl l ->
  goodl (PcStm (SText (L "<![CDATA[") None) :: map PcStm ss ++ PcStm (SText (L "]]>") None) :: l).
Proof.
  intros ss l Hh F Gl. change (goodl (map PcStm (SText (L "<![CDATA[") None :: ss) ++ [] ++ map PcStm [SText (L "]]>") None] ++ l)).
  apply gl_elem; [|discriminate|repeat constructor|discriminate|constructor| |exact Gl].
  - constructor; [exact Logic.I|now apply (raw_loose py html texts)].
  - intros content Ec _. cbn [assemble] in Ec. assert (content = []) as -> by congruence. cbn [app]. apply flats_good; [now apply raw_flat|]. rewrite Hh. apply cdata_written.
Qed.
Lemma says_good :
  (forall parent prev n ps, says compile autoblocks scripts mode parent prev n ps ->
     (ordinary n -> goodl ps) /\ (raw_text parent n -> exists ss, ps = map PcStm ss /\ Forall raw_stm ss)) /\
  (forall ln tag a g cs rest, rest_says compile autoblocks scripts mode ln tag a g cs rest -> NoDup (map fst a) ->
     (ordinaries tag cs -> ~ (script_or_style tag /\ (scripts = true \/ html = true)) -> (html = true -> void tag -> no_content_attr a) -> rest_ok tag g rest) /\
     (script_or_style tag -> scripts = true \/ html = true -> raw_content py html texts compile scripts mode tag a cs -> g = None -> rest_ok tag g rest)) /\
  (forall marks parent prev l ps, all_say compile autoblocks scripts mode marks parent prev l ps ->
     (marks = false -> Forall ordinary l -> goodl ps) /\ (marks = true -> ordinaries parent l -> goodl ps) /\
     (Forall (raw_text parent) l -> exists ss, ps = map PcStm ss /\ Forall raw_stm ss) /\
     (marks = true -> forall ts ln l', l = ts ++ DMark ln (L "]]>") :: l' -> Forall (raw_text parent) ts -> ordinaries parent l' ->
        exists ss qs, ps = map PcStm ss ++ PcStm (SText (L "]]>") None) :: qs /\ Forall raw_stm ss /\ goodl qs)).
Proof.
  assert (Inside : forall ln tag a cs, prefixb (L "py:") tag = true -> ordinary (DElem ln tag a cs) -> Forall ordinary cs).
  { intros ln tag a cs Py O. inversion O as [| |? ? ? ? P Tw F|? ? ? ? P|? ? ? ? SS]; [exact F|congruence|]. destruct (raw_tag tag SS) as (_ & _ & _ & P). congruence. }
  assert (Withs : forall ln a cs vars, ordinary (DElem ln (L "py:with") a cs) -> with_vars (get_attr (L "vars") a) = Ok vars -> texts_given py html texts vars).
  { intros ln a cs vars O. inversion O as [| |? ? ? ? P Tw F|? ? ? ? P|? ? ? ? SS]; [now apply Tw|discriminate|destruct SS; discriminate]. }
  assert (Two : html = true \/ html = false) by (destruct html; auto).
  assert (Whole : forall ps b, goodl ps -> assemble ps = Some b -> goods b) by (intros ps b Gl A; now apply (goodl_assemble (length ps) ps b)).
  assert (Block : forall ps b, goodl ps -> assemble_block ps = Some b -> goods b) by (intros ps b Gl A; apply P_Exec3.block_some in A as [A _]; now apply (Whole ps)).
  apply says_induction.
  - intros parent prev ln t Np. split; [|intros []]. intros O. inversion O as [|? ? Nt| | |]. constructor; [|constructor]. cbn [piece_ok]. apply good_text. now apply comment_good.
  - intros. split; [constructor|intros []].
  - intros parent prev ln t e ss T. split.
    + intros O. remember (DText ln t e) as n eqn:En. destruct O as [ln0 raw e0| | | |]; try discriminate En. apply (texts_good parent ln t ss T raw). congruence.
    + intros R. exists ss. split; [reflexivity|]. now apply R.
  - intros parent prev ln t ss T. split; [|intros []]. intros O. inversion O.
  - intros parent prev ln a cs test ps b Na Et H IH A. split; [|intros []]. intros O. constructor; [|constructor]. split; [|apply goods_nil]. apply (Block ps); [apply (proj1 IH eq_refl); now apply Inside in O|exact A].
  - intros parent prev ln a cs ps b Na Hp H IH A. split; [|intros []]. intros O. constructor; [|constructor]. apply (Block ps); [apply (proj1 IH eq_refl); now apply Inside in O|exact A].
  - intros parent prev ln a cs each ps b Na Et H IH A. split; [|intros []]. intros O. constructor; [|constructor]. split; [|apply goods_nil]. apply (Block ps); [apply (proj1 IH eq_refl); now apply Inside in O|exact A].
  - intros parent prev ln a cs vars ps b Na Et H IH A. split; [|intros []]. intros O. constructor; [|constructor]. cbn [piece_ok]. apply (good_with py html texts G); [now apply (Withs ln a cs)|]. apply (Whole ps); [apply (proj1 IH eq_refl); now apply Inside in O|exact A].
  - intros parent prev ln a cs test ps cases els Na Et H IH A. split; [|intros []]. intros O. constructor; [|constructor]. cbn [piece_ok].
    assert (Forall part_ok (filter (fun p => negb (blank_text p)) ps)) as F.
    { apply Inside in O; [|reflexivity]. pose proof (proj1 IH eq_refl O) as Q. apply goodl_parts in Q. rewrite Forall_forall in *. intros x I1. apply filter_In in I1. now apply Q. }
    destruct (parts_switch _ _ cases els (le_n _) F A) as [F1 F2]. now apply good_switch.
  - intros parent prev ln a cs v ps b Na Et H IH A. split; [|intros []]. intros O. constructor; [|constructor]. apply (Block ps); [apply (proj1 IH eq_refl); now apply Inside in O|exact A].
  - intros parent prev ln a cs x Na Ex. split; [|intros []]. intros O. constructor; [|constructor]. now apply good_expr.
  - intros parent prev ln a cs ps Na H IH. split; [|intros []]. intros O. apply (proj1 IH eq_refl). now apply Inside in O.
  - intros parent prev ln tag a cs g sorted shown more rest Py Na ND Tc Pm Ss As Ma H IH. split; [|intros []]. intros O.
    assert (FA : legal_attrs a -> Forall (tag_attr g) (shown ++ more)).
    { intros Lk. rewrite Forall_app. split; [|now apply (more_good g a)]. apply (shown_attrs ln g sorted shown As). intros k v I1. apply (Lk k v). eapply Permutation_in; [symmetry; exact Pm|exact I1]. }
    rewrite app_assoc, <- map_app. destruct (IH ND) as [IH1 IH2]. inversion O as [| |? ? ? ? P|? ? ? ? P Lt Nb Ns Lk Nc St F|? ? ? ? SS Hs Lk Ab Rc]; [congruence| |].
    + now apply (IH1 F Ns Nc Lt Nb (St g Tc)), FA.
    + assert (g = None) as ->. { destruct Tc as [_|V|c V]; [reflexivity| |]; destruct Ab; apply in_map_iff; eexists; (split; [|exact V]); reflexivity. }
      destruct (raw_tag tag SS) as (Lt & Nb & _ & _). apply (IH2 SS Hs Rc eq_refl Lt Nb Logic.I). now apply FA.
  - intros ln tag a g cs c V Nc ND. assert (Nr : ~ (script_or_style tag /\ (scripts = true \/ html = true)) -> ~ (html = true /\ raw tag)) by (intros Ns [Hh Hr]; apply Ns; split; [exact Hr|now right]). split.
    + intros F Ns Hc. apply (rest_between tag g [PcStm (SExpr c false)]); [| |now apply Nr].
      * constructor; [|constructor]. now apply good_expr.
      * intros [Hh Hv]. destruct (Hc Hh Hv) as [Ab|V0].
        -- apply Ab. apply in_map_iff. now exists (L "py:content", c).
        -- apply Nc. rewrite <- (get_attr_value _ _ _ ND V). now apply get_attr_value.
    + intros SS Hs (Rc & _) ->. destruct Two as [Hh|Hh].
      * apply (rest_html tag [SExpr c false] Hh SS). constructor; [|constructor]. cbn [S_Nested.raw_stm]. intros e v. now apply Rc.
      * apply (rest_between tag None [PcStm (SExpr c false)]); try (intros [X _]; congruence). constructor; [|constructor]. now apply good_expr.
  - intros ln tag a g t Nc C ND. split; intros; now apply rest_closed.
  - intros ln tag a g cs ss Nc Ncs Sc SS H ND. split; [intros F Ns; destruct Ns; split; [exact SS|now left]|]. intros _ _ (_ & Rc & _) ->. destruct (Rc Sc) as [Hm Rs]. specialize (Rs ss H). unfold cdata_open, cdata_close.
    destruct Two as [Hh|Hh].
    + assert (seqb mode (L "xml") = false) as -> by (destruct (seqb_spec mode (L "xml")) as [Em|]; [|reflexivity]; rewrite Em in Hmode; cbn in Hmode; congruence). rewrite app_nil_r. now apply rest_html.
    + rewrite (Hm Hh), seqb_refl. now apply rest_xml.
  - intros ln tag a g cs ps Nc Ncs Ns0 Nv H IH ND. split.
    + intros F Ns Hc. apply rest_between; [now apply IH| |].
      * intros [Hh V]. apply Nv. split; [unfold is_html; congruence|exact V].
      * intros [Hh Hr]. apply Ns. split; [exact Hr|now right].
    + intros SS Hs (_ & _ & Rc) ->. destruct Hs as [Hs|Hh]; [destruct Ns0; now split|]. assert (Hsc : scripts = false) by (destruct scripts; [destruct Ns0; now split|reflexivity]). destruct (proj1 (proj2 (proj2 IH)) (Rc Hsc)) as (ss & -> & Fs). now apply rest_html.
  - intros ln tag a g cs ps Nc Ncs Hh V H IH ND. split; [|intros SS; destruct (raw_tag tag SS) as (_ & _ & Nv & _); now destruct Nv].
    intros F Ns Hc. apply rest_void; [now apply IH|unfold is_html in Hh; congruence|exact V].
  - intros marks parent prev. split; [constructor|]. split; [constructor|]. split; [intros _; now exists []|]. intros _ ts ln l' E. destruct ts; discriminate.
  - intros parent prev ln t l ps H (IH1 & IH2 & IH3 & IH4). split; [discriminate|]. split; [|split].
    + intros _ O. inversion O as [|? ? ? On|? l1 l2 ts l0 Hh Ft Ol]; [inversion On|]. subst. destruct (IH4 eq_refl ts l2 l0 eq_refl Ft Ol) as (ss & qs & -> & Fs & Gq). now apply cdata_good.
    + intros F. apply Forall_cons_iff in F. destruct F as [[] _].
    + intros _ ts ln0 l' E Ft Ol. destruct ts as [|n ts].
      * cbn [app] in E. assert (t = L "]]>" /\ l = l') as [-> ->] by (split; congruence). exists [], ps. split; [reflexivity|]. split; [constructor|]. now apply IH2.
      * apply Forall_cons_iff in Ft. destruct Ft as [Rn _]. cbn [app] in E. assert (n = DMark ln t) as -> by congruence. destruct Rn.
  - intros marks parent prev n l ps qs Hm H (IHn & IHr) H' (IH1 & IH2 & IH3 & IH4). split; [|split; [|split]].
    + intros Em F. apply Forall_cons_iff in F. destruct F as [O F]. apply goodl_app; [now apply IHn|now apply IH1].
    + intros Em O. inversion O as [|? ? ? On Ol|? l1 l2 ts l0 Hh Ft Ol]; subst.
      * apply goodl_app; [now apply IHn|now apply IH2].
      * exfalso. destruct Hm as [Hm|Hm]; [discriminate|]. now apply Hm.
    + intros F. apply Forall_cons_iff in F. destruct F as [R F]. destruct (IHr R) as (s1 & -> & F1). destruct (IH3 F) as (s2 & -> & F2). exists (s1 ++ s2). rewrite map_app. split; [reflexivity|]. now apply Forall_app.
    + intros Em ts ln0 l' E Ft Ol. destruct ts as [|m ts].
      * exfalso. cbn [app] in E. assert (n = DMark ln0 (L "]]>")) as -> by congruence. destruct Hm as [Hm|Hm]; [congruence|]. now apply Hm.
      * apply Forall_cons_iff in Ft. destruct Ft as [Rm Ft]. cbn [app] in E. assert (n = m /\ l = ts ++ DMark ln0 (L "]]>") :: l') as [-> El] by (split; congruence).
        destruct (IHr Rm) as (s1 & -> & F1). destruct (IH4 Em ts ln0 l' El Ft Ol) as (s2 & q2 & -> & F2 & Gq). exists (s1 ++ s2), q2. rewrite map_app, <- app_assoc. split; [reflexivity|]. split; [now apply Forall_app|exact Gq].
Qed.
Lemma says_written : forall parent prev n ps ss e o e', says compile autoblocks scripts mode parent prev n ps -> assemble ps = Some ss -> ordinary n ->
  safe_env html texts e -> means py ss e = Ok (o, e') -> exists is, written html is (render o).
Proof.
  intros parent prev n ps ss e o e' H A O Se M. pose proof (proj1 (proj1 says_good _ _ _ _ H) O) as Gl. exact (proj2 (goodl_assemble (length ps) ps ss (le_n _) Gl A e o e' Se M)).
Qed.
End Nested.
