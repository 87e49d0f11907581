(** * Proofs: the output is properly nested *)

From Coq Require Import Ascii String List Arith NArith ZArith Bool Lia Permutation Sorted.
From Verif Require Import PyStr PyStrLemmas M_Values S_Values P_Values M_IR S_IR P_IR M_Exec S_Exec P_Exec P_Exec2 P_Exec3 P_Exec4 P_Exec5
  M_Text M_XText S_Text S_XText P_XText P_XText2 M_Entities S_Entities P_Entities M_Dom M_XCompile S_XDoc P_XDoc P_XDoc2 P_XStrip S_Markup P_Markup S_Nested.
Import ListNotations.
Open Scope list_scope.

(** ** Texts *)
Lemma written_text_app : forall v s v' s', written_text v s -> written_text v' s' -> written_text (v ++ v') (s ++ s').
Proof. intros v s v' s' W W'. induction W; [exact W'|]. rewrite <- app_assoc. cbn [app]. constructor; assumption. Qed.
Lemma written_of_text : forall html v s, written_text v s -> written html (map I_char v) s.
Proof. intros html v s W. induction W; [constructor|]. cbn [map]. now constructor. Qed.
Lemma written_xml : forall t, written_text t (xml_text t).
Proof.
  induction t as [|c t IH]; [constructor|].
  change (xml_text (c :: t)) with ((if N.eqb c c_amp then L "&amp;" else if N.eqb c c_lt then L "&lt;" else if N.eqb c c_gt then L "&gt;" else [c]) ++ xml_text t).
  constructor; [|exact IH]. destruct (N.eqb_spec c c_amp) as [->|N1]; [apply (wc_ref (L "amp;")); now left|].
  destruct (N.eqb_spec c c_lt) as [->|N2]; [apply (wc_ref (L "lt;")); right; now left|].
  destruct (N.eqb_spec c c_gt) as [->|N3]; [apply (wc_ref (L "gt;")); right; right; now left|]. now constructor.
Qed.
Lemma written_escape : forall t, written_text t (escape_str t).
Proof.
  intros t. rewrite escape_str_enc. induction t as [|c t IH]; [constructor|]. cbn [flat_map]. constructor; [|exact IH]. unfold enc.
  destruct (N.eqb_spec c c_amp) as [->|N1]; [apply (wc_ref (L "amp;")); now left|].
  destruct (N.eqb_spec c c_lt) as [->|N2]; [apply (wc_ref (L "lt;")); right; now left|].
  destruct (N.eqb_spec c c_gt) as [->|N3]; [apply (wc_ref (L "gt;")); right; right; now left|].
  destruct (N.eqb_spec c c_dq) as [->|N4]; [apply (wc_ref (L "quot;")); right; right; right; now left|]. now constructor.
Qed.
Lemma in_attr_text : forall v s, written_text v s -> written_text (map in_attr v) (map in_attr s).
Proof.
  intros v s W. induction W as [|c s v u Wc W IH]; [constructor|]. rewrite map_app. cbn [map]. constructor; [|exact IH].
  destruct Wc as [c N1 N2|name c I1].
  - cbn [map]. unfold in_attr. destruct (cmem c [9; 10; 13]%N); constructor; try discriminate; assumption.
  - cbn [In references] in I1. destruct I1 as [E|[E|[E|[E|[]]]]]; injection E as <- <-.
    + change (in_attr c_amp) with c_amp. change (map in_attr (c_amp :: L "amp;")) with (c_amp :: L "amp;"). apply wc_ref. now left.
    + change (in_attr c_lt) with c_lt. change (map in_attr (c_amp :: L "lt;")) with (c_amp :: L "lt;"). apply wc_ref. right. now left.
    + change (in_attr c_gt) with c_gt. change (map in_attr (c_amp :: L "gt;")) with (c_amp :: L "gt;"). apply wc_ref. right. right. now left.
    + change (in_attr c_dq) with c_dq. change (map in_attr (c_amp :: L "quot;")) with (c_amp :: L "quot;"). apply wc_ref. right. right. right. now left.
Qed.
Lemma escape_no_quote : forall t, ~ In c_dq (escape_str t).
Proof.
  intros t. rewrite escape_str_enc, in_flat_map. intros (c & _ & I1). unfold enc in I1.
  destruct (N.eqb_spec c c_amp); [vm_compute in I1; intuition discriminate|].
  destruct (N.eqb_spec c c_lt); [vm_compute in I1; intuition discriminate|].
  destruct (N.eqb_spec c c_gt); [vm_compute in I1; intuition discriminate|].
  destruct (N.eqb_spec c c_dq); [vm_compute in I1; intuition discriminate|]. destruct I1 as [E|[]]. congruence.
Qed.

(** Where the text is cut: at a reference in the template. *)
Definition enc_text (c : char) : str := if N.eqb c c_amp then L "&amp;" else if N.eqb c c_lt then L "&lt;" else if N.eqb c c_gt then L "&gt;" else [c].
Lemma xml_text_cons : forall c t, xml_text (c :: t) = enc_text c ++ xml_text t.
Proof. reflexivity. Qed.
Lemma enc_cases : forall c, (c <> c_amp /\ enc_text c = [c]) \/ exists name, enc_text c = c_amp :: name /\ ~ In c_dollar name /\ ~ In c_rbrace name /\ ~ In c_amp name.
Proof.
  intros c. unfold enc_text. destruct (N.eqb_spec c c_amp); [right; exists (L "amp;"); split; [reflexivity|vm_compute; intuition discriminate]|].
  destruct (N.eqb_spec c c_lt); [right; exists (L "lt;"); split; [reflexivity|vm_compute; intuition discriminate]|].
  destruct (N.eqb_spec c c_gt); [right; exists (L "gt;"); split; [reflexivity|vm_compute; intuition discriminate]|]. now left.
Qed.
(** A cut before a dollar sign. *)
Lemma cut_before : forall raw a b, xml_text raw = a ++ c_dollar :: b -> exists r1 r2, a = xml_text r1 /\ c_dollar :: b = xml_text r2.
Proof.
  induction raw as [|c raw IH]; intros a b E; [destruct a; discriminate|]. rewrite xml_text_cons in E.
  destruct (enc_cases c) as [[Na Ec]|(name & Ec & Nd & _ & _)]; rewrite Ec in E.
  - destruct a as [|a0 a]; cbn [app] in E.
    + exists [], (c :: raw). split; [reflexivity|]. rewrite xml_text_cons, Ec. exact (eq_sym E).
    + injection E as <- E. destruct (IH _ _ E) as (r1 & r2 & -> & E2). exists (c :: r1), r2. split; [|exact E2]. now rewrite xml_text_cons, Ec.
  - assert (G : forall n a b X, ~ In c_dollar n -> n ++ X = a ++ c_dollar :: b -> exists a', a = n ++ a' /\ X = a' ++ c_dollar :: b).
    { clear. induction n as [|x n IHn]; intros a b X Nx E; [exists a; now split|]. destruct a as [|y a]; cbn [app] in E.
      - injection E as -> _. destruct Nx. now left.
      - injection E as <- E. destruct (IHn a b X) as (a' & -> & E'); [intros I1; apply Nx; now right|exact E|]. now exists a'. }
    destruct (G (c_amp :: name) a b (xml_text raw) ltac:(intros [X|X]; [discriminate|now apply Nd]) E) as (a' & -> & E').
    destruct (IH _ _ E') as (r1 & r2 & -> & E2). exists (c :: r1), r2. split; [|exact E2]. now rewrite xml_text_cons, Ec.
Qed.
(** A cut after a closing brace. *)
Lemma cut_after : forall raw a b, xml_text raw = a ++ c_rbrace :: b -> exists r2, b = xml_text r2.
Proof.
  induction raw as [|c raw IH]; intros a b E; [destruct a; discriminate|]. rewrite xml_text_cons in E.
  destruct (enc_cases c) as [[Na Ec]|(name & Ec & _ & Nd & _)]; rewrite Ec in E.
  - destruct a as [|a0 a]; cbn [app] in E; injection E as E0 E; [now exists raw|]. exact (IH _ _ E).
  - assert (G : forall n a b X, ~ In c_rbrace n -> n ++ X = a ++ c_rbrace :: b -> exists a', a = n ++ a' /\ X = a' ++ c_rbrace :: b).
    { clear. induction n as [|x n IHn]; intros a b X Nx E; [exists a; now split|]. destruct a as [|y a]; cbn [app] in E.
      - injection E as -> _. destruct Nx. now left.
      - injection E as <- E. destruct (IHn a b X) as (a' & -> & E'); [intros I1; apply Nx; now right|exact E|]. now exists a'. }
    destruct (G (c_amp :: name) a b (xml_text raw) ltac:(intros [X|X]; [discriminate|now apply Nd]) E) as (a' & -> & E'). exact (IH _ _ E').
Qed.
(** A cut after characters that are no ampersands. *)
Lemma cut_plain : forall a raw b, ~ In c_amp a -> xml_text raw = a ++ b -> exists r2, b = xml_text r2.
Proof.
  induction a as [|x a IH]; intros raw b Na E; [now exists raw|]. destruct raw as [|c raw]; [discriminate|]. rewrite xml_text_cons in E.
  destruct (enc_cases c) as [[Nc Ec]|(name & Ec & _)]; rewrite Ec in E; cbn [app] in E; injection E as E0 E.
  - apply (IH raw); [intros I1; apply Na; now right|exact E].
  - destruct Na. left. now symmetry.
Qed.
Definition text_piece (p : M_XText.piece) : Prop := match p with XText _ t => exists v, written_text v t | XExpr _ _ => True end.
Lemma reads_texts : forall compile ln s ps, reads compile ln s ps -> forall raw, s = xml_text raw -> Forall text_piece ps.
Proof.
  intros compile ln s ps R. induction R as [ln|ln t s ps Nt Nr Hs R IH|ln s ps R IH|ln c n s ps Hc Hn Hst R IH|ln ws e s l o ps Hw Hst Hc Ho Hk Nr R IH|ln ws e1 e2 s l o ps Hw Hst Hc Ho Hk Nr Rs R IH]; intros raw E.
  - constructor.
  - destruct Hs as [->|(c & v & -> & _)].
    + rewrite app_nil_r in E. constructor; [exists raw; rewrite E; apply written_xml|]. now apply (IH []).
    + destruct (cut_before raw t (c :: v) (eq_sym E)) as (r1 & r2 & -> & E2). constructor; [exists r1; apply written_xml|]. now apply (IH r2).
  - constructor; [exists (L "$"); apply (written_xml (L "$"))|]. destruct (cut_plain (L "$$") raw s) as [r2 ->]; [vm_compute; intuition discriminate|now symmetry|]. now apply (IH r2).
  - constructor; [exact Logic.I|]. destruct (cut_plain (c_dollar :: c :: n) raw s) as [r2 ->]; [|now symmetry|now apply (IH r2)].
    intros [X|[X|X]]; [discriminate| |].
    + subst c. vm_compute in Hc. discriminate.
    + rewrite Forall_forall in Hn. apply Hn in X. vm_compute in X. discriminate.
  - constructor; [exact Logic.I|]. destruct (cut_after raw (L "${" ++ ws ++ e) s) as [r2 ->]; [|now apply (IH r2)].
    rewrite <- E, <- !app_assoc. reflexivity.
  - constructor; [exact Logic.I|]. destruct e2 as [|d e2]; [destruct Rs as (c & v & X & _); discriminate X|].
    assert (d = c_dollar) as -> by (destruct Rs as (c & v & X & _); now injection X). cbn [app] in *.
    destruct (cut_before raw (L "${" ++ ws ++ e1) (e2 ++ L "}" ++ s)) as (r1 & r2 & _ & E2); [|now apply (IH r2)].
    rewrite <- E, <- !app_assoc. reflexivity.
Qed.

(** ** Statements *)
Section Nested.
Variable py : python.
Variable html : bool.
Variable texts : str -> Prop.
Variable mode : str.
Hypothesis Hmode : prefixb (L "html") mode = html.
Hypothesis G : gentle py html texts.

Definition wr (s : str) : Prop := exists is, written html is s.
Lemma wr_app : forall a b, wr a -> wr b -> wr (a ++ b).
Proof. intros a b [i1 W1] [i2 W2]. exists (i1 ++ i2). now apply written_app. Qed.
Lemma wr_nil : wr [].
Proof. exists []. constructor. Qed.
Lemma wr_text : forall v s, written_text v s -> wr s.
Proof. intros v s W. exists (map I_char v). now apply written_of_text. Qed.
Definition goods (ss : list stm) : Prop := forall e o e', safe_env html texts e -> means py ss e = Ok (o, e') -> safe_env html texts e' /\ wr (render o).
Lemma goods_nil : goods [].
Proof. intros e o e' Se E. cbn [means] in E. injection E as <- <-. split; [exact Se|apply wr_nil]. Qed.
Lemma goods_app : forall a b, goods a -> goods b -> goods (a ++ b).
Proof.
  intros a b Ga Gb e o e' Se E. rewrite means_app in E. unfold then_ in E. destruct (means py a e) as [[o1 e1]|] eqn:E1; [|discriminate]. cbn [rbind fst snd] in E.
  destruct (means py b e1) as [[o2 e2]|] eqn:E2; [|discriminate]. cbn [rmap fst snd] in E. injection E as <- <-. destruct (Ga e o1 e1 Se E1) as [S1 W1]. destruct (Gb e1 o2 e2 S1 E2) as [S2 W2]. split; [exact S2|]. rewrite render_app. now apply wr_app.
Qed.
Lemma goods_one : forall s, (forall e o e', safe_env html texts e -> meaning py s e = Ok (o, e') -> safe_env html texts e' /\ wr (render o)) -> goods [s].
Proof. intros s H e o e' Se E. rewrite means_single in E. now apply (H e o e'). Qed.
Lemma render_str : forall s, render [VStr s] = s.
Proof. intros s. unfold render, tpl_iter, flat_iter. cbn [flat_map flat_item app map concat to_str]. apply app_nil_r. Qed.
Lemma under_cases : forall g e shown o e', under py g e shown = Ok (o, e') -> shown = Ok (o, e') \/ o = [] /\ e' = e.
Proof. intros g e shown o e' E. unfold under in E. destruct (truthy_guard g) as [c|]; [|now left]. destruct (ev_bool py e c) as [b|]; [|discriminate]. cbn [rbind] in E. destruct b; [now left|right; split; congruence]. Qed.
Lemma good_text : forall t g, wr t -> goods [SText t g].
Proof. intros t g W. apply goods_one. intros e o e' Se E. cbn [meaning] in E. apply under_cases in E. destruct E as [E|[-> ->]]; [|split; [exact Se|apply wr_nil]]. assert (o = [VStr t] /\ e' = e) as [-> ->] by (split; congruence). split; [exact Se|now rewrite render_str]. Qed.
Lemma good_trans : forall t g v, written_text v t -> goods [STrans t g].
Proof.
  intros t g v W. apply goods_one. intros e o e' Se E. cbn [meaning] in E. apply under_cases in E. destruct E as [E|[-> ->]]; [|split; [exact Se|apply wr_nil]]. assert (o = [match strip t with [] => VStr t | _ => trans py t end] /\ e' = e) as [-> ->] by (split; congruence).
  split; [exact Se|]. destruct (strip t); [rewrite render_str; now apply (wr_text v)|]. destruct (gn_trans py html texts G t v W) as [v' W']. now apply (wr_text v').
Qed.
Lemma good_expr : forall x, goods [SExpr x false].
Proof.
  intros x. apply goods_one. intros e o e' Se E. cbn [meaning] in E. destruct (ev py e x) as [v|] eqn:Ev; [|discriminate]. cbn [rmap] in E. injection E as <- <-. split; [exact Se|]. exact (gn_expr py html texts G e x v Se Ev).
Qed.
Lemma good_if : forall c b els, goods b -> goods els -> goods [SIf c b els].
Proof.
  intros c b els Gb Ge. apply goods_one. intros e o e' Se E. cbn [meaning] in E. destruct (ev_bool py e c) as [t|]; [|discriminate]. cbn [rbind] in E. destruct t; [now apply (Gb e o e')|now apply (Ge e o e')].
Qed.
Lemma good_for : forall d b els, goods b -> goods els -> goods [SFor d b els].
Proof.
  intros d b els Gb Ge. apply goods_one. intros e o e' Se E. cbn [meaning] in E. destruct (ev_for py e d) as [rounds|] eqn:Er; [|discriminate]. cbn [rbind] in E. pose proof (gn_for py html texts G e d rounds Se Er) as Fr. clear Er.
  change (then_ (for_each (means py b) rounds e) (means py els) = Ok (o, e')) in E. unfold then_ in E.
  assert (F : forall rounds, Forall (safe_env html texts) rounds -> forall e o e', safe_env html texts e -> for_each (means py b) rounds e = Ok (o, e') -> safe_env html texts e' /\ wr (render o)).
  { clear - Gb. intros rounds Fr. induction Fr as [|r rounds Sr Fr IH]; intros e o e' Se E; cbn [for_each] in E; [injection E as <- <-; split; [exact Se|apply wr_nil]|]. unfold then_ in E.
    destruct (means py b (r ++ e)) as [[o1 e1]|] eqn:E1; [|discriminate]. cbn [rbind fst snd] in E. destruct (for_each (means py b) rounds e1) as [[o2 e2]|] eqn:E2; [|discriminate].
    cbn [rmap fst snd] in E. injection E as <- <-. destruct (Gb (r ++ e) o1 e1) as [S1 W1]; [apply Forall_app; now split|exact E1|]. destruct (IH e1 o2 e2 S1 E2) as [S2 W2]. split; [exact S2|]. rewrite render_app. now apply wr_app. }
  destruct (for_each (means py b) rounds e) as [[o1 e1]|] eqn:E1; [|discriminate]. cbn [rbind fst snd] in E. destruct (means py els e1) as [[o2 e2]|] eqn:E2; [|discriminate].
  cbn [rmap fst snd] in E. injection E as <- <-. destruct (F rounds Fr e o1 e1 Se E1) as [S1 W1]. destruct (Ge e1 o2 e2 S1 E2) as [S2 W2]. split; [exact S2|]. rewrite render_app. now apply wr_app.
Qed.
Lemma safe_lookup : forall e k v, safe_env html texts e -> lookup k e = Some v -> safe html v /\ (texts k -> as_text v).
Proof.
  intros e k v Se. induction Se as [|[k' v'] e Hv Se IH]; cbn [lookup]; [discriminate|]. destruct (seqb_spec k k') as [->|]; [|exact IH]. intros E. injection E as <-. exact Hv.
Qed.
Definition texts_given (vars : list (str * str)) : Prop :=
  Forall (fun kx => texts (fst kx) -> forall e v, safe_env html texts e -> ev py e (snd kx) = Ok v -> as_text v) vars.
Lemma safe_assigns : forall vars e e', texts_given vars -> safe_env html texts e -> assigns py vars e = Ok e' -> safe_env html texts e'.
Proof.
  induction vars as [|[k x] vars IH]; intros e e' Tg Se E; cbn [assigns] in E; [congruence|]. apply Forall_cons_iff in Tg. destruct Tg as [Tx Tg]. destruct (ev py e x) as [v|] eqn:Ev; [|discriminate]. cbn [rbind] in E. apply (IH (set_var k v e)); [exact Tg| |exact E].
  constructor; [split; [exact (gn_expr py html texts G e x v Se Ev)|intros Ht; exact (Tx Ht e v Se Ev)]|exact Se].
Qed.
Lemma safe_restore : forall names old e, safe_env html texts old -> safe_env html texts e -> safe_env html texts (restore names old e).
Proof.
  intros names old e So. unfold restore. revert e. induction names as [|k names IH]; intros e Se; [exact Se|]. cbn [fold_left]. apply IH. constructor; [|exact Se]. cbn [snd].
  destruct (lookup k old) as [v|] eqn:E; [now apply (safe_lookup old k)|]. split; [|intros _; vm_compute; intuition discriminate]. exists (map I_char (L "()")). change (render [escape unit_value]) with (escape_str (L "()")). apply written_of_text, written_escape.
Qed.
Lemma good_with : forall vars b, texts_given vars -> goods b -> goods [SWith vars b].
Proof.
  intros vars b Tg Gb. apply goods_one. intros e o e' Se E. cbn [meaning] in E. destruct (assigns py vars e) as [e1|] eqn:Ea; [|discriminate]. cbn [rbind] in E.
  change (rmap (fun oe => (fst oe, restore (map fst vars) e (snd oe))) (means py b e1) = Ok (o, e')) in E.
  destruct (means py b e1) as [[o1 e2]|] eqn:E1; [|discriminate]. cbn [rmap fst snd] in E. injection E as <- <-. destruct (Gb e1 o1 e2) as [S2 W]; [now apply (safe_assigns vars e)|exact E1|]. split; [now apply safe_restore|exact W].
Qed.
Lemma good_switch : forall d cases els, Forall (fun cb => goods (snd cb)) cases -> goods els -> goods [SSwitch d cases els].
Proof.
  intros d cases els Gc Ge. apply goods_one. intros e o e' Se E. cbn [meaning] in E. destruct (ev py e d) as [w|]; [|discriminate]. cbn [rbind] in E.
  induction Gc as [|[c b] cases Gb Gc IH]; [now apply (Ge e o e')|]. destruct (ev py e c) as [v|]; [|discriminate]. cbn [rbind] in E.
  destruct (veq py v w); [now apply (Gb e o e')|]. now apply IH.
Qed.

(** ** Attributes *)
Lemma written_attrs_app : forall a s b u, written_attrs a s -> written_attrs b u -> written_attrs (a ++ b) (s ++ u).
Proof. intros a s b u W W'. induction W; [exact W'| |]; rewrite <- !app_assoc; cbn [app]; constructor; assumption. Qed.
Lemma attr1_written : forall k v, legal_name k -> v = VNone \/ S_Values.plain v -> exists a, written_attrs a (concat (render_attr1 mode (k, v))).
Proof.
  intros k v Lk Hv. unfold render_attr1. cbv zeta. set (v' := if smem k html_empty_attrs then _ else _).
  assert (H' : v' = VNone \/ S_Values.plain v').
  { subst v'. destruct (smem k html_empty_attrs); [|exact Hv]. destruct (as_bool v) as [[|]|]; [right; exact Logic.I|now left|exact Hv]. }
  clearbody v'. destruct H' as [->|P]; [exists []; constructor|].
  assert (Ev : escape v' = VStr (escape_str (to_str v'))) by (destruct v'; try destruct P; reflexivity).
  assert (W : exists a, written_attrs a (concat (if prefixb (L "html") mode && smem k html_empty_attrs then [[c_sp] ++ lower k] else [[c_sp] ++ k ++ L "=""" ++ to_str (escape v') ++ [c_dq]]))).
  { destruct (prefixb (L "html") mode && smem k html_empty_attrs) eqn:B.
    - apply andb_true_iff in B. destruct B as [_ B]. apply smem_In in B. exists [(lower k, None)]. cbn [concat]. rewrite app_nil_r. assert (E0 : [c_sp] ++ lower k = L " " ++ lower k ++ []) by now rewrite app_nil_r. rewrite E0. apply wa_bare; [|constructor].
      vm_compute in B. repeat destruct B as [<-|B]; try destruct B; split; [discriminate|reflexivity|discriminate|reflexivity|discriminate|reflexivity|discriminate|reflexivity|discriminate|reflexivity|discriminate|reflexivity|discriminate|reflexivity|discriminate|reflexivity|discriminate|reflexivity].
    - exists [(k, Some (map in_attr (to_str v')))]. cbn [concat]. rewrite app_nil_r, Ev. cbn [to_str]. change [c_dq] with (L """" ++ []). apply wa_value; [exact Lk| |apply escape_no_quote|constructor].
      apply in_attr_text, written_escape. }
  destruct v'; try destruct P; exact W.
Qed.
Lemma attrs_written : forall l, Forall (fun kv => legal_name (fst kv) /\ (snd kv = VNone \/ S_Values.plain (snd kv))) l ->
  exists a, written_attrs a (concat (flat_map (render_attr1 mode) l)).
Proof.
  intros l F. induction F as [|[k v] l [Lk Hv] F [a W]]; [exists []; constructor|]. destruct (attr1_written k v Lk Hv) as [a1 W1]. exists (a1 ++ a). cbn [flat_map]. rewrite concat_app. now apply written_attrs_app.
Qed.
Lemma render_strs : forall l, render (map VStr l) = concat l.
Proof. induction l as [|s l IH]; [reflexivity|]. change (map VStr (s :: l)) with ([VStr s] ++ map VStr l). rewrite render_app, IH, render_str. reflexivity. Qed.
Lemma sort_forall : forall A (P : str * A -> Prop) l, Forall P l -> Forall P (sort_attrs l).
Proof.
  intros A P l F. induction F as [|x l Px F IH]; [constructor|]. cbn [sort_attrs]. clear F. induction IH as [|y l' Py F IH']; cbn [insert_attr]; [now repeat constructor|].
  destruct (sleb (fst x) (fst y)); repeat constructor; assumption.
Qed.
Lemma render_attrs_written : forall l chunks, Forall (fun kv => legal_name (fst kv) /\ (snd kv = VNone \/ S_Values.plain (snd kv))) l ->
  render_attrs l mode = Ok chunks -> exists a, written_attrs a (render (map VStr chunks)).
Proof.
  intros l chunks F E. unfold render_attrs in E. destruct (dup_keys l); [discriminate|]. injection E as <-. rewrite render_strs. apply attrs_written. now apply sort_forall.
Qed.
Lemma collect_value : forall it v, collect it = Ok v -> v = VNone \/ S_Values.plain v.
Proof. intros it v E. unfold collect in E. destruct (collect_parts it) as [[|s l]|]; cbn [rmap] in E; try discriminate; injection E as <-; [now left|now right]. Qed.

(** A statement of a tag: shown if [b], without changing variables. *)
Definition tag_attr (g : option str) (s : stm) : Prop :=
  (exists k v, s = SAttr k v g mode /\ legal_name k) \/ exists x, s = SAttrs x g mode.
Lemma attr_means : forall g s e o e', safe_env html texts e -> tag_attr g s -> meaning py s e = Ok (o, e') ->
  e' = e /\ (o = [] \/ exists a, written_attrs a (render o)).
Proof.
  intros g s e o e' Se [(k & v & -> & Lk)|(x & ->)] E; cbn [meaning] in E.
  - unfold under in E. assert (S0 : forall o e', rbind (match v with [] => Ok ([VStr []], e) | _ => means py v e end) (fun oe => rbind (collect (fst oe)) (fun x => rmap (fun chunks => (map VStr chunks, e)) (render_attrs [(k, x)] mode))) = Ok (o, e') -> e' = e /\ (o = [] \/ exists a, written_attrs a (render o))).
    { clear E o e'. intros o e' E. destruct (match v with [] => Ok ([VStr []], e) | _ => means py v e end) as [[o1 e1]|]; [|discriminate]. cbn [rbind fst] in E.
      destruct (collect o1) as [y|] eqn:Ec; [|discriminate]. cbn [rbind] in E. destruct (render_attrs [(k, y)] mode) as [chunks|] eqn:Er; [|discriminate]. cbn [rmap] in E.
      assert (o = map VStr chunks /\ e' = e) as [-> ->] by (split; congruence). split; [reflexivity|]. right. eapply render_attrs_written; [|exact Er].
      constructor; [|constructor]. split; [exact Lk|]. now apply (collect_value o1). }
    destruct (truthy_guard g) as [c|]; [|now apply S0]. destruct (ev_bool py e c) as [b|]; [|discriminate]. cbn [rbind] in E. destruct b; [now apply S0|]. assert (o = [] /\ e' = e) as [-> ->] by (split; congruence). split; [reflexivity|now left].
  - unfold under in E. assert (S0 : forall o e', rbind (ev_attrs py e x) (fun attrs => rmap (fun chunks => (map VStr chunks, e)) (render_attrs attrs mode)) = Ok (o, e') -> e' = e /\ (o = [] \/ exists a, written_attrs a (render o))).
    { clear E o e'. intros o e' E. destruct (ev_attrs py e x) as [attrs|] eqn:Ea; [|discriminate]. cbn [rbind] in E. destruct (render_attrs attrs mode) as [chunks|] eqn:Er; [|discriminate]. cbn [rmap] in E.
      assert (o = map VStr chunks /\ e' = e) as [-> ->] by (split; congruence). split; [reflexivity|]. right. eapply render_attrs_written; [|exact Er]. exact (gn_attrs py html texts G e x attrs Se Ea). }
    destruct (truthy_guard g) as [c|]; [|now apply S0]. destruct (ev_bool py e c) as [b|]; [|discriminate]. cbn [rbind] in E. destruct b; [now apply S0|]. assert (o = [] /\ e' = e) as [-> ->] by (split; congruence). split; [reflexivity|now left].
Qed.
Lemma attrs_mean : forall g A e o e', safe_env html texts e -> Forall (tag_attr g) A -> means py A e = Ok (o, e') -> e' = e /\ exists a, written_attrs a (render o).
Proof.
  intros g A. induction A as [|s A IH]; intros e o e' Se F E; cbn [means] in E.
  - assert (o = [] /\ e' = e) as [-> ->] by (split; congruence). split; [reflexivity|]. exists []. constructor.
  - apply Forall_cons_iff in F; destruct F as [Ts FA]. unfold then_ in E. destruct (meaning py s e) as [[o1 e1]|] eqn:E1; [|discriminate]. cbn [rbind fst snd] in E.
    destruct (means py A e1) as [[o2 e2]|] eqn:E2; [|discriminate]. cbn [rmap fst snd] in E. assert (o = o1 ++ o2 /\ e' = e2) as [-> ->] by (split; congruence).
    destruct (attr_means g s e o1 e1 Se Ts E1) as [-> H1]. destruct (IH e o2 e2 Se FA E2) as [-> [a2 W2]]. split; [reflexivity|]. rewrite render_app.
    destruct H1 as [->|[a1 W1]]; [now exists a2|]. exists (a1 ++ a2). now apply written_attrs_app.
Qed.
(** Nothing of a tag is shown if its condition is false. *)
Lemma attrs_hidden : forall g c A e o e', truthy_guard g = Some c -> ev_bool py e c = Ok false -> Forall (tag_attr g) A -> means py A e = Ok (o, e') -> render o = [] /\ e' = e.
Proof.
  intros g c A e o e' Tg B F. revert o e'. induction F as [|s A Ts F IH]; intros o e' E; cbn [means] in E; [assert (o = [] /\ e' = e) as [-> ->] by (split; congruence); now split|].
  unfold then_ in E. assert (meaning py s e = Ok ([], e)) as E1.
  { destruct Ts as [(k & v & -> & _)|(x & ->)]; cbn [meaning]; unfold under; rewrite Tg, B; reflexivity. }
  rewrite E1 in E. cbn [rbind fst snd] in E. destruct (means py A e) as [[o2 e2]|] eqn:E2; [|discriminate]. cbn [rmap fst snd app] in E.
  destruct (IH o2 e2 eq_refl) as [R ->]. split; congruence.
Qed.
Lemma text_means : forall g t e o e', meaning py (SText t g) e = Ok (o, e') ->
  e' = e /\ (match truthy_guard g with None => render o = t | Some c => exists b, ev_bool py e c = Ok b /\ render o = if b then t else [] end).
Proof.
  intros g t e o e' E. cbn [meaning] in E. unfold under in E. destruct (truthy_guard g) as [c|].
  - destruct (ev_bool py e c) as [b|]; [|discriminate]. cbn [rbind] in E. destruct b; (split; [congruence|]); eexists; (split; [reflexivity|]).
    + assert (o = [VStr t]) as -> by congruence. apply render_str.
    + assert (o = []) as -> by congruence. reflexivity.
  - split; [congruence|]. assert (o = [VStr t]) as -> by congruence. apply render_str.
Qed.

(** A whole element. *)
Lemma element_good : forall g tag A content fin, steady py g -> Forall (tag_attr g) A -> goods content ->
  (forall a s body, written_attrs a s -> wr body -> wr (L "<" ++ tag ++ s ++ L ">" ++ body ++ fin)) ->
  goods (SText (L "<" ++ tag) g :: A ++ SText (L ">") g :: content ++ [SText fin g]).
Proof.
  intros g tag A content fin St FA Gc H e o e' Se E. cbn [means] in E. unfold then_ at 1 in E.
  destruct (meaning py (SText (L "<" ++ tag) g) e) as [[o1 e1]|] eqn:E1; [|discriminate]. cbn [rbind fst snd] in E. rewrite means_app in E. unfold then_ at 1 in E.
  destruct (means py A e1) as [[o2 e2]|] eqn:E2; [|discriminate]. cbn [rbind fst snd] in E. cbn [means] in E. unfold then_ at 1 in E.
  destruct (meaning py (SText (L ">") g) e2) as [[o3 e3]|] eqn:E3; [|discriminate]. cbn [rbind fst snd] in E. rewrite means_app in E. unfold then_ at 1 in E.
  destruct (means py content e3) as [[o4 e4]|] eqn:E4; [|discriminate]. cbn [rbind fst snd] in E. rewrite means_single in E.
  destruct (meaning py (SText fin g) e4) as [[o5 e5]|] eqn:E5; [|discriminate]. cbn [rmap fst snd] in E. assert (o = o1 ++ o2 ++ o3 ++ o4 ++ o5 /\ e' = e5) as [-> ->] by (split; congruence). clear E.
  rewrite !render_app. destruct (text_means _ _ _ _ _ E1) as [-> T1]. destruct (attrs_mean g A e o2 e2 Se FA E2) as [-> [a W]]. pose proof E2 as E2'. destruct (text_means _ _ _ _ _ E3) as [-> T3].
  destruct (text_means _ _ _ _ _ E5) as [-> T5]. destruct (Gc e o4 e4 Se E4) as [S4 W4]. split; [exact S4|]. unfold steady in St. destruct (truthy_guard g) as [c|] eqn:Tg.
  - destruct St as [b Hb]. rewrite (Hb e) in T1, T3. rewrite (Hb e4) in T5. destruct T1 as (b1 & Q & ->). destruct T3 as (b3 & Q3 & ->). destruct T5 as (b5 & Q5 & ->).
    assert (b1 = b /\ b3 = b /\ b5 = b) as (-> & -> & ->) by (repeat split; congruence). destruct b.
    + rewrite <- !app_assoc. now apply (H a).
    + destruct (attrs_hidden g c A e o2 e Tg (Hb e) FA E2) as [-> _]. rewrite app_nil_r. exact W4.
  - rewrite T1, T3, T5. rewrite <- !app_assoc. now apply (H a).
Qed.
(** An element without content: [fin] ends it. *)
Lemma empty_good : forall g tag A fin, steady py g -> Forall (tag_attr g) A ->
  (forall a s, written_attrs a s -> wr (L "<" ++ tag ++ s ++ fin)) ->
  goods (SText (L "<" ++ tag) g :: A ++ [SText fin g]).
Proof.
  intros g tag A fin St FA H e o e' Se E. cbn [means] in E. unfold then_ at 1 in E.
  destruct (meaning py (SText (L "<" ++ tag) g) e) as [[o1 e1]|] eqn:E1; [|discriminate]. cbn [rbind fst snd] in E. rewrite means_app in E. unfold then_ at 1 in E.
  destruct (means py A e1) as [[o2 e2]|] eqn:E2; [|discriminate]. cbn [rbind fst snd] in E. rewrite means_single in E.
  destruct (meaning py (SText fin g) e2) as [[o5 e5]|] eqn:E5; [|discriminate]. cbn [rmap fst snd] in E. assert (o = o1 ++ o2 ++ o5 /\ e' = e5) as [-> ->] by (split; congruence). clear E.
  rewrite !render_app. destruct (text_means _ _ _ _ _ E1) as [-> T1]. destruct (attrs_mean g A e o2 e2 Se FA E2) as [-> [a W]].
  destruct (text_means _ _ _ _ _ E5) as [-> T5]. split; [exact Se|]. unfold steady in St. destruct (truthy_guard g) as [c|] eqn:Tg.
  - destruct St as [b Hb]. rewrite (Hb e) in T1, T5. destruct T1 as (b1 & Q & ->). destruct T5 as (b5 & Q5 & ->). assert (b1 = b /\ b5 = b) as (-> & ->) by (split; congruence). destruct b.
    + rewrite <- !app_assoc. now apply (H a).
    + destruct (attrs_hidden g c A e o2 e Tg (Hb e) FA E2) as [-> _]. apply wr_nil.
  - rewrite T1, T5. rewrite <- !app_assoc. now apply (H a).
Qed.
End Nested.
