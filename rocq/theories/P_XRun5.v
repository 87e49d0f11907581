(** * Documents without a reading are refused: proof *)

From Coq Require Import Ascii String List Arith NArith ZArith Bool Lia Permutation Sorted.
From Verif Require Import P_TextRun2 PyStr PyStrLemmas M_Values S_Values P_Values M_IR P_IR M_Template M_Text M_XText S_XText P_XText M_Entities S_Entities M_Dom M_XCompile
  S_XDoc S_XFun P_XDoc P_XDoc2 P_XFun P_XFun2 M_Run P_Run4 P_Run5 P_Run8 M_XRun S_XRun P_XRun1 P_XRun2 P_XRun3 S_Run.
From Verif Require S_Exec P_Run12 P_XText2.
Import ListNotations.
Open Scope list_scope.

Lemma pieces_app_inv : forall a b ps, pieces_of (a ++ b) = Some ps -> exists pa pb, pieces_of a = Some pa /\ pieces_of b = Some pb /\ ps = pa ++ pb.
Proof.
  induction a as [|n a IH]; intros b ps E; [now exists [], ps|]. cbn [app] in E. apply pieces_cons in E as (p & qs & Ep & E & ->).
  destruct (IH _ _ E) as (pa & pb & Ea & Eb & ->). exists (p :: pa), pb. split; [|now split]. cbn [pieces_of]. rewrite Ep. cbn [S_Exec.obind]. now rewrite Ea.
Qed.
Lemma pieces_one : forall n ps, pieces_of [n] = Some ps -> exists p, piece_of n = Some p /\ ps = [p].
Proof. intros n ps E. apply pieces_cons in E as (p & qs & Ep & E & ->). exists p. split; [exact Ep|]. cbn in E. congruence. Qed.

Definition placed (sw : bool) (m : node) : Prop := in_place false m \/ sw = true /\ in_place true m.
Lemma placed_false : forall l, Forall (placed false) l -> Forall (in_place false) l.
Proof. intros l F. rewrite Forall_forall in *. intros m I. destruct (F m I) as [H|[H _]]; [exact H|discriminate]. Qed.
Lemma placed_any : forall sw l, Forall (in_place false) l -> Forall (placed sw) l.
Proof. intros sw l F. rewrite Forall_forall in *. intros m I. left. now apply F. Qed.
Lemma all_placed : forall sw l, Forall (in_place sw) l -> (fix go (switch : bool) (l : list node) : Prop := match l with [] => True | m :: l' => in_place switch m /\ go switch l' end) sw l.
Proof. intros sw l F. rewrite P_Run12.all_in_place_eq. now apply P_Run12.all_in_place_Forall. Qed.

Section Complete.
Variable compile : str -> compiled.
Variable helper : nat -> str.
Variable autoblocks : list str.
Variable cdata_scripts : bool.
Variable mode : str.
Variable gen : str -> Prop.
Hypothesis helper_gen : forall i, gen (helper i).
Notation cnode := (compile_node compile helper autoblocks cdata_scripts mode).
Notation kids := (children compile helper autoblocks cdata_scripts mode).
Notation Tells := (tells compile autoblocks cdata_scripts mode gen).
Notation RestTells := (rest_tells compile autoblocks cdata_scripts mode gen).
Notation AllTell := (all_tell compile autoblocks cdata_scripts mode gen).
Notation Declares_ := (declares autoblocks cdata_scripts).
Notation DeclareAll := (declare_all autoblocks cdata_scripts).
Notation Role := (role_of autoblocks cdata_scripts).
Notation InPlace := (node_in_place autoblocks).

Definition Comp (b sw : bool) (D : list decl -> Prop) (R : bool -> list rpiece -> list fact -> bool -> Prop) (m : M (list node)) : Prop :=
  forall s ns s', c_in_def s = b -> m s = Ok (ns, s') ->
  exists fl l, D l /\ map fst fl = S_XFun.declared_names l /\ c_funs s' = adds fl (c_funs s) /\ c_in_def s' = b /\
    Forall (placed sw) ns /\ Forall (fun kv => Forall (in_place false) (snd kv)) fl /\
    forall ps, pieces_of ns = Some ps -> Forall (fun kv => sound (snd kv)) fl -> exists fs, R (c_is_child s) ps fs (c_is_child s').

Lemma c_weaken : forall b sw sw' (D D' : list decl -> Prop) (R R' : bool -> list rpiece -> list fact -> bool -> Prop) m, Comp b sw D R m ->
  (sw = true -> sw' = true) -> (forall l, D l -> D' l) -> (forall c ps fs c', R c ps fs c' -> exists fs', R' c ps fs' c') -> Comp b sw' D' R' m.
Proof.
  intros b sw sw' D D' R R' m C Hs HD HR s ns s' Hb E. destruct (C s ns s' Hb E) as (fl & l & H1 & H2 & H3 & H4 & H5 & H6 & H7).
  exists fl, l. split; [now apply HD|]. split; [exact H2|]. split; [exact H3|]. split; [exact H4|]. split; [|split; [exact H6|]].
  - rewrite Forall_forall in *. intros n I. destruct (H5 n I) as [H|[H H']]; [now left|right; auto].
  - intros ps P F. destruct (H7 ps P F) as [fs H]. now apply (HR _ _ fs).
Qed.
Lemma c_gives : forall b sw (D : list decl -> Prop) (R : bool -> list rpiece -> list fact -> bool -> Prop) m ss,
  P_XDoc.gives gen m (map S_Exec.PcStm ss) -> D [] -> (forall c, R c (simple ss) [] c) -> Comp b sw D R m.
Proof.
  intros b sw D R m ss G HD HR s ns s' Hb E. destruct (G s) as (ns1 & s1 & E1 & P & _ & K1 & K2 & K3 & K4).
  assert (ns1 = ns /\ s1 = s') as [-> ->] by (split; congruence). exists [], []. apply as_nodes in P. rewrite as_simple in P.
  assert (St : structure ns = Some (map as_rstm ss)).
  { unfold structure. rewrite P. cbn [S_Exec.obind]. rewrite <- as_simple. apply as_assemble. apply P_XDoc.assemble_stms. }
  split; [exact HD|]. split; [reflexivity|]. split; [exact K1|]. split; [congruence|]. split; [apply placed_any; now apply (P_Run12.structure_placed ns _ St)|].
  split; [constructor|]. intros ps P' _. exists []. assert (ps = simple ss) as -> by congruence. rewrite K4. apply HR.
Qed.
Lemma c_nodes : forall b sw (D : list decl -> Prop) (R : bool -> list rpiece -> list fact -> bool -> Prop) ns,
  D [] -> Forall (placed sw) ns -> (forall c ps, pieces_of ns = Some ps -> exists fs, R c ps fs c) -> Comp b sw D R (ret ns).
Proof.
  intros b sw D R ns HD F HR s ns' s' Hb E. unfold ret in E. assert (ns' = ns /\ s' = s) as [-> ->] by (split; congruence).
  exists [], []. split; [exact HD|]. split; [reflexivity|]. split; [reflexivity|]. split; [exact Hb|]. split; [exact F|]. split; [constructor|]. intros ps P _. now apply HR.
Qed.
Lemma c_cat : forall b sw (D1 D2 D : list decl -> Prop) (R1 R2 R : bool -> list rpiece -> list fact -> bool -> Prop) x y,
  Comp b sw D1 R1 x -> Comp b sw D2 R2 y -> (forall l l', D1 l -> D2 l' -> D (l ++ l')) ->
  (forall c ps fs c' qs gs c'', R1 c ps fs c' -> R2 c' qs gs c'' -> exists hs, R c (ps ++ qs) hs c'') -> Comp b sw D R (cat x y).
Proof.
  intros b sw D1 D2 D R1 R2 R x y Cx Cy HD HR s ns s' Hb E. unfold cat in E. apply bind_ok in E as (u & s1 & E1 & E). apply bind_ok in E as (v & s2 & E2 & E).
  unfold ret in E. assert (ns = u ++ v /\ s' = s2) as [-> ->] by (split; congruence).
  destruct (Cx s u s1 Hb E1) as (fl & l & H1 & H2 & H3 & H4 & H5 & H6 & H7). destruct (Cy s1 v s2 H4 E2) as (fl' & l' & H1' & H2' & H3' & H4' & H5' & H6' & H7').
  exists (fl ++ fl'), (l ++ l'). split; [now apply HD|]. split; [|split; [|split; [exact H4'|split; [now apply Forall_app|split; [now apply Forall_app|]]]]].
  - rewrite map_app, H2, H2'. clear. induction l as [|[k e| |c] l IH]; cbn [app declared_names]; [reflexivity|now rewrite <- IH|exact IH|exact IH].
  - unfold adds in *. rewrite fold_left_app. congruence.
  - intros ps P F. apply Forall_app in F as [F F']. apply pieces_app_inv in P as (pa & pb & Pa & Pb & ->). destruct (H7 pa Pa F) as [fs Hr], (H7' pb Pb F') as [gs Hr'].
    eapply HR; eassumption.
Qed.
Lemma c_lift : forall A (r : result A) b sw D R f, (forall a, r = Ok a -> Comp b sw D R (f a)) -> Comp b sw D R (bind (lift r) f).
Proof.
  intros A r b sw D R f H s ns s' Hb E. apply bind_ok in E as (a & s1 & E1 & E). unfold lift in E1. destruct r as [a'|]; [|discriminate]. cbn [rmap] in E1.
  assert (a' = a /\ s1 = s) as [-> ->] by (split; congruence). now apply (H a eq_refl).
Qed.
(** A node made of others. *)
Lemma c_then : forall b sw sw1 D (R1 R : bool -> list rpiece -> list fact -> bool -> Prop) m g, Comp b sw1 D R1 m ->
  (forall ns s ns' s', Forall (placed sw1) ns -> g ns s = Ok (ns', s') -> keeps s s' /\ Forall (placed sw) ns' /\
     forall qs, pieces_of ns' = Some qs -> exists ps, pieces_of ns = Some ps /\ forall c fs c', R1 c ps fs c' -> R c qs fs c') ->
  Comp b sw D R (bind m g).
Proof.
  intros b sw sw1 D R1 R m g C H s ns s' Hb E. apply bind_ok in E as (u & s1 & E1 & E).
  destruct (C s u s1 Hb E1) as (fl & l & H1 & H2 & H3 & H4 & H5 & H6 & H7). destruct (H u s1 ns s' H5 E) as ((K1 & K2 & K3 & K4) & F & HP).
  exists fl, l. split; [exact H1|]. split; [exact H2|]. split; [congruence|]. split; [congruence|]. split; [exact F|]. split; [exact H6|].
  intros ps P Fs. destruct (HP ps P) as (ps1 & P1 & HR). destruct (H7 ps1 P1 Fs) as [fs Hr]. exists fs. rewrite K4. now apply HR.
Qed.
(** A directive around its content: [f] makes the node, [q] its piece. *)
Lemma c_body : forall b sw D (R1 R : bool -> list rpiece -> list fact -> bool -> Prop) m (f : list node -> node), Comp b false D R1 m ->
  (forall ns, Forall (in_place false) ns -> placed sw (f ns)) ->
  (forall ns q, piece_of (f ns) = Some q -> exists ps, pieces_of ns = Some ps /\ forall c fs c', R1 c ps fs c' -> R c [q] fs c') ->
  Comp b sw D R (bind m (fun ns => ret [f ns])).
Proof.
  intros b sw D R1 R m f C Hp HP. eapply c_then; [exact C|]. intros ns s ns' s' F E. unfold ret in E. assert (ns' = [f ns] /\ s' = s) as [-> ->] by (split; congruence).
  split; [apply keeps_refl|]. split; [constructor; [apply Hp; now apply placed_false|constructor]|]. intros qs P. apply pieces_one in P as (q & P & ->). now apply HP.
Qed.

(** *** Parts *)
Definition sound_parent (p : parent_node) : Prop := match p with InDocument => True | InElement tag a => tag <> [] /\ absent (L "py:switch") a end.
Lemma text_complete : forall p ln t s ns s', sound_parent p -> compile_text compile p ln t s = Ok (ns, s') -> exists ss, text_says compile (parent_tag p) ln t ss.
Proof.
  intros [|tag a] ln t s ns s' Hp E; [discriminate|]. destruct Hp as [Hp _]. unfold compile_text, lift in E. unfold text_nodes in E.
  destruct (M_XText.pieces compile t ln) as [ps|] eqn:P; [|destruct (smem tag html_cdata_tags); discriminate]. apply pieces_spec in P. cbn [parent_tag].
  destruct (smem tag html_cdata_tags) eqn:Sm.
  - apply (cdata_tag compile mode) in Sm. eexists. now apply ts_raw with (ps := ps).
  - eexists. apply ts_text with (ps := ps); [exact Hp| |exact P]. intros X. apply (cdata_tag compile mode) in X. congruence.
Qed.
Lemma attrs_complete : forall ln g l s ns s', compile_attrs compile helper mode ln g (remove_attr (L "py:strip") l) s = Ok (ns, s') -> exists ss, attrs_say compile mode ln g l ss.
Proof.
  intros ln g. induction l as [|[k v] l IH]; intros s ns s' E; [eexists; constructor|]. unfold remove_attr in *. cbn [filter fst] in E.
  destruct (seqb_spec (L "py:strip") k) as [<-|Nk]; cbn [negb] in E.
  - destruct (IH _ _ _ E) as [ss H]. exists ss. apply as_special with (ps := []); [right; now right|congruence|exact H].
  - cbn [compile_attrs] in E. apply bind_ok in E as (val & s1 & E1 & E). unfold lift, text_nodes in E1. destruct (M_XText.pieces compile v ln) as [ps|] eqn:P; [|discriminate].
    apply pieces_spec in P. destruct (seqb k (L "py:content") || seqb k (L "py:attrs")) eqn:Ek.
    + destruct (IH _ _ _ E) as [ss H]. exists ss. apply as_special with (ps := ps); [|now intros _|exact H]. apply orb_true_iff in Ek as [Ek|Ek]; apply seqb_eq in Ek; [now left|right; now left].
    + apply orb_false_iff in Ek as [Ek1 Ek2]. apply bind_ok in E as (i & s2 & E2 & E). unfold cat in E. apply bind_ok in E as (u & s3 & E3 & E). apply bind_ok in E as (w & s4 & E4 & E).
      destruct (IH _ _ _ E4) as [ss H]. eexists. apply as_attr with (ps := ps); [|exact P|exact H].
      intros [-> |[-> | ->]]; [now rewrite seqb_refl in Ek1|now rewrite seqb_refl in Ek2|now elim Nk].
Qed.
Lemma attr_decided : forall k a, absent k a \/ exists v, value_at k a v.
Proof.
  intros k a. destruct (has_attr k a) eqn:E.
  - apply has_attr_spec in E. apply in_map_iff in E as ([k' v] & E & I). cbn [fst] in E. subst k'. right. now exists v.
  - left. intros I. apply has_attr_spec in I. congruence.
Qed.
Lemma more_exists : forall g a, exists ss, more_attrs mode g a ss.
Proof.
  intros g a. destruct (attr_decided (L "py:attrs") a) as [H|[[|c v] H]].
  - eexists. apply ma_none. now left.
  - eexists. apply ma_none. now right.
  - eexists. eapply ma_some; [exact H|discriminate].
Qed.
Lemma condition_exists : forall a, exists g, tag_condition a g.
Proof.
  intros a. destruct (attr_decided (L "py:strip") a) as [H|[[|c v] H]].
  - eexists. now apply tc_none.
  - eexists. now apply tc_always.
  - eexists. eapply tc_if; [exact H|discriminate].
Qed.
Lemma decode_complete : forall ps ns, rseq (map unescape_node (map (piece_node TK_raw) ps)) = Ok ns -> exists ss, Forall2 decoded (map (text_stm TK_raw) ps) ss.
Proof.
  induction ps as [|p ps IH]; intros ns E; [eexists; constructor|]. cbn [map rseq] in E. destruct (unescape_node (piece_node TK_raw p)) as [n|] eqn:U; [|discriminate]. cbn [rbind] in E.
  destruct (rseq _) as [ns'|] eqn:E'; [|discriminate]. destruct (IH _ eq_refl) as [ss F]. destruct p as [ln t|ln x]; cbn [piece_node unescape_node] in U.
  - destruct (unescape t) as [t'|] eqn:Ut; [|discriminate]. eexists. cbn [map text_stm]. constructor; [apply dc_text; exact Ut|exact F].
  - destruct (unescape x) as [x'|] eqn:Ut; [|discriminate]. eexists. cbn [map text_stm]. constructor; [apply dc_expr; exact Ut|exact F].
Qed.
Lemma script_complete : forall tag a l s ns s', script_or_style tag -> script_nodes compile tag a l s = Ok (ns, s') -> exists ss, script_says compile tag l ss.
Proof.
  intros tag a l. induction l as [|n l IH]; intros s ns s' Hs E; [eexists; constructor|]. destruct n as [|ln t e|ln t| | ]; cbn [script_nodes] in E; try discriminate.
  - apply bind_ok in E as (u & s1 & E1 & E). apply bind_ok in E as (v & s2 & E2 & E). unfold cat in E. apply bind_ok in E as (w & s3 & E3 & E). apply bind_ok in E as (z & s4 & E4 & E).
    destruct (IH _ _ _ Hs E4) as [ss' H]. unfold compile_text, lift, text_nodes in E1. rewrite (proj2 (cdata_tag compile mode tag) Hs) in E1.
    destruct (M_XText.pieces compile t ln) as [ps|] eqn:P; [|discriminate]. apply pieces_spec in P. cbn [rmap] in E1. assert (u = map (piece_node TK_raw) ps) as -> by congruence.
    pose proof (ts_raw compile tag ln t ps Hs P) as T. destruct e.
    + unfold lift in E2. destruct (rseq _) as [v'|] eqn:Ev in E2; [|discriminate]. apply decode_complete in Ev as [ss1 F]. eexists. eapply ss_escaped; [exact T|exact F|exact H].
    + eexists. eapply ss_text; [exact T|exact H].
  - destruct (IH _ _ _ Hs E) as [ss H]. exists ss. now constructor.
Qed.

(** *** The content *)
Lemma inside_all : forall sw cs, (fix go (l : list dnode) : Prop := match l with [] => True | m :: l' => InPlace sw m /\ go l' end) cs <-> Forall (InPlace sw) cs.
Proof.
  intros sw cs. induction cs as [|n cs IH]; [split; constructor|]. rewrite Forall_cons_iff, <- IH. reflexivity.
Qed.
Definition Completed (n : dnode) : Prop := forall p prev sw b, sound_parent p -> InPlace sw n ->
  Comp b sw (Declares_ b n) (fun c ps fs c' => Tells b c (parent_tag p) prev n ps fs c') (cnode p prev n).
Lemma kids_complete : forall marks ln self sw cs, Forall Completed cs -> sound_parent self -> Forall (InPlace sw) cs -> forall b prev,
  Comp b sw (DeclareAll b cs) (fun c ps fs c' => AllTell b c marks (parent_tag self) prev cs ps fs c') (kids marks ln self prev cs).
Proof.
  intros marks ln self sw cs F Hp. induction F as [|n cs H F IH]; intros Pl b prev.
  - rewrite children_nil. apply c_nodes; [constructor|constructor|]. intros c ps P. assert (ps = []) as -> by (cbn in P; congruence). exists []. constructor.
  - apply Forall_cons_iff in Pl as [Pn Pl]. specialize (IH Pl).
    assert (X : marks = false \/ ~ is_mark n -> Comp b sw (DeclareAll b (n :: cs)) (fun c ps fs c' => AllTell b c marks (parent_tag self) prev (n :: cs) ps fs c') (kids marks ln self prev (n :: cs))).
    { intros Hm. rewrite children_node by exact Hm. eapply c_cat; [apply (H self prev sw b Hp Pn)|apply IH| |].
      - intros l l' D D'. now constructor.
      - intros c ps fs c' qs gs c'' T T'. eexists. eapply at_node; [exact Hm|exact T|exact T']. }
    destruct marks; [|apply X; now left]. destruct n as [ln1 tag a cs1|ln1 t e|ln1 t|ln1 t|ln1 t d]; [apply X; right; intros []|apply X; right; intros []| |apply X; right; intros []|apply X; right; intros []]. clear X.
    rewrite children_mark. eapply (c_cat b sw (fun l => l = []) (DeclareAll b cs) _ (fun c ps fs c' => ps = [RcStm (RText t None)] /\ c' = c)); [|apply IH| |].
    + apply c_nodes; [reflexivity|constructor; [now left|constructor]|]. intros c ps P. exists []. split; [|reflexivity]. cbn in P. congruence.
    + intros l l' -> D. apply (da_cons _ _ b _ cs [] l'); [constructor|exact D].
    + intros c ps fs c' qs gs c'' [-> ->] T. eexists. apply at_mark. exact T.
Qed.

Lemma switch_inv : forall ns ns', switch_body ns = Ok ns' -> (Forall (placed true) ns -> Forall (in_place true) ns') /\
  forall ps', pieces_of ns' = Some ps' -> filter piece_says ps' = ps' /\ exists ps, pieces_of ns = Some ps /\ filter (fun p => negb (blank_piece p)) ps = ps'.
Proof.
  induction ns as [|n ns IH]; intros ns' E; cbn [switch_body] in E.
  - assert (ns' = []) as -> by congruence. split; [intros; constructor|]. intros ps' P. assert (ps' = []) as -> by (cbn in P; congruence). split; [reflexivity|]. now exists [].
  - destruct (ir_text n) as [t|] eqn:It.
    + destruct (strip t) as [|? ?] eqn:St; [|discriminate]. destruct (IH _ E) as [I1 I2]. split; [intros F; apply I1; now apply Forall_cons_iff in F|].
      intros ps' P. destruct (I2 ps' P) as [Fs (ps & Ps & Fb)]. split; [exact Fs|].
      assert (exists p, piece_of n = Some p /\ blank_piece p = true) as (p & Ep & Bp).
      { pose proof (P_XText2.strip_blank_spec t) as X. rewrite St in X.
        destruct n; cbn in It; try discriminate; injection It as ->; eexists; (split; [reflexivity|]); cbn [blank_piece]; now rewrite <- X. }
      exists (p :: ps). split; [cbn [pieces_of]; rewrite Ep; cbn [S_Exec.obind]; now rewrite Ps|]. cbn [filter]. rewrite Bp. exact Fb.
    + destruct (is_case_or_else n) eqn:Ic; [|discriminate]. destruct (switch_body ns) as [ns1|] eqn:Es; [|discriminate]. cbn [rmap] in E. assert (ns' = n :: ns1) as -> by congruence.
      destruct (IH _ eq_refl) as [I1 I2]. split.
      * intros F. apply Forall_cons_iff in F as [Fn F]. constructor; [|now apply I1]. destruct Fn as [Fn|[_ Fn]]; [|exact Fn]. destruct n; try discriminate Ic; cbn [in_place] in *; first [exact Fn|destruct Fn; discriminate].
      * intros ps' P. apply pieces_cons in P as (p & qs & Ep & P & ->). destruct (I2 qs P) as [Fs (ps & Ps & Fb)].
        assert (piece_says p = true /\ blank_piece p = false) as [Sp Bp].
        { destruct n; try discriminate Ic; cbn [piece_of] in Ep; match type of Ep with option_map _ ?o = _ => destruct o; [|discriminate] end; cbn [option_map] in Ep; injection Ep as <-; split; reflexivity. }
        split; [cbn [filter]; rewrite Sp; now f_equal|]. exists (p :: ps). split; [cbn [pieces_of]; rewrite Ep; cbn [S_Exec.obind]; now rewrite Ps|].
        cbn [filter]. rewrite Bp. cbn [negb]. now f_equal.
Qed.

(** *** Elements *)
Lemma own_of : forall tag a a', is_autoblock autoblocks tag a = Ok (false, a') -> own_attrs autoblocks tag a a'.
Proof.
  intros tag a a' E. unfold is_autoblock in E. destruct (smem tag autoblocks) eqn:Em.
  - apply smem_In in Em. destruct (has_attr (L "py:autoblock") a) eqn:Eh; [|discriminate]. apply has_attr_spec in Eh.
    destruct (seqb_spec (lower (get_attr (L "py:autoblock") a)) (L "false")) as [Ef|Ef].
    + assert (a' = remove_attr (L "py:autoblock") a) as -> by congruence. apply oa_false; [exact Em|intros X; now apply X|exact Ef].
    + destruct (seqb (lower (get_attr (L "py:autoblock") a)) (L "true")); discriminate.
  - assert (a' = a) as -> by congruence. apply oa_other. now apply smem_notIn.
Qed.
Lemma own_absent : forall tag a a' k, own_attrs autoblocks tag a a' -> absent k a -> absent k a'.
Proof.
  intros tag a a' k [H|I1 H E] Ab; [exact Ab|]. intros I. apply Ab. unfold without in I. apply in_map_iff in I as (kv & E1 & I). apply filter_In in I as [I _]. rewrite <- E1. now apply in_map.
Qed.
Lemma no_content_of : forall a, NoDup (map fst a) -> get_attr (L "py:content") a = [] -> no_content_attr a.
Proof.
  intros a ND E. destruct (attr_decided (L "py:content") a) as [H|[v H]]; [now left|]. right. rewrite (get_attr_value _ _ _ ND H) in E. now subst v.
Qed.
Lemma sorted_exists : forall a : list (str * str), NoDup (map fst a) -> exists sorted, Permutation a sorted /\ StronglySorted by_name sorted.
Proof.
  intros a ND. exists (sort_attrs a). split; [symmetry; apply sort_perm|]. apply sort_sorted.
Qed.

Definition none (l : list decl) : Prop := l = [].
Lemma c_some : forall b sw m (Q : list S_Exec.stm -> Prop),
  (forall s ns s', m s = Ok (ns, s') -> exists ss, P_XDoc.gives gen m (map S_Exec.PcStm ss) /\ Q ss) ->
  Comp b sw none (fun c ps fs c' => c' = c /\ exists ss, Q ss /\ ps = simple ss) m.
Proof.
  intros b sw m Q H s ns s' Hb E. destruct (H s ns s' E) as (ss & G & HQ).
  apply (c_gives b sw none (fun c ps fs c' => c' = c /\ exists ss, Q ss /\ ps = simple ss) m ss G); [reflexivity| |exact Hb|exact E].
  intros c. split; [reflexivity|]. now exists ss.
Qed.
(** First something without declarations. *)
Lemma c_pre : forall b sw D (R1 R2 R : bool -> list rpiece -> list fact -> bool -> Prop) x y,
  Comp b sw none (fun c ps fs c' => c' = c /\ R1 c ps fs c') x -> Comp b sw D R2 y ->
  (forall c ps fs qs gs c', R1 c ps fs c -> R2 c qs gs c' -> exists hs, R c (ps ++ qs) hs c') -> Comp b sw D R (cat x y).
Proof.
  intros b sw D R1 R2 R x y Cx Cy H. eapply c_cat; [exact Cx|exact Cy|intros l l' -> D'; exact D'|].
  intros c ps fs c' qs gs c'' [-> X] Y. eapply H; eassumption.
Qed.
Lemma c_post : forall b sw D (R1 R2 R : bool -> list rpiece -> list fact -> bool -> Prop) x y,
  Comp b sw D R1 x -> Comp b sw none (fun c ps fs c' => c' = c /\ R2 c ps fs c') y ->
  (forall c ps fs c' qs gs, R1 c ps fs c' -> R2 c' qs gs c' -> exists hs, R c (ps ++ qs) hs c') -> Comp b sw D R (cat x y).
Proof.
  intros b sw D R1 R2 R x y Cx Cy H. eapply c_cat; [exact Cx|exact Cy|intros l l' D' ->; now rewrite app_nil_r|].
  intros c ps fs c' qs gs c'' X [-> Y]. eapply H; eassumption.
Qed.
Lemma c_texts : forall b sw l g ln, Comp b sw none (fun c ps fs c' => c' = c /\ ps = map (fun t => RcStm (RText t g)) l) (ret (map (fun t => NText ln t g) l)).
Proof.
  intros b sw l g ln. apply c_nodes; [reflexivity| |].
  - apply placed_any. apply Forall_forall. intros n I. apply in_map_iff in I as (t & <- & _). reflexivity.
  - intros c ps P. exists []. split; [reflexivity|]. revert ps P. induction l as [|t l IH]; intros ps P; cbn [map] in *; [cbn in P; congruence|].
    apply pieces_cons in P as (q & qs & Eq & P & ->). cbn [piece_of] in Eq. rewrite (IH qs P). congruence.
Qed.
Lemma c_text : forall b sw t g ln, Comp b sw none (fun c ps fs c' => c' = c /\ ps = [RcStm (RText t g)]) (ret [NText ln t g]).
Proof. intros b sw t g ln. apply (c_texts b sw [t] g ln). Qed.

Lemma rest_complete : forall b sw ln tag a g cs, NoDup (map fst a) -> tag <> [] -> absent (L "py:switch") a -> Forall Completed cs -> Forall (InPlace false) cs ->
  Comp b sw (if seqb (get_attr (L "py:content") a) [] && negb (cdata_scripts && smem tag html_cdata_tags) then DeclareAll b cs else none)
    (fun c ps fs c' => RestTells b c ln tag a g cs ps fs c')
    (rest_nodes compile helper autoblocks cdata_scripts mode (InElement tag a) ln tag (remove_attr (L "py:strip") a) g cs).
Proof.
  intros b sw ln tag a g cs ND Ht Ab F Pl. unfold rest_nodes. cbv zeta. rewrite get_removed by discriminate.
  destruct (get_attr (L "py:content") a) as [|c0 x] eqn:Ec.
  - change (seqb [] []) with true. cbn [andb]. pose proof (no_content_of a ND Ec) as NC.
    destruct cs as [|n0 cs].
    + assert (Cl : exists t, closes mode tag t /\ (if smem tag html_required_end_tags then ret [NText ln (L "></" ++ tag ++ L ">") g]
                     else if html mode then
                       if smem tag html_optional_end_tags then ret [NText ln (L ">") g]
                       else ret [NText ln (L "></" ++ tag ++ L ">") g]
                     else ret [NText ln (L "/>") g]) = ret [NText ln t g]).
      { destruct (smem tag html_required_end_tags) eqn:Er.
        - apply (script_spec compile mode) in Er. eexists. split; [now apply cl_script|reflexivity].
        - assert (Ns : tag <> L "script") by (intros X; apply (script_spec compile mode) in X; congruence).
          destruct (html mode) eqn:Eh.
          + destruct (smem tag html_optional_end_tags) eqn:Eo.
            * apply void_spec in Eo. eexists. split; [now apply cl_void|reflexivity].
            * eexists. split; [apply cl_html; [exact Eh|]|reflexivity]. intros V. apply void_spec in V. congruence.
          + eexists. split; [apply cl_xml; [|exact Ns]|reflexivity]. unfold is_html. unfold html in Eh. congruence. }
      destruct Cl as (t & Cl & ->). eapply c_weaken with (sw := sw); [apply c_text|auto| |].
      * intros l ->. destruct (negb _); constructor.
      * intros c ps fs c' [-> ->]. exists []. now apply rt_empty.
    + destruct (cdata_scripts && smem tag html_cdata_tags) eqn:Es; cbn [negb].
      * apply andb_true_iff in Es as [Es1 Es2]. apply (cdata_tag compile mode) in Es2.
        assert (Eo : smem tag html_optional_end_tags = false) by (apply void_false, script_not_void; exact Es2). rewrite Eo, andb_false_r.
        eapply (c_pre b sw none (fun c ps fs c' => ps = [RcStm (RText (L ">") g)])); [apply c_text| |].
        -- eapply (c_post b sw none (fun c ps fs c' => c' = c /\ exists ss, (exists ss0, ss = cdata_open mode ++ ss0 ++ cdata_close mode /\ script_says compile tag (n0 :: cs) ss0) /\ ps = simple ss)
             (fun c ps fs c' => ps = [RcStm (RText (L "</" ++ tag ++ L ">") g)])
             (fun c ps fs c' => c' = c /\ exists ss0, script_says compile tag (n0 :: cs) ss0 /\ ps = simple (cdata_open mode ++ ss0 ++ cdata_close mode) ++ [RcStm (RText (L "</" ++ tag ++ L ">") g)])); [|apply c_text|].
           ++ apply c_some. intros s ns s' E. unfold cat in E. apply bind_ok in E as (u & s1 & _ & E). apply bind_ok in E as (v & s2 & E & _).
              apply bind_ok in E as (w & s3 & E & _). destruct (script_complete _ _ _ _ _ _ Es2 E) as [ss H]. exists (cdata_open mode ++ ss ++ cdata_close mode).
              split; [|now exists ss]. rewrite !map_app. apply gives_cat; [|apply gives_cat].
              ** unfold cdata_open. destruct (seqb mode (L "xml")); [apply gives_text|apply gives_nil].
              ** eapply script_give; eassumption.
              ** unfold cdata_close. destruct (seqb mode (L "xml")); [apply gives_text|apply gives_nil].
           ++ intros c ps fs c' qs gs [-> (ss & (ss0 & -> & H) & ->)] ->. exists []. split; [reflexivity|]. now exists ss0.
        -- intros c ps fs qs gs c' -> [-> (ss0 & H & ->)]. exists []. cbn [app]. apply rt_script; [exact NC|discriminate|exact Es1|exact Es2|exact H].
      * assert (Ns : ~ (cdata_scripts = true /\ script_or_style tag)).
        { intros [X Y]. apply (cdata_tag compile mode) in Y. rewrite X, Y in Es. discriminate. }
        eapply (c_pre b sw _ (fun c ps fs c' => ps = [RcStm (RText (L ">") g)])); [apply c_text| |].
        -- eapply (c_post b sw _ (fun c ps fs c' => AllTell b c true tag [] (n0 :: cs) ps fs c')
             (fun c ps fs c' => ps = if html mode && smem tag html_optional_end_tags then [] else [RcStm (RText (L "</" ++ tag ++ L ">") g)])
             (fun c ps fs c' => exists qs, AllTell b c true tag [] (n0 :: cs) qs fs c' /\ ps = qs ++ if html mode && smem tag html_optional_end_tags then [] else [RcStm (RText (L "</" ++ tag ++ L ">") g)])).
           ++ eapply c_weaken; [apply (kids_complete true ln (InElement tag a) false (n0 :: cs) F (conj Ht Ab) Pl b [])|discriminate|auto|]. intros c ps fs c' H. exists fs. exact H.
           ++ destruct (html mode && smem tag html_optional_end_tags); [apply (c_texts b sw [] g ln)|apply c_text].
           ++ intros c ps fs c' qs gs H ->. exists fs, ps. now split.
        -- intros c ps0 fs qs gs c' -> (ps & H & ->). cbn [app]. destruct (html mode && smem tag html_optional_end_tags) eqn:Eo.
           ++ apply andb_true_iff in Eo as [Eh Eo]. apply void_spec in Eo. exists gs. rewrite app_nil_r. apply rt_void_children; [exact NC|discriminate|exact Eh|exact Eo|exact H].
           ++ exists gs. apply rt_children; [exact NC|discriminate|exact Ns| |exact H]. intros [X Y]. apply void_spec in Y. unfold is_html in X. unfold html in Eo. rewrite X, Y in Eo. discriminate.
  - change (seqb (c0 :: x) []) with false. cbn [andb]. apply c_nodes; [reflexivity|apply placed_any; repeat constructor|].
    intros c ps P. exists []. assert (ps = [RcStm (RText (L ">") g); RcStm (RExpr (c0 :: x) false); RcStm (RText (L "</" ++ tag ++ L ">") g)]) as -> by (cbn [pieces_of piece_of S_Exec.obind option_map] in P; congruence).
    apply rt_content; [|discriminate]. destruct (attr_decided (L "py:content") a) as [H|[v H]]; [rewrite (get_attr_absent _ _ H) in Ec; discriminate|].
    rewrite (get_attr_value _ _ _ ND H) in Ec. now rewrite <- Ec.
Qed.

Lemma auto_same : forall tag a a', is_autoblock autoblocks tag a = Ok (true, a') -> a' = a.
Proof.
  intros tag a a' E. unfold is_autoblock in E. destruct (smem tag autoblocks); [|discriminate]. destruct (has_attr (L "py:autoblock") a); [|congruence].
  destruct (seqb _ _); [discriminate|]. destruct (seqb _ _); [congruence|discriminate].
Qed.

(** Functions. *)
Lemma body_of_fun : forall body, sound (match body with [] => [NPass 0] | _ => body end) ->
  exists ps b, pieces_of body = Some ps /\ assemble ps = Some b /\ solid (or_pass b).
Proof.
  intros [|n body] H; [|now apply sound_inv]. exists [], []. split; [reflexivity|]. split; [reflexivity|]. exists RPass. split; [now left|reflexivity].
Qed.
Lemma block_complete : forall b sw ln tag a cs name nop p prev,
  Comp b false (DeclareAll b cs) (fun c ps fs c' => AllTell b c false tag [] cs ps fs c') nop ->
  is_block autoblocks tag a name -> Role tag a (Block name) ->
  Comp b sw (Declares_ b (DElem ln tag a cs)) (fun c ps fs c' => Tells b c p prev (DElem ln tag a cs) ps fs c') (block_nodes ln name nop).
Proof.
  intros b sw ln tag a cs name nop p prev C Ib Ro s ns s' Hb E. unfold block_nodes in E. apply bind_ok in E as (body & s1 & E1 & E).
  destruct (C s body s1 Hb E1) as (fl & l & H1 & H2 & H3 & H4 & H5 & H6 & H7). apply placed_false in H5.
  apply bind_ok in E as (child & s2 & E2 & E). unfold get_is_child in E2. assert (child = c_is_child s1 /\ s2 = s1) as [-> ->] by (split; congruence). clear E2.
  set (body' := match body with [] => [NPass 0] | _ => body end) in *.
  assert (Pb : Forall (in_place false) body') by (unfold body'; destruct body; [repeat constructor|exact H5]).
  assert (Nm : forall d, S_XFun.declared_names (l ++ [Declares d (DElem ln tag a cs)]) = map fst fl ++ [d]).
  { intros d. rewrite H2. clear. induction l as [|[k e| |c] l IH]; cbn [app S_XFun.declared_names]; [reflexivity|now rewrite IH|exact IH|exact IH]. }
  destruct (c_is_child s1) eqn:Ec.
  - apply bind_ok in E as (h & s2 & E3 & E). unfold lift in E3. destruct (mk_python 0 _) as [h'|x] eqn:Eh in E3; [|discriminate].
    cbn [rmap] in E3. assert (h' = h /\ s2 = s1) as [-> ->] by (split; congruence). apply parent_header in Eh as (lines & -> & Dd).
    apply add_then in E as [-> ->]. cbn [c_in_def c_is_child c_funs]. rewrite <- app_assoc.
    exists (fl ++ [(L "_kj_block_" ++ name ++ L "()", NPython 0 lines false :: body')]), (l ++ [Declares (L "_kj_block_" ++ name ++ L "()") (DElem ln tag a cs)]).
    split; [now apply de_block|]. split; [rewrite Nm, map_app; reflexivity|]. split; [unfold adds in *; rewrite fold_left_app; cbn [fold_left fst snd]; now rewrite H3|].
    split; [exact H4|]. split; [constructor|]. split; [apply Forall_app; split; [exact H6|]; constructor; [|constructor]; cbn [snd]; constructor; [cbn [in_place]; split; [reflexivity|discriminate]|exact Pb]|].
    intros ps P Fs. assert (ps = []) as -> by (cbn in P; congruence). apply Forall_app in Fs as [Fs Fb]. apply Forall_cons_iff in Fb as [Fb _]. cbn [snd] in Fb.
    apply sound_inv in Fb as (bs & b0 & Pp & A & _). apply pieces_cons in Pp as (q & qs & Eq & Pp & ->).
    assert (exists b', assemble qs = Some b') as [b' A'].
    { cbn [piece_of] in Eq. assert (q = RcStm (RPython lines)) as -> by congruence. unfold assemble in *. cbn [attach] in A. destruct (attach qs) as [[[els|] r]|]; [|eexists; reflexivity|discriminate A].
      destruct (says_something (RPython lines)); discriminate A. }
    assert (exists ps b, pieces_of body = Some ps /\ assemble ps = Some b) as (ps1 & b1 & P1 & A1).
    { unfold body' in Pp. destruct body; [exists [], []; split; reflexivity|now exists qs, b']. }
    destruct (H7 ps1 P1 Fs) as [fs T]. eexists. rewrite ?Ec in *. eapply tl_override; eassumption.
  - apply add_then in E as [-> ->]. cbn [c_in_def c_is_child c_funs]. rewrite <- app_assoc.
    exists (fl ++ [(L "_kj_block_" ++ name ++ L "()", body')]), (l ++ [Declares (L "_kj_block_" ++ name ++ L "()") (DElem ln tag a cs)]).
    split; [now apply de_block|]. split; [rewrite Nm, map_app; reflexivity|]. split; [unfold adds in *; rewrite fold_left_app; cbn [fold_left fst snd]; now rewrite H3|].
    split; [exact H4|]. split; [apply placed_any; repeat constructor|]. split; [apply Forall_app; split; [exact H6|]; constructor; [exact Pb|constructor]|].
    intros ps P Fs. apply pieces_one in P as (q & Eq & ->). cbn [piece_of] in Eq. assert (q = RcStm (RExpr (L "_kj_block_" ++ name ++ L "()") false)) as -> by congruence.
    apply Forall_app in Fs as [Fs Fb]. apply Forall_cons_iff in Fb as [Fb _]. cbn [snd] in Fb. apply body_of_fun in Fb as (ps1 & b1 & P1 & A1 & S1).
    destruct (H7 ps1 P1 Fs) as [fs T]. eexists. rewrite ?Ec in *. eapply tl_block; eassumption.
Qed.
Lemma def_complete : forall b sw ln tag a a' cs nop p prev,
  Comp true false (DeclareAll true cs) (fun c ps fs c' => AllTell true c false tag [] cs ps fs c') nop ->
  is_directive autoblocks tag a (L "def") a' -> Role tag a (Def (get_attr (L "function") a')) ->
  Comp b sw (Declares_ b (DElem ln tag a cs)) (fun c ps fs c' => Tells b c p prev (DElem ln tag a cs) ps fs c') (def_nodes ln (get_attr (L "function") a') nop).
Proof.
  intros b sw ln tag a a' cs nop p prev C Ib Ro s ns s' Hb E. set (f := get_attr (L "function") a') in *. unfold def_nodes in E. apply bind_ok in E as (old & s1 & E1 & E).
  unfold get_in_def in E1. assert (old = b /\ s1 = s) as [-> ->] by (split; congruence). clear E1.
  apply bind_ok in E as (u & s1 & E1 & E). unfold set_in_def in E1. assert (s1 = Cst (c_funs s) (c_mod s) true (c_is_child s) (c_names s)) as -> by congruence. clear E1 u.
  apply bind_ok in E as (body & s2 & E2 & E). destruct (C _ body s2 (eq_refl : c_in_def (Cst (c_funs s) (c_mod s) true (c_is_child s) (c_names s)) = true) E2) as (fl & l & H1 & H2 & H3 & H4 & H5 & H6 & H7). apply placed_false in H5. cbn [c_funs c_is_child] in *.
  apply bind_ok in E as (u' & s3 & E3 & E). unfold set_in_def in E3. assert (s3 = Cst (c_funs s2) (c_mod s2) b (c_is_child s2) (c_names s2)) as -> by congruence. clear E3.
  destruct b.
  - unfold ret in E. assert (ns = [NDef ln true f body] /\ s' = Cst (c_funs s2) (c_mod s2) true (c_is_child s2) (c_names s2)) as [-> ->] by (split; congruence). cbn [c_funs c_in_def c_is_child].
    exists fl, l. split; [eapply de_local; eassumption|]. split; [exact H2|]. split; [exact H3|]. split; [reflexivity|].
    split; [apply placed_any; constructor; [|constructor]; cbn [in_place]; split; [reflexivity|split; [reflexivity|now apply all_placed]]|]. split; [exact H6|].
    intros ps P Fs. apply pieces_one in P as (q & Eq & ->). cbn [piece_of] in Eq. rewrite structure_eq in Eq.
    destruct (obind (structure body) (fun b' => not_empty (or_pass b'))) as [b'|] eqn:Eb; [|discriminate]. apply pass_inv in Eb as (bs & b0 & Pb & A & -> & Sd).
    cbn [option_map] in Eq. assert (q = RcStm (RDef f (or_pass b0))) as -> by congruence. destruct (H7 bs Pb Fs) as [fs T]. eexists. eapply tl_inner; eassumption.
  - apply add_then in E as [-> ->]. cbn [c_funs c_in_def c_is_child]. exists (fl ++ [(f, body)]), (l ++ [Declares f (DElem ln tag a cs)]).
    split; [now apply de_def|]. split.
    { rewrite map_app, H2. clear. induction l as [|[k e| |c] l IH]; cbn [app S_XFun.declared_names]; [reflexivity|now rewrite <- IH|exact IH|exact IH]. }
    split; [unfold adds in *; rewrite fold_left_app; cbn [fold_left fst snd]; now rewrite H3|]. split; [reflexivity|]. split; [constructor|].
    split; [apply Forall_app; split; [exact H6|]; constructor; [exact H5|constructor]|].
    intros ps P Fs. assert (ps = []) as -> by (cbn in P; congruence). apply Forall_app in Fs as [Fs Fb]. apply Forall_cons_iff in Fb as [Fb _]. cbn [snd] in Fb.
    apply sound_inv in Fb as (bs & b0 & Pb & A & Sd). destruct (H7 bs Pb Fs) as [fs T]. eexists. eapply tl_def; eassumption.
Qed.

Lemma xml_complete : forall b sw ln tag a a' cs p prev, plain_tag tag -> own_attrs autoblocks tag a a' -> ~ autoblock autoblocks tag a -> NoDup (map fst a) -> tag <> [] ->
  absent (L "py:switch") a -> Forall Completed cs -> Forall (InPlace false) cs ->
  (forall k, k <> L "py:autoblock" -> get_attr k a' = get_attr k a) ->
  Comp b sw (Declares_ b (DElem ln tag a cs)) (fun c ps fs c' => Tells b c p prev (DElem ln tag a cs) ps fs c')
    (xml_nodes compile helper autoblocks cdata_scripts mode ln tag a' cs).
Proof.
  intros b sw ln tag a a' cs p prev Pt Ow Na ND Ht Ab F Pl Ga. pose proof (own_nodup autoblocks _ _ _ Ow ND) as ND'. unfold xml_nodes. cbv zeta.
  destruct (condition_exists a') as [g TC]. rewrite (guard_spec a' g ND' TC).
  destruct (sorted_exists a' ND') as (sorted & Sp & Ss).
  eapply (c_pre b sw _ (fun c ps fs c' => ps = [RcStm (RText (L "<" ++ tag) g)])); [apply c_text| |].
  - eapply (c_pre b sw _ (fun c ps fs c' => exists ss, attrs_say compile mode ln g sorted ss /\ ps = simple ss)
      (fun c ps fs c' => exists more rest, more_attrs mode g a' more /\ RestTells b c ln tag a' g cs rest fs c' /\ ps = simple more ++ rest)
      (fun c ps fs c' => exists shown more rest, attrs_say compile mode ln g sorted shown /\ more_attrs mode g a' more /\ RestTells b c ln tag a' g cs rest fs c' /\ ps = simple shown ++ simple more ++ rest)).
    + apply c_some. unfold sorted_attrs. rewrite (sort_is (remove_attr (L "py:strip") a') (remove_attr (L "py:strip") sorted)); [|now apply filter_nodup_keys|now apply filter_perm|now apply filter_sorted].
      intros s ns s' E. destruct (attrs_complete _ _ _ _ _ _ E) as [ss H]. exists ss. split; [now apply attrs_give|exact H].
    + eapply (c_pre b sw _ (fun c ps fs c' => exists ss, more_attrs mode g a' ss /\ ps = simple ss)).
      * apply c_some. intros s ns s' _. destruct (more_exists g a') as [ss H]. exists ss. split; [|exact H]. eapply more_give; [exact helper_gen|exact H|apply get_removed; discriminate|exact ND'].
      * eapply c_weaken with (sw := sw); [apply (rest_complete b sw ln tag a' g cs ND' Ht (own_absent _ _ _ _ Ow Ab) F Pl)|auto| |intros c ps fs c' H; exists fs; exact H].
        rewrite Ga by discriminate. intros l D. destruct (get_attr (L "py:content") a) as [|c0 x] eqn:Ec.
        -- change (seqb [] []) with true in D. cbn [andb] in D. destruct (cdata_scripts && smem tag html_cdata_tags) eqn:Es; cbn [negb] in D.
           ++ rewrite D. apply de_leaf. apply andb_true_iff in Es as [Es1 Es2]. apply (cdata_tag compile mode) in Es2. now apply ro_script.
           ++ apply de_inner; [|exact D]. apply ro_elem; auto. intros [X Y]. apply (cdata_tag compile mode) in Y. rewrite X, Y in Es. discriminate.
        -- change (seqb (c0 :: x) []) with false in D. cbn [andb] in D. rewrite D. apply de_leaf. apply ro_content; [exact Na|exact Pt|congruence].
      * intros c ps fs qs gs c' (more & Hm & ->) Hr. exists gs, more, qs. now split.
    + intros c ps fs qs gs c' (shown & Hs & ->) (more & rest & Hm & Hr & ->). exists gs, shown, more, rest. now repeat split.
  - intros c ps fs qs gs c' -> (shown & more & rest & Hs & Hm & Hr & ->). exists gs. cbn [app]. eapply tl_elem; eassumption.
Qed.

Lemma c_leaf : forall b sw ln tag a cs n (R : bool -> list rpiece -> list fact -> bool -> Prop) q, Role tag a Leaf -> in_place false n -> piece_of n = Some q ->
  (forall c, R c [q] [] c) -> Comp b sw (Declares_ b (DElem ln tag a cs)) R (ret [n]).
Proof.
  intros b sw ln tag a cs n R q Ro Pl P HR. apply c_nodes; [now apply de_leaf|apply placed_any; repeat constructor; exact Pl|].
  intros c ps Ps. apply pieces_one in Ps as (q' & P' & ->). exists []. assert (q' = q) as -> by congruence. apply HR.
Qed.
Lemma c_block : forall b sw (D D' : list decl -> Prop) (R1 R : bool -> list rpiece -> list fact -> bool -> Prop) m (f : list node -> node) (q : list rstm -> rpiece), Comp b false D R1 m ->
  (forall l, D l -> D' l) ->
  (forall ns, Forall (in_place false) ns -> placed sw (f ns)) ->
  (forall ns, piece_of (f ns) = option_map q (obind (structure ns) not_empty)) ->
  (forall c ps bd fs c', R1 c ps fs c' -> assemble ps = Some bd -> solid bd -> R c [q bd] fs c') ->
  Comp b sw D' R (bind m (fun ns => ret [f ns])).
Proof.
  intros b sw D D' R1 R m f q C HD Hp Hq HR. eapply c_weaken with (sw := sw) (D := D) (R := R); [|auto|exact HD|intros c ps fs c' X; exists fs; exact X].
  eapply c_body; [exact C|exact Hp|]. intros ns q' E. rewrite Hq in E. destruct (obind (structure ns) not_empty) as [bd|] eqn:Eb; [|discriminate]. cbn [option_map] in E.
  assert (q' = q bd) as -> by congruence. apply block_inv in Eb as (ps & P & A & Sd). exists ps. split; [exact P|]. intros c fs c' X. eapply HR; eassumption.
Qed.

Theorem completed : forall n, Completed n.
Proof.
  apply (P_Dom.dnode_rec' Completed).
  - intros ln tag a cs F p prev sw b Hp Pl. cbn [node_in_place] in Pl. destruct Pl as (Ht & ND & Ab & Pc & Psw & Pnop & Pin).
    rewrite inside_all in Psw, Pnop, Pin. rewrite compile_elem. apply c_lift. intros [ab a'] Ea. cbn [fst snd]. cbv zeta.
    pose proof Ea as Ea'; apply (autoblock_ok compile autoblocks mode) in Ea' as (A1 & A2 & Ga). destruct ab.
    { specialize (A1 eq_refl). apply auto_same in Ea as ->.
      apply block_complete; [|now apply ib_auto|now apply ro_auto]. apply (kids_complete false ln (InElement tag a) false cs F (conj Ht Ab)).
      apply Pin. intros d _ [Na _]. contradiction. }
    specialize (A2 eq_refl). clear A1. apply own_of in Ea.
    assert (Hs : sound_parent (InElement tag a')) by (split; [exact Ht|now apply (own_absent tag a)]).
    assert (K : forall b sw, Forall (InPlace sw) cs -> Comp b sw (DeclareAll b cs) (fun c ps fs c' => AllTell b c false tag [] cs ps fs c') (kids false ln (InElement tag a') [] cs))
      by (intros b0 sw0 Pl0; apply (kids_complete false ln (InElement tag a') sw0 cs F Hs Pl0)).
    pose proof (method_directive tag) as Md.
    assert (Nm : forall d, method_name (method_of tag) = Some d -> names autoblocks tag a d) by (intros d E; split; [exact A2|now apply Md]).
    assert (Di : forall d, method_name (method_of tag) = Some d -> is_directive autoblocks tag a d a') by (intros d E; split; [now apply Md|exact Ea]).
    assert (Kf : forall d, method_name (method_of tag) = Some d -> ~ In d [L "switch"; L "nop"; L "extends"] -> Forall (InPlace false) cs).
    { intros d E Hd. apply Pin. intros d' I [_ D']. apply Hd. now rewrite (directive_fun _ _ _ (Md d E) D'). }
    assert (Li : forall d, In d leaf_directives -> method_name (method_of tag) = Some d -> Role tag a Leaf)
      by (intros d I1 E0; eapply ro_leaf; [exact A2|apply Md; exact E0|exact I1]).
    assert (Ii : forall d, In d inner_directives -> method_name (method_of tag) = Some d -> Role tag a Inner)
      by (intros d I1 E0; eapply ro_inner; [exact A2|apply Md; exact E0|exact I1]).
    assert (Di' : forall d, In d inner_directives -> method_name (method_of tag) = Some d -> forall b l, DeclareAll b cs l -> Declares_ b (DElem ln tag a cs) l)
      by (intros d I1 E0 b0 l Hl; apply de_inner; [now apply (Ii d)|exact Hl]).
    destruct (method_of tag) eqn:Em; cbn [method_name] in *.
    + (* xml *) pose proof (method_plain _ Em) as Pt. eapply xml_complete; eauto. apply Pin. intros d I [_ D]. apply (Pt d D).
      destruct I as [<-|[<-|[<-|[]]]]; apply smem_In; reflexivity.
    + (* replace *) eapply c_leaf; [apply (Li (L "replace")); [cbn; tauto|reflexivity]|reflexivity|reflexivity|]. intros c. apply tl_replace. now apply Di.
    + (* import *) eapply c_leaf; [apply (Li (L "import")); [cbn; tauto|reflexivity]|reflexivity|reflexivity|]. intros c. apply tl_import with (a' := a'); [now apply Di|].
      destruct (has_attr (L "alias") a') eqn:Eh; [right|left]; (split; [|reflexivity]).
      * apply has_attr_spec in Eh. intros X. now apply X.
      * intros I. apply has_attr_spec in I. congruence.
    + (* extends *) intros s ns s' Hb E. apply bind_ok in E as (u & s1 & E1 & E). unfold set_is_child in E1.
      assert (s1 = Cst (c_funs s) (c_mod s) (c_in_def s) true (c_names s)) as -> by congruence. clear E1.
      assert (C : Comp b sw (DeclareAll b cs) (fun c ps fs c' => exists qs, AllTell b c false tag [] cs qs fs c' /\ ps = RcStm (RExtend (get_attr (L "href") a')) :: qs)
        (cat (ret [NExtend ln (get_attr (L "href") a')]) (kids false ln (InElement tag a') [] cs))).
      { eapply (c_pre b sw _ (fun c ps fs c' => ps = [RcStm (RExtend (get_attr (L "href") a'))])); [|apply K; apply Pnop; right; now apply Nm|].
        - apply c_nodes; [reflexivity|apply placed_any; repeat constructor|]. intros c ps P. exists []. split; [reflexivity|]. cbn [pieces_of piece_of S_Exec.obind option_map] in P. congruence.
        - intros c ps fs qs gs c' -> T. exists gs, qs. now split. }
      destruct (C (Cst (c_funs s) (c_mod s) (c_in_def s) true (c_names s)) ns s' Hb E) as (fl & l & H1 & H2 & H3 & H4 & H5 & H6 & H7). cbn [c_funs c_is_child] in *.
      exists fl, (Extends :: l). split; [apply de_extends; [|exact H1]; apply ro_extends; [exact A2|now apply Md]|]. split; [exact H2|]. split; [exact H3|]. split; [exact H4|].
      split; [exact H5|]. split; [exact H6|]. intros ps P Fs. destruct (H7 ps P Fs) as (fs & qs & T & ->). exists fs. eapply tl_extends; [now apply Di|exact T].
    + (* include *) eapply c_leaf; [apply (Li (L "include")); [cbn; tauto|reflexivity]|reflexivity|reflexivity|]. intros c. apply tl_include. now apply Di.
    + (* block *) apply block_complete; [apply K; apply (Kf (L "block") eq_refl); cbn; intuition discriminate|apply ib_block; now apply Di|rewrite Ga by discriminate; apply ro_block; [exact A2|now apply Md]].
    + (* def *) apply def_complete; [apply K; apply (Kf (L "def") eq_refl); cbn; intuition discriminate|now apply Di|rewrite Ga by discriminate; apply ro_def; [exact A2|now apply Md]].
    + (* call *) apply c_lift. intros caller Ec. assert (Kc : Forall (InPlace false) cs) by (apply (Kf (L "call") eq_refl); cbn; intuition discriminate).
      assert (exists args, caller_args cs args /\ caller = L "$caller(" ++ args ++ L ")") as (args & Ca & ->).
      { destruct cs as [|[ln1 tag1 a1 cs1|ln1 t e|ln1 t|ln1 t|ln1 t d] cs]; cbn [caller_decl] in Ec; try discriminate Ec. exists (get_attr (L "args") a1). split; [constructor|].
        destruct (has_attr (L "args") a1) eqn:Eh; [congruence|]. rewrite get_attr_absent; [|intros I; apply has_attr_spec in I; congruence]. change (L "$caller(" ++ [] ++ L ")") with (L "$caller()"). congruence. }
      eapply c_weaken with (sw := sw) (D := DeclareAll b cs) (R := fun c ps fs c' => Tells b c (parent_tag p) prev (DElem ln tag a cs) ps fs c');
        [|auto|apply (Di' (L "call")); [cbn; tauto|reflexivity]|intros c ps fs c' X; exists fs; exact X].
      eapply c_then; [apply (K b false Kc)|]. intros ns s ns' s' Fn E. apply bind_ok in E as (i & s1 & E1 & E). unfold draw in E1. unfold ret in E.
      assert (s' = s1 /\ ns' = [mk_call ln (helper i) (L "$caller(" ++ args ++ L ")") (replace (L "%caller") (L "$caller") (get_attr (L "function") a')) ns]) as [-> ->] by (split; congruence).
      split; [assert (s1 = Cst (c_funs s) (c_mod s) (c_in_def s) (c_is_child s) (c_names s + 1)) as -> by congruence; repeat split|].
      split; [apply placed_any; constructor; [|constructor]; unfold mk_call; cbn [in_place]; split; [reflexivity|apply all_placed; now apply placed_false]|].
      intros qs P. apply pieces_one in P as (q & P & ->). unfold mk_call in P. cbn [piece_of] in P. rewrite structure_eq in P.
      destruct (obind (structure ns) not_empty) as [bd|] eqn:Eb; [|discriminate]. apply block_inv in Eb as (ps & Pb & A & Sd). exists ps. split; [exact Pb|]. intros c fs c' T.
      assert (X := tl_call compile autoblocks cdata_scripts mode gen b c (parent_tag p) prev ln tag a a' cs args (helper i) ps bd fs c' (Di _ eq_refl) Ca (helper_gen i) T A Sd).
      match type of X with tells _ _ _ _ _ _ _ _ _ _ [?q'] _ _ => assert (q = q') as -> by (unfold with_caller; cbn [option_map] in P; congruence) end. exact X.
    + (* for *) eapply (c_block b sw (DeclareAll b cs)) with (q := fun bd => RcStm (RFor (get_attr (L "each") a') bd []));
        [apply (K b false); apply (Kf (L "for") eq_refl); cbn; intuition discriminate|apply (Di' (L "for")); [cbn; tauto|reflexivity]| | |].
      * intros ns Fn. left. cbn [in_place]. split; [reflexivity|now apply all_placed].
      * intros ns. cbn [piece_of]. now rewrite structure_eq.
      * intros c ps bd fs c' T A Sd. eapply tl_for; [now apply Di|exact T|exact A|exact Sd].
    + (* with *) eapply c_weaken with (sw := sw) (D := DeclareAll b cs) (R := fun c ps fs c' => Tells b c (parent_tag p) prev (DElem ln tag a cs) ps fs c');
        [|auto|apply (Di' (L "with")); [cbn; tauto|reflexivity]|intros c ps fs c' X; exists fs; exact X].
      eapply c_then; [apply (K b false); apply (Kf (L "with") eq_refl); cbn; intuition discriminate|]. intros ns s ns' s' Fn E. apply bind_ok in E as (n & s1 & E1 & E).
      unfold lift, mk_with in E1. destruct (with_vars (get_attr (L "vars") a')) as [vs|] eqn:Ev; [|discriminate]. cbn [rmap] in E1. unfold ret in E.
      assert (s' = s /\ ns' = [NWith ln vs ns]) as [-> ->] by (split; congruence). split; [apply keeps_refl|].
      split; [apply placed_any; constructor; [|constructor]; cbn [in_place]; split; [reflexivity|apply all_placed; now apply placed_false]|].
      intros qs P. apply pieces_one in P as (q & P & ->). cbn [piece_of] in P. rewrite structure_eq in P. unfold structure in P. destruct (pieces_of ns) as [ps|]; [|discriminate]. cbn [S_Exec.obind] in P.
      destruct (assemble ps) as [bd|] eqn:A; [|discriminate]. cbn [option_map] in P. assert (q = RcStm (RWith vs bd)) as -> by congruence.
      exists ps. split; [reflexivity|]. intros c fs c' T. eapply tl_with; [now apply Di|exact Ev|exact T|exact A].
    + (* switch *) eapply c_weaken with (sw := sw) (D := DeclareAll b cs) (R := fun c ps fs c' => Tells b c (parent_tag p) prev (DElem ln tag a cs) ps fs c');
        [|auto|apply (Di' (L "switch")); [cbn; tauto|reflexivity]|intros c ps fs c' X; exists fs; exact X].
      eapply c_then; [apply (K b true); apply Psw; now apply Nm|]. intros ns s ns' s' Fn E. apply bind_ok in E as (ns1 & s1 & E1 & E).
      unfold lift in E1. destruct (switch_body ns) as [ns2|] eqn:Es; [|discriminate]. cbn [rmap] in E1. unfold ret in E.
      assert (s' = s /\ ns' = [NSwitch ln (get_attr (L "test") a') ns2]) as [-> ->] by (split; congruence). split; [apply keeps_refl|].
      apply switch_inv in Es as [I1 I2]. split; [apply placed_any; constructor; [|constructor]; cbn [in_place]; split; [reflexivity|apply all_placed; now apply I1]|].
      intros qs P. apply pieces_one in P as (q & P & ->). cbn [piece_of] in P. rewrite pieces_eq in P. destruct (pieces_of ns2) as [ps'|]; [|discriminate]. cbn [S_Exec.obind] in P.
      destruct (I2 ps' eq_refl) as (Fs & ps & Ps & Fb). rewrite Fs in P. destruct (assemble_switch ps') as [[cases els]|] eqn:A; [|discriminate]. cbn [option_map fst snd] in P.
      assert (q = RcStm (RSwitch (get_attr (L "test") a') cases els)) as -> by congruence. exists ps. split; [exact Ps|]. intros c fs c' T. eapply tl_switch; [now apply Di|exact T|]. now rewrite Fb.
    + (* case *) eapply (c_block b sw (DeclareAll b cs)) with (q := RcCase (get_attr (L "value") a'));
        [apply (K b false); apply (Kf (L "case") eq_refl); cbn; intuition discriminate|apply (Di' (L "case")); [cbn; tauto|reflexivity]| | |].
      * intros ns Fn. right. split; [apply Pc; now apply Nm|]. cbn [in_place]. split; [reflexivity|now apply all_placed].
      * intros ns. cbn [piece_of]. now rewrite structure_eq.
      * intros c ps bd fs c' T A Sd. eapply tl_case; [now apply Di|exact T|exact A|exact Sd].
    + (* if *) eapply (c_block b sw (DeclareAll b cs)) with (q := fun bd => RcStm (RIf (get_attr (L "test") a') bd []));
        [apply (K b false); apply (Kf (L "if") eq_refl); cbn; intuition discriminate|apply (Di' (L "if")); [cbn; tauto|reflexivity]| | |].
      * intros ns Fn. left. cbn [in_place]. split; [reflexivity|now apply all_placed].
      * intros ns. cbn [piece_of]. now rewrite structure_eq.
      * intros c ps bd fs c' T A Sd. eapply tl_if; [now apply Di|exact T|exact A|exact Sd].
    + (* else *) apply c_lift. intros ok Eo. destruct ok; [|intros s ns s' _ E; discriminate E].
      assert (El : parent_tag p = L "py:nop" \/ parent_tag p <> [] /\ prev = L "py:if").
      { destruct p as [|tag0 a0]; [discriminate Eo|]. destruct Hp as [Hp1 Hp2]. unfold else_allowed in Eo. cbn [parent_tag]. rewrite (has_attr_absent _ _ Hp2), orb_false_r in Eo.
        assert (Eo' : seqb tag0 (L "py:nop") || seqb prev (L "py:if") = true) by congruence. apply orb_true_iff in Eo' as [X|X]; apply seqb_eq in X; [now left|right; now split]. }
      eapply (c_block b sw (DeclareAll b cs)) with (q := RcElse);
        [apply (K b false); apply (Kf (L "else") eq_refl); cbn; intuition discriminate|apply (Di' (L "else")); [cbn; tauto|reflexivity]| | |].
      * intros ns Fn. left. cbn [in_place]. now apply all_placed.
      * intros ns. cbn [piece_of]. now rewrite structure_eq.
      * intros c ps bd fs c' T A Sd. eapply tl_else; [now apply Di|exact El|exact T|exact A|exact Sd].
    + (* nop *) eapply c_weaken; [apply (K b sw); apply Pnop; left; now apply Nm|auto|apply (Di' (L "nop")); [cbn; tauto|reflexivity]|].
      intros c ps fs c' T. exists fs. eapply tl_nop; [now apply Di|exact T].
    + intros s ns s' _ E. discriminate E.
    + intros s ns s' _ E. discriminate E.
  - intros ln t e p prev sw b Hp _. cbn [compile_node]. eapply c_weaken with (sw := sw); [apply (c_some b sw _ (text_says compile (parent_tag p) ln t))|auto|intros l ->; constructor|].
    + intros s ns s' E. destruct (text_complete _ _ _ _ _ _ Hp E) as [ss T]. exists ss. split; [|exact T]. now apply (text_gives compile mode gen p (parent_tag p)).
    + intros c ps fs c' [-> (ss & T & ->)]. exists []. now constructor.
  - intros ln t p prev sw b Hp _. cbn [compile_node]. eapply c_weaken with (sw := sw); [apply (c_some b sw _ (text_says compile (parent_tag p) ln t))|auto|intros l ->; constructor|].
    + intros s ns s' E. destruct (text_complete _ _ _ _ _ _ Hp E) as [ss T]. exists ss. split; [|exact T]. now apply (text_gives compile mode gen p (parent_tag p)).
    + intros c ps fs c' [-> (ss & T & ->)]. exists []. now constructor.
  - intros ln t p prev sw b Hp _. cbn [compile_node]. unfold compile_comment. destruct (prefixb (L "!") t) eqn:E.
    + apply c_nodes; [constructor|constructor|]. intros c ps P. assert (ps = []) as -> by (cbn in P; congruence). exists []. now apply tl_hidden.
    + eapply c_weaken with (sw := sw); [apply c_text|auto|intros l ->; constructor|]. intros c ps fs c' [-> ->]. exists []. now apply tl_comment.
  - (* embedded Python *) intros ln t d p prev sw b Hp _. cbn [compile_node]. unfold compile_pi. apply c_lift. intros n En.
    unfold mk_python in En. cbn [concat] in En. rewrite app_nil_r in En. destruct (strip d) as [|c0 code] eqn:Es; [discriminate|].
    destruct (N.eqb_spec c0 c_pct) as [->|Ne].
    + destruct (normalize code) as [ls|] eqn:Ec; [|discriminate]. cbn [rmap] in En. assert (n = NPython ln ls true) as -> by congruence. apply normalize_spec in Ec.
      intros s ns s' Hb E. apply bind_ok in E as (u & s1 & E2 & E). unfold ret in E. unfold add_module in E2.
      assert (ns = [] /\ s' = Cst (c_funs s) (c_mod s ++ [(0, ls)]) (c_in_def s) (c_is_child s) (c_names s)) as [-> ->] by (split; congruence). cbn [c_funs c_in_def c_is_child].
      exists [], [Module ls]. split; [eapply de_module; eassumption|]. split; [reflexivity|]. split; [reflexivity|]. split; [exact Hb|]. split; [constructor|]. split; [constructor|].
      intros ps P _. assert (ps = []) as -> by (cbn in P; congruence). eexists. eapply tl_module; eassumption.
    + destruct (normalize (c0 :: code)) as [ls|] eqn:Ec; [|discriminate]. cbn [rmap] in En. assert (n = NPython ln ls false) as -> by congruence. apply normalize_spec in Ec.
      apply c_nodes; [apply de_python; intros code' E'; congruence|apply placed_any; constructor; [split; [reflexivity|intros X; discriminate X]|constructor]|].
      intros c ps P. apply pieces_one in P as (q & P & ->). cbn [piece_of] in P. assert (q = RcStm (RPython ls)) as -> by congruence. exists [].
      apply tl_python; [congruence|intros code' E'; congruence|now rewrite Es].
Qed.
End Complete.

(** ** Whole documents *)
Lemma adds_fresh : forall fl l, NoDup (map fst l ++ map fst fl) -> adds fl l = l ++ fl.
Proof.
  induction fl as [|[k v] fl IH]; intros l N; [now rewrite app_nil_r|]. change (adds ((k, v) :: fl) l) with (adds fl (set_function k v l)).
  assert (E : set_function k v l = l ++ [(k, v)]).
  { apply NoDup_remove_2 in N. assert (Hk : ~ In k (map fst l)) by (intros I; apply N; apply in_or_app; now left). clear -Hk.
    induction l as [|[k0 v0] l IH]; [reflexivity|]. cbn [set_function map fst In] in *. destruct (seqb k k0) eqn:E; [apply seqb_eq in E; subst; tauto|]. rewrite IH by tauto. reflexivity. }
  rewrite E, IH, <- app_assoc; [reflexivity|]. rewrite map_app, <- app_assoc. exact N.
Qed.

Theorem document_complete : forall compile helper (gen : str -> Prop) s d root t, (forall i, gen (helper i)) ->
  filter not_comment (d_children d) = [root] -> node_in_place (s_autoblocks s) false root ->
  (forall l, declares (s_autoblocks s) (s_cdata s) false root l -> NoDup (L "__main__()" :: S_XFun.declared_names l)) ->
  compile_document compile helper (s_autoblocks s) (s_cdata s) (s_mode s) (s_fragment s) d = Ok t ->
  Forall function_in_place (defs t) /\ (functions_of (defs t) <> None -> exists r, document_tells compile gen s d r).
Proof.
  intros compile helper gen s d root t Hg Hr Pl Nd E. unfold compile_document in E. change no_comment with not_comment in E. rewrite Hr in E.
  destruct (compile_node compile helper (s_autoblocks s) (s_cdata s) (s_mode s) InDocument [] root (Cst [(main_decl, [])] [] false false 0)) as [[ns s']|] eqn:Ec; [|discriminate].
  destruct (completed compile helper (s_autoblocks s) (s_cdata s) (s_mode s) gen Hg root InDocument [] false false Logic.I Pl _ ns s' (eq_refl : c_in_def (Cst [(main_decl, [])] [] false false 0) = false) Ec)
    as (fl & l' & D' & Nm & Ef & _ & P1 & P2 & R). cbn [c_funs c_is_child parent_tag] in *.
  specialize (Nd _ D'). rewrite <- Nm in Nd.
  apply placed_false in P1. cbn [rmap fst snd] in E. rewrite Ef, adds_fresh in E by exact Nd. cbn [app] in E.
  set (body := doctype_text (s_mode s) (s_fragment s) (c_is_child s') (d_dtd d) ++ ns) in *.
  assert (t = TemplateNode 0 (c_mod s') (NDef 0 false main_decl body :: map (fun kv => NDef 0 false (fst kv) (snd kv)) fl)) as ->.
  { cbn [set_function] in E. rewrite seqb_refl in E. cbn [map fst snd] in E. congruence. }
  clear E. cbn [defs].
  assert (exists line, (if s_fragment s || c_is_child s' then line = [] else doctype_line (s_mode s) (d_dtd d) line) /\
    doctype_text (s_mode s) (s_fragment s) (c_is_child s') (d_dtd d) = match line with [] => [] | _ => [NText 1 line None] end) as (line & Dl & Dt).
  { destruct (s_fragment s || c_is_child s') eqn:Eb; [exists []; split; [reflexivity|]; unfold doctype_text; now rewrite Eb|].
    apply orb_false_iff in Eb as [-> ->]. destruct (doctype_exists (s_mode s) (d_dtd d)) as [line Hl]. exists line. split; [exact Hl|]. now apply doctype_is. }
  unfold body in *. rewrite Dt in *. clear Dt body. split.
  - constructor.
    + cbn [function_in_place]. apply Forall_app. split; [|exact P1]. destruct line; repeat constructor.
    + apply Forall_forall. intros n I. apply in_map_iff in I as ([k v] & <- & I). cbn [fst snd function_in_place]. rewrite Forall_forall in P2. exact (P2 _ I).
  - intros Hf. destruct (functions_of _) as [fs|] eqn:Efs; [|now elim Hf]. clear Hf.
    assert (Sm : sound (match line with [] => [] | _ => [NText 1 line None] end ++ ns)) by (apply (functions_sound _ _ 0 main_decl _ Efs); now left).
    assert (Sf : Forall (fun kv => sound (snd kv)) fl).
    { apply Forall_forall. intros [k v] I. apply (functions_sound _ _ 0 k v Efs). right. apply in_map_iff. now exists (k, v). }
    apply sound_inv in Sm as (qs & b & Pq & A & Sd).
    assert (exists ps b0, pieces_of ns = Some ps /\ assemble ps = Some b0 /\ b = match line with [] => [] | _ => [RText line None] end ++ b0) as (ps & b0 & P & A0 & ->).
    { destruct line as [|c0 line]; [now exists qs, b|]. cbn [app] in Pq. apply pieces_cons in Pq as (q & ps & Eq & P & ->). exists ps. cbn [piece_of] in Eq.
      assert (q = RcStm (RText (c0 :: line) None)) as -> by congruence. unfold assemble in *. cbn [attach] in A.
      destruct (attach ps) as [[[els|] r]|] eqn:Ea; [discriminate A| |discriminate A]. exists r. split; [exact P|]. split; [reflexivity|]. cbn [app]. congruence. }
    destruct (R ps P Sf) as [gs T]. eexists. eapply document_reading; eassumption.
Qed.
