(** * Where the code of a whole document is reported *)

From Coq Require Import Ascii String List NArith ZArith Bool Lia Arith Permutation Sorted.
From Verif Require Import PyStr PyStrLemmas M_Values S_Values M_IR M_Exec S_IR M_Text M_XText S_XText M_Entities M_Dom M_XCompile S_XDoc S_XFun S_Lines
  P_Values P_IR P_Dom P_XText P_XText2 P_XDoc P_XDoc2 P_XFun P_XFun2 P_Lines1 P_Lines2.
Import ListNotations.
Open Scope nat_scope.
Open Scope list_scope.

Lemma seqb_neq : forall x y, x <> y -> seqb x y = false.
Proof. intros x y N. destruct (seqb_spec x y); [contradiction|reflexivity]. Qed.
Scheme stands_mut := Induction for stands Sort Prop
  with content_mut := Induction for content_stands Sort Prop
  with stand_all_mut := Induction for stand_all Sort Prop.
Combined Scheme stands_induction from stands_mut, content_mut, stand_all_mut.

Lemma method_named : forall tag d m, directive tag d -> List.find (fun kv => seqb d (fst kv)) methods = Some (d, m) -> method_of tag = m.
Proof. intros tag d m D F. unfold method_of. rewrite (directive_py _ _ D), (directive_last _ _ D), F. reflexivity. Qed.
Lemma plain_method : forall tag, plain_tag tag -> method_of tag = KXml \/ method_of tag = KData \/ method_of tag = KNode.
Proof.
  intros tag P. destruct (method_of tag) eqn:E; auto; exfalso; pose proof (method_directive tag) as Md; rewrite E in Md; cbn [method_name] in Md;
    (eapply P; [apply Md; reflexivity|apply smem_In; reflexivity]).
Qed.

Section Doc.
Variable compile : str -> compiled.
Variable helper : nat -> str.
Variable autoblocks : list str.
Variable cdata_scripts : bool.
Variable mode : str.
Notation cnode := (compile_node compile helper autoblocks cdata_scripts mode).
Notation kids := (children compile helper autoblocks cdata_scripts mode).
Notation Role := (role_of autoblocks cdata_scripts).
Notation Declares_ := (declares autoblocks cdata_scripts).
Notation DeclareAll := (declare_all autoblocks cdata_scripts).
Notation Runs := (runs compile helper autoblocks cdata_scripts mode).
Notation Stands := (stands compile autoblocks cdata_scripts).
Notation Content := (content_stands compile autoblocks cdata_scripts).
Notation StandAll := (stand_all compile autoblocks cdata_scripts).

Lemma cat_ok : forall (a b : M (list node)) s ns s', cat a b s = Ok (ns, s') ->
  exists x s1 y, a s = Ok (x, s1) /\ b s1 = Ok (y, s') /\ ns = x ++ y.
Proof.
  intros a b s ns s' E. unfold cat in E. apply bind_ok in E as (x & s1 & E1 & E). apply bind_ok in E as (y & s2 & E2 & E). unfold ret in E.
  exists x, s1, y. assert (ns = x ++ y /\ s' = s2) as [-> ->] by (split; congruence). auto.
Qed.
Lemma ret_ok : forall A (a : A) s b s', ret a s = Ok (b, s') -> b = a /\ s' = s.
Proof. intros A a s b s' E. unfold ret in E. split; congruence. Qed.
Lemma lift_ok : forall A (r : result A) s b s', lift r s = Ok (b, s') -> r = Ok b /\ s' = s.
Proof. intros A [a|x] s b s' E; unfold lift in E; cbn [rmap] in E; [split; congruence|discriminate]. Qed.

Lemma runs_child : forall l s s', Runs l s s' -> c_is_child s' = c_is_child s || extends_among l.
Proof.
  intros l s s' R. induction R as [s s' (A & B & C)|d l s s1 s2 E R IH]; [now rewrite orb_false_r|].
  unfold extends_among in *. cbn [existsb]. rewrite IH. destruct d as [k e| |ls]; cbn [effect] in E.
  - assert (C : c_is_child s1 = c_is_child s) by (repeat match goal with H : _ /\ _ |- _ => destruct H | H : exists _, _ |- _ => destruct H end; congruence).
    now rewrite C.
  - destruct E as (_ & _ & C). rewrite C. cbn [orb]. now rewrite !orb_true_r.
  - destruct E as (_ & _ & C). now rewrite C.
Qed.
Lemma after_node : forall p prev n s ns s' l, cnode p prev n s = Ok (ns, s') -> c_in_def s = false -> Declares_ false n l ->
  c_in_def s' = false /\ c_is_child s' = c_is_child s || extends_among l.
Proof.
  intros p prev n s ns s' l E Ed D. destruct (compile_records _ _ _ _ _ n _ _ _ _ _ E) as (l' & D' & R & I1). rewrite Ed in D', I1.
  assert (l' = l) as -> by (eapply (proj1 (declares_unique autoblocks cdata_scripts)); eassumption). split; [exact I1|eapply runs_child; exact R].
Qed.
Lemma after_kids : forall marks ln self prev cs s ns s' l, kids marks ln self prev cs s = Ok (ns, s') -> c_in_def s = false -> DeclareAll false cs l ->
  c_is_child s' = c_is_child s || extends_among l.
Proof.
  intros marks ln self prev cs s ns s' l E Ed D.
  destruct (kids_declare compile helper autoblocks cdata_scripts mode marks ln self cs) with (b := false) (prev := prev) (s := s) (ns := ns) (s' := s') as (l' & D' & R & I1); try assumption.
  - clear. induction cs; constructor; [apply compile_records|assumption].
  - assert (l' = l) as -> by (eapply (proj2 (declares_unique autoblocks cdata_scripts)); eassumption). eapply runs_child; exact R.
Qed.

Lemma attrs_fit : forall ln tag sorted m, attrs_stand compile autoblocks ln tag sorted m -> forall (f : str * str -> bool) g,
  (forall k v, In (k, v) sorted -> ~ special_attr k -> f (k, v) = true <-> ~ hidden_attr autoblocks tag k) ->
  (forall k v, k = L "py:strip" -> f (k, v) = false) ->
  forall s ns s', compile_attrs compile helper mode ln g (filter f sorted) s = Ok (ns, s') -> fits ln (items ns) m.
Proof.
  intros ln tag sorted m A f g. induction A as [|k v l m H A IH|k v l ps m H R A IH]; intros Hf Hs s ns s' E.
  - cbn [filter compile_attrs] in E. apply ret_ok in E as [-> ->]. apply fits_nil.
  - assert (IH' : forall s ns s', compile_attrs compile helper mode ln g (filter f l) s = Ok (ns, s') -> fits ln (items ns) m)
      by (apply IH; [intros k0 v0 I0; apply Hf; now right|exact Hs]).
    cbn [filter] in E. destruct (f (k, v)) eqn:Ef; [|now apply IH' in E]. cbn [compile_attrs] in E. apply bind_ok in E as (value & s1 & E1 & E).
    assert (Sp : k = L "py:content" \/ k = L "py:attrs").
    { destruct (seqb_spec k (L "py:content")) as [Ec|Nc]; [now left|]. destruct (seqb_spec k (L "py:attrs")) as [Ea|Na]; [now right|].
      destruct (seqb_spec k (L "py:strip")) as [Ess|Ns]; [rewrite (Hs k v Ess) in Ef; discriminate|].
      exfalso. apply (proj1 (Hf k v (or_introl eq_refl) ltac:(intros [X|[X|X]]; contradiction)) Ef). exact H. }
    assert (Eb : seqb k (L "py:content") || seqb k (L "py:attrs") = true) by (destruct Sp as [->| ->]; reflexivity).
    rewrite Eb in E. now apply IH' in E.
  - assert (IH' : forall s ns s', compile_attrs compile helper mode ln g (filter f l) s = Ok (ns, s') -> fits ln (items ns) m)
      by (apply IH; [intros k0 v0 I0; apply Hf; now right|exact Hs]).
    assert (Ns : ~ special_attr k) by (intros Sp; apply H; now left).
    cbn [filter] in E. rewrite (proj2 (Hf k v (or_introl eq_refl) Ns) H) in E. cbn [compile_attrs] in E. apply bind_ok in E as (value & s1 & E1 & E).
    unfold text_nodes in E1. apply pieces_spec in R. rewrite R in E1. cbn [rmap] in E1. apply lift_ok in E1 as [E1 ->]. assert (value = map (piece_node TK_attr) ps) by congruence. subst value.
    assert (Eb : seqb k (L "py:content") || seqb k (L "py:attrs") = false).
    { apply orb_false_iff. split; apply seqb_neq; intros ->; apply Ns; [now left|right; now left]. }
    rewrite Eb in E. apply bind_ok in E as (i & s2 & E2 & E). apply cat_ok in E as (x & s3 & y & E3 & E4 & ->). apply ret_ok in E3 as [-> ->].
    rewrite items_app. apply fits_app; [|now apply IH' in E4]. cbn [flat_map]. rewrite app_nil_r. apply fits_attr.
Qed.
Lemma script_fit : forall cs m, script_stands compile cs m -> forall tag a, script_or_style tag ->
  forall s ns s', script_nodes compile tag a cs s = Ok (ns, s') -> fits 0 (items ns) m.
Proof.
  intros cs m A tag a Sc. induction A as [|ln t l m A IH|ln t l ps m R A IH|ln t l ps m1 m R D A IH]; intros s ns s' E; cbn [script_nodes] in E.
  - apply ret_ok in E as [-> ->]. apply fits_nil.
  - eapply IH; exact E.
  - apply bind_ok in E as (x & s1 & E1 & E). apply bind_ok in E as (y & s2 & E2 & E). apply cat_ok in E as (z & s3 & w & E3 & E4 & ->).
    apply ret_ok in E3 as [-> ->]. apply lift_ok in E2 as [E2 ->]. cbn [compile_text] in E1. apply lift_ok in E1 as [E1 ->]. unfold text_nodes in E1.
    apply pieces_spec in R. rewrite R in E1. cbn [rmap] in E1. rewrite items_app. apply fits_app; [|eapply IH; exact E4].
    assert (y = x) by congruence. subst y. match type of E1 with Ok ?z = _ => assert (x = z) by congruence end. subst x. apply fits_pieces.
  - apply bind_ok in E as (x & s1 & E1 & E). apply bind_ok in E as (y & s2 & E2 & E). apply cat_ok in E as (z & s3 & w & E3 & E4 & ->).
    apply ret_ok in E3 as [-> ->]. apply lift_ok in E2 as [E2 ->]. cbn [compile_text] in E1. apply lift_ok in E1 as [E1 ->]. unfold text_nodes in E1.
    apply pieces_spec in R. rewrite R in E1. cbn [rmap] in E1. rewrite items_app. apply fits_app; [|eapply IH; exact E4].
    apply (cdata_tag compile mode) in Sc. rewrite Sc in E1. assert (x = map (piece_node TK_raw) ps) by congruence. subst x. clear - D E2.
    revert y E2. induction D as [|p x ps m1 Hp D IH]; intros y E2; cbn [map rseq] in E2; [assert (y = []) as -> by congruence; apply fits_nil|].
    destruct Hp as [ln t|ln e e' U]; cbn [piece_node unescape_node] in E2.
    + destruct (unescape t) as [t'|]; [|discriminate]. cbn [rmap rbind] in E2. destruct (rseq (map unescape_node (map (piece_node TK_raw) ps))) as [r|]; [|discriminate].
      cbn [rbind rmap] in E2. assert (y = NText ln t' None :: r) by congruence. subst y. cbn [flat_map]. apply (fits_app 0 _ [(ln, None)]); [apply fits_ntext|]. now apply IH.
    + rewrite U in E2. cbn [rmap rbind] in E2. destruct (rseq (map unescape_node (map (piece_node TK_raw) ps))) as [r|]; [|discriminate].
      cbn [rbind rmap] in E2. assert (y = NExpr ln e' false :: r) by congruence. subst y. cbn [flat_map]. apply (fits_app 0 _ [(ln, Some e')]); [apply fits_expr|]. now apply IH.
Qed.

Definition node_fits (child : bool) (n : dnode) (m : list site) : Prop :=
  forall p prev s ns s', c_in_def s = false -> c_is_child s = child -> cnode p prev n s = Ok (ns, s') -> fits 0 (items ns) m.
Definition kids_fit (rendered child : bool) (cs : list dnode) (m : list site) : Prop :=
  forall ln self prev s ns s', c_in_def s = false -> c_is_child s = child -> kids rendered ln self prev cs s = Ok (ns, s') ->
    fits (if rendered then ln else 0) (items ns) m.
Definition content_fits (child : bool) (ln : nat) (tag : str) (a : list (str * str)) (cs : list dnode) (m : list site) : Prop :=
  forall self a' g s ns s', get_attr (L "py:content") a' = get_attr (L "py:content") a -> c_in_def s = false -> c_is_child s = child ->
    rest_nodes compile helper autoblocks cdata_scripts mode self ln tag a' g cs s = Ok (ns, s') -> fits ln (items ns) m.

Lemma text_fits : forall p ln t ps s ns s', reads compile ln t ps -> compile_text compile p ln t s = Ok (ns, s') -> fits 0 (items ns) (map piece_site ps).
Proof.
  intros p ln t ps s ns s' R E. destruct p as [|tag a]; [discriminate|]. cbn [compile_text] in E. apply lift_ok in E as [E ->]. unfold text_nodes in E.
  apply pieces_spec in R. rewrite R in E. cbn [rmap] in E. match type of E with Ok ?z = _ => assert (ns = z) by congruence end. subst ns. apply fits_pieces.
Qed.
(** The attributes that are looked at. *)
Lemma elem_start : forall p prev ln tag a cs s ns s', cnode p prev (DElem ln tag a cs) s = Ok (ns, s') ->
  exists b a', is_autoblock autoblocks tag a = Ok (b, a') /\ (b = true -> autoblock autoblocks tag a) /\ (b = false -> ~ autoblock autoblocks tag a) /\
    (forall k, k <> L "py:autoblock" -> get_attr k a' = get_attr k a) /\
    bind (lift (Ok (b, a'))) (fun ba =>
  let a := snd ba in
  let nop := kids false ln (InElement tag a) [] cs in
  if fst ba then block_nodes ln tag nop
  else match method_of tag with
  | KXml => xml_nodes compile helper autoblocks cdata_scripts mode ln tag a cs
  | KReplace => ret [NExpr ln (get_attr (L "value") a) false]
  | KImport =>
      ret [NImport ln (get_attr (L "href") a)
             (if has_attr (L "alias") a then Some (get_attr (L "alias") a) else None)]
  | KExtends => bind set_is_child (fun _ => cat (ret [NExtend ln (get_attr (L "href") a)]) nop)
  | KInclude => ret [NInclude ln (get_attr (L "href") a)]
  | KBlock => block_nodes ln (get_attr (L "name") a) nop
  | KDef => def_nodes ln (get_attr (L "function") a) nop
  | KCall =>
      bind (lift (caller_decl cs)) (fun caller =>
      bind nop (fun body =>
      bind (draw 1) (fun i =>
      ret [mk_call ln (helper i) caller
             (replace (L "%caller") (L "$caller") (get_attr (L "function") a)) body])))
  | KFor => bind nop (fun body => ret [NFor ln (get_attr (L "each") a) body])
  | KWith => bind nop (fun body => bind (lift (mk_with ln (get_attr (L "vars") a) body)) (fun n => ret [n]))
  | KSwitch =>
      bind nop (fun body => bind (lift (switch_body body)) (fun body =>
      ret [NSwitch ln (get_attr (L "test") a) body]))
  | KCase => bind nop (fun body => ret [NCase ln (get_attr (L "value") a) body])
  | KIf => bind nop (fun body => ret [NIf ln (get_attr (L "test") a) body])
  | KElse =>
      bind (lift (else_allowed p prev)) (fun ok : bool =>
      if ok then bind nop (fun body => ret [NElse ln body]) else fail "XMLTemplateCompileError")
  | KNop => nop
  | KData => fail "AttributeError"
  | KNode => fail "RecursionError"
  end) s = Ok (ns, s').
Proof.
  intros p prev ln tag a cs s ns s' E. rewrite compile_elem in E. destruct (is_autoblock autoblocks tag a) as [[b a']|x] eqn:Ea; [|discriminate].
  exists b, a'. destruct (autoblock_ok compile autoblocks mode tag a b a' Ea) as (A1 & A2 & Ga). auto.
Qed.
Lemma block_fits : forall ln tag a' cs name l, DeclareAll false cs l -> forall s ns s', c_in_def s = false ->
  block_nodes ln name (kids false ln (InElement tag a') [] cs) s = Ok (ns, s') ->
  fits 0 (items ns) (if c_is_child s || extends_among l then [] else [(ln, Some (L "_kj_block_" ++ name ++ L "()"))]).
Proof.
  intros ln tag a' cs name l D s ns s' Ed E. unfold block_nodes in E. apply bind_ok in E as (body & s1 & E1 & E).
  pose proof (after_kids _ _ _ _ _ _ _ _ _ E1 Ed D) as C. apply bind_ok in E as (child & s2 & E2 & E). unfold get_is_child in E2.
  assert (child = c_is_child s1 /\ s2 = s1) as [-> ->] by (split; congruence). rewrite <- C. destruct (c_is_child s1).
  - apply bind_ok in E as (h & s3 & E3 & E). apply add_then in E as [-> ->]. apply fits_nil.
  - apply add_then in E as [-> ->]. cbn [flat_map]. rewrite app_nil_r. rewrite <- app_assoc. apply fits_expr.
Qed.

Theorem document_fits :
  (forall child n m, Stands child n m -> node_fits child n m) /\
  (forall child ln tag a cs m, Content child ln tag a cs m -> content_fits child ln tag a cs m) /\
  (forall rendered child cs m, StandAll rendered child cs m -> kids_fit rendered child cs m).
Proof.
  apply stands_induction.
  - (* comment *) intros child ln t p prev s ns s' Ed Ec E. cbn [compile_node] in E. apply ret_ok in E as [-> ->]. unfold compile_comment. destruct (prefixb (L "!") t).
    + intros m hi Lm T. apply track_plain in T as (m' & A & B & T). split; [|reflexivity]. apply tr_nil. apply track_le in T. lia.
    + apply fits_ntext.
  - intros child ln t e ps R p prev s ns s' Ed Ec E. cbn [compile_node] in E. eapply text_fits; eassumption.
  - intros child ln t ps R p prev s ns s' Ed Ec E. cbn [compile_node] in E. eapply text_fits; eassumption.
  - (* Python *) intros child ln t d lines Np D p prev s ns s' Ed Ec E. cbn [compile_node] in E. unfold compile_pi in E. apply bind_ok in E as (n & s1 & E1 & E).
    apply lift_ok in E1 as [En ->]. unfold mk_python in En. cbn [concat] in En. rewrite app_nil_r in En. apply normalize_spec in D. destruct (strip d) as [|c code] eqn:Es; [discriminate|].
    destruct (N.eqb_spec c c_pct) as [->|Ne]; [now destruct (Np code)|]. rewrite D in En. cbn [rmap] in En. assert (n = NPython ln lines false) by congruence. subst n.
    apply ret_ok in E as [-> ->]. cbn [flat_map]. rewrite app_nil_r. apply fits_python.
  - (* module *) intros child ln t d code Es p prev s ns s' Ed Ec E. cbn [compile_node] in E. unfold compile_pi in E. apply bind_ok in E as (n & s1 & E1 & E).
    apply lift_ok in E1 as [En ->]. unfold mk_python in En. cbn [concat] in En. rewrite app_nil_r in En. rewrite Es in En. rewrite N.eqb_refl in En.
    destruct (normalize code) as [ls|]; [|discriminate]. cbn [rmap] in En. assert (n = NPython ln ls true) by congruence. subst n.
    apply bind_ok in E as (u & s1 & E2 & E). apply ret_ok in E as [-> ->]. apply fits_nil.
  - (* block *) intros child ln tag a cs name l Ro D p prev s ns s' Ed Ec E. subst child. apply elem_start in E as (b & a' & Ea & A1 & A2 & Ga & E).
    apply bind_ok in E as (ba & s1 & E1 & E). apply lift_ok in E1 as [Eb ->]. assert (ba = (b, a')) by congruence. subst ba. cbn [fst snd] in E. cbv zeta in E.
    destruct b.
    + pose proof (role_unique _ _ _ _ _ _ Ro (ro_auto _ _ _ _ (A1 eq_refl))) as Er. assert (name = tag) by congruence. subst name. eapply block_fits; eassumption.
    + specialize (A2 eq_refl). inversion Ro; subst; [contradiction|]. rewrite (method_named _ _ KBlock H1 eq_refl) in E. rewrite Ga in E by discriminate. eapply block_fits; eassumption.
  - (* def *) intros child ln tag a cs f Ro p prev s ns s' Ed Ec E. subst child. apply elem_start in E as (b & a' & Ea & A1 & A2 & Ga & E).
    apply bind_ok in E as (ba & s1 & E1 & E). apply lift_ok in E1 as [Eb ->]. assert (ba = (b, a')) by congruence. subst ba. cbn [fst snd] in E. cbv zeta in E.
    inversion Ro; subst. destruct b; [now destruct (H0 (A1 eq_refl))|]. rewrite (method_named _ _ KDef H1 eq_refl) in E. unfold def_nodes in E.
    apply bind_ok in E as (old & s0 & E0 & E). unfold get_in_def in E0. assert (old = false /\ s0 = s) as [-> ->] by (split; congruence).
    apply bind_ok in E as (u & s2 & E2 & E). apply bind_ok in E as (body & s3 & E3 & E). apply bind_ok in E as (u' & s4 & E4 & E).
    apply add_then in E as [-> ->]. apply fits_nil.
  - (* extends *) intros child ln tag a cs m Ro SA IH p prev s ns s' Ed Ec E. apply elem_start in E as (b & a' & Ea & A1 & A2 & Ga & E).
    apply bind_ok in E as (ba & s1 & E1 & E). apply lift_ok in E1 as [Eb ->]. assert (ba = (b, a')) by congruence. subst ba. cbn [fst snd] in E. cbv zeta in E.
    inversion Ro; subst. destruct b; [now destruct (H (A1 eq_refl))|]. rewrite (method_named _ _ KExtends H0 eq_refl) in E.
    apply bind_ok in E as (u & s1 & E1 & E). unfold set_is_child in E1. assert (s1 = Cst (c_funs s) (c_mod s) (c_in_def s) true (c_names s)) by congruence. subst s1.
    apply cat_ok in E as (x & s2 & y & E2 & E3 & ->). apply ret_ok in E2 as [-> ->]. rewrite Ga by discriminate. rewrite items_app.
    apply (fits_app 0 _ [(ln, Some (get_attr (L "href") a))]); [|eapply (IH ln _ _ _ _ _ _ _ E3)]. cbn [flat_map]. rewrite app_nil_r. apply (fits_one ln (PExtend (get_attr (L "href") a))).
    Unshelve. all: [> exact Ed | reflexivity].
  - (* leaves *) intros child ln tag a cs d codes NA Di I1 Ar p prev s ns s' Ed Ec E. apply elem_start in E as (b & a' & Ea & A1 & A2 & Ga & E).
    apply bind_ok in E as (ba & s1 & E1 & E). apply lift_ok in E1 as [Eb ->]. assert (ba = (b, a')) by congruence. subst ba. cbn [fst snd] in E. cbv zeta in E.
    destruct b; [now destruct (NA (A1 eq_refl))|].
    destruct Ar; try (exfalso; apply smem_In in I1; vm_compute in I1; discriminate).
    + rewrite (method_named _ _ KReplace Di eq_refl) in E. rewrite Ga in E by discriminate. apply ret_ok in E as [-> ->]. cbn [flat_map map]. rewrite app_nil_r. apply fits_expr.
    + rewrite (method_named _ _ KImport Di eq_refl) in E. rewrite !Ga in E by discriminate. apply ret_ok in E as [-> ->]. cbn [flat_map map]. rewrite app_nil_r.
      match goal with |- fits 0 (iter (NImport _ ?h ?x)) _ => apply (fits_one ln (PImport h x)) end.
    + rewrite (method_named _ _ KInclude Di eq_refl) in E. rewrite Ga in E by discriminate. apply ret_ok in E as [-> ->]. cbn [flat_map map]. rewrite app_nil_r.
      apply (fits_one ln (PInclude (get_attr (L "href") a))).
  - (* directives with content *) intros child ln tag a cs d codes m NA Di I1 Ar SA IH p prev s ns s' Ed Ec E. apply elem_start in E as (b & a' & Ea & A1 & A2 & Ga & E).
    apply bind_ok in E as (ba & s1 & E1 & E). apply lift_ok in E1 as [Eb ->]. assert (ba = (b, a')) by congruence. subst ba. cbn [fst snd] in E. cbv zeta in E.
    destruct b; [now destruct (NA (A1 eq_refl))|]. unfold kids_fit in IH. cbn match in IH.
    destruct Ar; try (exfalso; apply smem_In in I1; vm_compute in I1; discriminate).
    + rewrite (method_named _ _ KFor Di eq_refl) in E. rewrite Ga in E by discriminate. apply bind_ok in E as (body & s2 & E2 & E). apply ret_ok in E as [-> ->].
      cbn [flat_map map app]. rewrite app_nil_r. apply fits_for. eapply IH; [| |exact E2]; assumption.
    + rewrite (method_named _ _ KIf Di eq_refl) in E. rewrite Ga in E by discriminate. apply bind_ok in E as (body & s2 & E2 & E). apply ret_ok in E as [-> ->].
      cbn [flat_map map app]. rewrite app_nil_r. apply fits_if. eapply IH; [| |exact E2]; assumption.
    + rewrite (method_named _ _ KSwitch Di eq_refl) in E. rewrite Ga in E by discriminate. apply bind_ok in E as (body & s2 & E2 & E). apply bind_ok in E as (b2 & s3 & E3 & E).
      apply ret_ok in E as [-> ->]. apply lift_ok in E3 as [E3 ->]. cbn [flat_map map app]. rewrite app_nil_r. apply fits_switch. eapply switch_fits; [exact E3|]. eapply IH; [| |exact E2]; assumption.
    + rewrite (method_named _ _ KCase Di eq_refl) in E. rewrite Ga in E by discriminate. apply bind_ok in E as (body & s2 & E2 & E). apply ret_ok in E as [-> ->].
      cbn [flat_map map app]. rewrite app_nil_r. apply fits_case. eapply IH; [| |exact E2]; assumption.
    + rewrite (method_named _ _ KWith Di eq_refl) in E. rewrite Ga in E by discriminate. apply bind_ok in E as (body & s2 & E2 & E). apply bind_ok in E as (n & s3 & E3 & E).
      apply ret_ok in E as [-> ->]. apply lift_ok in E3 as [E3 ->]. unfold mk_with in E3. rewrite H in E3. cbn [rmap] in E3. assert (n = NWith ln vars body) by congruence. subst n.
      cbn [flat_map map app]. rewrite app_nil_r. rewrite map_map. apply fits_with. eapply IH; [| |exact E2]; assumption.
    + rewrite (method_named _ _ KElse Di eq_refl) in E. apply bind_ok in E as (ok & s2 & E2 & E). apply lift_ok in E2 as [_ ->]. destruct ok; [|discriminate].
      apply bind_ok in E as (body & s2 & E2 & E). apply ret_ok in E as [-> ->]. cbn [flat_map map app]. rewrite app_nil_r. apply fits_else. eapply IH; [| |exact E2]; assumption.
    + rewrite (method_named _ _ KNop Di eq_refl) in E. cbn [map app]. eapply IH; [| |exact E]; assumption.
    + rewrite (method_named _ _ KCall Di eq_refl) in E. apply bind_ok in E as (caller & s2 & E2 & E). apply lift_ok in E2 as [_ ->].
      apply bind_ok in E as (body & s3 & E3 & E). apply bind_ok in E as (i & s4 & E4 & E). apply ret_ok in E as [-> ->]. cbn [flat_map map app]. rewrite app_nil_r. unfold mk_call.
      apply fits_call. eapply IH; [| |exact E3]; assumption.
  - (* elements *) intros child ln tag a cs sorted shown more rest NA Pl ND P S As Ma C IH p prev s ns s' Ed Ec E. apply elem_start in E as (b & a' & Ea & A1 & A2 & Ga & E).
    apply bind_ok in E as (ba & s1 & E1 & E). apply lift_ok in E1 as [Eb ->]. assert (ba = (b, a')) by congruence. subst ba. cbn [fst snd] in E. cbv zeta in E.
    destruct b; [now destruct (NA (A1 eq_refl))|]. destruct (plain_method _ Pl) as [Em|[Em|Em]]; rewrite Em in E; try discriminate.
    unfold xml_nodes in E. cbv zeta in E. apply cat_ok in E as (x1 & s1 & y1 & E1 & E & ->). apply ret_ok in E1 as [-> ->].
    apply cat_ok in E as (x2 & s2 & y2 & E2 & E & ->). apply cat_ok in E as (x3 & s3 & y3 & E3 & E4 & ->).
    assert (Q2 : c_in_def s2 = false /\ c_is_child s2 = child). { apply (pure_attrs compile helper mode) in E2 as [(_ & _ & Q) Q']. split; congruence. }
    assert (Q3 : c_in_def s3 = false /\ c_is_child s3 = child). { apply (pure_more compile helper mode) in E3 as [(_ & _ & Q) Q']. destruct Q2. split; congruence. }
    rewrite !items_app. cbn [flat_map iter app]. apply fits_text. apply fits_app; [|apply fits_app].
    + (* attributes *)
      assert (F : exists f, sorted_attrs (remove_attr (L "py:strip") a') = filter f sorted /\
         (forall k v, In (k, v) sorted -> ~ special_attr k -> f (k, v) = true <-> ~ hidden_attr autoblocks tag k) /\
         (forall k v, k = L "py:strip" -> f (k, v) = false)).
      { assert (So : forall f : str * str -> bool, sort_attrs (filter f a) = filter f sorted).
        { intros f. apply sort_is.
          - clear - ND. induction a as [|kv a IHa]; [constructor|]. cbn [map filter] in *. apply NoDup_cons_iff in ND as [N1 N2]. destruct (f kv); [|now apply IHa].
            cbn [map]. constructor; [|now apply IHa]. intros I1. apply N1. apply in_map_iff in I1 as (z & Ez & I1). apply filter_In in I1 as [I1 _]. apply in_map_iff. now exists z.
          - clear - P. induction P as [|x l l' P IHP|x y l|l l1 l2 P1 IH1 P2 IH2]; cbn [filter].
            + constructor.
            + destruct (f x); [now constructor|assumption].
            + destruct (f x), (f y); try constructor; apply Permutation_refl.
            + eapply Permutation_trans; eassumption.
          - now apply filter_sorted. }
        unfold sorted_attrs, remove_attr. unfold is_autoblock in Ea. destruct (smem tag autoblocks) eqn:Sm.
        - apply smem_In in Sm. destruct (has_attr (L "py:autoblock") a) eqn:Eh; [|congruence].
          destruct (seqb _ _) in Ea.
          + assert (a' = remove_attr (L "py:autoblock") a) by congruence. subst a'. unfold remove_attr.
            exists (fun kv => negb (seqb (L "py:autoblock") (fst kv)) && negb (seqb (L "py:strip") (fst kv))).
            split; [|split].
            * rewrite <- So. f_equal. clear. induction a as [|kv a IHa]; [reflexivity|]. cbn [filter]. destruct (seqb (L "py:autoblock") (fst kv)); cbn [negb andb filter]; [exact IHa|].
              destruct (seqb (L "py:strip") (fst kv)); cbn [negb andb filter]; [exact IHa|]. now rewrite IHa.
            * intros k v I0 Ns. cbn [fst]. assert (seqb (L "py:strip") k = false) as -> by (apply seqb_neq; intros <-; apply Ns; right; now right).
              cbn [negb]. rewrite andb_true_r, negb_true_iff. split.
              -- intros Ne [Sp|[-> _]]; [contradiction|]. rewrite seqb_refl in Ne. discriminate.
              -- intros Nh. apply seqb_neq. intros <-. apply Nh. right. now split.
            * intros k v ->. reflexivity.
          + destruct (seqb _ _) in Ea; congruence.
        - assert (a' = a) by congruence. subst a'. apply smem_notIn in Sm. exists (fun kv => negb (seqb (L "py:strip") (fst kv))). split; [apply So|]. split.
          + intros k v I0 Ns. cbn [fst]. assert (seqb (L "py:strip") k = false) as -> by (apply seqb_neq; intros <-; apply Ns; right; now right).
            split; [|reflexivity]. intros _ [Sp|[_ X]]; contradiction.
          + intros k v ->. reflexivity. }
      destruct F as (f & Fe & F1 & F2). rewrite Fe in E2. eapply attrs_fit; [exact As|exact F1|exact F2|exact E2].
    + (* py:attrs *) unfold more_nodes in E3. rewrite get_removed in E3 by discriminate. rewrite Ga in E3 by discriminate.
      assert (Hh : has_attr (L "py:strip") a' = has_attr (L "py:strip") a).
      { unfold is_autoblock in Ea. destruct (smem tag autoblocks); [|congruence]. destruct (has_attr (L "py:autoblock") a); [|congruence]. destruct (seqb _ _) in Ea.
        - assert (a' = remove_attr (L "py:autoblock") a) by congruence. subst a'. unfold has_attr, remove_attr. clear. induction a as [|kv a IHa]; [reflexivity|]. cbn [filter existsb].
          destruct (seqb_spec (L "py:autoblock") (fst kv)) as [E|Ne]; cbn [negb]; [rewrite <- E; exact IHa|]. cbn [existsb]. now rewrite IHa.
        - destruct (seqb _ _) in Ea; congruence. }
      assert (Gu : forall g, strip_condition a g -> truthy_guard (strip_guard a') = g).
      { intros g Sc. unfold strip_guard. rewrite Hh, Ga by discriminate. destruct Sc as [Ab|Na E0|c Na E0 Nc].
        - assert (has_attr (L "py:strip") a = false) as ->; [|reflexivity]. destruct (has_attr (L "py:strip") a) eqn:E0; [|reflexivity]. apply has_attr_spec in E0. contradiction.
        - assert (has_attr (L "py:strip") a = true) as ->; [|now rewrite E0]. destruct (has_attr (L "py:strip") a) eqn:E1; [reflexivity|]. exfalso. apply Na. intros I0. apply has_attr_spec in I0. congruence.
        - assert (has_attr (L "py:strip") a = true) as ->; [|subst c; now destruct (get_attr (L "py:strip") a)].
          destruct (has_attr (L "py:strip") a) eqn:E1; [reflexivity|]. exfalso. apply Na. intros I0. apply has_attr_spec in I0. congruence. }
      apply (fits_weaken 0); [lia|]. destruct Ma as [E0|x E0 Nx Sc|x g E0 Nx Sc]; rewrite E0 in E3.
      * apply ret_ok in E3 as [-> ->]. apply fits_nil.
      * destruct x as [|x0 x]; [congruence|]. apply bind_ok in E3 as (i & s4 & E5 & E3). apply ret_ok in E3 as [-> ->]. cbn [flat_map]. rewrite app_nil_r.
        pose proof (fits_attrs_node ln (x0 :: x) (strip_guard a') mode (helper i)) as F. now rewrite (Gu _ Sc) in F.
      * destruct x as [|x0 x]; [congruence|]. apply bind_ok in E3 as (i & s4 & E5 & E3). apply ret_ok in E3 as [-> ->]. cbn [flat_map]. rewrite app_nil_r.
        pose proof (fits_attrs_node ln (x0 :: x) (strip_guard a') mode (helper i)) as F. now rewrite (Gu _ Sc) in F.
    + eapply IH; [| | |exact E4]; [|tauto|tauto]. rewrite get_removed by discriminate. now apply Ga.
  - (* py:content *) intros child ln tag a cs x Ex Nx self a' g s ns s' Gc Ed Ec E. unfold rest_nodes in E. cbv zeta in E. rewrite Gc, Ex in E. destruct x as [|x0 x]; [congruence|].
    apply ret_ok in E as [-> ->]. cbn [flat_map]. rewrite app_nil_r.
    apply (fits_after ln _ _ (iter (NText ln (L ">") g))); [|repeat constructor].
    apply fits_then; [|repeat constructor]. apply (fits_weaken 0); [lia|]. apply fits_expr.
  - (* scripts *) intros child ln tag a cs m Ex Sc Ss St self a' g s ns s' Gc Ed Ec E. unfold rest_nodes in E. cbv zeta in E. rewrite Gc, Ex in E.
    assert (Q : forall t, Forall (fun x : site => fst x <= ln /\ snd x = None) (sites_of (items [NText ln t g]))) by (intros; repeat constructor).
    destruct cs as [|c cs].
    + assert (m = []) as -> by (inversion St; reflexivity).
      assert (exists t, ns = [NText ln t g]) as (t & ->).
      { destruct (smem tag html_required_end_tags); [apply ret_ok in E as [-> ->]; eauto|]. destruct (html mode); [|apply ret_ok in E as [-> ->]; eauto].
        destruct (smem tag html_optional_end_tags); apply ret_ok in E as [-> ->]; eauto. }
      now apply fits_quiet.
    + apply cat_ok in E as (x1 & s1 & y1 & E1 & E & ->). apply ret_ok in E1 as [-> ->]. apply cat_ok in E as (x2 & s2 & y2 & E2 & E & ->). apply ret_ok in E as [-> ->].
      assert (Et : cdata_scripts && smem tag html_cdata_tags = true) by (apply andb_true_iff; split; [exact Sc|now apply (cdata_tag compile mode)]). rewrite Et in E2.
      apply cat_ok in E2 as (x3 & s3 & y3 & E3 & E2 & ->). apply ret_ok in E3 as [-> ->]. apply cat_ok in E2 as (x4 & s4 & y4 & E4 & E2 & ->). apply ret_ok in E2 as [-> ->].
      rewrite !items_app. apply fits_after; [|apply Q]. apply fits_then; [|destruct (html mode && smem tag html_optional_end_tags); [constructor|apply Q]].
      apply fits_after; [|destruct (seqb mode (L "xml")); repeat constructor]. apply fits_then; [|destruct (seqb mode (L "xml")); repeat constructor].
      apply (fits_weaken 0); [lia|]. eapply script_fit; eassumption.
  - (* nodes *) intros child ln tag a cs m Ex Ns SA IH self a' g s ns s' Gc Ed Ec E. unfold rest_nodes in E. cbv zeta in E. rewrite Gc, Ex in E.
    assert (Q : forall t, Forall (fun x : site => fst x <= ln /\ snd x = None) (sites_of (items [NText ln t g]))) by (intros; repeat constructor).
    destruct cs as [|c cs].
    + assert (m = []) as -> by (inversion SA; reflexivity).
      assert (exists t, ns = [NText ln t g]) as (t & ->).
      { destruct (smem tag html_required_end_tags); [apply ret_ok in E as [-> ->]; eauto|]. destruct (html mode); [|apply ret_ok in E as [-> ->]; eauto].
        destruct (smem tag html_optional_end_tags); apply ret_ok in E as [-> ->]; eauto. }
      now apply fits_quiet.
    + apply cat_ok in E as (x1 & s1 & y1 & E1 & E & ->). apply ret_ok in E1 as [-> ->]. apply cat_ok in E as (x2 & s2 & y2 & E2 & E & ->). apply ret_ok in E as [-> ->].
      assert (Et : cdata_scripts && smem tag html_cdata_tags = false).
      { apply andb_false_iff. destruct cdata_scripts; [|now left]. right. destruct (smem tag html_cdata_tags) eqn:Sm; [|reflexivity]. exfalso. apply Ns. split; [reflexivity|now apply (cdata_tag compile mode)]. }
      rewrite Et in E2. rewrite !items_app. apply fits_after; [|apply Q]. apply fits_then; [|destruct (html mode && smem tag html_optional_end_tags); [constructor|apply Q]].
      eapply (IH ln); eassumption.
  - (* no node *) intros rendered child ln self prev s ns s' Ed Ec E. cbn [children] in E. apply ret_ok in E as [-> ->]. apply fits_nil.
  - (* marker *) intros child ln0 t cs m SA IH ln self prev s ns s' Ed Ec E. rewrite children_mark in E. apply cat_ok in E as (x & s1 & y & E1 & E2 & ->). apply ret_ok in E1 as [-> ->].
    rewrite items_app. apply fits_after; [|repeat constructor]. eapply (IH ln); eassumption.
  - (* node *) intros rendered child c l cs m m' Nm St IH1 D SA IH2 ln self prev s ns s' Ed Ec E. rewrite children_node in E by (destruct rendered; [right; now apply Nm|now left]).
    apply cat_ok in E as (x & s1 & y & E1 & E2 & ->). rewrite items_app. destruct (after_node _ _ _ _ _ _ _ E1 Ed D) as [Ed1 Ec1]. apply fits_app.
    + apply (fits_weaken 0); [lia|]. exact (IH1 self prev s x s1 Ed Ec E1).
    + eapply IH2; [exact Ed1|congruence|exact E2].
Qed.
End Doc.
