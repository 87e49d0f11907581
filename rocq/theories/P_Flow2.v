(** * Proofs: what the value of a variable can change, what is shown and expressions *)

From Coq Require Import Ascii String List Arith NArith ZArith Bool Lia.
From Verif Require Import PyStr PyStrLemmas M_Values S_Values P_Values M_IR M_Template S_Template P_Template M_Run S_Run S_Flow P_Flow.
From Verif Require M_Exec.
Import ListNotations.
Open Scope list_scope.
Open Scope nat_scope.

(** ** Texts *)
Lemma same_refl : forall s, same_markup s s.
Proof. intros s. rewrite <- (app_nil_r s). apply sm_same. constructor. Qed.
Lemma same_app : forall a a' b b', same_markup a a' -> same_markup b b' -> same_markup (a ++ b) (a' ++ b').
Proof.
  intros a a' b b' H Hb. induction H as [|t s s' H IH|t t' s s' I1 I2 H IH]; [exact Hb| |]; rewrite <- !app_assoc; [now apply sm_same|now apply sm_text].
Qed.
Lemma same_text : forall t t', inert t -> inert t' -> same_markup t t'.
Proof. intros t t' I1 I2. rewrite <- (app_nil_r t), <- (app_nil_r t'). apply sm_text; [exact I1|exact I2|constructor]. Qed.
Lemma delimiters_app : forall a b, delimiters (a ++ b) = delimiters a ++ delimiters b.
Proof. intros a b. unfold delimiters. apply filter_app. Qed.
Lemma delimiters_inert : forall t, inert t -> delimiters t = [].
Proof.
  intros t (H1 & H2 & H3 & _). unfold delimiters. induction t as [|c t IH]; [reflexivity|]. cbn [filter]. cbn [In] in H1, H2, H3.
  destruct (N.eqb_spec c c_lt) as [->|]; [now destruct H1; left|]. destruct (N.eqb_spec c c_gt) as [->|]; [now destruct H2; left|]. destruct (N.eqb_spec c c_dq) as [->|]; [now destruct H3; left|].
  cbn [orb]. apply IH; intros X; [apply H1|apply H2|apply H3]; now right.
Qed.
Lemma same_delimiters : forall s s', same_markup s s' -> delimiters s = delimiters s'.
Proof.
  intros s s' H. induction H as [|t s s' H IH|t t' s s' I1 I2 H IH]; [reflexivity| |]; rewrite !delimiters_app; [now rewrite IH|]. now rewrite (delimiters_inert t I1), (delimiters_inert t' I2), IH.
Qed.

(** ** What is shown; [raw]: in the value of an attribute *)
Inductive shown : bool -> M_Values.value -> M_Values.value -> Prop :=
| sh_same : forall raw v, shown raw v v
| sh_text : forall raw s s', same_markup s s' -> shown raw (VStr s) (VStr s')
| sh_flat : forall raw l l', Forall2 (shown false) l l' -> shown raw (VFlat l) (VFlat l')
| sh_raw : forall v v', swap v v' -> shown true v v'.
Lemma shown_le : forall raw v v', shown false v v' -> shown raw v v'.
Proof. intros raw v v' H. inversion H; subst; now constructor. Qed.
Definition leaf (v v' : M_Values.value) : Prop := v = v' \/ exists s s', v = VStr s /\ v' = VStr s' /\ same_markup s s'.
Lemma leaf_refl : forall v, leaf v v.
Proof. now left. Qed.

Definition flats := fix go (l : list M_Values.value) : list M_Values.value := match l with [] => [] | y :: l' => flat_item y ++ go l' end.
Definition sizes := fix go (l : list M_Values.value) : nat := match l with [] => 0 | y :: l' => vsize y + go l' end.
Definition some_value (v : M_Values.value) : bool := match v with VNone => false | _ => true end.
Lemma leaf_some : forall v v', leaf v v' -> some_value v = some_value v'.
Proof. intros v v' [->|(s & s' & -> & -> & _)]; reflexivity. Qed.
Lemma leaves_filter : forall l l', Forall2 leaf l l' -> Forall2 leaf (filter some_value l) (filter some_value l').
Proof.
  intros l l' H. induction H as [|v v' l l' H1 H2 IH]; cbn [filter]; [constructor|]. rewrite (leaf_some v v' H1). destruct (some_value v'); [now constructor|exact IH].
Qed.
Lemma shown_flat : forall v v', shown false v v' -> Forall2 leaf (flat_item v) (flat_item v') /\ vsize v = vsize v'.
Proof.
  fix IH 1. intros v v' H. destruct v as [ |b|z|s|l|h s|s].
  5: { inversion H as [raw v0| |raw l0 l' HF|]; subst; [split; [|reflexivity]; apply forall2_refl; apply Forall_forall; intros; apply leaf_refl|].
       change (Forall2 leaf (filter some_value (flats l)) (filter some_value (flats l')) /\ S (S (sizes l)) = S (S (sizes l'))).
       assert (Q : Forall2 leaf (flats l) (flats l') /\ sizes l = sizes l').
       { clear H. revert l' HF. induction l as [|x l IHl]; intros l' HF; inversion HF as [|? y ? m H1 H2]; subst; cbn [flats sizes]; [split; constructor|].
         destruct (IH x y H1) as [Q1 Q2]. destruct (IHl m H2) as [Q3 Q4]. split; [now apply Forall2_app|congruence]. }
       destruct Q as [Q1 Q2]. split; [now apply leaves_filter|congruence]. }
  all: inversion H; subst; cbn [flat_item vsize]; split; try reflexivity; try (apply forall2_refl; apply Forall_forall; intros; apply leaf_refl).
  constructor; [|constructor]. right. eauto.
Qed.
Lemma render_same : forall l l', Forall2 (shown false) l l' -> same_markup (render l) (render l').
Proof.
  intros l l' H. unfold render, tpl_iter, flat_iter.
  assert (Q : Forall2 leaf (flat_map flat_item l) (flat_map flat_item l')).
  { induction H as [|x y l l' H1 H2 IH]; cbn [flat_map]; [constructor|]. apply Forall2_app; [now apply shown_flat|exact IH]. }
  clear H. induction Q as [|x y m m' H1 H2 IH]; cbn [map concat]; [constructor|]. apply same_app; [|exact IH]. destruct H1 as [->|(s & s' & -> & -> & E)]; [apply same_refl|exact E].
Qed.
Lemma accumulate_both : forall fuel s s' st st', Forall2 (Forall2 (shown false)) st st' ->
  both (fun _ _ => True) (accumulate fuel s st) (accumulate fuel s' st').
Proof.
  induction fuel as [|f IH]; intros s s' st st' H; cbn [accumulate]; [reflexivity|]. inversion H as [|it it' st1 st1' Hi Hs]; subst; [exact Logic.I|]. inversion Hi as [|x x' it1 it1' Hx Hr]; subst; [now apply IH|].
  inversion Hx; subst.
  - destruct x'; try reflexivity; apply IH.
    + constructor; assumption.
    + constructor; assumption.
    + constructor; [|constructor; assumption]. apply forall2_refl. apply Forall_forall. intros. constructor.
  - apply IH. constructor; assumption.
  - apply IH. constructor; [assumption|]. constructor; assumption.
Qed.
Lemma accumulate_str_both : forall l l', Forall2 (shown false) l l' -> both (fun _ _ => True) (accumulate_str l) (accumulate_str l').
Proof.
  intros l l' H. unfold accumulate_str. replace (vsizes l') with (vsizes l); [apply accumulate_both; constructor; [exact H|constructor]|].
  unfold vsizes. induction H as [|x y l l' H1 H2 IH]; cbn [fold_right]; [reflexivity|]. destruct (shown_flat x y H1) as [_ ->]. congruence.
Qed.
Lemma collect_parts_both : forall l l', Forall2 (shown true) l l' -> both (fun ps ps' => length ps = length ps') (collect_parts l) (collect_parts l').
Proof.
  intros l l' H. induction H as [|x y l l' H1 H2 IH]; [reflexivity|].
  assert (One : forall t t' : str, both (fun ps ps' => length ps = length ps') (rmap (cons t) (collect_parts l)) (rmap (cons t') (collect_parts l'))) by (intros t t'; eapply both_map; [exact IH|]; intros ps ps' E; cbn [length]; congruence).
  assert (Eq : forall v, both (fun ps ps' => length ps = length ps') (collect_parts (v :: l)) (collect_parts (v :: l'))).
  { intros [ |b|z|s|m|h s|s]; cbn [collect_parts]; try apply One; [exact IH|]. destruct (accumulate_str m); cbn [rbind]; [apply One|reflexivity]. }
  inversion H1 as [|raw s s' E|raw m m' E|v v' E]; subst; [apply Eq|cbn [collect_parts]; apply One| |].
  - cbn [collect_parts]. eapply both_bind; [apply accumulate_str_both; exact E|]. intros t t' _. apply One.
  - destruct E as [->|(P1 & P2 & _)]; [apply Eq|]. destruct x; try contradiction; destruct y; try contradiction; cbn [collect_parts]; apply One.
Qed.
Lemma collect_both : forall l l', Forall2 (shown true) l l' -> both swap (collect l) (collect l').
Proof.
  intros l l' H. unfold collect. eapply both_map; [apply collect_parts_both; exact H|]. intros [|t ps] [|t' ps'] E; try discriminate E; [apply swap_refl|]. right. repeat split.
Qed.

(** ** Attributes *)
Definition attr_rel (kv kv' : str * M_Values.value) : Prop := fst kv = fst kv' /\ swap (snd kv) (snd kv').
Lemma escape_both : forall v v', swap v v' -> shown false (escape v) (escape v').
Proof. intros v v' [->|(P1 & P2 & _)]; [constructor|]. rewrite (escape_plain v P1), (escape_plain v' P2). constructor. apply same_text; apply escape_inert. Qed.
Lemma attr1_both : forall m kv kv', attr_rel kv kv' -> Forall2 same_markup (render_attr1 m kv) (render_attr1 m kv').
Proof.
  intros m [k v] [k' v'] [Ek E]. cbn [fst snd] in *. subst k'. unfold render_attr1.
  assert (Q : swap (if smem k html_empty_attrs then match as_bool v with Some true => VStr k | Some false => VNone | None => v end else v)
                   (if smem k html_empty_attrs then match as_bool v' with Some true => VStr k | Some false => VNone | None => v' end else v')).
  { destruct (smem k html_empty_attrs); [|exact E]. replace (as_bool v') with (as_bool v) by (destruct E as [->|(_ & _ & Eb)]; auto). destruct (as_bool v) as [[|]|]; [apply swap_refl|apply swap_refl|exact E]. }
  revert Q. generalize (if smem k html_empty_attrs then match as_bool v with Some true => VStr k | Some false => VNone | None => v end else v).
  generalize (if smem k html_empty_attrs then match as_bool v' with Some true => VStr k | Some false => VNone | None => v' end else v'). intros u' u Q.
  assert (R : forall u, Forall2 same_markup (match u with VNone => [] | _ => if prefixb (L "html") m && smem k html_empty_attrs then [[c_sp] ++ lower k] else [[c_sp] ++ k ++ L "=""" ++ to_str (escape u) ++ [c_dq]] end)
                                    (match u with VNone => [] | _ => if prefixb (L "html") m && smem k html_empty_attrs then [[c_sp] ++ lower k] else [[c_sp] ++ k ++ L "=""" ++ to_str (escape u) ++ [c_dq]] end)).
  { intros x. apply forall2_refl. apply Forall_forall. intros. apply same_refl. }
  destruct Q as [->|(P1 & P2 & _)]; [apply R|].
  assert (One : Forall2 same_markup (if prefixb (L "html") m && smem k html_empty_attrs then [[c_sp] ++ lower k] else [[c_sp] ++ k ++ L "=""" ++ to_str (escape u) ++ [c_dq]])
                          (if prefixb (L "html") m && smem k html_empty_attrs then [[c_sp] ++ lower k] else [[c_sp] ++ k ++ L "=""" ++ to_str (escape u') ++ [c_dq]])).
  { destruct (prefixb (L "html") m && smem k html_empty_attrs); (constructor; [|constructor]); [apply same_refl|]. rewrite (escape_plain u P1), (escape_plain u' P2). cbn [to_str].
    apply same_app; [apply same_refl|]. apply same_app; [apply same_refl|]. apply same_app; [apply same_refl|]. apply same_app; [|apply same_refl]. apply same_text; apply escape_inert. }
  destruct u; try contradiction; destruct u'; try contradiction; exact One.
Qed.
Lemma insert_both : forall kv kv' l l', attr_rel kv kv' -> Forall2 attr_rel l l' -> Forall2 attr_rel (insert_attr kv l) (insert_attr kv' l').
Proof.
  intros kv kv' l l' H Hl. induction Hl as [|x y l l' H1 H2 IH]; cbn [insert_attr]; [constructor; [exact H|constructor]|]. destruct H as [Ek E]. destruct H1 as [Ex E1]. rewrite <- Ek, <- Ex.
  destruct (sleb (fst kv) (fst x)); constructor; try assumption; try now split. constructor; [now split|exact H2].
Qed.
Lemma sort_both : forall l l', Forall2 attr_rel l l' -> Forall2 attr_rel (sort_attrs l) (sort_attrs l').
Proof. intros l l' H. induction H as [|x y l l' H1 H2 IH]; cbn [sort_attrs]; [constructor|]. now apply insert_both. Qed.
Lemma dup_both : forall l l', Forall2 attr_rel l l' -> dup_keys l = dup_keys l' /\ map fst l = map fst l'.
Proof. intros l l' H. induction H as [|[k v] [k' v'] l l' [Ek _] H2 [IH1 IH2]]; cbn [dup_keys map fst] in *; [now split|]. subst k'. rewrite IH1, IH2. now split. Qed.
Lemma render_attrs_both : forall l l' m, Forall2 attr_rel l l' -> both (Forall2 same_markup) (render_attrs l m) (render_attrs l' m).
Proof.
  intros l l' m H. unfold render_attrs. destruct (dup_both l l' H) as [-> _]. destruct (dup_keys l'); [reflexivity|]. cbn [both]. pose proof (sort_both l l' H) as Q. clear H. induction Q as [|x y a b H1 H2 IH]; cbn [flat_map]; [constructor|].
  apply Forall2_app; [now apply attr1_both|exact IH].
Qed.
Lemma chunks_shown : forall raw l l', Forall2 same_markup l l' -> Forall2 (shown raw) (map VStr l) (map VStr l').
Proof. intros raw l l' H. induction H; cbn [map]; constructor; [now constructor|assumption]. Qed.
