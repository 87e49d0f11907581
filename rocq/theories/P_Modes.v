(** * Proofs: the rendering mode changes the syntax only *)

From Coq Require Import Ascii String List Arith NArith ZArith Bool Lia Permutation Sorted.
From Verif Require Import PyStr PyStrLemmas M_Values S_Values P_Values M_IR S_IR P_IR M_Exec S_Exec P_Exec P_Exec2 P_Exec3 P_Exec4 P_Exec5
  M_Text M_XText S_Text S_XText P_XText P_XText2 M_Entities S_Entities P_Entities M_Dom M_XCompile S_XDoc P_XDoc P_XDoc2 P_XStrip S_Markup P_Markup S_Nested P_Nested P_Raw P_Nested2 S_Modes.
Import ListNotations.
Open Scope list_scope.

(** ** Items *)
Definition same_items : list item -> list item -> Prop := Forall2 same_item.
Lemma same_items_refl : forall l, same_items l l.
Proof. induction l; constructor; [apply si_same|assumption]. Qed.
Lemma same_items_app : forall a b c d, same_items a b -> same_items c d -> same_items (a ++ c) (b ++ d).
Proof. intros. now apply Forall2_app. Qed.

(** ** Attributes *)
Lemma boolean_spec : forall k, smem k html_empty_attrs = true <-> boolean_attr k.
Proof. intros k. apply smem_In. Qed.
Definition value_of (k : str) (v : M_Values.value) : M_Values.value :=
  if smem k html_empty_attrs then match as_bool v with Some true => VStr k | Some false => VNone | None => v end else v.
Lemma attr1_one : forall m k v, legal_name k -> v = VNone \/ S_Values.plain v -> value_of k v = VNone /\ concat (render_attr1 m (k, v)) = [] \/
  value_of k v <> VNone /\ exists o, written_attrs [(k, o)] (concat (render_attr1 m (k, v))) /\ (boolean_attr k \/ o = Some (map in_attr (to_str (value_of k v)))).
Proof.
  intros m k v Lk Hv. unfold render_attr1. cbv zeta. fold (value_of k v). set (v' := value_of k v).
    assert (H' : v' = VNone \/ S_Values.plain v').
    { subst v'. unfold value_of. destruct (smem k html_empty_attrs); [|exact Hv]. destruct (as_bool v) as [[|]|]; [right; exact Logic.I|now left|exact Hv]. }
    clearbody v'. destruct H' as [->|P]; [left; now split|]. right. split; [intros ->; destruct P|].
    assert (Ev : escape v' = VStr (escape_str (to_str v'))) by (destruct v'; try destruct P; reflexivity).
    assert (W : exists o, written_attrs [(k, o)] (concat (if prefixb (L "html") m && smem k html_empty_attrs then [[c_sp] ++ lower k] else [[c_sp] ++ k ++ L "=""" ++ to_str (escape v') ++ [c_dq]])) /\
      (boolean_attr k \/ o = Some (map in_attr (to_str v')))).
    { destruct (prefixb (L "html") m && smem k html_empty_attrs) eqn:B.
      - apply andb_true_iff in B. destruct B as [_ B]. apply boolean_spec in B. exists None. split; [|now left]. cbn [concat]. rewrite app_nil_r.
        assert (lower k = k) as -> by (unfold boolean_attr in B; repeat destruct B as [<-|B]; try destruct B; reflexivity).
        assert (E0 : [c_sp] ++ k = L " " ++ k ++ []) by now rewrite app_nil_r. rewrite E0. apply wa_bare; [exact Lk|constructor].
      - exists (Some (map in_attr (to_str v'))). split; [|now right]. cbn [concat]. rewrite app_nil_r, Ev. cbn [to_str]. change [c_dq] with (L """" ++ []). apply wa_value; [exact Lk| |apply escape_no_quote|constructor].
        apply in_attr_text, written_escape. }
    destruct v'; try destruct P; exact W.
Qed.
Lemma attr1_two : forall m1 m2 k v, legal_name k -> v = VNone \/ S_Values.plain v ->
  exists a b, written_attrs a (concat (render_attr1 m1 (k, v))) /\ written_attrs b (concat (render_attr1 m2 (k, v))) /\ Forall2 same_attr a b.
Proof.
  intros m1 m2 k v Lk Hv.
  pose proof (fun m => attr1_one m k v Lk Hv) as One.
  destruct (One m1) as [[E1 ->]|(N1 & o1 & W1 & D1)]; destruct (One m2) as [[E2 ->]|(N2 & o2 & W2 & D2)]; try congruence.
  - exists [], []. split; [constructor|split; constructor].
  - exists [(k, o1)], [(k, o2)]. split; [exact W1|]. split; [exact W2|]. constructor; [|constructor].
    destruct D1 as [B| ->]; [now apply sa_boolean|]. destruct D2 as [B| ->]; [now apply sa_boolean|apply sa_same].
Qed.
Lemma attrs_two : forall m1 m2 l, Forall (fun kv => legal_name (fst kv) /\ (snd kv = VNone \/ S_Values.plain (snd kv))) l ->
  exists a b, written_attrs a (concat (flat_map (render_attr1 m1) l)) /\ written_attrs b (concat (flat_map (render_attr1 m2) l)) /\ Forall2 same_attr a b.
Proof.
  intros m1 m2 l F. induction F as [|[k v] l [Lk Hv] F (a & b & Wa & Wb & S)]; [exists [], []; split; [constructor|split; constructor]|].
  destruct (attr1_two m1 m2 k v Lk Hv) as (a1 & b1 & Wa1 & Wb1 & S1). exists (a1 ++ a), (b1 ++ b). cbn [flat_map]. rewrite !concat_app.
  split; [now apply written_attrs_app|]. split; [now apply written_attrs_app|]. now apply Forall2_app.
Qed.

(** ** Assembling *)
Definition no_else (l : list S_Exec.piece) : Prop := match l with PcElse _ :: _ => False | _ => True end.
Lemma assemble_step : forall s l, loose s \/ no_else l -> assemble (PcStm s :: l) = option_map (cons s) (assemble l).
Proof. intros s l H. destruct s; try reflexivity; destruct H as [[]|H]; destruct l as [|[]]; try reflexivity; destruct H. Qed.
Lemma assemble_join : forall n c B l s1 s2, length c <= n -> Forall loose B -> B <> [] -> assemble c = Some s1 -> assemble l = Some s2 ->
  assemble (c ++ map PcStm B ++ l) = Some (s1 ++ B ++ s2).
Proof.
  induction n as [|n IH]; intros c B l s1 s2 Hn FB NB Ec El.
  { destruct c; [|cbn in Hn; lia]. injection Ec as <-. cbn [app]. rewrite assemble_loose by assumption. now rewrite El. }
  destruct c as [|p c]; [apply (IH [] B l s1 s2); [cbn; lia|assumption..]|]. cbn [length] in Hn. destruct p as [s|b|cc b]; [|discriminate|discriminate]. cbn [app].
  assert (Q : no_else c \/ loose s -> assemble (PcStm s :: c ++ map PcStm B ++ l) = Some (s1 ++ B ++ s2)).
  { intros H. rewrite assemble_step in Ec by (destruct H; [now right|now left]). destruct (assemble c) as [s0|] eqn:E0; [|discriminate]. cbn [option_map] in Ec. assert (s1 = s :: s0) as -> by congruence.
    rewrite assemble_step; [now rewrite (IH c B l s0 s2 ltac:(lia) FB NB E0 El)|]. destruct H as [H|H]; [right|now left]. destruct c as [|[]]; [|exact Logic.I|destruct H|exact Logic.I]. destruct B; [congruence|exact Logic.I]. }
  assert (D : no_else c \/ exists b' c', c = PcElse b' :: c') by (destruct c as [|[]]; [now left|now left|right; eauto|now left]).
  destruct D as [D|(b' & c' & ->)]; [apply Q; now left|]. destruct s; try (apply Q; right; exact Logic.I).
  - cbn [app assemble] in *. destruct (assemble c') as [s0|] eqn:E0; [|discriminate]. cbn [option_map] in Ec. rewrite (IH c' B l s0 s2 ltac:(cbn [length] in Hn; lia) FB NB E0 El). cbn [option_map]. assert (s1 = SIf c b b' :: s0) as -> by congruence. reflexivity.
  - cbn [app assemble] in *. destruct (assemble c') as [s0|] eqn:E0; [|discriminate]. cbn [option_map] in Ec. rewrite (IH c' B l s0 s2 ltac:(cbn [length] in Hn; lia) FB NB E0 El). cbn [option_map]. assert (s1 = SFor d b b' :: s0) as -> by congruence. reflexivity.
Qed.

(** ** Statements *)
Section Modes.
Variable py : python.
Variables m1 m2 : str.
Variables gen user : str -> Prop.
Hypothesis G : evenly py.
Notation ustm := (S_XDoc.user_stm gen user).
Notation h1 := (prefixb (L "html") m1).
Notation h2 := (prefixb (L "html") m2).

Definition pair (s t : str) : Prop := exists i j, written h1 i s /\ written h2 j t /\ same_items i j.
Lemma pair_nil : pair [] [].
Proof. exists [], []. split; [constructor|split; constructor]. Qed.
Lemma pair_app : forall a b c d, pair a b -> pair c d -> pair (a ++ c) (b ++ d).
Proof.
  intros a b c d (i & j & Wi & Wj & S) (i' & j' & Wi' & Wj' & S'). exists (i ++ i'), (j ++ j'). split; [now apply written_app|]. split; [now apply written_app|]. now apply same_items_app.
Qed.
Lemma pair_text : forall v t, written_text v t -> pair t t.
Proof. intros v t W. exists (map I_char v), (map I_char v). split; [now apply written_of_text|]. split; [now apply written_of_text|apply same_items_refl]. Qed.
Lemma pair_even : forall v, even v -> pair (render [escape v]) (render [escape v]).
Proof. intros v (is & Wf & Wt). exists is, is. split; [destruct h1; assumption|]. split; [destruct h2; assumption|apply same_items_refl]. Qed.

(** Both fail in the same way, or give the same variables and texts related by [P]. *)
Definition both (P : str -> str -> Prop) (r r' : result (list M_Values.value * env)) : Prop :=
  match r, r' with
  | Ok (o, e), Ok (o', e') => e = e' /\ even_env e /\ P (render o) (render o')
  | Raise x, Raise y => x = y
  | _, _ => False
  end.
Lemma both_then : forall (P Q R : str -> str -> Prop) r r' f f', both P r r' -> (forall e, even_env e -> both Q (f e) (f' e)) ->
  (forall a b c d, P a b -> Q c d -> R (a ++ c) (b ++ d)) -> both R (then_ r f) (then_ r' f').
Proof.
  intros P Q R r r' f f' H F J. unfold both, then_ in *. destruct r as [[o e]|x]; destruct r' as [[o' e']|y]; try destruct H; [|exact eq_refl].
  destruct H0 as [Se HP]. subst e'. cbn [rbind fst snd]. specialize (F e Se). destruct (f e) as [[o2 e2]|]; destruct (f' e) as [[o2' e2']|]; try destruct F; cbn [rmap fst snd]; [|reflexivity].
  destruct H0 as [S2 HQ]. subst e2'. split; [reflexivity|]. split; [exact S2|]. rewrite !render_app. now apply J.
Qed.
Definition goods2 (a b : list stm) : Prop :=
  (a = [] <-> b = []) /\ (Forall ustm a -> Forall ustm b) /\ forall e, even_env e -> both pair (means py a e) (means py b e).
Lemma goods2_nil : goods2 [] [].
Proof. split; [tauto|]. split; [auto|]. intros e Se. cbn. split; [reflexivity|]. split; [exact Se|exact pair_nil]. Qed.
Lemma goods2_app : forall a b c d, goods2 a b -> goods2 c d -> goods2 (a ++ c) (b ++ d).
Proof.
  intros a b c d (E1 & U1 & H1) (E2 & U2 & H2). split; [|split].
  - split; intros E; apply app_eq_nil in E; destruct E as [A B]; [apply E1 in A; apply E2 in B|apply E1 in A; apply E2 in B]; now rewrite A, B.
  - rewrite !Forall_app. intros [A B]. split; [now apply U1|now apply U2].
  - intros e Se. rewrite !means_app. apply (both_then pair pair pair); [now apply H1|exact H2|exact pair_app].
Qed.
Lemma goods2_one : forall s s', (ustm s -> ustm s') -> (forall e, even_env e -> both pair (meaning py s e) (meaning py s' e)) -> goods2 [s] [s'].
Proof.
  intros s s' U H. split; [split; discriminate|]. split.
  - intros F. apply Forall_cons_iff in F. constructor; [now apply U|constructor].
  - intros e Se. rewrite !means_single. now apply H.
Qed.
Lemma under_two : forall (P : str -> str -> Prop) g e r r', even_env e -> P [] [] -> both P r r' -> both P (under py g e r) (under py g e r').
Proof.
  intros P g e r r' Se P0 H. unfold under. destruct (truthy_guard g) as [c|]; [|exact H]. destruct (ev_bool py e c) as [b|]; cbn [rbind]; [|reflexivity]. destruct b; [exact H|]. split; [reflexivity|]. split; [exact Se|exact P0].
Qed.
Lemma two_text : forall t g, pair t t -> goods2 [SText t g] [SText t g].
Proof. intros t g W. apply goods2_one; [auto|]. intros e Se. cbn [meaning]. apply under_two; [exact Se|exact pair_nil|]. split; [reflexivity|]. split; [exact Se|]. now rewrite render_str. Qed.
Lemma two_trans : forall t g v, written_text v t -> goods2 [STrans t g] [STrans t g].
Proof.
  intros t g v W. apply goods2_one; [auto|]. intros e Se. cbn [meaning]. apply under_two; [exact Se|exact pair_nil|]. split; [reflexivity|]. split; [exact Se|].
  destruct (strip t); [rewrite render_str; now apply (pair_text v)|]. destruct (en_trans py G t v W) as [v' W']. now apply (pair_text v').
Qed.
Lemma two_expr : forall x, goods2 [SExpr x false] [SExpr x false].
Proof.
  intros x. apply goods2_one; [auto|]. intros e Se. cbn [meaning]. destruct (ev py e x) as [v|] eqn:Ev; cbn [rmap]; [|reflexivity]. split; [reflexivity|]. split; [exact Se|]. apply pair_even. exact (en_expr py G e x v Se Ev).
Qed.
Lemma two_if : forall c b b' els els', goods2 b b' -> goods2 els els' -> goods2 [SIf c b els] [SIf c b' els'].
Proof.
  intros c b b' els els' (_ & Ub & Hb) (_ & Ue & He). apply goods2_one.
  - cbn [S_XDoc.user_stm]. rewrite !user_all. intuition.
  - intros e Se. cbn [meaning]. destruct (ev_bool py e c) as [t|]; cbn [rbind]; [|reflexivity]. destruct t; [exact (Hb e Se)|exact (He e Se)].
Qed.
Lemma two_for : forall d b b' els els', goods2 b b' -> goods2 els els' -> goods2 [SFor d b els] [SFor d b' els'].
Proof.
  intros d b b' els els' (_ & Ub & Hb) (_ & Ue & He). apply goods2_one.
  - cbn [S_XDoc.user_stm]. rewrite !user_all. intuition.
  - intros e Se. cbn [meaning]. destruct (ev_for py e d) as [rounds|] eqn:Er; cbn [rbind]; [|reflexivity]. pose proof (en_for py G e d rounds Se Er) as Fr. clear Er.
    change (both pair (then_ (for_each (means py b) rounds e) (means py els)) (then_ (for_each (means py b') rounds e) (means py els'))).
    apply (both_then pair pair pair); [|exact He|exact pair_app]. revert e Se. induction Fr as [|r rounds Sr Fr IH]; intros e Se; cbn [for_each].
    + split; [reflexivity|]. split; [exact Se|exact pair_nil].
    + apply (both_then pair pair pair); [|exact IH|exact pair_app]. apply Hb. apply Forall_app. now split.
Qed.
Lemma even_lookup : forall e k v, even_env e -> lookup k e = Some v -> even v.
Proof. intros e k v Se. induction Se as [|[k' v'] e Hv Se IH]; cbn [lookup]; [discriminate|]. destruct (seqb_spec k k') as [->|]; [|exact IH]. intros E. injection E as <-. exact Hv. Qed.
Lemma even_assigns : forall vars e e', even_env e -> assigns py vars e = Ok e' -> even_env e'.
Proof.
  induction vars as [|[k x] vars IH]; intros e e' Se E; cbn [assigns] in E; [congruence|]. destruct (ev py e x) as [v|] eqn:Ev; [|discriminate]. cbn [rbind] in E. apply (IH (set_var k v e)); [|exact E].
  constructor; [exact (en_expr py G e x v Se Ev)|exact Se].
Qed.
Lemma even_restore : forall names old e, even_env old -> even_env e -> even_env (restore names old e).
Proof.
  intros names old e So. unfold restore. revert e. induction names as [|k names IH]; intros e Se; [exact Se|]. cbn [fold_left]. apply IH. constructor; [|exact Se]. cbn [snd].
  destruct (lookup k old) as [v|] eqn:E; [now apply (even_lookup old k)|]. exists (map I_char (L "()")). change (render [escape unit_value]) with (escape_str (L "()")). split; apply written_of_text, written_escape.
Qed.
Lemma two_with : forall vars b b', goods2 b b' -> goods2 [SWith vars b] [SWith vars b'].
Proof.
  intros vars b b' (_ & Ub & Hb). apply goods2_one.
  - cbn [S_XDoc.user_stm]. rewrite !user_all. intuition.
  - intros e Se. cbn [meaning]. destruct (assigns py vars e) as [e1|] eqn:Ea; cbn [rbind]; [|reflexivity].
    change (both pair (rmap (fun oe => (fst oe, restore (map fst vars) e (snd oe))) (means py b e1)) (rmap (fun oe => (fst oe, restore (map fst vars) e (snd oe))) (means py b' e1))).
    specialize (Hb e1 (even_assigns vars e e1 Se Ea)). unfold both in *. destruct (means py b e1) as [[o e2]|]; destruct (means py b' e1) as [[o' e2']|]; try destruct Hb; cbn [rmap fst snd]; [|reflexivity].
    destruct H0 as [S2 HP]. subst e2'. split; [reflexivity|]. split; [now apply even_restore|exact HP].
Qed.
Definition cases2 : list (str * list stm) -> list (str * list stm) -> Prop := Forall2 (fun cb cb' => fst cb = fst cb' /\ goods2 (snd cb) (snd cb')).
Lemma two_switch : forall d cases cases' els els', cases2 cases cases' -> goods2 els els' -> goods2 [SSwitch d cases els] [SSwitch d cases' els'].
Proof.
  intros d cases cases' els els' Hc (_ & Ue & He). apply goods2_one.
  - cbn [S_XDoc.user_stm]. rewrite !user_all. intros (Ud & Uc & Uels). split; [exact Ud|]. split; [|now apply Ue]. clear He.
    induction Hc as [|[c b] [c' b'] cases cases' [E (_ & Ub & _)] Hc IH]; [exact Logic.I|]. cbn [fst snd] in *. subst c'. rewrite user_all in Uc |- *. destruct Uc as [[U1 U2] U3]. split; [split; [exact U1|now apply Ub]|now apply IH].
  - intros e Se. cbn [meaning]. destruct (ev py e d) as [w|]; cbn [rbind]; [|reflexivity].
    induction Hc as [|[c b] [c' b'] cases cases' [E (_ & _ & Hb)] Hc IH]; [exact (He e Se)|]. cbn [fst snd] in *. subst c'. destruct (ev py e c) as [v|]; cbn [rbind]; [|reflexivity]. destruct (veq py v w); [exact (Hb e Se)|exact IH].
Qed.

(** ** Tags *)
Definition tag2 (g : option str) (s s' : stm) : Prop :=
  (exists k v, s = SAttr k v g m1 /\ s' = SAttr k v g m2 /\ legal_name k) \/ exists x, s = SAttrs x g m1 /\ s' = SAttrs x g m2.
Definition wattrs (s t : str) : Prop := exists a b, written_attrs a s /\ written_attrs b t /\ Forall2 same_attr a b.
Lemma wattrs_nil : wattrs [] [].
Proof. exists [], []. split; [constructor|split; constructor]. Qed.
Lemma wattrs_app : forall a b c d, wattrs a b -> wattrs c d -> wattrs (a ++ c) (b ++ d).
Proof. intros a b c d (i & j & Wi & Wj & S) (i' & j' & Wi' & Wj' & S'). exists (i ++ i'), (j ++ j'). split; [now apply written_attrs_app|]. split; [now apply written_attrs_app|now apply Forall2_app]. Qed.
Lemma render_attrs_two : forall l e, even_env e -> Forall (fun kv => legal_name (fst kv) /\ (snd kv = VNone \/ S_Values.plain (snd kv))) l ->
  both wattrs (rmap (fun chunks => (map VStr chunks, e)) (render_attrs l m1)) (rmap (fun chunks => (map VStr chunks, e)) (render_attrs l m2)).
Proof.
  intros l e Se F. unfold render_attrs. destruct (dup_keys l); cbn [rmap]; [reflexivity|]. split; [reflexivity|]. split; [exact Se|]. rewrite !render_strs. apply attrs_two. now apply sort_forall.
Qed.
Definition tag_meaning (s : stm) (e : env) : result (list M_Values.value * env) :=
  match s with
  | SAttr a v g mode => rbind (match v with [] => Ok ([VStr []], e) | _ => means py v e end) (fun oe => rbind (collect (fst oe)) (fun x => rmap (fun chunks => (map VStr chunks, e)) (render_attrs [(a, x)] mode)))
  | SAttrs x g mode => rbind (ev_attrs py e x) (fun attrs => rmap (fun chunks => (map VStr chunks, e)) (render_attrs attrs mode))
  | _ => Ok ([], e)
  end.
Lemma tag_under : forall g s s' e, tag2 g s s' -> meaning py s e = under py g e (tag_meaning s e) /\ meaning py s' e = under py g e (tag_meaning s' e).
Proof. intros g s s' e [(k & v & -> & -> & _)|(x & -> & ->)]; split; reflexivity. Qed.
Lemma tag_two : forall g s s' e, even_env e -> tag2 g s s' -> both wattrs (tag_meaning s e) (tag_meaning s' e).
Proof.
  intros g s s' e Se [(k & v & -> & -> & Lk)|(x & -> & ->)]; cbn [tag_meaning].
  - destruct (match v with [] => Ok ([VStr []], e) | _ => means py v e end) as [[o e1]|]; cbn [rbind fst]; [|reflexivity]. destruct (collect o) as [y|] eqn:Ec; cbn [rbind]; [|reflexivity].
    apply render_attrs_two; [exact Se|]. constructor; [|constructor]. split; [exact Lk|]. now apply (collect_value o).
  - destruct (ev_attrs py e x) as [attrs|] eqn:Ea; cbn [rbind]; [|reflexivity]. apply render_attrs_two; [exact Se|]. exact (en_attrs py G e x attrs Se Ea).
Qed.
(** A steady condition shows or hides everything. *)
Lemma steady_cases : forall g, steady py g -> (forall e r, under py g e r = r) \/ (forall e r, under py g e r = Ok ([], e)).
Proof.
  intros g St. unfold steady in St. unfold under. destruct (truthy_guard g) as [c|]; [|left; reflexivity]. destruct St as [b Hb]. destruct b; [left|right]; intros e r; rewrite Hb; reflexivity.
Qed.
Definition is_text (t t' s s' : str) : Prop := s = t /\ s' = t'.
Lemma attrs_shown : forall g A A', (forall e r, under py g e r = r) -> Forall2 (tag2 g) A A' -> forall e, even_env e -> both wattrs (means py A e) (means py A' e).
Proof.
  intros g A A' Sh F. induction F as [|s s' A A' Hs F IH]; intros e Se; cbn [means]; [split; [reflexivity|]; split; [exact Se|exact wattrs_nil]|].
  apply (both_then wattrs wattrs wattrs); [|exact IH|exact wattrs_app]. destruct (tag_under g s s' e Hs) as [-> ->]. rewrite !Sh. now apply (tag_two g).
Qed.
Lemma attrs_hidden2 : forall g A A', (forall e r, under py g e r = Ok ([], e)) -> Forall2 (tag2 g) A A' -> forall e, means py A e = Ok ([], e) /\ means py A' e = Ok ([], e).
Proof.
  intros g A A' Hd F. induction F as [|s s' A A' Hs F IH]; intros e; cbn [means]; [now split|]. destruct (tag_under g s s' e Hs) as [-> ->]. rewrite !Hd. unfold then_. cbn [rbind fst snd]. destruct (IH e) as [-> ->]. now split.
Qed.
Lemma users_tags : forall g A A', Forall2 (tag2 g) A A' -> Forall ustm A -> Forall ustm A'.
Proof.
  intros g A A' F. induction F as [|s s' A A' Hs F IH]; [auto|]. intros U. apply Forall_cons_iff in U. destruct U as [Us U]. constructor; [|now apply IH].
  destruct Hs as [(k & v & -> & -> & _)|(x & -> & ->)]; exact Us.
Qed.
(** An element with content; [fin], [fin']: what ends it. *)
Lemma element_two : forall g op A A' c c' fin fin' md md', steady py g -> Forall2 (tag2 g) A A' -> goods2 c c' ->
  (forall s s' b b', wattrs s s' -> pair b b' -> pair (op ++ s ++ md ++ b ++ fin) (op ++ s' ++ md' ++ b' ++ fin')) ->
  goods2 (SText op g :: A ++ SText md g :: c ++ [SText fin g]) (SText op g :: A' ++ SText md' g :: c' ++ [SText fin' g]).
Proof.
  intros g op A A' c c' fin fin' md md' St FA (Ec & Uc & Hc) J. split; [split; discriminate|]. split.
  - intros U. apply Forall_cons_iff in U. destruct U as [U1 U]. apply Forall_app in U. destruct U as [U2 U]. apply Forall_cons_iff in U. destruct U as [U3 U]. apply Forall_app in U. destruct U as [U4 U5].
    constructor; [exact U1|]. apply Forall_app. split; [now apply (users_tags g A)|]. constructor; [exact U1|]. apply Forall_app. split; [now apply Uc|]. constructor; [exact U1|constructor].
  - intros e Se. cbn [means]. destruct (steady_cases g St) as [Sh|Hd].
    + apply (both_then (is_text op op) (fun t t' => exists s s' b b', t = s ++ md ++ b ++ fin /\ t' = s' ++ md' ++ b' ++ fin' /\ wattrs s s' /\ pair b b') pair).
      * cbn [meaning]. rewrite Sh. split; [reflexivity|]. split; [exact Se|]. rewrite render_str. now split.
      * clear e Se. intros e Se. rewrite !means_app. apply (both_then wattrs (fun t t' => exists b b', t = md ++ b ++ fin /\ t' = md' ++ b' ++ fin' /\ pair b b')); [now apply (attrs_shown g)| |].
        -- clear e Se. intros e Se. cbn [means]. apply (both_then (is_text md md') (fun t t' => exists b b', t = b ++ fin /\ t' = b' ++ fin' /\ pair b b')).
           ++ cbn [meaning]. rewrite !Sh. split; [reflexivity|]. split; [exact Se|]. rewrite !render_str. now split.
           ++ clear e Se. intros e Se. rewrite !means_app. apply (both_then pair (is_text fin fin')); [now apply Hc| |].
              ** clear e Se. intros e Se. rewrite !means_single. cbn [meaning]. rewrite !Sh. split; [reflexivity|]. split; [exact Se|]. rewrite !render_str. now split.
              ** intros b b' f f' Hp [-> ->]. now exists b, b'.
           ++ intros s s' t t' [-> ->] (b & b' & -> & -> & Hp). now exists b, b'.
        -- intros s s' t t' Hs (b & b' & -> & -> & Hp). now exists s, s', b, b'.
      * intros s s' t t' [-> ->] (a & a' & b & b' & -> & -> & Ha & Hp). now apply J.
    + assert (Hid : forall t t' f f', (forall e, even_env e -> both pair (f e) (f' e)) -> forall e, even_env e -> both pair (then_ (meaning py (SText t g) e) f) (then_ (meaning py (SText t' g) e) f')).
      { intros t t' f f' Hf e0 Se0. apply (both_then pair pair pair); [|exact Hf|exact pair_app]. cbn [meaning]. rewrite !Hd. split; [reflexivity|]. split; [exact Se0|exact pair_nil]. }
      apply Hid; [|exact Se]. clear e Se. intros e Se. rewrite !means_app. apply (both_then pair pair pair); [|cbn [means]; apply Hid|exact pair_app].
      * destruct (attrs_hidden2 g A A' Hd FA e) as [-> ->]. split; [reflexivity|]. split; [exact Se|exact pair_nil].
      * clear e Se. intros e Se. rewrite !means_app. apply (both_then pair pair pair); [now apply Hc| |exact pair_app]. cbn [means]. apply Hid. intros e0 Se0. split; [reflexivity|]. split; [exact Se0|exact pair_nil].
Qed.
Lemma empty_two : forall g op A A' fin fin', steady py g -> Forall2 (tag2 g) A A' ->
  (forall s s', wattrs s s' -> pair (op ++ s ++ fin) (op ++ s' ++ fin')) ->
  goods2 (SText op g :: A ++ [SText fin g]) (SText op g :: A' ++ [SText fin' g]).
Proof.
  intros g op A A' fin fin' St FA J. split; [split; discriminate|]. split.
  - intros U. apply Forall_cons_iff in U. destruct U as [U1 U]. apply Forall_app in U. destruct U as [U2 U].
    constructor; [exact U1|]. apply Forall_app. split; [now apply (users_tags g A)|]. constructor; [exact U1|constructor].
  - intros e Se. cbn [means]. destruct (steady_cases g St) as [Sh|Hd].
    + apply (both_then (is_text op op) (fun t t' => exists s s', t = s ++ fin /\ t' = s' ++ fin' /\ wattrs s s') pair).
      * cbn [meaning]. rewrite Sh. split; [reflexivity|]. split; [exact Se|]. rewrite render_str. now split.
      * clear e Se. intros e Se. rewrite !means_app. apply (both_then wattrs (is_text fin fin')); [now apply (attrs_shown g)| |].
        -- clear e Se. intros e Se. rewrite !means_single. cbn [meaning]. rewrite !Sh. split; [reflexivity|]. split; [exact Se|]. rewrite !render_str. now split.
        -- intros s s' t t' Hs [-> ->]. now exists s, s'.
      * intros s s' t t' [-> ->] (a & a' & -> & -> & Ha). now apply J.
    + assert (Q : means py (SText op g :: A ++ [SText fin g]) e = Ok ([], e) /\ means py (SText op g :: A' ++ [SText fin' g]) e = Ok ([], e)).
      { destruct (attrs_hidden2 g A A' Hd FA e) as [H1 H2]. cbn [means]. unfold then_. cbn [meaning]. rewrite Hd. cbn [rbind fst snd]. rewrite !means_app, H1, H2. unfold then_. cbn [rbind fst snd]. rewrite !means_single. cbn [meaning]. rewrite !Hd. now split. }
      cbn [means] in Q. destruct Q as [-> ->]. split; [reflexivity|]. split; [exact Se|exact pair_nil].
Qed.

(** ** Pieces *)
Inductive piece2 : S_Exec.piece -> S_Exec.piece -> Prop :=
| p2_if : forall c b b' els els', goods2 b b' -> goods2 els els' -> piece2 (PcStm (SIf c b els)) (PcStm (SIf c b' els'))
| p2_for : forall d b b' els els', goods2 b b' -> goods2 els els' -> piece2 (PcStm (SFor d b els)) (PcStm (SFor d b' els'))
| p2_stm : forall s s', loose s -> loose s' -> goods2 [s] [s'] -> blank_text (PcStm s) = blank_text (PcStm s') -> piece2 (PcStm s) (PcStm s')
| p2_else : forall b b', goods2 b b' -> piece2 (PcElse b) (PcElse b')
| p2_case : forall c b b', goods2 b b' -> piece2 (PcCase c b) (PcCase c b').
Definition blank2 (s s' : stm) : Prop := blank_text (PcStm s) = blank_text (PcStm s').
Inductive g2l : list S_Exec.piece -> list S_Exec.piece -> Prop :=
| g2_nil : g2l [] []
| g2_piece : forall p p' l l', piece2 p p' -> g2l l l' -> g2l (p :: l) (p' :: l')
| g2_elem : forall A A' c c' B B' l l', Forall loose A -> Forall loose A' -> A <> [] -> A' <> [] -> Forall loose B -> Forall loose B' -> B <> [] -> B' <> [] ->
    Forall2 blank2 A A' -> Forall2 blank2 B B' -> g2l c c' ->
    (forall s s', assemble c = Some s -> assemble c' = Some s' -> goods2 s s' -> goods2 (A ++ s ++ B) (A' ++ s' ++ B')) ->
    g2l l l' -> g2l (map PcStm A ++ c ++ map PcStm B ++ l) (map PcStm A' ++ c' ++ map PcStm B' ++ l').
Lemma g2l_app : forall a a' b b', g2l a a' -> g2l b b' -> g2l (a ++ b) (a' ++ b').
Proof.
  intros a a' b b' Ga Gb. induction Ga; [exact Gb| |].
  - cbn [app]. now constructor.
  - rewrite <- !app_assoc. now apply g2_elem.
Qed.
Lemma g2l_head : forall l l', g2l l l' ->
  (exists b b' k k', l = PcElse b :: k /\ l' = PcElse b' :: k' /\ goods2 b b' /\ g2l k k') \/ no_else l /\ no_else l'.
Proof.
  intros l l' H. destruct H as [|p p' l l' Hp Hl|A A' c c' B B' l l' LA LA' NA NA']; [right; now split| |].
  - destruct Hp; try (right; now split). left. now exists b, b', l, l'.
  - right. destruct A; [congruence|]. destruct A'; [congruence|]. now split.
Qed.
Lemma g2l_assemble : forall n l l' s, length l <= n -> g2l l l' -> assemble l = Some s -> exists s', assemble l' = Some s' /\ goods2 s s'.
Proof.
  induction n as [|n IH]; intros l l' s Hn H E.
  { destruct H as [|p p' l l' Hp Hl|A A' c c' B B' l l' LA LA' NA]; [|cbn [length] in Hn; lia|rewrite app_length, map_length in Hn; destruct A; [congruence|cbn [length] in Hn; lia]]. injection E as <-. exists []. split; [reflexivity|exact goods2_nil]. }
  destruct H as [|p p' l l' Hp Hl|A A' c c' B B' l l' LA LA' NA NA' LB LB' NB NB' BA BB Hc J Hl].
  - injection E as <-. exists []. split; [reflexivity|exact goods2_nil].
  - cbn [length] in Hn.
    assert (Q : forall s0 s0', goods2 [s0] [s0'] -> loose s0 /\ loose s0' \/ no_else l /\ no_else l' -> assemble (PcStm s0 :: l) = Some s -> exists s', assemble (PcStm s0' :: l') = Some s' /\ goods2 s s').
    { intros s0 s0' Hs D E0. rewrite assemble_step in E0 by tauto. destruct (assemble l) as [t|] eqn:El; [|discriminate]. destruct (IH l l' t ltac:(lia) Hl El) as (t' & El' & Ht). exists ([s0'] ++ t'). rewrite assemble_step by tauto.
      rewrite El'. split; [reflexivity|]. cbn [option_map] in E0. assert (s = [s0] ++ t) as -> by (cbn [app]; congruence). now apply goods2_app. }
    destruct Hp as [c b b' els els' Hb He|d b b' els els' Hb He|s0 s0' L0 L0' H0 _|b b' Hb|c b b' Hb].
    + destruct (g2l_head l l' Hl) as [(f & f' & k & k' & -> & -> & Hf & Hk)|D]; [|apply (Q (SIf c b els)); [now apply two_if|now right|exact E]].
      cbn [assemble] in E |- *. destruct (assemble k) as [t|] eqn:Ek; [|discriminate]. destruct (IH k k' t ltac:(cbn [length] in Hn; lia) Hk Ek) as (t' & Ek' & Ht). rewrite Ek'. exists ([SIf c b' f'] ++ t'). split; [reflexivity|].
      cbn [option_map] in E. assert (s = [SIf c b f] ++ t) as -> by (cbn [app]; congruence). apply goods2_app; [now apply two_if|exact Ht].
    + destruct (g2l_head l l' Hl) as [(f & f' & k & k' & -> & -> & Hf & Hk)|D]; [|apply (Q (SFor d b els)); [now apply two_for|now right|exact E]].
      cbn [assemble] in E |- *. destruct (assemble k) as [t|] eqn:Ek; [|discriminate]. destruct (IH k k' t ltac:(cbn [length] in Hn; lia) Hk Ek) as (t' & Ek' & Ht). rewrite Ek'. exists ([SFor d b' f'] ++ t'). split; [reflexivity|].
      cbn [option_map] in E. assert (s = [SFor d b f] ++ t) as -> by (cbn [app]; congruence). apply goods2_app; [now apply two_for|exact Ht].
    + apply (Q s0); [exact H0|left; now split|exact E].
    + discriminate.
    + discriminate.
  - rewrite !app_length, !map_length in Hn. assert (0 < length A) by (destruct A; [congruence|cbn; lia]).
    rewrite assemble_loose in E by assumption. destruct (assemble (c ++ map PcStm B ++ l)) as [s0|] eqn:E0; [|discriminate].
    destruct (assemble_app_loose (length c) c B l s0 (le_n _) LB NB E0) as (s1 & s2 & Ec & El & ->). assert (s = (A ++ s1 ++ B) ++ s2) as -> by (cbn [option_map] in E; rewrite <- !app_assoc; congruence).
    destruct (IH c c' s1 ltac:(lia) Hc Ec) as (s1' & Ec' & H1). destruct (IH l l' s2 ltac:(lia) Hl El) as (s2' & El' & H2). exists ((A' ++ s1' ++ B') ++ s2').
    rewrite assemble_loose by assumption. rewrite (assemble_join (length c') c' B' l' s1' s2' (le_n _) LB' NB' Ec' El'). split; [cbn [option_map]; now rewrite <- !app_assoc|]. apply goods2_app; [now apply J|exact H2].
Qed.
Lemma g2l_block : forall l l' b, g2l l l' -> assemble_block l = Some b -> exists b', assemble_block l' = Some b' /\ goods2 b b'.
Proof.
  intros l l' b H A. apply P_Exec3.block_some in A as [A N0]. destruct (g2l_assemble (length l) l l' b (le_n _) H A) as (b' & A' & Hb). exists b'. split; [|exact Hb]. unfold assemble_block. rewrite A'. cbn [obind].
  destruct b'; [|reflexivity]. destruct N0. now apply Hb.
Qed.
Definition part2 (p q : S_Exec.piece) : Prop :=
  blank_text p = blank_text q /\
  match p, q with PcStm _, PcStm _ => True | PcElse b, PcElse b' => goods2 b b' | PcCase c b, PcCase c' b' => c = c' /\ goods2 b b' | _, _ => False end.
Lemma blank_parts : forall A A', Forall2 blank2 A A' -> Forall2 part2 (map PcStm A) (map PcStm A').
Proof. intros A A' F. induction F; constructor; [now split|assumption]. Qed.
Lemma g2l_parts : forall l l', g2l l l' -> Forall2 part2 l l'.
Proof.
  intros l l' H. induction H as [|p p' l l' Hp Hl IH|A A' c c' B B' l l' LA LA' NA NA' LB LB' NB NB' BA BB Hc IHc J Hl IHl]; [constructor| |].
  - constructor; [|exact IH]. destruct Hp; split; try reflexivity; try exact Logic.I; try assumption. now split.
  - apply Forall2_app; [now apply blank_parts|]. apply Forall2_app; [exact IHc|]. apply Forall2_app; [now apply blank_parts|exact IHl].
Qed.
Lemma parts_filter : forall l l', Forall2 part2 l l' -> Forall2 part2 (filter (fun p => negb (blank_text p)) l) (filter (fun p => negb (blank_text p)) l').
Proof. intros l l' F. induction F as [|p q l l' [B H] F IH]; [constructor|]. cbn [filter]. rewrite <- B. destruct (blank_text p) eqn:Bp; cbn [negb]; [exact IH|]. constructor; [|exact IH]. split; [congruence|exact H]. Qed.
Lemma parts_switch2 : forall l l' cases els, Forall2 part2 l l' -> assemble_switch l = Some (cases, els) ->
  exists cases' els', assemble_switch l' = Some (cases', els') /\ cases2 cases cases' /\ goods2 els els'.
Proof.
  intros l l' cases els F. revert cases els. induction F as [|p q l l' [B H] F IH]; intros cases els E.
  - injection E as <- <-. exists [], []. split; [reflexivity|]. split; [constructor|exact goods2_nil].
  - destruct p as [s|b|c b]; destruct q as [s'|b'|c' b']; try destruct H; cbn [assemble_switch] in E |- *.
    + discriminate.
    + destruct F; [|discriminate]. injection E as <- <-. exists [], b'. split; [reflexivity|]. split; [constructor|now split].
    + subst c'. destruct (assemble_switch l) as [[cs es]|] eqn:El; [|discriminate]. cbn [option_map fst snd] in E. injection E as <- <-. destruct (IH cs es eq_refl) as (cs' & es' & -> & Hc & He).
      exists ((c, b') :: cs'), es'. split; [reflexivity|]. split; [|exact He]. constructor; [now split|exact Hc].
Qed.

(** ** Documents *)
Variable compile : str -> compiled.
Variable autoblocks : list str.
Variable scripts : bool.
Lemma texts_two : forall parent ln t ss, text_says compile parent ln t ss -> forall raw, t = xml_text raw -> g2l (map PcStm ss) (map PcStm ss).
Proof.
  intros parent ln t ss T raw E. destruct T as [ps SS R|ps N1 N2 R]; pose proof (reads_texts compile ln t ps R raw E) as F; clear R; induction F as [|p ps Hp F IH]; cbn [map]; try constructor; try exact IH; clear IH F.
  - destruct p as [l x|l x]; cbn [text_stm]; (apply p2_stm; [exact Logic.I|exact Logic.I| |reflexivity]).
    + destruct Hp as [v W]. apply two_text. now apply (pair_text v).
    + apply two_expr.
  - destruct p as [l x|l x]; cbn [text_stm].
    + destruct Hp as [v W]. destruct (forallb is_space x); (apply p2_stm; [exact Logic.I|exact Logic.I| |reflexivity]); [apply two_text; now apply (pair_text v)|now apply (two_trans x None v)].
    + apply p2_stm; [exact Logic.I|exact Logic.I| |reflexivity]. apply two_expr.
Qed.
Lemma shown_two : forall ln g l ss, attrs_say compile m1 ln g l ss -> (forall k v, In (k, v) l -> ~ special_attr k -> legal_name k) ->
  exists ss', attrs_say compile m2 ln g l ss' /\ Forall2 (tag2 g) ss ss'.
Proof.
  intros ln g l ss H Hl. induction H as [|k v l ss ps Sp Hr H IH|k v l ps ss Sp R H IH]; [exists []; split; constructor| |].
  - destruct IH as (ss' & H' & F); [intros k' v' I1; apply (Hl k' v'); now right|]. exists ss'. split; [now apply (as_special compile m2 ln g k v l ss' ps)|exact F].
  - destruct IH as (ss' & H' & F); [intros k' v' I1; apply (Hl k' v'); now right|]. eexists. split; [apply (as_attr compile m2 ln g k v l ps ss' Sp R H')|]. constructor; [|exact F]. left. exists k. eexists. split; [reflexivity|]. split; [reflexivity|]. apply (Hl k v); [now left|exact Sp].
Qed.
Lemma more_two : forall g a ss, more_attrs m1 g a ss -> exists ss', more_attrs m2 g a ss' /\ Forall2 (tag2 g) ss ss'.
Proof.
  intros g a ss [H|x V Nx].
  - exists []. split; [now constructor|constructor].
  - exists [SAttrs x g m2]. split; [now constructor|]. constructor; [|constructor]. right. now exists x.
Qed.
Lemma tags_loose : forall g A A', Forall2 (tag2 g) A A' -> Forall loose A /\ Forall loose A' /\ Forall2 blank2 A A'.
Proof.
  intros g A A' F. induction F as [|s s' A A' Hs F (I1 & I2 & I3)]; [split; [constructor|split; constructor]|].
  destruct Hs as [(k & v & -> & -> & _)|(x & -> & ->)]; (split; [constructor; [exact Logic.I|exact I1]|]; split; [constructor; [exact Logic.I|exact I2]|]; constructor; [reflexivity|exact I3]).
Qed.
(** How an element without content ends, in either mode. *)
Lemma closes_some : forall m tag, ~ script_or_style tag -> exists t, closes m tag t.
Proof.
  intros m tag Ns. destruct (prefixb (L "html") m) eqn:Hm.
  - destruct (smem tag html_optional_end_tags) eqn:V.
    + exists (L ">"). apply cl_void; [exact Hm|now apply void_spec].
    + eexists. apply cl_html; [exact Hm|]. intros X. apply void_spec in X. congruence.
  - exists (L "/>"). apply cl_xml; [unfold is_html; congruence|]. intros ->. apply Ns. now left.
Qed.
Lemma closes_written : forall m tag t a s, closes m tag t -> legal_name tag -> prefixb (L "!") tag = false -> ~ script_or_style tag -> written_attrs a s ->
  written (prefixb (L "html") m) [I_start tag a; I_end tag] (L "<" ++ tag ++ s ++ t).
Proof.
  intros m tag t a s C Lt Nb Ns W. destruct C as [Hh V|Hh Nv| ->|Hh Nt].
  - rewrite <- (app_nil_r (L ">")). apply w_void; [exact Hh|exact V|exact W|constructor].
  - change [I_start tag a; I_end tag] with (I_start tag a :: [] ++ I_end tag :: []). change (L "></" ++ tag ++ L ">") with (L ">" ++ [] ++ L "</" ++ tag ++ L ">" ++ []). apply w_elem; try assumption; try constructor.
    + intros [_ V]. now apply Nv.
    + intros [_ R]. now apply Ns.
  - destruct Ns. now left.
  - rewrite <- (app_nil_r (L "/>")). apply w_empty; try assumption; [|constructor]. unfold is_html in Hh. destruct (prefixb (L "html") m); [congruence|reflexivity].
Qed.
Lemma starts_same : forall tag a b, Forall2 same_attr a b -> same_item (I_start tag a) (I_start tag b).
Proof. intros. now constructor. Qed.
Definition rest2 (tag : str) (g : option str) (rest rest' : list S_Exec.piece) : Prop :=
  legal_name tag -> prefixb (L "!") tag = false -> steady py g -> forall A A', Forall2 (tag2 g) A A' ->
  g2l (PcStm (SText (L "<" ++ tag) g) :: map PcStm A ++ rest) (PcStm (SText (L "<" ++ tag) g) :: map PcStm A' ++ rest').
Lemma rest_closed2 : forall tag g t t', closes m1 tag t -> closes m2 tag t' -> ~ script_or_style tag -> rest2 tag g [PcStm (SText t g)] [PcStm (SText t' g)].
Proof.
  intros tag g t t' C C' Ns Lt Nb St A A' FA. destruct (tags_loose g A A' FA) as (LA & LA' & BA).
  assert (E : forall A t, PcStm (SText (L "<" ++ tag) g) :: map PcStm A ++ [PcStm (SText t g)] = map PcStm (SText (L "<" ++ tag) g :: A) ++ [] ++ map PcStm [SText t g] ++ []) by reflexivity.
  rewrite !E. clear E.
  assert (Bt : blank2 (SText t g) (SText t' g)).
  { assert (B : forall m t, closes m tag t -> forallb is_space t = false) by (intros m t0 [| | |]; reflexivity). unfold blank2. cbn [blank_text]. now rewrite (B m1 t C), (B m2 t' C'). }
  apply g2_elem; try discriminate; try (constructor; [exact Logic.I|assumption]); try (constructor; [exact Logic.I|constructor]).
  - constructor; [reflexivity|exact BA].
  - constructor; [exact Bt|constructor].
  - constructor.
  - intros s s' Es Es' _. cbn [assemble] in Es, Es'. assert (s = [] /\ s' = []) as [-> ->] by (split; congruence). cbn [app]. apply (empty_two g (L "<" ++ tag) A A' t t' St FA).
    intros u u' (a & b & Wa & Wb & S). exists [I_start tag a; I_end tag], [I_start tag b; I_end tag]. rewrite <- !app_assoc. split; [now apply closes_written|]. split; [now apply closes_written|]. constructor; [now apply starts_same|]. apply same_items_refl.
  - constructor.
Qed.
Lemma rest_between2 : forall tag g c c', g2l c c' -> ~ S_Markup.void tag -> ~ script_or_style tag ->
  rest2 tag g (PcStm (SText (L ">") g) :: c ++ [PcStm (SText (L "</" ++ tag ++ L ">") g)]) (PcStm (SText (L ">") g) :: c' ++ [PcStm (SText (L "</" ++ tag ++ L ">") g)]).
Proof.
  intros tag g c c' Hc Nv Ns Lt Nb St A A' FA. destruct (tags_loose g A A' FA) as (LA & LA' & BA).
  assert (E : forall A c, PcStm (SText (L "<" ++ tag) g) :: map PcStm A ++ PcStm (SText (L ">") g) :: c ++ [PcStm (SText (L "</" ++ tag ++ L ">") g)] =
    map PcStm (SText (L "<" ++ tag) g :: A ++ [SText (L ">") g]) ++ c ++ map PcStm [SText (L "</" ++ tag ++ L ">") g] ++ []).
  { intros A0 c0. cbn [map]. rewrite map_app, app_nil_r. cbn [map app]. now rewrite <- app_assoc. }
  rewrite !E. clear E. apply g2_elem; try discriminate; try (constructor; [exact Logic.I|constructor]).
  - constructor; [exact Logic.I|]. apply Forall_app. split; [exact LA|constructor; [exact Logic.I|constructor]].
  - constructor; [exact Logic.I|]. apply Forall_app. split; [exact LA'|constructor; [exact Logic.I|constructor]].
  - constructor; [reflexivity|]. apply Forall2_app; [exact BA|]. constructor; [reflexivity|constructor].
  - constructor; [reflexivity|constructor].
  - exact Hc.
  - intros s s' _ _ Hs. pose proof (element_two g (L "<" ++ tag) A A' s s' (L "</" ++ tag ++ L ">") (L "</" ++ tag ++ L ">") (L ">") (L ">") St FA Hs) as H. cbn [app]. rewrite <- !app_assoc. cbn [app]. apply H.
    intros u u' b b' (a & a' & Wa & Wa' & S) (i & j & Wi & Wj & Si). exists (I_start tag a :: i ++ I_end tag :: []), (I_start tag a' :: j ++ I_end tag :: []).
    rewrite <- (app_nil_r (L "</" ++ tag ++ L ">")), <- !app_assoc. split; [apply w_elem; try assumption; [tauto|tauto|constructor]|]. split; [apply w_elem; try assumption; [tauto|tauto|constructor]|].
    constructor; [now apply starts_same|]. apply same_items_app; [exact Si|apply same_items_refl].
  - constructor.
Qed.
Lemma says_two :
  (forall parent prev n ps, says compile autoblocks scripts m1 parent prev n ps -> modeless py n ->
     exists ps', says compile autoblocks scripts m2 parent prev n ps' /\ g2l ps ps') /\
  (forall ln tag a g cs rest, rest_says compile autoblocks scripts m1 ln tag a g cs rest -> NoDup (map fst a) -> Forall (modeless py) cs -> ~ script_or_style tag -> (S_Markup.void tag -> cs = [] /\ no_content_attr a) ->
     exists rest', rest_says compile autoblocks scripts m2 ln tag a g cs rest' /\ rest2 tag g rest rest') /\
  (forall marks parent prev l ps, all_say compile autoblocks scripts m1 marks parent prev l ps -> Forall (modeless py) l ->
     exists ps', all_say compile autoblocks scripts m2 marks parent prev l ps' /\ g2l ps ps').
Proof.
  assert (Inside : forall ln tag a cs, prefixb (L "py:") tag = true -> modeless py (DElem ln tag a cs) -> Forall (modeless py) cs).
  { intros ln tag a cs Py O. inversion O as [| |? ? ? ? P F|? ? ? ? P]; [exact F|congruence]. }
  assert (One : forall s s', loose s -> loose s' -> goods2 [s] [s'] -> blank2 s s' -> g2l [PcStm s] [PcStm s']) by (intros; apply g2_piece; [now apply p2_stm|constructor]).
  apply says_induction.
  - intros parent prev ln t Np O. inversion O as [|? ? Nt| |]. eexists. split; [now apply sy_comment|]. apply One; [exact Logic.I|exact Logic.I| |reflexivity]. apply two_text.
    exists [I_comment (L " " ++ t ++ L " ")], [I_comment (L " " ++ t ++ L " ")]. split; [now apply comment_written|]. split; [now apply comment_written|apply same_items_refl].
  - intros parent prev ln t Np O. exists []. split; [now apply sy_hidden|constructor].
  - intros parent prev ln t e ss T O. eexists. split; [apply sy_text; exact T|]. remember (DText ln t e) as n eqn:En. destruct O as [ln0 raw e0| | |]; try discriminate En. apply (texts_two parent ln t ss T raw). congruence.
  - intros parent prev ln t ss T O. inversion O.
  - intros parent prev ln a cs test ps b Na Et H IH A O. apply Inside in O; [|reflexivity]. destruct (IH O) as (ps' & H' & Hl). destruct (g2l_block _ _ _ Hl A) as (b' & A' & Hb). eexists. split; [apply (sy_if compile autoblocks scripts m2 parent prev ln a cs test ps' b' Na Et H' A')|].
    apply g2_piece; [|constructor]. apply p2_if; [exact Hb|exact goods2_nil].
  - intros parent prev ln a cs ps b Na Hp H IH A O. apply Inside in O; [|reflexivity]. destruct (IH O) as (ps' & H' & Hl). destruct (g2l_block _ _ _ Hl A) as (b' & A' & Hb). eexists. split; [apply (sy_else compile autoblocks scripts m2 parent prev ln a cs ps' b' Na Hp H' A')|].
    apply g2_piece; [|constructor]. now apply p2_else.
  - intros parent prev ln a cs each ps b Na Et H IH A O. apply Inside in O; [|reflexivity]. destruct (IH O) as (ps' & H' & Hl). destruct (g2l_block _ _ _ Hl A) as (b' & A' & Hb). eexists. split; [apply (sy_for compile autoblocks scripts m2 parent prev ln a cs each ps' b' Na Et H' A')|].
    apply g2_piece; [|constructor]. apply p2_for; [exact Hb|exact goods2_nil].
  - intros parent prev ln a cs vars ps b Na Et H IH A O. apply Inside in O; [|reflexivity]. destruct (IH O) as (ps' & H' & Hl). destruct (g2l_assemble _ _ _ _ (le_n _) Hl A) as (b' & A' & Hb). eexists. split; [apply (sy_with compile autoblocks scripts m2 parent prev ln a cs vars ps' b' Na Et H' A')|].
    apply One; [exact Logic.I|exact Logic.I|now apply two_with|reflexivity].
  - intros parent prev ln a cs test ps cases els Na Et H IH A O. apply Inside in O; [|reflexivity]. destruct (IH O) as (ps' & H' & Hl). destruct (parts_switch2 _ _ _ _ (parts_filter _ _ (g2l_parts _ _ Hl)) A) as (cases' & els' & A' & Hc & He).
    eexists. split; [apply (sy_switch compile autoblocks scripts m2 parent prev ln a cs test ps' cases' els' Na Et H' A')|]. apply One; [exact Logic.I|exact Logic.I|now apply two_switch|reflexivity].
  - intros parent prev ln a cs v ps b Na Et H IH A O. apply Inside in O; [|reflexivity]. destruct (IH O) as (ps' & H' & Hl). destruct (g2l_block _ _ _ Hl A) as (b' & A' & Hb). eexists. split; [apply (sy_case compile autoblocks scripts m2 parent prev ln a cs v ps' b' Na Et H' A')|].
    apply g2_piece; [|constructor]. now apply p2_case.
  - intros parent prev ln a cs x Na Ex O. eexists. split; [apply (sy_replace compile autoblocks scripts m2 parent prev ln a cs x Na Ex)|]. apply One; [exact Logic.I|exact Logic.I|apply two_expr|reflexivity].
  - intros parent prev ln a cs ps Na H IH O. apply Inside in O; [|reflexivity]. destruct (IH O) as (ps' & H' & Hl). exists ps'. split; [now apply sy_nop|exact Hl].
  - intros parent prev ln tag a cs g sorted shown more rest Py Na ND Tc Pm Ss As Ma H IH O. inversion O as [| |? ? ? ? P|? ? ? ? P Lt Nb Ns Lk Vd St F]; [congruence|].
    destruct (shown_two ln g sorted shown As) as (shown' & As' & F1); [intros k v I1; apply (Lk k v); eapply Permutation_in; [symmetry; exact Pm|exact I1]|].
    destruct (more_two g a more Ma) as (more' & Ma' & F2). destruct (IH ND F Ns Vd) as (rest' & H' & Hr).
    eexists. split; [apply (sy_elem compile autoblocks scripts m2 parent prev ln tag a cs g sorted shown' more' rest' Py Na ND Tc Pm Ss As' Ma' H')|].
    rewrite !app_assoc, <- !map_app. apply (Hr Lt Nb (St g Tc)). now apply Forall2_app.
  - intros ln tag a g cs c V Nc ND F Ns Vd. eexists. split; [now apply (rs_content compile autoblocks scripts m2 ln tag a g cs c)|]. apply (rest_between2 tag g [PcStm (SExpr c false)] [PcStm (SExpr c false)]); [|  |exact Ns].
    + apply One; [exact Logic.I|exact Logic.I|apply two_expr|reflexivity].
    + intros Hv. destruct (Vd Hv) as [_ [Ab|V0]].
      * apply Ab. apply in_map_iff. now exists (L "py:content", c).
      * apply Nc. rewrite <- (get_attr_value _ _ _ ND V). now apply get_attr_value.
  - intros ln tag a g t Nc C ND F Ns Vd. destruct (closes_some m2 tag Ns) as [t' C']. eexists. split; [now apply (rs_empty compile autoblocks scripts m2 ln tag a g t')|]. now apply rest_closed2.
  - intros ln tag a g cs ss Nc Ncs Sc SS H ND F Ns Vd. now destruct Ns.
  - intros ln tag a g cs ps Nc Ncs Ns0 Nv H IH ND F Ns Vd. destruct (IH F) as (ps' & H' & Hl). eexists. split; [apply (rs_children compile autoblocks scripts m2 ln tag a g cs ps' Nc Ncs Ns0)|].
    + intros [_ V]. destruct (Vd V) as [E _]. congruence.
    + exact H'.
    + apply rest_between2; [exact Hl| |exact Ns]. intros V. destruct (Vd V) as [E _]. congruence.
  - intros ln tag a g cs ps Nc Ncs Hh V H IH ND F Ns Vd. destruct (Vd V) as [E _]. congruence.
  - intros marks parent prev _. exists []. split; constructor.
  - intros parent prev ln t l ps H IH F. apply Forall_cons_iff in F. destruct F as [O _]. inversion O.
  - intros marks parent prev n l ps qs Hm H IHn H' IHl F. apply Forall_cons_iff in F. destruct F as [O F]. destruct (IHn O) as (ps' & S1 & L1). destruct (IHl F) as (qs' & S2 & L2).
    exists (ps' ++ qs'). split; [now apply al_node|now apply g2l_app].
Qed.
Lemma document_two : forall parent prev n ps ss, says compile autoblocks scripts m1 parent prev n ps -> assemble ps = Some ss -> modeless py n ->
  exists ps' ss', says compile autoblocks scripts m2 parent prev n ps' /\ assemble ps' = Some ss' /\ goods2 ss ss'.
Proof.
  intros parent prev n ps ss H A O. destruct (proj1 says_two _ _ _ _ H O) as (ps' & H' & Hl). destruct (g2l_assemble _ _ _ _ (le_n _) Hl A) as (ss' & A' & Hs). now exists ps', ss'.
Qed.
End Modes.
