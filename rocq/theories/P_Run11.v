(** * Whole templates: what a meaning declares stays declared *)

From Coq Require Import Ascii String List NArith ZArith Bool Lia Arith.
From Verif Require Import PyStr PyStrLemmas M_Values M_IR M_Template M_Run S_Run P_Run1 P_Run3 P_Run4.
From Verif Require M_Exec.
Import ListNotations.
Open Scope list_scope.

Section RstmInd.
Variable P : rstm -> Prop.
Hypothesis H0 : P RPass.
Hypothesis H1 : forall t g, P (RText t g).
Hypothesis H2 : forall t g, P (RTrans t g).
Hypothesis H3 : forall x s, P (RExpr x s).
Hypothesis H4 : forall c b els, Forall P b -> Forall P els -> P (RIf c b els).
Hypothesis H5 : forall d b els, Forall P b -> Forall P els -> P (RFor d b els).
Hypothesis H6 : forall v b, Forall P b -> P (RWith v b).
Hypothesis H7 : forall d cs els, Forall (fun cb => Forall P (snd cb)) cs -> Forall P els -> P (RSwitch d cs els).
Hypothesis H8 : forall a v g m, Forall P v -> P (RAttr a v g m).
Hypothesis H9 : forall x g m, P (RAttrs x g m).
Hypothesis H10 : forall d b, Forall P b -> P (RDef d b).
Hypothesis H11 : forall d c b, Forall P b -> P (RCall d c b).
Hypothesis H12 : forall t a, P (RImport t a).
Hypothesis H13 : forall t, P (RInclude t).
Hypothesis H14 : forall t, P (RExtend t).
Hypothesis H15 : forall l, P (RPython l).
Fixpoint rstm_ind' (s : rstm) : P s :=
  let all := fix go (l : list rstm) : Forall P l := match l with [] => Forall_nil _ | s :: l' => Forall_cons _ (rstm_ind' s) (go l') end in
  match s with
  | RPass => H0 | RText t g => H1 t g | RTrans t g => H2 t g | RExpr x s => H3 x s
  | RIf c b els => H4 c b els (all b) (all els)
  | RFor d b els => H5 d b els (all b) (all els)
  | RWith v b => H6 v b (all b)
  | RSwitch d cs els => H7 d cs els ((fix go (l : list (str * list rstm)) : Forall (fun cb => Forall P (snd cb)) l :=
      match l with [] => Forall_nil _ | (c, b) :: l' => Forall_cons (c, b) (all b) (go l') end) cs) (all els)
  | RAttr a v g m => H8 a v g m (all v)
  | RAttrs x g m => H9 x g m
  | RDef d b => H10 d b (all b)
  | RCall d c b => H11 d c b (all b)
  | RImport t a => H12 t a | RInclude t => H13 t | RExtend t => H14 t | RPython l => H15 l
  end.
End RstmInd.

Ltac simp := cbn [rbind rmap fst snd] in *.
(** Take apart a successful computation. *)
Ltac inv_ok H := repeat (simp; match type of H with
  | rbind ?x _ = Ok _ => let E := fresh "E" in destruct x eqn:E; [|discriminate H]
  | rmap _ ?x = Ok _ => let E := fresh "E" in destruct x eqn:E; [|discriminate H]
  | Raise _ = Ok _ => discriminate H
  end); simp.

(** The frames there are, and their names. *)
Definition kept {code : Type} (w w' : world code) : Prop :=
  forall i fr, nth_error (w_frames w) i = Some fr -> exists fr', nth_error (w_frames w') i = Some fr' /\ fr_names fr' = fr_names fr.
Lemma kept_refl : forall code (w : world code), kept w w.
Proof. intros code w i fr E. eauto. Qed.
Lemma kept_trans : forall code (a b c : world code), kept a b -> kept b c -> kept a c.
Proof. intros code a b c H1 H2 i fr E. destruct (H1 i fr E) as (fr1 & E1 & N1). destruct (H2 i fr1 E1) as (fr2 & E2 & N2). exists fr2. split; [exact E2|congruence]. Qed.
Lemma kept_frames : forall code (w w' : world code), w_frames w' = w_frames w -> kept w w'.
Proof. intros code w w' E i fr H. rewrite E. eauto. Qed.
Lemma kept_set : forall code (w : world code) p x v, kept w (set_name w p x v).
Proof. intros code w p x v. exact (proj2 (proj2 (set_name_grows code w p x v))). Qed.
Lemma kept_sets : forall code p l (w : world code), kept w (set_names w p l).
Proof. intros code p. induction l as [|[x v] l IH]; intros w; [apply kept_refl|]. cbn [set_names]. eapply kept_trans; [apply kept_set|apply IH]. Qed.
Lemma kept_bind : forall code p ys vs (w : world code), kept w (bind_some w p ys vs).
Proof. intros code p. induction ys as [|y ys IH]; intros [|[v|] vs] w; cbn [bind_some]; try apply kept_refl; [|apply IH]. eapply kept_trans; [apply kept_set|apply IH]. Qed.
Lemma kept_block : forall code py p l (w : world code) o w', run_block py w p l = Ok (o, w') -> kept w w'.
Proof.
  intros code py p. induction l as [|[x e|xs ys f] l IH]; intros w o w' H; cbn [run_block] in H.
  - assert (w' = w) as -> by congruence. apply kept_refl.
  - inv_ok H. eapply kept_trans; [apply kept_set|eapply IH; exact H].
  - inv_ok H. destruct a0 as [o1 w1]. simp. assert (w' = w1) as -> by congruence. eapply kept_trans; [apply kept_bind|eapply IH; exact E0].
Qed.

Section Kept.
Variable py : python.
Variable load : bool -> str -> result (cls (fobj dcode) (str * dcode)).
Variable invoke : callable dcode -> list (str * dval) -> dworld -> meant.
Definition keeping : Prop := forall c params w o w', invoke c params w = Ok (o, w') -> kept w w'.
Hypothesis Hinv : keeping.
Variable p : place.
Notation meaning := (meaning py load invoke p).
Notation means := (means py load invoke p).
Notation step := (step py load invoke p).

Lemma call_kept : forall c args w v w', call_function py invoke c args w = Ok (v, w') -> kept w w'.
Proof. intros c args w v w' H. unfold call_function in H. inv_ok H. destruct a0 as [o w1]. simp. assert (w' = w1) as -> by congruence. eapply Hinv. exact E0. Qed.
Lemma show_kept : forall x w v w', show_value py (fun w => w) invoke p x w = Ok (v, w') -> kept w w'.
Proof.
  intros x w v w' H. unfold show_value in H.
  assert (D : rmap (fun v => (v, w)) (evalue py w p x) = Ok (v, w') -> kept w w').
  { intros D. inv_ok D. assert (w' = w) as -> by congruence. apply kept_refl. }
  destruct (parse py x); try (now apply D). destruct (find_callee py w p c) as [fo|]; [|discriminate]. simp.
  destruct fo; try (now apply D). inv_ok H. eapply call_kept. exact H.
Qed.
Lemma under_kept : forall g w m o w', under py p g w m = Ok (o, w') -> (m = Ok (o, w') -> kept w w') -> kept w w'.
Proof.
  intros g w m o w' H K. unfold under in H. destruct (truthy_guard g); [|now apply K]. inv_ok H. destruct a; [now apply K|]. assert (w' = w) as -> by congruence. apply kept_refl.
Qed.
Lemma then_kept : forall m f w o w', then_ m f = Ok (o, w') -> (forall o1 w1, m = Ok (o1, w1) -> kept w w1) -> (forall w1 o2 w2, f w1 = Ok (o2, w2) -> kept w1 w2) -> kept w w'.
Proof.
  intros m f w o w' H K1 K2. unfold then_ in H. inv_ok H. destruct a as [o1 w1], a0 as [o2 w2]. simp. assert (w' = w2) as -> by congruence.
  eapply kept_trans; [now apply (K1 o1)|now apply (K2 _ o2)].
Qed.
Definition keeps1 (s : rstm) : Prop := forall w o w', meaning s w = Ok (o, w') -> kept w w'.
Lemma means_kept : forall l, Forall keeps1 l -> forall w o w', means l w = Ok (o, w') -> kept w w'.
Proof.
  induction 1 as [|s l Hs Hl IH]; intros w o w' H; cbn [S_Run.means] in H; [assert (w' = w) as -> by congruence; apply kept_refl|].
  eapply then_kept; [exact H| |exact IH]. intros o1 w1. apply Hs.
Qed.
Lemma each_kept : forall f, (forall w o w', f w = Ok (o, w') -> kept w w') -> forall l w o w', for_each p f l w = Ok (o, w') -> kept w w'.
Proof.
  intros f F. induction l as [|r l IH]; intros w o w' H; cbn [for_each] in H; [assert (w' = w) as -> by congruence; apply kept_refl|].
  eapply then_kept; [exact H| |exact IH]. intros o1 w1 E. eapply kept_trans; [apply kept_sets|eapply F; exact E].
Qed.
Lemma assigns_kept : forall vars w w', assigns py p vars w = Ok w' -> kept w w'.
Proof.
  induction vars as [|[k x] vars IH]; intros w w' H; cbn [assigns] in H; [assert (w' = w) as -> by congruence; apply kept_refl|].
  inv_ok H. eapply kept_trans; [apply kept_set|eapply IH; exact H].
Qed.
Lemma case_kept : forall x els, (forall w o w', means els w = Ok (o, w') -> kept w w') -> forall cs, Forall (fun cb => Forall keeps1 (snd cb)) cs ->
  forall w o w', first_case py load invoke p x cs els w = Ok (o, w') -> kept w w'.
Proof.
  intros x els HE cs F. induction F as [|[c b] cs Hb Hcs IH]; intros w o w' H; cbn [first_case] in H; [now apply (HE w o)|].
  inv_ok H. destruct (veq py _ x); [eapply means_kept; eassumption|eapply IH; exact H].
Qed.
Lemma import_kept : forall w t a w1 i, import_template py load w p t a = Ok (w1, i) -> kept w w1.
Proof. intros w t a w1 i H. apply kept_frames. unfold import_template in H. inv_ok H. destruct (import_ _ _ _ _ _ _ _) as [h r]. assert (w1 = World h (w_frames w)) as -> by congruence. reflexivity. Qed.
Lemma extend_kept : forall w t w1 i, extend_template py load w p t = Ok (w1, i) -> kept w w1.
Proof. intros w t w1 i H. apply kept_frames. unfold extend_template in H. inv_ok H. assert (w1 = World (fst a1) (w_frames w)) as -> by congruence. reflexivity. Qed.
Lemma show_call_kept : forall c w o w', show_call py invoke c w = Ok (o, w') -> kept w w'.
Proof. intros c w o w' H. unfold show_call in H. inv_ok H. destruct a as [v w1]. simp. assert (w' = w1) as -> by congruence. eapply call_kept. exact E. Qed.

Theorem meaning_kept : forall s, keeps1 s.
Proof.
  induction s as [ |t g|t g|x s|c b els Hb He|d b els Hb He|v b Hb|d cs els Hc He|a v g m Hv|x g m|d b Hb|d c b Hb|t a|t|t|l] using rstm_ind'; intros w o w' H.
  - cbn in H. assert (w' = w) as -> by congruence. apply kept_refl.
  - cbn [S_Run.meaning] in H. eapply under_kept; [exact H|]. intros E. assert (w' = w) as -> by congruence. apply kept_refl.
  - cbn [S_Run.meaning] in H. eapply under_kept; [exact H|]. intros E. destruct (strip t); [|inv_ok E]; assert (w' = w) as -> by congruence; apply kept_refl.
  - cbn [S_Run.meaning] in H. inv_ok H. destruct a as [v w1]. simp. assert (w' = w1) as -> by congruence. eapply show_kept. exact E.
  - rewrite meaning_if in H. inv_ok H. destruct a; [eapply means_kept; [exact Hb|exact H]|eapply means_kept; [exact He|exact H]].
  - rewrite meaning_for in H. inv_ok H. eapply then_kept; [exact H| |intros w1 o2 w2; apply means_kept; exact He]. intros o1 w1. apply each_kept. intros w2 o2 w3. now apply means_kept.
  - rewrite meaning_with in H. inv_ok H. match goal with E : means b _ = Ok ?r |- _ => destruct r as [o1 w1] end. simp.
    match type of H with Ok (_, ?x) = _ => assert (w' = x) as -> by congruence end. eapply kept_trans; [eapply assigns_kept; exact E|]. eapply kept_trans; [eapply means_kept; [exact Hb|exact E0]|apply kept_sets].
  - rewrite meaning_switch in H. inv_ok H. eapply case_kept; [|exact Hc|exact H]. intros w1 o1 w2. now apply means_kept.
  - cbn [S_Run.meaning] in H. eapply under_kept; [exact H|]. intros E. inv_ok E. destruct a0 as [o1 w1]. simp. assert (w' = w1) as -> by congruence. eapply Hinv. exact E0.
  - cbn [S_Run.meaning] in H. eapply under_kept; [exact H|]. intros E. inv_ok E. assert (w' = w) as -> by congruence. apply kept_refl.
  - cbn [S_Run.meaning] in H. match type of H with Ok (_, ?x) = _ => assert (w' = x) as -> by congruence end. apply kept_set.
  - cbn [S_Run.meaning] in H. inv_ok H. destruct a as [v w1]. simp. assert (w' = w1) as -> by congruence. eapply kept_trans; [|eapply show_kept; exact E]. apply kept_set.
  - cbn [S_Run.meaning] in H. inv_ok H. destruct a0 as [w1 i]. simp. assert (w' = w1) as -> by congruence. eapply import_kept. exact E.
  - cbn [S_Run.meaning] in H. inv_ok H. destruct a as [w1 i]. simp. eapply kept_trans; [eapply import_kept; exact E|eapply show_call_kept; exact H].
  - cbn [S_Run.meaning] in H. inv_ok H. destruct a as [w1 i]. simp. eapply kept_trans; [eapply extend_kept; exact E|eapply show_call_kept; exact H].
  - cbn [S_Run.meaning] in H. eapply kept_block. exact H.
Qed.
Lemma means_kept' : forall l w o w', means l w = Ok (o, w') -> kept w w'.
Proof. intros l. apply means_kept. apply Forall_forall. intros s _. apply meaning_kept. Qed.
Lemma chain_kept : forall c m w o c' w', with_chain c m = Ok (o, c', w') -> (forall o1 w1, m = Ok (o1, w1) -> kept w w1) -> kept w w'.
Proof. intros c [[o1 w1]|] w o c' w' H K; [|discriminate]. cbn in H. assert (w' = w1) as -> by congruence. now apply (K o1). Qed.
Lemma step_kept : forall pc c sw w o c' w', step pc c sw w = Ok (o, c', w') -> kept w w'.
Proof.
  intros pc c sw w o c' w' H.
  assert (R : forall o1 c1, Ok (o1, c1, w) = Ok (o, c', w') -> kept w w') by (intros o1 c1 R; assert (w' = w) as -> by congruence; apply kept_refl).
  destruct pc as [s|b|cd b].
  - assert (U : forall g c0 s0, step_under py p g c0 w (meaning s0 w) = Ok (o, c', w') -> kept w w').
    { intros g c0 s0 E. unfold step_under in E. destruct (truthy_guard g) as [cd|]; [inv_ok E; destruct a; [|eapply R; exact E]|];
        (eapply chain_kept; [exact E|]; intros o1 w1; now apply meaning_kept). }
    destruct s; cbn [P_Run4.step] in H; try (eapply U; exact H); try (eapply chain_kept; [exact H|]; intros o1 w1; now apply meaning_kept).
    + inv_ok H. destruct a; [|eapply R; exact H]. eapply chain_kept; [exact H|]. intros o1 w1. apply means_kept'.
    + inv_ok H. eapply chain_kept; [exact H|]. intros o1 w1. apply each_kept. intros w2 o2 w3. apply means_kept'.
  - cbn [P_Run4.step] in H. destruct c as [|[]|]; [discriminate|eapply R; exact H| |]; (eapply chain_kept; [exact H|]; intros o1 w1; apply means_kept').
  - cbn [P_Run4.step] in H. destruct c as [|[]|]; [discriminate|eapply R; exact H| |discriminate]. inv_ok H. destruct sw as [|x sw]; [discriminate|].
    destruct (veq py a x); [|eapply R; exact H]. eapply chain_kept; [exact H|]. intros o1 w1. apply means_kept'.
Qed.
End Kept.

Theorem apply_kept : forall py load depth, keeping (apply py load depth).
Proof.
  intros py load. induction depth as [|depth IH]; intros c params w o w' H; [discriminate|]. destruct c as [[[d b] i] ss]. cbn [apply] in H.
  eapply kept_trans; [|eapply means_kept'; [exact IH|exact H]]. intros j fr E. exists fr. split; [|reflexivity]. cbn [w_frames]. rewrite nth_error_app1; [exact E|]. apply nth_error_Some. congruence.
Qed.
