(** * Proofs: what iterations leave behind (1): the code of templates that use no others *)

From Coq Require Import Ascii String List Arith NArith ZArith Bool Lia.
From Verif Require Import PyStr PyStrLemmas M_Values M_IR S_IR P_IR P_IR3 M_Template M_Run S_Run S_Again S_After P_Run1 P_Run4 P_Run5 P_Run6.
From Verif Require M_Exec S_Exec P_Exec2.
Import ListNotations.
Open Scope list_scope.

(** ** Directives *)
Lemma by_all : forall l, (fix go (l : list rstm) : Prop := match l with [] => True | m :: l' => by_itself m /\ go l' end) l <-> Forall by_itself l.
Proof. induction l as [|b l IH]; [split; [constructor|trivial]|]. rewrite Forall_cons_iff, IH. reflexivity. Qed.
Lemma by_cases : forall l, (fix go (l : list (str * list rstm)) : Prop := match l with [] => True | (_, b) :: l' =>
   (fix go (l : list rstm) : Prop := match l with [] => True | m :: l' => by_itself m /\ go l' end) b /\ go l' end) l <-> Forall (fun cb => Forall by_itself (snd cb)) l.
Proof. induction l as [|[c b] l IH]; [split; [constructor|trivial]|]. rewrite Forall_cons_iff, IH, by_all. reflexivity. Qed.
Definition pby (pc : rpiece) : Prop := match pc with RcStm s => by_itself s | RcElse b | RcCase _ b => Forall by_itself b end.
Lemma comment_by : forall s, says_something s = false -> by_itself s.
Proof. intros [] E; try discriminate. exact Logic.I. Qed.
Lemma with_else_by : forall s els s', fresh (RcStm s) -> with_else s els = Some s' -> Forall by_itself s' -> by_itself s /\ Forall by_itself els.
Proof.
  intros s els s' F H B. destruct s as [ |t g|t g|y safe|cd b e0|d b e0|vars b|d cases e0|a v g mode|y g mode|d b|d cl b|t a|t|t|ls]; cbn [with_else] in H; try discriminate;
    try (destruct (truthy_guard g) as [cd|]); try discriminate; cbn [option_map fresh] in *; try subst e0;
    match type of H with Some ?v = Some _ => assert (s' = v) as -> by congruence end; apply Forall_cons_iff in B as [B1 B2]; cbn [by_itself] in B1 |- *; rewrite ?by_all in *; try tauto.
Qed.
Lemma attach_by : forall ps o r, Forall fresh ps -> attach ps = Some (o, r) -> Forall by_itself r -> (forall els, o = Some els -> Forall by_itself els) -> Forall pby ps.
Proof.
  induction ps as [|pc ps IH]; intros o r F H R O; [constructor|].
  apply Forall_cons_iff in F as [F1 F2]. cbn [attach] in H. destruct pc as [s|b|cd b]; [| |discriminate].
  - destruct (attach ps) as [[[els|] r0]|] eqn:E; [| |discriminate].
    + destruct (says_something s) eqn:Es.
      * destruct (with_else s els) as [s'|] eqn:Ew; [|discriminate]. cbn [option_map] in H. assert (o = None /\ r = s' ++ r0) as [-> ->] by (split; congruence).
        apply Forall_app in R as [R1 R2]. destruct (with_else_by s els s' F1 Ew R1) as [B1 B2]. constructor; [exact B1|]. apply (IH (Some els) r0 F2 eq_refl R2). intros e' X. assert (e' = els) as -> by congruence. exact B2.
      * assert (o = Some els /\ r = s :: r0) as [-> ->] by (split; congruence). apply Forall_cons_iff in R as [R1 R2]. constructor; [exact R1|]. now apply (IH (Some els) r0 F2 eq_refl R2).
    + assert (o = None /\ r = s :: r0) as [-> ->] by (split; congruence). apply Forall_cons_iff in R as [R1 R2]. constructor; [exact R1|]. now apply (IH None r0 F2 eq_refl R2).
  - destruct (attach ps) as [[[els|] r0]|] eqn:E; [discriminate| |discriminate]. assert (o = Some b /\ r = r0) as [-> ->] by (split; congruence). constructor; [now apply O|]. apply (IH None r0 F2 eq_refl R). intros els X; discriminate X.
Qed.
Lemma assemble_by : forall ps ss, Forall fresh ps -> assemble ps = Some ss -> Forall by_itself ss -> Forall pby ps.
Proof.
  intros ps ss F H B. unfold assemble in H. destruct (attach ps) as [[[els|] r]|] eqn:E; [discriminate| |discriminate]. assert (ss = r) as -> by congruence. apply (attach_by ps None r F E B). intros els X; discriminate X.
Qed.
Lemma switch_by : forall ps cs els, assemble_switch ps = Some (cs, els) -> Forall (fun cb => Forall by_itself (snd cb)) cs -> Forall by_itself els -> Forall pby ps.
Proof.
  induction ps as [|pc ps IH]; intros cs els H C E; [constructor|]. destruct pc as [s|b|cd b]; [discriminate| |].
  - destruct ps; [|discriminate]. cbn in H. assert (els = b) as -> by congruence. constructor; [exact E|constructor].
  - cbn [assemble_switch] in H. destruct (assemble_switch ps) as [[cs' els']|] eqn:Ea; [|discriminate]. cbn [option_map fst snd] in H. assert (cs = (cd, b) :: cs' /\ els = els') as [-> ->] by (split; congruence).
    apply Forall_cons_iff in C as [C1 C2]. constructor; [exact C1|]. now apply (IH cs' els').
Qed.
Lemma filter_by : forall ps, Forall pby (filter piece_says ps) -> Forall pby ps.
Proof.
  induction ps as [|pc ps IH]; intros F; [constructor|]. cbn [filter] in F. destruct (piece_says pc) eqn:E; [apply Forall_cons_iff in F as [F1 F2]; constructor; [exact F1|now apply IH]|]. constructor; [|now apply IH].
  destruct pc as [s| |]; try discriminate. now apply comment_by.
Qed.

(** ** Their code *)
Section Code.
Variable py : python.
Variable gen : str -> Prop.
Hypothesis Hgen : generated_names py gen.
Hypothesis Hfun : generated_functions py gen.

Definition alone_stmt (q : pstmt) : Prop := match q with PImport _ _ | PInclude _ | PExtend _ => False | _ => True end.
Definition read_fun (f : str * bcode) : Prop := exists ss, rfun py gen f (fst f, ss).
Definition head_ok (hd : pstmt) (body : bcode) : Prop :=
  match hd with PDef d => read_fun (d, body) | PDefGen n => read_fun (n ++ L "()", body) | _ => True end.
Fixpoint good (b : blk) : Prop :=
  match b with
  | St q => alone_stmt q
  | Bl hd body => (fix go (l : list blk) : Prop := match l with [] => True | m :: l' => good m /\ go l' end) body /\ head_ok hd body
  | _ => True
  end.
Lemma good_body : forall l, (fix go (l : list blk) : Prop := match l with [] => True | m :: l' => good m /\ go l' end) l <-> Forall good l.
Proof. induction l as [|b l IH]; [split; [constructor|trivial]|]. rewrite Forall_cons_iff, IH. reflexivity. Qed.
Lemma good_bl : forall hd l, Forall good l -> head_ok hd l -> good (Bl hd l).
Proof. intros hd l F H. cbn [good]. split; [now apply good_body|exact H]. Qed.
Lemma good_join : forall l, Forall good l -> Forall good (join_texts l).
Proof.
  intros l F. induction F as [|b l B F IH]; [constructor|]. destruct b as [t g|q|h b|ls]; cbn [join_texts]; try (constructor; assumption).
  destruct (join_texts l) as [|[t' g'|q|h b|ls] r]; try (constructor; assumption). apply Forall_cons_iff in IH as [_ IH]. destruct (oseqb g g'); [constructor; [exact Logic.I|exact IH]|constructor; [exact Logic.I|constructor; [exact Logic.I|exact IH]]].
Qed.

Definition good_node (n : node) : Prop := forall pc, piece_of n = Some pc -> well_named py gen n -> pby pc -> Forall good (program n).
Lemma good_pieces : forall l, Forall good_node l -> forall ps, pieces_of l = Some ps -> well_names py gen l -> Forall pby ps -> Forall good (programs l).
Proof.
  intros l H ps P W B. unfold programs. apply good_join. revert ps P W B. induction H as [|n l Hn H IH]; intros ps P W B; [constructor|].
  cbn [pieces_of] in P. destruct (piece_of n) as [pc|] eqn:Ep; [|discriminate]. cbn [S_Exec.obind] in P. destruct (pieces_of l) as [ps'|] eqn:El; [|discriminate].
  cbn [option_map] in P. assert (ps = pc :: ps') as -> by congruence. destruct W as [Wn Wl]. apply Forall_cons_iff in B as [B1 B2]. cbn [flat_map]. apply Forall_app. split; [now apply (Hn pc)|now apply (IH ps')].
Qed.
Lemma good_structure : forall l, Forall good_node l -> forall ss, structure l = Some ss -> well_names py gen l -> Forall by_itself ss -> Forall good (programs l).
Proof.
  intros l H ss S W B. unfold structure in S. destruct (pieces_of l) as [ps|] eqn:P; [|discriminate]. cbn [S_Exec.obind] in S. apply (good_pieces l H ps P W). eapply assemble_by; [now apply (pieces_fresh l)|exact S|exact B].
Qed.
Lemma read_pass : forall d, a_decl py gen d -> read_fun (d, [St PPass]).
Proof. intros d D. exists [RPass]. split; [reflexivity|]. split; [exact D|apply rbody_pass]. Qed.
Lemma read_body : forall d l ss, a_decl py gen d -> structure l = Some ss -> well_names py gen l -> read_fun (d, programs l).
Proof. intros d l ss D S W. exists ss. split; [reflexivity|]. split; [exact D|]. exists l. now split. Qed.

Ltac destr := repeat match goal with
  | H : option_map _ ?x = Some _ |- _ => let E := fresh "E" in destruct x eqn:E; [cbn [option_map] in H|discriminate H]
  end;
  repeat match goal with
  | H : S_Exec.obind _ not_empty = Some _ |- _ => apply not_empty_some in H
  | H : S_Exec.obind _ (fun b => not_empty (_ b)) = Some ?l |- _ =>
      let b := fresh "b" in let E := fresh "E" in apply not_empty_or in H as (b & H & E); subst l; rename b into l
  end.
Ltac one := constructor; [|constructor].
Lemma or_pass_by : forall l, Forall by_itself (or_pass l) -> Forall by_itself l.
Proof. intros [|x l] F; [constructor|exact F]. Qed.
Lemma or_empty_by : forall l, Forall by_itself (or_empty l) -> Forall by_itself l.
Proof. intros [|x l] F; [constructor|exact F]. Qed.
Lemma all_good : forall n, good_node n.
Proof.
  induction n using node_ind'; intros pc Hp W B; cbn [piece_of] in Hp; try discriminate Hp; cbn [S_Run.well_named] in W.
  - one. exact Logic.I.
  - assert (pc = RcStm (RImport t a)) as -> by congruence. contradiction B.
  - assert (pc = RcStm (RInclude t)) as -> by congruence. contradiction B.
  - assert (pc = RcStm (RExtend t)) as -> by congruence. contradiction B.
  - (* def *)
    rewrite structure_eq in Hp. destruct i; [|discriminate]. destr. assert (pc = RcStm (RDef d (or_pass l))) as -> by congruence. destruct W as [W1 W2]. cbn [pby by_itself] in B. rewrite by_all in B. apply or_pass_by in B.
    cbn [program]. rewrite body_eq. constructor; [exact Logic.I|]. one. apply good_bl.
    + destruct b; [one; exact Logic.I|]. now apply (good_structure _ H l).
    + cbn [head_ok]. destruct b; [now apply read_pass|]. now apply (read_body d _ l).
  - (* call *)
    rewrite structure_eq in Hp. destr. assert (pc = RcStm (RCall d c l)) as -> by congruence. destruct W as (W1 & _ & W2). cbn [pby by_itself] in B. rewrite by_all in B.
    cbn [program]. rewrite body_eq. constructor; [exact Logic.I|]. constructor; [|one; exact Logic.I]. apply good_bl; [now apply (good_structure _ H l)|now apply (read_body d _ l)].
  - (* for *)
    rewrite structure_eq in Hp. destr. assert (pc = RcStm (RFor d l [])) as -> by congruence. destruct W as [_ W]. cbn [pby by_itself] in B. rewrite by_all in B. destruct B as [B _].
    cbn [program]. rewrite body_eq. one. apply good_bl; [now apply (good_structure _ H l)|exact Logic.I].
  - (* with *)
    rewrite structure_eq in Hp. destr. assert (pc = RcStm (RWith v l)) as -> by congruence. destruct W as [_ W]. cbn [pby by_itself] in B. rewrite by_all in B.
    cbn [program]. rewrite body_eq. constructor; [exact Logic.I|]. apply Forall_app. split; [apply Forall_map; apply Forall_forall; intros kv _; exact Logic.I|]. apply Forall_app. split; [now apply (good_structure _ H l)|one; exact Logic.I].
  - (* switch *)
    rewrite pieces_eq in Hp. destr. destruct p as [cases els]. cbn [fst snd] in Hp. assert (pc = RcStm (RSwitch d cases els)) as -> by congruence. destruct W as [_ W].
    destruct (pieces_of b) as [ps|] eqn:Eb; [|discriminate]. cbn [S_Exec.obind] in E. cbn [pby by_itself] in B. rewrite by_cases, by_all in B. destruct B as [B1 B2].
    cbn [program]. rewrite body_eq. constructor; [exact Logic.I|]. constructor; [exact Logic.I|]. apply Forall_app. split; [|one; exact Logic.I]. apply (good_pieces b H ps Eb W). apply filter_by. now apply (switch_by _ cases els).
  - (* case *)
    rewrite structure_eq in Hp. destr. assert (pc = RcCase d l) as -> by congruence. destruct W as [_ W].
    cbn [program]. rewrite body_eq. one. apply good_bl; [now apply (good_structure _ H l)|exact Logic.I].
  - (* if *)
    rewrite structure_eq in Hp. destr. assert (pc = RcStm (RIf d l [])) as -> by congruence. destruct W as [_ W]. cbn [pby by_itself] in B. rewrite by_all in B. destruct B as [B _].
    cbn [program]. rewrite body_eq. one. apply good_bl; [now apply (good_structure _ H l)|exact Logic.I].
  - (* else *)
    rewrite structure_eq in Hp. destr. assert (pc = RcElse l) as -> by congruence.
    cbn [program]. rewrite body_eq. one. apply good_bl; [now apply (good_structure _ H l)|exact Logic.I].
  - one. exact Logic.I.
  - one. unfold trans_stmt. now destruct (strip t).
  - one. now destruct s.
  - (* attribute *)
    rewrite structure_eq in Hp. destr. assert (pc = RcStm (RAttr a (or_empty l) g m)) as -> by congruence. destruct W as (_ & G1 & G2 & Gx & W). cbn [pby by_itself] in B. rewrite by_all in B. apply or_empty_by in B.
    assert (AT : forall x0, gen x0 -> Forall good [Bl (PDefGen x0) (match v with [] => [Tx [] None] | _ => programs v end); St (PCollect x0); Bl (PForAttr x a x0 m) [St (PYield x)]]).
    { intros x0 Gn. constructor; [|constructor; [exact Logic.I|one; now repeat split]]. apply good_bl.
      - destruct v; [one; exact Logic.I|]. now apply (good_structure _ H l).
      - cbn [head_ok]. destruct v; [|now apply (read_body _ _ l); [apply Hfun| |]]. exists [RText [] None]. split; [reflexivity|]. split; [now apply Hfun|apply rbody_empty]. }
    cbn [program]. rewrite body_eq. destruct (truthy_guard g); [|now apply AT]. one. apply good_bl; [now apply AT|exact Logic.I].
  - cbn [program]. destruct (truthy_guard g); one; now repeat split.
  - cbn [program]. one. exact Logic.I.
Qed.
(** The body of a function. *)
Lemma good_function : forall f f', rfun py gen f f' -> Forall by_itself (snd f') -> Forall good (snd f) /\ read_fun f.
Proof.
  intros [d b] [d' ss] (E & D & R) B. cbn [fst snd] in *. split; [|exists ss; split; [reflexivity|split; assumption]]. destruct R as (l & -> & S & W). apply (good_structure l) with ss; try assumption. apply Forall_forall. intros n _. apply all_good.
Qed.
End Code.
