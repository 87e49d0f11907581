(** * Structured templates are accepted by Python's parser: proofs *)

From Coq Require Import Ascii String List NArith ZArith Bool Lia.
From Verif Require Import PyStr PyStrLemmas M_Values M_IR S_IR M_Exec S_Exec P_IR P_IR3 P_Exec P_Exec2 P_Exec3.
Import ListNotations.
Open Scope list_scope.

Fixpoint last_leaves (p : before) (l : list blk) : before :=
  match l with [] => p | b :: l' => last_leaves (M_Exec.after p b) l' end.

Lemma parses_all_app : forall l1 l2 p,
  parses_all p (l1 ++ l2) = parses_all p l1 && parses_all (last_leaves p l1) l2.
Proof.
  induction l1 as [|b l1 IH]; intros l2 p; [reflexivity|]. cbn [app parses_all last_leaves].
  rewrite IH. now rewrite !andb_assoc.
Qed.
Lemma last_leaves_app : forall l1 l2 p, last_leaves p (l1 ++ l2) = last_leaves (last_leaves p l1) l2.
Proof. induction l1 as [|b l1 IH]; intros l2 p; [reflexivity|]. cbn [app last_leaves]. apply IH. Qed.

Lemma parses_bl : forall h body, parses (Bl h body) = existsb counts body && parses_all BNone body.
Proof. reflexivity. Qed.

(** What a node says counts, unless it is Python that does not. *)
Definition node_counts (n : node) : bool := match n with NPython _ lines _ => negb (forallb ignored lines) | _ => true end.
Lemma program_counts : forall n, existsb counts (program n) = node_counts n.
Proof.
  intros n. destruct n; cbn [program node_counts existsb counts]; rewrite ?orb_false_r; try reflexivity;
    destruct (truthy_guard guard); reflexivity.
Qed.
Lemma join_counts : forall l, existsb counts (join_texts l) = existsb counts l.
Proof.
  induction l as [|b l IH]; [reflexivity|].
  destruct b as [t g|q|h body|ls]; try (cbn [join_texts existsb]; now rewrite IH).
  cbn [join_texts]. destruct (join_texts l) as [|[t' g'|q|h body|ls] r]; try (cbn [existsb]; now rewrite <- ?IH).
  destruct (oseqb g g'); reflexivity.
Qed.
Lemma programs_count : forall l, existsb counts (programs l) = existsb node_counts l.
Proof.
  intros l. unfold programs. rewrite join_counts. induction l as [|n l IH]; [reflexivity|].
  cbn [flat_map existsb]. now rewrite existsb_app, program_counts, IH.
Qed.
Lemma structure_counts : forall l ss, structure l = Some ss -> existsb node_counts l = negb (match l with [] => true | _ => false end).
Proof.
  intros [|n l] ss H; [reflexivity|]. unfold structure in H. cbn [pieces_of] in H.
  destruct n; cbn [piece_of obind] in H; try discriminate; reflexivity.
Qed.
Lemma filled_counts : forall l ss, structure l = Some ss -> ss <> [] -> existsb counts (programs l) = true.
Proof.
  intros l ss S N. rewrite programs_count, (structure_counts l ss S). destruct l; [|reflexivity]. cbn in S. congruence.
Qed.

Lemma parses_join : forall l p, parses_all p (join_texts l) = parses_all p l.
Proof.
  induction l as [|b l IH]; intros p; [reflexivity|].
  destruct b as [t g|q|h body|ls]; try (cbn [join_texts parses_all]; now rewrite IH).
  cbn [join_texts]. destruct (join_texts l) as [|[t' g'|q|h body|ls] r] eqn:E;
    try (cbn [parses_all]; rewrite <- IH; reflexivity).
  destruct (oseqb g g') eqn:Eg; [|cbn [parses_all]; rewrite <- IH; reflexivity].
  apply oseqb_eq in Eg. subst g'. cbn [parses_all]. rewrite <- IH. reflexivity.
Qed.


Definition possible (b : before) (c : chain) : Prop :=
  match b with BNone => True | BIf => exists t, c = CIf t | BFor => c = CFor end.
Definition leaving (p : piece) : before :=
  match p with PcStm (SIf _ _ _) | PcCase _ _ => BIf | PcStm (SFor _ _ _) => BFor | _ => BNone end.

(** [q] is at least what is known as [p]. *)
Definition knows (p q : before) : Prop := p = BNone \/ p = q.

Definition good (n : node) : Prop := forall p, piece_of n = Some p -> forall b,
  (forall c, possible b c -> joins p c) ->
  parses_all b (program n) = true /\ knows (leaving p) (last_leaves b (program n)).

Lemma good_list : forall l, Forall good l -> forall ps, pieces_of l = Some ps -> forall b b', knows b b' ->
  fits (possible b) ps -> parses_all b' (flat_map program l) = true.
Proof.
  induction 1 as [|n l Gn Gl IH]; intros ps P b b' K F; [reflexivity|].
  cbn [pieces_of] in P. destruct (piece_of n) as [p|] eqn:Ep; [|discriminate]. cbn [obind] in P.
  destruct (pieces_of l) as [ps'|] eqn:El; [|discriminate]. assert (ps = p :: ps') by (cbn in P; congruence). subst ps.
  destruct F as [Fp Fl]. destruct (Gn p Ep b') as [P1 P2].
  { intros c H. apply Fp. destruct K as [->| ->]; [exact I|exact H]. }
  cbn [flat_map]. rewrite parses_all_app, P1. cbn [andb].
  apply (IH ps' eq_refl (leaving p)); [exact P2|].
  revert Fl. destruct ps' as [|p1 ps1]; [intros _; exact I|]. intros [F1 F2]. split; [|exact F2].
  intros cc Hc. destruct p as [[]|b1|cd b1]; cbn [leaving possible] in Hc; cbn [gives] in F1; try (now apply F1);
    try (specialize (F1 CNone eq_refl); destruct p1; cbn in *; [exact I|congruence|destruct F1; discriminate]).
Qed.

Lemma good_body : forall l ss, Forall good l -> structure l = Some ss -> forall b, parses_all b (programs l) = true.
Proof.
  intros l ss G S b. unfold structure in S. destruct (pieces_of l) as [ps|] eqn:E; [|discriminate]. cbn [obind] in S.
  unfold programs. rewrite parses_join. apply (good_list l G ps E BNone); [now left|].
  eapply assemble_fits; [apply le_n|exact S].
Qed.

Ltac destr := repeat match goal with
  | H : option_map _ ?x = Some _ |- _ => let E := fresh "E" in destruct x eqn:E; [cbn [option_map] in H|discriminate H]
  end.
Ltac case_of p := let H := fresh in match goal with H0 : Some _ = Some p |- _ => injection H0 as H; subst p end.

Theorem all_good : forall n, good n.
Proof.
  induction n using node_ind'; intros p Hp b0 J; cbn [piece_of] in Hp; try discriminate Hp;
    rewrite ?structure_eq, ?filled_eq in Hp; destr;
    try (match goal with H : filled _ = Some _ |- _ => apply filled_some in H as [H NE]; pose proof (filled_counts _ _ H NE) as CN end).
  - injection Hp as <-. split; [reflexivity|now left].
  - injection Hp as <-. cbn [program]. rewrite body_eq. split; [|now right].
    cbn [parses_all may_follow leaves]. now rewrite parses_bl, CN, (good_body b l).
  - injection Hp as <-. cbn [program]. rewrite body_eq. split; [|now left].
    cbn [parses_all may_follow parses andb leaves]. rewrite parses_all_app. apply andb_true_iff. split.
    + generalize (M_Exec.after b0 (St (PPushWith (map fst v)))). clear. induction v as [|kx v IH]; intros q; [reflexivity|]. cbn. apply IH.
    + rewrite parses_all_app, (good_body b l) by assumption. reflexivity.
  - destruct p0 as [cases els]. injection Hp as <-. cbn [program]. rewrite body_eq. split; [|now left].
    rewrite piece_of_pieces in E. destruct (pieces_of b) as [ps|] eqn:Eb; [|discriminate]. cbn [obind] in E.
    cbn [parses_all may_follow parses andb leaves stmt_leaves]. rewrite parses_all_app.
    unfold programs at 1. rewrite parses_join.
    rewrite (good_list b H ps Eb BIf); [|now right|eapply switch_fits; eassumption].
    reflexivity.
  - injection Hp as <-. cbn [program]. rewrite body_eq. split; [|now right].
    cbn [parses_all]. rewrite parses_bl, CN, (good_body b l) by assumption. rewrite !andb_true_r.
    cbn [may_follow]. destruct b0; [|reflexivity|].
    + destruct (J CNone I); discriminate.
    + destruct (J CFor eq_refl); discriminate.
  - injection Hp as <-. cbn [program]. rewrite body_eq. split; [|now right].
    cbn [parses_all may_follow leaves]. now rewrite parses_bl, CN, (good_body b l).
  - injection Hp as <-. cbn [program]. rewrite body_eq. split; [|now left].
    cbn [parses_all]. rewrite parses_bl, CN, (good_body b l) by assumption. rewrite !andb_true_r.
    cbn [may_follow]. destruct b0; [|reflexivity|reflexivity].
    specialize (J CNone I). now cbn in J.
  - injection Hp as <-. split; [reflexivity|now left].
  - injection Hp as <-. cbn [program]. unfold trans_stmt. split; [reflexivity|now left].
  - injection Hp as <-. cbn [program]. split; [reflexivity|now left].
  - injection Hp as <-. cbn [program]. rewrite body_eq. split; [|now left].
    assert (AT : forall nm q, parses_all q [Bl (PDefGen nm) (match v with [] => [Tx [] None] | _ => programs v end);
       St (PCollect nm); Bl (PForAttr x a nm m) [St (PYield x)]] = true).
    { intros nm q. cbn [parses_all]. rewrite !parses_bl. cbn [may_follow andb parses parses_all].
      rewrite !andb_true_r. destruct v as [|n v]; [reflexivity|]. rewrite (good_body _ l) by assumption.
      now rewrite programs_count, (structure_counts _ _ E). }
    destruct (truthy_guard g); [|apply AT]. cbn [parses_all]. rewrite parses_bl, AT. reflexivity.
  - injection Hp as <-. cbn [program]. split; [|now left]. now destruct (truthy_guard g).
Qed.

Theorem structured_parses : forall l ss b, structure l = Some ss -> parses_all b (programs l) = true.
Proof. intros l ss b H. apply (good_body l ss); [|exact H]. apply Forall_forall. intros n _. apply all_good. Qed.
