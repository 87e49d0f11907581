(** * Execution refines meaning: the simulation *)

From Coq Require Import Ascii String List NArith ZArith Bool Lia.
From Verif Require Import PyStr PyStrLemmas M_Values M_IR S_IR M_Exec S_Exec P_IR P_IR3 P_Exec.
Import ListNotations.
Open Scope list_scope.

(** ** Names *)

Lemma name_char_no_space : forall c, is_name_char c = true -> is_space c = false /\ N.eqb c 44 = false.
Proof.
  intros c H. unfold is_name_char in H. split.
  - destruct (is_space c) eqn:E; [|reflexivity]. cbn [negb] in H. rewrite andb_false_r, orb_false_r in H. exfalso.
    unfold is_space in E. rewrite ?orb_true_iff, ?andb_true_iff, ?N.leb_le, ?N.eqb_eq in E; rewrite ?orb_true_iff, ?andb_true_iff, ?N.leb_le, ?N.eqb_eq in H; lia.
  - destruct (N.eqb_spec c 44) as [->|]; [discriminate H|reflexivity].
Qed.

Lemma dropwhile_head : forall (f : char -> bool) s, forallb (fun c => negb (f c)) s = true -> dropwhile f s = s.
Proof.
  intros f [|c s] H; [reflexivity|]. cbn in H. apply andb_true_iff in H as [H _]. cbn. apply negb_true_iff in H.
  now rewrite H.
Qed.
Lemma strip_solid : forall s, forallb (fun c => negb (is_space c)) s = true -> strip s = s.
Proof.
  intros s H. unfold strip, lstrip, rstrip. rewrite (dropwhile_head _ s) by exact H.
  rewrite dropwhile_head; [apply rev_involutive|].
  rewrite forallb_forall in *. intros c I. apply H. now apply in_rev.
Qed.
Lemma split_no : forall c s cur, forallb (fun x => negb (N.eqb x c)) s = true -> split_c_aux c cur s = [rev cur ++ s].
Proof.
  induction s as [|x s IH]; intros cur H; cbn in *; [now rewrite app_nil_r|].
  apply andb_true_iff in H as [Hx H]. apply negb_true_iff in Hx. rewrite Hx, IH by exact H. cbn [rev].
  now rewrite <- app_assoc.
Qed.

Lemma targets_name : forall k, is_name k = true -> targets k = [k].
Proof.
  intros k H. assert (A : forallb is_name_char k = true) by (destruct k; [discriminate|exact H]).
  unfold targets, split_c. rewrite split_no.
  - cbn [rev app map]. rewrite strip_solid; [reflexivity|]. rewrite forallb_forall in *. intros c I.
    apply negb_true_iff. now apply name_char_no_space, A.
  - rewrite forallb_forall in *. intros c I. apply negb_true_iff. now apply name_char_no_space, A.
Qed.

Lemma targets_names : forall ks, Forall (fun k => is_name k = true) ks -> flat_map targets ks = ks.
Proof. induction 1; [reflexivity|]. cbn. rewrite targets_name by assumption. now rewrite IHForall. Qed.

(** ** Agreement *)

Section Sim.
Variable py : python.
Variables gen user : str -> Prop.
Hypothesis Hy : hygienic py gen user.

Notation agree := (agree gen).

Lemma agree_refl : forall e, agree e e. Proof. now intros e x. Qed.
Lemma agree_set : forall k v e1 e2, agree e1 e2 -> agree (set_var k v e1) (set_var k v e2).
Proof. intros k v e1 e2 A x N0. cbn. destruct (seqb x k); [reflexivity|now apply A]. Qed.
Lemma agree_set_gen : forall k v e1 e2, gen k -> agree e1 e2 -> agree (set_var k v e1) e2.
Proof.
  intros k v e1 e2 G A x N0. cbn. destruct (seqb x k) eqn:E; [|now apply A]. apply seqb_eq in E. now subst.
Qed.
Lemma agree_app : forall r e1 e2, agree e1 e2 -> agree (r ++ e1) (r ++ e2).
Proof.
  induction r as [|[k v] r IH]; intros e1 e2 A; [exact A|]. exact (agree_set k v _ _ (IH _ _ A)).
Qed.

(** ** The simulation relation *)

Definition sim (s : st) (r : result (list value * chain * st)) (m : result (list value * chain * env)) : Prop :=
  match r, m with
  | Ok (o, c, s'), Ok (o', c', e') =>
      same_out o o' /\ (c' = CNone \/ c' = c) /\ agree (s_env s') e' /\
      s_with s' = s_with s /\ s_switch s' = s_switch s
  | Raise x, Raise y => x = y
  | _, _ => False
  end.
(** The same without chains. *)
Definition sim2 (s : st) (r : result (list value * st)) (m : meant) : Prop :=
  match r, m with
  | Ok (o, s'), Ok (o', e') =>
      same_out o o' /\ agree (s_env s') e' /\ s_with s' = s_with s /\ s_switch s' = s_switch s
  | Raise x, Raise y => x = y
  | _, _ => False
  end.

Definition drop_chain (r : result (list value * chain * st)) : result (list value * st) :=
  rmap (fun r => (fst (fst r), snd r)) r.

Lemma sim_sim2 : forall s r m, sim s r m -> sim2 s (drop_chain r) (no_chain m).
Proof. intros s [[[o c] s']|] [[[o' c'] e']|]; cbn; tauto. Qed.

Lemma sim_same : forall s r r' m, same3 r r' -> sim s r' m -> sim s r m.
Proof.
  intros s [[[o c] s']|] [[[o1 c1] s1]|] [[[o' c'] e']|]; cbn; try tauto; try congruence.
  intros [So E] [S1 H]. injection E as <- <-. split; [eapply so_trans; eassumption|exact H].
Qed.

(** Running with chain [c] for the reference's [c']. *)
Definition goes (c c' : chain) : Prop := c' = CNone \/ c' = c.

(** What a piece needs to be able to run: an else needs something to join. *)
Definition joins (p : piece) (c' : chain) : Prop :=
  match p with PcElse _ => c' <> CNone | PcCase _ _ => exists b, c' = CIf b | _ => True end.
Definition gives (p : piece) (c' : chain) : Prop :=
  match p with
  | PcStm (SIf _ _ _) | PcCase _ _ => exists b, c' = CIf b
  | PcStm (SFor _ _ _) => c' = CFor
  | _ => c' = CNone
  end.
Fixpoint fits (k : chain -> Prop) (ps : list piece) : Prop :=
  match ps with
  | [] => True
  | p :: ps' => (forall c', k c' -> joins p c') /\ fits (gives p) ps'
  end.

Lemma step_gives : forall p c' sw e o c2 e2, joins p c' -> step py p c' sw e = Ok (o, c2, e2) -> gives p c2.
Proof.
  intros p c' sw e o c2 e2 J H.
  assert (W : forall c m, with_chain c m = Ok (o, c2, e2) -> c2 = c).
  { intros c [[? ?]|] E; [|discriminate]. cbn in E. congruence. }
  destruct p as [[ | | | | | | | | | ]|b|cd b]; cbn [step gives] in *; try (now apply W in H).
  - destruct (ev_bool py e c) as [[]|]; [| |discriminate]; cbn [rbind] in H.
    + apply W in H. now exists true.
    + exists false. congruence.
  - destruct (ev_for py e d); [|discriminate]. now apply W in H.
  - destruct c' as [|[]|]; [discriminate| | |]; [congruence| |]; now apply W in H.
  - destruct c' as [|[]|]; [discriminate| | |discriminate].
    + exists true. congruence.
    + destruct (ev py e cd); [|discriminate]. cbn [rbind] in H. destruct sw as [|w sw]; [discriminate|].
      destruct (veq py a w); [apply W in H; now exists true|exists false; congruence].
Qed.


Lemma assemble_fits : forall n ps ss k, length ps <= n -> assemble ps = Some ss -> fits k ps.
Proof.
  induction n as [|n IH]; intros ps ss k Hn A.
  { destruct ps; [exact I|cbn in Hn; lia]. }
  destruct ps as [|p ps]; [exact I|]. cbn [length] in Hn.
  destruct p as [s|b|cd b]; [|discriminate A|discriminate A]. split; [intros; exact I|].
  assert (D : assemble (PcStm s :: ps) = option_map (cons s) (assemble ps) -> fits (gives (PcStm s)) ps).
  { intros E. rewrite E in A. destruct (assemble ps) as [ss'|] eqn:E'; [|discriminate].
    apply (IH ps ss'); [lia|exact E']. }
  destruct s as [ |t g|t g|x safe|cd b els|d b els|vars b|d cases els|a v g mode|x g mode]; try (apply D; reflexivity).
  - destruct ps as [|[s2|b2|cd2 b2] ps]; try (apply D; reflexivity).
    cbn [assemble] in A. destruct (assemble ps) as [ss'|] eqn:E; [|discriminate]. cbn [length] in Hn. split.
    + intros c' [t ->]. discriminate.
    + apply (IH ps ss'); [lia|exact E].
  - destruct ps as [|[s2|b2|cd2 b2] ps]; try (apply D; reflexivity).
    cbn [assemble] in A. destruct (assemble ps) as [ss'|] eqn:E; [|discriminate]. cbn [length] in Hn. split.
    + intros c' ->. discriminate.
    + apply (IH ps ss'); [lia|exact E].
Qed.
Lemma switch_fits : forall ps ce, assemble_switch ps = Some ce -> fits (fun c => exists b, c = CIf b) ps.
Proof.
  induction ps as [|p ps IH]; intros ce A; [exact I|].
  destruct p as [s|b|cd b]; [discriminate| |].
  - destruct ps; [|discriminate]. split; [|exact I]. intros c' [t ->]. discriminate.
  - cbn [assemble_switch] in A. destruct (assemble_switch ps) as [ce'|]; [|discriminate].
    split; [intros c' H; exact H|]. exact (IH _ eq_refl).
Qed.

Definition good (n : node) : Prop :=
  forall p, piece_of n = Some p -> well_named gen user n ->
  forall c c' s e, goes c c' -> joins p c' -> agree (s_env s) e ->
    sim s (execs py (program n) c s) (step py p c' (s_switch s) e).

Fixpoint well_names (l : list node) : Prop :=
  match l with [] => True | m :: l' => well_named gen user m /\ well_names l' end.

Lemma sim_seq : forall s r m (f : chain -> st -> result (list value * chain * st)) (g : chain -> env -> result (list value * chain * env)),
  sim s r m ->
  (forall o c s' o' c' e', r = Ok (o, c, s') -> m = Ok (o', c', e') -> goes c c' -> agree (s_env s') e' ->
     s_switch s' = s_switch s -> sim s' (f c s') (g c' e')) ->
  sim s (rbind r (fun r => rmap (fun r' => (fst (fst r) ++ fst (fst r'), snd (fst r'), snd r')) (f (snd (fst r)) (snd r))))
        (rbind m (fun r => rmap (fun r' => (fst (fst r) ++ fst (fst r'), snd (fst r'), snd r')) (g (snd (fst r)) (snd r)))).
Proof.
  intros s [[[o c] s']|] [[[o' c'] e']|] f g; cbn [sim]; try tauto.
  intros (So & G & A & W & S) H. specialize (H _ _ _ _ _ _ eq_refl eq_refl G A S). cbn [rbind fst snd].
    destruct (f c s') as [[[o1 c1] s1]|], (g c' e') as [[[o1' c1'] e1']|]; cbn in *; try tauto.
    destruct H as (So1 & G1 & A1 & W1 & S1). repeat split; try assumption; try congruence. now apply so_app.
Qed.

Lemma good_list : forall l, Forall good l -> forall ps k, pieces_of l = Some ps -> well_names l -> fits k ps ->
  forall c c' s e, k c' -> goes c c' -> agree (s_env s) e ->
    sim s (execs py (flat_map program l) c s) (steps py ps c' (s_switch s) e).
Proof.
  induction 1 as [|n l Gn Gl IH]; intros ps k P W F c c' s e K G A.
  - cbn in P. assert (ps = []) by congruence. subst ps. cbn. repeat split; try assumption. constructor.
  - cbn [pieces_of] in P. destruct (piece_of n) as [p|] eqn:Ep; [|discriminate]. cbn [obind] in P.
    destruct (pieces_of l) as [ps'|] eqn:El; [|discriminate]. assert (ps = p :: ps') by (cbn in P; congruence). subst ps.
    destruct W as [Wn Wl], F as [Fp Fl]. cbn [flat_map]. rewrite execs_app. cbn [steps].
    apply (sim_seq s _ _ (fun c s => execs py (flat_map program l) c s) (fun c' e => steps py ps' c' (s_switch s) e)).
    + now apply (Gn p Ep Wn); [|apply Fp|].
    + intros o c1 s1 o' c1' e1' R M G1 A1 S1. rewrite <- S1.
      apply (IH ps' (gives p) eq_refl Wl Fl); try assumption.
      eapply step_gives; [|exact M]. now apply Fp.
Qed.

(** Bodies. *)
Lemma piece_fresh : forall n p, piece_of n = Some p -> fresh p.
Proof.
  intros n p H.
  destruct n; cbn [piece_of] in H; try discriminate; try (injection H as <-; exact I);
    match type of H with option_map _ ?x = _ => destruct x; [|discriminate] end;
    cbn [option_map] in H; injection H as <-; try exact I; reflexivity.
Qed.
Lemma pieces_fresh : forall l ps, pieces_of l = Some ps -> Forall fresh ps.
Proof.
  induction l as [|n l IH]; intros ps H; cbn [pieces_of] in H.
  - injection H as <-. constructor.
  - destruct (piece_of n) as [p|] eqn:E; [|discriminate]. cbn [obind] in H.
    destruct (pieces_of l) as [ps'|]; [|discriminate]. cbn in H. injection H as <-.
    constructor; [now apply (piece_fresh n)|now apply IH].
Qed.


Lemma good_body : forall l ss, Forall good l -> structure l = Some ss -> well_names l ->
  forall c s e, agree (s_env s) e -> sim2 s (drop_chain (execs py (programs l) c s)) (means py ss e).
Proof.
  intros l ss G S W c s e A. unfold structure in S. destruct (pieces_of l) as [ps|] eqn:E; [|discriminate]. cbn [obind] in S.
  rewrite <- (steps_assemble py (length ps) ps ss CNone (s_switch s) e (le_n _) (pieces_fresh _ _ E) S).
  apply sim_sim2. eapply sim_same; [apply execs_join|].
  apply (good_list l G ps (fun _ => True) E W); [|exact I|now left|exact A].
  eapply assemble_fits; [apply le_n|exact S].
Qed.

Lemma program_bodies : forall l, (fix go (l : list node) : list blk :=
                match l with [] => [] | m :: l' => program m ++ go l' end) l = flat_map program l.
Proof. induction l as [|m l IH]; [reflexivity|]. cbn [flat_map]. now rewrite IH. Qed.

Lemma single : forall b c s, execs py [b] c s = exec py b c s.
Proof.
  intros b c s. cbn [execs]. destruct (exec py b c s) as [[[o c1] s1]|]; [|reflexivity]. cbn. now rewrite app_nil_r.
Qed.

Lemma loop_sim : forall body f rounds s e,
  (forall s e, agree (s_env s) e -> sim2 s (body s) (f e)) ->
  agree (s_env s) e -> sim2 s (loop body rounds s) (for_each f rounds e).
Proof.
  intros body f. induction rounds as [|r rounds IH]; intros s e H A; cbn [loop for_each].
  - cbn. repeat split; try assumption. constructor.
  - specialize (H (set_env s (r ++ s_env s)) (r ++ e) (agree_app r _ _ A)) as H1. unfold then_.
    destruct (body (set_env s (r ++ s_env s))) as [[o s1]|], (f (r ++ e)) as [[o' e1]|]; cbn [sim2] in H1; try contradiction.
    + destruct H1 as (So & A1 & W1 & S1). cbn [rbind fst snd]. specialize (IH s1 e1 H A1).
      destruct (loop body rounds s1) as [[o2 s2]|], (for_each f rounds e1) as [[o2' e2]|]; cbn in *; try contradiction.
      * destruct IH as (So2 & A2 & W2 & S2). repeat split; try congruence; try assumption. now apply so_app.
      * exact IH.
    + cbn. exact H1.
Qed.

(** Same with a chain put on. *)
Definition put_chain {S} (c : chain) (r : result (list value * S)) : result (list value * chain * S) :=
  rmap (fun os => (fst os, c, snd os)) r.
Lemma sim_put : forall c c' s r m, goes c c' -> sim2 s r m -> sim s (put_chain c r) (with_chain c' m).
Proof. intros c c' s [[o s']|] [[o' e']|] G; cbn; tauto. Qed.

Lemma sim_ok : forall c c' s e, goes c c' -> agree (s_env s) e -> sim s (Ok ([], c, s)) (Ok ([], c', e)).
Proof. intros. cbn. repeat split; try assumption. constructor. Qed.
End Sim.
