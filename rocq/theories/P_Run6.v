(** * Whole templates: running generated code and reading the tree *)

From Coq Require Import Ascii String List NArith ZArith Bool Lia Arith.
From Verif Require Import PyStr PyStrLemmas M_Values M_IR S_IR M_Template M_Run S_Run P_IR P_Run1 P_Run2 P_Run3 P_Run4 P_Run5 P_Run11.
From Verif Require M_Exec S_Exec P_Exec2.
Import ListNotations.
Open Scope list_scope.

Ltac spl := repeat match goal with |- _ /\ _ => split end.

Section Sim.
Variable py : python.
Variable gen : str -> Prop.
Hypothesis Hgen : generated_names py gen.

Definition rfun (f : str * bcode) (f' : str * dcode) : Prop :=
  fst f' = fst f /\ a_decl py gen (fst f) /\ rbody py gen (snd f) (snd f').

Notation rworld := (rworld bcode dcode rfun gen).
Notation rplace := (rplace bcode).
Notation grows := (grows bcode).
Notation local_of := (local_of bcode).
Notation rv w := (rgv bcode dcode rfun (length (w_heap w)) (length (w_frames w))).
Notation rload := (rload bcode dcode rfun).
Notation rcallable := (rcallable bcode dcode rfun).

(** The state afterwards: the stacks are as they were. *)
Definition unchanged (s s' : state) : Prop :=
  grows (s_world s) (s_world s') /\
  forall i, i < length (w_heap (s_world s)) -> s_with s' i = s_with s i /\ s_switch s' i = s_switch s i.
Lemma unchanged_refl : forall s, unchanged s s.
Proof. intros s. split; [apply grows_refl|]. intros; now split. Qed.
Lemma unchanged_trans : forall a b c, unchanged a b -> unchanged b c -> unchanged a c.
Proof.
  intros a b c [G1 H1] [G2 H2]. split; [eapply grows_trans; eassumption|]. intros i Hi.
  assert (Hj : i < length (w_heap (s_world b))) by (destruct G1 as ((L & _) & _); lia).
  destruct (H1 i Hi), (H2 i Hj). split; congruence.
Qed.
Lemma unchanged_world : forall s w, grows (s_world s) w -> unchanged s (set_world s w).
Proof. intros s w G. split; [exact G|]. intros; now split. Qed.

(** Running with chain [c] for the reference's [c']. *)
Definition goes (c c' : chain) : Prop := c' = CNone \/ c' = c.
Definition sim (s : state) (r : result (list value * chain * state)) (m : result (list value * chain * dworld)) : Prop :=
  match r, m with
  | Ok (o, c, s'), Ok (o', c', w') => same o o' /\ goes c c' /\ rworld (s_world s') w' /\ unchanged s s'
  | Raise x, Raise y => x = y
  | _, _ => False
  end.
Definition sim2 (s : state) (r : result (list value * state)) (m : meant) : Prop :=
  match r, m with
  | Ok (o, s'), Ok (o', w') => same o o' /\ rworld (s_world s') w' /\ unchanged s s'
  | Raise x, Raise y => x = y
  | _, _ => False
  end.
(** One value. *)
Definition simv (s : state) (r : result (value * state)) (m : result (value * dworld)) : Prop :=
  match r, m with
  | Ok (v, s'), Ok (v', w') => svalue v v' /\ rworld (s_world s') w' /\ unchanged s s'
  | Raise x, Raise y => x = y
  | _, _ => False
  end.

Definition drop_chain (r : result (list value * chain * state)) : result (list value * state) :=
  rmap (fun r => (fst (fst r), snd r)) r.
Lemma sim_sim2 : forall s r m, sim s r m -> sim2 s (drop_chain r) (no_chain m).
Proof. intros s [[[o c] s']|] [[[o' c'] e']|]; cbn; tauto. Qed.
Lemma sim_same : forall s r r' m, same3 r r' -> sim s r' m -> sim s r m.
Proof.
  intros s [[[o c] s']|] [[[o1 c1] s1]|] [[[o' c'] e']|]; cbn; try tauto; try congruence.
  intros (So & -> & ->) [S1 H]. split; [eapply sm_trans; eassumption|exact H].
Qed.
Lemma simv_from : forall s s1 r m, unchanged s s1 -> simv s1 r m -> simv s r m.
Proof.
  intros s s1 [[o s']|] [[o' e']|] U; cbn; try tauto. intros (H1 & H2 & H3). spl; try assumption; eapply unchanged_trans; eassumption.
Qed.
Lemma sim_put : forall c c' s r m, goes c c' -> sim2 s r m -> sim s (rmap (fun os => (fst os, c, snd os)) r) (with_chain c' m).
Proof. intros c c' s [[o s']|] [[o' e']|] G; cbn; tauto. Qed.
Lemma sim_ok : forall c c' s w, goes c c' -> rworld (s_world s) w -> sim s (Ok ([], c, s)) (Ok ([], c', w)).
Proof. intros. cbn. spl; try assumption; try apply sm_refl; apply unchanged_refl. Qed.
Lemma sim_seq : forall s r m (f : chain -> state -> result (list value * chain * state)) (g : chain -> dworld -> result (list value * chain * dworld)),
  sim s r m ->
  (forall o c s' o' c' w', r = Ok (o, c, s') -> m = Ok (o', c', w') -> goes c c' -> rworld (s_world s') w' -> unchanged s s' -> sim s' (f c s') (g c' w')) ->
  sim s (rbind r (fun r => rmap (fun r' => (fst (fst r) ++ fst (fst r'), snd (fst r'), snd r')) (f (snd (fst r)) (snd r))))
        (rbind m (fun r => rmap (fun r' => (fst (fst r) ++ fst (fst r'), snd (fst r'), snd r')) (g (snd (fst r)) (snd r)))).
Proof.
  intros s [[[o c] s']|] [[[o' c'] e']|] f g; cbn [sim]; try tauto.
  intros (So & G & A & U) H. specialize (H _ _ _ _ _ _ eq_refl eq_refl G A U). cbn [rbind fst snd].
  destruct (f c s') as [[[o1 c1] s1]|], (g c' e') as [[[o1' c1'] e1']|]; cbn in *; try tauto.
  destruct H as (So1 & G1 & A1 & U1). split; [now apply sm_app|]. split; [exact G1|]. split; [exact A1|]. eapply unchanged_trans; eassumption.
Qed.

(** Names that are local. *)
Definition here {code : Type} (w : world code) (p : place) (xs : list str) : Prop :=
  exists f ss fr, p_scopes p = f :: ss /\ nth_error (w_frames w) f = Some fr /\
    forall x, In x xs -> smem x (fr_names fr) = true.
Lemma here_kept : forall code (w w1 : world code) p xs, kept w w1 -> here w p xs -> here w1 p xs.
Proof.
  intros code w w1 p xs G (f & ss & fr & E1 & E2 & H). destruct (G f fr E2) as (fr1 & E3 & E4). exists f, ss, fr1. now rewrite E4.
Qed.
Lemma here_grows : forall w w1 p xs, grows w w1 -> here w p xs -> here w1 p xs.
Proof. intros w w1 p xs (_ & _ & G). now apply here_kept. Qed.
Lemma here_incl : forall code (w : world code) p xs ys, incl ys xs -> here w p xs -> here w p ys.
Proof. intros code w p xs ys I (f & ss & fr & E1 & E2 & H). exists f, ss, fr. repeat split; try assumption. intros x Ix. apply H; auto. Qed.
Lemma here_set : forall code (w : world code) p xs x v, here w p xs -> In x xs -> lookup py (set_name w p x v) p x = Ok v.
Proof. intros code w p xs x v (f & ss & fr & E1 & E2 & H) Ix. eapply lookup_set; try eassumption. now apply H. Qed.

Variable load : bool -> str -> result (cls (fobj bcode) (str * bcode)).
Variable load' : bool -> str -> result (cls (fobj dcode) (str * dcode)).
Hypothesis Hload : rload load load'.
Variable invoke : callable bcode -> list (str * bval) -> state -> result (list value * state).
Variable invoke' : callable dcode -> list (str * dval) -> dworld -> meant.

(** Only the code of a function matters once its arguments are bound. *)
Definition rcalled (n m : nat) (c : callable bcode) (c' : callable dcode) : Prop :=
  let '(_, b, i, ss) := c in let '(_, b', i', ss') := c' in
  rbody py gen b b' /\ i' = i /\ i < n /\ ss' = ss /\ Forall (fun f => f < m) ss.
Lemma rcallable_called : forall n m c c', rcallable n m c c' -> rcalled n m c c'.
Proof. intros n m [[[d b] i] ss] [[[d' b'] i'] ss'] ((_ & _ & H1) & H2). now split. Qed.
Definition invokes : Prop := forall c c' params params' s w,
  rworld (s_world s) w -> rcalled (length (w_heap (s_world s))) (length (w_frames (s_world s))) c c' ->
  ralist (rv (s_world s)) params params' -> Forall (fun xv => a_name gen (fst xv)) params ->
  sim2 s (invoke c params s) (invoke' c' params' w).
Hypothesis Hinv : invokes.
Hypothesis Hkept : keeping invoke'.
Variable p : place.

Notation exec := (exec py load invoke p).
Notation execs := (execs py load invoke p).
Notation meaning := (meaning py load' invoke' p).
Notation means := (means py load' invoke' p).
Notation step := (step py load' invoke' p).
Notation steps := (steps py load' invoke' p).
Notation all_names := (all_names py).
Notation well_named := (well_named py gen).
Notation well_names := (well_names py gen).

Lemma place_after : forall s s', unchanged s s' -> rplace (s_world s) p -> rplace (s_world s') p.
Proof. intros s s' [G _]. now apply rplace_grows. Qed.
Lemma here_after : forall s s' xs, unchanged s s' -> here (s_world s) p xs -> here (s_world s') p xs.
Proof. intros s s' xs [G _]. now apply here_grows. Qed.
Lemma switch_after : forall s s' w, unchanged s s' -> rworld (s_world s) w -> rplace (s_world s) p ->
  s_switch s' (local_of (s_world s') p) = s_switch s (local_of (s_world s) p).
Proof.
  intros s s' w [G U] R P. rewrite (local_grows _ _ _ _ P G). apply U. now apply (instance_local bcode dcode rfun py gen (s_world s) w p R P).
Qed.

Definition good (n : node) : Prop :=
  forall pc, piece_of n = Some pc -> well_named n ->
  forall c c' s w, goes c c' -> joins pc c' -> rworld (s_world s) w -> rplace (s_world s) p -> here (s_world s) p (all_names (program n)) -> here w p (pbinds py pc) ->
    sim s (execs (program n) c s) (step pc c' (s_switch s (local_of (s_world s) p)) w).

Lemma good_list : forall l, Forall good l -> forall ps k, pieces_of l = Some ps -> well_names l -> fits k ps ->
  forall c c' s w, k c' -> goes c c' -> rworld (s_world s) w -> rplace (s_world s) p -> here (s_world s) p (all_names (flat_map program l)) -> here w p (flat_map (pbinds py) ps) ->
    sim s (execs (flat_map program l) c s) (steps ps c' (s_switch s (local_of (s_world s) p)) w).
Proof.
  induction 1 as [|n l Gn Gl IH]; intros ps k P W F c c' s w K G A Pl Hr Hd.
  - cbn in P. assert (ps = []) as -> by congruence. now apply sim_ok.
  - cbn [pieces_of] in P. destruct (piece_of n) as [pc|] eqn:Ep; [|discriminate]. cbn [S_Exec.obind] in P.
    destruct (pieces_of l) as [ps'|] eqn:El; [|discriminate]. assert (ps = pc :: ps') as -> by (cbn in P; congruence).
    destruct W as [Wn Wl], F as [Fp Fl]. cbn [flat_map] in *. rewrite execs_app. rewrite names_app in Hr. cbn [P_Run4.steps].
    apply (sim_seq s _ _ (fun c s => execs (flat_map program l) c s) (fun c' w => steps ps' c' (s_switch s (local_of (s_world s) p)) w)).
    + apply (Gn pc Ep Wn); auto; (eapply here_incl; [|eassumption]; apply incl_appl, incl_refl).
    + intros o c1 s1 o' c1' w1' R M G1 A1 U1. rewrite <- (switch_after s s1 w) by assumption.
      apply (IH ps' (gives k pc) eq_refl Wl Fl); try assumption.
      * eapply step_gives; [exact K| |exact M]. now apply Fp.
      * now apply (place_after s).
      * apply (here_after s); [exact U1|]. eapply here_incl; [|exact Hr]. apply incl_appr, incl_refl.
      * apply (here_kept _ w); [eapply step_kept; [exact Hkept|exact M]|]. eapply here_incl; [|exact Hd]. apply incl_appr, incl_refl.
Qed.

Lemma good_body : forall l ss, Forall good l -> structure l = Some ss -> well_names l ->
  forall c s w, rworld (s_world s) w -> rplace (s_world s) p -> here (s_world s) p (all_names (programs l)) -> here w p (flat_map (binds py) ss) ->
    sim2 s (drop_chain (execs (programs l) c s)) (means ss w).
Proof.
  intros l ss G S W c s w A P Hr Hd. unfold structure in S. destruct (pieces_of l) as [ps|] eqn:E; [|discriminate]. cbn [S_Exec.obind] in S.
  rewrite <- (steps_assemble py load' invoke' p ps ss CNone (s_switch s (local_of (s_world s) p)) w (pieces_fresh _ _ E) S).
  apply sim_sim2. eapply sim_same; [apply execs_join|]. unfold programs in Hr. rewrite names_join in Hr.
  apply (good_list l G ps (fun _ => True) E W); [|exact Logic.I|now left|assumption..|].
  - eapply assemble_fits. exact S.
  - eapply here_incl; [|exact Hd]. intros x. now apply (assemble_binds py ps ss (pieces_fresh _ _ E) S).
Qed.

Lemma loop_sim : forall body f xs ys l l' s w,
  (forall s w, rworld (s_world s) w -> rplace (s_world s) p -> here (s_world s) p xs -> here w p ys -> sim2 s (body s) (f w)) ->
  (forall w o w', f w = Ok (o, w') -> kept w w') ->
  rworld (s_world s) w -> rplace (s_world s) p -> here (s_world s) p xs -> here w p ys -> rrounds bcode dcode rfun l l' ->
  sim2 s (loop p body l s) (for_each p f l' w).
Proof.
  intros body f xs ys l l' s w H K A P Hr Hd R. revert s w A P Hr Hd. induction R as [|r r' l l' R0 R IH]; intros s w A P Hr Hd; cbn [loop for_each].
  - cbn. spl; try assumption; try apply sm_refl; apply unchanged_refl.
  - set (s1 := set_world s (set_names (s_world s) p r)). set (w1 := set_names w p r').
    assert (U1 : unchanged s s1) by (apply unchanged_world, set_names_grows).
    assert (A1 : rworld (s_world s1) w1).
    { apply set_names_rel; [exact A|]. revert R0. apply ralist_impl. intros x y. apply rgv_mono; lia. }
    assert (Hd1 : here w1 p ys) by (apply (here_kept _ w); [apply kept_sets|exact Hd]).
    pose proof (H s1 w1 A1 (place_after _ _ U1 P) (here_after _ _ _ U1 Hr) Hd1) as H1. unfold then_.
    destruct (body s1) as [[o s2]|], (f w1) as [[o' w2]|] eqn:Ef; cbn [sim2] in H1; try contradiction; [|exact H1].
    destruct H1 as (So & A2 & U2). cbn [rbind fst snd]. pose proof (unchanged_trans _ _ _ U1 U2) as U3.
    specialize (IH s2 w2 A2 (place_after _ _ U3 P) (here_after _ _ _ U3 Hr) (here_kept _ _ _ _ _ (K _ _ _ Ef) Hd1)).
    destruct (loop p body l s2) as [[o2 s3]|], (for_each p f l' w2) as [[o2' w3]|]; cbn in *; try contradiction; [|exact IH].
    destruct IH as (So2 & A3 & U4). split; [now apply sm_app|]. split; [exact A3|]. eapply unchanged_trans; eassumption.
Qed.

(** ** Showing *)
Notation rargs w := (Forall2 (fun (a : option str * bval) (b : option str * dval) => fst a = fst b /\ rv w (snd a) (snd b))).
Lemma call_sim : forall c c' args args' s w, rworld (s_world s) w ->
  rcallable (length (w_heap (s_world s))) (length (w_frames (s_world s))) c c' -> rargs (s_world s) args args' ->
  simv s (call_function py invoke c args s) (call_function py invoke' c' args' w).
Proof.
  intros c c' args args' s w A C R. unfold call_function. pose proof (rcallable_called _ _ _ _ C) as C'.
  destruct c as [[[d b] i] ss], c' as [[[d' b'] i'] ss']. cbn [fst snd]. pose proof C as ((D1 & D2 & D3) & _). cbn [fst snd] in *. subst d'.
  pose proof (bind_args_rel bcode dcode rfun py gen (s_world s) w d args args' A D2 R) as BR.
  destruct (bind_args py d args) as [ps|], (bind_args py d args') as [ps'|]; cbn [rres] in BR; try contradiction; [|exact BR].
  destruct BR as [BR BN]. cbn [rbind]. pose proof (Hinv _ _ ps ps' s w A C' BR BN) as HI.
  destruct (invoke _ ps s) as [[o s1]|], (invoke' _ ps' w) as [[o' w1]|]; cbn in *; try contradiction; [|exact HI].
  destruct HI as (So & A1 & U1). split; [|now split]. right. exists o, o'. now repeat split.
Qed.
Notation agrees := (agrees bcode dcode rfun py).
Lemma show_agrees : forall x s w, rworld (s_world s) w -> Forall (agrees (s_world s) w p) (expr_names (parse py x)) ->
  simv s (show_value py s_world invoke p x s) (show_value py (fun w => w) invoke' p x w).
Proof.
  intros x s w A U. unfold show_value.
  assert (D : simv s (rmap (fun v => (v, s)) (evalue py (s_world s) p x)) (rmap (fun v => (v, w)) (evalue py w p x))).
  { pose proof (eval_rel bcode dcode rfun py gen (s_world s) w p (parse py x) A U) as ER. unfold evalue.
    destruct (eval py (s_world s) p (parse py x)) as [v|], (eval py w p (parse py x)) as [v'|]; cbn [rres] in ER; try contradiction; [|exact ER].
    cbn. rewrite (as_value_rel _ _ _ _ _ _ _ ER). split; [now left|]. split; [exact A|apply unchanged_refl]. }
  destruct (parse py x) as [y|o k|ys f|c args]; try exact D. cbn [expr_names] in U. apply Forall_app in U as [U1 U2].
  pose proof (find_callee_rel bcode dcode rfun py gen (s_world s) w p c A U1) as FC.
  destruct (find_callee py (s_world s) p c) as [fo|], (find_callee py w p c) as [fo'|]; cbn [rres] in FC; try contradiction; [|exact FC].
  cbn [rbind]. destruct fo, fo'; cbn [rfound] in FC; try contradiction; try exact D.
  pose proof (eval_args_rel bcode dcode rfun py (s_world s) w p args U2) as EA.
  destruct (eval_args py (s_world s) p args) as [a1|], (eval_args py w p args) as [a2|]; cbn [rres] in EA; try contradiction; [|exact EA].
  cbn [rbind]. now apply call_sim.
Qed.
Lemma show_sim : forall x s w, rworld (s_world s) w -> user py gen x ->
  simv s (show_value py s_world invoke p x s) (show_value py (fun w => w) invoke' p x w).
Proof. intros x s w A U. apply show_agrees; [exact A|]. now apply (user_agrees bcode dcode rfun py gen). Qed.
Lemma simv_sim : forall (f : value -> value) s r m, (forall v v', svalue v v' -> same [f v] [f v']) -> simv s r m ->
  sim s (rmap (fun vs => ([f (fst vs)], CNone, snd vs)) r) (with_chain CNone (rmap (fun vw => ([f (fst vw)], snd vw)) m)).
Proof.
  intros f s [[v s1]|] [[v' w1]|] F; cbn; try tauto. intros (H1 & H2 & H3). split; [now apply F|]. split; [now left|]. now split.
Qed.

(** ** Guards *)
Lemma guarded_sim : forall g r r' s w, user_guard py gen g -> rworld (s_world s) w -> r = r' ->
  sim s (guarded py p (truthy_guard g) r s) (step_under py p g CNone w (rmap (fun v => ([v], w)) r')).
Proof.
  intros g r r' s w U A <-. unfold guarded, step_under, user_guard in *. destruct (truthy_guard g) as [x|].
  - rewrite (condition_rel bcode dcode rfun py gen (s_world s) w p x A U). destruct (condition py w p x) as [b|]; [|reflexivity]. cbn [rbind].
    destruct b; [destruct r|]; cbn; try reflexivity; (split; [constructor|]); (split; [now right|]); (split; [exact A|apply unchanged_refl]).
  - destruct r; [|reflexivity]. cbn. split; [constructor|]. split; [now left|]. split; [exact A|apply unchanged_refl].
Qed.
Lemma under_sim : forall g l c c1 s w m, user_guard py gen g -> rworld (s_world s) w ->
  (forall c, sim s (execs l c s) (with_chain c1 m)) ->
  sim s (execs (match truthy_guard g with Some cd => [Bl (PIf cd) l] | None => l end) c s)
        (step_under py p g c1 w m).
Proof.
  intros g l c c1 s w m U A H. unfold step_under, user_guard in *. destruct (truthy_guard g) as [x|]; [|apply H].
  rewrite single, exec_bl. cbn [exec_block]. rewrite (condition_rel bcode dcode rfun py gen (s_world s) w p x A U).
  destruct (condition py w p x) as [b|]; [|reflexivity]. cbn [rbind]. destruct b.
  - specialize (H CNone). destruct (execs l CNone s) as [[[o c2] s1]|], m as [[o' e']|]; cbn in *; try tauto.
    destruct H as (H1 & H2 & H3 & H4). spl; try assumption; now right.
  - apply sim_ok; [now right|exact A].
Qed.

(** The loop that writes attributes. *)
Lemma write_chunks : forall x body chunks xs s w, gen x -> In x xs ->
  (forall s, body s = rmap (fun r => (fst (fst r), snd r)) (execs [St (PYield x)] CNone s)) ->
  rworld (s_world s) w -> here (s_world s) p xs ->
  exists s', loop p body (map (fun t => [(x, val (VStr t))]) chunks) s = Ok (map VStr chunks, s') /\ rworld (s_world s') w /\ unchanged s s'.
Proof.
  intros x body chunks xs s w G Ix B. revert s. induction chunks as [|t chunks IH]; intros s A Hr; cbn [map loop set_names].
  - exists s. split; [reflexivity|]. split; [exact A|apply unchanged_refl].
  - set (s1 := set_world s (set_name (s_world s) p x (val (VStr t)))). rewrite B. rewrite single. cbn [M_Run.exec exec_stmt].
    assert (U1 : unchanged s s1) by (apply unchanged_world, set_name_grows).
    assert (A1 : rworld (s_world s1) w) by (now apply set_name_gen).
    unfold show_value, evalue. destruct (Hgen x G) as [Px _]. rewrite Px. cbn [eval].
    change (s_world s1) with (set_name (s_world s) p x (val (VStr t))) at 1. rewrite (here_set _ _ p xs x _ Hr Ix). cbn [rmap rbind fst snd as_value val].
    destruct (IH s1 A1 (here_after _ _ _ U1 Hr)) as (s' & E & A' & U'). rewrite E. cbn [rmap fst snd app].
    exists s'. split; [reflexivity|]. split; [exact A'|]. eapply unchanged_trans; eassumption.
Qed.

(** ** [py:with] *)
Lemma execs_assigns : forall vars c s w,
  Forall (fun kx : str * str => M_Exec.is_name (fst kx) = true /\ a_name gen (fst kx) /\ user py gen (snd kx)) vars ->
  rworld (s_world s) w ->
  match assigns py p vars w with
  | Ok w1 => exists c1 s1, execs (map (fun kv => St (PAssign (fst kv) (snd kv))) vars) c s = Ok ([], c1, s1) /\
      rworld (s_world s1) w1 /\ unchanged s s1
  | Raise x => execs (map (fun kv => St (PAssign (fst kv) (snd kv))) vars) c s = Raise x
  end.
Proof.
  induction vars as [|[k x] vars IH]; intros c s w F A; cbn [assigns map].
  - exists c, s. split; [reflexivity|]. split; [exact A|apply unchanged_refl].
  - apply Forall_cons_iff in F as [(Kn & Kg & Ux) Fv]. cbn [fst snd] in *. cbn [M_Run.execs M_Run.exec exec_stmt].
    rewrite (P_Exec2.targets_name k Kn), Kn.
    pose proof (eval_rel bcode dcode rfun py gen (s_world s) w p (parse py x) A (user_agrees _ _ _ _ _ _ _ _ _ A Ux)) as ER.
    destruct (eval py (s_world s) p (parse py x)) as [v|], (eval py w p (parse py x)) as [v'|]; cbn [rres] in ER; try contradiction.
    2:{ cbn. now rewrite ER. }
    cbn [rbind rmap fst snd].
    set (s1 := set_world s (set_name (s_world s) p k v)).
    assert (U1 : unchanged s s1) by (apply unchanged_world, set_name_grows).
    assert (A1 : rworld (s_world s1) (set_name w p k v')) by (now apply set_name_rel).
    specialize (IH CNone s1 (set_name w p k v') Fv A1).
    destruct (assigns py p vars (set_name w p k v')) as [w1|]; [|now rewrite IH].
    destruct IH as (c1 & s2 & E & A2 & U2). exists c1, s2. rewrite E. split; [reflexivity|]. split; [exact A2|]. eapply unchanged_trans; eassumption.
Qed.
Lemma old_rel : forall s w ks, rworld (s_world s) w -> Forall (fun k => ~ gen k) ks ->
  ralist (rv (s_world s)) (combine ks (map (fun k => match local_value (s_world s) p k with Some v => v | None => val M_Exec.unit_value end) ks)) (old_values p ks w).
Proof.
  intros s w ks A F. induction F as [|k ks K F IH]; [constructor|]. cbn [map combine old_values]. constructor; [|exact IH]. split; [reflexivity|]. cbn [snd].
  pose proof (local_value_rel bcode dcode rfun gen (s_world s) w p k A K) as LV. destruct (local_value _ p k), (local_value w p k); try contradiction; [exact LV|constructor].
Qed.

(** ** Other templates *)
Lemma new_unchanged : forall s w1, grows (s_world s) w1 -> unchanged s (new_stacks s w1 (length (w_heap (s_world s)))).
Proof.
  intros s w1 G. split; [exact G|]. intros i Hi. cbn [new_stacks s_with s_switch]. unfold upd. replace (Nat.eqb i _) with false by (symmetry; apply Nat.eqb_neq; lia). now split.
Qed.
Lemma other_sim : forall s r r', rres (rother bcode dcode rfun gen (s_world s)) r r' ->
  sim s (rbind r (fun wr => let s := new_stacks s (fst wr) (snd wr) in
           rbind (main_of py (w_heap (s_world s)) (snd wr)) (fun c =>
           rmap (fun vs => ([fst vs], CNone, snd vs)) (call_function py invoke c [] s))))
        (with_chain CNone (rbind r' (fun wr => rbind (main_of py (w_heap (fst wr)) (snd wr)) (fun c => show_call py invoke' c (fst wr))))).
Proof.
  intros s [[w1 i]|] [[w1' i']|] H; cbn [rres] in H; try contradiction; [|exact H]. destruct H as (A1 & E1 & E2 & E3 & G1). cbn [fst snd] in *. subst i' i.
  cbn [rbind fst snd]. cbv zeta. change (s_world (new_stacks s w1 (length (w_heap (s_world s))))) with w1. pose proof (new_unchanged s w1 G1) as U1.
  set (s1 := new_stacks s w1 (length (w_heap (s_world s)))) in *. pose proof A1 as (AH & _).
  pose proof (main_of_rel bcode dcode rfun py _ _ _ (length (w_heap (s_world s))) AH) as MR.
  destruct (main_of py (w_heap w1) _) as [c|], (main_of py (w_heap w1') _) as [c'|]; cbn [rres] in MR; try contradiction; [|exact MR]. cbn [rbind].
  unfold show_call. apply (simv_sim (fun v => v)); [apply svalue_same|]. eapply simv_from; [exact U1|]. apply call_sim; [exact A1|exact MR|constructor].
Qed.
End Sim.
