(** * Renderings at the same time: all schedules *)

From Coq Require Import Ascii String List NArith ZArith Bool Lia Arith.
From Verif Require Import PyStr PyStrLemmas M_Values S_Values P_Values M_IR S_IR M_Template M_Run M_Conc S_Conc.
From Verif Require Import P_Run1.
From Verif Require Import P_Conc1 P_Conc2 P_Conc3 P_Conc4.
From Verif Require M_Exec P_Exec.
Import ListNotations.
Open Scope list_scope.

(** ** Classes of files have plain globals *)
Lemma objects_plain : forall l, plain bcode (objects l).
Proof. intros l m. unfold objects. induction l as [|[k v] l IH]; constructor; [split; [reflexivity|constructor]|exact IH]. Qed.
Lemma update_plain : forall d d', plain bcode d -> plain bcode d' -> plain bcode (update _ _ d d').
Proof. intros d d' H H' m. apply rupdate; [apply H'|apply H]. Qed.
Lemma class_plain : forall f c, class_of f = Ok c -> plain bcode (base_globals _ _ c).
Proof.
  intros [[t g] md] c. unfold class_of. destruct (M_Exec.parses _); [|discriminate]. unfold template_class. destruct (class_functions _) as [fs|]; cbn [option_map]; [|discriminate].
  intros E. assert (c = from_ir _ _ (class_methods fs) (objects g) (objects md)) as -> by congruence. cbn. apply update_plain; apply objects_plain.
Qed.

Section System.
Variable py : python.
Variable files : bool -> str -> result file.
Notation load := (load_file files).
Notation iter := (iter py load).
Notation reach := (reach py load).
Notation fails := (fails py load).

Lemma load_plain : plain_load bcode load.
Proof. intros b t c. unfold load_file. destruct (files b t) as [f|e]; [|discriminate]. cbn [rbind]. apply class_plain. Qed.

Definition none : maps := Maps [] [] [].
Lemma at_none : forall i j, ~ is_at [] i j. Proof. intros [|i] j E; discriminate E. Qed.
Lemma rstate_none : forall s, rstate none empty_state s.
Proof.
  intros s. split; [split; [split; [|split]|]|].
  - split; [reflexivity|]. split; [constructor|]. intros i j E. now apply at_none in E.
  - intros i [].
  - intros i [].
  - split; [reflexivity|]. split; [constructor|]. intros i j E. now apply at_none in E.
  - intros i j E. now apply at_none in E.
Qed.

(** ** Alone *)
Definition start (j : job) : thread * state :=
  let '(depth, f, context) := j in
  match class_of f with
  | Ok c => begin py depth c (objects context) empty_state
  | Raise x => (Failed x, empty_state)
  end.
Definition solo (j : job) (n : nat) : thread * state := iter n (start j).

Lemma iter_rel : forall n m a b, rthread m (fst a) (fst b) -> rstate m (snd a) (snd b) -> exists m', rthread m' (fst (iter n a)) (fst (iter n b)) /\ rstate m' (snd (iter n a)) (snd (iter n b)).
Proof.
  induction n as [|n IH]; intros m a b T H; [eauto|]. cbn [P_Conc4.iter]. destruct (step_rel py load load_plain m _ _ _ _ H T) as (m1 & T1 & H1 & _). eapply IH; eassumption.
Qed.
(** The stacks of the first instance are empty, as those of [run_template]. *)
Lemma start_ends : forall j, exists n, ended (fst (solo j n)) = Some (alone py files j).
Proof.
  intros [[depth f] context]. unfold solo, start, alone, run_file. fold (load_file files). destruct (class_of f) as [c|x] eqn:Ec; cbn [rbind]; [|exists 0; reflexivity].
  pose proof (class_plain _ _ Ec) as PC. pose proof (objects_plain context) as PX. unfold run_template, begin.
  change (w_heap (s_world empty_state)) with (@nil (inst (fobj bcode) (str * bcode))). change (w_frames (s_world empty_state)) with (@nil (frame bcode)).
  destruct (good_new _ none [] [] c (Given _ _ (objects context)) (Given _ _ (objects context)) (proj1 (proj1 (rstate_none empty_state))) PC (conj eq_refl PX)) as [G _].
  assert (Es : snd (new _ _ [] c (Given _ _ (objects context))) = 0) by reflexivity.
  destruct (new _ _ [] c (Given _ _ (objects context))) as [h i]. cbn [fst snd length] in *. subst i.
  set (s0 := State (World h []) (fun _ => []) (fun _ => [])). set (s1 := new_stacks empty_state (World h []) 0).
  assert (R : rstate (newborn none 0) s1 s0).
  { split; [split; [exact G|]|].
    - split; [reflexivity|]. split; [constructor|]. intros i j E. now apply at_none in E.
    - intros i j _. cbn. unfold upd. destruct (Nat.eqb i 0); split; try reflexivity; constructor. }
  assert (M : match main_of py h 0 with
    | Ok f => rbind (bind_args py (fst (fst (fst f))) []) (fun params => invoke py load depth f params s0)
    | Raise e => Raise e end = rbind (call_main py s0 0) (fun o => match o with Some q => invoke py load depth (c_fun q) (c_params q) s0 | None => Raise "" end)).
  { unfold call_main. cbn [s_world s0 w_heap]. destruct (main_of py h 0) as [f0|e]; cbn [rbind]; [|reflexivity]. now destruct (bind_args py _ []). }
  match goal with |- exists n, _ = Some ?r => assert (EQ : r = rmap (fun os => render [VFlat (fst os)]) (match main_of py h 0 with
    | Ok f => rbind (bind_args py (fst (fst (fst f))) []) (fun params => invoke py load depth f params s0)
    | Raise e => Raise e end)) end.
  { destruct (main_of py h 0) as [f0|e]; cbn [rbind rmap]; [|reflexivity]. unfold call_function. destruct (bind_args py _ []) as [l|e]; cbn [rbind rmap]; [|reflexivity].
    unfold load_file. fold s0. now destruct (invoke _ _ depth f0 l s0) as [[o s]|e]. }
  rewrite EQ, M. clear EQ M.
  pose proof (call_main_rel py (newborn none 0) s1 s0 0 0 R eq_refl) as CR.
  destruct (call_main py s1 0) as [q|e] eqn:E1, (call_main py s0 0) as [q'|e'] eqn:E0; cbn [rres] in CR; try contradiction.
  2: { subst e'. exists 0. reflexivity. }
  destruct q as [q|]; [|destruct (main_never_none _ _ _ E1)]. destruct q' as [q'|]; [|contradiction]. cbn [ropt] in CR. cbn [attempt rbind].
  assert (Q' : c_end q' = IShow /\ c_state q' = s0).
  { clear - E0. unfold call_main in E0. destruct (main_of py _ 0) as [f0|e]; cbn [rbind] in E0; [|discriminate E0]. destruct (bind_args py _ []) as [l|e]; cbn [rmap] in E0; [|discriminate E0].
    assert (q' = Pending f0 l IShow s0) as -> by congruence. now split. }
  destruct Q' as [Q1 Q2].
  destruct (enter_rel py (newborn none 0) s0 depth [] [] [] q q' (Forall2_nil _) CR) as (m2 & T2 & R2 & _).
  pose proof (enter_done py load depth q' Q1) as D. rewrite Q2 in D.
  destruct (invoke py load depth (c_fun q') (c_params q') s0) as [[o s]|e].
  - destruct D as (s2 & n & D). exists n. destruct (iter_rel n m2 _ _ T2 R2) as (m3 & T3 & _). rewrite D in T3. cbn [fst] in T3.
    destruct (fst (iter n (enter py depth [] [] q))) as [d1 o1 l1|o1|e1]; cbn in T3; try contradiction. subst. reflexivity.
  - destruct D as (n & s2 & D). exists n. destruct (iter_rel n m2 _ _ T2 R2) as (m3 & T3 & _). rewrite D in T3. cbn [fst] in T3.
    destruct (fst (iter n (enter py depth [] [] q))) as [d1 o1 l1|o1|e1]; cbn in T3; try contradiction. subst. reflexivity.
Qed.
Lemma ended_stays : forall n x r, ended (fst x) = Some r -> iter n x = x.
Proof. intros n [t s] r E. apply iter_done. intros d o l ->. discriminate E. Qed.
Lemma solo_end : forall j n r, ended (fst (solo j n)) = Some r -> r = alone py files j.
Proof.
  intros j n r E. destruct (start_ends j) as [n0 E0]. unfold solo in *. destruct (Nat.le_ge_cases n n0) as [Le|Le].
  - replace n0 with (n + (n0 - n)) in E0 by lia. rewrite iter_add, (ended_stays _ _ _ E) in E0. congruence.
  - replace n with (n0 + (n - n0)) in E by lia. rewrite iter_add, (ended_stays _ _ _ E0) in E. congruence.
Qed.

(** ** Together *)
Definition apart (m m' : maps) : Prop := (forall x, In x (mi m) -> ~ In x (mi m')) /\ (forall x, In x (mf m) -> ~ In x (mf m')).
Lemma apart_sym : forall m m', apart m m' -> apart m' m.
Proof. intros m m' [H1 H2]. split; intros x Hx Hy; [now apply (H1 x)|now apply (H2 x)]. Qed.
Lemma others_keep : forall m s s0 m1 m2 s1, rstate m s s0 -> smoves m1 m2 s0 s1 -> apart m m1 -> rstate m s s1.
Proof.
  intros m s s0 m1 m2 s1 [[[(L1 & N1 & H1) [Ch Be]] (L2 & N2 & H2)] SS] [(_ & [K1 K1'] & [K2 K2']) KS] [A1 A2].
  split; [split; [split; [|split; [exact Ch|exact Be]]|]|].
  - split; [exact L1|]. split; [exact N1|]. intros i j Hij. destruct (H1 i j Hij) as (x & y & X & Y & R). exists x, y. split; [exact X|]. split; [|exact R].
    rewrite K1'; [exact Y|apply nth_error_Some; congruence|]. apply A1. exact (at_in _ _ _ Hij).
  - split; [exact L2|]. split; [exact N2|]. intros i j Hij. destruct (H2 i j Hij) as (x & y & X & Y & R). exists x, y. split; [exact X|]. split; [|exact R].
    rewrite K2'; [exact Y|apply nth_error_Some; congruence|]. apply A2. exact (at_in _ _ _ Hij).
  - intros i j Hij. destruct (SS i j Hij) as [S1 S2]. destruct (H1 i j Hij) as (x & y & X & Y & R).
    destruct (KS j) as [E1 E2]; [apply nth_error_Some; congruence|apply A1; exact (at_in _ _ _ Hij)|]. now rewrite E1, E2.
Qed.
Lemma apart_moves : forall m s s0 m1 m2 s1, rstate m s s0 -> smoves m1 m2 s0 s1 -> apart m m1 -> apart m m2.
Proof.
  intros m s s0 m1 m2 s1 [[[H1 _] H2] _] [((a & b & E1 & E2 & _ & F1 & F2) & _) _] [A1 A2]. split.
  - intros x Hx. rewrite E1, in_app_iff. intros [Hy|Hy]; [now apply (A1 x)|]. rewrite Forall_forall in F1. specialize (F1 x Hy). pose proof (rheap_in _ _ _ _ _ H1 Hx). lia.
  - intros x Hx. rewrite E2, in_app_iff. intros [Hy|Hy]; [now apply (A2 x)|]. rewrite Forall_forall in F2. specialize (F2 x Hy). pose proof (rframes_in _ _ _ _ _ H2 Hx). lia.
Qed.

Lemma jobs_app : forall a b, jobs (a ++ b) = jobs a ++ jobs b. Proof. intros. apply flat_map_app. Qed.
Lemma turns_app : forall k a b n, turns n k (a ++ b) = turns n k a + turns (n + length (jobs a)) k b.
Proof.
  intros k. induction a as [|[d f c|j] a IH]; intros b n; cbn [app turns jobs flat_map length].
  - now rewrite Nat.add_0_r.
  - rewrite IH. cbn [app length]. f_equal. f_equal. fold (jobs a). lia.
  - rewrite IH. fold (jobs a). lia.
Qed.
Lemma turns_none : forall k l, length (jobs l) <= k -> turns 0 k l = 0.
Proof.
  intros k l. enough (H : forall n, n + length (jobs l) <= k -> turns n k l = 0) by (intros Hk; now apply H).
  induction l as [|[d f c|j] l IH]; intros n Hk; cbn [turns]; [reflexivity| |].
  - apply IH. cbn [jobs flat_map app length] in Hk. fold (jobs l) in Hk. lia.
  - cbn [jobs flat_map app] in Hk. fold (jobs l) in Hk. rewrite IH by exact Hk. destruct (Nat.ltb_spec k n); [lia|]. now rewrite andb_false_r.
Qed.

(** Every rendering is where it would be alone after as many steps. *)
Definition coupled (l : list event) (y : system) (ms : list maps) : Prop :=
  length ms = length (jobs l) /\ length (threads y) = length (jobs l) /\
  (forall k j m t, nth_error (jobs l) k = Some j -> nth_error ms k = Some m -> nth_error (threads y) k = Some t ->
     rthread m (fst (solo j (turns 0 k l))) t /\ rstate m (snd (solo j (turns 0 k l))) (shared y)) /\
  (forall k k' m m', nth_error ms k = Some m -> nth_error ms k' = Some m' -> k <> k' -> apart m m').

Fixpoint setm (l : list maps) (k : nat) (x : maps) : list maps :=
  match l, k with [], _ => [] | _ :: l', O => x :: l' | y :: l', S k' => y :: setm l' k' x end.
Lemma setm_length : forall l k x, length (setm l k x) = length l.
Proof. induction l as [|y l IH]; intros [|k] x; cbn; auto. Qed.
Lemma nth_setm : forall l k x i, nth_error (setm l k x) i = if Nat.eqb k i then match nth_error l i with Some _ => Some x | None => None end else nth_error l i.
Proof. induction l as [|y l IH]; intros [|k] x [|i]; cbn [setm nth_error Nat.eqb]; try reflexivity; [now destruct (Nat.eqb k i)|apply IH]. Qed.
Lemma replace_length : forall l k x, length (replace_thread l k x) = length l.
Proof. induction l as [|y l IH]; intros [|k] x; cbn; auto. Qed.
Lemma nth_replace : forall l k x i, nth_error (replace_thread l k x) i = if Nat.eqb k i then match nth_error l i with Some _ => Some x | None => None end else nth_error l i.
Proof. induction l as [|y l IH]; intros [|k] x [|i]; cbn [replace_thread nth_error Nat.eqb]; try reflexivity; [now destruct (Nat.eqb k i)|apply IH]. Qed.
Lemma nth_lt : forall T (l : list T) i x, nth_error l i = Some x -> i < length l.
Proof. intros T l i x E. apply nth_error_Some. congruence. Qed.
Lemma nth_ex : forall T (l : list T) i, i < length l -> exists x, nth_error l i = Some x.
Proof. intros T l i H. apply nth_error_Some in H. destruct (nth_error l i); [eauto|congruence]. Qed.

Lemma iter_last : forall n x, iter (n + 1) x = step py load (fst (iter n x)) (snd (iter n x)).
Proof. intros n x. rewrite iter_add. reflexivity. Qed.
Lemma nth_snoc : forall T (l : list T) x i y, nth_error (l ++ [x]) i = Some y -> (i < length l /\ nth_error l i = Some y) \/ (i = length l /\ y = x).
Proof.
  intros T l x i y E. destruct (Nat.lt_ge_cases i (length l)) as [Hl|Hl]; [left; split; [exact Hl|now rewrite nth_error_app1 in E]|right].
  pose proof (nth_lt _ _ _ _ E) as Lt. rewrite app_length in Lt. cbn [length] in Lt. assert (i = length l) by lia. subst i. split; [reflexivity|].
  rewrite nth_error_app2, Nat.sub_diag in E by lia. cbn in E. congruence.
Qed.
Lemma begin_next : forall j s, exists m, forall d f c, j = (d, f, c) ->
  let r := match class_of f with Ok cl => begin py d cl (objects c) s | Raise x => (Failed x, s) end in
  rthread m (fst (start j)) (fst r) /\ rstate m (snd (start j)) (snd r) /\ smoves none m s (snd r).
Proof.
  intros [[d f] c] s. unfold start. destruct (class_of f) as [cl|x] eqn:Ec.
  - destruct (begin_rel py none empty_state s d cl (objects c) (rstate_none s) (class_plain _ _ Ec) (objects_plain c)) as (m & T & R & M).
    exists m. intros d0 f0 c0 E. assert (d0 = d /\ f0 = f /\ c0 = c) as (-> & -> & ->) by (repeat split; congruence). rewrite Ec. now split.
  - exists none. intros d0 f0 c0 E. assert (f0 = f) as -> by congruence. rewrite Ec. split; [reflexivity|]. split; [apply rstate_none|apply smoves_refl].
Qed.
Lemma coupled_step : forall l y ms e, coupled l y ms -> exists ms', coupled (l ++ [e]) (happen py files e y) ms'.
Proof.
  intros l y ms e (LM & LT & C & A). destruct e as [d f c|k].
  - destruct (begin_next (d, f, c) (shared y)) as [m Hm]. specialize (Hm d f c eq_refl). cbv zeta in Hm.
    assert (EH : happen py files (Begin d f c) y =
      let r := match class_of f with Ok cl => begin py d cl (objects c) (shared y) | Raise x => (Failed x, shared y) end in System (threads y ++ [fst r]) (snd r)).
    { cbn [happen]. destruct (class_of f); [|reflexivity]. now destruct (begin _ _ _ _ _). }
    rewrite EH. cbv zeta. set (r := match class_of f with Ok cl => _ | Raise x => _ end) in *. clearbody r. clear EH. destruct Hm as (T & R & M).
    assert (J : jobs (l ++ [Begin d f c]) = jobs l ++ [(d, f, c)]) by (now rewrite jobs_app).
    assert (TU : forall k, turns 0 k (l ++ [Begin d f c]) = turns 0 k l) by (intros k; rewrite turns_app; cbn [turns]; lia).
    assert (AN : forall i mi0, nth_error ms i = Some mi0 -> apart mi0 m).
    { intros i mi0 Ei. pose proof (nth_lt _ _ _ _ Ei) as Li. rewrite LM in Li. destruct (nth_ex _ _ _ Li) as [j Ej]. rewrite <- LT in Li. destruct (nth_ex _ _ _ Li) as [t Et].
      destruct (C i j mi0 t Ej Ei Et) as [_ R0]. eapply apart_moves; [exact R0|exact M|]. split; intros x _ []. }
    exists (ms ++ [m]). unfold coupled. rewrite J, !app_length. cbn [threads shared length]. rewrite app_length. cbn [length].
    split; [lia|]. split; [lia|]. split.
    + intros k j m0 t Ej Em Et. rewrite TU. apply nth_snoc in Ej as [[Lj Ej]|[-> ->]].
      * apply nth_snoc in Em as [[Lm Em]|[Lm _]]; [|lia]. apply nth_snoc in Et as [[Lt Et]|[Lt _]]; [|lia].
        destruct (C k j m0 t Ej Em Et) as [T0 R0]. split; [exact T0|]. eapply others_keep; [exact R0|exact M|]. split; intros x _ [].
      * apply nth_snoc in Em as [[Lm Em]|[Lm ->]]; [lia|]. apply nth_snoc in Et as [[Lt Et]|[Lt ->]]; [lia|].
        rewrite turns_none by lia. exact (conj T R).
    + intros k k' m0 m1 E0 E1 Nk. apply nth_snoc in E0 as [[L0 E0]|[L0 ->]], E1 as [[L1 E1]|[L1 ->]].
      * now apply (A k k').
      * now apply (AN k).
      * apply apart_sym. now apply (AN k').
      * lia.
  - assert (J : jobs (l ++ [Go k]) = jobs l) by (rewrite jobs_app; apply app_nil_r).
    assert (TU : forall i, turns 0 i (l ++ [Go k]) = turns 0 i l + (if Nat.eqb k i && Nat.ltb i (length (jobs l)) then 1 else 0)).
    { intros i. rewrite turns_app. cbn [turns Nat.add]. lia. }
    cbn [happen]. destruct (nth_error (threads y) k) as [t|] eqn:Et.
    + pose proof (nth_lt _ _ _ _ Et) as Lk. rewrite LT in Lk. destruct (nth_ex _ _ _ Lk) as [j Ej]. rewrite <- LM in Lk. destruct (nth_ex _ _ _ Lk) as [m Em]. rewrite LM in Lk.
      destruct (C k j m t Ej Em Et) as [T R]. destruct (step_rel py load load_plain m _ _ _ _ R T) as (m' & T' & R' & M').
      destruct (step py load t (shared y)) as [t1 s1] eqn:Es. cbn [fst snd] in *.
      assert (AN : forall i mi0, i <> k -> nth_error ms i = Some mi0 -> apart mi0 m').
      { intros i mi0 Ni Ei. pose proof (nth_lt _ _ _ _ Ei) as Li. rewrite LM in Li. destruct (nth_ex _ _ _ Li) as [j0 Ej0]. rewrite <- LT in Li. destruct (nth_ex _ _ _ Li) as [t0 Et0].
        destruct (C i j0 mi0 t0 Ej0 Ei Et0) as [_ R0]. eapply apart_moves; [exact R0|exact M'|]. now apply (A i k). }
      exists (setm ms k m'). unfold coupled. rewrite J, setm_length. cbn [threads shared]. rewrite replace_length. split; [exact LM|]. split; [exact LT|]. split.
      * intros i j0 m0 t0 Ej0 Em0 Et0. rewrite TU. rewrite nth_setm in Em0. rewrite nth_replace in Et0. destruct (Nat.eqb_spec k i) as [<-|Ni].
        -- rewrite Em in Em0. rewrite Et in Et0. assert (m0 = m') as -> by congruence. assert (t0 = t1) as -> by congruence. assert (j0 = j) as -> by congruence.
           destruct (Nat.ltb_spec k (length (jobs l))) as [_|]; [|lia]. cbn [andb]. unfold solo. rewrite iter_last. split; [exact T'|exact R'].
        -- cbn [andb]. rewrite Nat.add_0_r. destruct (C i j0 m0 t0 Ej0 Em0 Et0) as [T0 R0]. split; [exact T0|]. eapply others_keep; [exact R0|exact M'|]. apply (A i k); auto.
      * intros i i' m0 m1 E0 E1 Ni. rewrite nth_setm in E0, E1. destruct (Nat.eqb_spec k i) as [<-|N0], (Nat.eqb_spec k i') as [<-|N1].
        -- congruence.
        -- rewrite Em in E0. assert (m0 = m') as -> by congruence. apply apart_sym. now apply (AN i'); auto.
        -- rewrite Em in E1. assert (m1 = m') as -> by congruence. now apply (AN i); auto.
        -- now apply (A i i').
    + exists ms. unfold coupled. rewrite J. split; [exact LM|]. split; [exact LT|]. split; [|exact A]. intros i j m t Ej Em Et0. rewrite TU.
      destruct (Nat.eqb_spec k i) as [->|Ni]; [congruence|]. cbn [andb]. rewrite Nat.add_0_r. now apply (C i).
Qed.
Lemma all_coupled : forall l, exists ms, coupled l (run_schedule py files l) ms.
Proof.
  intros l. induction l as [|e l IH] using rev_ind.
  - exists []. split; [reflexivity|]. split; [reflexivity|]. split; [intros [|k] j m t E; discriminate E|intros [|k] k' m m' E; discriminate E].
  - destruct IH as [ms C]. destruct (coupled_step l _ ms e C) as [ms' C']. exists ms'. unfold run_schedule in *. rewrite fold_left_app. exact C'.
Qed.

(** What others see of a rendering. *)
Lemma schedule_thread : forall l k t, nth_error (threads (run_schedule py files l)) k = Some t ->
  exists j m, nth_error (jobs l) k = Some j /\ rthread m (fst (solo j (turns 0 k l))) t.
Proof.
  intros l k t Et. destruct (all_coupled l) as (ms & LM & LT & C & _). pose proof (nth_lt _ _ _ _ Et) as Lk. rewrite LT in Lk.
  destruct (nth_ex _ _ _ Lk) as [j Ej]. rewrite <- LM in Lk. destruct (nth_ex _ _ _ Lk) as [m Em]. exists j, m. split; [exact Ej|]. now apply (C k j m t).
Qed.
Lemma schedule_length : forall l, length (threads (run_schedule py files l)) = length (jobs l).
Proof. intros l. destruct (all_coupled l) as (ms & LM & LT & _). exact LT. Qed.
Lemma rthread_ended : forall m t t', rthread m t t' -> ended t' = ended t.
Proof. intros m [d o l|o|e] [d' o' l'|o'|e']; cbn; try contradiction; [reflexivity|now intros ->|now intros ->]. Qed.
Lemma rthread_shown : forall m l l', Forall2 (ritem m) l l' -> forall o, shown o l' = shown o l.
Proof.
  intros m l l' F. induction F as [|a b l l' R F IH]; intros o; [reflexivity|]. destruct a, b; cbn [ritem] in R; try contradiction; cbn [shown]; try apply IH.
  - subst. apply IH.
  - destruct R as (-> & _). apply IH.
Qed.
Lemma rthread_delivered : forall m t t', rthread m t t' -> delivered t' = delivered t.
Proof.
  intros m [d o l|o|e] [d' o' l'|o'|e']; cbn [rthread]; try contradiction; cbn [delivered]; [|now intros ->|reflexivity].
  intros (-> & -> & F). now rewrite (rthread_shown m l l' F).
Qed.

(** ** What has been delivered *)
Definition flat (a : list value) : str := flat_map to_str (flat_map leaves a).
Lemma render_flat : forall a, render a = flat a.
Proof. intros a. unfold render, tpl_iter, flat. rewrite flat_iter_leaves. now rewrite <- flat_map_concat_map. Qed.
Lemma flat_app : forall a b, flat (a ++ b) = flat a ++ flat b.
Proof. intros. unfold flat. now rewrite !flat_map_app. Qed.
Lemma flat_flat : forall a, flat [VFlat a] = flat a. Proof. intros a. unfold flat. now rewrite leaves_flat. Qed.
Lemma shown_cons : forall l o o', flat o' = flat o -> flat (shown o' l) = flat (shown o l).
Proof.
  induction l as [|a l IH]; intros o o' E; [exact E|]. destruct a; cbn [shown]; try (now apply IH). apply IH. rewrite !flat_app, !flat_flat. now rewrite E.
Qed.
Lemma shown_more : forall l o o', prefix (flat o) (flat o') -> prefix (flat (shown o l)) (flat (shown o' l)).
Proof.
  induction l as [|a l IH]; intros o o' E; [exact E|]. destruct a; cbn [shown]; try (now apply IH).
  - apply IH. rewrite !flat_app, !flat_flat. destruct E as [z ->]. exists z. now rewrite app_assoc.
  - exists []. now rewrite app_nil_r.
Qed.
Lemma prefix_refl : forall a, prefix a a. Proof. intros a. exists []. now rewrite app_nil_r. Qed.
Lemma prefix_trans : forall a b c, prefix a b -> prefix b c -> prefix a c.
Proof. intros a b c [x ->] [y ->]. exists (x ++ y). now rewrite app_assoc. Qed.
Lemma prefix_app : forall o x, prefix (flat o) (flat (o ++ x)). Proof. intros. rewrite flat_app. now exists (flat x). Qed.
Lemma enter_delivers : forall d o l q, an_end (c_end q) -> (exists e, fst (enter py d o l q) = Failed e) \/ flat (shown o l) = delivered (fst (enter py d o l q)).
Proof.
  intros d o l q E. unfold enter. destruct d as [|d]; [left; cbn [fst]; now eexists|right]. destruct (c_fun q) as [[[dc b] i] ss]. cbn [fst delivered shown].
  rewrite render_flat.
  destruct E as [->|(p & n & ->)]; cbn [shown]; [|reflexivity]. symmetry. apply shown_cons. rewrite flat_app, flat_flat. apply app_nil_r.
Qed.
Lemma step_delivers : forall t s, (exists e, fst (step py load t s) = Failed e) \/ prefix (delivered t) (delivered (fst (step py load t s))).
Proof.
  intros t s. destruct t as [d o l|o|e]; [|right; apply prefix_refl|left; cbn [fst]; now eexists]. cbn [step delivered]. rewrite render_flat.
  assert (AT : forall T (r : result T) k, (forall v, r = Ok v -> (exists e, fst (k v) = Failed e) \/ prefix (flat (shown o l)) (delivered (fst (k v)))) ->
    (exists e, fst (attempt r s k) = Failed e) \/ prefix (flat (shown o l)) (delivered (fst (attempt r s k)))).
  { intros T [v|e] k Hk; cbn [attempt]; [now apply Hk|left; cbn [fst]; now eexists]. }
  destruct l as [|a l]; [right; cbn [fst delivered]; rewrite render_flat; apply prefix_refl|].
  destruct a as [p bl c|p bl rs|b|b p n].
  - destruct bl as [|b bl]; [right; cbn [fst delivered shown]; rewrite render_flat; apply prefix_refl|].
    assert (SI : forall s0, (exists e, fst (attempt (exec py load no_invoke p b c s0) s (fun r => (Running d (o ++ fst (fst r)) (IBlock p bl (snd (fst r)) :: l), snd r))) = Failed e) \/
       prefix (flat (shown o (IBlock p (b :: bl) c :: l))) (delivered (fst (attempt (exec py load no_invoke p b c s0) s (fun r => (Running d (o ++ fst (fst r)) (IBlock p bl (snd (fst r)) :: l), snd r)))))).
    { intros s0. apply AT. intros [[o1 c1] s1] _. right. cbn [fst snd delivered shown]. rewrite render_flat. apply shown_more. apply prefix_app. }
    destruct b as [tx g|q|h body|lines]; try apply SI.
    + apply AT. intros [q1|] E; [|apply SI]. destruct (enter_delivers d o (IBlock p bl M_Exec.CNone :: l) q1 (call_of_end py load _ _ _ _ E)) as [X|X]; [now left|right].
      rewrite <- X. apply prefix_refl.
    + apply AT. intros [c1 s1|c1|rs] _; right; cbn [fst delivered shown]; rewrite render_flat; apply prefix_refl.
  - destruct rs as [|r rs]; right; cbn [fst delivered shown]; rewrite render_flat; apply prefix_refl.
  - right. cbn [fst delivered shown]. rewrite render_flat. apply prefix_refl.
  - apply AT. intros v _. right. cbn [fst delivered shown]. rewrite render_flat. apply prefix_refl.
Qed.
Lemma iter_delivers : forall n x, (exists e, fst (iter n x) = Failed e) \/ prefix (delivered (fst x)) (delivered (fst (iter n x))).
Proof.
  induction n as [|n IH]; intros x; [right; apply prefix_refl|]. cbn [P_Conc4.iter]. destruct (step_delivers (fst x) (snd x)) as [[e E]|P].
  - left. exists e. rewrite (ended_stays n _ (Raise e)); [exact E|]. now rewrite E.
  - destruct (IH (step py load (fst x) (snd x))) as [F|Q]; [now left|right]. eapply prefix_trans; eassumption.
Qed.
Lemma solo_delivers : forall j n n', n <= n' -> (exists e, fst (solo j n') = Failed e) \/ prefix (delivered (fst (solo j n))) (delivered (fst (solo j n'))).
Proof. intros j n n' Le. unfold solo. replace n' with (n + (n' - n)) by lia. rewrite iter_add. apply iter_delivers. Qed.
End System.
