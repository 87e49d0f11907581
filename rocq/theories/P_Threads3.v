(** * Loaders and threads: own files, files that do not change, no reloading *)

From Coq Require Import Ascii String List NArith ZArith Bool Lia Arith.
From Verif Require Import PyStr PyStrLemmas M_Loader S_Loader P_Loader P_Loader2 M_Threads S_Threads P_Threads P_Threads2.
Import ListNotations.
Open Scope list_scope.

Section Threads.
Variable fs : nat -> str -> option (Z * str).
Variable compile : kind -> kwargs -> str -> option string.
Variable cfg : config.
Variable name : str.

(** ** Steps that change nothing *)
Section Rules.
Variable I : state -> Prop.
Variable R : state -> state -> Prop.
Variable Q : result template -> state -> Prop.
Hypothesis R_refl : forall s, R s s.
Hypothesis R_trans : forall a b c, R a b -> R b c -> R a c.
Hypothesis R_tick : forall s, R s (tick s).
Hypothesis I_tick : forall s, I s -> I (tick s).
Hypothesis R_clock : forall a b, R a b -> clock a <= clock b.
Notation safe := (safe fs I R Q).

Lemma safe_filename : forall path k s, I s ->
  (forall o s', R s s' -> I s' ->
     match o with
     | Some fn => candidate path name fn
     | None => forall base, In base path -> exists i, clock s <= i < clock s' /\ fs i (path_join base name) = None
     end -> safe (k o) s') ->
  safe (filename_steps path name k) s.
Proof.
  induction path as [|b path IH]; intros k s HI H; cbn [filename_steps].
  - apply H; [apply R_refl|exact HI|intros b []].
  - apply safe_one. intros s' HR HI'. cbn [M_Threads.step fst snd]. split; [now apply I_tick|]. split; [apply R_tick|].
    destruct (fs (clock s') (path_join b name)) eqn:E.
    + apply H; [now apply (R_trans _ s')|now apply I_tick|]. exists b. split; [now left|reflexivity].
    + apply IH; [now apply I_tick|]. intros o s2 R2 I2 C. apply H; [apply (R_trans _ s'); [exact HR|now apply (R_trans _ (tick s'))]|exact I2|].
      pose proof (R_clock _ _ HR) as C1. pose proof (R_clock _ _ R2) as C2. cbn [tick clock] in C2. destruct o as [fn|].
      * destruct C as (b' & J & ->). exists b'. split; [now right|reflexivity].
      * intros b' [->|J]; [exists (clock s'); split; [lia|exact E]|]. destruct (C b' J) as (i & Li & Ei). cbn [tick clock] in Li. exists i. split; [lia|exact Ei].
Qed.
(** When the files do not change. *)
Lemma safe_filename_quiet : forall now n path k s r, I s -> (forall s', R s s' -> n <= clock s') ->
  quiet_for fs (candidate path name) n now -> found_in now name path r ->
  (forall s', R s s' -> I s' -> safe (k r) s') ->
  safe (filename_steps path name k) s.
Proof.
  intros now n path k s r HI Hc Qt F. revert s HI Hc. induction F as [|b path Ne|b path r E F IH]; intros s HI Hc H; cbn [filename_steps].
  - apply H; [apply R_refl|exact HI].
  - apply safe_one. intros s' HR HI'. cbn [M_Threads.step fst snd]. split; [now apply I_tick|]. split; [apply R_tick|].
    rewrite (Qt (clock s')); [|exists b; split; [now left|reflexivity]|now apply Hc].
    destruct (now (path_join b name)); [|congruence]. apply H; [now apply (R_trans _ s')|now apply I_tick].
  - apply safe_one. intros s' HR HI'. cbn [M_Threads.step fst snd]. split; [now apply I_tick|]. split; [apply R_tick|].
    rewrite (Qt (clock s')); [|exists b; split; [now left|reflexivity]|now apply Hc]. rewrite E.
    apply IH; [|now apply I_tick| |].
    + intros i f (b' & J & ->) Le. apply Qt; [|exact Le]. exists b'. split; [now right|reflexivity].
    + intros s2 R2. apply Hc. apply (R_trans _ s'); [exact HR|]. now apply (R_trans _ (tick s')).
    + intros s2 R2 I2. apply H; [|exact I2]. apply (R_trans _ s'); [exact HR|]. now apply (R_trans _ (tick s')).
Qed.
End Rules.

Lemma built_choice : forall fn kw c id kd given args, choice cfg fn = Some (kd, given) ->
  bind_kwargs kd given (options_of cfg kw) = Ok args -> built compile cfg fn kw c id =
  match compile kd args c with Some e => Raise e | None => Ok (Template id kd args c) end.
Proof. intros. unfold built. rewrite H. cbn [rbind]. now rewrite H0. Qed.

(** ** A call returns a template of its own file *)

Definition own_I (K : kwargs -> Prop) (s : state) : Prop :=
  forall t, lookup name (modules s) = Some t -> made_of fs compile cfg K name (clock s) t.
Definition later (s s' : state) : Prop := clock s <= clock s'.
Lemma made_le : forall K n m t, made_of fs compile cfg K name n t -> n <= m -> made_of fs compile cfg K name m t.
Proof. intros K n m t (fn & kw & k & mt & id & A & HK & B & C) Le. exists fn, kw, k, mt, id. split; [exact A|]. split; [exact HK|]. split; [lia|exact C]. Qed.
Lemma own_I_frame : forall K a b, frame name a b -> own_I K a -> own_I K b.
Proof. intros K a b (A1 & A2 & A3) H t E. rewrite A1 in E. apply (made_le K (clock a)); auto. Qed.

Definition own_Q (K : kwargs -> Prop) (kw : kwargs) (n : nat) (r : result template) (s : state) : Prop :=
  match r with
  | Ok t => made_of fs compile cfg K name (clock s) t
  | Raise e => failure fs compile cfg name kw n (clock s) e
  end.
Lemma failure_le : forall kw n n' m e, failure fs compile cfg name kw n n' e -> n' <= m -> failure fs compile cfg name kw n m e.
Proof.
  intros kw n n' m e H Le. destruct H as [A|Rl A|fn k C B E|fn k mt c id e C B E Bt|Rl].
  - apply fa_unknown. intros b J. destruct (A b J) as (k & B & E). exists k. split; [lia|exact E].
  - apply fa_vanished; [exact Rl|]. intros b J. destruct (A b J) as (k & B & E). exists k. split; [lia|exact E].
  - apply (fa_gone _ _ _ _ _ _ _ fn k); [exact C|lia|exact E].
  - apply (fa_built _ _ _ _ _ _ _ fn k mt c id); [exact C|lia|exact E|exact Bt].
  - now apply fa_race.
Qed.
Lemma own_Q_later : forall K kw n r s s', later s s' -> own_Q K kw n r s -> own_Q K kw n r s'.
Proof.
  intros K kw n [t|e] s s' Le H; cbn [own_Q] in *; [now apply (made_le K (clock s))|now apply (failure_le _ _ (clock s))].
Qed.
Lemma own_safe : forall (K : kwargs -> Prop) kw s, K kw -> own_I K s ->
  safe fs (own_I K) later (own_Q K kw (clock s)) (import_steps compile cfg name kw) s.
Proof.
  intros K kw s HK HI. remember (clock s) as n eqn:En. assert (Ln : n <= clock s) by lia. clear En.
  assert (Tick : forall s, own_I K s -> own_I K (tick s)) by (intros; apply (own_I_frame K s0); [apply frame_tick|assumption]).
  assert (Tr : forall a b c, later a b -> later b c -> later a c) by (unfold later; lia).
  assert (Rt : forall s, later s (tick s)) by (unfold later; cbn; lia).
  assert (Rr : forall s, later s s) by (unfold later; lia).
  assert (Rc : forall a b, later a b -> clock a <= clock b) by (unfold later; lia).
  assert (Err : forall e s, failure fs compile cfg name kw n (clock s) e -> safe fs (own_I K) later (own_Q K kw n) (Return (Raise e)) s)
    by (intros; now apply safe_return).
  assert (Base : forall s, n <= clock s -> own_I K s -> safe fs (own_I K) later (own_Q K kw n) (base_steps (load_steps compile cfg name kw) name) s).
  { clear s HI Ln. intros s Ln HI. unfold base_steps. apply safe_one. intros s1 R1 I1. cbn [M_Threads.step fst snd]. split; [exact I1|]. split; [apply Rr|].
    destruct (lookup name (modules s1)) as [t|] eqn:E.
    - apply safe_return. now apply I1.
    - unfold load_steps. apply (safe_filename (own_I K)); try assumption. intros [fn|] s2 R2 I2 C.
      2:{ apply Err. apply fa_unknown. intros b J. destruct (C b J) as (i & Li & Ei). exists i. unfold later in *. split; [lia|exact Ei]. }
      apply safe_one. intros s3 R3 I3. cbn [M_Threads.step]. assert (L3 : n <= clock s3) by (unfold later in *; lia).
      destruct (fs (clock s3) fn) as [[m c]|] eqn:St; cbn [fst snd]; (split; [now apply Tick|]; split; [apply Rt|]).
      2:{ apply Err. apply (fa_gone _ _ _ _ _ _ _ fn (clock s3)); [exact C|cbn; lia|exact St]. }
      apply safe_one. intros s4 R4 I4. cbn [M_Threads.step fst snd]. unfold later in R4. cbn [tick clock] in R4.
      assert (I5 : own_I K (set_timestamp name m s4)) by (intros t J; cbn in J |- *; now apply I4).
      split; [exact I5|]. split; [unfold later; cbn; lia|]. fold (options_of cfg kw). rewrite mode_steps_eq.
      assert (Bad : forall e, built compile cfg fn kw c 0 = Raise e ->
                safe fs (own_I K) later (own_Q K kw n) (Return (Raise e)) (set_timestamp name m s4)).
      { intros e B. apply Err. apply (fa_built _ _ _ _ _ _ _ fn (clock s3) m c 0); [exact C|cbn; lia|exact St|exact B]. }
      destruct (choice cfg fn) as [[kd given]|] eqn:Ch; [|apply Bad; unfold built; now rewrite Ch]. unfold build_steps.
      destruct (bind_kwargs kd given (options_of cfg kw)) as [args|e] eqn:Bk; [|apply Bad; unfold built; now rewrite Ch, Bk].
      apply safe_one. intros s6 R6 I6. cbn [M_Threads.step]. unfold later in R6. cbn [set_timestamp clock] in R6.
      destruct (fs (clock s6) fn) as [[m' c']|] eqn:Rd; cbn [fst snd]; (split; [now apply Tick|]; split; [apply Rt|]).
      2:{ apply Err. apply (fa_gone _ _ _ _ _ _ _ fn (clock s6)); [exact C|cbn; lia|exact Rd]. }
      destruct (compile kd args c') as [e|] eqn:Cm.
      { apply Err. apply (fa_built _ _ _ _ _ _ _ fn (clock s6) m' c' 0); [exact C|cbn; lia|exact Rd|].
        now rewrite (built_choice _ _ _ _ _ _ _ Ch Bk), Cm. }
      set (t := Template (S (clock s6)) kd args c').
      assert (Md : made_of fs compile cfg K name (S (clock s6)) t).
      { exists fn, kw, (clock s6), m', (S (clock s6)). split; [exact C|]. split; [exact HK|]. split; [lia|]. split; [exact Rd|].
        rewrite (built_choice _ _ _ _ _ _ _ Ch Bk). cbn [t_contents t]. now rewrite Cm. }
      apply safe_one. intros s7 R7 I7. cbn [M_Threads.step fst snd]. unfold later in R7. cbn [tick clock] in R7. split; [|split].
      + intros t' J. cbn [set_module modules clock] in *. rewrite lookup_set_eq in J. injection J as <-. now apply (made_le K (S (clock s6))).
      + unfold later. cbn. lia.
      + apply safe_return. cbn [own_Q set_module clock]. now apply (made_le K (S (clock s6))). }
  unfold import_steps. apply (safe_filename (own_I K)); try assumption. intros o s1 R1 I1 C. unfold later in R1. unfold expire_steps.
  destruct (c_reload cfg) eqn:Rl; [|apply Base; [lia|exact I1]].
  apply safe_one. intros s2 R2 I2. cbn [M_Threads.step fst snd]. unfold later in R2. split; [exact I2|]. split; [apply Rr|].
  destruct (lookup name (modules s2)) as [t|] eqn:E; [|apply Base; [lia|exact I2]].
  apply safe_one. intros s3 R3 I3. cbn [M_Threads.step]. unfold later in R3.
  destruct o as [fn|].
  2:{ cbn [fst snd]; split; [exact I3|]; split; [apply Rr|]. apply Err. apply fa_vanished; [exact Rl|]. intros b J. destruct (C b J) as (i & Li & Ei).
    exists i. split; [lia|exact Ei]. }
  destruct (fs (clock s3) fn) as [[m c]|] eqn:St; cbn [fst snd]; (split; [now apply Tick|]; split; [apply Rt|]).
  2:{ apply Err. apply (fa_gone _ _ _ _ _ _ _ fn (clock s3)); [exact C|cbn; lia|exact St]. }
  apply safe_one. intros s4 R4 I4. cbn [M_Threads.step fst snd]. unfold later in R4. cbn [tick clock] in R4. split; [exact I4|]. split; [apply Rr|].
  destruct (_ <? m)%Z; [|apply Base; [lia|exact I4]]. apply safe_one. intros s5 R5 I5. cbn [M_Threads.step]. unfold later in R5.
  destruct (lookup name (modules s5)) as [t'|] eqn:E'; cbn [fst snd].
  - assert (I6 : own_I K (del_module name s5)).
    { intros t2 J. cbn [del_module modules] in J. rewrite lookup_remove_eq in J. discriminate. }
    split; [exact I6|]. split; [unfold later; cbn; lia|]. apply Base; [cbn; lia|exact I6].
  - split; [exact I5|]. split; [apply Rr|]. apply Err. now apply fa_race.
Qed.

(** ** Files that do not change *)
Section Quiet.
Variable now : str -> option (Z * str).
Variable n0 : nat.
Variable r : option str.
Variable K : kwargs -> Prop.
Hypothesis quiet : quiet_for fs (candidate (c_path cfg) name) n0 now.
Hypothesis found : found_in now name (c_path cfg) r.

Definition stamped (s : state) : Prop := lookup name (timestamps s) <> None.
Definition quiet_I (s : state) : Prop :=
  n0 <= clock s /\
  (forall z, lookup name (timestamps s) = Some z -> exists fn c, r = Some fn /\ now fn = Some (z, c)) /\
  (forall t, lookup name (modules s) = Some t -> stamped s /\
     exists fn m c kw id, r = Some fn /\ now fn = Some (m, c) /\ K kw /\ built compile cfg fn kw c id = Ok t).
Definition quiet_R (s s' : state) : Prop := clock s <= clock s' /\ (stamped s -> stamped s').
Definition quiet_Q (kw : kwargs) (n : nat) (x : result template) (s : state) : Prop := outcome compile cfg now r K kw x.

Lemma quiet_I_frame : forall a b, frame name a b -> quiet_I a -> quiet_I b.
Proof.
  intros a b (A1 & A2 & A3) (B1 & B2 & B3). unfold quiet_I, stamped. rewrite A1, A2. split; [lia|]. split; [exact B2|exact B3].
Qed.
Lemma quiet_R_frame : forall a b, frame name a b -> quiet_R a b.
Proof. intros a b (A1 & A2 & A3). unfold quiet_R, stamped. rewrite A2. auto. Qed.
Lemma found_candidate : forall fn, r = Some fn -> candidate (c_path cfg) name fn /\ exists m c, now fn = Some (m, c).
Proof.
  intros fn ->. revert found. generalize (c_path cfg) as path. intros path F. remember (Some fn) as o eqn:E.
  induction F as [|b path Ne|b path r' E' F IH]; [discriminate| |].
  - injection E as <-. split; [exists b; split; [now left|reflexivity]|]. destruct (now (path_join b name)) as [[m c]|]; [eauto|congruence].
  - destruct (IH E) as ((b' & J & ->) & X). split; [|exact X]. exists b'. split; [now right|reflexivity].
Qed.

Lemma quiet_safe : forall kw s, K kw -> quiet_I s -> safe fs quiet_I quiet_R (quiet_Q kw (clock s)) (import_steps compile cfg name kw) s.
Proof.
  intros kw s HK HI. generalize (clock s) as st. intros st.
  assert (Tick : forall s, quiet_I s -> quiet_I (tick s)) by (intros s0; apply quiet_I_frame, frame_tick).
  assert (Tr : forall a b c, quiet_R a b -> quiet_R b c -> quiet_R a c) by (unfold quiet_R; intros a b c [A1 A2] [B1 B2]; split; [lia|auto]).
  assert (Rt : forall s, quiet_R s (tick s)) by (intros; apply quiet_R_frame, frame_tick).
  assert (Rr : forall s, quiet_R s s) by (intros; apply quiet_R_frame, frame_refl).
  assert (Cl : forall s, quiet_I s -> forall s', quiet_R s s' -> n0 <= clock s') by (intros s0 (A & _) s' (B & _); lia).
  assert (Base : forall s, quiet_I s -> safe fs quiet_I quiet_R (quiet_Q kw st) (base_steps (load_steps compile cfg name kw) name) s).
  { clear s HI. intros s HI. unfold base_steps. apply safe_one. intros s1 R1 I1. cbn [M_Threads.step fst snd]. split; [exact I1|]. split; [apply Rr|].
    destruct (lookup name (modules s1)) as [t|] eqn:E.
    - apply safe_return. destruct (proj2 (proj2 I1) t E) as (_ & fn & m & c & kw' & id & Er & En & HK' & B). unfold quiet_Q, outcome. rewrite Er.
      exists m, c, kw', id. split; [exact En|]. split; [exact HK'|]. split; [congruence|]. left. eauto.
    - unfold load_steps. apply (safe_filename_quiet quiet_I quiet_R _ Rr Tr Rt Tick now n0 _ _ _ r); try assumption; [now apply Cl|].
      intros s2 R2 I2. assert (Dec : r = None \/ exists fn, r = Some fn) by (destruct r; eauto).
      destruct Dec as [Er|[fn Er]]; rewrite Er; [apply safe_return; unfold quiet_Q, outcome; now rewrite Er|].
      destruct (found_candidate fn Er) as (C & m & c & En).
      apply safe_one. intros s3 R3 I3. cbn [M_Threads.step]. rewrite (quiet _ _ C (Cl _ I3 _ (Rr _))), En. cbn [fst snd].
      split; [now apply Tick|]. split; [apply Rt|].
      apply safe_one. intros s4 R4 I4. cbn [M_Threads.step fst snd].
      assert (I5 : quiet_I (set_timestamp name m s4)).
      { destruct I4 as (A1 & A2 & A3). split; [exact A1|]. unfold stamped. cbn [set_timestamp timestamps modules]. rewrite lookup_set_eq. split.
        - intros z [= <-]. exists fn, c. rewrite Er. auto.
        - intros t J. split; [discriminate|]. apply (A3 t J). }
      split; [exact I5|]. split; [split; [cbn; lia|]; intros _; unfold stamped; cbn [set_timestamp timestamps]; rewrite lookup_set_eq; discriminate|].
      fold (options_of cfg kw). rewrite mode_steps_eq.
      assert (Bt : forall id x, built compile cfg fn kw c id = x -> outcome compile cfg now (Some fn) K kw x).
      { intros id x B. exists m, c, kw, id. split; [exact En|]. split; [exact HK|]. split; [congruence|]. now right. }
      destruct (choice cfg fn) as [[kd given]|] eqn:Ch.
      2:{ apply safe_return. unfold quiet_Q. rewrite Er. apply (Bt 0). unfold built. now rewrite Ch. }
      unfold build_steps. destruct (bind_kwargs kd given (options_of cfg kw)) as [args|e] eqn:Bk.
      2:{ apply safe_return. unfold quiet_Q. rewrite Er. apply (Bt 0). unfold built. rewrite Ch, Bk. reflexivity. }
      apply safe_one. intros s6 R6 I6. cbn [M_Threads.step]. rewrite (quiet _ _ C (Cl _ I6 _ (Rr _))), En. cbn [fst snd].
      split; [now apply Tick|]. split; [apply Rt|].
      destruct (compile kd args c) as [e|] eqn:Cm.
      { apply safe_return. unfold quiet_Q. rewrite Er. apply (Bt 0). now rewrite (built_choice _ _ _ _ _ _ _ Ch Bk), Cm. }
      assert (B : built compile cfg fn kw c (S (clock s6)) = Ok (Template (S (clock s6)) kd args c)).
      { now rewrite (built_choice _ _ _ _ _ _ _ Ch Bk), Cm. }
      assert (St : stamped s6).
      { apply R6. unfold stamped. cbn [set_timestamp timestamps]. rewrite lookup_set_eq. discriminate. }
      apply safe_one. intros s7 R7 I7. cbn [M_Threads.step fst snd].
      assert (I8 : quiet_I (set_module name (Template (S (clock s6)) kd args c) s7)).
      { destruct I7 as (A1 & A2 & A3). split; [exact A1|]. split; [exact A2|]. cbn [set_module modules]. rewrite lookup_set_eq.
        intros t [= <-]. split; [apply R7; exact St|]. exists fn, m, c, kw, (S (clock s6)). rewrite Er. auto. }
      split; [exact I8|]. split; [split; [cbn; lia|auto]|]. apply safe_return. unfold quiet_Q. rewrite Er. now apply (Bt (S (clock s6))). }
  unfold import_steps. apply (safe_filename_quiet quiet_I quiet_R _ Rr Tr Rt Tick now n0 _ _ _ r); try assumption; [now apply Cl|].
  intros s1 R1 I1. unfold expire_steps. destruct (c_reload cfg); [|now apply Base].
  apply safe_one. intros s2 R2 I2. cbn [M_Threads.step fst snd]. split; [exact I2|]. split; [apply Rr|].
  destruct (lookup name (modules s2)) as [t|] eqn:E; [|now apply Base].
  destruct (proj2 (proj2 I2) t E) as (St & fn & m & c & kw' & id & Er & En & HK' & B).
  apply safe_one. intros s3 R3 I3. cbn [M_Threads.step]. rewrite Er. destruct (found_candidate fn Er) as (C & _).
  rewrite (quiet _ _ C (Cl _ I3 _ (Rr _))), En. cbn [fst snd]. split; [now apply Tick|]. split; [apply Rt|].
  apply safe_one. intros s4 R4 I4. cbn [M_Threads.step fst snd]. split; [exact I4|]. split; [apply Rr|].
  assert (St4 : stamped s4) by (apply R4; cbn [tick]; unfold stamped; cbn [timestamps tick]; apply R3; exact St).
  unfold stamped in St4. destruct (lookup name (timestamps s4)) as [z|] eqn:Z; [|congruence].
  destruct (proj1 (proj2 I4) z Z) as (fn' & c' & Er' & En'). assert (fn' = fn) as -> by congruence. assert (z = m) as -> by congruence.
  rewrite Z.ltb_irrefl. now apply Base.
Qed.
End Quiet.

(** ** No reloading *)
Section NoReload.
Variable t : template.
Hypothesis no_reload : c_reload cfg = false.
Definition kept_I (s : state) : Prop := lookup name (modules s) = Some t.
Definition kept_Q (kw : kwargs) (n : nat) (x : result template) (s : state) : Prop := x = Ok t.
Lemma kept_I_frame : forall a b, frame name a b -> kept_I a -> kept_I b.
Proof. intros a b (A1 & A2 & A3). unfold kept_I. now rewrite A1. Qed.
Lemma kept_safe : forall kw s, kept_I s -> safe fs kept_I later (kept_Q kw (clock s)) (import_steps compile cfg name kw) s.
Proof.
  intros kw s HI. generalize (clock s) as st. intros st.
  assert (Tick : forall s, kept_I s -> kept_I (tick s)) by (intros s0; apply kept_I_frame, frame_tick).
  assert (Tr : forall a b c, later a b -> later b c -> later a c) by (unfold later; lia).
  assert (Rt : forall s, later s (tick s)) by (unfold later; cbn; lia).
  assert (Rr : forall s, later s s) by (unfold later; lia).
  unfold import_steps. apply (safe_filename kept_I); try assumption; [unfold later; auto|]. intros o s1 R1 I1 _. unfold expire_steps. rewrite no_reload.
  unfold base_steps. apply safe_one. intros s2 R2 I2. cbn [M_Threads.step fst snd]. split; [exact I2|]. split; [apply Rr|]. rewrite I2. apply safe_return. reflexivity.
Qed.

(** What has been returned is still there. *)
Definition there (s : state) : Prop := lookup name (modules s) <> None.
Definition there_R (s s' : state) : Prop := clock s <= clock s' /\ (there s -> there s').
Definition there_Q (kw : kwargs) (n : nat) (x : result template) (s : state) : Prop := forall t', x = Ok t' -> there s.
Lemma there_safe : forall kw s, safe fs (fun _ => True) there_R (there_Q kw (clock s)) (import_steps compile cfg name kw) s.
Proof.
  intros kw s. generalize (clock s) as st. intros st.
  assert (Tr : forall a b c, there_R a b -> there_R b c -> there_R a c) by (unfold there_R; intros a b c [A1 A2] [B1 B2]; split; [lia|auto]).
  assert (Rt : forall s, there_R s (tick s)) by (unfold there_R; cbn; intros; split; [lia|auto]).
  assert (Rr : forall s, there_R s s) by (unfold there_R; intros; split; [lia|auto]).
  assert (Rc : forall a b, there_R a b -> clock a <= clock b) by (unfold there_R; intros a b [A1 A2]; exact A1).
  assert (Err : forall e s, safe fs (fun _ => True) there_R (there_Q kw st) (Return (Raise e)) s) by (intros; apply safe_return; intros t'; discriminate).
  unfold import_steps. apply (safe_filename (fun _ => True)); auto. intros o s1 R1 _ _. unfold expire_steps. rewrite no_reload.
  unfold base_steps. apply safe_one. intros s2 R2 _. cbn [M_Threads.step fst snd]. split; [exact Logic.I|]. split; [apply Rr|].
  destruct (lookup name (modules s2)) as [t'|] eqn:E.
  { apply safe_return. intros t2 _. unfold there. congruence. }
  unfold load_steps. apply (safe_filename (fun _ => True)); auto. intros [fn|] s3 R3 _ _; [|apply Err].
  apply safe_one. intros s4 R4 _. cbn [M_Threads.step]. destruct (fs (clock s4) fn) as [[m c]|]; cbn [fst snd]; (split; [exact Logic.I|]; split; [apply Rt|]); [|apply Err].
  apply safe_one. intros s5 R5 _. cbn [M_Threads.step fst snd]. split; [exact Logic.I|]. split; [split; [cbn; lia|auto]|].
  fold (options_of cfg kw). rewrite mode_steps_eq. destruct (choice cfg fn) as [[kd given]|]; [|apply Err].
  unfold build_steps. destruct (bind_kwargs kd given (options_of cfg kw)) as [args|e]; [|apply Err].
  apply safe_one. intros s6 R6 _. cbn [M_Threads.step]. destruct (fs (clock s6) fn) as [[m' c']|]; cbn [fst snd]; (split; [exact Logic.I|]; split; [apply Rt|]); [|apply Err].
  destruct (compile kd args c') as [e|]; [apply Err|].
  apply safe_one. intros s7 R7 _. cbn [M_Threads.step fst snd].
  assert (Th : there (set_module name (Template (S (clock s6)) kd args c') s7)).
  { unfold there. cbn [set_module modules]. rewrite lookup_set_eq. discriminate. }
  split; [exact Logic.I|]. split; [split; [cbn; lia|intros _; exact Th]|]. apply safe_return. intros t2 _. exact Th.
Qed.
End NoReload.
End Threads.
