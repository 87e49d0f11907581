(** * Loaders and threads: no two calls of a name at a time *)

From Coq Require Import Ascii String List NArith ZArith Bool Lia Arith.
From Verif Require Import PyStr PyStrLemmas M_Loader S_Loader P_Loader P_Loader2 M_Threads S_Threads P_Threads P_Threads2 P_Threads3.
Import ListNotations.
Open Scope list_scope.

Section Threads.
Variable fs : nat -> str -> option (Z * str).
Variable compile : kind -> kwargs -> str -> option string.
Variable cfg : config.
Variable name : str.
Hypothesis reload : c_reload cfg = true.
Notation cand := (candidate (c_path cfg) name).
Hypothesis tell : mtimes_tell fs cand.
Notation step := (step fs).
Notation frame := (frame name).

Definition serial_I (s : state) : Prop := forall t, lookup name (modules s) = Some t ->
  exists z i f c j g m, lookup name (timestamps s) = Some z /\ cand f /\ fs i f = Some (z, c) /\ i <= j /\ j < clock s /\
    cand g /\ fs j g = Some (m, t_contents t).
Definition fresh (n n' : nat) (t : template) : Prop := exists fn k m, cand fn /\ n <= k < n' /\ fs k fn = Some (m, t_contents t).
Definition serial_Q (n : nat) (r : result template) (s : state) : Prop := serial_I s /\ forall t, r = Ok t -> fresh n (clock s) t.

Inductive safe1 (Q : result template -> state -> Prop) : prog -> state -> Prop :=
| s1_return : forall r s, Q r s -> safe1 Q (Return r) s
| s1_step : forall p s, (forall s', frame s s' -> safe1 Q (fst (step p s')) (snd (step p s'))) -> safe1 Q p s.

Lemma serial_I_frame : forall a b, frame a b -> serial_I a -> serial_I b.
Proof.
  intros a b (A1 & A2 & A3) H t E. rewrite A1 in E. destruct (H t E) as (z & i & f & c & j & g & m & B1 & B2 & B3 & B4 & B5 & B6 & B7).
  exists z, i, f, c, j, g, m. rewrite A2. split; [exact B1|]. split; [exact B2|]. split; [exact B3|]. split; [exact B4|]. split; [lia|auto].
Qed.
Lemma fresh_le : forall n a b t, fresh n a t -> a <= b -> fresh n b t.
Proof. intros n a b t (fn & k & m & A & B & C) Le. exists fn, k, m. split; [exact A|]. split; [lia|exact C]. Qed.
Lemma serial_Q_frame : forall n r a b, frame a b -> serial_Q n r a -> serial_Q n r b.
Proof.
  intros n r a b F [A B]. split; [now apply (serial_I_frame a)|]. intros t E. apply (fresh_le n (clock a)); [now apply B|apply F].
Qed.
Lemma safe1_frame : forall n p a b, frame a b -> safe1 (serial_Q n) p a -> safe1 (serial_Q n) p b.
Proof.
  intros n p a b F H. destruct H as [r s HQ|p s HS].
  - apply s1_return. now apply (serial_Q_frame _ _ s).
  - apply s1_step. intros s' F'. apply HS. now apply (frame_trans _ s b).
Qed.
Lemma safe1_done : forall n r s, safe1 (serial_Q n) (Return r) s -> serial_Q n r s.
Proof.
  intros n r s H. remember (Return r) as p eqn:E. revert E. induction H as [r0 s HQ|p s HS IH]; intros E.
  - congruence.
  - subst p. exact (IH s (frame_refl _ _) eq_refl).
Qed.

Lemma filename1 : forall path k n s, (forall fn, candidate path name fn -> cand fn) -> serial_I s ->
  (forall o s', frame s s' -> (forall fn, o = Some fn -> cand fn) -> safe1 (serial_Q n) (k o) s') ->
  safe1 (serial_Q n) (filename_steps path name k) s.
Proof.
  induction path as [|b path IH]; intros k n s Hp HI H; cbn [filename_steps].
  - apply H; [apply frame_refl|discriminate].
  - apply s1_step. intros s' F. cbn [M_Threads.step fst snd].
    assert (F' : frame s (tick s')) by (apply (frame_trans _ s s'); [exact F|apply frame_tick]).
    destruct (fs (clock s') (path_join b name)).
    + apply H; [exact F'|]. intros fn [= <-]. apply Hp. exists b. split; [now left|reflexivity].
    + apply IH; [|now apply (serial_I_frame s)|].
      * intros fn (b' & J & ->). apply Hp. exists b'. split; [now right|reflexivity].
      * intros o s2 F2 C. apply H; [|exact C]. now apply (frame_trans _ s (tick s')).
Qed.

Lemma serial_safe : forall kw s, serial_I s -> safe1 (serial_Q (clock s)) (import_steps compile cfg name kw) s.
Proof.
  intros kw s HI. remember (clock s) as n eqn:En. assert (Ln : n <= clock s) by lia. clear En.
  assert (Err : forall e s, serial_I s -> safe1 (serial_Q n) (Return (Raise e)) s).
  { intros. apply s1_return. split; [assumption|discriminate]. }
  assert (Load : forall s, n <= clock s -> serial_I s -> lookup name (modules s) = None ->
            safe1 (serial_Q n) (load_steps compile cfg name kw (fun t => Keep name t (Return (Ok t)))) s).
  { clear s HI Ln. intros s Ln HI Nn. unfold load_steps. apply filename1; [auto|exact HI|]. intros [fn|] s2 F2 C; [|apply Err; now apply (serial_I_frame s)].
    specialize (C fn eq_refl). apply s1_step. intros s3 F3. cbn [M_Threads.step]. pose proof (frame_trans _ _ _ _ F2 F3) as F4.
    destruct (fs (clock s3) fn) as [[m c]|] eqn:Rd; cbn [fst snd].
    2:{ apply Err. apply (serial_I_frame s); [|exact HI]. apply (frame_trans _ s s3); [exact F4|apply frame_tick]. }
    apply s1_step. intros s5 F5. cbn [M_Threads.step fst snd].
    assert (N5 : lookup name (modules s5) = None) by (rewrite (proj1 F5); cbn [tick modules]; now rewrite (proj1 F4)).
    assert (C5 : clock s3 < clock s5) by (destruct F5 as (_ & _ & F5); cbn in F5; lia).
    assert (I6 : serial_I (set_timestamp name m s5)) by (intros t J; cbn in J; congruence).
    fold (options_of cfg kw). rewrite mode_steps_eq. destruct (choice cfg fn) as [[kd given]|] eqn:Ch; [|now apply Err].
    unfold build_steps. destruct (bind_kwargs kd given (options_of cfg kw)) as [args|e] eqn:Bk; [|now apply Err].
    apply s1_step. intros s7 F7. cbn [M_Threads.step]. destruct (fs (clock s7) fn) as [[m' c']|] eqn:Rd'; cbn [fst snd].
    2:{ apply Err. apply (serial_I_frame (set_timestamp name m s5)); [|exact I6]. apply (frame_trans _ _ s7); [exact F7|apply frame_tick]. }
    destruct (compile kd args c') as [e|].
    { apply Err. apply (serial_I_frame (set_timestamp name m s5)); [|exact I6]. apply (frame_trans _ _ s7); [exact F7|apply frame_tick]. }
    apply s1_step. intros s8 F8. cbn [M_Threads.step fst snd]. apply s1_return.
    destruct F7 as (G1 & G2 & G3). cbn [set_timestamp modules timestamps clock] in G1, G2, G3. rewrite lookup_set_eq in G2.
    destruct F8 as (H1 & H2 & H3). cbn [tick modules timestamps clock] in H1, H2, H3.
    assert (C3 : clock s <= clock s3) by apply F4. split.
    - intros t J. cbn [set_module modules timestamps clock] in *. rewrite lookup_set_eq in J. injection J as <-.
      exists m, (clock s3), fn, c, (clock s7), fn, m'. split; [congruence|]. split; [exact C|]. split; [exact Rd|]. split; [lia|]. split; [lia|]. split; [exact C|exact Rd'].
    - intros t [= <-]. cbn [set_module clock t_contents]. exists fn, (clock s7), m'. split; [exact C|]. split; [lia|exact Rd']. }
  assert (Base : forall s, n <= clock s -> serial_I s -> (forall t, lookup name (modules s) = Some t -> fresh n (clock s) t) ->
            safe1 (serial_Q n) (base_steps (load_steps compile cfg name kw) name) s).
  { clear s HI Ln. intros s Ln HI Fr. unfold base_steps. apply s1_step. intros s1 F1. cbn [M_Threads.step fst snd].
    assert (I1 : serial_I s1) by now apply (serial_I_frame s).
    destruct (lookup name (modules s1)) as [t|] eqn:E.
    - apply s1_return. split; [exact I1|]. intros t' [= <-]. apply (fresh_le n (clock s)); [|apply F1]. apply Fr. now rewrite <- (proj1 F1).
    - apply Load; [|exact I1|exact E]. destruct F1 as (_ & _ & F1). lia. }
  unfold import_steps. apply filename1; [auto|exact HI|]. intros o s1 F1 C. unfold expire_steps. rewrite reload.
  apply s1_step. intros s2 F2. cbn [M_Threads.step fst snd]. pose proof (frame_trans _ _ _ _ F1 F2) as F3.
  assert (I2 : serial_I s2) by now apply (serial_I_frame s). assert (L2 : n <= clock s2) by (destruct F3 as (_ & _ & F3); lia).
  destruct (lookup name (modules s2)) as [t|] eqn:E.
  2:{ apply Base; [exact L2|exact I2|]. intros t E'. congruence. }
  apply s1_step. intros s4 F4. cbn [M_Threads.step]. assert (I4 : serial_I s4) by now apply (serial_I_frame s2).
  assert (E4 : lookup name (modules s4) = Some t) by (rewrite (proj1 F4); exact E).
  destruct o as [fn|]; [|now apply Err]. specialize (C fn eq_refl).
  destruct (fs (clock s4) fn) as [[m c]|] eqn:Rd; cbn [fst snd].
  2:{ apply Err. apply (serial_I_frame s4); [apply frame_tick|exact I4]. }
  apply s1_step. intros s5 F5. cbn [M_Threads.step fst snd].
  destruct (I4 t E4) as (z & i & f & c0 & j & g & m' & B1 & B2 & B3 & B4 & B5 & B6 & B7).
  assert (F6 : frame s4 s5) by (apply (frame_trans _ s4 (tick s4)); [apply frame_tick|exact F5]).
  assert (I5 : serial_I s5) by now apply (serial_I_frame s4).
  assert (L5 : n <= clock s4 /\ clock s4 < clock s5) by (destruct F4 as (_ & _ & F4); destruct F5 as (_ & _ & F5); cbn in F5; lia).
  rewrite (proj1 (proj2 F6)), B1. destruct (Z.ltb_spec z m) as [Lt|Ge].
  - apply s1_step. intros s7 F7. cbn [M_Threads.step]. assert (E7 : lookup name (modules s7) = Some t) by (rewrite (proj1 F7), (proj1 F6); exact E4).
    rewrite E7. cbn [fst snd]. apply Base.
    + cbn [del_module clock]. destruct F7 as (_ & _ & F7). lia.
    + intros t' J. cbn [del_module modules] in J. rewrite lookup_remove_eq in J. discriminate.
    + intros t' J. cbn [del_module modules] in J. rewrite lookup_remove_eq in J. discriminate.
  - apply Base; [lia|exact I5|]. intros t' J. rewrite (proj1 F6), E4 in J. injection J as <-.
    destruct (tell i j f g z c0 m' (t_contents t) B4 B2 B6 B3 B7) as [T1 _].
    destruct (tell j (clock s4) g fn m' (t_contents t) m c (Nat.lt_le_incl _ _ B5) B6 C B7 Rd) as [T2 T3].
    assert (Ec : t_contents t = c).
    { destruct (list_eq_dec N.eq_dec (t_contents t) c) as [Eq|Ne]; [exact Eq|]. specialize (T3 Ne). lia. }
    exists fn, (clock s4), m. split; [exact C|]. split; [lia|]. congruence.
Qed.

Lemma import_pending : forall kw r, import_steps compile cfg name kw <> Return r.
Proof.
  intros kw r. unfold import_steps. destruct (c_path cfg) as [|b path]; cbn [filename_steps]; [|discriminate].
  unfold expire_steps. rewrite reload. discriminate.
Qed.

Notation import_ := (import_steps compile cfg).
Notation advance := (advance fs import_).
Notation schedule := (schedule fs import_).
Lemma prog_dec : forall p, (exists r, p = Return r) \/ forall r, p <> Return r.
Proof. intros p. destruct p; try (right; discriminate). left. eauto. Qed.

Definition call_ok (y : system) (c : call) : Prop :=
  (exists r, done c r /\ forall t, r = Ok t -> fresh (call_start c) (clock (loader y)) t) \/
  (pending c /\ safe1 (serial_Q (call_start c)) (call_prog c) (loader y)).

Theorem serial : forall n l, one_at_a_time fs import_ name l (idle n) ->
  (forall i c, nth_error (calls (schedule l (idle n))) i = Some c -> call_name c = name -> call_ok (schedule l (idle n)) c) /\
  ((forall i c, nth_error (calls (schedule l (idle n))) i = Some c -> call_name c = name -> exists r, done c r) ->
   serial_I (loader (schedule l (idle n)))).
Proof.
  intros n l. induction l as [|e l IH] using rev_ind; intros One.
  { split; [intros i c H; now destruct i|]. intros _ t H. discriminate. }
  assert (One' : one_at_a_time fs import_ name l (idle n)).
  { intros l1 l2 E. apply (One l1 (l2 ++ [e])). now rewrite E, app_assoc. }
  destruct (IH One') as [IHC IHI]. clear IH.
  assert (O : owns (schedule l (idle n))) by (apply owns_schedule; [apply only_import|apply owns_idle]).
  pose proof (One (l ++ [e]) [] (eq_sym (app_nil_r _))) as Last. pose proof (One' l [] (eq_sym (app_nil_r _))) as Before.
  rewrite schedule_one in *. set (y := schedule l (idle n)) in *. destruct e as [nm kw|j].
  - destruct (list_eq_dec N.eq_dec nm name) as [->|Ne].
    + assert (Pn : nth_error (calls (advance y (Begin name kw))) (length (calls y)) = Some (Call name kw (clock (loader y)) (import_ name kw))).
      { cbn [M_Threads.advance calls]. rewrite nth_error_app2 by lia. now rewrite Nat.sub_diag. }
      assert (Q0 : serial_I (loader y)).
      { apply IHI. intros i c H N0. destruct (prog_dec (call_prog c)) as [D|P]; [exact D|exfalso].
        assert (i < length (calls y)) by (apply nth_error_Some; congruence).
        assert (i = length (calls y)); [|lia].
        assert (H' : nth_error (calls (advance y (Begin name kw))) i = Some c) by (cbn [M_Threads.advance calls]; rewrite nth_error_app1; assumption).
        apply (Last i _ c _ H' Pn N0 eq_refl P). intros r. apply import_pending. }
      split.
      * intros i c H N0. apply advance_begin in H as [H|[-> ->]]; [exact (IHC i c H N0)|]. right. split; [intros r; apply import_pending|].
        cbn [call_start call_prog M_Threads.advance loader]. now apply serial_safe.
      * intros A. destruct (A _ _ Pn eq_refl) as [r D]. now destruct (import_pending kw r).
    + split.
      * intros i c H N0. apply advance_begin in H as [H|[-> ->]]; [exact (IHC i c H N0)|]. now destruct Ne.
      * intros A. apply IHI. intros i c H N0. apply (A i c); [|exact N0]. cbn [M_Threads.advance calls]. rewrite nth_error_app1; [exact H|].
        apply nth_error_Some. congruence.
  - destruct (nth_error (calls y) j) as [c0|] eqn:E.
    2:{ cbn [M_Threads.advance] in *. rewrite E in *. split; assumption. }
    destruct (only_step fs _ _ (loader y) (O _ _ E)) as (_ & Cl & Fr).
    pose proof (advance_go_loader fs import_ y j) as Ld. rewrite E in Ld.
    destruct (list_eq_dec N.eq_dec name (call_name c0)) as [Eq|Ne].
    2:{ specialize (Fr name Ne). rewrite <- Ld in Fr. split.
      - intros i c H N0. apply advance_go in H as [H|(c1 & H & -> & ->)]; [|cbn in N0; congruence].
        destruct (IHC i c H N0) as [(r & D & Fs)|[P S1]]; [left|right].
        + exists r. split; [exact D|]. intros t Et. apply (fresh_le _ (clock (loader y))); [now apply Fs|apply Fr].
        + split; [exact P|]. now apply (safe1_frame _ _ (loader y)).
      - intros A. apply (serial_I_frame (loader y)); [exact Fr|]. apply IHI. intros i c H N0.
        destruct (advance_keeps fs import_ (Go j) y i c H) as (c' & H' & (S1 & S2 & S3) & P). destruct (A i c' H') as [r D]; [congruence|].
        exists r. unfold done in *. cbn [is_go] in P. destruct (Nat.eqb_spec i j) as [->|Nij]; [|congruence].
        assert (c = c0) as -> by congruence. congruence. }
    symmetry in Eq. destruct (prog_dec (call_prog c0)) as [[r Er]|Pd].
    { (* nothing left to do *)
      assert (Ey : loader (advance y (Go j)) = loader y) by (rewrite Ld, Er; reflexivity).
      split.
      - intros i c H N0. unfold call_ok. rewrite Ey. apply advance_go in H as [H|(c1 & H & -> & ->)]; [exact (IHC i c H N0)|].
        assert (c1 = c0) as -> by congruence. destruct (IHC j c0 E Eq) as [(r' & D & Fs)|[P S1]]; [|now destruct (P r)].
        left. exists r'. unfold done in *. cbn [call_prog call_start]. rewrite Er in D |- *. cbn [M_Threads.step fst]. auto.
      - intros A. rewrite Ey. apply IHI. intros i c H N0.
        destruct (advance_keeps fs import_ (Go j) y i c H) as (c' & H' & (S1 & S2 & S3) & P). destruct (A i c' H') as [r' D]; [congruence|].
        unfold done in *. cbn [is_go] in P. destruct (Nat.eqb_spec i j) as [->|Nij]; [|exists r'; congruence].
        assert (c = c0) as -> by congruence. eauto. }
    destruct (IHC j c0 E Eq) as [(r & D & _)|[_ S0]]; [now destruct (Pd r)|].
    assert (S1 : safe1 (serial_Q (call_start c0)) (fst (step (call_prog c0) (loader y))) (loader (advance y (Go j)))).
    { rewrite Ld. inversion S0 as [r s0 HQ Ep Es|p0 s0 HS Ep Es]; [now destruct (Pd r)|]. apply HS. apply frame_refl. }
    rewrite <- Ld in Cl. split.
    + intros i c H N0. destruct (Nat.eq_dec i j) as [->|Nij]; [|apply advance_go in H as [H|(c1 & _ & -> & _)]; [|now destruct Nij]].
      2:{ destruct (IHC i c H N0) as [(r & D & Fs)|[P S2]]; [|now destruct Nij; exact (Before i j c c0 H E N0 Eq P Pd)].
        left. exists r. split; [exact D|]. intros t Et. apply (fresh_le _ (clock (loader y))); [now apply Fs|exact Cl]. }
      destruct (advance_keeps fs import_ (Go j) y j c0 E) as (c' & H' & (T1 & T2 & T3) & P). cbn [is_go] in P. rewrite Nat.eqb_refl in P.
      assert (c' = c) as -> by congruence. unfold call_ok, done, pending, done. rewrite P, T3.
      destruct (prog_dec (fst (step (call_prog c0) (loader y)))) as [[r Er]|P']; [left|right].
      * exists r. split; [exact Er|]. rewrite Er in S1. apply safe1_done in S1. apply S1.
      * split; [exact P'|exact S1].
    + intros A. destruct (advance_keeps fs import_ (Go j) y j c0 E) as (c' & H' & (T1 & T2 & T3) & P). destruct (A j c' H') as [r D]; [congruence|].
      cbn [is_go] in P. rewrite Nat.eqb_refl in P. unfold done in D. rewrite <- P, D in S1. apply safe1_done in S1. apply S1.
Qed.
End Threads.
