(** * Loaders and threads: what each call may rely on *)

From Coq Require Import Ascii String List NArith ZArith Bool Lia Arith.
From Verif Require Import PyStr PyStrLemmas M_Loader S_Loader P_Loader P_Loader2 M_Threads S_Threads P_Threads.
Import ListNotations.
Open Scope list_scope.

Section Threads.
Variable fs : nat -> str -> option (Z * str).
Variable compile : kind -> kwargs -> str -> option string.
Notation step := (step fs).

(** ** A call works on the entries of its own name *)

Inductive only (n : str) : prog -> Prop :=
| on_return : forall r, only n (Return r)
| on_exists : forall fn k, (forall b, only n (k b)) -> only n (Exists fn k)
| on_stat : forall fn k, (forall z, only n (k z)) -> only n (Stat fn k)
| on_read : forall fn k, (forall i c, only n (k i c)) -> only n (Read fn k)
| on_cached : forall k, (forall o, only n (k o)) -> only n (Cached n k)
| on_forget : forall k, only n k -> only n (Forget n k)
| on_keep : forall t k, only n k -> only n (Keep n t k)
| on_stamp : forall k, (forall z, only n (k z)) -> only n (Stamp n k)
| on_setstamp : forall z k, only n k -> only n (SetStamp n z k).

(** What others leave alone. *)
Definition frame (name : str) (s s' : state) : Prop :=
  lookup name (modules s') = lookup name (modules s) /\ lookup name (timestamps s') = lookup name (timestamps s) /\
  clock s <= clock s'.
Lemma frame_refl : forall name s, frame name s s.
Proof. intros. unfold frame. auto. Qed.
Lemma frame_trans : forall name a b c, frame name a b -> frame name b c -> frame name a c.
Proof. intros name a b c (A1 & A2 & A3) (B1 & B2 & B3). unfold frame. split; [congruence|]. split; [congruence|lia]. Qed.
Lemma frame_tick : forall name s, frame name s (tick s).
Proof. intros. unfold frame. cbn. auto. Qed.

Lemma only_step : forall n p s, only n p ->
  only n (fst (step p s)) /\ clock s <= clock (snd (step p s)) /\ forall m, m <> n -> frame m s (snd (step p s)).
Proof.
  intros n p s H. inversion H; subst; cbn [M_Threads.step].
  - cbn [fst snd]. split; [constructor|]. split; [auto|]. intros; apply frame_refl.
  - cbn [fst snd]. split; [auto|]. split; [cbn; lia|]. intros; apply frame_tick.
  - destruct fn as [fn|]; [destruct (fs (clock s) fn) as [[m c]|]|]; cbn [fst snd]; (split; [auto; constructor|]); (split; [cbn; lia|]); intros;
      try apply frame_tick; apply frame_refl.
  - destruct (fs (clock s) fn) as [[m c]|]; cbn [fst snd]; (split; [auto; constructor|]); (split; [cbn; lia|]); intros; apply frame_tick.
  - cbn [fst snd]. split; [auto|]. split; [auto|]. intros; apply frame_refl.
  - destruct (lookup n (modules s)) as [t|]; cbn [fst snd]; (split; [auto; constructor|]); (split; [cbn; lia|]); intros; [|apply frame_refl].
    unfold frame, del_module. cbn. rewrite lookup_remove_neq by assumption. auto.
  - cbn [fst snd]. split; [auto|]. split; [cbn; lia|]. intros. unfold frame, set_module. cbn [modules timestamps clock].
    rewrite lookup_set_neq by assumption. auto.
  - cbn [fst snd]. split; [auto|]. split; [auto|]. intros; apply frame_refl.
  - cbn [fst snd]. split; [auto|]. split; [cbn; lia|]. intros. unfold frame, set_timestamp. cbn [modules timestamps clock].
    rewrite lookup_set_neq by assumption. auto.
Qed.

Lemma only_filename : forall n path name k, (forall o, only n (k o)) -> only n (filename_steps path name k).
Proof.
  induction path as [|b path IH]; intros name k H; cbn [filename_steps]; [apply H|]. constructor. intros [|]; auto.
Qed.
Lemma only_build : forall n kd given options fn k, (forall t, only n (k t)) -> only n (build_steps compile kd given options fn k).
Proof.
  intros n kd given options fn k H. unfold build_steps. destruct (bind_kwargs kd given options); [|constructor].
  constructor. intros i c. destruct (compile kd _ c); [constructor|apply H].
Qed.
Lemma only_expire : forall b n fn k, only n k -> only n (expire_steps b n fn k).
Proof.
  intros b n fn k H. unfold expire_steps. destruct b; [|exact H].
  constructor. intros [t|]; [|exact H]. constructor. intros z. constructor. intros z'. destruct (_ <? _)%Z; [now constructor|exact H].
Qed.
Lemma only_base : forall steps n, (forall k, (forall t, only n (k t)) -> only n (steps k)) -> only n (base_steps steps n).
Proof.
  intros steps n H. constructor. intros [t|]; [constructor|]. apply H. intros t. constructor. constructor.
Qed.
Lemma only_import : forall cfg name kw, only name (import_steps compile cfg name kw).
Proof.
  intros cfg name kw. unfold import_steps. apply only_filename. intros o. apply only_expire. apply only_base. intros k Hk.
  unfold load_steps. apply only_filename. intros [fn|]; [|constructor]. constructor. intros z. constructor. fold (options_of cfg kw).
  rewrite mode_steps_eq. destruct (choice cfg fn) as [[kd given]|]; [|constructor]. now apply only_build.
Qed.

(** ** Rely and guarantee

    [safe I R Q p s]: if the others keep [I] and change the state as [R] allows only, this call does too, and what it
    returns is as [Q] says. *)
Inductive safe (I : state -> Prop) (R : state -> state -> Prop) (Q : result template -> state -> Prop) : prog -> state -> Prop :=
| safe_return : forall r s, Q r s -> safe I R Q (Return r) s
| safe_step : forall p s,
    (forall s', R s s' -> I s' -> I (snd (step p s')) /\ R s' (snd (step p s'))) ->
    (forall s', R s s' -> I s' -> safe I R Q (fst (step p s')) (snd (step p s'))) ->
    safe I R Q p s.
Lemma safe_inv : forall (I : state -> Prop) (R : state -> state -> Prop) (Q : result template -> state -> Prop) p s, safe I R Q p s ->
  (exists r, p = Return r /\ Q r s) \/
  (forall s', R s s' -> I s' -> I (snd (step p s')) /\ R s' (snd (step p s')) /\ safe I R Q (fst (step p s')) (snd (step p s'))).
Proof.
  intros I R Q p s H. destruct H as [r s HQ|p s H1 H2]; [left; eauto|right]. intros s' A B. destruct (H1 s' A B). auto.
Qed.
Lemma safe_one : forall (I : state -> Prop) (R : state -> state -> Prop) Q p s,
  (forall s', R s s' -> I s' -> I (snd (step p s')) /\ R s' (snd (step p s')) /\ safe I R Q (fst (step p s')) (snd (step p s'))) ->
  safe I R Q p s.
Proof. intros I R Q p s H. apply safe_step; intros s' A B; destruct (H s' A B) as (H1 & H2 & H3); auto. Qed.

Section System.
Variable import_ : str -> kwargs -> prog.
Notation advance := (advance fs import_).
Notation schedule := (schedule fs import_).
Hypothesis import_only : forall name kw, only name (import_ name kw).

Definition owns (y : system) : Prop := forall i c, nth_error (calls y) i = Some c -> only (call_name c) (call_prog c).
Lemma owns_idle : forall n, owns (idle n).
Proof. intros n i c H. now destruct i. Qed.
Lemma owns_advance : forall y e, owns y -> owns (advance y e).
Proof.
  intros y e O i c H. destruct e as [name kw|j].
  - apply advance_begin in H as [H|[-> ->]]; [eauto|apply import_only].
  - apply advance_go in H as [H|(c0 & H & -> & ->)]; [eauto|]. cbn [call_name call_prog]. apply (only_step _ _ _ (O _ _ H)).
Qed.
Lemma owns_schedule : forall l y, owns y -> owns (schedule l y).
Proof. induction l as [|e l IH]; intros y O; [exact O|]. apply IH. now apply owns_advance. Qed.

(** For all calls of one name. *)
Variable name : str.
Variable K : kwargs -> Prop.
Variable I : state -> Prop.
Variable R : state -> state -> Prop.
Variable Q : kwargs -> nat -> result template -> state -> Prop.
Hypothesis R_refl : forall s, R s s.
Hypothesis R_trans : forall a b c, R a b -> R b c -> R a c.
Hypothesis R_frame : forall a b, frame name a b -> R a b.
Hypothesis I_frame : forall a b, frame name a b -> I a -> I b.
Hypothesis Q_rely : forall kw n r s s', R s s' -> Q kw n r s -> Q kw n r s'.

Lemma safe_rely : forall kw n p s s', safe I R (Q kw n) p s -> R s s' -> safe I R (Q kw n) p s'.
Proof.
  intros kw n p s s' H HR. apply safe_inv in H as [(r & -> & HQ)|HS].
  - apply safe_return. now apply (Q_rely _ _ _ s).
  - apply safe_one. intros s1 R1 I1. apply HS; [now apply (R_trans _ s')|exact I1].
Qed.
Theorem all_safe : forall y, owns y -> I (loader y) ->
  (forall i c, nth_error (calls y) i = Some c -> call_name c = name -> exists r, done c r) ->
  (forall kw s, K kw -> I s -> safe I R (Q kw (clock s)) (import_ name kw) s) ->
  forall l, (forall kw, In (Begin name kw) l -> K kw) -> I (loader (schedule l y)) /\
    forall i c, nth_error (calls (schedule l y)) i = Some c -> call_name c = name ->
      i < length (calls y) /\ (exists r, done c r) \/
      safe I R (Q (call_kw c) (call_start c)) (call_prog c) (loader (schedule l y)).
Proof.
  intros y0 Ow Init Old New l. induction l as [|e l IH] using rev_ind; intros HK.
  { split; [apply Init|]. intros i c H N. left. split; [apply nth_error_Some; change (schedule [] y0) with y0 in H; congruence|]. now apply (Old i). }
  destruct IH as [IHI IHS]; [intros kw J; apply HK; apply in_or_app; now left|].
  rewrite schedule_one. pose proof (owns_schedule l y0 Ow) as O. set (y := schedule l y0) in *. destruct e as [nm kw|j].
  - split; [exact IHI|]. intros i c H N. apply advance_begin in H as [H|[-> ->]]; [now apply (IHS i)|]. cbn in N. subst nm. right.
    cbn [call_kw call_start call_prog M_Threads.advance loader]. apply New; [|exact IHI]. apply HK. apply in_or_app. right. now left.
  - rewrite advance_go_loader. destruct (nth_error (calls y) j) as [c0|] eqn:E.
    2:{ split; [exact IHI|]. intros i c H N. apply advance_go in H as [H|(c1 & H & _)]; [now apply (IHS i)|congruence]. }
    assert (G : I (snd (step (call_prog c0) (loader y))) /\ R (loader y) (snd (step (call_prog c0) (loader y))) /\
                (call_name c0 = name -> j < length (calls y0) /\ (exists r, fst (step (call_prog c0) (loader y)) = Return r) \/
                  safe I R (Q (call_kw c0) (call_start c0)) (fst (step (call_prog c0) (loader y))) (snd (step (call_prog c0) (loader y))))).
    { destruct (list_eq_dec N.eq_dec name (call_name c0)) as [Eq|Ne].
      - destruct (IHS j c0 E (eq_sym Eq)) as [[Lt [r Ep]]|HS].
        + unfold done in Ep. rewrite Ep. cbn [M_Threads.step fst snd]. split; [exact IHI|]. split; [apply R_refl|]. intros _. left. split; [exact Lt|eauto].
        + apply safe_inv in HS as [(r & Ep & HQ)|HS'].
          * rewrite Ep. cbn [M_Threads.step fst snd]. split; [exact IHI|]. split; [apply R_refl|]. intros _. right. now apply safe_return.
          * destruct (HS' (loader y) (R_refl _) IHI) as (A & B & C). auto.
      - assert (F : frame name (loader y) (snd (step (call_prog c0) (loader y)))).
        { apply (only_step _ _ _ (O _ _ E)). exact Ne. }
        split; [now apply (I_frame (loader y))|]. split; [now apply R_frame|]. congruence. }
    destruct G as (G1 & G2 & G3). split; [exact G1|]. intros i c H N. apply advance_go in H as [H|(c1 & H & -> & ->)].
    + destruct (IHS i c H N) as [D|S0]; [now left|right]. now apply (safe_rely _ _ _ (loader y)).
    + assert (c1 = c0) as -> by congruence. cbn [call_kw call_start call_prog call_name] in *. destruct (G3 N) as [D|S0]; [left; exact D|now right].
Qed.
Lemma safe_done : forall kw n r s, I s -> safe I R (Q kw n) (Return r) s -> Q kw n r s.
Proof.
  intros kw n r s HI H. remember (Return r) as p eqn:E. revert HI E. induction H as [r0 s HQ|p s HS _ IH]; intros HI E.
  - congruence.
  - subst p. specialize (IH s (R_refl s) HI) as IH. cbn [M_Threads.step fst snd] in IH. apply IH; [exact HI|reflexivity].
Qed.
End System.
End Threads.
