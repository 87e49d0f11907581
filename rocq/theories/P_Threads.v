(** * Loaders and threads: one call by itself, frames, schedules *)

From Coq Require Import Ascii String List NArith ZArith Bool Lia Arith.
From Verif Require Import PyStr PyStrLemmas M_Loader S_Loader P_Loader P_Loader2 M_Threads S_Threads.
Import ListNotations.
Open Scope list_scope.

Section Threads.
Variable fs : nat -> str -> option (Z * str).
Variable compile : kind -> kwargs -> str -> option string.
Notation step := (step fs).

(** ** A call that is not interrupted *)

Fixpoint run (p : prog) (s : state) : result template * state :=
  match p with
  | Return r => (r, s)
  | Exists fn k => run (k (match fs (clock s) fn with Some _ => true | None => false end)) (tick s)
  | Stat None k => (Raise "TypeError", s)
  | Stat (Some fn) k => match fs (clock s) fn with Some (m, _) => run (k m) (tick s) | None => (Raise "FileNotFoundError", tick s) end
  | Read fn k => match fs (clock s) fn with Some (_, c) => run (k (S (clock s)) c) (tick s) | None => (Raise "FileNotFoundError", tick s) end
  | Cached name k => run (k (lookup name (modules s))) s
  | Forget name k => match lookup name (modules s) with Some _ => run k (del_module name s) | None => (Raise "KeyError", s) end
  | Keep name t k => run k (set_module name t s)
  | Stamp name k => run (k (match lookup name (timestamps s) with Some z => z | None => 0%Z end)) s
  | SetStamp name z k => run k (set_timestamp name z s)
  end.

Definition stepp (x : prog * state) : prog * state := step (fst x) (snd x).
Lemma iter_S : forall n x, Nat.iter (S n) stepp x = Nat.iter n stepp (stepp x).
Proof. induction n as [|n IH]; intros x; [reflexivity|]. change (stepp (Nat.iter (S n) stepp x) = stepp (Nat.iter n stepp (stepp x))). now rewrite IH. Qed.
Lemma iter_run : forall p s, exists n, Nat.iter n stepp (p, s) = (Return (fst (run p s)), snd (run p s)).
Proof.
  induction p; intros s.
  - now exists 0.
  - destruct (H (match fs (clock s) fn with Some _ => true | None => false end) (tick s)) as [n E]. exists (S n). rewrite iter_S. exact E.
  - destruct fn as [fn|]; [|exists 1; reflexivity]. destruct (fs (clock s) fn) as [[m c]|] eqn:F.
    + destruct (H m (tick s)) as [n E]. exists (S n). rewrite iter_S. unfold stepp at 2. cbn [fst snd M_Threads.step run]. rewrite F. exact E.
    + exists 1. unfold stepp. cbn. now rewrite F.
  - destruct (fs (clock s) fn) as [[m c]|] eqn:F.
    + destruct (H (S (clock s)) c (tick s)) as [n E]. exists (S n). rewrite iter_S. unfold stepp at 2. cbn [fst snd M_Threads.step run]. rewrite F. exact E.
    + exists 1. unfold stepp. cbn. now rewrite F.
  - destruct (H (lookup name (modules s)) s) as [n E]. exists (S n). rewrite iter_S. exact E.
  - destruct (lookup name (modules s)) as [t|] eqn:F.
    + destruct (IHp (del_module name s)) as [n E]. exists (S n). rewrite iter_S. unfold stepp at 2. cbn [fst snd M_Threads.step run]. rewrite F. exact E.
    + exists 1. unfold stepp. cbn. now rewrite F.
  - destruct (IHp (set_module name t s)) as [n E]. exists (S n). rewrite iter_S. exact E.
  - destruct (H (match lookup name (timestamps s) with Some z => z | None => 0%Z end) s) as [n E]. exists (S n). rewrite iter_S. exact E.
  - destruct (IHp (set_timestamp name z s)) as [n E]. exists (S n). rewrite iter_S. exact E.
Qed.

Definition on_ok {A} (m : result A * state) (k : A -> state -> result template * state) : result template * state :=
  match m with (Ok a, s) => k a s | (Raise e, s) => (Raise e, s) end.
Lemma run_filename : forall path name k s,
  run (filename_steps path name k) s = on_ok (filename_in fs path name s) (fun o => run (k o)).
Proof.
  induction path as [|base path IH]; intros name k s; [reflexivity|]. cbn [filename_steps run filename_in]. unfold bind at 1.
  cbn [exists_file]. destruct (fs (clock s) (path_join base name)); [reflexivity|]. rewrite IH. unfold bind. cbn [exists_file]. reflexivity.
Qed.
Lemma run_build : forall kd given options fn k s,
  run (build_steps compile kd given options fn k) s = on_ok (build fs compile kd given options fn s) (fun t => run (k t)).
Proof.
  intros kd given options fn k s. unfold build_steps, build, bind, lift, read_file.
  destruct (bind_kwargs kd given options) as [args|e]; [|reflexivity]. cbn [run].
  destruct (fs (clock s) fn) as [[m c]|]; [|reflexivity]. destruct (compile kd args c); reflexivity.
Qed.
Lemma mode_steps_eq : forall cfg fn kw k,
  mode_steps compile cfg fn (options_of cfg kw) k =
  match choice cfg fn with
  | Some (kd, given) => build_steps compile kd given (options_of cfg kw) fn k
  | None => Return (Raise "KeyError")
  end.
Proof.
  intros. unfold mode_steps, choice, extension_steps.
  destruct (c_force_mode cfg) as [[|c mode]|];
    repeat match goal with |- context [if seqb ?a ?b then _ else _] => destruct (seqb a b) end; reflexivity.
Qed.
Lemma run_load : forall cfg name kw k s,
  run (load_steps compile cfg name kw k) s =
  on_ok (load fs compile cfg (filename_in fs (c_path cfg)) name kw s) (fun t => run (k t)).
Proof.
  intros cfg name kw k s. rewrite load_eq. unfold load_steps. rewrite run_filename. unfold bind at 1.
  destruct (filename_in fs (c_path cfg) name s) as [[[fn|]|e] s1]; [|reflexivity|reflexivity].
  cbn [on_ok run]. unfold bind, stat. destruct (fs (clock s1) fn) as [[m c]|]; [|reflexivity].
  fold (options_of cfg kw). rewrite mode_steps_eq. unfold construct. destruct (choice cfg fn) as [[kd given]|]; [|reflexivity].
  apply run_build.
Qed.
Lemma run_base : forall do_load steps name s,
  (forall k, run (steps k) s = on_ok (do_load s) (fun t => run (k t))) ->
  run (base_steps steps name) s = base_import do_load name s.
Proof.
  intros do_load steps name s H. unfold base_steps, base_import. cbn [run].
  destruct (lookup name (modules s)); [reflexivity|]. rewrite H. unfold bind. destruct (do_load s) as [[t|e] s1]; reflexivity.
Qed.
Lemma run_expire : forall b name fn k s,
  run (expire_steps b name fn k) s = on_ok (expire fs b name fn s) (fun _ => run k).
Proof.
  intros b name fn k s. unfold expire_steps, expire. destruct b; [|reflexivity]. cbn [run].
  destruct (lookup name (modules s)) as [t|] eqn:M; [|reflexivity]. cbn [run]. unfold stat. destruct fn as [fn|]; [|reflexivity].
  destruct (fs (clock s) fn) as [[m c]|]; [|reflexivity]. cbn [tick timestamps].
  destruct (_ <? m)%Z; [|reflexivity]. cbn [run modules tick]. rewrite M. reflexivity.
Qed.
Theorem run_import : forall cfg name kw s,
  run (import_steps compile cfg name kw) s = file_import fs compile cfg name kw s.
Proof.
  intros cfg name kw s. unfold import_steps, file_import, import_with. rewrite run_filename. unfold bind at 1.
  destruct (filename_in fs (c_path cfg) name s) as [[fn|e] s1]; [|reflexivity]. cbn [on_ok]. rewrite run_expire. unfold bind.
  destruct (expire fs (c_reload cfg) name fn s1) as [[u|e] s2]; [|reflexivity]. cbn [on_ok]. apply run_base. intros k. apply run_load.
Qed.
Theorem run_pyramid : forall auto mode abspath name kw s,
  run (pyramid_steps compile auto mode abspath name kw) s = pyramid_import fs compile auto mode abspath name kw s.
Proof.
  intros. unfold pyramid_steps, pyramid_import. cbv zeta. rewrite run_expire. unfold bind at 1.
  destruct (expire fs auto (abspath name) (Some (abspath name)) s) as [[u|e] s2]; [|reflexivity]. cbn [on_ok]. apply run_base. intros k. apply run_build.
Qed.

(** ** Every call comes to an end *)

Inductive within : nat -> prog -> Prop :=
| wi_return : forall n r, within n (Return r)
| wi_exists : forall n fn k, (forall b, within n (k b)) -> within (S n) (Exists fn k)
| wi_stat : forall n fn k, (forall z, within n (k z)) -> within (S n) (Stat fn k)
| wi_read : forall n fn k, (forall i c, within n (k i c)) -> within (S n) (Read fn k)
| wi_cached : forall n name k, (forall o, within n (k o)) -> within (S n) (Cached name k)
| wi_forget : forall n name k, within n k -> within (S n) (Forget name k)
| wi_keep : forall n name t k, within n k -> within (S n) (Keep name t k)
| wi_stamp : forall n name k, (forall z, within n (k z)) -> within (S n) (Stamp name k)
| wi_setstamp : forall n name z k, within n k -> within (S n) (SetStamp name z k).
Lemma within_le : forall n p, within n p -> forall m, n <= m -> within m p.
Proof.
  induction 1; intros m0 Le; try (destruct m0 as [|m0]; [lia|]); constructor; intros; auto with arith.
Qed.
Lemma within_zero : forall p, within 0 p -> exists r, p = Return r.
Proof. intros p H. inversion H. eauto. Qed.
Lemma within_step : forall n p s, within (S n) p -> within n (fst (step p s)).
Proof.
  intros n p s H. inversion H; subst; cbn [M_Threads.step]; try (now constructor); try (cbn [fst]; auto).
  - destruct fn as [fn|]; [destruct (fs (clock s) fn) as [[m c]|]|]; cbn [fst]; auto; constructor.
  - destruct (fs (clock s) fn) as [[m c]|]; cbn [fst]; auto; constructor.
  - destruct (lookup name (modules s)); cbn [fst]; auto; constructor.
Qed.
Lemma within_filename : forall path name k n, (forall o, within n (k o)) -> within (length path + n) (filename_steps path name k).
Proof.
  induction path as [|b path IH]; intros name k n H; cbn [length Nat.add filename_steps]; [apply H|].
  constructor. intros [|]; [|now apply IH]. apply (within_le n); [apply H|lia].
Qed.
Lemma within_build : forall kd given options fn k n, (forall t, within n (k t)) -> within (S n) (build_steps compile kd given options fn k).
Proof.
  intros kd given options fn k n H. unfold build_steps. destruct (bind_kwargs kd given options); [|constructor].
  constructor. intros i c. destruct (compile kd _ c); [constructor|apply H].
Qed.
Lemma within_expire : forall b name fn k n, within n k -> within (4 + n) (expire_steps b name fn k).
Proof.
  intros b name fn k n H. unfold expire_steps. destruct b; [|apply (within_le n); [exact H|lia]].
  constructor. intros [t|]; [|apply (within_le n); [exact H|lia]]. constructor. intros z. constructor. intros z'.
  destruct (_ <? _)%Z; [now constructor|]. apply (within_le n); [exact H|lia].
Qed.
Lemma within_base : forall steps name n, (forall k, (forall t, within 1 (k t)) -> within n (steps k)) -> within (S n) (base_steps steps name).
Proof.
  intros steps name n H. constructor. intros [t|]; [constructor|]. apply H. intros t. constructor. constructor.
Qed.
Lemma within_import : forall cfg name kw, within (2 * length (c_path cfg) + 9) (import_steps compile cfg name kw).
Proof.
  intros cfg name kw. unfold import_steps. replace (2 * length (c_path cfg) + 9) with (length (c_path cfg) + (4 + S (length (c_path cfg) + 4))) by lia.
  apply within_filename. intros o. apply within_expire. apply within_base. intros k Hk. unfold load_steps. apply within_filename.
  intros [fn|]; [|constructor]. constructor. intros z. constructor. fold (options_of cfg kw). rewrite mode_steps_eq.
  destruct (choice cfg fn) as [[kd given]|]; [|constructor]. now apply within_build.
Qed.

(** ** Schedules *)

Variable import_ : str -> kwargs -> prog.
Notation advance := (advance fs import_).
Notation schedule := (schedule fs import_).

Lemma nth_replace_same : forall A i (x : A) l y, nth_error l i = Some y -> nth_error (replace_nth i x l) i = Some x.
Proof. induction i as [|i IH]; intros x [|z l] y H; try discriminate; cbn [replace_nth nth_error]; [reflexivity|]. now apply (IH x l y). Qed.
Lemma nth_replace_other : forall A i j (x : A) l, i <> j -> nth_error (replace_nth i x l) j = nth_error l j.
Proof.
  induction i as [|i IH]; intros [|j] x [|z l] N; cbn [replace_nth nth_error]; try reflexivity; [lia|]. apply IH. lia.
Qed.

(** What an event does to the calls. *)
Lemma advance_begin : forall y name kw i c, nth_error (calls (advance y (Begin name kw))) i = Some c ->
  nth_error (calls y) i = Some c \/ (i = length (calls y) /\ c = Call name kw (clock (loader y)) (import_ name kw)).
Proof.
  intros y name kw i c H. cbn [M_Threads.advance calls] in H. destruct (lt_dec i (length (calls y))) as [Lt|Ge].
  - left. now rewrite nth_error_app1 in H.
  - right. rewrite nth_error_app2 in H by lia. destruct (i - length (calls y)) as [|n] eqn:E.
    + cbn in H. split; [lia|congruence].
    + destruct n; discriminate.
Qed.
Lemma advance_go : forall y j i c, nth_error (calls (advance y (Go j))) i = Some c ->
  nth_error (calls y) i = Some c \/
  exists c0, nth_error (calls y) j = Some c0 /\ i = j /\
    c = Call (call_name c0) (call_kw c0) (call_start c0) (fst (step (call_prog c0) (loader y))).
Proof.
  intros y j i c H. cbn [M_Threads.advance] in H. destruct (nth_error (calls y) j) as [c0|] eqn:E; [|now left].
  destruct (step (call_prog c0) (loader y)) as [p s] eqn:St. cbn [calls] in H. destruct (Nat.eq_dec j i) as [->|N].
  - right. exists c0. rewrite (nth_replace_same _ _ _ _ _ E) in H. injection H as <-. rewrite St. cbn [fst]. auto.
  - left. rewrite nth_replace_other in H by assumption. exact H.
Qed.
Lemma advance_go_loader : forall y j, loader (advance y (Go j)) =
  match nth_error (calls y) j with Some c => snd (step (call_prog c) (loader y)) | None => loader y end.
Proof.
  intros y j. cbn [M_Threads.advance]. destruct (nth_error (calls y) j) as [c|]; [|reflexivity].
  destruct (step (call_prog c) (loader y)); reflexivity.
Qed.
Lemma schedule_app : forall a b y, schedule (a ++ b) y = schedule b (schedule a y).
Proof. intros a b y. unfold M_Threads.schedule. now rewrite fold_left_app. Qed.
Lemma schedule_one : forall a e y, schedule (a ++ [e]) y = advance (schedule a y) e.
Proof. intros a e y. rewrite schedule_app. reflexivity. Qed.

(** A call that is there stays there, with its name, options and beginning, and makes its steps. *)
Definition same_call (c c' : call) : Prop := call_name c' = call_name c /\ call_kw c' = call_kw c /\ call_start c' = call_start c.
Lemma advance_keeps : forall e y i c, nth_error (calls y) i = Some c ->
  exists c', nth_error (calls (advance y e)) i = Some c' /\ same_call c c' /\
    (if is_go i e then call_prog c' = fst (step (call_prog c) (loader y)) else call_prog c' = call_prog c).
Proof.
  intros [name kw|j] y i c H.
  - exists c. cbn [M_Threads.advance calls is_go]. split; [|split; [now split|reflexivity]].
    rewrite nth_error_app1; [exact H|]. apply nth_error_Some. congruence.
  - cbn [M_Threads.advance is_go]. destruct (Nat.eqb_spec i j) as [<-|N].
    + rewrite H. destruct (step (call_prog c) (loader y)) as [p s] eqn:St. eexists. cbn [calls]. split; [apply (nth_replace_same _ _ _ _ _ H)|].
      split; [now split|reflexivity].
    + exists c. split; [|split; [now split|reflexivity]]. destruct (nth_error (calls y) j) as [c0|]; [|exact H].
      destruct (step (call_prog c0) (loader y)) as [p s]. cbn [calls]. rewrite nth_replace_other by congruence. exact H.
Qed.
Lemma finishes : forall l n y i c, nth_error (calls y) i = Some c -> within n (call_prog c) -> n <= steps_of i l ->
  exists c' r, nth_error (calls (schedule l y)) i = Some c' /\ same_call c c' /\ done c' r.
Proof.
  induction l as [|e l IH]; intros n y i c H W Le.
  - cbn in Le. assert (n = 0) as -> by lia. destruct (within_zero _ W) as [r E]. exists c, r. repeat split; auto.
  - destruct (advance_keeps e y i c H) as (c1 & H1 & S1 & P1). unfold steps_of in Le. cbn [filter] in Le.
    assert (G : exists m, within m (call_prog c1) /\ m <= steps_of i l).
    { destruct (is_go i e); rewrite P1.
      - cbn [length] in Le. destruct n as [|n].
        + exists 0. split; [|lia]. destruct (within_zero _ W) as [r E]. rewrite E. constructor.
        + exists n. split; [now apply within_step|]. unfold steps_of. lia.
      - exists n. split; [exact W|exact Le]. }
    destruct G as (m & W1 & Le1). destruct (IH m (advance y e) i c1 H1 W1 Le1) as (c' & r & A & (B1 & B2 & B3) & D).
    exists c', r. split; [exact A|]. split; [|exact D]. destruct S1 as (S1 & S2 & S3). repeat split; congruence.
Qed.
End Threads.
