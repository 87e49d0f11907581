(** * Properties of loaders that several threads use (C66 - C68) *)

From Coq Require Import Ascii String List NArith ZArith Bool Lia Arith.
From Verif Require Import PyStr PyStrLemmas M_Loader S_Loader P_Loader P_Loader2 M_Threads S_Threads.
From Verif Require Import P_Threads P_Threads2 P_Threads3 P_Threads4.
Import ListNotations.
Open Scope list_scope.

(** ** C66: calls at the same time *)

(** A call that is not interrupted does what [M_Loader] says: the two models of the code agree. *)
Theorem C66_alone : forall fs compile cfg name kw s,
  exists n, Nat.iter n (fun x => step fs (fst x) (snd x)) (import_steps compile cfg name kw, s) =
    (Return (fst (file_import fs compile cfg name kw s)), snd (file_import fs compile cfg name kw s)).
Proof. intros. rewrite <- run_import. apply iter_run. Qed.
Print Assumptions C66_alone.
Theorem C66_pyramid_alone : forall fs compile auto mode abspath name kw s,
  exists n, Nat.iter n (fun x => step fs (fst x) (snd x)) (pyramid_steps compile auto mode abspath name kw, s) =
    (Return (fst (pyramid_import fs compile auto mode abspath name kw s)), snd (pyramid_import fs compile auto mode abspath name kw s)).
Proof. intros. rewrite <- run_pyramid. apply iter_run. Qed.
Print Assumptions C66_pyramid_alone.

(** Whatever the others do, a call is finished after a number of its own steps that depends on the search path
    only. *)
Theorem C66_finishes : forall fs compile cfg y name kw l,
  2 * length (c_path cfg) + 9 <= steps_of (length (calls y)) l ->
  exists c r, nth_error (calls (schedule fs (import_steps compile cfg) (Begin name kw :: l) y)) (length (calls y)) = Some c /\
    call_name c = name /\ call_kw c = kw /\ done c r.
Proof.
  intros fs compile cfg y name kw l H. cbn [schedule fold_left].
  destruct (finishes fs (import_steps compile cfg) l (2 * length (c_path cfg) + 9) (advance fs (import_steps compile cfg) y (Begin name kw))
              (length (calls y)) (Call name kw (clock (loader y)) (import_steps compile cfg name kw))) as (c & r & A & (B1 & B2 & B3) & D).
  - cbn [advance calls]. rewrite nth_error_app2 by lia. now rewrite Nat.sub_diag.
  - apply within_import.
  - exact H.
  - exists c, r. auto.
Qed.
Print Assumptions C66_finishes.

(** In every schedule, with files that change in any way: a call returns a template made of what a file for its own name
    contained, with options that were given for that name, or fails for one of the reasons listed. *)
Theorem C66_outcome : forall fs compile cfg n l i c r,
  nth_error (calls (schedule fs (import_steps compile cfg) l (idle n))) i = Some c -> done c r ->
  let now := clock (loader (schedule fs (import_steps compile cfg) l (idle n))) in
  match r with
  | Ok t => made_of fs compile cfg (fun kw => In (Begin (call_name c) kw) l) (call_name c) now t
  | Raise e => failure fs compile cfg (call_name c) (call_kw c) (call_start c) now e
  end.
Proof.
  intros fs compile cfg n l i c r H D now.
  set (K := fun kw => In (Begin (call_name c) kw) l).
  destruct (all_safe fs (import_steps compile cfg) (fun m kw => only_import compile cfg m kw) (call_name c) K
              (own_I fs compile cfg (call_name c) K) later (own_Q fs compile cfg (call_name c) K)
              ltac:(unfold later; lia) ltac:(unfold later; lia) ltac:(intros a b (_ & _ & E); exact E)
              (own_I_frame fs compile cfg (call_name c) K) (own_Q_later fs compile cfg (call_name c) K)
              (idle n) (owns_idle n)) with (l := l) as [HI HS].
  - intros t E. discriminate.
  - intros j d E. now destruct j.
  - intros kw s HK HI. now apply own_safe.
  - intros kw J. exact J.
  - destruct (HS i c H eq_refl) as [[Lt _]|S0]; [cbn in Lt; lia|]. unfold done in D. rewrite D in S0.
    apply safe_done in S0; [exact S0|unfold later; lia|exact HI].
Qed.
Print Assumptions C66_outcome.

(** If the files for a name do not change, calls at the same time are like calls one after the other: each returns a template
    of the first file there is, or fails as it would alone. *)
Theorem C66_quiet : forall fs compile cfg n now name f l i c r,
  quiet_for fs (candidate (c_path cfg) name) n now -> found_in now name (c_path cfg) f ->
  nth_error (calls (schedule fs (import_steps compile cfg) l (idle n))) i = Some c -> call_name c = name -> done c r ->
  outcome compile cfg now f (fun kw => In (Begin name kw) l) (call_kw c) r.
Proof.
  intros fs compile cfg n now name f l i c r Qt F H N D.
  set (K := fun kw => In (Begin name kw) l).
  destruct (all_safe fs (import_steps compile cfg) (fun m kw => only_import compile cfg m kw) name K
              (quiet_I compile cfg name now n f K) (quiet_R name) (quiet_Q compile cfg now f K)
              ltac:(intros s; apply quiet_R_frame, frame_refl)
              ltac:(unfold quiet_R; intros a b d [A1 A2] [B1 B2]; split; [lia|auto])
              (quiet_R_frame name) (quiet_I_frame compile cfg name now n f K)
              ltac:(intros kw m x s s' _ Q0; exact Q0)
              (idle n) (owns_idle n)) with (l := l) as [HI HS].
  - split; [cbn; lia|]. split; discriminate.
  - intros j d E. now destruct j.
  - intros kw s HK HI. now apply quiet_safe.
  - intros kw J. exact J.
  - destruct (HS i c H N) as [[Lt _]|S0]; [cbn in Lt; lia|]. unfold done in D. rewrite D in S0.
    apply safe_done in S0; [exact S0|intros s; apply quiet_R_frame, frame_refl|exact HI].
Qed.
Print Assumptions C66_quiet.

(** Two threads that load the same template at the same time, step by step in turn. *)
Definition compiles (k : kind) (a : kwargs) (c : str) : option string := None.
Definition cfg_of (reload : bool) : config := Config [L "/t"] reload None (OBool false) ONone [].
Definition page : str := L "a.xml".
Definition one_file (n : nat) (f : str) : option (Z * str) := if seqb f (L "/t/a.xml") then Some (1%Z, L "<p/>") else None.
Definition turns : list event := Begin page [] :: Begin page [] :: concat (repeat [Go 0; Go 1] 12).
Example C66_example :
  quiet_for one_file (candidate [L "/t"] page) 0 (one_file 0) /\ found_in (one_file 0) page [L "/t"] (Some (L "/t/a.xml")) /\
  exists a b ta tb, calls (schedule one_file (import_steps compiles (cfg_of true)) turns (idle 0)) = [a; b] /\
    done a (Ok ta) /\ done b (Ok tb) /\ t_contents ta = L "<p/>" /\ t_contents tb = L "<p/>" /\ ta <> tb.
Proof.
  split; [intros i f _ _; reflexivity|]. split; [apply (found_here (one_file 0) page (L "/t")); discriminate|].
  do 4 eexists. split; [vm_compute; reflexivity|]. split; [reflexivity|]. split; [reflexivity|]. split; [reflexivity|]. split; [reflexivity|discriminate].
Qed.

(** ** C67: calls at the same time and files that change *)

(** If no two calls for a name are in progress at a time (others may be), a template is never older than the call. *)
Theorem C67_serial_partial : forall fs compile cfg name n l i c t,
  c_reload cfg = true -> mtimes_tell fs (candidate (c_path cfg) name) ->
  one_at_a_time fs (import_steps compile cfg) name l (idle n) ->
  nth_error (calls (schedule fs (import_steps compile cfg) l (idle n))) i = Some c -> call_name c = name -> done c (Ok t) ->
  exists fn k m, candidate (c_path cfg) name fn /\
    call_start c <= k < clock (loader (schedule fs (import_steps compile cfg) l (idle n))) /\ fs k fn = Some (m, t_contents t).
Proof.
  intros fs compile cfg name n l i c t Rl Tl One H N D.
  destruct (serial fs compile cfg name Rl Tl n l One) as [HC _].
  destruct (HC i c H N) as [(r & D' & Fr)|[P _]]; [|now destruct (P (Ok t))].
  unfold done in D, D'. rewrite D in D'. injection D' as <-. exact (Fr t eq_refl).
Qed.
Print Assumptions C67_serial_partial.

(** The file is written when four accesses have been made. *)
Definition written (n : nat) (f : str) : option (Z * str) :=
  if seqb f (L "/t/a.xml") then Some (if Nat.ltb n 4 then (1%Z, L "<old/>") else (2%Z, L "<new/>")) else None.
Lemma written_tells : forall files, mtimes_tell written files.
Proof.
  intros files i j f g m c m' c' Le _ _ A B. unfold written in *. destruct (seqb f _); [|discriminate]. destruct (seqb g _); [|discriminate].
  destruct (Nat.ltb_spec i 4), (Nat.ltb_spec j 4); injection A as <- <-; injection B as <- <-; try lia; (split; [lia|]); intros Ne; try lia; now destruct Ne.
Qed.
(** One call after the other, with the file written in between. *)
Definition pendingb (name : str) (c : call) : bool :=
  seqb name (call_name c) && match call_prog c with Return _ => false | _ => true end.
Lemma one_filter : forall A (f : A -> bool) l i j a b, length (filter f l) <= 1 ->
  nth_error l i = Some a -> nth_error l j = Some b -> f a = true -> f b = true -> i = j.
Proof.
  induction l as [|x l IH]; intros i j a b Le Ha Hb Fa Fb; [now destruct i|]. cbn [filter] in Le.
  assert (In1 : forall k c, nth_error l k = Some c -> f c = true -> 1 <= length (filter f l)).
  { intros k c Hk Fc. apply nth_error_In in Hk. assert (J : In c (filter f l)) by (apply filter_In; auto). destruct (filter f l); [destruct J|cbn; lia]. }
  destruct i as [|i], j as [|j]; cbn [nth_error] in Ha, Hb; auto.
  - injection Ha as <-. rewrite Fa in Le. cbn [length] in Le. specialize (In1 _ _ Hb Fb). lia.
  - injection Hb as <-. rewrite Fb in Le. cbn [length] in Le. specialize (In1 _ _ Ha Fa). lia.
  - f_equal. apply (IH i j a b); auto. destruct (f x); cbn [length] in Le; lia.
Qed.
Lemma one_at_a_time_check : forall fs import_ name l y,
  forallb (fun k => Nat.leb (length (filter (pendingb name) (calls (schedule fs import_ (firstn k l) y)))) 1) (seq 0 (S (length l))) = true ->
  one_at_a_time fs import_ name l y.
Proof.
  intros fs import_ name l y H l1 l2 E i j a b Ha Hb Na Nb Pa Pb. rewrite forallb_forall in H. specialize (H (length l1)).
  rewrite E, firstn_app, Nat.sub_diag, firstn_all in H. cbn [firstn] in H. rewrite app_nil_r in H.
  assert (Pd : forall c, call_name c = name -> pending c -> pendingb name c = true).
  { intros c Nc Pc. unfold pendingb. rewrite Nc, seqb_refl. cbn [andb]. unfold pending, done in Pc. destruct (call_prog c); try reflexivity. now destruct (Pc r). }
  eapply one_filter; [apply Nat.leb_le; apply H; apply in_seq; rewrite app_length; lia|exact Ha|exact Hb|now apply Pd|now apply Pd].
Qed.
Example C67_serial_example : exists l a b ta tb,
  one_at_a_time written (import_steps compiles (cfg_of true)) page l (idle 0) /\
  calls (schedule written (import_steps compiles (cfg_of true)) l (idle 0)) = [a; b] /\
  done a (Ok ta) /\ done b (Ok tb) /\ t_contents ta = L "<old/>" /\ t_contents tb = L "<new/>".
Proof.
  exists ((Begin page [] :: repeat (Go 0) 8) ++ Begin page [] :: repeat (Go 1) 12). do 4 eexists. split.
  - apply one_at_a_time_check. vm_compute. reflexivity.
  - split; [vm_compute; reflexivity|]. split; [reflexivity|]. split; [reflexivity|]. split; reflexivity.
Qed.

Ltac compute_calls :=
  match goal with |- context [calls ?x] =>
    let v := eval vm_compute in (calls x) in let E := fresh "E" in assert (E : calls x = v) by (vm_compute; reflexivity); rewrite E; clear E end.
(** Two threads load a template while its file is written; after that the loader returns the old template, to calls
    that begin when all others are finished. *)
Theorem C67_stale_refuted : exists fs cfg name l1 l2 c t,
  c_reload cfg = true /\ mtimes_tell fs (candidate (c_path cfg) name) /\
  (forall d, In d (calls (schedule fs (import_steps compiles cfg) l1 (idle 0))) -> exists r, done d r) /\
  calls (schedule fs (import_steps compiles cfg) (l1 ++ Begin name [] :: l2) (idle 0)) =
    calls (schedule fs (import_steps compiles cfg) l1 (idle 0)) ++ [c] /\
  call_name c = name /\ done c (Ok t) /\
  forall k fn m x, call_start c <= k -> candidate (c_path cfg) name fn -> fs k fn = Some (m, x) -> x <> t_contents t.
Proof.
  exists written, (cfg_of true), page, ((Begin page [] :: repeat (Go 0) 7) ++ (Begin page [] :: repeat (Go 1) 8) ++ [Go 0]), (repeat (Go 2) 5).
  do 2 eexists. split; [reflexivity|]. split; [apply written_tells|]. split.
  { compute_calls. intros d J. destruct J as [<-|[<-|[]]]; eexists; reflexivity. }
  split; [do 2 compute_calls; reflexivity|]. split; [reflexivity|]. split; [reflexivity|]. cbn [t_contents call_start].
  intros k fn m x Le _ E. unfold written in E. destruct (seqb fn _); [|discriminate].
  destruct (Nat.ltb_spec k 4); [lia|]. injection E as <- <-. discriminate.
Qed.
Print Assumptions C67_stale_refuted.

(** Two threads notice at the same time that a file has been written: one of them fails. *)
Theorem C67_keyerror_refuted : exists fs cfg name l c,
  c_reload cfg = true /\ mtimes_tell fs (candidate (c_path cfg) name) /\ (forall k, fs k (L "/t/a.xml") <> None) /\
  In c (calls (schedule fs (import_steps compiles cfg) l (idle 0))) /\ call_name c = name /\ done c (Raise "KeyError") /\
  forall d, In d (calls (schedule fs (import_steps compiles cfg) l (idle 0))) -> d <> c -> exists t, done d (Ok t).
Proof.
  exists written, (cfg_of true), page,
    ((Begin page [] :: repeat (Go 0) 8) ++ [Begin page []; Begin page []] ++ concat (repeat [Go 1; Go 2] 12)).
  eexists. split; [reflexivity|]. split; [apply written_tells|]. split; [intros k; unfold written; cbn; destruct (_ <=? _); discriminate|].
  compute_calls. split; [right; right; left; reflexivity|]. split; [reflexivity|]. split; [reflexivity|].
  intros d J Ne. destruct J as [<-|[<-|[<-|[]]]]; [eexists; reflexivity|eexists; reflexivity|now destruct Ne].
Qed.
Print Assumptions C67_keyerror_refuted.

(** The loader for Pyramid, with [auto_reload]: even if the file never changes. *)
Theorem C67_pyramid_refuted : exists name l c,
  let run := schedule one_file (pyramid_steps compiles true (OStr (L "html5")) (fun x => x)) in
  In c (calls (run l (idle 0))) /\ call_name c = name /\ done c (Raise "KeyError").
Proof.
  exists (L "/t/a.xml"), ((Begin (L "/t/a.xml") [] :: repeat (Go 0) 8) ++ [Begin (L "/t/a.xml") []; Begin (L "/t/a.xml") []] ++ concat (repeat [Go 1; Go 2] 12)).
  eexists. cbv zeta. compute_calls. split; [right; right; left; reflexivity|]. split; reflexivity.
Qed.
Print Assumptions C67_pyramid_refuted.

(** ** C68: calls at the same time without reloading *)

(** When a template has been returned and no call for it is in progress, all calls that begin later return one and the
    same template, in every schedule. *)
Theorem C68_settled_partial : forall fs compile cfg name n l1 j d t0,
  c_reload cfg = false ->
  let y := schedule fs (import_steps compile cfg) l1 (idle n) in
  nth_error (calls y) j = Some d -> call_name d = name -> done d (Ok t0) ->
  (forall i c, nth_error (calls y) i = Some c -> call_name c = name -> exists r, done c r) ->
  exists t, forall l2 i c r, nth_error (calls (schedule fs (import_steps compile cfg) l2 y)) i = Some c -> length (calls y) <= i ->
    call_name c = name -> done c r -> r = Ok t.
Proof.
  intros fs compile cfg name n l1 j d t0 Rl y Hd Nd Dd All.
  pose proof (fun m kw => only_import compile cfg m kw) as Own.
  assert (Oy : owns y) by (apply owns_schedule; [exact Own|apply owns_idle]).
  assert (Th : there name (loader y)).
  { destruct (all_safe fs (import_steps compile cfg) Own name (fun _ => True) (fun _ => True) (there_R name) (there_Q name)
              ltac:(unfold there_R; auto) ltac:(unfold there_R; intros a b e [A1 A2] [B1 B2]; split; [lia|auto])
              ltac:(intros a b (E1 & E2 & E3); unfold there_R, there; rewrite E1; auto) ltac:(auto)
              ltac:(intros kw m x s s' [_ B] Q0 t' E; apply B; exact (Q0 t' E))
              (idle n) (owns_idle n)) with (l := l1) as [_ HS]; auto.
    - intros i c E. now destruct i.
    - intros kw s _ _. now apply there_safe.
    - destruct (HS j d Hd Nd) as [[Lt _]|S0]; [cbn in Lt; lia|]. unfold done in Dd. rewrite Dd in S0.
      apply safe_done in S0; [exact (S0 t0 eq_refl)|unfold there_R; auto|exact Logic.I]. }
  unfold there in Th. destruct (lookup name (modules (loader y))) as [t|] eqn:E; [|congruence].
  exists t. intros l2 i c r H Le N D.
  destruct (all_safe fs (import_steps compile cfg) Own name (fun _ => True) (kept_I name t) later (kept_Q t)
              ltac:(unfold later; lia) ltac:(unfold later; lia) ltac:(intros a b (_ & _ & X); exact X) (kept_I_frame name t)
              ltac:(intros kw m x s s' _ Q0; exact Q0)
              y Oy E All) with (l := l2) as [HI HS]; auto.
  { intros kw s _ HI. now apply kept_safe. }
  destruct (HS i c H N) as [[Lt _]|S0]; [lia|]. unfold done in D. rewrite D in S0.
  apply safe_done in S0; [exact S0|unfold later; lia|exact HI].
Qed.
Print Assumptions C68_settled_partial.
Example C68_example : exists a b, calls (schedule one_file (import_steps compiles (cfg_of false)) turns (idle 0)) = [a; b] /\
  (exists t, done a (Ok t)) /\ (exists t, done b (Ok t)).
Proof. do 2 eexists. split; [vm_compute; reflexivity|]. split; eexists; reflexivity. Qed.

(** Calls that begin before that may return different templates for one name. *)
Theorem C68_refuted : exists fs cfg name l a b ta tb, c_reload cfg = false /\
  calls (schedule fs (import_steps compiles cfg) l (idle 0)) = [a; b] /\ call_name a = name /\ call_name b = name /\
  done a (Ok ta) /\ done b (Ok tb) /\ ta <> tb.
Proof.
  exists one_file, (cfg_of false), page, turns. do 4 eexists. split; [reflexivity|]. split; [vm_compute; reflexivity|].
  split; [reflexivity|]. split; [reflexivity|]. split; [reflexivity|]. split; [reflexivity|discriminate].
Qed.
Print Assumptions C68_refuted.
