(** * Proofs: what iterations leave behind (4): an iteration that is not interrupted *)

From Coq Require Import Ascii String List Arith NArith ZArith Bool Lia.
From Verif Require Import PyStr PyStrLemmas M_Values M_IR S_IR M_Template M_Run S_Run S_Again S_After M_Process M_Conc S_Conc M_Same S_Same P_Run8 P_Conc4 P_Conc5 P_After3.
From Verif Require P_Same.
Import ListNotations.
Open Scope list_scope.

Section Uninterrupted.
Variable py : python.
Variable files : bool -> str -> result file.
Notation load := (load_file files).
Variable depth : nat.

(** It gives what [render] gives. *)
Lemma again_ends : forall i s, exists n, ended (fst (iter py load n (again py depth i s))) = Some (rmap fst (render_object py load depth i s)).
Proof.
  intros i s. unfold again, render_object, call_main, call_function. destruct (main_of py (w_heap (s_world s)) i) as [f|e]; cbn [rbind rmap attempt]; [|exists 0; reflexivity].
  destruct (bind_args py _ []) as [ps|e]; cbn [rbind rmap attempt]; [|exists 0; reflexivity].
  pose proof (enter_done py load depth (Pending f ps IShow s) eq_refl) as D. cbn [c_fun c_params c_state] in D.
  destruct (invoke py load depth f ps s) as [[o s1]|e]; cbn [rbind rmap fst snd].
  - destruct D as (s2 & n & D). exists n. rewrite D. reflexivity.
  - destruct D as (n & s2 & D). exists n. rewrite D. reflexivity.
Qed.
Lemma threads_begun : forall i l y, length (threads (fold_left (take py files depth i) l y)) = length (threads y) + begun l.
Proof.
  intros i. induction l as [|e l IH]; intros y; cbn [fold_left]; [change (begun []) with 0; lia|]. rewrite IH. destruct e as [|k]; cbn [take].
  - destruct (again py depth i (shared y)) as [t s]. cbn [threads]. rewrite app_length. cbn [length]. change (begun (Start :: l)) with (S (begun l)). lia.
  - change (begun (Next k :: l)) with (begun l). cbn [happen]. destruct (nth_error (threads y) k); [|reflexivity]. destruct (step py load t (shared y)). cbn [threads]. now rewrite replace_length.
Qed.
Lemma replace_last : forall (l : list thread) t t', replace_thread (l ++ [t]) (length l) t' = l ++ [t'].
Proof. induction l as [|x l IH]; intros t t'; [reflexivity|]. cbn [app length replace_thread]. now rewrite IH. Qed.
Lemma alone_turns : forall i m l t s, fold_left (take py files depth i) (repeat (Next (length l)) m) (System (l ++ [t]) s) = System (l ++ [fst (iter py load m (t, s))]) (snd (iter py load m (t, s))).
Proof.
  intros i. induction m as [|m IH]; intros l t s; [reflexivity|]. cbn [repeat fold_left take happen threads shared P_Conc4.iter fst snd]. rewrite nth_error_app2, Nat.sub_diag by lia. cbn [nth_error].
  destruct (step py load t s) as [t' s']. rewrite replace_last. apply IH.
Qed.
End Uninterrupted.

Theorem iteration_after : forall py gen files depth f context l y, generated_names py gen -> generated_functions py gen ->
  (forall fragment name f, files fragment name = Ok f -> a_file py gen f \/ refused f) -> a_file py gen f -> object_names context -> file_by_itself f ->
  run_iterations py files depth f context l = Ok y ->
  exists n, forall m, n <= m -> exists y' t,
    run_iterations py files depth f context (l ++ Start :: repeat (Next (begun l)) m) = Ok y' /\ nth_error (threads y') (begun l) = Some t /\ ended t = Some (run_file py files depth f context).
Proof.
  intros py gen files depth f context l y Hgen Hfun Hf F O B E.
  pose proof (after py gen files depth f context l y depth 0 Hgen Hfun Hf F O B E) as A.
  destruct (again_ends py files depth 0 (shared y)) as [n En]. exists n. intros m Le.
  assert (Em : ended (fst (iter py (load_file files) m (again py depth 0 (shared y)))) = Some (run_file py files depth f context)).
  { replace m with (n + (m - n)) by lia. rewrite iter_add, (ended_stays py files _ _ _ En), En. f_equal. cbn [renders repeat] in A. change (load_from files) with (load_file files) in A.
    destruct (render_object py (load_file files) depth 0 (shared y)) as [[t s]|e], (run_file py files depth f context) as [u|e']; cbn in A |- *; try congruence; try (injection A as ->; reflexivity). }
  unfold run_iterations in *. destruct (class_of f) as [c|]; [|discriminate E]. cbn [rmap new] in E |- *. change (length (@nil (inst (fobj bcode) (str * bcode)))) with 0 in *.
  match type of E with Ok (fold_left _ _ ?x) = _ => set (y0 := x) in *; pose proof (threads_begun py files depth 0 l y0) as LT end.
  injection E as Ey. rewrite Ey in LT. cbn [y0 threads length Nat.add] in LT.
  rewrite fold_left_app, Ey. cbn [fold_left take]. destruct (again py depth 0 (shared y)) as [t s]. rewrite <- LT, alone_turns.
  eexists. eexists. split; [reflexivity|]. cbn [threads]. rewrite nth_error_app2, Nat.sub_diag by lia. cbn [nth_error]. split; [reflexivity|exact Em].
Qed.
