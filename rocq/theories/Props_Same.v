(** * Several iterations over one object: theorems C86 *)

From Coq Require Import Ascii String List NArith ZArith Bool Lia Arith.
From Verif Require Import PyStr PyStrLemmas M_Values M_IR S_IR M_Template M_Run M_Conc S_Conc M_Same S_Same Props_Run Props_Conc.
From Verif Require Import P_Conc4 P_Conc5 P_Same.
Import ListNotations.
Open Scope list_scope.

(** ** C86: one object may be rendered by several threads if it has no py:with, no py:switch and uses no other templates *)

(** However the iterations take turns, and whenever they begin: those that have ended have ended with the text of the
    template alone, or with its error. *)
Theorem C86_as_alone : forall py files depth f context l y k t r, steady_file f ->
  run_iterations py files depth f context l = Ok y -> nth_error (threads y) k = Some t -> ended t = Some r ->
  r = run_file py files depth f context.
Proof.
  intros py files depth f context l y k t r Q E Et En. destruct (iterations_thread py files depth f context l y Q E) as [_ C]. destruct (C k t Et) as [m T].
  apply (solo_end py files (depth, f, context) (turns_of 0 k l)). rewrite <- En. symmetry. eapply rthread_ended. exact T.
Qed.
Print Assumptions C86_as_alone.

(** Each one ends after a number of steps of its own that does not depend on the others. *)
Theorem C86_ends : forall py files depth f context, steady_file f -> exists n, forall l y k,
  run_iterations py files depth f context l = Ok y -> k < begun l -> n <= turns_of 0 k l ->
  exists t, nth_error (threads y) k = Some t /\ ended t = Some (run_file py files depth f context).
Proof.
  intros py files depth f context Q. destruct (start_ends py files (depth, f, context)) as [n E]. exists n. intros l y k El Lk Le.
  destruct (iterations_thread py files depth f context l y Q El) as [LT C]. rewrite <- LT in Lk. destruct (nth_ex _ _ _ Lk) as [t Et].
  exists t. split; [exact Et|]. destruct (C k t Et) as [m T].
  rewrite (rthread_ended _ _ _ T). unfold solo in *. replace (turns_of 0 k l) with (n + (turns_of 0 k l - n)) by lia.
  rewrite iter_add, (ended_stays py files _ _ _ E). exact E.
Qed.
Print Assumptions C86_ends.

(** At any moment each one has delivered a beginning of the text. *)
Theorem C86_prefix : forall py files depth f context l y k t text, steady_file f ->
  run_iterations py files depth f context l = Ok y -> nth_error (threads y) k = Some t -> run_file py files depth f context = Ok text ->
  prefix (delivered t) text.
Proof.
  intros py files depth f context l y k t text Q E Et Ea. destruct (iterations_thread py files depth f context l y Q E) as [_ C]. destruct (C k t Et) as [m T].
  rewrite (rthread_delivered _ _ _ T). destruct (start_ends py files (depth, f, context)) as [n En]. unfold alone in En. rewrite Ea in En.
  destruct (solo_delivers py files (depth, f, context) (turns_of 0 k l) (turns_of 0 k l + n) ltac:(lia)) as [[e F]|P].
  - unfold solo in *. rewrite Nat.add_comm, iter_add, (ended_stays py files _ _ _ En) in F. rewrite F in En. discriminate En.
  - unfold solo in *. rewrite (Nat.add_comm _ n), iter_add, (ended_stays py files _ _ _ En) in P. destruct (fst (P_Conc4.iter _ _ n _)) as [d o l0|o|e]; try discriminate En. cbn [ended] in En. cbn [delivered] in P |- *. assert (render o = text) as <- by congruence. exact P.
Qed.
Print Assumptions C86_prefix.

(** A template that does not load gives no object. *)
Theorem C86_refused : forall py files depth f context l e,
  run_iterations py files depth f context l = Raise e -> run_file py files depth f context = Raise e.
Proof. intros py files depth f context l e E. unfold run_iterations in E. unfold run_file. destruct (class_of f) as [c|]; [|cbn in *; congruence]. cbn [rmap] in E. now destruct (new _ _ [] c _). Qed.
Print Assumptions C86_refused.

(** Three iterations over the list and over the layout, which calls functions, begun at different times and taking turns; a
    context without the list fails in each.  With py:switch this is not so (C69_one_object_refuted). *)
Definition in_turn : list turn := [Start; Next 0; Next 0; Start; Next 1; Next 0; Start] ++ concat (repeat [Next 2; Next 0; Next 1] 60).
Example C86_example :
  let c := [(L "x", VStr (L "<&"))] in
  steady_file list_page /\ steady_file layout /\ ~ steady_file switching /\ begun in_turn = 3 /\
  (exists y, run_iterations demo demo_files 5 list_page c in_turn = Ok y /\ map ended (threads y) = repeat (Some (Ok (L "<li class=""&lt;""/><li class=""&amp;""/>"))) 3) /\
  (exists y, run_iterations demo demo_files 5 layout c in_turn = Ok y /\ map ended (threads y) = repeat (Some (Ok (L "<h1>Layout</h1><i>&lt;&amp;</i>"))) 3) /\
  (exists y, run_iterations demo demo_files 5 list_page [] in_turn = Ok y /\ map ended (threads y) = repeat (Some (Raise "NameError")) 3).
Proof.
  cbv zeta. split; [vm_compute; repeat constructor|]. split; [vm_compute; repeat constructor|]. split; [intros H; vm_compute in H; inversion H; tauto|]. split; [reflexivity|].
  split; [|split]; eexists; (split; [vm_compute; reflexivity|vm_compute; reflexivity]).
Qed.

(** Templates with py:with are not for that: an iteration may take back what another has saved. *)
Definition assigning : file := page
  [NDef 1 false (L "__main__()") [NFor 2 (L "c in x") [NWith 3 [(L "y", L "c")] [NWith 4 [(L "y", L "'-'")] [NText 4 (L "(") None]; NExpr 5 (L "y") false]]]].
Theorem C86_with_refuted : exists f context l y,
  run_iterations demo demo_files 5 f context l = Ok y /\ run_file demo demo_files 5 f context = Ok (L "(a(b") /\
  map ended (threads y) = [Some (Ok (L "(b(b")); Some (Ok (L "(a(a"))].
Proof.
  exists assigning, [(L "x", VStr (L "ab"))], ([Start] ++ repeat (Next 0) 5 ++ [Start] ++ repeat (Next 1) 16 ++ repeat (Next 0) 60 ++ repeat (Next 1) 60). eexists.
  split; [vm_compute; reflexivity|]. split; vm_compute; reflexivity.
Qed.
Print Assumptions C86_with_refuted.
