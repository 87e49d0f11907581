(** * Renderings at the same time: theorems C69, C70 *)

From Coq Require Import Ascii String List NArith ZArith Bool Lia Arith.
From Verif Require Import PyStr PyStrLemmas M_Values M_IR S_IR M_Template M_Run M_Conc S_Conc Props_Run.
From Verif Require Import P_Conc3 P_Conc4 P_Conc5.
Import ListNotations.
Open Scope list_scope.

(** ** C69: renderings do not disturb each other *)

(** However the steps of any number of renderings are interleaved, those that have ended have ended as they
    would have alone: with the same text, or the same error. *)
Theorem C69_as_alone : forall py files l k t r,
  nth_error (threads (run_schedule py files l)) k = Some t -> ended t = Some r ->
  exists j, nth_error (jobs l) k = Some j /\ r = alone py files j.
Proof.
  intros py files l k t r Et En. destruct (schedule_thread py files l k t Et) as (j & m & Ej & T). exists j. split; [exact Ej|].
  apply (solo_end py files j (turns 0 k l)). rewrite <- En. symmetry. eapply rthread_ended. exact T.
Qed.
Print Assumptions C69_as_alone.

(** And each one ends after a number of steps of its own, whatever the others do. *)
Theorem C69_ends : forall py files j, exists n, forall l k, nth_error (jobs l) k = Some j -> n <= turns 0 k l ->
  exists t, nth_error (threads (run_schedule py files l)) k = Some t /\ ended t = Some (alone py files j).
Proof.
  intros py files j. destruct (start_ends py files j) as [n E]. exists n. intros l k Ej Le.
  pose proof (nth_lt _ _ _ _ Ej) as Lk. rewrite <- (schedule_length py files l) in Lk. destruct (nth_ex _ _ _ Lk) as [t Et].
  exists t. split; [exact Et|]. destruct (schedule_thread py files l k t Et) as (j' & m & Ej' & T). assert (j' = j) as -> by congruence.
  rewrite (rthread_ended _ _ _ T). unfold solo in *. replace (turns 0 k l) with (n + (turns 0 k l - n)) by lia.
  rewrite iter_add, (ended_stays py files _ _ _ E). exact E.
Qed.
Print Assumptions C69_ends.

(** Two renderings of a page with inheritance, inclusion and a function, with different contexts, and one that
    fails, step by step in turn. *)
Definition three : list event :=
  [Begin 5 child [(L "x", VStr (L "<&"))]; Go 0; Go 0; Begin 5 child [(L "x", VStr (L "12"))]; Begin 2 child []] ++
  concat (repeat [Go 0; Go 1; Go 2] 150).
Example C69_example :
  map ended (threads (run_schedule demo demo_files three)) =
  [Some (Ok (L "<h1>Child of Layout: [<b>1</b><b>2</b>]<li class=""&lt;""/><li class=""&amp;""/></h1><i>&lt;&amp;</i>"));
   Some (Ok (L "<h1>Child of Layout: [<b>1</b><b>2</b>]<li class=""1""/><li class=""2""/></h1><i>12</i>"));
   Some (Raise "RecursionError")] /\
  turns 0 1 three = 150 /\ length (jobs three) = 3.
Proof. split; [vm_compute; reflexivity|split; reflexivity]. Qed.

(** One template object is not for several iterations at a time: they share its stacks. *)
Definition switching : file := page
  [NDef 1 false (L "__main__()")
     [NFor 2 (L "c in 'ab'")
        [NSwitch 3 (L "c") [NCase 4 (L "'a'") [NText 4 (L "A") None]; NCase 5 (L "'b'") [NText 5 (L "B") None]; NElse 6 [NText 6 (L "-") None]]]]].
Theorem C69_one_object_refuted : exists f context l y t0 t1,
  run_object demo demo_files 5 f context l = Ok y /\ threads y = [t0; t1] /\
  alone demo demo_files (5, f, context) = Ok (L "AB") /\
  ended t0 = Some (Ok (L "BB")) /\ ended t1 = Some (Ok (L "AB")).
Proof.
  exists switching, [], ([0; 0; 0; 0] ++ repeat 1 15 ++ repeat 0 2 ++ repeat 1 60 ++ repeat 0 60).
  eexists. eexists. eexists. split; [vm_compute; reflexivity|]. split; [reflexivity|]. split; [vm_compute; reflexivity|]. split; vm_compute; reflexivity.
Qed.
Print Assumptions C69_one_object_refuted.
(** Nor is it for several renderings one after the other: what was imported stays. *)
Definition importing : file := page
  [NDef 1 false (L "__main__()") [NExpr 2 (L "defined('lib')") true; NImport 3 (L "list.html") (Some (L "lib"))]].
Theorem C69_again_refuted : exists f context l y t0 t1,
  run_object demo demo_files 5 f context l = Ok y /\ threads y = [t0; t1] /\ l = repeat 0 20 ++ repeat 1 20 /\
  ended t0 = Some (alone demo demo_files (5, f, context)) /\
  ended t0 = Some (Ok (L "False")) /\ ended t1 = Some (Ok (L "True")).
Proof.
  exists importing, []. eexists. eexists. eexists. eexists. split; [|split; [|split; [reflexivity|]]]; [vm_compute; reflexivity|reflexivity|]. split; [vm_compute; reflexivity|]. split; vm_compute; reflexivity.
Qed.
Print Assumptions C69_again_refuted.

(** ** C70: iteration delivers the text piece by piece *)

(** At any moment, in every schedule, what a rendering has delivered is a beginning of its text, and all of it at the end. *)
Theorem C70_prefix : forall py files l k t j text,
  nth_error (threads (run_schedule py files l)) k = Some t -> nth_error (jobs l) k = Some j ->
  alone py files j = Ok text -> prefix (delivered t) text /\ (ended t <> None -> delivered t = text).
Proof.
  intros py files l k t j text Et Ej R. destruct (schedule_thread py files l k t Et) as (j' & m & Ej' & T). assert (j' = j) as -> by congruence.
  rewrite (rthread_delivered _ _ _ T). destruct (start_ends py files j) as [n E]. rewrite R in E.
  assert (D : forall n', ended (fst (solo py files j n')) = Some (Ok text) -> delivered (fst (solo py files j n')) = text).
  { intros n' X. destruct (fst (solo py files j n')) as [d o i|o|e]; cbn [ended] in X; try discriminate X. cbn [delivered]. congruence. }
  assert (X : ended (fst (solo py files j (turns 0 k l + n))) = Some (Ok text)).
  { unfold solo in *. rewrite Nat.add_comm, iter_add, (ended_stays py files _ _ _ E). exact E. }
  destruct (solo_delivers py files j (turns 0 k l) (turns 0 k l + n)) as [[e F]|P]; [lia|rewrite F in X; discriminate X|]. rewrite (D _ X) in P. split; [exact P|].
  intros N. rewrite (rthread_ended _ _ _ T) in N. destruct (ended (fst (solo py files j (turns 0 k l)))) as [r|] eqn:En; [|contradiction].
  apply D. rewrite En, <- R. f_equal. exact (solo_end py files j _ r En).
Qed.
Print Assumptions C70_prefix.
(** It is never taken back, also if the rendering fails in the end. *)
Theorem C70_grows : forall py files l l' k t t',
  nth_error (threads (run_schedule py files l)) k = Some t -> nth_error (threads (run_schedule py files (l ++ l'))) k = Some t' ->
  (exists e, t' = Failed e) \/ prefix (delivered t) (delivered t').
Proof.
  intros py files l l' k t t' Et Et'. destruct (schedule_thread py files l k t Et) as (j & m & Ej & T). destruct (schedule_thread py files (l ++ l') k t' Et') as (j' & m' & Ej' & T').
  assert (j' = j) as ->. { rewrite jobs_app, nth_error_app1 in Ej' by (now apply nth_lt with (x := j)). congruence. }
  rewrite (rthread_delivered _ _ _ T), (rthread_delivered _ _ _ T'). rewrite turns_app in *. destruct (solo_delivers py files j (turns 0 k l) (turns 0 k l + turns (0 + length (jobs l)) k l')) as [[e F]|P]; [lia| |now right].
  left. exists e. rewrite F in T'. destruct t'; cbn in T'; try contradiction. now subst.
Qed.
Print Assumptions C70_grows.
(** What has been delivered depends on the rendering and on the number of its steps only, also if it fails in the end. *)
Theorem C70_determined : forall py files l l' k k' t t',
  nth_error (threads (run_schedule py files l)) k = Some t -> nth_error (threads (run_schedule py files l')) k' = Some t' ->
  nth_error (jobs l) k = nth_error (jobs l') k' -> turns 0 k l = turns 0 k' l' -> delivered t = delivered t' /\ ended t = ended t'.
Proof.
  intros py files l l' k k' t t' Et Et' E1 E2. destruct (schedule_thread py files l k t Et) as (j & m & Ej & T). destruct (schedule_thread py files l' k' t' Et') as (j' & m' & Ej' & T').
  assert (j' = j) as -> by congruence. rewrite (rthread_delivered _ _ _ T), (rthread_delivered _ _ _ T'), (rthread_ended _ _ _ T), (rthread_ended _ _ _ T'), E2. now split.
Qed.
Print Assumptions C70_determined.
Example C70_example :
  map delivered (threads (run_schedule demo demo_files (firstn 200 three))) =
  [L "<h1>Child of Layout: [<b>1</b><b>2</b>]<li class=""&lt;""/><li class=""&amp;""/>";
   L "<h1>Child of Layout: [<b>1</b><b>2</b>]<li class=""1""/><li class=""2"""; []] /\
  alone demo demo_files (5, child, [(L "x", VStr (L "12"))]) =
  Ok (L "<h1>Child of Layout: [<b>1</b><b>2</b>]<li class=""1""/><li class=""2""/></h1><i>12</i>").
Proof. split; vm_compute; reflexivity. Qed.
