(** * Many pages in one process: theorems C84 *)

From Coq Require Import Ascii String List NArith ZArith Bool Lia Arith.
From Verif Require Import PyStr PyStrLemmas M_Values M_IR M_Template M_Run M_Process S_Process P_Shift2 P_Process Props_Run.
Import ListNotations.
Open Scope list_scope.

(** ** C84: template objects do not see each other *)

(** Whatever objects there are already, and whatever they have left behind: the page is the one of an empty process,
    or the exception is. *)
Theorem C84_same_page : forall py files depth f context s,
  rmap fst (page_in py files depth f context s) = run_file py files depth f context.
Proof.
  intros py files depth f context s. pose proof (page_alone py files depth f context s) as H.
  destruct (run_file py files depth f context), (page_in py files depth f context s); cbn in *; try contradiction; [|congruence]. destruct H as [-> _]. reflexivity.
Qed.
Print Assumptions C84_same_page.

(** The other objects are as they were. *)
Theorem C84_others_kept : forall py files depth f context s t s',
  page_in py files depth f context s = Ok (t, s') -> kept s s'.
Proof.
  intros py files depth f context s t s' E. pose proof (page_alone py files depth f context s) as H. rewrite E in H.
  destruct (run_file py files depth f context); cbn in H; [|contradiction]. exact (proj2 H).
Qed.
Print Assumptions C84_others_kept.

(** So each page of a process is what it is alone: the order does not matter, nor what came before, nor failures. *)
Theorem C84_pages : forall py files depth s l, pages py files depth s l ->
  Forall (fun fcr => snd fcr = run_file py files depth (fst (fst fcr)) (snd (fst fcr))) l.
Proof. exact pages_alone. Qed.
Print Assumptions C84_pages.
Corollary C84_twice : forall py files depth s l f context r r', pages py files depth s l -> In (f, context, r) l -> In (f, context, r') l -> r = r'.
Proof.
  intros py files depth s l f context r r' P I I'. pose proof (C84_pages _ _ _ _ _ P) as F. rewrite Forall_forall in F. pose proof (F _ I) as A. pose proof (F _ I') as B. cbn [fst snd] in *. congruence.
Qed.
Print Assumptions C84_twice.

Definition empty_process : state := State (World [] []) (fun _ => []) (fun _ => []).
(** A page that is shown twice, with a failure and another page in between. *)
Example C84_example :
  let c := [(L "x", VStr (L "<&"))] in
  let shown := Ok (L "<h1>Child of Layout: [<b>1</b><b>2</b>]<li class=""&lt;""/><li class=""&amp;""/></h1><i>&lt;&amp;</i>") in
  pages demo demo_files 5 empty_process [(child, c, shown); (list_page, [], Raise "NameError"); (list_page, c, Ok (L "<li class=""&lt;""/><li class=""&amp;""/>")); (child, c, shown)] /\
  exists t1 s1 t2 s2, page_in demo demo_files 5 child c empty_process = Ok (t1, s1) /\ page_in demo demo_files 5 child c s1 = Ok (t2, s2) /\
    length (w_heap (s_world s1)) = 3 /\ length (w_heap (s_world s2)) = 6.
Proof.
  assert (H : forall f c s, (exists s', page_in demo demo_files 5 f c s = Ok (match run_file demo demo_files 5 f c with Ok t => t | Raise _ => [] end, s')) \/
    exists e, run_file demo demo_files 5 f c = Raise e).
  { intros f c s. pose proof (C84_same_page demo demo_files 5 f c s) as E. destruct (page_in demo demo_files 5 f c s) as [[t s']|e]; cbn in E; rewrite <- E; [left; now exists s'|right; now exists e]. }
  cbv zeta. split.
  - destruct (H child [(L "x", VStr (L "<&"))] empty_process) as [[s1 E1]|[e E]]; [|vm_compute in E; discriminate E].
    apply S_Process.page with (s' := s1); [rewrite E1; f_equal; f_equal; vm_compute; reflexivity|].
    apply failure with (s' := s1).
    + pose proof (C84_same_page demo demo_files 5 list_page [] s1) as E. assert (R : run_file demo demo_files 5 list_page [] = Raise "NameError") by (vm_compute; reflexivity). rewrite R in E. destruct (page_in demo demo_files 5 list_page [] s1); cbn in E; [discriminate E|congruence].
    + destruct (H list_page [(L "x", VStr (L "<&"))] s1) as [[s2 E2]|[e E]]; [|vm_compute in E; discriminate E].
      apply S_Process.page with (s' := s2); [rewrite E2; f_equal; f_equal; vm_compute; reflexivity|].
      destruct (H child [(L "x", VStr (L "<&"))] s2) as [[s3 E3]|[e E]]; [|vm_compute in E; discriminate E].
      apply S_Process.page with (s' := s3); [rewrite E3; f_equal; f_equal; vm_compute; reflexivity|]. constructor.
  - destruct (page_in demo demo_files 5 child [(L "x", VStr (L "<&"))] empty_process) as [[t1 s1]|] eqn:E1; [|vm_compute in E1; discriminate E1].
    destruct (page_in demo demo_files 5 child [(L "x", VStr (L "<&"))] s1) as [[t2 s2]|] eqn:E2.
    + exists t1, s1, t2, s2. split; [reflexivity|]. split; [exact E2|].
      assert (L1 : match page_in demo demo_files 5 child [(L "x", VStr (L "<&"))] empty_process with Ok (_, s) => length (w_heap (s_world s)) = 3 /\
        match page_in demo demo_files 5 child [(L "x", VStr (L "<&"))] s with Ok (_, s) => length (w_heap (s_world s)) = 6 | Raise _ => False end | Raise _ => False end) by (vm_compute; split; reflexivity).
      rewrite E1, E2 in L1. exact L1.
    + exfalso. pose proof (C84_same_page demo demo_files 5 child [(L "x", VStr (L "<&"))] s1) as E. rewrite E2 in E. vm_compute in E. discriminate E.
Qed.
