(** * Properties C11 and C12: generated helper names *)

From Coq Require Import Ascii String List NArith Bool Lia.
From Verif Require Import PyStr PyStrLemmas M_NameGen P_NameGen.
Import ListNotations.
Open Scope list_scope.

(** C11.  In any history of calls, starting from any names already handed out, with any
    hints and any random numbers, the names returned are pairwise different, different
    from the names handed out before, and each is its hint, or its hint followed by an
    underscore and a number. *)
Theorem C11_names_never_clash : forall names calls out,
  gen_history names calls = Ok out ->
  NoDup out /\ (forall n, In n out -> ~ In n names) /\
  Forall2 (fun call n => n = fst call \/ exists k, n = fst call ++ L "_" ++ dec k) calls out.
Proof. intros names calls out; apply gen_history_fresh. Qed.
Print Assumptions C11_names_never_clash.

(** The hint itself is returned whenever it is free. *)
Theorem C11_free_hint_is_kept : forall names hint rs, ~ In hint names ->
  gen names hint rs = Ok (hint, hint :: names).
Proof.
  intros names hint rs H. apply smem_notIn in H. unfold gen. destruct rs; cbn [gen_loop]; now rewrite H.
Qed.
Print Assumptions C11_free_hint_is_kept.

Example C11_example :
  gen_history [] [(L "_kj_", []); (L "_kj_", [3]%N); (L "_kj_3", []); (L "_kj_", [3; 0; 17]%N)]
  = Ok [L "_kj_"; L "_kj__3"; L "_kj_3"; L "_kj__0"].
Proof. vm_compute; reflexivity. Qed.

(** C12.  Whatever names were handed out, one of the values that randint may return
    now leads to an unused name, so the call can end after at most one draw. *)
Theorem C12_progress : forall names hint, exists rs r,
  length rs <= 1 /\ Forall (fun k => (k <= N.of_nat (length names) * 10)%N) rs /\
  gen names hint rs = Ok (r, r :: names) /\ ~ In r names.
Proof.
  intros names hint. destruct (smem hint names) eqn:E.
  - destruct (progress names hint) as (k & Hk & Hn).
    exists [k], (hint ++ L "_" ++ dec k). repeat split; auto.
    unfold gen; cbn [gen_loop]. rewrite E. apply N.leb_le in Hk. rewrite Hk.
    apply smem_notIn in Hn. now rewrite Hn.
  - exists [], hint. repeat split; auto.
    + unfold gen; cbn [gen_loop]. now rewrite E.
    + now apply smem_notIn.
Qed.
Print Assumptions C12_progress.

(** Nine tenths of the draws at least are good: at most [length names] of the values
    that randint may return lead to a name already used. *)
Theorem C12_most_draws_succeed : forall names hint (bad : list N), NoDup bad ->
  (forall k, In k bad -> In (hint ++ L "_" ++ dec k) names) ->
  length bad <= length names.
Proof.
  intros names hint bad N B.
  rewrite <- (map_length (fun k => hint ++ L "_" ++ dec k)). apply NoDup_incl_length.
  - apply FinFun.Injective_map_NoDup; auto. intros x y H.
    apply app_inv_head, app_inv_head in H. now apply dec_inj in H.
  - intros n H. apply in_map_iff in H. destruct H as (k & <- & H); auto.
Qed.
Print Assumptions C12_most_draws_succeed.

(** Names generated for the default hint are never function names of blocks. *)
Theorem C12_never_a_block : forall names calls out block,
  gen_history names calls = Ok out -> Forall (fun c => fst c = L "_kj_") calls ->
  ~ In (L "_kj_block_" ++ block) out.
Proof. intros names calls out block. exact (default_not_block calls names out block). Qed.
Print Assumptions C12_never_a_block.

Example C12_example :
  gen [L "_kj_"; L "_kj__0"] (L "_kj_") [0; 20]%N
  = Ok (L "_kj__20", [L "_kj__20"; L "_kj_"; L "_kj__0"]) /\
  gen [L "_kj_"; L "_kj__0"] (L "_kj_") [21]%N = Raise "not a result of randint".
Proof. split; vm_compute; reflexivity. Qed.
