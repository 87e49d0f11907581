From Coq Require Import Ascii String List Arith NArith Bool Lia Permutation.
From Verif Require Import PyStr PyStrLemmas M_NameGen.
Import ListNotations.
Open Scope list_scope.

Lemma gen_loop_fresh : forall rs names hint r n,
  gen_loop names hint r rs = Ok n -> ~ In n names.
Proof.
  induction rs as [|x rs IH]; simpl; intros names hint r n H.
  - destruct (smem r names) eqn:E; [discriminate|]. inversion H; subst. now apply smem_notIn.
  - destruct (smem r names) eqn:E.
    + destruct (x <=? _)%N; [eauto|discriminate].
    + inversion H; subst. now apply smem_notIn.
Qed.

Lemma gen_loop_shape : forall rs names hint r n,
  (r = hint \/ exists k, (k <= N.of_nat (length names) * 10)%N /\ r = hint ++ L "_" ++ dec k) ->
  gen_loop names hint r rs = Ok n ->
  n = hint \/ exists k, (k <= N.of_nat (length names) * 10)%N /\ n = hint ++ L "_" ++ dec k.
Proof.
  induction rs as [|x rs IH]; intros names hint r n S H; cbn [gen_loop] in H.
  - destruct (smem r names) eqn:E; [discriminate|]. inversion H; subst; auto.
  - destruct (smem r names) eqn:E.
    + destruct (N.leb_spec x (N.of_nat (length names) * 10)); [|discriminate].
      eapply IH; [|exact H]. right; eauto.
    + inversion H; subst; auto.
Qed.

Lemma gen_history_fresh : forall calls names out, gen_history names calls = Ok out ->
  NoDup out /\ (forall n, In n out -> ~ In n names) /\
  Forall2 (fun call n => n = fst call \/ exists k, n = fst call ++ L "_" ++ dec k) calls out.
Proof.
  induction calls as [|(hint, rs) calls IH]; simpl; intros names out H.
  - inversion H; subst. repeat split; [constructor | auto | constructor].
  - unfold gen in H. destruct (gen_loop names hint hint rs) as [r|] eqn:G; [|discriminate].
    simpl in H. destruct (gen_history (r :: names) calls) as [o|] eqn:E; [|discriminate].
    simpl in H; inversion H; subst. destruct (IH _ _ E) as (N & F & A).
    apply gen_loop_fresh in G as G1. repeat split.
    + constructor; auto. intros C. apply (F r C). left; auto.
    + intros n [<-|Hn]; auto. intros C; apply (F n Hn); right; auto.
    + constructor; [|exact A]. simpl.
      destruct (gen_loop_shape rs names hint hint r (or_introl eq_refl) G) as [->|(k & _ & ->)];
        [left; reflexivity | right; exists k; reflexivity].
Qed.

(** Pigeonhole: among more candidates than names one is not a name. *)
Lemma pigeonhole : forall (names cands : list str), NoDup cands -> length names < length cands ->
  exists c, In c cands /\ ~ In c names.
Proof.
  intros names cands N Hl.
  destruct (forallb (fun c => smem c names) cands) eqn:A.
  - exfalso. assert (incl cands names).
    { intros c Hc. rewrite forallb_forall in A. apply smem_In, A, Hc. }
    pose proof (NoDup_incl_length N H). lia.
  - assert (exists c, In c cands /\ smem c names = false) as (c & H1 & H2).
    { clear -A. induction cands; simpl in *; [discriminate|].
      apply andb_false_iff in A; destruct A as [A|A]; eauto.
      destruct (IHcands A) as (c & ? & ?); eauto. }
    exists c; split; auto. now apply smem_notIn.
Qed.

Lemma progress : forall names hint, exists k,
  (k <= N.of_nat (length names) * 10)%N /\ ~ In (hint ++ L "_" ++ dec k) names.
Proof.
  intros names hint.
  set (cand := fun k => hint ++ L "_" ++ dec (N.of_nat k)).
  set (cands := map cand (seq 0 (S (length names * 10)))).
  destruct (pigeonhole names cands) as (c & Hc & Hn).
  - unfold cands. apply FinFun.Injective_map_NoDup.
    + intros x y H. unfold cand in H. apply app_inv_head, app_inv_head in H. apply dec_inj in H. lia.
    + apply seq_NoDup.
  - unfold cands. rewrite map_length, seq_length. lia.
  - unfold cands in Hc. apply in_map_iff in Hc. destruct Hc as (k & <- & Hk). apply in_seq in Hk.
    exists (N.of_nat k); split; [lia|auto].
Qed.


Lemma default_not_block : forall calls names out name,
  gen_history names calls = Ok out -> Forall (fun c => fst c = default_hint) calls ->
  ~ In (block_fname name) out.
Proof.
  intros calls names out name H D.
  destruct (gen_history_fresh _ _ _ H) as (_ & _ & F). clear H.
  induction F as [|c n calls' out' Hn F IH]; [simpl; auto|].
  inversion D as [|? ? Dc D']; subst. intros [E|I]; [|apply IH; auto].
  subst n. rewrite Dc in Hn.
  destruct Hn as [Hn|(k & Hn)]; unfold block_fname, default_hint in Hn; cbn in Hn; discriminate Hn.
Qed.
