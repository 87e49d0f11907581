(** * Whole templates: [local], [self] and [__kj__] always stand for what they should *)

From Coq Require Import Ascii String List NArith ZArith Bool Lia Arith.
From Verif Require Import PyStr PyStrLemmas M_Loader M_Template S_Template P_Template P_Template2 P_Template4 P_Run1.
From Verif Require S_Run.
Import ListNotations.
Open Scope list_scope.

Notation reserved := S_Run.reserved.
Lemma in_reserved : forall r, In r reserved -> r = L "local" \/ r = L "self" \/ r = L "__kj__".
Proof. intros r [E|[E|[E|[]]]]; subst r; tauto. Qed.

Section Inv.
Variable obj : Type.
Variable fn : Type.
Notation gval := (gval obj fn).
Notation dict := (dict obj fn).
Notation cls := (cls obj fn).
Notation heap := (heap obj fn).
Notation globals := (globals obj fn).
Notation new := (new obj fn).
Notation GInst := (GInst obj fn).
Notation GKajiki := (GKajiki obj fn).

Definition free (ks : list str) : Prop := forall r, In r reserved -> ~ In r ks.
Definition cinv (c : cls) : Prop := a_class obj fn c /\ free (keys (methods _ _ c)) /\ free (keys (base_globals _ _ c)).
Definition ctxinv (n : nat) (c : context obj fn) : Prop :=
  match c with Given _ _ d => a_dict d /\ free (keys d) | GlobalsOf _ _ g => g < n end.
Definition ginv (h : heap) (d : dict) : Prop :=
  a_dict d /\ exists j s, j < length h /\ s < length h /\
    get (L "local") d = Some (GInst j) /\ get (L "local") (globals h j) = Some (GInst j) /\
    get (L "self") d = Some (GInst s) /\ get (L "__kj__") d = Some GKajiki.
Definition hinv (h : heap) : Prop := forall i x, nth_error h i = Some x -> ginv h (i_globals _ _ x) /\ ctxinv (length h) (i_context _ _ x).
Definition evolve (h h' : heap) : Prop :=
  length h <= length h' /\ forall i r, i < length h -> In r reserved -> get r (globals h' i) = get r (globals h i).

Lemma evolve_refl : forall h, evolve h h.
Proof. intros h. split; [lia|reflexivity]. Qed.
Lemma evolve_trans : forall a b c, evolve a b -> evolve b c -> evolve a c.
Proof. intros a b c [L1 H1] [L2 H2]. split; [lia|]. intros i r Hi Hr. rewrite H2 by (lia || assumption). now apply H1. Qed.

Lemma ctxinv_mono : forall n m c, n <= m -> ctxinv n c -> ctxinv m c.
Proof. intros n m [d|g] L; cbn; [tauto|lia]. Qed.
Lemma hinv_globals : forall h i, hinv h -> i < length h -> ginv h (globals h i).
Proof.
  intros h i H Hi. unfold M_Template.globals. destruct (nth_error h i) as [x|] eqn:E; [|apply nth_error_None in E; lia]. now apply (H i x).
Qed.
Lemma local_in : In (L "local") reserved. Proof. now left. Qed.
Lemma self_in : In (L "self") reserved. Proof. right. now left. Qed.
Lemma kj_in : In (L "__kj__") reserved. Proof. right. right. now left. Qed.

(** Globals which agree on the reserved names, in a later heap. *)
Lemma ginv_evolve : forall h h' d d', evolve h h' -> ginv h d -> a_dict d' ->
  (forall r, In r reserved -> get r d' = get r d) -> ginv h' d'.
Proof.
  intros h h' d d' [L1 E1] (Dd & j & s & Hj & Hs & G1 & G2 & G3 & G4) D' G. split; [exact D'|].
  exists j, s. repeat split; try lia; rewrite ?G by (apply local_in || apply self_in || apply kj_in); try assumption.
  rewrite E1 by (lia || apply local_in). exact G2.
Qed.

Lemma free_get : forall A r (d : list (str * A)), In r reserved -> free (keys d) -> get r d = None.
Proof. intros A r d Hr F. apply get_none. now apply F. Qed.
Lemma reserved_ne : forall r, In r reserved -> seqb r (L "value_of") = false /\ seqb r (L "_") = false.
Proof. intros r Hr. apply in_reserved in Hr as [->|[->| ->]]; split; reflexivity. Qed.
Lemma context_dict : forall h ctx, hinv h -> ctxinv (length h) ctx -> a_dict (context_of obj fn h ctx).
Proof. intros h [d|g] H C; cbn in *; [tauto|]. now destruct (hinv_globals h g H C). Qed.
Lemma init_reserved : forall h i c ctx r, hinv h -> cinv c -> ctxinv (length h) ctx -> In r reserved ->
  get r (init_globals obj fn i c (context_of obj fn h ctx)) =
  match ctx with Given _ _ _ => get r (helpers obj fn i) | GlobalsOf _ _ g => get r (globals h g) end.
Proof.
  intros h i c ctx r H (C1 & C2 & C3) X Hr. rewrite get_init by (assumption || now apply context_dict).
  destruct (reserved_ne r Hr) as [-> ->]. rewrite get_first by (assumption || now apply context_dict).
  rewrite (free_get _ r _ Hr C2), (free_get _ r _ Hr C3). destruct ctx as [d|g]; cbn [context_of] in *.
  - destruct X as [_ F]. now rewrite (free_get _ r _ Hr F).
  - destruct (hinv_globals h g H X) as (_ & j & s & _ & _ & G1 & _ & G3 & G4).
    apply in_reserved in Hr as [->|[->| ->]]; [rewrite G1|rewrite G3|rewrite G4]; reflexivity.
Qed.

Lemma nth_globals : forall (h : heap) i x, nth_error h i = Some x -> i_globals _ _ x = globals h i.
Proof. intros h i x E. unfold M_Template.globals. now rewrite E. Qed.
Lemma evolve_new : forall h c ctx, evolve h (fst (new h c ctx)).
Proof.
  intros h c ctx. split; [rewrite length_new; lia|]. intros i r Hi Hr. rewrite globals_new. destruct (Nat.eqb_spec i (length h)); [lia|reflexivity].
Qed.
Lemma init_ginv : forall h h' c ctx, hinv h -> cinv c -> ctxinv (length h) ctx -> evolve h h' -> length h < length h' ->
  (forall r, In r reserved -> get r (globals h' (length h)) = get r (init_globals obj fn (length h) c (context_of obj fn h ctx))) ->
  ginv h' (init_globals obj fn (length h) c (context_of obj fn h ctx)).
Proof.
  intros h h' c ctx H C X E Hl G. destruct ctx as [d|g].
  - split; [apply init_dict|]. exists (length h), (length h). rewrite G by apply local_in.
    rewrite !(init_reserved h _ c (Given _ _ d)) by (assumption || apply local_in || apply self_in || apply kj_in). repeat split; assumption.
  - eapply ginv_evolve; [exact E|exact (hinv_globals h g H X)|apply init_dict|]. intros r Hr. now rewrite (init_reserved h _ c (GlobalsOf _ _ g)).
Qed.
Lemma new_inv : forall h c ctx, hinv h -> cinv c -> ctxinv (length h) ctx -> hinv (fst (new h c ctx)).
Proof.
  intros h c ctx H C X i x E. pose proof (evolve_new h c ctx) as Ev. rewrite length_new.
  assert (Hi : i < S (length h)) by (rewrite <- (length_new _ _ h c ctx); apply nth_error_Some; congruence).
  destruct (Nat.eq_dec i (length h)) as [->|Ne].
  - assert (G := nth_globals _ _ _ E). rewrite globals_new, Nat.eqb_refl in G.
    assert (Xc : i_context _ _ x = ctx).
    { unfold M_Template.new in E. cbn [fst] in E. rewrite nth_error_app2, Nat.sub_diag in E by lia. cbn in E. assert (x = Inst obj fn c ctx (init_globals obj fn (length h) c (context_of obj fn h ctx)) (bound fn (length h) (methods obj fn c))) by congruence. now subst x. }
    rewrite G, Xc. split; [|apply (ctxinv_mono (length h)); [lia|exact X]].
    apply init_ginv; try assumption; [rewrite length_new; lia|]. intros r Hr. now rewrite globals_new, Nat.eqb_refl.
  - assert (E' : nth_error h i = Some x).
    { unfold M_Template.new in E. cbn [fst] in E. now rewrite nth_error_app1 in E by lia. }
    destruct (H i x E') as [G1 X1]. split; [|apply (ctxinv_mono (length h)); [lia|exact X1]].
    eapply ginv_evolve; [exact Ev|exact G1|now destruct G1|reflexivity].
Qed.

Lemma with_globals_inv : forall h i d, hinv h -> i < length h -> a_dict d -> (forall r, In r reserved -> get r d = get r (globals h i)) ->
  hinv (with_globals obj fn h i d) /\ evolve h (with_globals obj fn h i d).
Proof.
  intros h i d H Hi D G.
  assert (Ev : evolve h (with_globals obj fn h i d)).
  { split; [rewrite length_with; lia|]. intros j r Hj Hr. rewrite globals_with by assumption. destruct (Nat.eqb_spec i j) as [<-|]; [now apply G|reflexivity]. }
  split; [|exact Ev]. intros j x E. rewrite length_with. rewrite (nth_globals _ _ _ E), globals_with by assumption.
  assert (Hj : j < length h) by (rewrite <- (length_with obj fn h i d); apply nth_error_Some; congruence).
  destruct (nth_error h j) as [y|] eqn:Ey; [|apply nth_error_None in Ey; lia]. destruct (H j y Ey) as [G1 X1].
  destruct (shape_with obj fn h i d) as [_ S]. destruct (S j y Ey) as (y' & E' & _ & Xe). assert (y' = x) by congruence. subst y'. rewrite Xe. split; [|exact X1].
  destruct (Nat.eqb_spec i j) as [<-|Ne].
  - eapply ginv_evolve; [exact Ev|exact (hinv_globals h i H Hi)|exact D|exact G].
  - eapply ginv_evolve; [exact Ev|exact (hinv_globals h j H Hj)|now destruct (hinv_globals h j H Hj)|reflexivity].
Qed.

Lemma import_inv : forall h name alias c g, hinv h -> cinv c -> g < length h -> ~ In (S_Run.alias_name name alias) reserved ->
  hinv (fst (import_ obj fn h name alias c g)) /\ evolve h (fst (import_ obj fn h name alias c g)).
Proof.
  intros h name alias c g H C Hg Ha. unfold import_. fold (S_Run.alias_name name alias).
  assert (X : ctxinv (length h) (GlobalsOf obj fn g)) by exact Hg.
  pose proof (new_inv h c _ H C X) as H1. pose proof (evolve_new h c (GlobalsOf obj fn g)) as E1.
  pose proof (length_new obj fn h c (GlobalsOf obj fn g)) as L1.
  destruct (new h c (GlobalsOf obj fn g)) as [h1 r]. cbn [fst snd] in *.
  destruct (with_globals_inv h1 g (set (S_Run.alias_name name alias) (GInst r) (globals h1 g))) as [H2 E2]; try assumption; [lia| | |].
  - apply set_dict. apply (hinv_globals h1 g H1). lia.
  - intros k Hk. rewrite get_set. destruct (seqb_spec k (S_Run.alias_name name alias)) as [->|]; [contradiction|reflexivity].
  - split; [exact H2|]. eapply evolve_trans; eassumption.
Qed.

Lemma extend_inv : forall h i c, hinv h -> cinv c -> i < length h -> get (L "local") (globals h i) = Some (GInst i) ->
  exists h', extend obj fn h i c = Ok (h', length h) /\ hinv h' /\ evolve h h'.
Proof.
  intros h i c H C Hi Hl. destruct (nth_error h i) as [x|] eqn:Ex; [|apply nth_error_None in Ex; lia].
  pose proof (hinv_globals h i H Hi) as (Di & j & s & Hj & Hs & G1 & G2 & G3 & G4). assert (j = i) by congruence. subst j.
  destruct (H i x Ex) as [_ Xi].
  destruct (extend_spec obj fn h i x c (GInst s) Ex Di G3) as (h' & Ee & Len & Sh & (y & Ey & _ & Xy) & O & Da & Db & Gp & Gi & _ & _).
  exists h'. split; [exact Ee|].
  assert (FN : forall r, In r reserved -> fun_of obj fn r (parent_globals obj fn h i x c r) = None).
  { intros r Hr. unfold fun_of. unfold parent_globals. destruct (seqb r (L "__main__")); [reflexivity|].
    assert (F0 : fun_at obj fn r (globals h i) = None).
    { unfold fun_at. destruct (seqb r (L "__main__")); [reflexivity|]. apply in_reserved in Hr as [->|[->| ->]]; [rewrite G1|rewrite G3|rewrite G4]; reflexivity. }
    rewrite F0. cbn [or_else]. rewrite (init_reserved h _ c (i_context _ _ x) r H C Xi Hr). destruct (i_context _ _ x) as [d|g]; cbn in Xi.
    - apply in_reserved in Hr as [->|[->| ->]]; reflexivity.
    - destruct (hinv_globals h g H Xi) as (_ & j & s' & _ & _ & K1 & _ & K3 & K4). apply in_reserved in Hr as [->|[->| ->]]; [rewrite K1|rewrite K3|rewrite K4]; reflexivity. }
  assert (Ev : evolve h h').
  { split; [lia|]. intros j r Hj2 Hr. destruct (Nat.eq_dec j i) as [->|Ne]; [|destruct (O j Ne) as [-> _]; [lia|reflexivity]].
    rewrite Gi. pose proof (FN r Hr) as F. apply in_reserved in Hr as [->|[->| ->]].
    - rewrite seqb_refl. now rewrite G1.
    - change (seqb (L "self") (L "local")) with false. change (seqb (L "self") (L "parent")) with false. cbn [or_else]. rewrite G3. reflexivity.
    - change (seqb (L "__kj__") (L "local")) with false. change (seqb (L "__kj__") (L "parent")) with false. rewrite G4. reflexivity. }
  split; [|exact Ev]. intros j z Ez. rewrite Len.
  assert (Hjl : j < S (length h)) by (rewrite <- Len; apply nth_error_Some; congruence).
  rewrite (nth_globals _ _ _ Ez). destruct (Nat.eq_dec j (length h)) as [->|Ne].
  - assert (z = y) by congruence. subst z. rewrite Xy. split; [|apply (ctxinv_mono (length h)); [lia|exact Xi]]. split; [exact Db|].
    exists (length h), s. rewrite !Gp. rewrite Len.
    change (seqb (L "local") (L "self")) with false. change (seqb (L "__kj__") (L "self")) with false. change (seqb (L "__kj__") (L "local")) with false.
    change (seqb (L "__kj__") (L "child")) with false. rewrite !seqb_refl. repeat split; try lia.
    unfold parent_globals. unfold fun_at. change (seqb (L "__kj__") (L "__main__")) with false. cbv iota. rewrite G4. cbn [is_fun or_else].
    rewrite (init_reserved h _ c (i_context _ _ x) _ H C Xi kj_in). destruct (i_context _ _ x) as [d|g]; [reflexivity|]. cbn in Xi.
    now destruct (hinv_globals h g H Xi) as (_ & j & s' & _ & _ & _ & _ & _ & K4).
  - assert (Hj2 : j < length h) by lia. destruct (nth_error h j) as [w|] eqn:Ew; [|apply nth_error_None in Ew; lia].
    destruct (Sh j w Ew) as (w' & Ew' & _ & Xw). assert (w' = z) by congruence. subst w'. rewrite Xw. destruct (H j w Ew) as [Gw Xw0].
    split; [|apply (ctxinv_mono (length h)); [lia|exact Xw0]]. eapply ginv_evolve; [exact Ev|exact (hinv_globals h j H Hj2)| |].
    + destruct (Nat.eq_dec j i) as [->|Ne2]; [exact Da|]. destruct (O j Ne2 Ne) as [-> _]. now destruct (hinv_globals h j H Hj2).
    + intros r Hr. now apply Ev.
Qed.
End Inv.
