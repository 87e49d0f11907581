(** * Proofs about generated Python: which templates are rejected *)

From Coq Require Import Ascii String List NArith ZArith Bool Lia Arith.
From Verif Require Import PyStr PyStrLemmas M_IR S_IR P_IR P_IR2 P_IR3.
Import ListNotations.
Open Scope list_scope.

Section Hollow.
Variable P : char -> bool.

Definition readable (b : blk) : bool := match reading P b with Some _ => true | None => false end.
Definition not_py (b : blk) : Prop := match b with Py _ => False | _ => True end.

Lemma reading_nonempty : forall b, not_py b -> reading P b <> Some [].
Proof.
  intros [t g|p|h body|lines] H; try discriminate; [|destruct H].
  rewrite readings_block. destruct (readings P body) as [[|]|]; discriminate.
Qed.

Lemma readings_readable : forall l, Forall not_py l ->
  (forallb readable l = true <-> exists ts, readings P l = Some ts) /\ (readings P l = Some [] -> l = []).
Proof.
  intros l F. induction F as [|b l B F (IH1 & IH2)].
  - split; [split; intros; [cbn; eauto | reflexivity] | reflexivity].
  - cbn [forallb readings]. unfold readable at 1. pose proof (reading_nonempty b B) as NE.
    destruct (reading P b) as [x|]; cbn [andb].
    + split.
      * rewrite IH1. split; intros [ts H].
        -- rewrite H. eauto.
        -- destruct (readings P l) as [y|]; [eauto | discriminate].
      * destruct (readings P l) as [y|]; [|discriminate]. intros H. injection H as H. apply app_eq_nil in H as [-> _]. congruence.
    + split; [split; [discriminate | intros [ts H]; discriminate] | discriminate].
Qed.

Lemma readable_block : forall h body, Forall not_py body ->
  readable (Bl h body) = match body with [] => false | _ => forallb readable body end.
Proof.
  intros h body F. destruct (readings_readable body F) as [H1 H2]. unfold readable at 1. rewrite readings_block.
  destruct body as [|b body]; [reflexivity|]. destruct (readings P (b :: body)) as [[|x ts]|] eqn:E.
  - now specialize (H2 eq_refl).
  - symmetry. apply H1. eauto.
  - symmetry. destruct (forallb readable (b :: body)); [|reflexivity]. destruct (proj1 H1 eq_refl) as [ts H]. discriminate.
Qed.

Lemma join_readable : forall l, forallb readable (join_texts l) = forallb readable l.
Proof.
  induction l as [|b l IH]; [reflexivity|]. destruct b as [t g|p|h body|lines]; cbn [join_texts forallb]; rewrite <- ?IH; try reflexivity.
  destruct (join_texts l) as [|[t' g'|p|h body|lines] r]; try reflexivity. destruct (oseqb g g'); reflexivity.
Qed.
Lemma join_not_py : forall l, Forall not_py l -> Forall not_py (join_texts l).
Proof.
  intros l F. induction F as [|b l B F IH]; [constructor|]. destruct b as [t g|p|h body|lines]; cbn [join_texts]; try (constructor; assumption).
  destruct (join_texts l) as [|[t' g'|p|h body|lines] r]; try (constructor; assumption).
  inversion IH; subst. destruct (oseqb g g'); repeat constructor; assumption.
Qed.
Lemma join_nil : forall l, join_texts l = [] -> l = [].
Proof.
  intros [|b l] H; [reflexivity|]. destruct b as [t g|p|h body|lines]; cbn [join_texts] in H; try discriminate.
  destruct (join_texts l) as [|[t' g'|p|h body|lines] r]; try discriminate. destruct (oseqb g g'); discriminate.
Qed.

Definition good (n : node) : Prop :=
  Forall not_py (program n) /\ program n <> [] /\ forallb readable (program n) = negb (hollow n).

Notation any := (fix go (l : list node) : bool := match l with [] => false | m :: l' => hollow m || go l' end).

Lemma body_good : forall b, Forall good b ->
  let l := join_texts (flat_map program b) in
  Forall not_py l /\ (l = [] <-> b = []) /\ forallb readable l = negb (any b).
Proof.
  intros b F l.
  assert (G : Forall not_py (flat_map program b) /\ (flat_map program b = [] <-> b = []) /\
              forallb readable (flat_map program b) = negb (any b)).
  { clear l. induction F as [|n b (G1 & G2 & G3) F (IH1 & IH2 & IH3)]; [repeat split; constructor|].
    cbn [flat_map]. split; [now apply Forall_app | split].
    - split; intros H; [apply app_eq_nil in H as [H _]; contradiction | discriminate].
    - rewrite forallb_app, G3, IH3. now rewrite negb_orb. }
  destruct G as (G1 & G2 & G3). unfold l. split; [now apply join_not_py | split].
  - rewrite <- G2. split; [apply join_nil | intros ->; reflexivity].
  - now rewrite join_readable.
Qed.

Lemma block_good : forall h b, Forall good b ->
  readable (Bl h (join_texts (flat_map program b))) = match b with [] => false | _ => negb (any b) end.
Proof.
  intros h b F. destruct (body_good b F) as (A & B & C). rewrite readable_block by assumption. rewrite C.
  destruct b as [|n b]; [reflexivity|]. destruct (join_texts (flat_map program (n :: b))); [|reflexivity].
  discriminate (proj1 B eq_refl).
Qed.

Lemma all_good_nodes : forall n, no_python n -> good n.
Proof.
  assert (ALL : forall b, Forall (fun n => no_python n -> good n) b ->
    (fix go (l : list node) : Prop := match l with [] => True | m :: l' => no_python m /\ go l' end) b -> Forall good b).
  { intros b F. induction F as [|n b B F IH]; intros N0; [constructor|]. destruct N0. constructor; auto. }
  assert (ONE : forall x, not_py x -> forall h, readable x = negb h ->
     Forall not_py [x] /\ [x] <> [] /\ forallb readable [x] = negb h).
  { intros x X h R. repeat split; [repeat constructor; assumption | discriminate |]. cbn [forallb]. now rewrite R, andb_true_r. }
  induction n using node_ind'; intros N0; cbn [no_python] in N0; try (pose proof (ALL _ H N0) as F; clear H N0);
    unfold good; cbn [program hollow]; rewrite ?go_flat.
  - apply ONE; [exact I | reflexivity].
  - apply ONE; [exact I | reflexivity].
  - apply ONE; [exact I | reflexivity].
  - apply ONE; [exact I | reflexivity].
  - destruct (body_good b F) as (A & B & C). split; [destruct i; repeat constructor | split; [discriminate|]].
    cbn [forallb]. destruct b as [|m b].
    + destruct i; reflexivity.
    + rewrite block_good by assumption. rewrite andb_true_r. destruct i; reflexivity.
  - split; [repeat constructor | split; [discriminate|]]. cbn [forallb]. rewrite block_good by assumption.
    destruct b as [|m b]; [reflexivity|]. change (readable (St PDecorate)) with true. change (readable (St (PYield c))) with true.
    cbn [andb]. now rewrite andb_true_r.
  - apply ONE; [exact I|]. rewrite block_good by assumption. destruct b; reflexivity.
  - destruct (body_good b F) as (A & B & C). split; [|split; [discriminate|]].
    + constructor; [exact I|]. apply Forall_app. split; [apply Forall_map, Forall_forall; intros; exact I|].
      apply Forall_app. split; [exact A | repeat constructor].
    + cbn [forallb]. rewrite !forallb_app, C. change (readable (St (PPushWith (map fst v)))) with true. cbn [andb].
      replace (forallb readable (map (fun kv => St (PAssign (fst kv) (snd kv))) v)) with true.
      * cbn [andb forallb]. change (readable (St (PPopWith (map fst v)))) with true. now rewrite !andb_true_r.
      * symmetry. apply forallb_forall. intros x Hx. apply in_map_iff in Hx as (kv & <- & _). reflexivity.
  - destruct (body_good b F) as (A & B & C). split; [|split; [discriminate|]].
    + constructor; [exact I|]. constructor; [exact I|]. apply Forall_app. split; [exact A | repeat constructor].
    + cbn [forallb]. rewrite !forallb_app, C. cbn [andb forallb]. change (readable (St (PPushSwitch d))) with true.
      change (readable (St PIfFalse)) with true. change (readable (St PPopSwitch)) with true. cbn [andb]. now rewrite andb_true_r.
  - apply ONE; [exact I|]. rewrite block_good by assumption. destruct b; reflexivity.
  - apply ONE; [exact I|]. rewrite block_good by assumption. destruct b; reflexivity.
  - apply ONE; [exact I|]. rewrite block_good by assumption. destruct b; reflexivity.
  - apply ONE; [exact I | reflexivity].
  - apply ONE; [exact I | reflexivity].
  - apply ONE; [exact I | reflexivity].
  - assert (A : forall g0, let l :=
      [Bl (PDefGen g0) (match v with [] => [Tx [] None] | _ => join_texts (flat_map program v) end);
       St (PCollect g0); Bl (PForAttr x a g0 m) [St (PYield x)]] in Forall not_py l /\ forallb readable l = negb (any v)).
    { intros g0. split; [repeat constructor|]. cbn [forallb].
      change (readable (St (PCollect g0))) with true. change (readable (Bl (PForAttr x a g0 m) [St (PYield x)])) with true.
      cbn [andb]. rewrite andb_true_r. destruct v as [|m0 v]; [reflexivity|]. now rewrite block_good. }
    destruct (truthy_guard g).
    + destruct (A gen2) as [A1 A2]. apply ONE; [exact I|]. rewrite readable_block by exact A1. exact A2.
    + destruct (A gen) as [A1 A2]. split; [exact A1 | split; [discriminate | exact A2]].
  - destruct (truthy_guard g); apply ONE; try exact I; reflexivity.
  - destruct N0.
Qed.

Theorem rejected_iff : forall t, tidy_template t -> mod_py t = [] -> Forall no_python (defs t) ->
  (read_blocks (map (line_str P) (generate_python t)) = None <-> defs t = [] \/ Exists (fun n => hollow n = true) (defs t)).
Proof.
  intros t T M NP. rewrite read_generated by assumption. unfold template_program. rewrite M. cbn [map app].
  assert (F : Forall good (defs t)) by (eapply Forall_impl; [|exact NP]; apply all_good_nodes).
  destruct (body_good (defs t) F) as (A & B & C). fold (programs (defs t)) in *.
  pose proof (block_good PClass (defs t) F) as R. fold (programs (defs t)) in R. unfold readable in R.
  cbn [readings].
  assert (EX : any (defs t) = true <-> Exists (fun n => hollow n = true) (defs t)).
  { clear. induction (defs t) as [|n l IH]; [split; [discriminate | intros H; inversion H]|].
    rewrite orb_true_iff, IH. split; [intros [H|H]; [now constructor | now apply Exists_cons_tl]|].
    intros H; inversion H; auto. }
  rewrite <- EX. 
  destruct (reading P (Bl PClass (programs (defs t)))) as [x|].
  - destruct (defs t) as [|n l]; [discriminate|]. cbn [reading]. split; [discriminate|].
    intros [H|H]; [discriminate|]. rewrite H in R. discriminate.
  - split; [intros _|reflexivity]. destruct (defs t) as [|n l]; [now left|]. right.
    destruct (any (n :: l)); [reflexivity | discriminate].
Qed.
End Hollow.
