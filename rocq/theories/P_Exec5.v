(** * Execution: scoping and switches *)

From Coq Require Import Ascii String List NArith ZArith Bool Lia.
From Verif Require Import PyStr PyStrLemmas M_Values M_IR S_IR M_Exec S_Exec P_IR P_IR3 P_Exec P_Exec2 P_Exec3 P_Exec4.
Import ListNotations.
Open Scope list_scope.

Section Facts.
Variable py : python.
Variables gen user : str -> Prop.
Hypothesis Hy : hygienic py gen user.

Lemma sim2_effect : forall s r m, sim2 gen s (drop_chain r) m -> same_effect gen s r m.
Proof.
  intros s [[[o c] s']|x] [[o' e']|y] H; cbn in *; try contradiction; [|exact H].
  destruct H as (So & A & W & S). repeat split; try assumption.
  - now apply same_out_render.
  - now apply same_out_collect.
Qed.

Theorem same_effects : forall l ss c s e, structure l = Some ss -> Forall (well_named gen user) l ->
  agree gen (s_env s) e -> same_effect gen s (execs py (programs l) c s) (means py ss e).
Proof. intros. apply sim2_effect. now apply (refines py gen user Hy). Qed.

Lemma means_single : forall s e, means py [s] e = meaning py s e.
Proof.
  intros s e. cbn [means]. unfold then_. destruct (meaning py s e) as [[o e']|]; [|reflexivity]. cbn.
  now rewrite app_nil_r.
Qed.


Lemma lookup_restore : forall names old e k,
  lookup k (restore names old e) =
  if existsb (seqb k) names then Some (match lookup k old with Some v => v | None => unit_value end) else lookup k e.
Proof.
  unfold restore. induction names as [|n names IH]; intros old e k; [reflexivity|]. cbn [fold_left existsb].
  rewrite IH. cbn [lookup set_var]. destruct (seqb k n) eqn:E; cbn [orb].
  - apply seqb_eq in E. subst n. destruct (existsb (seqb k) names); reflexivity.
  - reflexivity.
Qed.

Lemma existsb_in : forall k l, existsb (seqb k) l = true <-> In k l.
Proof.
  intros k l. rewrite existsb_exists. split.
  - intros (x & I1 & E). apply seqb_eq in E. now subst.
  - intros I1. exists k. split; [exact I1|apply seqb_refl].
Qed.

Theorem with_scoped : forall ln vars b ss c s o c' s',
  structure b = Some ss -> well_named gen user (NWith ln vars b) ->
  execs py (programs [NWith ln vars b]) c s = Ok (o, c', s') ->
  (forall k v, In k (map fst vars) -> lookup k (s_env s) = Some v -> lookup k (s_env s') = Some v) /\
  (exists e1 o2 e2, assigns py vars (s_env s) = Ok e1 /\ means py ss e1 = Ok (o2, e2) /\
     render o = render o2 /\
     forall k, ~ In k (map fst vars) -> ~ gen k -> lookup k (s_env s') = lookup k e2) /\
  (forall k, In k (map fst vars) -> lookup k (s_env s) = None -> lookup k (s_env s') = Some unit_value) /\
  s_with s' = s_with s /\ s_switch s' = s_switch s.
Proof.
  intros ln vars b ss c s o c' s' S W R.
  assert (St1 : structure [NWith ln vars b] = Some [SWith vars ss]).
  { unfold structure. cbn [pieces_of piece_of]. rewrite structure_eq, S. reflexivity. }
  pose proof (same_effects [NWith ln vars b] [SWith vars ss] c s (s_env s) St1 (Forall_cons _ W (Forall_nil _)) (agree_refl _ _)) as E.
  rewrite R, means_single, meaning_with in E.
  destruct (assigns py vars (s_env s)) as [e1|]; [|contradiction]. cbn [rbind] in E.
  destruct (means py ss e1) as [[o2 e2]|] eqn:Em; [|contradiction]. cbn [rmap fst snd same_effect] in E.
  destruct E as (Er & _ & A & Ew & Es).
  cbn [well_named] in W. destruct W as [Wv _].
  assert (NG : forall k, In k (map fst vars) -> ~ gen k).
  { intros k I1. apply in_map_iff in I1 as ((k1 & x) & <- & I1). rewrite Forall_forall in Wv.
    destruct (Wv _ I1) as [[_ G] _]. exact G. }
  split; [|split; [|split]].
  - intros k v I1 L1. rewrite (A k (NG k I1)), lookup_restore. apply existsb_in in I1. now rewrite I1, L1.
  - exists e1, o2, e2. split; [reflexivity|]. split; [exact Em|]. split; [exact Er|]. intros k I1 G.
    rewrite (A k G), lookup_restore. destruct (existsb (seqb k) (map fst vars)) eqn:E; [|reflexivity].
    apply existsb_in in E. contradiction.
  - intros k I1 L1. rewrite (A k (NG k I1)), lookup_restore. apply existsb_in in I1. now rewrite I1, L1.
  - split; assumption.
Qed.

Lemma first_case_hit : forall w cs1 c b cs2 els e,
  Forall (fun cb => not_case py e w (fst cb)) cs1 -> is_case py e w c ->
  first_case py w (cs1 ++ (c, b) :: cs2) els e = means py b e.
Proof.
  induction cs1 as [|[c1 b1] cs1 IH]; intros c b cs2 els e F (v & E & Q); cbn [app first_case].
  - now rewrite E; cbn [rbind]; rewrite Q.
  - inversion F as [|? ? (v1 & E1 & Q1) F']; subst. cbn [fst] in E1. rewrite E1. cbn [rbind]. rewrite Q1.
    apply IH; [assumption|now exists v].
Qed.
Lemma first_case_miss : forall w cs els e, Forall (fun cb => not_case py e w (fst cb)) cs ->
  first_case py w cs els e = means py els e.
Proof.
  induction cs as [|[c1 b1] cs IH]; intros els e F; cbn [first_case]; [reflexivity|].
  inversion F as [|? ? (v1 & E1 & Q1) F']; subst. cbn [fst] in E1. rewrite E1. cbn [rbind]. rewrite Q1. now apply IH.
Qed.
Lemma first_case_raise : forall w cs1 c b cs2 els e x,
  Forall (fun cb => not_case py e w (fst cb)) cs1 -> ev py e c = Raise x ->
  first_case py w (cs1 ++ (c, b) :: cs2) els e = Raise x.
Proof.
  induction cs1 as [|[c1 b1] cs1 IH]; intros c b cs2 els e x F E; cbn [app first_case].
  - now rewrite E.
  - inversion F as [|? ? (v1 & E1 & Q1) F']; subst. cbn [fst] in E1. rewrite E1. cbn [rbind]. rewrite Q1. now apply IH.
Qed.

End Facts.
