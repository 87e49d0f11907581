From Coq Require Import Ascii String List NArith ZArith Bool Lia.
From Verif Require Import PyStr PyStrLemmas M_Values S_Values S_Show.
Import ListNotations.
Open Scope list_scope.

Lemma dec_aux_acc : forall f n acc, dec_aux f n acc = dec_aux f n [] ++ acc.
Proof.
  induction f as [|f IH]; intros n acc; [reflexivity|]. cbn [dec_aux]. destruct (n <? 10)%N; [reflexivity|].
  rewrite IH, (IH _ [_]), <- app_assoc. reflexivity.
Qed.
Lemma dec_aux_numeral : forall f n, (n < 10 ^ N.of_nat f)%N -> f <> O -> numeral n (dec_aux f n []).
Proof.
  induction f as [|f IH]; intros n H F; [congruence|]. cbn [dec_aux]. destruct (N.ltb_spec n 10) as [K|K].
  - rewrite N.mod_small by exact K. now constructor.
  - rewrite dec_aux_acc. pose proof (N.div_mod' n 10) as D. pose proof (N.mod_lt n 10 ltac:(lia)) as M.
    rewrite D at 1. apply nu_more; [|exact M|].
    + intros E. rewrite E in D. lia.
    + rewrite Nat2N.inj_succ, N.pow_succ_r' in H. apply IH; [apply N.div_lt_upper_bound; lia|]. intros ->. cbn in H. lia.
Qed.
Lemma dec_numeral : forall n, numeral n (dec n).
Proof. intros n. apply dec_aux_numeral; [apply size_nat_pow|discriminate]. Qed.

Lemma to_str_shown : forall v, (forall l, v <> VFlat l) -> shown_as v (to_str v).
Proof.
  intros [|[]|[|p|p]|s|l|h s|s] N0; try constructor.
  - apply (sh_natural 0). apply dec_numeral.
  - apply (sh_natural (Npos p)). apply dec_numeral.
  - apply (sh_negative (Npos p)); [discriminate|apply dec_numeral].
  - destruct (N0 l eq_refl).
Qed.

Lemma numeral_inv : forall m t, numeral m t -> (m < 10)%N /\ t = [48 + m]%N \/ exists n d s, m = (10 * n + d)%N /\ n <> 0%N /\ (d < 10)%N /\ numeral n s /\ t = s ++ [48 + d]%N.
Proof. intros m t H. destruct H as [d D|n d s N0 D H]; [left; now split|right]. now exists n, d, s. Qed.
Lemma numeral_unique : forall n s, numeral n s -> forall t, numeral n t -> s = t.
Proof.
  induction 1 as [d D|n d s N0 D H IH]; intros t Ht; destruct (numeral_inv _ _ Ht) as [(D' & ->)|(n' & d' & t' & E & N0' & D' & H' & ->)].
  - reflexivity.
  - lia.
  - lia.
  - assert (n' = n) by lia. assert (d' = d) by lia. subst n' d'. f_equal. now apply IH.
Qed.
Lemma shown_as_unique : forall v s t, shown_as v s -> shown_as v t -> s = t.
Proof.
  intros v s t H K. inversion H; subst; inversion K; subst; try reflexivity.
  - apply (numeral_unique n); [assumption|]. replace n with n0 by lia. assumption.
  - lia.
  - lia.
  - f_equal. apply (numeral_unique n); [assumption|]. replace n with n0 by lia. assumption.
Qed.
Lemma shown_as_to_str : forall v s, shown_as v s -> s = to_str v.
Proof. intros v s H. apply (shown_as_unique v); [exact H|]. apply to_str_shown. intros l ->. inversion H. Qed.
