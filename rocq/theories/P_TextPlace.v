(** * Proofs: where expressions end, and which characters are in names *)

From Coq Require Import Ascii String List Arith NArith ZArith Bool Lia.
From Verif Require Import PyStr PyStrLemmas Regex M_IR M_Text S_Text.
Import ListNotations.
Open Scope list_scope.

(** ** Characters *)
Lemma memN_In : forall (c : char) l, existsb (N.eqb c) l = true <-> In c l.
Proof.
  intros c l. rewrite existsb_exists. split.
  - intros (d & I1 & E). apply N.eqb_eq in E. now subst d.
  - intros I1. exists c. split; [exact I1|apply N.eqb_refl].
Qed.
Lemma high_false : forall c l, (128 <= c)%N -> forallb (fun d => N.ltb d 128) l = true -> existsb (N.eqb c) l = false.
Proof.
  intros c l H F. destruct (existsb (N.eqb c) l) eqn:E; [|reflexivity]. apply memN_In in E. rewrite forallb_forall in F. specialize (F _ E). apply N.ltb_lt in F. lia.
Qed.
Lemma xorb_false : forall a b, xorb a b = false -> a = b.
Proof. now intros [] []. Qed.
(** Two predicates that agree on ASCII and on the four letters, and are false elsewhere. *)
Lemma agree : forall (f : char -> bool) l, (forall c, (128 <= c)%N -> ~ In c [304; 305; 383; 8490]%N -> f c = false) ->
  f 304%N = true -> f 305%N = true -> f 383%N = true -> f 8490%N = true -> forallb (fun d => N.ltb d 128) l = true ->
  forallb (fun n => negb (xorb (f (N.of_nat n)) (existsb (N.eqb (N.of_nat n)) l))) (seq 0 128) = true ->
  forall c, f c = true <-> In c (l ++ [304; 305; 383; 8490]%N).
Proof.
  intros f l H F1 F2 F3 F4 Hl A c. rewrite in_app_iff. destruct (in_dec N.eq_dec c [304; 305; 383; 8490]%N) as [I1|I1].
  - split; [now right|]. intros _. destruct I1 as [<-|[<-|[<-|[<-|[]]]]]; assumption.
  - assert (E : xorb (f c) (existsb (N.eqb c) l) = false).
    { destruct (N.le_gt_cases 128 c) as [G|G]; [now rewrite H, (high_false _ _ G Hl)|]. rewrite forallb_forall in A.
      specialize (A (N.to_nat c)). rewrite N2Nat.id in A. apply negb_true_iff. apply A. apply in_seq. lia. }
    apply xorb_false in E. rewrite E, memN_In. tauto.
Qed.
Lemma fold_high : forall c, (128 <= c)%N -> ~ In c [304; 305; 383; 8490]%N -> fold_c c = c.
Proof.
  intros c H NI. unfold fold_c, lower_c. destruct (N.eqb_spec c 304) as [->|]; [exfalso; apply NI; now left|].
  destruct (N.eqb_spec c 305) as [->|]; [exfalso; apply NI; right; now left|]. cbn [orb]. destruct (N.eqb_spec c 383) as [->|]; [exfalso; apply NI; right; right; now left|].
  destruct (N.eqb_spec c 8490) as [->|]; [exfalso; apply NI; right; right; right; now left|].
  destruct (N.leb_spec c 90); [lia|]. now rewrite andb_false_r.
Qed.
Lemma az_high : forall c, (128 <= c)%N -> ~ In c [304; 305; 383; 8490]%N -> is_az c = false.
Proof. intros c H NI. unfold is_az. rewrite fold_high by assumption. cbv zeta. destruct (N.leb_spec c 122); [lia|]. now rewrite andb_false_r. Qed.
Lemma letter_char : forall c, letter c <-> In c letters.
Proof. intros c. unfold letter, letters. apply agree; try reflexivity. exact az_high. Qed.
Lemma start_char : forall c, name_start c = true <-> In c (L "_" ++ letters).
Proof.
  intros c. unfold letters. rewrite app_assoc. apply agree; try reflexivity. intros d H NI. unfold name_start. rewrite (az_high _ H NI).
  destruct (N.eqb_spec d c_us) as [->|]; [exfalso; now apply H|reflexivity].
Qed.
Lemma rest_char : forall c, name_rest c = true <-> In c (L "_.0123456789" ++ letters).
Proof.
  intros c. unfold letters. rewrite app_assoc. apply agree; try reflexivity. intros d H NI. unfold name_rest, name_start. rewrite (az_high _ H NI).
  destruct (N.eqb_spec d c_us) as [->|]; [exfalso; now apply H|]. cbn [orb].
  destruct (N.eqb_spec d c_dot) as [->|]; [exfalso; now apply H|]. destruct (N.leb_spec d 57); [lia|]. now rewrite ?andb_false_r, ?orb_false_r.
Qed.

(** ** Places *)
Definition step (p : nat * nat) (c : char) : nat * nat := if N.eqb c c_nl then (fst p + 1, 1) else (fst p, snd p + 1).
Lemma place_walk : forall s l o, place s l o -> fold_left step s (1, 1) = (l, o).
Proof.
  intros s l o H. induction H as [|s l o H IH|s l o c Nc H IH]; [reflexivity| |]; rewrite fold_left_app, IH; cbn [fold_left step fst snd]; [reflexivity|].
  unfold step. now destruct (N.eqb_spec c c_nl).
Qed.
Lemma walk_shift : forall s l o k, fold_left step s (l + k, o) = (fst (fold_left step s (l, o)) + k, snd (fold_left step s (l, o))).
Proof.
  induction s as [|c s IH]; intros l o k; [reflexivity|]. cbn [fold_left]. unfold step at 2 4 6. cbn [fst snd]. destruct (N.eqb c c_nl); [|apply IH].
  replace (l + k + 1) with (l + 1 + k) by lia. apply IH.
Qed.
Lemma walk_up : forall s l o, l <= fst (fold_left step s (l, o)).
Proof.
  induction s as [|c s IH]; intros l o; [reflexivity|]. cbn [fold_left]. unfold step at 2. cbn [fst snd]. destruct (N.eqb c c_nl); [|apply IH].
  specialize (IH (l + 1) 1). lia.
Qed.
Lemma walk_lines : forall e cur r, (forall c, In c e -> is_linebreak c = true -> c = c_nl) ->
  let p := fold_left step e (1, length cur + 1) in
  snd p + nat_sum (map (fun line => length line + 1) (firstn (fst p - 1) (splitlines_aux false cur (e ++ r)))) = length cur + length e + 1.
Proof.
  induction e as [|c e IH]; intros cur r H; cbv zeta; cbn [fold_left app].
  - cbn [fst snd]. rewrite Nat.sub_diag. cbn [firstn map nat_sum fold_right length]. lia.
  - assert (He : forall d, In d e -> is_linebreak d = true -> d = c_nl) by (intros d Hd; apply H; now right).
    unfold step at 2 4. cbn [fst snd splitlines_aux andb]. destruct (N.eqb_spec c c_nl) as [->|Nc].
    + change (is_linebreak c_nl) with true. change (N.eqb c_nl c_cr) with false. cbv iota. specialize (IH [] r He). cbv zeta in IH. cbn [length] in IH.
      change (fold_left step e (1 + 1, 1)) with (fold_left step e (1 + 1, 0 + 1)). rewrite (walk_shift e 1 (0 + 1) 1). cbn [fst snd].
      pose proof (walk_up e 1 (0 + 1)) as U. set (p := fold_left step e (1, 0 + 1)) in *.
      replace (fst p + 1 - 1) with (S (fst p - 1)) by lia. cbn [firstn map nat_sum fold_right length]. rewrite rev_length. unfold nat_sum in IH. lia.
    + destruct (is_linebreak c) eqn:Eb; [now contradiction Nc; apply H; [left|]|]. specialize (IH (c :: cur) r He). cbv zeta in IH. cbn [length] in *.
      replace (length cur + 1 + 1) with (S (length cur) + 1) by lia. lia.
Qed.
Lemma place_end : forall e s l o, place e l o -> (forall c, In c e -> is_linebreak c = true -> c = c_nl) -> expr_end (e ++ L "}" ++ s) l o = length e + 1.
Proof.
  intros e s l o P H. apply place_walk in P. unfold expr_end. pose proof (walk_lines e [] (L "}" ++ s) H) as W. cbv zeta in W. cbn [length] in W.
  change (0 + 1) with 1 in W. rewrite P in W. exact W.
Qed.
