From Coq Require Import Ascii String List Arith NArith ZArith Bool Lia.
From Verif Require Import PyStr PyStrLemmas M_Errors S_Errors.
Import ListNotations.
Open Scope list_scope.

Lemma line_text_before : forall s here k, (k < here)%Z -> line_text_from here k s = [].
Proof.
  induction s as [|c s IH]; simpl; intros here k H; auto.
  destruct (N.eqb c c_nl); [apply IH; lia|]. destruct (Z.eqb_spec here k); [lia|auto].
Qed.

Lemma splitlines_line_text : forall s cur here k, only_newlines s -> (0 <= k)%Z ->
  match nth_error (splitlines_aux false cur s) (Z.to_nat k) with Some l => l | None => [] end =
  (if Z.eqb k 0 then rev cur else []) ++ line_text_from here (here + k) s.
Proof.
  induction s as [|c s IH]; intros cur here k H K; cbn [splitlines_aux line_text_from].
  - rewrite app_nil_r. destruct cur as [|x cur].
    + simpl. destruct (Z.to_nat k); simpl; destruct (Z.eqb k 0); reflexivity.
    + destruct (Z.eqb_spec k 0).
      * subst; reflexivity.
      * destruct (Z.to_nat k) as [|m] eqn:E; [lia|]. simpl. destruct m; reflexivity.
  - assert (H' : only_newlines s) by (intros x X; apply H; right; auto).
    simpl andb. destruct (is_linebreak c) eqn:B.
    + apply H in B as B'; [subst|left; auto]. cbn [N.eqb Pos.eqb]. change (c_nl =? c_cr)%N with false.
      change (c_nl =? c_nl)%N with true. cbv iota.
      destruct (Z.eqb_spec k 0).
      * subst. rewrite line_text_before by lia. simpl. now rewrite app_nil_r.
      * replace (Z.to_nat k) with (S (Z.to_nat (k - 1))) by lia. cbn [nth_error].
        rewrite (IH [] (here + 1)%Z (k - 1)%Z) by (auto; lia).
        replace (here + 1 + (k - 1))%Z with (here + k)%Z by lia.
        destruct (k - 1 =? 0)%Z; reflexivity.
    + rewrite (IH (c :: cur) here k) by auto.
      destruct (N.eqb_spec c c_nl); [subst; discriminate|].
      destruct (Z.eqb_spec k 0).
      * subst. rewrite Z.add_0_r, Z.eqb_refl. simpl. now rewrite <- app_assoc.
      * destruct (Z.eqb_spec here (here + k)); [lia|reflexivity].
Qed.

Lemma get_source_line_text : forall s k, only_newlines s -> get_source_line s (k - 1) = line_text s k.
Proof.
  intros s k H. unfold get_source_line, line_text. destruct (Z.ltb_spec (k - 1) 0).
  - rewrite line_text_before by lia. reflexivity.
  - pose proof (splitlines_line_text s [] 1 (k - 1) H ltac:(lia)) as E. unfold splitlines. rewrite E.
    replace (1 + (k - 1))%Z with k by lia. destruct (k - 1 =? 0)%Z; reflexivity.
Qed.

(** Lines contain no line boundary. *)
Lemma splitlines_no_break : forall s cr cur, Forall (fun c => is_linebreak c = false) cur ->
  Forall (Forall (fun c => is_linebreak c = false)) (splitlines_aux cr cur s).
Proof.
  induction s as [|c s IH]; intros cr cur H; cbn [splitlines_aux].
  - destruct cur; constructor; auto. apply Forall_rev; auto.
  - destruct (cr && (c =? c_nl)%N); auto. destruct (is_linebreak c) eqn:B.
    + constructor; auto. apply Forall_rev; auto.
    + apply IH. constructor; auto.
Qed.

Lemma get_source_line_no_break : forall s k c, In c (get_source_line s k) -> is_linebreak c = false.
Proof.
  intros s k c. unfold get_source_line. destruct (k <? 0)%Z; [contradiction|].
  destruct (nth_error (splitlines s) (Z.to_nat k)) as [l|] eqn:E; [|contradiction].
  intros I. apply nth_error_In in E.
  pose proof (splitlines_no_break s false [] ltac:(constructor)) as F.
  rewrite Forall_forall in F. specialize (F l E). rewrite Forall_forall in F. auto.
Qed.

Lemma split_c_app : forall c l cur rest, ~ In c l ->
  split_c_aux c cur (l ++ c :: rest) = (rev cur ++ l) :: split_c_aux c [] rest.
Proof.
  induction l as [|x l IH]; simpl; intros cur rest H.
  - rewrite N.eqb_refl, app_nil_r. reflexivity.
  - destruct (N.eqb_spec x c); [subst; exfalso; auto|]. rewrite IH by auto. simpl. now rewrite <- app_assoc.
Qed.

Lemma split_rows : forall rows, Forall (fun r => ~ In c_nl r) rows ->
  split_c c_nl (concat (map (fun r => r ++ [c_nl]) rows)) = rows ++ [[]].
Proof.
  unfold split_c. induction 1 as [|r rows H F IH]; simpl; auto.
  rewrite <- app_assoc. cbn [app]. rewrite split_c_app by auto. rewrite IH. reflexivity.
Qed.

Lemma snippet_rows : forall s n,
  source_snippet s n = concat (map (fun r => r ++ [c_nl]) (excerpt_rows (fun k => get_source_line s (k - 1)) n)).
Proof.
  intros s n. unfold source_snippet, excerpt_rows. cbn [surrounding seq rev app map].
  replace (n - 2 - 1)%Z with (n - 1 - Z.of_nat 2)%Z by lia.
  replace (n - 1 - 1)%Z with (n - 1 - Z.of_nat 1)%Z by lia.
  replace (n + 1 - 1)%Z with (n - 1 + Z.of_nat 1)%Z by lia.
  replace (n + 2 - 1)%Z with (n - 1 + Z.of_nat 2)%Z by lia.
  cbn [concat]. rewrite <- !app_assoc. reflexivity.
Qed.
