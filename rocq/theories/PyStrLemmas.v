(** * Lemmas about the string functions of [PyStr] *)

From Coq Require Import Ascii String List NArith ZArith Bool Lia Permutation Sorted.
From Verif Require Import PyStr.
Import ListNotations.
Open Scope list_scope.

Lemma seqb_spec : forall a b, reflect (a = b) (seqb a b).
Proof.
  induction a as [|x a IH]; destruct b as [|y b]; simpl; try (constructor; congruence).
  destruct (N.eqb_spec x y); simpl.
  - destruct (IH b); constructor; congruence.
  - constructor; congruence.
Qed.

Lemma seqb_refl : forall a, seqb a a = true.
Proof. intros a; destruct (seqb_spec a a); congruence. Qed.

Lemma seqb_eq : forall a b, seqb a b = true <-> a = b.
Proof. intros a b; destruct (seqb_spec a b); split; congruence. Qed.

Lemma smem_In : forall x l, smem x l = true <-> In x l.
Proof.
  unfold smem; intros; rewrite existsb_exists; split.
  - intros (y & H & E); apply seqb_eq in E; subst; auto.
  - intros; exists x; split; auto; apply seqb_refl.
Qed.

Lemma smem_notIn : forall x l, smem x l = false <-> ~ In x l.
Proof.
  intros; rewrite <- smem_In; destruct (smem x l); split; intuition congruence.
Qed.

Lemma cmem_In : forall c s, cmem c s = true <-> In c s.
Proof.
  unfold cmem; intros; rewrite existsb_exists; split.
  - intros (y & H & E); apply N.eqb_eq in E; subst; auto.
  - intros; exists c; split; auto; apply N.eqb_refl.
Qed.

Lemma str_eq_dec : forall a b : str, {a = b} + {a <> b}.
Proof. apply list_eq_dec, N.eq_dec. Defined.

Lemma prefixb_app : forall p s, prefixb p (p ++ s) = true.
Proof. induction p; simpl; intros; auto. rewrite N.eqb_refl; simpl; auto. Qed.

Lemma prefixb_spec : forall p s, prefixb p s = true <-> exists t, s = p ++ t.
Proof.
  induction p as [|x p IH]; simpl; intros s.
  - split; eauto.
  - destruct s as [|y s]; simpl.
    + split; [discriminate|]. intros (t & H); discriminate.
    + rewrite andb_true_iff, N.eqb_eq, IH. split.
      * intros (-> & t & ->); eauto.
      * intros (t & H); inversion H; subst; eauto.
Qed.

Lemma prefixb_skipn : forall p s, prefixb p s = true -> s = p ++ skipn (length p) s.
Proof.
  intros p s H; apply prefixb_spec in H; destruct H as (t & ->).
  now rewrite skipn_app, skipn_all, Nat.sub_diag.
Qed.

Lemma suffixb_spec : forall p s, suffixb p s = true <-> exists t, s = t ++ p.
Proof.
  intros; unfold suffixb; rewrite prefixb_spec; split.
  - intros (t & H). exists (rev t). apply (f_equal (@rev _)) in H.
    rewrite rev_involutive, rev_app_distr, rev_involutive in H; auto.
  - intros (t & ->). exists (rev t). apply rev_app_distr.
Qed.

(** [find] returns the first occurrence. *)
Lemma find_Some : forall p s i, find p s = Some i ->
  exists a b, s = a ++ p ++ b /\ length a = i.
Proof.
  intros p s; revert p; induction s as [|c s IH]; intros p i; simpl.
  - destruct (prefixb p []) eqn:E; [|discriminate].
    intros H; inversion H; subst. apply prefixb_spec in E; destruct E as (t & E).
    exists [], t; auto.
  - destruct (prefixb p (c :: s)) eqn:E.
    + intros H; inversion H; subst. apply prefixb_spec in E; destruct E as (t & E).
      exists [], t; auto.
    + destruct (find p s) as [j|] eqn:F; [|discriminate]; simpl.
      intros H; inversion H; subst. destruct (IH p j F) as (a & b & -> & <-).
      exists (c :: a), b; auto.
Qed.

Lemma find_first : forall p s i, find p s = Some i ->
  forall a b, s = a ++ p ++ b -> i <= length a.
Proof.
  intros p s; induction s as [|c s IH]; intros i F a b E; simpl in F.
  - destruct (prefixb p []); inversion F; lia.
  - destruct (prefixb p (c :: s)) eqn:P; [inversion F; lia|].
    destruct (find p s) as [j|] eqn:Fj; inversion F; subst.
    destruct a as [|d a]; simpl in *.
    + rewrite E, prefixb_app in P; discriminate.
    + inversion E; subst. specialize (IH j eq_refl a b eq_refl). lia.
Qed.

Lemma find_None : forall p s, find p s = None -> forall a b, s <> a ++ p ++ b.
Proof.
  intros p s; induction s as [|c s IH]; intros F a b E; simpl in F.
  - destruct (prefixb p []) eqn:P; [discriminate|].
    destruct a; [|discriminate]. simpl in E. rewrite E, prefixb_app in P; discriminate.
  - destruct (prefixb p (c :: s)) eqn:P; [discriminate|].
    destruct (find p s) as [j|] eqn:Fj; [discriminate|].
    destruct a as [|d a]; simpl in *.
    + rewrite E, prefixb_app in P; discriminate.
    + inversion E; subst. eapply IH; eauto.
Qed.

Lemma find_is_first : forall p a b,
  (forall a' b', a ++ p ++ b = a' ++ p ++ b' -> length a <= length a') ->
  find p (a ++ p ++ b) = Some (length a).
Proof.
  intros p a b H. destruct (find p (a ++ p ++ b)) as [i|] eqn:F.
  - pose proof (find_first _ _ _ F a b eq_refl).
    destruct (find_Some _ _ _ F) as (a' & b' & E & <-). apply H in E.
    f_equal; lia.
  - exfalso; eapply find_None; eauto.
Qed.

(** [replace] of a single character is a character map. *)
Lemma replace_single : forall c new s,
  replace [c] new s = flat_map (fun x => if N.eqb x c then new else [x]) s.
Proof.
  unfold replace; intros c new; induction s as [|x s IH]; simpl; auto.
  rewrite N.eqb_sym, andb_true_r. destruct (N.eqb x c); simpl; rewrite IH; auto.
Qed.

Lemma replace1_at : forall old new a b, old <> [] ->
  (forall a' b', a ++ old ++ b = a' ++ old ++ b' -> length a <= length a') ->
  replace1 old new (a ++ old ++ b) = a ++ new ++ b.
Proof.
  intros old new a; induction a as [|c a IH]; intros b N H; simpl.
  - destruct (old ++ b) as [|x s] eqn:E.
    + destruct old; [congruence|discriminate].
    + simpl. rewrite <- E, prefixb_app. f_equal.
      now rewrite skipn_app, skipn_all, Nat.sub_diag.
  - destruct (prefixb old (c :: a ++ old ++ b)) eqn:P.
    + apply prefixb_spec in P; destruct P as (t & P).
      specialize (H [] t); simpl in H. rewrite P in H; specialize (H eq_refl); lia.
    + f_equal. apply IH; auto. intros a' b' E.
      specialize (H (c :: a') b'); simpl in H. rewrite E in H; specialize (H eq_refl). lia.
Qed.

Lemma takewhile_dropwhile : forall p s, takewhile p s ++ dropwhile p s = s.
Proof. induction s; simpl; auto. destruct (p a); simpl; congruence. Qed.

Lemma takewhile_all : forall p s, forallb p (takewhile p s) = true.
Proof. induction s; simpl; auto. destruct (p a) eqn:E; simpl; auto. now rewrite E. Qed.

Lemma dropwhile_head : forall p s c t, dropwhile p s = c :: t -> p c = false.
Proof.
  induction s as [|x s IH]; simpl; intros; try discriminate.
  destruct (p x) eqn:E; eauto. inversion H; subst; auto.
Qed.

Lemma dropwhile_app_all : forall p a b, forallb p a = true -> dropwhile p (a ++ b) = dropwhile p b.
Proof.
  induction a; simpl; intros; auto. apply andb_true_iff in H; destruct H as (H & H1).
  rewrite H; auto.
Qed.

Lemma takewhile_app_all : forall p a b, forallb p a = true -> takewhile p (a ++ b) = a ++ takewhile p b.
Proof.
  induction a; simpl; intros; auto. apply andb_true_iff in H; destruct H as (H & H1).
  rewrite H; simpl; f_equal; auto.
Qed.

Lemma dropwhile_none : forall p c s, p c = false -> dropwhile p (c :: s) = c :: s.
Proof. simpl; intros; now rewrite H. Qed.

Lemma count_app : forall c a b, count c (a ++ b) = count c a + count c b.
Proof. induction a; simpl; intros; auto. rewrite IHa; lia. Qed.

Lemma count_zero : forall c s, count c s = 0 <-> ~ In c s.
Proof.
  induction s as [|x s IH]; simpl; split; intros; auto; try lia.
  - destruct (N.eqb_spec x c); simpl in *; [lia|]. intros [?|?]; [congruence|].
    apply IH in H0; auto.
  - destruct (N.eqb_spec x c); [exfalso; auto|]. apply IH. tauto.
Qed.




Lemma sleb_total : forall a b, sleb a b = true \/ sleb b a = true.
Proof.
  induction a as [|x a IH]; destruct b as [|y b]; simpl; auto.
  destruct (N.ltb_spec x y); simpl; auto.
  destruct (N.ltb_spec y x); simpl; auto.
  assert (x = y) by lia; subst. rewrite N.eqb_refl; simpl. apply IH.
Qed.

Lemma sleb_antisym : forall a b, sleb a b = true -> sleb b a = true -> a = b.
Proof.
  induction a as [|x a IH]; destruct b as [|y b]; simpl; auto; try discriminate.
  destruct (N.ltb_spec x y), (N.ltb_spec y x), (N.eqb_spec x y), (N.eqb_spec y x);
    simpl; try lia; try discriminate; intros.
  subst; f_equal; auto.
Qed.

Lemma sleb_trans : forall a b c, sleb a b = true -> sleb b c = true -> sleb a c = true.
Proof.
  induction a as [|x a IH]; destruct b as [|y b]; destruct c as [|z c]; simpl; auto; try discriminate.
  destruct (N.ltb_spec x y), (N.ltb_spec y z), (N.ltb_spec x z), (N.eqb_spec x y), (N.eqb_spec y z), (N.eqb_spec x z);
    simpl; try lia; try discriminate; auto.
  intros; eapply IH; eauto.
Qed.

(** ** Decimal notation *)

(** Reading a decimal numeral, [v] being the value of what was read before. *)
Fixpoint undec (v : N) (s : str) : N :=
  match s with [] => v | c :: s' => undec (10 * v + (c - 48))%N s' end.

Lemma dec_aux_undec : forall f n acc, (n < 10 ^ N.of_nat f)%N ->
  undec 0 (dec_aux f n acc) = undec n acc.
Proof.
  induction f as [|f IH]; intros n acc H.
  - simpl in *. f_equal; lia.
  - cbn [dec_aux]. destruct (N.ltb_spec n 10).
    + cbn [undec]. f_equal. rewrite N.mod_small by auto. lia.
    + rewrite IH.
      * cbn [undec]. f_equal. pose proof (N.div_mod' n 10) as D. 
        remember (n mod 10)%N as r. remember (n / 10)%N as q. clear Heqr Heqq. lia.
      * apply N.div_lt_upper_bound; [lia|].
        rewrite Nat2N.inj_succ, N.pow_succ_r' in H. lia.
Qed.

Lemma size_nat_pow : forall n, (n < 10 ^ N.of_nat (S (N.size_nat n)))%N.
Proof.
  intros n. assert (n < 2 ^ N.of_nat (N.size_nat n))%N.
  { destruct n as [|p]; [simpl; lia|]. simpl N.size_nat.
    induction p; cbn [Pos.size_nat]; rewrite ?Nat2N.inj_succ, ?N.pow_succ_r'; lia. }
  assert (2 ^ N.of_nat (N.size_nat n) <= 10 ^ N.of_nat (N.size_nat n))%N by (apply N.pow_le_mono_l; lia).
  rewrite Nat2N.inj_succ, N.pow_succ_r'. lia.
Qed.

Lemma undec_dec : forall n, undec 0 (dec n) = n.
Proof. intros n; unfold dec. rewrite dec_aux_undec by apply size_nat_pow. reflexivity. Qed.

Lemma dec_inj : forall n m, dec n = dec m -> n = m.
Proof. intros n m H. rewrite <- (undec_dec n), H. apply undec_dec. Qed.

Definition is_digit (c : char) : bool := ((48 <=? c) && (c <=? 57))%N.

Lemma dec_aux_digits : forall f n acc, forallb is_digit acc = true ->
  forallb is_digit (dec_aux f n acc) = true.
Proof.
  induction f; intros n acc H; auto. cbn [dec_aux].
  assert (D : is_digit (48 + n mod 10)%N = true).
  { assert (M : (n mod 10 < 10)%N) by (apply N.mod_lt; discriminate).
    remember (n mod 10)%N as r eqn:R; clear R. unfold is_digit. apply andb_true_iff; split; apply N.leb_le; lia. }
  destruct (n <? 10)%N; cbn [forallb]; [now rewrite D, H|]. apply IHf. cbn [forallb]. now rewrite D, H.
Qed.

Lemma dec_digits : forall n, forallb is_digit (dec n) = true.
Proof. intros; apply dec_aux_digits; reflexivity. Qed.

Lemma dec_nonempty : forall n, dec n <> [].
Proof.
  intros n; unfold dec. cbn [dec_aux].
  assert (H : forall f m acc, acc <> [] -> dec_aux f m acc <> []).
  { induction f; cbn [dec_aux]; intros; auto. destruct (m <? 10)%N; [discriminate|]. apply IHf; discriminate. }
  destruct (n <? 10)%N; [discriminate|]. apply H; discriminate.
Qed.
