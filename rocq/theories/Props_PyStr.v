(** * The model of Python's strings does what Python's manual says

    No property of Kajiki; these theorems make the reading of [PyStr] unnecessary. *)

From Coq Require Import Ascii String List Arith NArith Bool Lia.
From Verif Require Import PyStr PyStrLemmas S_PyStr.
Import ListNotations.
Open Scope list_scope.

(** [==], [in] for lists and characters, [startswith], [endswith] *)
Theorem Str_equal : forall a b, seqb a b = true <-> a = b.
Proof. exact seqb_eq. Qed.
Print Assumptions Str_equal.
Theorem Str_in_list : forall x l, smem x l = true <-> In x l.
Proof. exact smem_In. Qed.
Print Assumptions Str_in_list.
Theorem Str_in : forall c s, cmem c s = true <-> In c s.
Proof. exact cmem_In. Qed.
Print Assumptions Str_in.
Theorem Str_startswith : forall p s, prefixb p s = true <-> exists t, s = p ++ t.
Proof. exact prefixb_spec. Qed.
Print Assumptions Str_startswith.
Theorem Str_endswith : forall p s, suffixb p s = true <-> exists t, s = t ++ p.
Proof. exact suffixb_spec. Qed.
Print Assumptions Str_endswith.

(** [find], [in] *)
Lemma find_split : forall p s i, find p s = Some i -> first_at p s (firstn i s) (skipn (i + length p) s) /\ i <= length s.
Proof.
  intros p s. induction s as [|c s IH]; intros i H.
  - cbn [find] in H. destruct (prefixb p []) eqn:E; [|discriminate]. injection H as <-. apply prefixb_spec in E as (t & E). symmetry in E. apply app_eq_nil in E as [-> ->].
    split; [|cbn; lia]. split; [reflexivity|]. intros a' b' _. cbn. lia.
  - cbn [find] in H. destruct (prefixb p (c :: s)) eqn:E.
    + injection H as <-. apply prefixb_skipn in E. split; [|lia]. split; [exact E|]. intros a' b' _. cbn. lia.
    + destruct (find p s) as [j|] eqn:F; [|discriminate]. injection H as <-. destruct (IH j eq_refl) as [[E1 E2] Hj]. split; [|cbn; lia]. split.
      * cbn [firstn skipn plus app]. now rewrite <- E1.
      * intros [|c' a'] b' E'; [exfalso; rewrite E' in E; cbn [app] in E; rewrite prefixb_app in E; discriminate|]. injection E' as <- E'. apply E2 in E'. cbn. lia.
Qed.
Theorem Str_find : forall p s i, find p s = Some i <-> exists a b, first_at p s a b /\ length a = i.
Proof.
  intros p s i. split.
  - intros H. destruct (find_split p s i H) as [F Hi]. eexists _, _. split; [exact F|]. now apply firstn_length_le.
  - intros (a & b & [E M] & <-). destruct (find p s) as [j|] eqn:F; [|exfalso; now apply (find_None _ _ F a b)].
    destruct (find_split p s j F) as [[E' M'] Hj]. f_equal. pose proof (M _ _ E'). pose proof (M' _ _ E). rewrite firstn_length_le in * by exact Hj. lia.
Qed.
Print Assumptions Str_find.
Theorem Str_find_not : forall p s, find p s = None <-> ~ occurs p s.
Proof.
  intros p s. split; [intros F (a & b & E); now apply (find_None _ _ F a b)|]. intros N. destruct (find p s) as [i|] eqn:F; [|reflexivity].
  exfalso. apply N. destruct (find_split p s i F) as [[E _] _]. eexists _, _. exact E.
Qed.
Print Assumptions Str_find_not.
Theorem Str_contains : forall p s, contains p s = true <-> occurs p s.
Proof.
  intros p s. unfold contains. destruct (find p s) as [i|] eqn:F.
  - split; [|reflexivity]. intros _. destruct (find_split p s i F) as [[E _] _]. eexists _, _. exact E.
  - split; [discriminate|]. intros O. now apply Str_find_not in F.
Qed.
Print Assumptions Str_contains.
Theorem Str_find_from : forall p s i j, i <= length s -> (find_from p s i = Some j <-> i <= j /\ find p (skipn i s) = Some (j - i)).
Proof.
  intros p s i j _. unfold find_from. destruct (find p (skipn i s)) as [k|]; cbn [option_map].
  - split; [intros [= <-]; split; [lia|]; f_equal; lia|]. intros [H [= E]]. f_equal. lia.
  - split; [discriminate|]. intros [_ X]. discriminate X.
Qed.
Print Assumptions Str_find_from.
Theorem Str_count : forall c s, count c s = count_occ N.eq_dec s c.
Proof. intros c s. induction s as [|x s IH]; [reflexivity|]. cbn [count count_occ]. destruct (N.eq_dec x c) as [->|Ne]; [rewrite N.eqb_refl|apply N.eqb_neq in Ne; rewrite Ne]; rewrite IH; reflexivity. Qed.
Print Assumptions Str_count.

(** [replace] *)
Lemma replace_skip_skip : forall old new k s, replace_skip old new k s = replace_skip old new 0 (skipn k s).
Proof. intros old new k. induction k as [|k IH]; intros s; [reflexivity|]. destruct s as [|c s]; [reflexivity|]. cbn [replace_skip skipn]. apply IH. Qed.
Lemma first_cons : forall p c s a b, prefixb p (c :: s) = false -> first_at p s a b -> first_at p (c :: s) (c :: a) b.
Proof.
  intros p c s a b N [-> M]. split; [reflexivity|]. intros [|c' a'] b' E; [exfalso; rewrite E in N; cbn [app] in N; rewrite prefixb_app in N; discriminate|].
  injection E as <- E. apply M in E. cbn. lia.
Qed.
Theorem Str_replace : forall old new s, old <> [] -> replaced old new s (replace old new s).
Proof.
  intros old new s No. remember (length s) as n eqn:Hn. revert s Hn. induction n as [n IHn] using lt_wf_ind. intros s Hn. subst n.
  assert (K : forall s0, length s0 <= length s -> (forall t, length t < length s0 -> replaced old new t (replace old new t)) -> replaced old new s0 (replace old new s0)).
  { clear IHn. intros s0 _. induction s0 as [|c s0 IH]; intros Hr.
    - constructor. intros (a & b & E). symmetry in E. apply app_eq_nil in E as [_ E]. apply app_eq_nil in E as [E _]. contradiction.
    - unfold replace in *. cbn [replace_skip]. destruct (prefixb old (c :: s0)) eqn:P.
      + apply prefixb_spec in P as (t & E). destruct old as [|x old]; [contradiction|]. cbn [length]. rewrite Nat.sub_succ, Nat.sub_0_r, replace_skip_skip. injection E as <- ->.
        rewrite skipn_app, skipn_all, Nat.sub_diag. cbn [skipn app]. apply (rp_first _ _ _ [] t); [|apply Hr; cbn [length]; rewrite app_length; lia]. split; [reflexivity|]. intros a' b' _. cbn. lia.
      + assert (R : replaced old new s0 (replace_skip old new 0 s0)) by (apply IH; intros t Ht; apply Hr; cbn; lia). clear IH Hr. remember (replace_skip old new 0 s0) as r eqn:Er. clear Er. destruct R as [s1 N1|s1 a b b' F1 R1].
        * constructor. intros O. apply N1. destruct O as ([|c' a] & b & E); [exfalso; rewrite E in P; cbn [app] in P; rewrite prefixb_app in P; discriminate|]. injection E as <- E. now exists a, b.
        * apply (rp_first _ _ _ (c :: a) b); [|exact R1]. now apply first_cons. }
  apply K; [lia|]. intros t Ht. now apply (IHn (length t)).
Qed.
Lemma first_unique : forall p s a b a' b', first_at p s a b -> first_at p s a' b' -> a = a' /\ b = b'.
Proof.
  intros p s a b a' b' [E M] [E' M']. pose proof (M _ _ E'). pose proof (M' _ _ E). assert (HL : length a = length a') by lia.
  rewrite E in E'. clear - HL E'. revert a' HL E'. induction a as [|x a IH]; intros [|y a'] HL E'; try discriminate HL.
  - split; [reflexivity|]. cbn [app] in E'. now apply app_inv_head in E'.
  - injection E' as -> E'. injection HL as HL. destruct (IH a' HL E') as [-> ->]. now split.
Qed.
(** There is one result. *)
Theorem Str_replace_unique : forall old new s t t', replaced old new s t -> replaced old new s t' -> t = t'.
Proof.
  intros old new s t t' H. revert t'. induction H as [s N|s a b b' F R IH]; intros t' H'; inversion H' as [s1 N1 E1|s1 a1 b1 b1' F1 R1 E1]; subst; try reflexivity.
  - exfalso. apply N. destruct F1 as [E _]. now exists a1, b1.
  - exfalso. apply N1. destruct F as [E _]. now exists a, b.
  - destruct (first_unique _ _ _ _ _ _ F F1) as [<- <-]. now rewrite (IH _ R1).
Qed.
Print Assumptions Str_replace_unique.
Theorem Str_replace_once : forall old new s, old <> [] ->
  (occurs old s -> exists a b, first_at old s a b /\ replace1 old new s = a ++ new ++ b) /\ (~ occurs old s -> replace1 old new s = s).
Proof.
  intros old new s No. induction s as [|c s IH].
  - assert (N : ~ occurs old []). { intros (a & b & E). symmetry in E. apply app_eq_nil in E as [_ E]. apply app_eq_nil in E as [E _]. contradiction. }
    split; [intros O; contradiction|]. intros _. destruct old; [contradiction|reflexivity].
  - cbn [replace1]. destruct (prefixb old (c :: s)) eqn:P.
    + apply prefixb_skipn in P. split.
      * intros _. exists [], (skipn (length old) (c :: s)). split; [split; [exact P|]|reflexivity]. intros a' b' _. cbn. lia.
      * intros N. exfalso. apply N. exists [], (skipn (length old) (c :: s)). exact P.
    + assert (I : occurs old (c :: s) -> occurs old s). { intros ([|c' a] & b & E); [exfalso; rewrite E in P; cbn [app] in P; rewrite prefixb_app in P; discriminate|]. injection E as <- E. now exists a, b. }
      split.
      * intros O. destruct (proj1 IH (I O)) as (a & b & F & ->). exists (c :: a), b. split; [now apply first_cons|reflexivity].
      * intros N. f_equal. apply (proj2 IH). intros (a & b & ->). apply N. now exists (c :: a), b.
Qed.
Print Assumptions Str_replace_once.

(** [isspace], [strip] *)
Theorem Str_isspace : forall c, is_space c = true <-> In c blanks.
Proof.
  intros c. unfold is_space. rewrite !orb_true_iff, !andb_true_iff, !N.leb_le, !N.eqb_eq. unfold blanks. cbn [In]. split; [|intuition (subst; lia)].
  intros H. assert (c = 9 \/ c = 10 \/ c = 11 \/ c = 12 \/ c = 13 \/ c = 28 \/ c = 29 \/ c = 30 \/ c = 31 \/ c = 32 \/ c = 133 \/ c = 160 \/ c = 5760 \/ c = 8192 \/ c = 8193 \/ c = 8194 \/ c = 8195 \/ c = 8196 \/ c = 8197 \/ c = 8198 \/ c = 8199 \/ c = 8200 \/ c = 8201 \/ c = 8202 \/
   c = 8232 \/ c = 8233 \/ c = 8239 \/ c = 8287 \/ c = 12288)%N as K by lia. intuition.
Qed.
Print Assumptions Str_isspace.
Lemma all_blank : forall s, forallb is_space s = true <-> blank_str s.
Proof. intros s. rewrite forallb_forall. unfold blank_str. split; intros H c I; apply Str_isspace, H, I. Qed.
Lemma lstrip_spec : forall s, exists a, s = a ++ lstrip s /\ blank_str a /\ starts_well (lstrip s).
Proof.
  intros s. exists (takewhile is_space s). split; [symmetry; apply takewhile_dropwhile|]. split; [apply all_blank, takewhile_all|].
  intros c t E I. apply dropwhile_head in E. apply Str_isspace in I. congruence.
Qed.
Lemma rstrip_spec : forall s, exists b, s = rstrip s ++ b /\ blank_str b /\ ends_well (rstrip s).
Proof.
  intros s. destruct (lstrip_spec (rev s)) as (a & E & B & S). exists (rev a). split; [|split].
  - unfold rstrip. fold (lstrip (rev s)). rewrite <- rev_app_distr, <- E. symmetry. apply rev_involutive.
  - intros c I. apply B. now apply in_rev.
  - intros c t E' I. apply (S c (rev t)); [|exact I]. unfold rstrip in E'. fold (lstrip (rev s)) in E'. apply (f_equal (@rev char)) in E'. rewrite rev_involutive, rev_app_distr in E'. exact E'.
Qed.
Theorem Str_lstrip : forall s, exists a, s = a ++ lstrip s /\ blank_str a /\ starts_well (lstrip s).
Proof. exact lstrip_spec. Qed.
Print Assumptions Str_lstrip.
Theorem Str_rstrip : forall s, exists b, s = rstrip s ++ b /\ blank_str b /\ ends_well (rstrip s).
Proof. exact rstrip_spec. Qed.
Print Assumptions Str_rstrip.
Theorem Str_strip : forall s, exists a b, s = a ++ strip s ++ b /\ blank_str a /\ blank_str b /\ starts_well (strip s) /\ ends_well (strip s).
Proof.
  intros s. destruct (lstrip_spec s) as (a & E & Ba & Sa). destruct (rstrip_spec (lstrip s)) as (b & E' & Bb & Eb). fold (strip s) in E', Eb.
  exists a, b. split; [now rewrite <- E'|]. repeat split; try assumption. intros c t Es. apply (Sa c (t ++ b)). rewrite E', Es. reflexivity.
Qed.
Theorem Str_rstrip_c : forall c s, exists n, s = rstrip_c c s ++ repeat c n /\ forall t, rstrip_c c s <> t ++ [c].
Proof.
  intros c s. unfold rstrip_c. set (r := rev s). assert (Es : s = rev r) by (unfold r; now rewrite rev_involutive). rewrite Es. clear Es. clearbody r. clear s.
  induction r as [|x r (n & E & N)]; [exists 0; split; [reflexivity|intros [|y t]; discriminate]|]. cbn [dropwhile]. destruct (N.eqb_spec c x) as [<-|Ne].
  - exists (n + 1). split; [|exact N]. cbn [rev]. rewrite repeat_app, app_assoc, <- E. reflexivity.
  - exists 0. split; [cbn [repeat]; now rewrite app_nil_r|]. intros t E'. cbn [rev] in E'. apply app_inj_tail in E' as [_ E']. congruence.
Qed.
Print Assumptions Str_rstrip_c.

(** [splitlines] *)
Theorem Str_breaks : forall c, is_linebreak c = true <-> In c breaks.
Proof.
  intros c. unfold is_linebreak. rewrite !orb_true_iff, !andb_true_iff, !N.leb_le, !N.eqb_eq. unfold breaks. cbn [In]. split; [|intuition (subst; lia)].
  intros H. assert (c = 10 \/ c = 11 \/ c = 12 \/ c = 13 \/ c = 28 \/ c = 29 \/ c = 30 \/ c = 133 \/ c = 8232 \/ c = 8233)%N as K by lia. intuition.
Qed.
Print Assumptions Str_breaks.
Lemma line_cons : forall c s, ~ In c breaks -> one_line s -> one_line (c :: s).
Proof. intros c s N H x [<-|I]; [exact N|now apply H]. Qed.
Lemma lines_rev : forall s cur, one_line (rev cur) ->
  lines (rev cur ++ s) (splitlines_aux false cur s) /\ (forall s', s = c_nl :: s' -> splitlines_aux true [] s = splitlines s') /\ ((forall s', s <> c_nl :: s') -> splitlines_aux true [] s = splitlines s).
Proof.
  intros s. assert (T : (forall s', s = c_nl :: s' -> splitlines_aux true [] s = splitlines s') /\ ((forall s', s <> c_nl :: s') -> splitlines_aux true [] s = splitlines s)).
  { split; [intros s' ->; reflexivity|]. intros N. destruct s as [|c s]; [reflexivity|]. cbn [splitlines_aux]. destruct (N.eqb_spec c c_nl) as [->|Ne]; [now destruct (N s)|]. unfold splitlines. reflexivity. }
  intros cur O. split; [|exact T]. clear T. revert cur O. remember (length s) as n eqn:Hn. revert s Hn. induction n as [n IH] using lt_wf_ind. intros s Hn cur O. subst n.
  destruct s as [|c s].
  - rewrite app_nil_r. cbn [splitlines_aux]. destruct cur as [|x cur]; [constructor|]. apply ln_last; [|exact O]. cbn [rev]. destruct (rev cur); discriminate.
  - cbn [splitlines_aux andb]. destruct (is_linebreak c) eqn:B.
    + apply Str_breaks in B. destruct (N.eqb_spec c c_cr) as [->|Ne].
      * destruct s as [|x s]; [apply (ln_more _ [13%N] [] []); [exact O|apply le_cr; discriminate|constructor]|].
        destruct (N.eq_dec x c_nl) as [->|Nx].
        -- cbn [splitlines_aux andb N.eqb Pos.eqb]. apply (ln_more (rev cur) [13%N; 10%N] s); [exact O|constructor|]. apply (IH (length s)) with (cur := []); [cbn; lia|reflexivity|intros y []].
        -- assert (E : splitlines_aux true [] (x :: s) = splitlines_aux false [] (x :: s)) by (cbn [splitlines_aux andb]; apply N.eqb_neq in Nx; now rewrite Nx). rewrite E.
           apply (ln_more (rev cur) [13%N] (x :: s)); [exact O|apply le_cr; intros t [= -> _]; now apply Nx|]. apply (IH (length (x :: s))) with (cur := []); [cbn; lia|reflexivity|intros y []].
      * apply (ln_more (rev cur) [c] s); [exact O|now apply le_other|]. apply (IH (length s)) with (cur := []); [cbn; lia|reflexivity|intros y []].
    + replace (rev cur ++ c :: s) with (rev (c :: cur) ++ s) by (cbn [rev]; now rewrite <- app_assoc). apply (IH (length s)); [cbn; lia|reflexivity|].
      cbn [rev]. intros x I. apply in_app_or in I as [I|[<-|[]]]; [now apply O|]. intros X. apply Str_breaks in X. congruence.
Qed.
Theorem Str_splitlines : forall s, lines s (splitlines s).
Proof. intros s. apply (lines_rev s []). intros c []. Qed.

(** [split], [join] *)
Lemma split_aux : forall c s cur, ~ In c cur -> join [c] (split_c_aux c cur s) = rev cur ++ s /\ Forall (fun p => ~ In c p) (split_c_aux c cur s) /\ split_c_aux c cur s <> [].
Proof.
  intros c s. induction s as [|x s IH]; intros cur N; cbn [split_c_aux].
  - split; [now rewrite app_nil_r|]. split; [|discriminate]. repeat constructor. rewrite <- in_rev. exact N.
  - destruct (N.eqb_spec x c) as [->|Ne].
    + destruct (IH [] (fun f => f)) as (J & F & X). split; [|split; [|discriminate]].
      * cbn [join]. destruct (split_c_aux c [] s) as [|y l] eqn:E; [now destruct X|]. rewrite J. reflexivity.
      * constructor; [rewrite <- in_rev; exact N|exact F].
    + destruct (IH (x :: cur)) as (J & F & X); [intros [E|I]; [congruence|contradiction]|]. split; [|now split]. rewrite J. cbn [rev]. now rewrite <- app_assoc.
Qed.
Theorem Str_split : forall c s, join [c] (split_c c s) = s /\ Forall (fun p => ~ In c p) (split_c c s) /\ split_c c s <> [].
Proof. intros c s. apply (split_aux c s []). intros []. Qed.
Print Assumptions Str_split.
Theorem Str_join : forall sep x l, join sep [] = [] /\ join sep (x :: l) = x ++ concat (map (app sep) l).
Proof.
  intros sep x l. split; [reflexivity|]. revert x. induction l as [|y l IH]; intros x; [cbn; now rewrite app_nil_r|].
  change (join sep (x :: y :: l)) with (x ++ sep ++ join sep (y :: l)). rewrite (IH y). cbn [map concat]. now rewrite <- app_assoc.
Qed.
Print Assumptions Str_join.

(** [lower] (of ASCII letters), ['%d' % n] *)
Theorem Str_lower : forall s n, nth_error (lower s) n = match nth_error s n with
  | Some c => Some (if existsb (N.eqb c) (L "ABCDEFGHIJKLMNOPQRSTUVWXYZ") then (c + 32)%N else c)
  | None => None
  end.
Proof.
  intros s n. unfold lower. rewrite nth_error_map. destruct (nth_error s n) as [c|]; [|reflexivity]. cbn [option_map]. f_equal. unfold lower_c.
  replace (existsb (N.eqb c) (L "ABCDEFGHIJKLMNOPQRSTUVWXYZ")) with ((65 <=? c) && (c <=? 90))%N; [reflexivity|].
  apply Bool.eq_true_iff_eq. rewrite andb_true_iff, !N.leb_le, existsb_exists. split.
  - intros [H1 H2]. exists c. split; [|apply N.eqb_refl].
    assert (c = 65 \/ c = 66 \/ c = 67 \/ c = 68 \/ c = 69 \/ c = 70 \/ c = 71 \/ c = 72 \/ c = 73 \/ c = 74 \/ c = 75 \/ c = 76 \/ c = 77 \/ c = 78 \/ c = 79 \/ c = 80 \/ c = 81 \/ c = 82 \/ c = 83 \/ c = 84 \/ c = 85 \/ c = 86 \/ c = 87 \/ c = 88 \/ c = 89 \/ c = 90)%N as K by lia.
    repeat (destruct K as [->|K]; [cbn; tauto|]). subst c. cbn; tauto.
  - intros (x & I & E). apply N.eqb_eq in E. subst x. cbn in I. intuition (subst; lia).
Qed.
Lemma dec_aux_numeral : forall f n acc, (n < 10 ^ N.of_nat f)%N -> f <> 0 -> exists s, dec_aux f n acc = s ++ acc /\ numeral s n /\ (n <> 0%N -> forall t, s <> 48%N :: t).
Proof.
  induction f as [|f IH]; intros n acc H Nf; [contradiction|]. cbn [dec_aux]. destruct (N.ltb_spec n 10) as [Hn|Hn].
  - exists [(48 + n)%N]. rewrite N.mod_small by exact Hn. split; [reflexivity|]. split; [now constructor|]. intros Nz t E. apply (f_equal (hd 0%N)) in E. cbn [hd] in E. lia.
  - assert (Hd : (n / 10 < 10 ^ N.of_nat f)%N). { apply N.div_lt_upper_bound; [lia|]. rewrite Nat2N.inj_succ, N.pow_succ_r' in H. lia. }
    assert (Hq : (n / 10 <> 0)%N). { intros E. apply N.div_small_iff in E; lia. }
    destruct (IH (n / 10)%N ((48 + n mod 10)%N :: acc) Hd) as (s & E & Nm & Nz).
    { intros ->. cbn in Hd. lia. }
    exists (s ++ [(48 + n mod 10)%N]). rewrite E, <- app_assoc. split; [reflexivity|]. pose proof (N.mod_lt n 10 ltac:(discriminate)) as Hr. split.
    + rewrite (N.div_mod' n 10) at 2. now constructor.
    + intros _ t Et. destruct s as [|c s]; [now inversion Nm; destruct s|]. injection Et as -> _. now apply (Nz Hq s).
Qed.
Theorem Str_decimal : forall n, numeral (dec n) n /\ no_leading_zero (dec n).
Proof.
  intros n. unfold dec. destruct (dec_aux_numeral (S (N.size_nat n)) n [] (size_nat_pow n) ltac:(discriminate)) as (s & E & Nm & Nz). rewrite E, app_nil_r. split; [exact Nm|].
  intros t Et. destruct (N.eq_dec n 0) as [->|Nn]; [|now destruct (Nz Nn t)]. cbn in E. rewrite app_nil_r in E. subst s. now injection Et as <-.
Qed.
Lemma numeral_nonempty : forall s n, numeral s n -> s <> [].
Proof. intros s n H. destruct H; [discriminate|]. now destruct s. Qed.
Theorem Str_decimal_unique : forall s n m, numeral s n -> numeral s m -> n = m.
Proof.
  intros s n m H. revert m. induction H as [d Hd|s n d H IH Hd]; intros m H'.
  - remember [(48 + d)%N] as r eqn:E. destruct H' as [d' Hd'|s' n' d' H1 Hd'].
    + apply (f_equal (hd 0%N)) in E. cbn [hd] in E. lia.
    + apply numeral_nonempty in H1. destruct s' as [|c [|c' s']]; [contradiction|discriminate|discriminate].
  - remember (s ++ [(48 + d)%N]) as r eqn:E. destruct H' as [d' Hd'|s' n' d' H1 Hd'].
    + apply numeral_nonempty in H. destruct s as [|c [|c' s]]; [contradiction|discriminate|discriminate].
    + apply app_inj_tail in E as [-> E]. rewrite (IH _ H1). lia.
Qed.
Print Assumptions Str_decimal_unique.

(** The order of strings, slices *)
Theorem Str_le : forall a b, sleb a b = true <-> str_le a b.
Proof.
  induction a as [|x a IH]; intros b; cbn [sleb].
  - split; [|reflexivity]. intros _. left. now exists b.
  - destruct b as [|y b].
    + split; [discriminate|]. intros [(t & E)|(p & x' & y' & a' & b' & _ & E & _)]; [discriminate E|destruct p; discriminate E].
    + rewrite orb_true_iff, andb_true_iff, N.ltb_lt, N.eqb_eq, IH. split.
      * intros [H|[-> [(t & ->)|(p & x' & y' & a' & b' & -> & -> & H)]]]; [right; now exists [], x, y, a, b|left; now exists t|right; now exists (y :: p), x', y', a', b'].
      * intros [(t & E)|(p & x' & y' & a' & b' & Ea & Eb & H)].
        -- injection E as <- ->. right. split; [reflexivity|]. left. now exists t.
        -- destruct p as [|z p]; [injection Ea as -> ->; injection Eb as -> ->; now left|]. injection Ea as <- ->. injection Eb as -> ->. right. split; [reflexivity|]. right. now exists p, x', y', a', b'.
Qed.
Print Assumptions Str_le.
Theorem Str_slice : forall i j s k, nth_error (slice i j s) k = if k <? j - i then nth_error s (i + k) else None.
Proof.
  intros i j s k. unfold slice. assert (Sk : forall n, nth_error (skipn i s) n = nth_error s (i + n)).
  { clear. revert s. induction i as [|i IH]; intros s n; [reflexivity|]. destruct s as [|c s]; [now destruct n|]. apply IH. }
  rewrite <- Sk. generalize (skipn i s). generalize (j - i). clear. intros n s. revert s k. induction n as [|n IH]; intros s k; [now destruct k|].
  destruct s as [|c s]; [cbn [firstn]; destruct (k <? S n); now destruct k|]. destruct k as [|k]; [reflexivity|]. cbn [firstn nth_error]. rewrite IH. reflexivity.
Qed.
Print Assumptions Str_slice.
Theorem Str_spaces : forall n, length (spaces n) = n /\ forall c, In c (spaces n) -> c = 32%N.
Proof. intros n. split; [apply repeat_length|]. intros c. apply repeat_spec. Qed.
Print Assumptions Str_spaces.

(** Exceptions: the first one wins. *)
Theorem Exceptions_all : forall A (l : list (result A)) xs, rseq l = Ok xs <-> l = map Ok xs.
Proof.
  intros A l. induction l as [|r l IH]; intros xs; cbn [rseq].
  - split; [intros [= <-]; reflexivity|]. destruct xs; [reflexivity|discriminate].
  - destruct r as [a|e]; cbn [rbind]; [|split; [discriminate|destruct xs; discriminate]]. destruct (rseq l) as [ys|e] eqn:E; cbn [rmap].
    + split; [intros [= <-]; cbn [map]; f_equal; now apply IH|]. destruct xs as [|x xs]; [discriminate|]. intros [= -> El]. f_equal. f_equal. apply IH in El. congruence.
    + split; [discriminate|]. destruct xs as [|x xs]; [discriminate|]. intros [= -> El]. apply IH in El. discriminate.
Qed.
Print Assumptions Exceptions_all.
Theorem Exceptions_first : forall A (l : list (result A)) e, rseq l = Raise e <-> exists xs l', l = map Ok xs ++ Raise e :: l'.
Proof.
  intros A l e. induction l as [|r l IH]; cbn [rseq].
  - split; [discriminate|]. intros (xs & l' & E). destruct xs; discriminate.
  - destruct r as [a|e']; cbn [rbind].
    + destruct (rseq l) as [ys|e'] eqn:E; cbn [rmap].
      * split; [discriminate|]. intros (xs & l' & El). destruct xs as [|x xs]; [discriminate|]. injection El as _ El. assert (X : Ok ys = Raise e) by (apply IH; now exists xs, l'). discriminate X.
      * split.
        -- intros [= ->]. destruct (proj1 IH eq_refl) as (xs & l' & ->). now exists (a :: xs), l'.
        -- intros (xs & l' & El). destruct xs as [|x xs]; [discriminate|]. injection El as _ El. assert (X : @Raise (list A) e' = Raise e) by (apply IH; now exists xs, l'). now injection X as ->.
    + split; [intros [= ->]; now exists [], l|]. intros (xs & l' & El). destruct xs as [|x xs]; [|discriminate]. now injection El as -> _.
Qed.
Print Assumptions Str_replace.
Print Assumptions Str_strip.
Print Assumptions Str_splitlines.
Print Assumptions Str_decimal.
Print Assumptions Str_lower.
Print Assumptions Exceptions_first.
(** Something to replace, to strip and to split. *)
Example Str_example : replace (L "aa") (L "b") (L "aaaca") = L "baca" /\ strip (L " a b ") = L "a b" /\
  splitlines (L "a" ++ [13; 10; 10]%N ++ L "b" ++ [13]%N) = [L "a"; []; L "b"] /\ split_c 44 (L "a,,b") = [L "a"; []; L "b"] /\ dec 1907 = L "1907".
Proof. repeat split; vm_compute; reflexivity. Qed.
