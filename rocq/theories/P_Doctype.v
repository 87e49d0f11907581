From Coq Require Import Ascii String List Arith NArith Bool Lia.
From Verif Require Import PyStr PyStrLemmas Regex RegexLemmas M_Doctype S_Doctype.
Import ListNotations.
Open Scope list_scope.

Lemma lang_lit : forall p prev u v, lang (rlit p) prev u v <-> u = p.
Proof.
  induction p as [|x p IH]; intros prev u v; simpl; [tauto|]. split.
  - intros (u1 & u2 & -> & (y & -> & E) & H). apply IH in H. apply N.eqb_eq in E. now subst.
  - intros ->. exists [x], p; repeat split; auto. { exists x; split; auto. apply N.eqb_refl. } now apply IH.
Qed.

Lemma forallb_not_gt : forall b, forallb (fun c => negb (N.eqb c c_gt)) b = true <-> ~ In c_gt b.
Proof.
  intros b. rewrite forallb_forall. split.
  - intros H I. specialize (H _ I). now rewrite N.eqb_refl in H.
  - intros H x I. destruct (N.eqb_spec x c_gt); [subst; contradiction|auto].
Qed.

Lemma lang_dtd : forall prev u v, lang dtd_re prev u v <-> is_doctype u.
Proof.
  intros prev u v. unfold dtd_re, is_doctype. cbn [lang]. split.
  - intros (u1 & u2 & -> & A & b & e & -> & (B & C & _) & x & -> & D). apply lang_lit in A; subst.
    apply N.eqb_eq in D; subst. exists b; repeat split; auto.
    + destruct b; [simpl in C; lia|discriminate].
    + now apply forallb_not_gt.
  - intros (b & -> & N & G). exists (L "<!DOCTYPE"), (b ++ [c_gt]). split; auto. split; [now apply lang_lit|].
    exists b, [c_gt]. split; auto. split; [|exists c_gt; auto]. repeat split; auto.
    + now apply forallb_not_gt.
    + destruct b; [congruence|simpl; lia].
Qed.

Lemma slice_app : forall (a u b : str), slice (length a) (length a + length u) (a ++ u ++ b) = u.
Proof.
  intros a u b. unfold slice. rewrite skipn_app, skipn_all, Nat.sub_diag. simpl.
  replace (length a + length u - length a) with (length u + 0) by lia.
  rewrite firstn_app_2. simpl. now rewrite app_nil_r.
Qed.

Lemma is_doctype_nonempty : forall t, is_doctype t -> t <> [].
Proof. intros t (b & -> & _) E. discriminate. Qed.

Lemma extract_dtd_found : forall s a t b, s = a ++ t ++ b -> is_doctype t ->
  (forall a' t' b', s = a' ++ t' ++ b' -> is_doctype t' -> length a <= length a') ->
  extract_dtd s = (t, length a, a ++ b).
Proof.
  intros s a t b E D F. unfold extract_dtd.
  destruct (search dtd_re s) as [m|] eqn:S.
  - apply search_from_Some in S. destruct S as (a1 & u & b1 & E1 & S1 & S2 & A & F1).
    apply lang_dtd in A. simpl in S1.
    assert (L1 : length a = length a1).
    { apply Nat.le_antisymm; [eapply F; eauto|]. eapply F1; eauto. now apply lang_dtd. }
    rewrite S2, S1, E1, slice_app.
    assert (a1 = a) as ->.
    { rewrite E in E1. apply (f_equal (firstn (length a1))) in E1.
      rewrite <- L1 in E1 at 1. rewrite !firstn_app, !firstn_all, !Nat.sub_diag in E1.
      simpl in E1. now rewrite !app_nil_r in E1. }
    assert (u = t /\ b1 = b) as (-> & ->).
    { rewrite E in E1. apply app_inv_head in E1. destruct D as (x & -> & X1 & X2).
      destruct A as (y & -> & Y1 & Y2). rewrite <- !app_assoc in E1. apply app_inv_head in E1.
      assert (G : forall (x y p q : str), ~ In c_gt x -> ~ In c_gt y -> x ++ [c_gt] ++ p = y ++ [c_gt] ++ q -> x = y /\ p = q).
      { clear. induction x as [|c x IH]; destruct y as [|d y]; simpl; intros p q X Y H; inversion H; subst; auto.
        - exfalso; apply Y; auto.
        - exfalso; apply X; auto.
        - destruct (IH y p q); auto. subst; auto. }
      destruct (G x y b b1 X2 Y2 E1); subst; auto. }
    f_equal. rewrite replace1_at; auto.
    + now apply is_doctype_nonempty.
    + intros a' b' H. eapply F; [|exact D]. rewrite E. exact H.
  - exfalso. eapply search_from_None in S; [|exact E]. apply S. now apply lang_dtd.
Qed.

Lemma extract_dtd_none : forall s, no_doctype s -> extract_dtd s = ([], 0, s).
Proof.
  intros s N. unfold extract_dtd. destruct (search dtd_re s) as [m|] eqn:S; auto.
  apply search_from_Some in S. destruct S as (a & u & b & E & _ & _ & A & _).
  apply lang_dtd in A. exfalso; eapply N; eauto.
Qed.

Lemma doctype_dec : forall s, no_doctype s \/
  exists a t b, s = a ++ t ++ b /\ is_doctype t /\
    (forall a' t' b', s = a' ++ t' ++ b' -> is_doctype t' -> length a <= length a').
Proof.
  intros s. destruct (search dtd_re s) as [m|] eqn:S.
  - right. apply search_from_Some in S. destruct S as (a & u & b & E & _ & _ & A & F).
    exists a, u, b. split; auto. split; [now apply lang_dtd in A|].
    intros a' t' b' E' D. eapply F; eauto. now apply lang_dtd.
  - left. intros a t b E D. eapply search_from_None in S; eauto. apply S. now apply lang_dtd.
Qed.

(** ** Matching known doctypes *)

(** The pattern of a string without special characters. *)
Definition plain_atom (c : char) : atom := if N.eqb c c_sp then (CSpace, true) else (CLit c, false).

(** No space at the end, none next to another one, no other white space. *)
Fixpoint well_spaced (s : str) : bool :=
  match s with
  | [] => true
  | c :: s' => (if N.eqb c c_sp then match s' with d :: _ => negb (is_space d) | [] => false end
                else negb (is_space c)) && well_spaced s'
  end.

Lemma fold_space : forall x, is_space x = true -> fold_c x = x.
Proof.
  intros x H. unfold fold_c, lower_c. unfold is_space in H.
  destruct (x =? 304)%N eqn:A; [apply N.eqb_eq in A; subst; discriminate|].
  destruct (x =? 305)%N eqn:B; [apply N.eqb_eq in B; subst; discriminate|].
  destruct (x =? 383)%N eqn:C; [apply N.eqb_eq in C; subst; discriminate|].
  destruct (x =? 8490)%N eqn:D; [apply N.eqb_eq in D; subst; discriminate|]. simpl.
  destruct ((65 <=? x) && (x <=? 90))%N eqn:E; auto. exfalso.
  apply andb_true_iff in E as (E1 & E2). apply N.leb_le in E1, E2.
  repeat rewrite ?orb_true_iff, ?andb_true_iff, ?N.leb_le, ?N.eqb_eq in H. lia.
Qed.

Lemma fold_nonspace : forall x, is_space x = false -> is_space (fold_c x) = false.
Proof.
  intros x H. unfold fold_c.
  destruct ((x =? 304) || (x =? 305))%N; [reflexivity|].
  destruct (x =? 383)%N; [reflexivity|]. destruct (x =? 8490)%N; [reflexivity|].
  unfold lower_c. destruct ((65 <=? x) && (x <=? 90))%N eqn:E; auto.
  apply andb_true_iff in E as (E1 & E2). apply N.leb_le in E1, E2.
  unfold is_space. apply not_true_iff_false. intros G.
  repeat rewrite ?orb_true_iff, ?andb_true_iff, ?N.leb_le, ?N.eqb_eq in G. lia.
Qed.

Lemma ci_space : forall c x, is_space c = false -> ci c x = true -> is_space x = false.
Proof.
  unfold ci. intros c x H E. apply N.eqb_eq in E. destruct (is_space x) eqn:S; auto.
  apply fold_nonspace in H. rewrite E, (fold_space x S) in H. congruence.
Qed.

Definition normalise_ci (x y : char) : Prop := ci x y = true.

Lemma lang_plain : forall s prev u v, lang (re_of_atoms (map plain_atom s)) prev u v <-> rewritten normalise_ci s u.
Proof.
  induction s as [|c s IH]; intros prev u v; cbn [map re_of_atoms lang].
  - split; [intros ->; constructor|inversion 1; auto].
  - unfold plain_atom at 1. destruct (N.eqb_spec c c_sp).
    + subst. cbn [lang]. split.
      * intros (u1 & u2 & -> & (F & N & _) & H). apply IH in H. simpl in F. constructor; auto.
        destruct u1; [simpl in N; lia|discriminate].
      * inversion 1; subst; [congruence|]. exists run, t; repeat split; auto.
        -- destruct run; [congruence|simpl; lia].
        -- now apply IH.
    + cbn [lang]. split.
      * intros (u1 & u2 & -> & (x & -> & E) & H). apply IH in H. simpl. constructor; auto.
      * inversion 1; subst; [|congruence]. exists [y], t; repeat split; auto.
        -- exists y; auto.
        -- now apply IH.
Qed.

(** Two texts without special spacing that both fit the same text: one is the start of the other. *)
Lemma rewritten_unique : forall s1 u1 v1, rewritten normalise_ci s1 u1 ->
  forall s2 u2 v2, rewritten normalise_ci s2 u2 -> well_spaced s1 = true -> well_spaced s2 = true ->
  u1 ++ v1 = u2 ++ v2 ->
  prefixb (map fold_c s1) (map fold_c s2) = true \/ prefixb (map fold_c s2) (map fold_c s1) = true.
Proof.
  intros s1 u1 v1 H; revert v1.
  induction H as [|x y s t N E H IH|run s t N F H IH]; intros v1 s2 u2 v2 H2 W1 W2 EQ; [auto| |].
  - inversion H2 as [|x' y' s' t' N' E' H' |run s' t' N' F' H']; subst; [auto| |].
    + simpl in EQ. inversion EQ; subst. simpl. cbn [well_spaced] in W1, W2.
      apply andb_true_iff in W1 as (_ & W1), W2 as (_ & W2).
      unfold normalise_ci, ci in E, E'. apply N.eqb_eq in E, E'. rewrite E, E', N.eqb_refl. simpl.
      eapply IH; eauto.
    + exfalso. destruct run as [|z run]; [congruence|]. simpl in EQ; inversion EQ; subst.
      cbn [well_spaced] in W1. apply andb_true_iff in W1 as (W1 & _).
      destruct (N.eqb_spec x c_sp); [congruence|].
      simpl in F'. apply andb_true_iff in F' as (F' & _).
      apply ci_space with (c := x) in E; [congruence|]. now apply negb_true_iff.
  - inversion H2 as [|x' y' s' t' N' E' H' |run' s' t' N' F' H']; subst; [auto| |].
    + exfalso. destruct run as [|z run]; [congruence|]. simpl in EQ; inversion EQ; subst.
      cbn [well_spaced] in W2. apply andb_true_iff in W2 as (W2 & _).
      destruct (N.eqb_spec x' c_sp); [congruence|].
      simpl in F. apply andb_true_iff in F as (F & _).
      apply ci_space with (c := x') in E'; [congruence|]. now apply negb_true_iff.
    + cbn [well_spaced] in W1, W2. change (N.eqb c_sp c_sp) with true in *. cbv iota in W1, W2.
      apply andb_true_iff in W1 as (W1 & W1'), W2 as (W2 & W2').
      assert (S1 : forall s t v, rewritten normalise_ci s t -> match s with d :: _ => negb (is_space d) | [] => false end = true ->
                     dropwhile is_space (t ++ v) = t ++ v).
      { clear. intros s t v H W. destruct H; [discriminate| |discriminate].
        simpl. apply negb_true_iff in W. unfold normalise_ci in H0. apply ci_space in H0; auto. now rewrite H0. }
      assert (EQ' : t ++ v1 = t' ++ v2).
      { rewrite <- !app_assoc in EQ. apply (f_equal (dropwhile is_space)) in EQ.
        rewrite (dropwhile_app_all is_space run), (dropwhile_app_all is_space run') in EQ by auto.
        rewrite (S1 s t v1), (S1 s' t' v2) in EQ; auto. }
      destruct (IH v1 s' t' v2 H' W1' W2' EQ') as [G|G]; [left|right]; simpl; auto.
Qed.

Lemma by_uri_eq : by_uri = public_dtds.
Proof. vm_compute; reflexivity. Qed.

Definition plain_dtd (d : dtd) : Prop :=
  parse_pattern (dtd_pattern d) = Some (map plain_atom (dtd_str d)) /\ well_spaced (dtd_str d) = true.

Lemma public_plain : forall d, In d public_dtds -> d = dtd_xhtml1rdfa \/ plain_dtd d.
Proof.
  intros d H. unfold public_dtds in H.
  repeat (destruct H as [<-|H]; [first [left; reflexivity | right; split; vm_compute; reflexivity]|]).
  destruct H.
Qed.

Lemma dtd_matches_plain : forall d s, plain_dtd d ->
  (dtd_matches s d = true <-> exists t rest, s = t ++ rest /\ rewritten normalise_ci (dtd_str d) t).
Proof.
  intros d s (P & _). unfold dtd_matches, dtd_regex. rewrite P. cbn [option_map]. split.
  - destruct (match_at _ None s) as [(rest, c)|] eqn:E; [|discriminate]. intros _.
    apply match_at_sound in E. destruct E as (u & -> & A). apply lang_plain in A. eauto.
  - intros (t & rest & -> & R). destruct (match_at _ None (t ++ rest)) eqn:E; auto.
    exfalso. revert E. apply match_at_complete. now apply lang_plain.
Qed.

(** The RDFa pattern. *)
Definition rdfa_start : str := L "<!DOCTYPE html PUBLIC ""-//W3C//DTD XHTM".
Definition rdfa_tail : str := L "RDFa 1.0//EN"" ""http://www.w3.org/MarkUp/DTD/xhtml-rdfa-1.dtd"">".
Lemma rdfa_pattern : parse_pattern (dtd_pattern dtd_xhtml1rdfa) =
  Some (map plain_atom rdfa_start ++ (CLit 76%N, true) :: map plain_atom rdfa_tail).
Proof. vm_compute; reflexivity. Qed.

Lemma lang_atoms_app : forall l1 l2 prev u v, lang (re_of_atoms (l1 ++ l2)) prev u v ->
  exists u1 u2, u = u1 ++ u2 /\ lang (re_of_atoms l1) prev u1 (u2 ++ v) /\ lang (re_of_atoms l2) (after prev u1) u2 v.
Proof.
  induction l1 as [|(a, plus) l1 IH]; intros l2 prev u v H; cbn [app re_of_atoms] in *.
  - exists [], u; repeat split; auto.
  - cbn [lang] in H. destruct H as (u1 & u2 & -> & A & B). apply IH in B.
    destruct B as (u3 & u4 & -> & B & C). exists (u1 ++ u3), u4. rewrite app_assoc, after_app.
    repeat split; auto. cbn [lang]. exists u1, u3. rewrite <- !app_assoc in *. auto.
Qed.

Lemma rewritten_app : forall s1 t1 s2 t2, rewritten normalise_ci s1 t1 -> rewritten normalise_ci s2 t2 ->
  rewritten normalise_ci (s1 ++ s2) (t1 ++ t2).
Proof.
  intros s1 t1 s2 t2 H G; induction H; simpl; auto.
  - constructor; auto.
  - rewrite <- app_assoc. constructor; auto.
Qed.

Lemma rdfa_matches : forall s, dtd_matches s dtd_xhtml1rdfa = true ->
  exists t rest x, s = t ++ rest /\ (x = 76%N \/ x = 82%N) /\ rewritten normalise_ci (rdfa_start ++ [76%N; x]) t.
Proof.
  intros s. unfold dtd_matches, dtd_regex. rewrite rdfa_pattern. cbn [option_map].
  destruct (match_at _ None s) as [(rest, c)|] eqn:E; [|discriminate]. intros _.
  apply match_at_sound in E. destruct E as (u & -> & A).
  apply lang_atoms_app in A. destruct A as (u1 & u2 & -> & A & B). apply lang_plain in A.
  cbn [re_of_atoms] in B. cbn [lang] in B. destruct B as (r & w & -> & (F & N & _) & C).
  destruct r as [|y r]; [simpl in N; lia|]. simpl in F. apply andb_true_iff in F as (F1 & F2).
  destruct r as [|z r].
  - change (map plain_atom rdfa_tail) with ((CLit 82%N, false) :: map plain_atom (tl rdfa_tail)) in C.
    cbn [re_of_atoms lang] in C. destruct C as (c1 & c2 & -> & (z & -> & Z) & C).
    exists (u1 ++ [y; z]), (c2 ++ rest), 82%N. rewrite <- !app_assoc. simpl. repeat split; auto.
    apply (rewritten_app rdfa_start u1 [76%N; 82%N] [y; z]); auto. constructor; [discriminate|exact F1|]. constructor; [discriminate|exact Z|constructor].
  - simpl in F2. apply andb_true_iff in F2 as (F2 & F3).
    exists (u1 ++ [y; z]), (r ++ w ++ rest), 76%N. rewrite <- !app_assoc. simpl. repeat split; auto.
    apply (rewritten_app rdfa_start u1 [76%N; 76%N] [y; z]); auto. constructor; [discriminate|exact F1|]. constructor; [discriminate|exact F2|constructor].
Qed.

Definition comparable (a b : str) : bool :=
  prefixb (map fold_c a) (map fold_c b) || prefixb (map fold_c b) (map fold_c a).

Lemma public_distinct : forall d d', In d public_dtds -> In d' public_dtds ->
  d <> dtd_xhtml1rdfa -> d' <> dtd_xhtml1rdfa -> d <> dtd_html5 -> d <> dtd_xhtml5 ->
  comparable (dtd_str d) (dtd_str d') = true -> d = d'.
Proof.
  intros d d' H H' N N' M K. unfold public_dtds in H, H'.
  repeat (destruct H as [<-|H]; [
    try congruence;
    repeat (destruct H' as [<-|H']; [try congruence; try reflexivity; vm_compute; discriminate|]); destruct H'|]).
  destruct H.
Qed.

Lemma public_not_rdfa : forall d x, In d public_dtds -> d <> dtd_xhtml1rdfa -> x = 76%N \/ x = 82%N ->
  comparable (dtd_str d) (rdfa_start ++ [76%N; x]) = false.
Proof.
  intros d x H N X. unfold public_dtds in H.
  repeat (destruct H as [<-|H]; [try congruence; destruct X as [-> | ->]; vm_compute; reflexivity|]). destruct H.
Qed.

Lemma rewritten_comparable : forall s1 u1 v1 s2 u2 v2, rewritten normalise_ci s1 u1 -> rewritten normalise_ci s2 u2 ->
  well_spaced s1 = true -> well_spaced s2 = true -> u1 ++ v1 = u2 ++ v2 -> comparable s1 s2 = true.
Proof.
  intros. unfold comparable. apply orb_true_iff. eapply rewritten_unique; eauto.
Qed.

Lemma find_unique : forall (A : Type) (f : A -> bool) l x, In x l -> f x = true ->
  (forall y, In y l -> f y = true -> y = x) -> List.find f l = Some x.
Proof.
  induction l as [|y l IH]; simpl; intros x I F U; [contradiction|].
  destruct (f y) eqn:E; [f_equal; auto|]. destruct I as [->|I]; [congruence|]. auto.
Qed.

Lemma matching_known : forall d t rest, In d public_dtds -> d <> dtd_xhtml5 -> d <> dtd_xhtml1rdfa ->
  rewritten normalise_ci (dtd_str d) t -> matching (t ++ rest) = Some d.
Proof.
  intros d t rest I N5 NR R.
  destruct (public_plain d I) as [?|P]; [congruence|].
  assert (M : dtd_matches (t ++ rest) d = true) by (apply dtd_matches_plain; eauto).
  unfold matching. rewrite by_uri_eq.
  assert (C : d = dtd_html5 \/ d <> dtd_html5).
  { unfold public_dtds in I. repeat (destruct I as [<-|I]; [first [left; reflexivity | right; discriminate]|]). destruct I. }
  destruct C as [->|C].
  - unfold public_dtds. cbn [List.find]. now rewrite M.
  - apply find_unique; auto. intros d' I' M'.
    destruct P as (P & W).
    destruct (public_plain d' I') as [->|P'].
    + exfalso. apply rdfa_matches in M'. destruct M' as (t' & rest' & x & E & X & R').
      pose proof (public_not_rdfa d x I NR X) as NC.
      erewrite rewritten_comparable in NC; [discriminate|exact R|exact R'|exact W| |exact E].
      destruct X as [-> | ->]; vm_compute; reflexivity.
    + apply dtd_matches_plain in M'; auto. destruct M' as (t' & rest' & E & R').
      destruct P' as (P' & W').
      assert (d' <> dtd_xhtml1rdfa).
      { intros ->. rewrite rdfa_pattern in P'. vm_compute in P'. discriminate. }
      symmetry. apply (public_distinct d d'); auto.
      eapply rewritten_comparable; eauto.
Qed.

Lemma matching_only : forall s d, matching s = Some d -> d <> dtd_xhtml1rdfa ->
  In d public_dtds /\ d <> dtd_xhtml5 /\ exists t rest, s = t ++ rest /\ rewritten normalise_ci (dtd_str d) t.
Proof.
  intros s d H N. unfold matching in H. rewrite by_uri_eq in H.
  pose proof (find_some _ _ H) as (I & M). split; auto.
  destruct (public_plain d I) as [?|P]; [congruence|]. split; [|now apply dtd_matches_plain].
  intros ->. unfold public_dtds in H. cbn [List.find] in H.
  assert (E : dtd_matches s dtd_html5 = true).
  { apply dtd_matches_plain in M; auto. apply dtd_matches_plain; auto. }
  rewrite E in H. discriminate.
Qed.


Lemma lower_ci_gen : forall x y, (x < 128)%N -> (lower_c x = lower_c y -> ci x y = true) /\ (ci x y = true <-> same_letter_re x y).
Proof.
  intros x y X.
  assert (F : fold_c x = lower_c x).
  { unfold fold_c. assert (G : (x =? 304)%N = false /\ (x =? 305)%N = false /\ (x =? 383)%N = false /\ (x =? 8490)%N = false).
    { repeat split; apply N.eqb_neq; lia. } destruct G as (-> & -> & -> & ->). reflexivity. }
  assert (B : (lower_c x < 128)%N). { unfold lower_c. destruct ((65 <=? x) && (x <=? 90))%N eqn:E; auto. apply andb_true_iff in E as (E1 & E2). apply N.leb_le in E1, E2. lia. }
  assert (Y : forall k, (128 <= k)%N -> lower_c k = k).
  { intros k K. unfold lower_c. destruct ((65 <=? k) && (k <=? 90))%N eqn:E; auto. apply andb_true_iff in E as (E1 & E2). apply N.leb_le in E1, E2. lia. }
  unfold ci, same_letter_re. rewrite F. unfold fold_c.
  pose proof (Y 304%N ltac:(lia)). pose proof (Y 305%N ltac:(lia)).
  pose proof (Y 383%N ltac:(lia)). pose proof (Y 8490%N ltac:(lia)).
  destruct (N.eqb_spec y 304), (N.eqb_spec y 305), (N.eqb_spec y 383), (N.eqb_spec y 8490); subst; try lia;
    cbn [orb]; rewrite ?N.eqb_eq; lia.
Qed.
