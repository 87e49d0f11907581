From Coq Require Import Ascii String List Arith NArith Bool Lia.
From Verif Require Import PyStr M_Iter S_Iter.
Import ListNotations.
Open Scope list_scope.

Lemma nth_update_same : forall A (l : list A) i x d, i < length l -> nth i (update i x l) d = x.
Proof. induction l; destruct i; simpl; intros; try lia; auto. apply IHl; lia. Qed.

Lemma update_app_length : forall A (l : list A) x y, update (length l) y (l ++ [x]) = l ++ [y].
Proof. induction l; simpl; intros; auto. f_equal; auto. Qed.

Lemma nth_app_length : forall A (l : list A) x d, nth (length l) (l ++ [x]) d = x.
Proof. intros; rewrite app_nth2, Nat.sub_diag; auto. Qed.

(** Once run to exhaustion, an iterator is empty and a further use yields
    nothing and changes nothing. *)
Lemma drain_exhausts : forall f h i out h', drain f h i = Ok (out, h') -> nth i h' [] = [].
Proof.
  induction f as [|f IH]; simpl; intros h i out h' H; [discriminate|].
  destruct (next h i) as [[[|s|j] h1]|] eqn:N.
  - eauto.
  - destruct (drain f h1 i) as [[o h2]|] eqn:D; [|discriminate]. simpl in H; inversion H; subst. eauto.
  - destruct (drain f h1 j) as [[o h2]|] eqn:D; [|discriminate]. simpl in H.
    destruct (drain f h2 i) as [[o2 h3]|] eqn:D2; [|discriminate]. simpl in H; inversion H; subst. eauto.
  - inversion H; subst. unfold next in N. destruct (nth i h' []); [auto|discriminate].
Qed.

Lemma drain_empty : forall f h i, nth i h [] = [] -> drain (S f) h i = Ok ([], h).
Proof. intros; simpl; unfold next; rewrite H; auto. Qed.

Lemma print_times_empty : forall f n h i, nth i h [] = [] ->
  print_times (S f) n h i = Ok (repeat [] n).
Proof.
  induction n; intros; auto. cbn [print_times].
  rewrite drain_empty by auto. simpl. rewrite IHn; auto.
Qed.

Lemma print_literal : forall f n h text,
  let (h1, v) := literal h text in
  forall i, v = IRef i ->
  print_times (S (S f)) (S n) h1 i = Ok ([text] :: repeat [] n).
Proof.
  intros f n h text. unfold literal. intros i E; inversion E; subst.
  cbn [print_times].
  assert (D : drain (S (S f)) (h ++ [[IStr text]]) (length h) = Ok ([text], h ++ [[]])).
  { cbn [drain]. unfold next. rewrite nth_app_length, update_app_length.
    rewrite nth_app_length. reflexivity. }
  rewrite D. cbn [rbind fst snd]. rewrite print_times_empty by apply nth_app_length. reflexivity.
Qed.

Lemma drain_twice : forall f g h i out h',
  drain f h i = Ok (out, h') -> drain (S g) h' i = Ok ([], h').
Proof. intros; apply drain_empty; eapply drain_exhausts; eauto. Qed.

Lemma nth_update_other : forall A (l : list A) i j x d, i <> j -> nth j (update i x l) d = nth j l d.
Proof. induction l as [|y l IH]; intros [|i] [|j] x d N; cbn [update nth]; try reflexivity; try congruence. apply IH. congruence. Qed.
Lemma nth_item : forall (h : heap) i x l, nth i h [] = x :: l -> i < length h.
Proof. intros h i x l E. destruct (Nat.lt_ge_cases i (length h)) as [H|H]; [exact H|]. rewrite nth_overflow in E by exact H. discriminate E. Qed.

Lemma drain_unfolds : forall h l out used, unfolds h l out used -> forall h2 i, nth i h2 [] = l -> NoDup (i :: used) ->
  (forall a, In a used -> nth a h2 [] = nth a h []) ->
  exists f h', (forall f', f <= f' -> drain f' h2 i = Ok (out, h')) /\ (forall a, In a (i :: used) -> nth a h' [] = []) /\
    (forall a, ~ In a (i :: used) -> nth a h' [] = nth a h2 []).
Proof.
  intros h l out used U. induction U as [|l o u U IH|s l o u U IH|j l o1 u1 o2 u2 U1 IH1 U2 IH2]; intros h2 i E ND A.
  - exists 1, h2. split; [|split].
    + intros [|f] Hf; [lia|]. cbn [drain]. unfold next. now rewrite E.
    + intros a [<-|[]]. exact E.
    + reflexivity.
  - pose proof (nth_item _ _ _ _ E) as Li. destruct (IH (update i l h2) i) as (f & h' & D & Z & O); [now apply nth_update_same|exact ND| |].
    { intros a Ha. rewrite nth_update_other; [now apply A|]. intros <-. apply NoDup_cons_iff in ND as [N _]. now apply N. }
    exists (S f), h'. split; [|split; [exact Z|]].
    + intros [|f'] Hf; [lia|]. cbn [drain]. unfold next. rewrite E. apply D. lia.
    + intros a Ha. rewrite O by exact Ha. apply nth_update_other. intros <-. apply Ha. now left.
  - pose proof (nth_item _ _ _ _ E) as Li. destruct (IH (update i l h2) i) as (f & h' & D & Z & O); [now apply nth_update_same|exact ND| |].
    { intros a Ha. rewrite nth_update_other; [now apply A|]. intros <-. apply NoDup_cons_iff in ND as [N _]. now apply N. }
    exists (S f), h'. split; [|split; [exact Z|]].
    + intros [|f'] Hf; [lia|]. cbn [drain]. unfold next. rewrite E, D by lia. reflexivity.
    + intros a Ha. rewrite O by exact Ha. apply nth_update_other. intros <-. apply Ha. now left.
  - pose proof (nth_item _ _ _ _ E) as Li. apply NoDup_cons_iff in ND as [N ND]. apply NoDup_cons_iff in ND as [Nj ND].
    assert (Nij : i <> j) by (intros ->; apply N; now left).
    assert (D1 : NoDup (j :: u1)). { constructor; [intros X; apply Nj; apply in_or_app; now left|]. clear - ND. induction u1 as [|a u1 IH]; [constructor|]. cbn in ND. apply NoDup_cons_iff in ND as [H1 H2]. constructor; [intros X; apply H1; apply in_or_app; now left|now apply IH]. }
    assert (D2 : NoDup (i :: u2)). { constructor; [intros X; apply N; right; apply in_or_app; now right|]. clear - ND. induction u1 as [|a u1 IH]; [exact ND|]. cbn in ND. apply NoDup_cons_iff in ND as [_ H2]. now apply IH. }
    assert (D3 : forall a, In a u2 -> ~ In a (j :: u1)).
    { intros a Ha [<-|Hb]; [apply Nj; apply in_or_app; now right|]. clear - ND Ha Hb. induction u1 as [|b u1 IH]; [exact Hb|]. cbn in ND. apply NoDup_cons_iff in ND as [H1 H2].
      destruct Hb as [->|Hb]; [apply H1; apply in_or_app; now right|now apply IH]. }
    destruct (IH1 (update i l h2) j) as (f1 & h1 & E1 & Z1 & O1).
    { rewrite nth_update_other by exact Nij. apply A. now left. }
    { exact D1. }
    { intros a Ha. rewrite nth_update_other; [apply A; right; apply in_or_app; now left|]. intros <-. apply N. right. apply in_or_app. now left. }
    assert (Ni1 : ~ In i (j :: u1)) by (intros [X|X]; [now apply Nij|apply N; right; apply in_or_app; now left]).
    destruct (IH2 h1 i) as (f2 & h' & E2 & Z2 & O2).
    { rewrite O1 by exact Ni1. now apply nth_update_same. }
    { exact D2. }
    { intros a Ha. rewrite O1 by (now apply D3). rewrite nth_update_other; [apply A; right; apply in_or_app; now right|]. intros <-. apply NoDup_cons_iff in D2 as [X _]. now apply X. }
    exists (S (f1 + f2)), h'. split; [|split].
    + intros [|f'] Hf; [lia|]. cbn [drain]. unfold next. rewrite E, E1 by lia. cbn [rbind fst snd]. rewrite E2 by lia. reflexivity.
    + assert (X : forall a, In a (j :: u1) -> nth a h' [] = []).
      { intros a Ha. rewrite O2; [now apply Z1|]. intros [<-|Hb]; [now apply Ni1|now apply (D3 a)]. }
      intros a [<-|[<-|Ha]]; [apply Z2; now left|apply X; now left|]. apply in_app_or in Ha as [Ha|Ha]; [apply X; now right|apply Z2; now right].
    + intros a Ha. rewrite O2, O1; [apply nth_update_other| |].
      * intros <-. apply Ha. now left.
      * intros [<-|X]; apply Ha; right; [now left|right; apply in_or_app; now left].
      * intros [<-|X]; apply Ha; [now left|right; right; apply in_or_app; now right].
Qed.
