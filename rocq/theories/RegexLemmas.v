From Coq Require Import Ascii String List Arith NArith Bool Lia.
From Verif Require Import PyStr PyStrLemmas Regex.
Import ListNotations.
Open Scope list_scope.

(** Character before the position reached after consuming [u]. *)
Definition after (prev : option N) (u : str) : option N :=
  fold_left (fun _ x => Some x) u prev.

Lemma after_app : forall u v p, after p (u ++ v) = after (after p u) v.
Proof. intros; unfold after; now rewrite fold_left_app. Qed.

Definition at_bol (prev : option N) : Prop := prev = None \/ prev = Some c_nl.

(** Declarative reading: [r] can match [u] after [prev] when [v] follows. *)
Fixpoint lang (r : re) (prev : option N) (u v : str) : Prop :=
  match r with
  | REmp => u = []
  | RChr p => exists x, u = [x] /\ p x = true
  | RSeq a b => exists u1 u2, u = u1 ++ u2 /\ lang a prev u1 (u2 ++ v) /\ lang b (after prev u1) u2 v
  | RAlt a b => lang a prev u v \/ lang b prev u v
  | RRep lo hi p => forallb p u = true /\ lo <= length u /\
                    match hi with None => True | Some n => length u <= n end
  | RGrp _ a => lang a prev u v
  | RBol => u = [] /\ at_bol prev
  | RNot a => u = [] /\ forall u' v', v = u' ++ v' -> ~ lang a prev u' v'
  end.

Lemma rep_sound : forall p s prev c k lo hi x, rep_from p prev s c k lo hi = Some x ->
  exists u v, s = u ++ v /\ forallb p u = true /\ lo <= length u /\
    match hi with None => True | Some n => length u <= n end /\ k (after prev u) v c = Some x.
Proof.
  induction s as [|y s IH]; intros prev c k lo hi x H.
  - assert (G : lo = 0 /\ k prev [] c = Some x).
    { simpl in H. destruct hi as [[|]|], lo; try discriminate; auto. }
    destruct G as (-> & G). exists [], []; repeat split; auto. destruct hi; simpl; auto; lia.
  - assert (G : forall (stop : option rest_caps), stop = match lo with O => k prev (y :: s) c | S _ => None end ->
       stop = Some x -> exists u v, y :: s = u ++ v /\ forallb p u = true /\ lo <= length u /\
         match hi with None => True | Some n => length u <= n end /\ k (after prev u) v c = Some x).
    { intros stop -> E. destruct lo; [|discriminate]. exists [], (y :: s); repeat split; auto.
      destruct hi; simpl; auto; lia. }
    cbn [rep_from] in H.
    assert (C : hi = Some 0 \/ (hi <> Some 0)) by (destruct hi as [[|]|]; auto; right; discriminate).
    destruct C as [->|C]; [eapply G; eauto|].
    assert (H' : (if p y then match rep_from p (Some y) s c k (pred lo) (option_map pred hi) with
                  | Some r => Some r | None => match lo with O => k prev (y :: s) c | S _ => None end end
                  else match lo with O => k prev (y :: s) c | S _ => None end) = Some x).
    { destruct hi as [[|]|]; auto; congruence. }
    clear H. destruct (p y) eqn:P; [|eapply G; eauto].
    destruct (rep_from p (Some y) s c k (pred lo) (option_map pred hi)) eqn:R.
    + inversion H'; subst. apply IH in R. destruct R as (u & v & -> & F & Lo & Hi & K).
      exists (y :: u), v; repeat split; auto.
      * simpl; now rewrite P.
      * simpl; lia.
      * destruct hi as [[|]|]; simpl in *; auto; lia || congruence.
    + eapply G; eauto.
Qed.

Lemma rep_complete : forall p u prev v c k lo hi, forallb p u = true -> lo <= length u ->
  match hi with None => True | Some n => length u <= n end ->
  k (after prev u) v c <> None -> rep_from p prev (u ++ v) c k lo hi <> None.
Proof.
  induction u as [|y u IH]; intros prev v c k lo hi F Lo Hi K.
  - simpl in Lo. assert (lo = 0) by lia; subst. simpl app. destruct v as [|y v].
    + simpl. destruct hi as [[|]|]; auto.
    + cbn [rep_from]. destruct hi as [[|]|]; auto; destruct (p y); auto;
        match goal with |- context [match ?r with _ => _ end] => destruct r end; auto; discriminate.
  - simpl in F. apply andb_true_iff in F as (P & F). simpl app. cbn [rep_from].
    destruct hi as [[|n]|]; [simpl in Hi; lia| |]; rewrite P.
    + destruct (rep_from p (Some y) (u ++ v) c k (pred lo) (option_map pred (Some (S n)))) eqn:E; [discriminate|].
      exfalso. revert E. apply IH; auto; simpl in *; lia.
    + destruct (rep_from p (Some y) (u ++ v) c k (pred lo) (option_map pred None)) eqn:E; [discriminate|].
      exfalso. revert E. apply IH; auto; simpl in *; lia.
Qed.

(** ** Soundness and completeness of the matcher *)

Lemma rmatch_lang : forall r,
  (forall prev s c k x, rmatch r prev s c k = Some x ->
     exists u v c', s = u ++ v /\ lang r prev u v /\ k (after prev u) v c' = Some x) /\
  (forall prev u v c k, lang r prev u v -> (forall c', k (after prev u) v c' <> None) ->
     rmatch r prev (u ++ v) c k <> None).
Proof.
  induction r as [|p|a (Sa & Ca) b (Sb & Cb)|a (Sa & Ca) b (Sb & Cb)|lo hi p|g a (Sa & Ca)| |a (Sa & Ca)]; split.
  - intros prev s c k x H. exists [], s, c; repeat split; auto.
  - intros prev u v c k -> K. apply (K c).
  - intros prev [|y s] c k x H; simpl in H; [discriminate|]. destruct (p y) eqn:P; [|discriminate].
    exists [y], s, c; repeat split; auto. exists y; auto.
  - intros prev u v c k (x & -> & P) K. simpl. rewrite P. apply (K c).
  - intros prev s c k x H. simpl in H. apply Sa in H. destruct H as (u1 & w & c1 & -> & L1 & H).
    apply Sb in H. destruct H as (u2 & v & c2 & -> & L2 & H).
    exists (u1 ++ u2), v, c2. rewrite <- app_assoc, after_app. repeat split; auto.
    exists u1, u2; auto.
  - intros prev u v c k (u1 & u2 & -> & L1 & L2) K. simpl. rewrite <- app_assoc. apply Ca; auto.
    intros c'. apply Cb; auto. intros c2. rewrite <- after_app. apply K.
  - intros prev s c k x H. simpl in H. destruct (rmatch a prev s c k) eqn:E.
    + inversion H; subst. apply Sa in E. destruct E as (u & v & c' & ? & ? & ?). exists u, v, c'; simpl; auto.
    + apply Sb in H. destruct H as (u & v & c' & ? & ? & ?). exists u, v, c'; simpl; auto.
  - intros prev u v c k [H|H] K; simpl.
    + pose proof (Ca _ _ _ c k H K). destruct (rmatch a prev (u ++ v) c k); [discriminate|congruence].
    + destruct (rmatch a prev (u ++ v) c k); [discriminate|]. apply Cb; auto.
  - intros prev s c k x H. simpl in H. apply rep_sound in H.
    destruct H as (u & v & ? & ? & ? & ? & ?). exists u, v, c; simpl; auto.
  - intros prev u v c k (F & Lo & Hi) K. simpl. apply rep_complete; auto.
  - intros prev s c k x H. simpl in H. apply Sa in H.
    destruct H as (u & v & c' & ? & ? & ?). eexists u, v, _; simpl; eauto.
  - intros prev u v c k H K. simpl. apply Ca; auto.
  - intros prev s c k x H. simpl in H. exists [], s, c. simpl. unfold at_bol.
    destruct prev as [y|]; [destruct (N.eqb_spec y c_nl); [subst; auto|discriminate]|auto].
  - intros prev u v c k (-> & B) K. simpl. destruct B as [-> | ->]; apply (K c).
  - intros prev s c k x H. simpl in H. destruct (rmatch a prev s c _) eqn:E; [discriminate|].
    exists [], s, c; repeat split; auto. intros u' v' -> A. revert E. apply Ca; auto. discriminate.
  - intros prev u v c k (-> & N) K. simpl. destruct (rmatch a prev v c _) eqn:E; [|apply (K c)].
    exfalso. apply Sa in E. destruct E as (u' & v' & c' & -> & A & _). exact (N u' v' eq_refl A).
Qed.

Lemma match_at_sound : forall r prev s rest c, match_at r prev s = Some (rest, c) ->
  exists u, s = u ++ rest /\ lang r prev u rest.
Proof.
  intros r prev s rest c H. apply (proj1 (rmatch_lang r)) in H.
  destruct H as (u & v & c' & -> & A & E). inversion E; subst. eauto.
Qed.

Lemma match_at_complete : forall r prev u v, lang r prev u v -> match_at r prev (u ++ v) <> None.
Proof. intros r prev u v H. apply (proj2 (rmatch_lang r)); auto. discriminate. Qed.

Lemma match_at_none : forall r prev s, match_at r prev s = None <-> forall u v, s = u ++ v -> ~ lang r prev u v.
Proof.
  intros r prev s; split.
  - intros H u v -> A. exact (match_at_complete _ _ _ _ A H).
  - intros H. destruct (match_at r prev s) as [(rest, c)|] eqn:E; auto.
    apply match_at_sound in E. destruct E as (u & -> & A). exfalso; eapply H; eauto.
Qed.

(** ** Deterministic cases *)

(** A literal. *)
Lemma rmatch_lit : forall p prev s c k,
  rmatch (rlit p) prev s c k =
  if prefixb p s then k (after prev p) (skipn (length p) s) c else None.
Proof.
  induction p as [|x p IH]; intros prev s c k; simpl; auto.
  destruct s as [|y s]; auto. destruct (x =? y)%N eqn:E; auto.
  simpl. apply N.eqb_eq in E; subst. apply IH.
Qed.

(** An unbounded repetition takes the longest run if what follows then succeeds. *)
Lemma rep_greedy : forall p s prev c k lo x,
  lo <= length (takewhile p s) ->
  k (after prev (takewhile p s)) (dropwhile p s) c = Some x ->
  rep_from p prev s c k lo None = Some x.
Proof.
  induction s as [|y s IH]; intros prev c k lo x Lo K.
  - simpl in *. assert (lo = 0) by lia; subst. auto.
  - cbn [takewhile dropwhile] in *. cbn [rep_from]. destruct (p y) eqn:P.
    + cbn [option_map]. rewrite (IH (Some y) c k (pred lo) x); auto. simpl in Lo; lia.
    + simpl in Lo. assert (lo = 0) by lia; subst. auto.
Qed.

(** If what follows fails in front of any character of the class, only the longest run
    can be taken. *)
Lemma rep_det : forall p s prev c k lo,
  (forall q y t, p y = true -> k q (y :: t) c = None) ->
  rep_from p prev s c k lo None =
  if lo <=? length (takewhile p s) then k (after prev (takewhile p s)) (dropwhile p s) c else None.
Proof.
  induction s as [|y s IH]; intros prev c k lo F.
  - simpl. destruct lo; reflexivity.
  - cbn [takewhile dropwhile rep_from option_map]. destruct (p y) eqn:P.
    + rewrite IH by auto. destruct lo as [|lo]; cbn [pred length].
      * simpl. rewrite F by auto. destruct (k _ _ c); reflexivity.
      * cbn [Nat.leb]. destruct (lo <=? _); auto. destruct (k _ _ c); reflexivity.
    + simpl. destruct lo; auto.
Qed.

(** ** Search *)

Lemma search_from_Some : forall r s pos prev m, search_from r pos prev s = Some m ->
  exists a u b, s = a ++ u ++ b /\ mstart m = pos + length a /\ mend m = mstart m + length u /\
    lang r (after prev a) u b /\
    (forall a' u' b', s = a' ++ u' ++ b' -> lang r (after prev a') u' b' -> length a <= length a').
Proof.
  induction s as [|x s IH]; intros pos prev m H; cbn [search_from] in H.
  - destruct (match_at r prev []) as [(rest, c)|] eqn:E; [|discriminate].
    inversion H; subst. apply match_at_sound in E. destruct E as (u & E & A).
    destruct u; [|discriminate]. destruct rest; [|discriminate].
    exists [], [], []; simpl; repeat split; auto; lia.
  - destruct (match_at r prev (x :: s)) as [(rest, c)|] eqn:E.
    + assert (HM : MObj pos (pos + (length (x :: s) - length rest)) c = m) by congruence.
      clear H; subst m. apply match_at_sound in E. destruct E as (u & E & A).
      assert (length (x :: s) = length (u ++ rest)) as H0 by now rewrite E. rewrite app_length in H0.
      exists [], u, rest; cbn [mstart mend]; repeat split; auto; try (simpl length; lia).
      rewrite H0; lia.
    + apply IH in H. destruct H as (a & u & b & -> & S & N & A & F).
      exists (x :: a), u, b; repeat split; auto; try (simpl; lia).
      intros a' u' b' E' A'. destruct a' as [|y a'].
      * exfalso. simpl in E'. rewrite match_at_none in E. eapply (E u' b'); auto.
      * simpl in E'. inversion E'; subst. simpl. apply le_n_S. eapply F; eauto.
Qed.

Lemma search_from_None : forall r s pos prev, search_from r pos prev s = None ->
  forall a u b, s = a ++ u ++ b -> ~ lang r (after prev a) u b.
Proof.
  induction s as [|x s IH]; intros pos prev H a u b E A; cbn [search_from] in H.
  - destruct (match_at r prev []) eqn:M; [destruct r0; discriminate|].
    rewrite match_at_none in M. destruct a; [|discriminate]. apply (M u b); auto.
  - destruct (match_at r prev (x :: s)) as [(rest, c)|] eqn:M; [discriminate|].
    destruct a as [|y a].
    + rewrite match_at_none in M. apply (M u b); auto.
    + simpl in E; inversion E; subst. eapply IH; eauto.
Qed.

(** A bounded repetition takes a run that cannot be made longer, if what follows succeeds. *)
Lemma rep_greedy_bounded : forall p w v prev c k lo n x,
  forallb p w = true -> lo <= length w -> length w <= n ->
  (length w = n \/ match v with [] => True | y :: _ => p y = false end) ->
  k (after prev w) v c = Some x ->
  rep_from p prev (w ++ v) c k lo (Some n) = Some x.
Proof.
  intros p w. induction w as [|y w IH]; intros v prev c k lo n x F Lo Hi M K.
  - cbn [length] in *. assert (lo = 0) by lia. subst lo. cbn [app]. destruct v as [|y v].
    + cbn [rep_from]. destruct n; exact K.
    + cbn [rep_from]. destruct n; [exact K|]. destruct M as [M|M]; [discriminate|]. rewrite M. exact K.
  - cbn [forallb] in F. apply andb_true_iff in F as (P & F). cbn [length] in *. cbn [app rep_from].
    destruct n as [|n]; [lia|]. rewrite P. cbn [option_map pred].
    rewrite (IH v (Some y) c k (pred lo) n x); auto; try lia.
    destruct M as [M|M]; [left; lia | right; exact M].
Qed.

(** ** Patterns without [^] do not look back *)

Fixpoint no_bol (r : re) : bool :=
  match r with
  | RBol => false
  | RSeq a b | RAlt a b => no_bol a && no_bol b
  | RGrp _ a | RNot a => no_bol a
  | _ => true
  end.

Lemma rep_no_bol : forall p s c k k' lo hi prev prev',
  (forall q q' t d, k q t d = k' q' t d) ->
  rep_from p prev s c k lo hi = rep_from p prev' s c k' lo hi.
Proof.
  intros p s. induction s as [|y s IH]; intros c k k' lo hi prev prev' K.
  - cbn [rep_from]. destruct hi as [[|]|], lo; auto.
  - cbn [rep_from]. rewrite (IH c k k' (pred lo) (option_map pred hi) (Some y) (Some y) K).
    rewrite (K prev prev'). reflexivity.
Qed.

Lemma rmatch_no_bol : forall r, no_bol r = true -> forall prev prev' s c k k',
  (forall q q' t d, k q t d = k' q' t d) -> rmatch r prev s c k = rmatch r prev' s c k'.
Proof.
  induction r as [|p|a IHa b IHb|a IHa b IHb|lo hi p|g a IHa| |a IHa]; intros NB prev prev' s c k k' K;
    cbn [no_bol] in NB; cbn [rmatch]; try discriminate.
  - apply K.
  - destruct s as [|y s]; [reflexivity|]. destruct (p y); [apply K | reflexivity].
  - apply andb_true_iff in NB as [A B]. apply IHa; [assumption|]. intros. apply IHb; assumption.
  - apply andb_true_iff in NB as [A B]. rewrite (IHa A prev prev' s c k k' K).
    rewrite (IHb B prev prev' s c k k' K). reflexivity.
  - now apply rep_no_bol.
  - apply IHa; [assumption|]. intros. apply K.
  - rewrite (IHa NB prev prev' s c _ (fun _ s' c' => Some (s', c'))) by reflexivity.
    destruct (rmatch a prev' s c (fun _ s' c' => Some (s', c'))); [reflexivity | apply K].
Qed.

Lemma match_at_no_bol : forall r prev prev' s, no_bol r = true -> match_at r prev s = match_at r prev' s.
Proof. intros. apply rmatch_no_bol; auto. Qed.

(** ** Substitution *)

Lemma sub_from_skip : forall r f u v prev, sub_from r f prev (length u) (u ++ v) = sub_from r f (after prev u) 0 v.
Proof.
  intros r f u. induction u as [|y u IH]; intros v prev; [reflexivity|].
  cbn [length app sub_from]. apply IH.
Qed.

Lemma sub_from_no_bol : forall r f s skip prev prev', no_bol r = true ->
  sub_from r f prev skip s = sub_from r f prev' skip s.
Proof.
  intros r f s. destruct s as [|y s]; intros skip prev prev' NB; [reflexivity|].
  cbn [sub_from]. destruct skip; [|reflexivity]. now rewrite (match_at_no_bol r prev prev' (y :: s) NB).
Qed.

(** The first character does not start a match. *)
Lemma sub_pass : forall r f y s prev, no_bol r = true -> match_at r None (y :: s) = None ->
  sub_from r f prev 0 (y :: s) = rmap (cons y) (sub_from r f None 0 s).
Proof.
  intros r f y s prev NB M. cbn [sub_from]. rewrite (match_at_no_bol r prev None) by assumption.
  rewrite M. now rewrite (sub_from_no_bol r f s 0 (Some y) None).
Qed.

(** A match at the start. *)
Lemma sub_hit : forall r f u v c prev, no_bol r = true -> u <> [] -> match_at r None (u ++ v) = Some (v, c) ->
  sub_from r f prev 0 (u ++ v) = rbind (f c) (fun t => rmap (app t) (sub_from r f None 0 v)).
Proof.
  intros r f u v c prev NB N M. destruct u as [|y u]; [contradiction|]. cbn [app] in *. cbn [sub_from].
  rewrite (match_at_no_bol r prev None) by assumption. rewrite M.
  replace (length (y :: u ++ v) - length v - 1) with (length u) by (cbn [length]; rewrite app_length; lia).
  rewrite sub_from_skip. destruct (f c); [|reflexivity]. cbn [rbind].
  now rewrite (sub_from_no_bol r f v 0 (after (Some y) u) None).
Qed.
