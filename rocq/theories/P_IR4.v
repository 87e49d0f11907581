(** * Proofs about node construction: variable lists, Python blocks, second generation *)

From Coq Require Import Ascii String List NArith ZArith Bool Lia Arith.
From Verif Require Import PyStr PyStrLemmas Regex RegexLemmas M_IR S_IR P_IR.
Import ListNotations.
Open Scope list_scope.

(** ** Variable lists *)

Lemma white_forallb : forall s, white s -> forallb is_space s = true.
Proof. intros s H. apply forallb_forall. now apply Forall_forall. Qed.


Lemma space_not_semi_eq : forall c, is_space c = true -> not_semi_eq c = true.
Proof.
  intros c H. unfold not_semi_eq. destruct (N.eqb_spec c c_semi) as [->|]; [discriminate|].
  destruct (N.eqb_spec c c_eq) as [->|]; [discriminate|]. reflexivity.
Qed.

Lemma match_item : forall prev sep a x, ok_assignment a ->
  (sep = [] /\ prev = None) \/ sep = [c_semi] ->
  match x with c :: _ => c <> c_eq | [] => True end ->
  match_at assignment_pattern prev (sep ++ a_pre a ++ a_name a ++ a_post a ++ c_eq :: x) =
  Some (x, [(1, a_name a ++ a_post a)]).
Proof.
  intros prev sep [pre name post expr] x (W1 & W2 & NE & NS & NQ & F1 & F2 & _) S X.
  cbn [a_pre a_name a_post a_expr] in *. unfold match_at, assignment_pattern.
  set (k0 := fun (_ : option char) (s' : str) (c : caps) => Some (s', c)).
  assert (TAIL : forall prev' c, rep_from is_space prev' (pre ++ name ++ post ++ c_eq :: x) c
    (fun prev' s' c' => rmatch (RSeq (RGrp 1 (RRep 1 None not_semi_eq)) (RSeq (RChr (N.eqb c_eq)) (RNot (RChr (N.eqb c_eq)))))
       prev' s' c' k0) 0 None = Some (x, (1, name ++ post) :: c)).
  { intros prev' c.
    assert (TW : takewhile is_space (pre ++ name ++ post ++ c_eq :: x) = pre /\
                 dropwhile is_space (pre ++ name ++ post ++ c_eq :: x) = name ++ post ++ c_eq :: x).
    { rewrite takewhile_app_all, dropwhile_app_all by (now apply white_forallb).
      destruct name as [|n0 name]; [contradiction|]. cbn [app takewhile dropwhile]. rewrite F1. now rewrite app_nil_r. }
    destruct TW as [TW DW]. apply rep_greedy; [lia|]. rewrite TW, DW.
    cbn [rmatch]. 
    assert (AL : forallb not_semi_eq (name ++ post) = true).
    { rewrite forallb_app. apply andb_true_iff. split.
      - apply forallb_forall. intros y Hy. unfold not_semi_eq. destruct (N.eqb_spec y c_semi) as [->|]; [contradiction|].
        destruct (N.eqb_spec y c_eq) as [->|]; [contradiction|]. reflexivity.
      - apply forallb_forall. intros y Hy. apply space_not_semi_eq. unfold white in W2. rewrite Forall_forall in W2. auto. }
    assert (TW2 : takewhile not_semi_eq (name ++ post ++ c_eq :: x) = name ++ post /\
                  dropwhile not_semi_eq (name ++ post ++ c_eq :: x) = c_eq :: x).
    { rewrite app_assoc, takewhile_app_all, dropwhile_app_all by assumption.
      cbn [takewhile dropwhile]. change (not_semi_eq c_eq) with false. now rewrite app_nil_r. }
    destruct TW2 as [TW2 DW2]. apply rep_greedy.
    - rewrite TW2. destruct name; [contradiction|]. cbn [app length]. lia.
    - rewrite DW2. change (N.eqb c_eq c_eq) with true. cbv iota.
      replace (firstn (length (name ++ post ++ c_eq :: x) - length (c_eq :: x)) (name ++ post ++ c_eq :: x)) with (name ++ post).
      + destruct x as [|y x]; [reflexivity|]. destruct (N.eqb_spec c_eq y) as [<-|]; [contradiction|]. reflexivity.
      + rewrite app_assoc, (app_length (name ++ post)). replace (length (name ++ post) + length (c_eq :: x) - length (c_eq :: x)) with (length (name ++ post)) by lia.
        rewrite firstn_app, firstn_all, Nat.sub_diag. cbn [firstn]. now rewrite app_nil_r. }
  destruct S as [[-> ->]| ->].
  - cbn [app]. specialize (TAIL None []). cbn [rmatch] in TAIL |- *. unfold k0 in *. now rewrite TAIL.
  - cbn [app].
    assert (B : rmatch RBol prev (c_semi :: pre ++ name ++ post ++ c_eq :: x) []
      (fun prev' s' c' => rmatch (RSeq (RRep 0 None is_space) (RSeq (RGrp 1 (RRep 1 None not_semi_eq)) (RSeq (RChr (N.eqb c_eq)) (RNot (RChr (N.eqb c_eq))))))
       prev' s' c' k0) = None).
    { cbn [rmatch]. destruct prev as [y|]; [|reflexivity]. destruct (N.eqb y c_nl); reflexivity. }
    cbn [rmatch] in B |- *. rewrite B. change (N.eqb c_semi c_semi) with true. cbv iota.
    specialize (TAIL (Some c_semi) []). cbn [rmatch] in TAIL. unfold k0 in *. now rewrite TAIL.
Qed.

(** No match without an equals sign to the right. *)
Lemma match_no_eq : forall prev s, ~ In c_eq s -> match_at assignment_pattern prev s = None.
Proof.
  intros prev s H. apply match_at_none. intros u v -> A. apply H. clear H.
  unfold assignment_pattern in A. cbn [lang] in A.
  repeat match goal with
  | A : exists _, _ |- _ => destruct A
  | A : _ /\ _ |- _ => destruct A
  end. subst.
  repeat (rewrite in_app_iff). 
  match goal with H : (c_eq =? ?y)%N = true |- _ => apply N.eqb_eq in H; subst end.
  cbn [In]. tauto.
Qed.

Lemma finditer_skip : forall r u v pos prev,
  finditer_from r pos prev (length u) (u ++ v) = finditer_from r (pos + length u) (after prev u) 0 v.
Proof.
  intros r u. induction u as [|y u IH]; intros v pos prev.
  - cbn [length app]. now rewrite Nat.add_0_r.
  - cbn [length app finditer_from]. rewrite IH. now rewrite <- Nat.add_succ_comm.
Qed.

Lemma finditer_hit : forall r u v c pos prev, u <> [] -> match_at r prev (u ++ v) = Some (v, c) ->
  finditer_from r pos prev 0 (u ++ v) = MObj pos (pos + length u) c :: finditer_from r (pos + length u) (after prev u) 0 v.
Proof.
  intros r u v c pos prev NE M. destruct u as [|y u]; [contradiction|]. cbn [app] in *. cbn [finditer_from].
  rewrite M. cbn [length]. rewrite app_length.
  replace (S (length u + length v) - length v) with (S (length u)) by lia. f_equal.
  replace (S (length u) - 1) with (length u) by lia. rewrite finditer_skip. now rewrite <- Nat.add_succ_comm.
Qed.

Lemma no_match_expr : forall y c s, c <> c_nl -> y <> c_semi ->
  match_at assignment_pattern (Some c) (y :: s) = None.
Proof.
  intros y c s H1 H2. unfold match_at, assignment_pattern. cbn [rmatch].
  destruct (N.eqb_spec c c_nl); [contradiction|]. destruct (N.eqb_spec c_semi y) as [E|]; [|reflexivity]. now subst.
Qed.

Lemma finditer_expr : forall e v pos c, ~ In c_semi e -> ~ In c_nl e -> c <> c_nl ->
  finditer_from assignment_pattern pos (Some c) 0 (e ++ v) =
  finditer_from assignment_pattern (pos + length e) (after (Some c) e) 0 v.
Proof.
  induction e as [|y e IH]; intros v pos c H1 H2 H3.
  - cbn [app length]. now rewrite Nat.add_0_r.
  - cbn [app finditer_from]. rewrite no_match_expr; auto.
    + rewrite IH.
      * cbn [length]. now rewrite <- Nat.add_succ_comm.
      * intros F. apply H1. now right.
      * intros F. apply H2. now right.
      * intros ->. apply H2. now left.
    + intros ->. apply H1. now left.
Qed.

Lemma finditer_no_eq : forall s pos prev, ~ In c_eq s -> finditer_from assignment_pattern pos prev 0 s = [].
Proof.
  induction s as [|y s IH]; intros pos prev H.
  - cbn [finditer_from]. rewrite match_no_eq; auto.
  - cbn [finditer_from]. rewrite match_no_eq by assumption. apply IH. intros F. apply H. now right.
Qed.

Lemma strip_name : forall a, ok_assignment a -> strip (a_name a ++ a_post a) = a_name a.
Proof.
  intros [pre name post expr] (W1 & W2 & NE & NS & NQ & F1 & F2 & _). cbn [a_pre a_name a_post a_expr] in *.
  unfold strip, rstrip, lstrip. destruct name as [|n0 name]; [contradiction|].
  cbn [app dropwhile]. rewrite F1. change (n0 :: name ++ post) with ((n0 :: name) ++ post).
  rewrite rev_app_distr, dropwhile_app_all.
  - destruct (rev (n0 :: name)) as [|y r] eqn:E.
    + apply (f_equal (@rev N)) in E. rewrite rev_involutive in E. discriminate.
    + cbn [dropwhile]. rewrite F2. rewrite <- E, rev_involutive. reflexivity.
  - apply forallb_forall. intros y Hy. apply in_rev in Hy. unfold white in W2. rewrite Forall_forall in W2. auto.
Qed.

Definition good_tail (tail : str) : Prop := tail = [] \/ exists w, tail = c_semi :: w /\ white w.

Lemma good_tail_eq : forall tail, good_tail tail -> ~ In c_eq tail.
Proof.
  intros tail [->|(w & -> & W)] H; [destruct H|]. destruct H as [H|H]; [discriminate|].
  unfold white in W. rewrite Forall_forall in W. specialize (W _ H). discriminate.
Qed.


(** What follows the equals sign of an item. *)
Definition rest_of (l : list assignment) (tail : str) : str :=
  match l with [] => tail | _ => c_semi :: join [c_semi] (map written l) ++ tail end.

Lemma written_split : forall a x, written a ++ x = a_pre a ++ a_name a ++ a_post a ++ c_eq :: a_expr a ++ x.
Proof. intros. unfold written. rewrite <- !app_assoc. reflexivity. Qed.

Lemma join_rest : forall a l tail, join [c_semi] (map written (a :: l)) ++ tail = written a ++ rest_of l tail.
Proof.
  intros a l tail. destruct l as [|b l]; [reflexivity|]. cbn [map join rest_of].
  rewrite <- app_assoc. reflexivity.
Qed.

Lemma slice_mid : forall a b c, slice (length a) (length a + length b) (a ++ b ++ c) = b.
Proof.
  intros. unfold slice. replace (length a + length b - length a) with (length b) by lia.
  rewrite skipn_app, skipn_all, Nat.sub_diag. cbn [skipn app]. rewrite firstn_app, firstn_all, Nat.sub_diag. cbn [firstn]. apply app_nil_r.
Qed.

Lemma assignments_items : forall l a tail sep prev before,
  Forall ok_assignment (a :: l) -> good_tail tail -> (sep = [] /\ prev = None) \/ sep = [c_semi] ->
  let vars := before ++ sep ++ written a ++ rest_of l tail in
  exists m ms, finditer_from assignment_pattern (length before) prev 0 (sep ++ written a ++ rest_of l tail) = m :: ms /\
    mstart m = length before /\
    assignments_from vars (m :: ms) = assigned (a :: l) tail.
Proof.
  induction l as [|b l IH]; intros a tail sep prev before F T S vars; inversion F as [|? ? Oa Fl]; subst.
  - (* last item *)
    cbn [rest_of] in *. set (u := sep ++ a_pre a ++ a_name a ++ a_post a ++ [c_eq]).
    assert (Eu : sep ++ written a ++ tail = u ++ a_expr a ++ tail).
    { unfold u. rewrite written_split, <- !app_assoc. reflexivity. }
    pose proof Oa as (_ & _ & _ & _ & _ & _ & _ & ES & EN & EQ).
    assert (M : match_at assignment_pattern prev (u ++ a_expr a ++ tail) = Some (a_expr a ++ tail, [(1, a_name a ++ a_post a)])).
    { rewrite <- Eu, written_split. apply match_item; auto.
      destruct (a_expr a) as [|y e]; [|exact EQ]. cbn [app]. destruct T as [->|(w & -> & W)]; [exact I | discriminate]. }
    assert (NE : u <> []) by (unfold u; intros X; apply (f_equal (@length N)) in X; rewrite !app_length in X; cbn [length] in X; lia).
    pose proof (finditer_hit _ _ _ _ (length before) prev NE M) as H. rewrite <- Eu in H.
    assert (AP : exists y, after prev u = Some y /\ y = c_eq).
    { exists c_eq. split; [|reflexivity]. unfold u. rewrite !app_assoc, after_app. reflexivity. }
    destruct AP as (y & AP & ->). rewrite AP in H.
    rewrite finditer_expr in H by (auto; discriminate).
    rewrite (finditer_no_eq tail) in H by (now apply good_tail_eq).
    eexists _, _. split; [exact H|]. split; [reflexivity|].
    cbn [assignments_from assigned]. f_equal. f_equal.
    + unfold group. cbn. now apply strip_name.
    + cbn [mend]. unfold vars. rewrite Eu.
      etransitivity; [|exact (slice_mid (before ++ u) (a_expr a ++ tail) [])]. rewrite app_nil_r, <- app_assoc. f_equal.
      * now rewrite app_length.
      * rewrite !app_length. lia.
  - (* another item follows *)
    inversion Fl as [|? ? Ob Fl']; subst.
    set (u := sep ++ a_pre a ++ a_name a ++ a_post a ++ [c_eq]).
    assert (R : rest_of (b :: l) tail = [c_semi] ++ written b ++ rest_of l tail).
    { cbn [rest_of]. rewrite join_rest. reflexivity. }
    assert (Eu : sep ++ written a ++ rest_of (b :: l) tail = u ++ a_expr a ++ rest_of (b :: l) tail).
    { unfold u. rewrite written_split, <- !app_assoc. reflexivity. }
    pose proof Oa as (_ & _ & _ & _ & _ & _ & _ & ES & EN & EQ).
    assert (M : match_at assignment_pattern prev (u ++ a_expr a ++ rest_of (b :: l) tail) =
      Some (a_expr a ++ rest_of (b :: l) tail, [(1, a_name a ++ a_post a)])).
    { rewrite <- Eu, written_split. apply match_item; auto.
      destruct (a_expr a) as [|y e]; [|exact EQ]. rewrite R. discriminate. }
    assert (NE : u <> []) by (unfold u; intros X; apply (f_equal (@length N)) in X; rewrite !app_length in X; cbn [length] in X; lia).
    pose proof (finditer_hit _ _ _ _ (length before) prev NE M) as H. rewrite <- Eu in H.
    assert (AP : exists y, after prev u = Some y /\ y = c_eq).
    { exists c_eq. split; [|reflexivity]. unfold u. rewrite !app_assoc, after_app. reflexivity. }
    destruct AP as (y & AP & ->). rewrite AP in H.
    rewrite finditer_expr in H by (auto; discriminate).
    destruct (IH b tail [c_semi] (after (Some c_eq) (a_expr a)) (before ++ u ++ a_expr a) Fl T (or_intror eq_refl)) as (m & ms & Hm & Hs & Ha).
    rewrite R in H at 2. rewrite !app_length in Hm. rewrite Nat.add_assoc in Hm. rewrite Hm in H.
    eexists _, _. split; [exact H|]. split; [reflexivity|].
    assert (V : vars = (before ++ u ++ a_expr a) ++ [c_semi] ++ written b ++ rest_of l tail).
    { unfold vars. rewrite Eu, R, <- !app_assoc. reflexivity. }
    change (assigned (a :: b :: l) tail) with ((a_name a, a_expr a) :: assigned (b :: l) tail).
    rewrite <- Ha, <- V.
    set (ms' := m :: ms) in *. cbn [assignments_from]. unfold ms' at 1. cbv iota. f_equal. f_equal.
    + unfold group. cbn. now apply strip_name.
    + cbn [mend]. rewrite Hs, V.
      etransitivity; [|exact (slice_mid (before ++ u) (a_expr a) ([c_semi] ++ written b ++ rest_of l tail))].
      rewrite <- !app_assoc. f_equal; rewrite !app_length; lia.
Qed.

Lemma with_vars_items : forall l tail, l <> [] -> Forall ok_assignment l -> good_tail tail ->
  with_vars (join [c_semi] (map written l) ++ tail) = Ok (assigned l tail).
Proof.
  intros [|a l] tail NE F T; [contradiction|]. rewrite join_rest.
  destruct (assignments_items l a tail [] None [] F T (or_introl (conj eq_refl eq_refl))) as (m & ms & H & _ & A).
  cbn [app length] in H, A. unfold with_vars, finditer. rewrite H. now rewrite A.
Qed.

Lemma with_vars_none : forall s, ~ In c_eq s -> with_vars s = Raise "AttributeError".
Proof. intros s H. unfold with_vars, finditer. now rewrite finditer_no_eq. Qed.


(** ** Python blocks *)

Lemma margin_prefix : forall m line, margin_of m line -> firstn (length line - length (lstrip line)) line = m.
Proof.
  intros m line (W & rest & -> & R). unfold lstrip. rewrite dropwhile_app_all by (now apply white_forallb).
  assert (D : dropwhile is_space rest = rest) by (destruct rest as [|c rest]; [reflexivity | cbn [dropwhile]; now rewrite R]).
  rewrite D, app_length. replace (length m + length rest - length rest) with (length m) by lia.
  rewrite firstn_app, firstn_all, Nat.sub_diag. cbn [firstn]. apply app_nil_r.
Qed.

Lemma margin_exists : forall line, exists m, margin_of m line.
Proof.
  intros line. exists (takewhile is_space line). split.
  - apply Forall_forall. apply forallb_forall. apply takewhile_all.
  - exists (dropwhile is_space line). split; [now rewrite takewhile_dropwhile|].
    destruct (dropwhile is_space line) eqn:E; [exact I|]. now apply dropwhile_head in E.
Qed.

Lemma strip_prefix_some : forall p lines,
  (forall out, strip_prefix (Some p) lines = Ok out <-> lines = map (app p) out) /\
  (strip_prefix (Some p) lines = Raise "AssertionError" <-> Exists (fun l => ~ exists t, l = p ++ t) lines) /\
  ((exists out, strip_prefix (Some p) lines = Ok out) \/ strip_prefix (Some p) lines = Raise "AssertionError").
Proof.
  intros p lines. induction lines as [|l lines (IH1 & IH2 & IH3)].
  - cbn [strip_prefix]. split; [|split].
    + intros out. split; intros H; [injection H as <-; reflexivity|]. destruct out; [reflexivity | discriminate].
    + split; intros H; [discriminate | inversion H].
    + left. eauto.
  - cbn [strip_prefix]. destruct (prefixb p l) eqn:E.
    + pose proof (prefixb_skipn _ _ E) as El. split; [|split].
      * intros out. destruct (strip_prefix (Some p) lines) as [o|e] eqn:S; cbn [rmap].
        -- split; intros H.
           ++ injection H as <-. cbn [map]. f_equal; [exact El|]. now apply IH1.
           ++ destruct out as [|x out]; [discriminate|]. cbn [map] in H. injection H as Hl Hr.
              f_equal. f_equal.
              ** rewrite Hl, skipn_app, skipn_all, Nat.sub_diag. reflexivity.
              ** apply IH1 in Hr. congruence.
        -- split; intros H; [discriminate|]. destruct out as [|x out]; [discriminate|]. cbn [map] in H.
           injection H as Hl Hr. apply IH1 in Hr. discriminate.
      * split; intros H.
        -- apply Exists_cons_tl. apply IH2. destruct (strip_prefix (Some p) lines); [discriminate | exact H].
        -- inversion H as [? ? N0|? ? N0]; subst; [exfalso; apply N0; eauto|]. apply IH2 in N0. now rewrite N0.
      * destruct IH3 as [[out ->]| ->]; cbn [rmap]; eauto.
    + assert (NP : ~ exists t, l = p ++ t) by (intros H; apply prefixb_spec in H; congruence).
      split; [|split].
      * intros out. split; intros H; [discriminate|]. destruct out as [|x out]; [discriminate|].
        cbn [map] in H. injection H as Hl Hr. exfalso. eauto.
      * split; intros _; [now apply Exists_cons_hd | reflexivity].
      * now right.
Qed.

Lemma strip_prefix_margin : forall m l lines, margin_of m l ->
  strip_prefix None (l :: lines) = strip_prefix (Some m) (l :: lines).
Proof. intros m l lines M. cbn [strip_prefix]. now rewrite (margin_prefix _ _ M). Qed.
