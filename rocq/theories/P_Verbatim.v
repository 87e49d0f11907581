(** * Proofs: markup in its plainest form (C77) *)

From Coq Require Import Ascii String List NArith ZArith Bool Permutation Sorted Lia.
From Verif Require Import PyStr PyStrLemmas M_Values S_Values M_Dom S_Entities S_XDoc S_Markup S_Static S_Verbatim P_Static.
From Verif Require Import M_Doctype S_Doctype P_Doctype.
Import ListNotations.
Open Scope list_scope.

Lemma plain_same : forall t u, plain_text t u -> ~ In c_dollar t -> u = t.
Proof.
  intros t u P. induction P as [|c t u N P IH|t u P IH|t u R P IH]; intros H; [reflexivity| | |].
  - f_equal. apply IH. intros I. apply H. now right.
  - exfalso. apply H. now left.
  - exfalso. apply H. now left.
Qed.

(** ** What is said *)
Lemma parsed_nil : forall l es, parsed l es -> (l = [] <-> es = []).
Proof.
  intros l es H. destruct H as [| |pieces l es Np H|]; [tauto|split; discriminate| |split; discriminate].
  split; [discriminate|]. intros E. apply app_eq_nil in E as [E _]. destruct pieces; [contradiction|discriminate].
Qed.
Lemma parsed_not_text : forall l es, parsed l es -> not_text l -> no_text_first es.
Proof. intros l es H. destruct H; intros N; try exact Logic.I. destruct N. Qed.
Lemma sorted_attrs : forall a : list (str * str), Forall (fun kv => static_attr false kv (fst kv, Some (snd kv))) a ->
  Forall2 (static_attr false) a (map (fun kv => (fst kv, Some (snd kv))) a).
Proof. intros a F. induction F as [|kv a H F IH]; constructor; assumption. Qed.

Lemma canonical_says : forall autoblocks scripts l, canonical autoblocks scripts l -> forall es, parsed l es ->
  exists is, document_says autoblocks scripts false false true es is (flat_map text_of l).
Proof.
  intros ab sc l C. induction C as [|tag a cs l St Nd Ss Fa Nc C1 IH1 C2 IH2|t l Nt N13 P Nx C IH|t l N13 P Nh Nd C IH]; intros es H.
  - inversion H. exists []. constructor.
  - inversion H as [|ln ln' tag' a' cs' inner l' es' H1 H2| |]; subst. destruct (IH1 _ H1) as (is1 & D1). destruct (IH2 _ H2) as (is2 & D2). eexists.
    cbn [flat_map text_of]. rewrite (is_nil_iff _ _ cs inner) by now apply parsed_nil. eapply (ds_elem _ _ _ _ _ _ _ _ _ a); try eassumption; [reflexivity|now apply sorted_attrs|].
    intros N. specialize (Nc N). subst cs. now inversion H1.
  - inversion H as [| |pieces l' es' Np H2|]; subst. destruct (IH _ H2) as (is & D). eexists. cbn [flat_map text_of].
    apply (ds_text _ _ _ _ _ (chars pieces) (map snd pieces) (concat (map snd pieces))); [now destruct pieces| |eapply parsed_not_text; eassumption|split; assumption|exact D].
    clear. induction pieces as [|[ln t] pieces IH]; constructor; [constructor|exact IH].
  - inversion H as [| | |ln ln' pieces l' es' H2]; subst. destruct (IH _ H2) as (is & D). eexists. cbn [flat_map text_of]. rewrite <- !app_assoc.
    apply (ds_cdata _ _ _ _ _ ln ln' pieces (concat (map snd pieces))); [reflexivity|split; assumption|exact Nh|exact D].
Qed.

(** ** No doctype *)
Definition d : str := L "<!DOCTYPE".
(** No doctype begins in [s], also not at its end. *)
Definition ends_in (p s : str) : Prop := exists a, s = a ++ p.
Definition clean (s : str) : Prop := ~ has d s /\ forall p q, d = p ++ q -> p <> [] -> q <> [] -> ~ ends_in p s.
Lemma has_nil : ~ has d [].
Proof. intros (a & b & E). destruct a; discriminate E. Qed.
Lemma split_app : forall (x y a b : str), x ++ y = a ++ b -> (exists z, x = a ++ z /\ b = z ++ y) \/ (exists z, a = x ++ z /\ y = z ++ b).
Proof.
  induction x as [|c x IH]; intros y a b E; [right; now exists a|]. destruct a as [|c' a]; [left; exists (c :: x); split; [reflexivity|now symmetry]|].
  cbn [app] in E. injection E as -> E. destruct (IH y a b E) as [(z & -> & ->)|(z & -> & ->)]; [left|right]; now exists z.
Qed.
Lemma clean_app : forall x y, clean x -> clean y -> clean (x ++ y).
Proof.
  intros x y [Hx Ex] [Hy Ey]. split.
  - intros (a & b & E). destruct (split_app _ _ _ _ E) as [(z & -> & E1)|(z & -> & ->)]; [|apply Hy; now exists z, b].
    destruct (split_app _ _ _ _ E1) as [(w & E2 & ->)|(w & -> & ->)]; [|apply Hx; now exists a, w].
    destruct z as [|c z]; [apply Hy; exists [], b; cbn in E1 |- *; symmetry; exact E1|]. destruct w as [|c' w].
    { apply Hx. exists a, []. rewrite app_nil_r in E2. now rewrite E2, app_nil_r. }
    apply (Ex (c :: z) (c' :: w) E2); [discriminate|discriminate|]. now exists a.
  - intros p q E Np Nq (a & Ea). destruct (split_app _ _ _ _ Ea) as [(z & -> & Ep)|(z & -> & ->)]; [|apply (Ey p q E Np Nq); now exists z].
    destruct y as [|c y]; [rewrite app_nil_r in Ep; subst z; apply (Ex p q E Np Nq); now exists a|]. destruct z as [|c' z]; [cbn in Ep; subst p; apply (Ey (c :: y) q E Np Nq); now exists []|].
    subst p. apply (Ex (c' :: z) ((c :: y) ++ q)); [now rewrite E, <- app_assoc|discriminate|discriminate|]. now exists a.
Qed.
Lemma prefix_lt : forall p q, d = p ++ q -> p <> [] -> exists p', p = c_lt :: p'.
Proof. intros [|c p] q E N; [contradiction|]. injection E as <- _. now exists p. Qed.
Lemma clean_no_lt : forall s, ~ In c_lt s -> clean s.
Proof.
  intros s N. split.
  - intros (a & b & ->). apply N. apply in_or_app. right. now left.
  - intros p q E Np Nq (a & ->). destruct (prefix_lt p q E Np) as (p' & ->). apply N. apply in_or_app. right. now left.
Qed.
Lemma clean_nil : clean [].
Proof. apply clean_no_lt. intros []. Qed.
(** A [<] before something else. *)
Lemma clean_lt : forall c s, c <> 33%N -> ~ In c_lt (c :: s) -> clean (c_lt :: c :: s).
Proof.
  intros c s N33 N. split.
  - intros (a & b & E). destruct a as [|x a]; [injection E as E1 _; congruence|]. injection E as _ E. apply N. rewrite E. apply in_or_app. right. now left.
  - intros p q E Np Nq (a & Ea). destruct (prefix_lt p q E Np) as (p' & ->). destruct a as [|x a]; [|injection Ea as _ Ea; apply N; rewrite Ea; apply in_or_app; right; now left].
    injection Ea as <-. injection E as E1 _. congruence.
Qed.
Lemma value_no_lt : forall v, ~ In c_lt (value_text v).
Proof.
  intros v I. apply in_flat_map in I as (c & _ & I). destruct (N.eqb c c_amp); [vm_compute in I; intuition discriminate|]. destruct (N.eqb_spec c c_lt) as [|Ne]; [vm_compute in I; intuition discriminate|].
  destruct (N.eqb c c_gt); [vm_compute in I; intuition discriminate|]. destruct (N.eqb c c_dq); [vm_compute in I; intuition discriminate|]. destruct I as [E|[]]. now apply Ne.
Qed.
Lemma xml_no_lt : forall v, ~ In c_lt (xml_text v).
Proof.
  intros v I. apply in_flat_map in I as (c & _ & I). destruct (N.eqb c c_amp); [vm_compute in I; intuition discriminate|]. destruct (N.eqb_spec c c_lt) as [|Ne]; [vm_compute in I; intuition discriminate|].
  destruct (N.eqb c c_gt); [vm_compute in I; intuition discriminate|]. destruct I as [E|[]]. now apply Ne.
Qed.
Lemma name_no_lt : forall k, legal_name k -> ~ In c_lt k.
Proof. intros k [_ H] I. rewrite forallb_forall in H. apply H in I. discriminate I. Qed.
Ltac no_lt := let X := fresh in intros X; vm_compute in X; intuition discriminate.
Lemma attrs_no_lt : forall a : list (str * str), Forall (fun kv => static_attr false kv (fst kv, Some (snd kv))) a -> ~ In c_lt (attrs_text (map (fun kv => (fst kv, Some (snd kv))) a)).
Proof.
  intros a F. induction F as [|[k v] a H F IH]; [intros []|]. unfold attrs_text in *. cbn [map concat]. rewrite in_app_iff. intros [I|I]; [|now apply IH]. unfold attr_text in I. cbn [fst snd] in *.
  assert (legal_name k) as Lk. { inversion H; assumption. }
  rewrite !in_app_iff in I. destruct I as [I|[I|[I|[I|I]]]]; [revert I; no_lt|now apply (name_no_lt k Lk)|revert I; no_lt|now apply (value_no_lt v)|revert I; no_lt].
Qed.
Lemma clean_elem : forall tag a (empty : bool) body, legal_name tag -> prefixb (L "!") tag = false -> Forall (fun kv => static_attr false kv (fst kv, Some (snd kv))) a -> clean body ->
  clean (element_text false tag (map (fun kv => (fst kv, Some (snd kv))) a) empty body).
Proof.
  intros tag a empty body Lt Nb Fa B. unfold element_text.
  assert (H : clean (L "<" ++ tag)).
  { destruct tag as [|c tag]; [now destruct Lt|]. apply (clean_lt c tag); [|now apply name_no_lt]. intros ->. discriminate Nb. }
  assert (Z : clean (L "</" ++ tag ++ L ">")).
  { apply (clean_lt 47 (tag ++ L ">")); [discriminate|]. intros [I|I]; [discriminate I|]. apply in_app_or in I as [I|I]; [now apply (name_no_lt tag)|revert I; no_lt]. }
  rewrite app_assoc. apply clean_app; [exact H|]. apply clean_app; [apply clean_no_lt; now apply attrs_no_lt|].
  destruct (empty && false && voidb tag); [apply clean_no_lt; no_lt|]. destruct (empty && negb false && negb (seqb tag (L "script"))); [apply clean_no_lt; no_lt|].
  apply clean_app; [apply clean_no_lt; no_lt|]. now apply clean_app.
Qed.
Lemma last_not : forall s c, ~ In c d -> forall p q, d = p ++ q -> p <> [] -> ~ ends_in p (s ++ [c]).
Proof.
  intros s c N p q E Np (a & Ea). apply N. rewrite E. apply in_or_app. left. destruct (exists_last Np) as (p' & x & ->).
  rewrite app_assoc in Ea. apply app_inj_tail in Ea as [_ ->]. apply in_or_app. right. now left.
Qed.
Lemma clean_cdata : forall t, ~ has d t -> clean (L "<![CDATA[" ++ t ++ L "]]>").
Proof.
  intros t N. split.
  - intros (a & b & E). destruct (split_app _ _ _ _ E) as [(z & E1 & E2)|(z & -> & E2)].
    + assert (Q : forall k, k <= 9 -> a = firstn k (L "<![CDATA[") -> z = skipn k (L "<![CDATA[") -> False).
      { intros k Hk Ha Hz. subst a z. do 10 (destruct k as [|k]; [cbn in E2; try discriminate E2; try (injection E2; discriminate)|]);
          try (now (cbn in E2; apply N; destruct (split_app _ _ _ _ (eq_sym E2)) as [(w & X & _)|(w & X & _)]; discriminate X)).
        - destruct (split_app t (L "]]>") d b (eq_sym E2)) as [(w & -> & _)|(w & E3 & E4)]; [apply N; now exists [], w|].
          destruct w as [|x w]; [apply N; exists [], []; now rewrite E3, !app_nil_r|]. assert (In 93%N d) as X; [rewrite E3; apply in_or_app; right; injection E4 as <- _; now left|]. vm_compute in X. intuition discriminate.
        - lia. }
      apply (Q (length a)).
      * apply (f_equal (@length char)) in E1. rewrite app_length in E1. change (length (L "<![CDATA[")) with 9 in E1. lia.
      * rewrite E1, firstn_app, firstn_all, Nat.sub_diag. cbn [firstn]. now rewrite app_nil_r.
      * rewrite E1, skipn_app, skipn_all, Nat.sub_diag. reflexivity.
    + destruct (split_app t (L "]]>") z (d ++ b) E2) as [(w & -> & E3)|(w & -> & E3)].
      * destruct (split_app w (L "]]>") d b (eq_sym E3)) as [(v & -> & _)|(v & E4 & E5)]; [apply N; now exists z, v|].
        destruct v as [|x v]; [apply N; exists z, []; rewrite app_nil_r in E4; now rewrite E4, app_nil_r|]. assert (In 93%N d) as X; [rewrite E4; apply in_or_app; right; injection E5 as <- _; now left|]. vm_compute in X. intuition discriminate.
      * assert (In c_lt (L "]]>")) as X; [rewrite E3; apply in_or_app; right; now left|]. vm_compute in X. intuition discriminate.
  - intros p q E Np Nq H. apply (last_not (L "<![CDATA[" ++ t ++ L "]]") c_gt) with (p := p) (q := q); [no_lt|exact E|exact Np|]. rewrite <- !app_assoc. exact H.
Qed.
Lemma canonical_clean : forall autoblocks scripts l, canonical autoblocks scripts l -> clean (flat_map text_of l).
Proof.
  intros ab sc l C. induction C as [|tag a cs l St Nd Ss Fa Nc C1 IH1 C2 IH2|t l Nt N13 P Nx C IH|t l N13 P Nh Nd C IH]; cbn [flat_map text_of]; [apply clean_nil| | |]; (apply clean_app; [|assumption]).
  - destruct St as (Lt & Nb & _). now apply clean_elem.
  - apply clean_no_lt, xml_no_lt.
  - now apply clean_cdata.
Qed.
Lemma clean_no_doctype : forall s, clean s -> no_doctype s.
Proof. intros s [H _] a t b E (body & Et & _). apply H. exists a, (body ++ [c_gt] ++ b). rewrite E, Et, <- !app_assoc. reflexivity. Qed.

(** ** The rendering of a document is in this form *)
Lemma attrs_back : forall a shown, Forall2 (static_attr false) a shown -> Forall (fun kv => ~ In c_dollar (snd kv)) a -> shown = map (fun kv => (fst kv, Some (snd kv))) a.
Proof.
  intros a shown F. induction F as [|kv kv' a shown H F IH]; intros T; [reflexivity|]. apply Forall_cons_iff in T as [T1 T2]. cbn [map]. rewrite <- (IH T2). f_equal.
  inversion H as [k v w L1 L2 L3 P|k v w L1 Hh]; subst; [|discriminate]. cbn [fst snd] in *. now rewrite (plain_same v w P T1).
Qed.
Lemma attrs_static : forall a shown, Forall2 (static_attr false) a shown -> shown = map (fun kv => (fst kv, Some (snd kv))) a -> Forall (fun kv => static_attr false kv (fst kv, Some (snd kv))) a.
Proof. intros a shown F. induction F as [|kv kv' a shown H F IH]; intros E; constructor; cbn [map] in E; injection E as E1 E2; [now rewrite <- E1|now apply IH]. Qed.
Lemma tidy_texts : forall run ts, Forall2 text_event run ts -> Forall tidy run -> Forall (fun t => t <> [] /\ ~ In c_dollar t) ts.
Proof.
  intros run ts F. induction F as [|e t run ts H F IH]; intros T; constructor; apply Forall_cons_iff in T as [T1 T2]; [|now apply IH].
  destruct H as [ln t|ln name t H]; [exact T1|now apply T1].
Qed.
Lemma no_dollar_concat : forall ts, Forall (fun t : str => ~ In c_dollar t) ts -> ~ In c_dollar (concat ts).
Proof. intros ts F I. apply in_concat in I as (t & It & I). rewrite Forall_forall in F. now apply (F t It). Qed.
Lemma has_app_l : forall x y z, has x y -> has x (y ++ z).
Proof. intros x y z (a & b & ->). exists a, (b ++ z). now rewrite <- !app_assoc. Qed.
Lemma has_app_r : forall x y z, has x z -> has x (y ++ z).
Proof. intros x y z (a & b & ->). exists (y ++ a), b. now rewrite <- !app_assoc. Qed.
Lemma element_has : forall tag a empty body, (empty = true -> body = []) -> has d body -> has d (element_text false tag a empty body).
Proof.
  intros tag a [] body E H; [rewrite (E eq_refl) in H; now apply has_nil in H|]. unfold element_text. cbn [andb]. rewrite !app_assoc. do 3 apply has_app_l. now apply has_app_r.
Qed.
Lemma is_nil_nil : forall A (l : list A), is_nil l = true -> l = [].
Proof. now intros A []. Qed.

Lemma says_nothing : forall autoblocks scripts html strips joined is s, document_says autoblocks scripts html strips joined [] is s -> s = [].
Proof.
  intros ab sc html strips joined is s D. remember [] as es eqn:E. destruct D as [| |run ts u es is s Nr F Nx Sh D| | |]; try discriminate E; [reflexivity|].
  apply app_eq_nil in E as [E _]. contradiction.
Qed.
Lemma says_canonical : forall autoblocks scripts es is s, document_says autoblocks scripts false false true es is s -> Forall tidy es -> ~ has d s ->
  exists l, canonical autoblocks scripts l /\ flat_map text_of l = s /\ (l = [] <-> es = []) /\ (no_text_first es -> not_text l).
Proof.
  intros ab sc es is s D. induction D as [|ln ln' tag a sorted shown inner is s es is' s' St Nd P Ss Fa Nc D1 IH1 D2 IH2|run ts u es is s Nr F Nx Sh D IH|ln ln' texts u es is s Hh Sh Nh D IH|ln t es is s Nb Nh N13 D IH|ln t es is s Nb D IH];
    intros T Nd'.
  - exists []. repeat split; constructor.
  - apply Forall_cons_iff in T as [T1 T2]. apply Forall_app in T2 as [T2 T3]. apply Forall_cons_iff in T3 as [_ T3].
    destruct (IH2 T3) as (l & C2 & E2 & N2 & X2). { intros H. apply Nd'. now apply has_app_r. }
    destruct (IH1 T2) as (cs & C1 & E1 & N1 & X1). { intros H. apply Nd'. apply has_app_l, element_has; [|exact H]. intros E. apply is_nil_nil in E. subst inner. now apply (says_nothing _ _ _ _ _ _ _ D1). }
    assert (Es : shown = map (fun kv => (fst kv, Some (snd kv))) sorted). { apply attrs_back; [exact Fa|]. cbn [tidy] in T1. rewrite Forall_forall in *. intros kv I. apply T1. now apply (Permutation_in _ (Permutation_sym P)). }
    exists (MElem tag sorted cs :: l). split; [|split; [|split; [split; discriminate|intros _; exact Logic.I]]].
    + constructor; try assumption; [|now apply (attrs_static _ shown)|intros N; apply N1, Nc, N]. apply (Permutation_NoDup (l := map fst a)); [now apply Permutation_map|exact Nd].
    + cbn [flat_map text_of]. rewrite E2, E1, <- Es. rewrite (is_nil_iff _ _ cs inner) by exact N1. reflexivity.
  - apply Forall_app in T as [T1 T2]. destruct (IH T2) as (l & C & E & N & X). { intros H. apply Nd'. now apply has_app_r. }
    pose proof (tidy_texts _ _ F T1) as Tt. unfold shown_texts, shown_text in Sh. destruct Sh as [N13 P].
    assert (Nc : ~ In c_dollar (concat ts)). { apply no_dollar_concat. eapply Forall_impl; [|exact Tt]. now intros t [_ H]. }
    pose proof (plain_same _ _ P Nc). subst u. exists (MText (concat ts) :: l). split; [|split; [|split; [split; [discriminate|]|]]].
    + constructor; [|exact N13|exact P|now apply X|exact C]. destruct F as [|e t run ts He F]; [contradiction|]. apply Forall_cons_iff in Tt as [[Tt _] _]. cbn [concat]. destruct t; [contradiction|discriminate].
    + cbn [flat_map text_of]. now rewrite E.
    + intros E0. apply app_eq_nil in E0 as [E0 _]. contradiction.
    + intros N0. destruct F as [|e t run ts He F]; [contradiction|]. destruct He; destruct N0.
  - apply Forall_cons_iff in T as [_ T]. apply Forall_app in T as [T1 T2]. apply Forall_cons_iff in T2 as [_ T2]. destruct (IH T2) as (l & C & E & N & X).
    { intros H. apply Nd'. rewrite !app_assoc. now apply has_app_r. }
    unfold shown_texts, shown_text in Sh. destruct Sh as [N13 P].
    assert (Nc : ~ In c_dollar (concat (map snd texts))). { apply no_dollar_concat. rewrite Forall_map. rewrite Forall_map in T1. eapply Forall_impl; [|exact T1]. now intros t [_ H]. }
    pose proof (plain_same _ _ P Nc). subst u. exists (MCdata (concat (map snd texts)) :: l). split; [|split; [|split; [split; discriminate|intros _; exact Logic.I]]].
    + constructor; try assumption. intros H. apply Nd'. now apply has_app_r, has_app_l.
    + cbn [flat_map text_of]. rewrite E, <- !app_assoc. reflexivity.
  - apply Forall_cons_iff in T as [[] _].
  - apply Forall_cons_iff in T as [[] _].
Qed.
Lemma document_canonical : forall autoblocks scripts es is s, static_document autoblocks scripts false false es is s -> Forall tidy es -> ~ has d s ->
  exists tag a cs, canonical autoblocks scripts [MElem tag a cs] /\ text_of (MElem tag a cs) = s.
Proof.
  intros ab sc es is s D T N. destruct D as [pre post ln ln' tag a sorted shown inner is s Fp Fq St Nd P Ss Fa Nc D].
  apply Forall_app in T as [Tp T]. apply Forall_cons_iff in T as [T1 T]. apply Forall_app in T as [T2 T]. apply Forall_cons_iff in T as [_ Tq].
  assert (pre = []) as ->. { destruct pre as [|e pre]; [reflexivity|]. apply Forall_cons_iff in Tp as [Te _]. apply Forall_cons_iff in Fp as [Fe _]. destruct e; try destruct Te; destruct Fe. }
  destruct (says_canonical _ _ _ _ _ D T2) as (cs & C & E & N1 & _). { intros H. apply N, element_has; [|exact H]. intros E. apply is_nil_nil in E. subst inner. now apply (says_nothing _ _ _ _ _ _ _ D). }
  assert (Es : shown = map (fun kv => (fst kv, Some (snd kv))) sorted). { apply attrs_back; [exact Fa|]. cbn [tidy] in T1. rewrite Forall_forall in *. intros kv I. apply T1. now apply (Permutation_in _ (Permutation_sym P)). }
  exists tag, sorted, cs. split.
  - constructor; try assumption; [|now apply (attrs_static _ shown)|intros X; apply N1, Nc, X|constructor]. apply (Permutation_NoDup (l := map fst a)); [now apply Permutation_map|exact Nd].
  - cbn [text_of]. rewrite E, <- Es. now rewrite (is_nil_iff _ _ cs inner) by exact N1.
Qed.
