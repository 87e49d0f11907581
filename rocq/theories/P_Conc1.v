(** * Renderings at the same time: instances up to renaming *)

From Coq Require Import Ascii String List NArith ZArith Bool Lia Arith.
From Verif Require Import PyStr PyStrLemmas M_Values M_IR M_Template M_Run S_Template P_Template.
From Verif Require Import P_Run1.
Import ListNotations.
Open Scope list_scope.

(** Which instances and variables of the shared state those of the state of one rendering are; and the
    instances that have extended another. *)
Record maps := Maps { mi : list nat; mf : list nat; me : list nat }.
Definition is_at (l : list nat) (i j : nat) : Prop := nth_error l i = Some j.
Definition ext (m m' : maps) : Prop := (exists t, mi m' = mi m ++ t) /\ (exists t, mf m' = mf m ++ t) /\ incl (me m) (me m').

Lemma at_app : forall l t i j, is_at l i j -> is_at (l ++ t) i j.
Proof. unfold is_at. intros l t i j H. rewrite nth_error_app1; [exact H|]. apply nth_error_Some. congruence. Qed.
Lemma at_lt : forall l i j, is_at l i j -> i < length l.
Proof. unfold is_at. intros l i j H. apply nth_error_Some. congruence. Qed.
Lemma at_in : forall l i j, is_at l i j -> In j l.
Proof. intros l i j H. eapply nth_error_In, H. Qed.
Lemma at_inj : forall l i i' j, NoDup l -> is_at l i j -> is_at l i' j -> i = i'.
Proof. unfold is_at. intros l i i' j N H H'. eapply NoDup_nth_error; [exact N|apply nth_error_Some; congruence|congruence]. Qed.
Lemma at_last : forall l j, is_at (l ++ [j]) (length l) j.
Proof. intros. unfold is_at. rewrite nth_error_app2 by lia. now rewrite Nat.sub_diag. Qed.
Lemma at_snoc : forall l i j k, is_at (l ++ [k]) i j -> is_at l i j \/ (i = length l /\ j = k).
Proof.
  unfold is_at. intros l i j k H. destruct (Nat.lt_ge_cases i (length l)); [left; now rewrite nth_error_app1 in H|right].
  rewrite nth_error_app2 in H by lia. assert (i - length l = 0).
  { destruct (i - length l) as [|z]; [reflexivity|]. cbn in H. destruct z; discriminate H. }
  rewrite H1 in H. cbn in H. split; [lia|congruence].
Qed.
Lemma ext_trans : forall a b c, ext a b -> ext b c -> ext a c.
Proof.
  intros a b c ((t1 & E1) & (u1 & F1) & I1) ((t2 & E2) & (u2 & F2) & I2). split; [|split].
  - exists (t1 ++ t2). now rewrite E2, E1, app_assoc.
  - exists (u1 ++ u2). now rewrite F2, F1, app_assoc.
  - intros x Hx. apply I2, I1, Hx.
Qed.
Lemma ext_mi : forall m m' i j, ext m m' -> is_at (mi m) i j -> is_at (mi m') i j.
Proof. intros m m' i j ((t & ->) & _) H. now apply at_app. Qed.
Lemma ext_mf : forall m m' i j, ext m m' -> is_at (mf m) i j -> is_at (mf m') i j.
Proof. intros m m' i j (_ & (t & ->) & _) H. now apply at_app. Qed.

(** What is left alone: everything that is not in a list. *)
Definition keep {T : Type} (l : list nat) (a b : list T) : Prop :=
  length a <= length b /\ forall j, j < length a -> ~ In j l -> nth_error b j = nth_error a j.
Lemma keep_refl : forall T l (a : list T), keep l a a.
Proof. intros. split; [lia|reflexivity]. Qed.
Lemma keep_trans : forall T l t (a b c : list T), keep l a b -> keep (l ++ t) b c -> Forall (fun z => length a <= z) t -> keep l a c.
Proof.
  intros T l t a b c [L1 K1] [L2 K2] F. split; [lia|]. intros j Hj N. rewrite K2; [now apply K1|lia|].
  rewrite in_app_iff. intros [H|H]; [contradiction|]. rewrite Forall_forall in F. specialize (F j H). lia.
Qed.
Lemma keep_trans0 : forall T l (a b c : list T), keep l a b -> keep l b c -> keep l a c.
Proof. intros T l a b c H1 H2. apply (keep_trans T l [] a b c); [exact H1|now rewrite app_nil_r|constructor]. Qed.
Lemma keep_app : forall T l (a b : list T), keep l a (a ++ b).
Proof. intros. split; [rewrite app_length; lia|]. intros j Hj _. now rewrite nth_error_app1. Qed.

Section Relation.
Variable A : Type.
Notation gA := (gval (fobj A) (str * A)).
Notation heapA := (heap (fobj A) (str * A)).

Definition rtf (m : maps) (f f' : tplfun (str * A)) : Prop :=
  f_code _ f' = f_code _ f /\ is_at (mi m) (f_inst _ f) (f_inst _ f') /\ (forall k, f_code _ f = Trampoline _ k -> In (f_inst _ f) (me m)).
Inductive rgv (m : maps) : gA -> gA -> Prop :=
| rg_val : forall v, rgv m (val v) (val v)
| rg_clo : forall d b i ss i' ss', is_at (mi m) i i' -> Forall2 (is_at (mf m)) ss ss' ->
    rgv m (GObj _ _ (RC d b i ss)) (GObj _ _ (RC d b i' ss'))
| rg_inst : forall i i', is_at (mi m) i i' -> rgv m (GInst _ _ i) (GInst _ _ i')
| rg_fun : forall f f', rtf m f f' -> rgv m (GFun _ _ f) (GFun _ _ f')
| rg_defined : forall i i', is_at (mi m) i i' -> rgv m (GDefined _ _ i) (GDefined _ _ i')
| rg_value_of : forall i i', is_at (mi m) i i' -> rgv m (GValueOf _ _ i) (GValueOf _ _ i')
| rg_literal : rgv m (GLiteral _ _) (GLiteral _ _)
| rg_gettext : rgv m (GGettext _ _) (GGettext _ _)
| rg_builtins : rgv m (GBuiltins _ _) (GBuiltins _ _)
| rg_kajiki : rgv m (GKajiki _ _) (GKajiki _ _).
Definition rdict (m : maps) : dict (fobj A) (str * A) -> dict (fobj A) (str * A) -> Prop := ralist (rgv m).
Definition plain (d : dict (fobj A) (str * A)) : Prop := forall m, rdict m d d.
Definition rctx (m : maps) (c c' : context (fobj A) (str * A)) : Prop :=
  match c, c' with Given _ _ d, Given _ _ d' => d' = d /\ plain d | GlobalsOf _ _ i, GlobalsOf _ _ j => is_at (mi m) i j | _, _ => False end.
Definition rinst (m : maps) (i : nat) (x y : inst (fobj A) (str * A)) : Prop :=
  i_class _ _ y = i_class _ _ x /\ plain (base_globals _ _ (i_class _ _ x)) /\ rctx m (i_context _ _ x) (i_context _ _ y) /\
  rdict m (i_globals _ _ x) (i_globals _ _ y) /\ ralist (rtf m) (i_attrs _ _ x) (i_attrs _ _ y) /\
  Forall (fun kf => f_inst _ (snd kf) = i) (i_attrs _ _ x).
Definition rheap (m : maps) (h h' : heapA) : Prop :=
  length (mi m) = length h /\ NoDup (mi m) /\
  forall i j, is_at (mi m) i j -> exists x y, nth_error h i = Some x /\ nth_error h' j = Some y /\ rinst m i x y.
(** Who has extended another has a parent, which is younger. *)
Definition chained (m : maps) (h : heapA) : Prop :=
  forall i, In i (me m) -> exists p, get (L "parent") (globals _ _ h i) = Some (GInst _ _ p) /\ i < p.

Lemma rtf_ext : forall m m' f f', ext m m' -> rtf m f f' -> rtf m' f f'.
Proof. intros m m' f f' X (H1 & H2 & H3). split; [exact H1|]. split; [now apply (ext_mi m)|]. intros k Hk. apply X. now apply (H3 k). Qed.
Lemma rgv_ext : forall m m' v v', ext m m' -> rgv m v v' -> rgv m' v v'.
Proof.
  intros m m' v v' X H. destruct H; constructor; try (now apply (ext_mi m)); [|now apply (rtf_ext m)].
  eapply F2_impl; [|eassumption]. intros x y. now apply (ext_mf m).
Qed.
Lemma rdict_ext : forall m m' d d', ext m m' -> rdict m d d' -> rdict m' d d'.
Proof. intros m m' d d' X. apply ralist_impl. intros x y. now apply rgv_ext. Qed.
Lemma rctx_ext : forall m m' c c', ext m m' -> rctx m c c' -> rctx m' c c'.
Proof. intros m m' [d|i] [d'|j] X; cbn; try tauto. now apply ext_mi. Qed.
Lemma rinst_ext : forall m m' i x y, ext m m' -> rinst m i x y -> rinst m' i x y.
Proof.
  intros m m' i x y X (H1 & H2 & H3 & H4 & H5 & H6). split; [exact H1|]. split; [exact H2|]. split; [now apply (rctx_ext m)|]. split; [now apply (rdict_ext m)|].
  split; [|exact H6]. revert H5. apply ralist_impl. intros f f'. now apply rtf_ext.
Qed.
(** Only the last component grows. *)
Lemma rheap_me : forall m e h h', incl (me m) e -> rheap m h h' -> rheap (Maps (mi m) (mf m) e) h h'.
Proof.
  intros m e h h' I (H1 & H2 & H3). split; [exact H1|]. split; [exact H2|]. intros i j Hij. destruct (H3 i j Hij) as (x & y & X & Y & R).
  exists x, y. split; [exact X|]. split; [exact Y|]. apply (rinst_ext m); [|exact R]. split; [exists []; now rewrite app_nil_r|]. split; [exists []; now rewrite app_nil_r|exact I].
Qed.
Lemma rheap_mf : forall m t h h', rheap m h h' -> rheap (Maps (mi m) (mf m ++ t) (me m)) h h'.
Proof.
  intros m t h h' (H1 & H2 & H3). split; [exact H1|]. split; [exact H2|]. intros i j Hij. destruct (H3 i j Hij) as (x & y & X & Y & R).
  exists x, y. split; [exact X|]. split; [exact Y|]. apply (rinst_ext m); [|exact R]. split; [exists []; now rewrite app_nil_r|]. split; [now exists t|intros z Hz; exact Hz].
Qed.

Lemma rglobals : forall m h h' i j, rheap m h h' -> is_at (mi m) i j -> rdict m (globals _ _ h i) (globals _ _ h' j).
Proof. intros m h h' i j (_ & _ & H) Hij. destruct (H i j Hij) as (x & y & X & Y & R). unfold globals. rewrite X, Y. apply R. Qed.
Lemma rattrs : forall m h h' i j, rheap m h h' -> is_at (mi m) i j ->
  ralist (rtf m) (attrs _ _ h i) (attrs _ _ h' j) /\ Forall (fun kf => f_inst _ (snd kf) = i) (attrs _ _ h i).
Proof. intros m h h' i j (_ & _ & H) Hij. destruct (H i j Hij) as (x & y & X & Y & R). unfold attrs. rewrite X, Y. split; apply R. Qed.
Lemma rcontext_of : forall m h h' c c', rheap m h h' -> rctx m c c' -> rdict m (context_of _ _ h c) (context_of _ _ h' c').
Proof.
  intros m h h' [d|i] [d'|j] H C; cbn in C; try contradiction; cbn [context_of].
  - destruct C as [-> C]. apply C.
  - now apply rglobals.
Qed.
Lemma rheap_in : forall m h h' j, rheap m h h' -> In j (mi m) -> j < length h'.
Proof.
  intros m h h' j (_ & _ & H) Hj. apply In_nth_error in Hj as [i Hi]. destruct (H i j Hi) as (x & y & X & Y & _). apply nth_error_Some. congruence.
Qed.
Lemma rheap_length : forall m h h', rheap m h h' -> length h <= length h'.
Proof.
  intros m h h' H. pose proof H as (L & N & _). rewrite <- L. replace (length h') with (length (seq 0 (length h'))) by apply seq_length.
  apply NoDup_incl_length; [exact N|]. intros j Hj. apply in_seq. pose proof (rheap_in _ _ _ _ H Hj). lia.
Qed.

Lemma rupdate : forall m d1 d1' d d', rdict m d1 d1' -> rdict m d d' -> rdict m (update _ _ d d1) (update _ _ d' d1').
Proof.
  intros m d1 d1' d d' H1. revert d d'. unfold update. induction H1 as [|[k v] [k' v'] l l' [E V] H IH]; intros d d' H0; [exact H0|].
  cbn [fold_left fst snd] in *. subst k'. apply IH. now apply ralist_set.
Qed.
Lemma rhelpers : forall m i j, is_at (mi m) i j -> rdict m (helpers _ _ i) (helpers _ _ j).
Proof. intros m i j Hi. unfold helpers. repeat constructor; assumption. Qed.
Lemma rbound : forall m i j ms, is_at (mi m) i j -> ralist (rtf m) (bound _ i ms) (bound _ j ms).
Proof.
  intros m i j ms Hi. induction ms as [|[k f] ms IH]; [constructor|]. constructor; [|exact IH]. cbn [fst snd]. split; [reflexivity|].
  split; [reflexivity|]. split; [exact Hi|]. intros k' E. discriminate E.
Qed.
Lemma bound_inst : forall i ms, Forall (fun kf => f_inst _ (snd kf) = i) (bound (str * A) i ms).
Proof. intros i ms. induction ms as [|[k f] ms IH]; constructor; [reflexivity|exact IH]. Qed.
Lemma rinit : forall m i j c ctx ctx', is_at (mi m) i j -> plain (base_globals _ _ c) -> rdict m ctx ctx' ->
  rdict m (init_globals _ _ i c ctx) (init_globals _ _ j c ctx').
Proof.
  intros m i j c ctx ctx' Hi C X. unfold init_globals. apply ralist_set; [|now constructor].
  match goal with |- ralist _ (match get _ ?a with _ => _ end) (match get _ ?b with _ => _ end) => assert (D : rdict m a b) end.
  { apply rupdate; [exact X|]. apply rupdate.
    - assert (Hb := rbound m i j (methods _ _ c) Hi). induction Hb as [|a b l l' [E V] H IH]; [constructor|]. constructor; [|exact IH]. cbn [fst snd]. split; [exact E|now constructor].
    - apply rupdate; [apply C|now apply rhelpers]. }
  pose proof (ralist_get _ (L "gettext") _ _ D) as G.
  match goal with |- context [match get ?k ?a with _ => _ end] => destruct (get k a) end;
  match goal with |- context [match get ?k ?a with _ => _ end] => destruct (get k a) end; try contradiction; [now apply ralist_set|exact D].
Qed.

(** ** A new instance *)
Definition newborn (m : maps) (j : nat) : maps := Maps (mi m ++ [j]) (mf m) (me m).
Lemma ext_newborn : forall m j, ext m (newborn m j).
Proof. intros m j. split; [now exists [j]|]. split; [exists []; now rewrite app_nil_r|intros x Hx; exact Hx]. Qed.
Lemma nodup_snoc : forall (l : list nat) x, NoDup l -> ~ In x l -> NoDup (l ++ [x]).
Proof. intros l x N H. apply NoDup_rev in N. rewrite <- (rev_involutive (l ++ [x])). apply NoDup_rev. rewrite rev_app_distr. cbn. constructor; [|exact N]. now rewrite <- in_rev. Qed.
Lemma rnew : forall m h h' c ctx ctx', rheap m h h' -> plain (base_globals _ _ c) -> rctx m ctx ctx' ->
  rheap (newborn m (length h')) (fst (new _ _ h c ctx)) (fst (new _ _ h' c ctx')).
Proof.
  intros m h h' c ctx ctx' H C X. pose proof H as (H1 & H2 & H3). unfold new. cbn [fst].
  assert (Q : is_at (mi (newborn m (length h'))) (length h) (length h')) by (unfold newborn; cbn [mi]; rewrite <- H1; apply at_last).
  split; [|split].
  - unfold newborn. cbn [mi]. rewrite !app_length. cbn [length]. lia.
  - unfold newborn. cbn [mi]. apply nodup_snoc; [exact H2|]. intros I. apply (rheap_in _ _ _ _ H) in I. lia.
  - intros i j Hij. unfold newborn in Hij. cbn [mi] in Hij. apply at_snoc in Hij as [Hij|[-> ->]].
    + destruct (H3 i j Hij) as (x & y & X1 & Y1 & R). exists x, y.
      assert (i < length h) by (apply nth_error_Some; congruence). assert (j < length h') by (apply nth_error_Some; congruence).
      rewrite !nth_error_app1 by assumption. split; [exact X1|]. split; [exact Y1|]. apply (rinst_ext m); [apply ext_newborn|exact R].
    + rewrite H1 in *. rewrite !nth_error_app2, !Nat.sub_diag by lia. cbn [nth_error]. eexists. eexists. split; [reflexivity|]. split; [reflexivity|].
      split; [reflexivity|]. split; [exact C|]. cbn [i_context i_globals i_attrs]. split; [apply (rctx_ext m); [apply ext_newborn|exact X]|]. split; [|split].
      * apply rinit; [exact Q|exact C|]. apply (rdict_ext m); [apply ext_newborn|]. now apply rcontext_of.
      * now apply rbound.
      * apply bound_inst.
Qed.
Lemma chained_new : forall m h h' c ctx j, rheap m h h' -> chained m h -> (forall i, In i (me m) -> i < length h) -> chained (newborn m j) (fst (new _ _ h c ctx)).
Proof.
  intros m h h' c ctx j H Q B i Hi. destruct (Q i Hi) as (p & P & Lt). exists p. split; [|exact Lt]. unfold new, globals in *. cbn [fst].
  rewrite nth_error_app1 by (apply B, Hi). exact P.
Qed.

(** ** Changes *)
Lemma rput : forall m h h' i j x y, rheap m h h' -> is_at (mi m) i j -> rinst m i x y -> rheap m (put _ _ h i x) (put _ _ h' j y).
Proof.
  intros m h h' i j x y (H1 & H2 & H3) Hij R. split; [now rewrite put_length|]. split; [exact H2|]. intros a b Hab. rewrite !nth_put.
  destruct (H3 a b Hab) as (x0 & y0 & X0 & Y0 & R0). destruct (Nat.eqb_spec i a) as [->|Ni].
  - assert (j = b) by (unfold is_at in *; congruence). subst b. rewrite Nat.eqb_refl, X0, Y0. eauto.
  - destruct (Nat.eqb_spec j b) as [->|Nj]; [exfalso; apply Ni; now apply (at_inj (mi m) i a b)|]. eauto.
Qed.
Lemma rwith_globals : forall m h h' i j d d', rheap m h h' -> is_at (mi m) i j -> rdict m d d' -> rheap m (with_globals _ _ h i d) (with_globals _ _ h' j d').
Proof.
  intros m h h' i j d d' H Hij D. pose proof H as (_ & _ & H3). destruct (H3 i j Hij) as (x & y & X & Y & E1 & E2 & E3 & E4 & E5). unfold with_globals. rewrite X, Y.
  apply rput; [exact H|exact Hij|]. exact (conj E1 (conj E2 (conj E3 (conj D E5)))).
Qed.
Lemma rwith_attrs : forall m h h' i j d d', rheap m h h' -> is_at (mi m) i j -> ralist (rtf m) d d' -> Forall (fun kf => f_inst _ (snd kf) = i) d ->
  rheap m (with_attrs _ _ h i d) (with_attrs _ _ h' j d').
Proof.
  intros m h h' i j d d' H Hij D F. pose proof H as (_ & _ & H3). destruct (H3 i j Hij) as (x & y & X & Y & E1 & E2 & E3 & E4 & E5). unfold with_attrs. rewrite X, Y.
  apply rput; [exact H|exact Hij|]. exact (conj E1 (conj E2 (conj E3 (conj E4 (conj D F))))).
Qed.
Lemma keep_with : forall l (h : heapA) j d, In j l -> keep l h (with_globals _ _ h j d).
Proof.
  intros l h j d Hj. split; [rewrite length_with; lia|]. intros k Hk N. unfold with_globals. destruct (nth_error h j) eqn:E; [|reflexivity]. rewrite nth_put.
  destruct (Nat.eqb_spec j k) as [->|]; [contradiction|reflexivity].
Qed.
Lemma keep_attrs : forall l (h : heapA) j d, In j l -> keep l h (with_attrs _ _ h j d).
Proof.
  intros l h j d Hj. split; [rewrite length_attrs; lia|]. intros k Hk N. unfold with_attrs. destruct (nth_error h j) eqn:E; [|reflexivity]. rewrite nth_put.
  destruct (Nat.eqb_spec j k) as [->|]; [contradiction|reflexivity].
Qed.

Lemma ris_fun : forall m v v', rgv m v v' -> is_fun _ _ v = is_fun _ _ v'.
Proof. intros m v v' H. now destruct H. Qed.
Lemma roverrides : forall m d d', rdict m d d' -> rdict m (overrides _ _ d) (overrides _ _ d').
Proof.
  intros m d d' H. unfold overrides. induction H as [|[k v] [k' v'] l l' [E V] H IH]; [constructor|]. cbn [filter fst snd] in *. subst k'.
  rewrite (ris_fun _ _ _ V). destruct (_ && _); [constructor; [now split|exact IH]|exact IH].
Qed.
Lemma set_inst : forall k f i (l : list (str * tplfun (str * A))), Forall (fun kf => f_inst _ (snd kf) = i) l -> f_inst _ f = i ->
  Forall (fun kf => f_inst _ (snd kf) = i) (set k f l).
Proof.
  intros k f i l F Hf. induction F as [|[k1 g] l Hg F IH]; cbn [set]; [now repeat constructor|]. destruct (seqb k k1); constructor; auto.
Qed.
Lemma rinherit : forall m i j h h' k v v', is_at (mi m) i j -> In i (me m) -> rheap m h h' -> rgv m v v' ->
  rheap m (inherit _ _ i h (k, v)) (inherit _ _ j h' (k, v')) /\ keep (mi m) h' (inherit _ _ j h' (k, v')) /\
  length (inherit _ _ j h' (k, v')) = length h'.
Proof.
  intros m i j h h' k v v' Hij Hi H V. split; [|split; [|apply length_inherit]].
  - unfold inherit. rewrite (ris_fun _ _ _ V). destruct (_ || _); [exact H|].
    rewrite (ralist_has _ k _ _ (rglobals m h h' i j H Hij)).
    assert (H2 : rheap m (if has k (globals _ _ h' j) then h else with_globals _ _ h i (set k v (globals _ _ h i)))
                         (if has k (globals _ _ h' j) then h' else with_globals _ _ h' j (set k v' (globals _ _ h' j)))).
    { destruct (has k _); [exact H|]. apply rwith_globals; [exact H|exact Hij|]. apply ralist_set; [now apply rglobals|exact V]. }
    match type of H2 with rheap _ ?a ?b => set (h2 := a) in *; set (h2' := b) in * end. clearbody h2 h2'.
    destruct (rattrs m h2 h2' i j H2 Hij) as [RA FA]. unfold hasattr. rewrite (ralist_has _ k _ _ RA). destruct (_ || _); [exact H2|].
    apply rwith_attrs; [exact H2|exact Hij| |]; [|now apply set_inst].
    apply ralist_set; [exact RA|]. split; [reflexivity|]. split; [exact Hij|]. intros k' _. exact Hi.
  - pose proof (at_in _ _ _ Hij) as Hj. unfold inherit. destruct (_ || _); [apply keep_refl|].
    destruct (has k _); destruct (hasattr _ _ _ _ _); try apply keep_refl; try (now apply keep_with); try (now apply keep_attrs).
    eapply keep_trans0; [|apply keep_attrs; exact Hj]. now apply keep_with.
Qed.
Lemma rinherit_all : forall m i j d d', is_at (mi m) i j -> In i (me m) -> rdict m d d' -> forall h h', rheap m h h' ->
  rheap m (fold_left (inherit _ _ i) d h) (fold_left (inherit _ _ j) d' h') /\ keep (mi m) h' (fold_left (inherit _ _ j) d' h').
Proof.
  intros m i j d d' Hij Hi D. induction D as [|[k v] [k' v'] l l' [E V] D IH]; intros h h' H; [split; [exact H|apply keep_refl]|].
  cbn [fold_left fst snd] in *. subst k'. destruct (rinherit m i j h h' k v v' Hij Hi H V) as (R & K & _). destruct (IH _ _ R) as [R2 K2].
  split; [exact R2|]. eapply keep_trans0; eassumption.
Qed.
Lemma globals_inherit : forall i d (h : heapA) j, i <> j -> globals _ _ (fold_left (inherit _ _ i) d h) j = globals _ _ h j.
Proof.
  intros i d. induction d as [|[k v] d IH]; intros h j N; [reflexivity|]. cbn [fold_left]. rewrite IH by exact N. unfold inherit.
  destruct (_ || _); [reflexivity|].
  assert (G : forall (h : heapA) x, globals _ _ (with_globals _ _ h i x) j = globals _ _ h j).
  { intros h0 x. unfold with_globals. destruct (nth_error h0 i) eqn:E0; [|reflexivity]. unfold globals. rewrite nth_put. destruct (Nat.eqb_spec i j); [contradiction|reflexivity]. }
  destruct (has k _); destruct (hasattr _ _ _ _ _); rewrite ?globals_attrs, ?G; reflexivity.
Qed.

(** ** Extending, importing *)
Definition extended (m : maps) (i j : nat) : maps := Maps (mi m ++ [j]) (mf m) (i :: me m).
Lemma ext_extended : forall m i j, ext m (extended m i j).
Proof. intros m i j. split; [now exists [j]|]. split; [exists []; now rewrite app_nil_r|intros x Hx; now right]. Qed.
Definition good (m : maps) (h h' : heapA) : Prop := rheap m h h' /\ chained m h /\ (forall i, In i (me m) -> i < length h).
Lemma rextend : forall m h h' i j c, good m h h' -> is_at (mi m) i j -> plain (base_globals _ _ c) ->
  rres (fun a b => good (extended m i (length h')) (fst a) (fst b) /\ snd a = length h /\ snd b = length h' /\
                   keep (mi m) h' (fst b)) (extend _ _ h i c) (extend _ _ h' j c).
Proof.
  intros m h h' i j c (H & Ch & Be) Hij C. unfold extend. pose proof H as (LH & _ & H3). destruct (H3 i j Hij) as (x & y & Ex & Ey & _ & _ & EX & _).
  rewrite Ex, Ey. assert (Hi : i < length h) by (apply nth_error_Some; congruence). assert (Hj : j < length h') by (apply nth_error_Some; congruence).
  pose proof (rnew m h h' c _ _ H C EX) as HN.
  assert (LN := length_new _ _ h c (i_context _ _ x)). assert (LN' := length_new _ _ h' c (i_context _ _ y)).
  assert (GN : forall k, k < length h -> globals _ _ (fst (new _ _ h c (i_context _ _ x))) k = globals _ _ h k).
  { intros k Hk. unfold new, globals. cbn [fst]. now rewrite nth_error_app1 by exact Hk. }
  assert (KN : keep (mi m) h' (fst (new _ _ h' c (i_context _ _ y)))) by (unfold new; cbn [fst]; apply keep_app).
  assert (SN : snd (new _ _ h c (i_context _ _ x)) = length h) by reflexivity.
  assert (SN' : snd (new _ _ h' c (i_context _ _ y)) = length h') by reflexivity.
  destruct (new _ _ h c (i_context _ _ x)) as [h1 p], (new _ _ h' c (i_context _ _ y)) as [h1' p']. cbn [fst snd] in *. subst p' p.
  assert (H1 : rheap (extended m i (length h')) h1 h1').
  { exact (rheap_me (newborn m (length h')) (i :: me m) h1 h1' (fun x Hx => or_intror Hx) HN). }
  clear HN. set (M := extended m i (length h')) in *. set (p := length h) in *. set (p' := length h') in *.
  assert (Mi : is_at (mi M) i j) by (apply (ext_mi m); [apply ext_extended|exact Hij]).
  assert (Mp : is_at (mi M) p p') by (unfold M, extended; cbn [mi]; rewrite <- LH; apply at_last).
  assert (Me : In i (me M)) by (left; reflexivity).
  assert (Ij : In j (mi M)) by exact (at_in _ _ _ Mi). assert (Ip : In p' (mi M)) by exact (at_in _ _ _ Mp).
  assert (Nip : i <> p) by lia.
  assert (H2 := rwith_globals M h1 h1' p p' _ _ H1 Mp (rupdate _ _ _ _ _ (roverrides _ _ _ (rglobals M h1 h1' i j H1 Mi)) (rglobals M h1 h1' p p' H1 Mp))).
  set (h2 := with_globals _ _ h1 p _) in *. set (h2' := with_globals _ _ h1' p' _) in *.
  assert (K2 : keep (mi M) h1' h2') by (now apply keep_with).
  assert (L2 : length h2 = S p) by (unfold h2; rewrite length_with; exact LN).
  assert (G2 : forall k, k < p -> globals _ _ h2 k = globals _ _ h k).
  { intros k Hk. unfold h2. rewrite globals_with by lia. destruct (Nat.eqb_spec p k); [lia|]. now apply GN. }
  clearbody h2 h2'.
  destruct (rinherit_all M i j _ _ Mi Me (rglobals M h2 h2' p p' H2 Mp) h2 h2' H2) as [H3' K3].
  assert (G3 : forall k, k < p -> i <> k -> globals _ _ (fold_left (inherit _ _ i) (globals _ _ h2 p) h2) k = globals _ _ h k).
  { intros k Hk Nk. rewrite globals_inherit by exact Nk. now apply G2. }
  assert (L3 : length (fold_left (inherit _ _ i) (globals _ _ h2 p) h2) = S p) by (rewrite length_inherits; exact L2).
  set (h3 := fold_left _ _ h2) in *. set (h3' := fold_left _ _ h2') in *. clearbody h3 h3'.
  assert (ST : forall a a' k k' s v v', rheap M a a' -> length a = S p -> is_at (mi M) k k' -> rgv M v v' ->
    rheap M (with_globals _ _ a k (set s v (globals _ _ a k))) (with_globals _ _ a' k' (set s v' (globals _ _ a' k'))) /\
    keep (mi M) a' (with_globals _ _ a' k' (set s v' (globals _ _ a' k'))) /\
    length (with_globals _ _ a k (set s v (globals _ _ a k))) = S p /\
    (forall z, z <> k -> globals _ _ (with_globals _ _ a k (set s v (globals _ _ a k))) z = globals _ _ a z)).
  { intros a a' k k' s v v' Ha La Hk Hv. split; [|split; [|split]].
    - apply rwith_globals; [exact Ha|exact Hk|]. apply ralist_set; [now apply rglobals|exact Hv].
    - apply keep_with. exact (at_in _ _ _ Hk).
    - rewrite length_with. exact La.
    - intros z Hz. rewrite globals_with; [|rewrite La; pose proof (at_lt _ _ _ Hk) as Q; destruct Ha as (Q1 & _); lia].
      destruct (Nat.eqb_spec k z); [congruence|reflexivity]. }
  destruct (ST h3 h3' p p' (L "child") (GInst _ _ i) (GInst _ _ j) H3' L3 Mp (rg_inst _ _ _ Mi)) as (H4 & K4 & L4 & G4).
  set (h4 := with_globals _ _ h3 p _) in *. set (h4' := with_globals _ _ h3' p' _) in *. clearbody h4 h4'.
  destruct (ST h4 h4' p p' (L "local") (GInst _ _ p) (GInst _ _ p') H4 L4 Mp (rg_inst _ _ _ Mp)) as (H5 & K5 & L5 & G5).
  set (h5 := with_globals _ _ h4 p _) in *. set (h5' := with_globals _ _ h4' p' _) in *. clearbody h5 h5'.
  pose proof (ralist_get _ (L "self") _ _ (rglobals M h5 h5' i j H5 Mi)) as HSelf.
  destruct (get (L "self") (globals _ _ h5 i)) as [s|], (get (L "self") (globals _ _ h5' j)) as [s'|]; try contradiction; [|reflexivity].
  cbn [ropt] in HSelf. cbn [rres fst snd].
  destruct (ST h5 h5' p p' (L "self") s s' H5 L5 Mp HSelf) as (H6 & K6 & L6 & G6).
  set (h6 := with_globals _ _ h5 p _) in *. set (h6' := with_globals _ _ h5' p' _) in *. clearbody h6 h6'.
  destruct (ST h6 h6' i j (L "parent") (GInst _ _ p) (GInst _ _ p') H6 L6 Mi (rg_inst _ _ _ Mp)) as (H7 & K7 & L7 & G7).
  assert (P7 : get (L "parent") (globals _ _ (with_globals _ _ h6 i (set (L "parent") (GInst _ _ p) (globals _ _ h6 i))) i) = Some (GInst _ _ p)).
  { rewrite globals_with by lia. rewrite Nat.eqb_refl, get_set, seqb_refl. reflexivity. }
  set (h7 := with_globals _ _ h6 i _) in *. set (h7' := with_globals _ _ h6' j _) in *. clearbody h7 h7'.
  destruct (ST h7 h7' i j (L "local") (GInst _ _ i) (GInst _ _ j) H7 L7 Mi (rg_inst _ _ _ Mi)) as (H8 & K8 & L8 & G8).
  assert (P8 : get (L "parent") (globals _ _ (with_globals _ _ h7 i (set (L "local") (GInst _ _ i) (globals _ _ h7 i))) i) = Some (GInst _ _ p)).
  { rewrite globals_with by lia. rewrite Nat.eqb_refl, get_set. exact P7. }
  set (h8 := with_globals _ _ h7 i _) in *. set (h8' := with_globals _ _ h7' j _) in *. clearbody h8 h8'.
  split; [split; [exact H8|split]|split; [reflexivity|split; [reflexivity|]]].
  - intros k Hk. destruct (Nat.eq_dec k i) as [->|Nk]; [exists p; split; [exact P8|exact Hi]|].
    assert (Hk' : In k (me m)) by (destruct Hk as [E|Hk]; [congruence|exact Hk]). pose proof (Be k Hk') as Bk.
    destruct (Ch k Hk') as (q & Q & Lt). exists q. split; [|exact Lt]. rewrite G8, G7, G6, G5, G4, G3 by (lia || congruence). exact Q.
  - intros k Hk. rewrite L8. destruct Hk as [<-|Hk]; [lia|]. apply Be in Hk. lia.
  - apply (keep_trans _ (mi m) [p'] h' h1' h8'); [exact KN| |repeat constructor].
    change (mi m ++ [p']) with (mi M).
    eapply keep_trans0; [exact K2|]. eapply keep_trans0; [exact K3|]. eapply keep_trans0; [exact K4|]. eapply keep_trans0; [exact K5|].
    eapply keep_trans0; [exact K6|]. eapply keep_trans0; [exact K7|exact K8].
Qed.
Lemma rimport : forall m h h' name alias c g g', good m h h' -> plain (base_globals _ _ c) -> is_at (mi m) g g' ->
  let a := import_ _ _ h name alias c g in let b := import_ _ _ h' name alias c g' in
  good (newborn m (length h')) (fst a) (fst b) /\ snd a = length h /\ snd b = length h' /\ keep (mi m) h' (fst b).
Proof.
  intros m h h' name alias c g g' (H & Ch & Be) C Hg. cbv zeta. unfold import_. pose proof H as (LH & _ & H3).
  pose proof (at_lt _ _ _ Hg) as Hgl. rewrite LH in Hgl.
  assert (HN := rnew m h h' c (GlobalsOf _ _ g) (GlobalsOf _ _ g') H C Hg).
  assert (CN := chained_new m h h' c (GlobalsOf _ _ g) (length h') H Ch Be).
  assert (LN := length_new _ _ h c (GlobalsOf _ _ g)).
  assert (KN : keep (mi m) h' (fst (new _ _ h' c (GlobalsOf _ _ g')))) by (unfold new; cbn [fst]; apply keep_app).
  assert (SN : snd (new _ _ h c (GlobalsOf _ _ g)) = length h) by reflexivity.
  assert (SN' : snd (new _ _ h' c (GlobalsOf _ _ g')) = length h') by reflexivity.
  destruct (new _ _ h c (GlobalsOf _ _ g)) as [h1 p], (new _ _ h' c (GlobalsOf _ _ g')) as [h1' p']. cbn [fst snd] in *. subst p' p.
  set (al := match alias with Some a => a | None => _ end). clearbody al. set (M := newborn m (length h')) in *.
  assert (Mg : is_at (mi M) g g') by (apply (ext_mi m); [apply ext_newborn|exact Hg]).
  assert (Mp : is_at (mi M) (length h) (length h')) by (unfold M, newborn; cbn [mi]; rewrite <- LH; apply at_last).
  split; [split; [|split]|split; [reflexivity|split; [reflexivity|]]].
  - apply rwith_globals; [exact HN|exact Mg|]. apply ralist_set; [now apply rglobals|now constructor].
  - intros k Hk. rewrite globals_with by lia. destruct (Nat.eqb_spec g k) as [->|Nk]; [|now apply CN]. rewrite get_set.
    destruct (seqb _ al); [exists (length h); split; [reflexivity|exact Hgl]|now apply CN].
  - intros k Hk. rewrite length_with, LN. apply Be in Hk. lia.
  - apply (keep_trans _ (mi m) [length h'] h' h1' _ KN); [|repeat constructor]. apply keep_with. apply in_app_iff. left. exact (at_in _ _ _ Hg).
Qed.
Lemma good_new : forall m h h' c ctx ctx', good m h h' -> plain (base_globals _ _ c) -> rctx m ctx ctx' ->
  good (newborn m (length h')) (fst (new _ _ h c ctx)) (fst (new _ _ h' c ctx')) /\ keep (mi m) h' (fst (new _ _ h' c ctx')).
Proof.
  intros m h h' c ctx ctx' (H & Ch & Be) C X. split; [split; [now apply rnew|split]|].
  - now apply (chained_new m h h').
  - intros k Hk. rewrite length_new. apply Be in Hk. lia.
  - unfold new. cbn [fst]. apply keep_app.
Qed.

(** ** Names and functions *)
Lemma rresolve : forall m b h h' i j k, rheap m h h' -> is_at (mi m) i j ->
  rres (rgv m) (resolve _ _ (fun k => option_map val (b k)) h i k) (resolve _ _ (fun k => option_map val (b k)) h' j k).
Proof.
  intros m b h h' i j k H Hij. unfold resolve. pose proof (ralist_get _ k _ _ (rglobals m h h' i j H Hij)) as E.
  destruct (get k _), (get k _); try contradiction; [exact E|]. destruct (b k); cbn; [constructor|reflexivity].
Qed.
Lemma ras_instance : forall m (h h' : heapA) v v', rgv m v v' -> rres (is_at (mi m)) (as_instance _ _ h v) (as_instance _ _ h' v').
Proof. intros m h h' v v' H. destruct H; cbn; try reflexivity. assumption. Qed.
Lemma rgetattr : forall m h h' i j k, rheap m h h' -> is_at (mi m) i j ->
  rres (fun f f' => rtf m f f' /\ f_inst _ f = i) (getattr _ _ h i k) (getattr _ _ h' j k).
Proof.
  intros m h h' i j k H Hij. unfold getattr. destruct (rattrs m h h' i j H Hij) as [R F]. pose proof (ralist_get _ k _ _ R) as E.
  destruct (get k (attrs _ _ h i)) as [f|] eqn:G, (get k (attrs _ _ h' j)); try contradiction; [|reflexivity]. split; [exact E|].
  apply get_some_in in G. rewrite Forall_forall in F. exact (F _ G).
Qed.
Definition rcode (m : maps) (a b : str * A * nat) : Prop := fst b = fst a /\ is_at (mi m) (snd a) (snd b).
Lemma rtarget_same : forall m b h h', rheap m h h' -> forall fuel f f', rtf m f f' ->
  rres (rcode m) (target _ _ (fun k => option_map val (b k)) fuel h f) (target _ _ (fun k => option_map val (b k)) fuel h' f').
Proof.
  intros m b h h' H. induction fuel as [|fuel IH]; intros f f' (F1 & F2 & F3); cbn [target]; rewrite F1;
    destruct (f_code _ f); try reflexivity; try (now split).
  apply (rres_bind _ _ _ _ (rgv m)); [now apply rresolve|]. intros v v' V.
  apply (rres_bind _ _ _ _ (is_at (mi m))); [now apply ras_instance|]. intros p p' Hp.
  eapply rres_bind; [now apply (rgetattr m)|]. intros g g' [G _]. now apply IH.
Qed.
(** How many steps: parents are younger. *)
Lemma target_enough : forall m b h h', good m h h' -> forall fuel f f', rtf m f f' -> length h - f_inst _ f <= fuel -> forall more,
  target _ _ (fun k => option_map val (b k)) (fuel + more) h f = target _ _ (fun k => option_map val (b k)) fuel h f.
Proof.
  intros m b h h' (H & Ch & Be). induction fuel as [|fuel IH]; intros f f' (F1 & F2 & F3) Le more.
  - pose proof (at_lt _ _ _ F2) as Q. destruct H as (LH & _). lia.
  - cbn [target Nat.add]. destruct (f_code _ f) as [c|k] eqn:Ec; [reflexivity|].
    destruct (Ch _ (F3 k eq_refl)) as (p & P & Lt). unfold resolve. rewrite P. cbn [rbind as_instance].
    assert (R : exists p', is_at (mi m) p p').
    { pose proof (rglobals m h h' _ _ H F2) as G. apply (ralist_get _ (L "parent")) in G. rewrite P in G. destruct (get _ (globals _ _ h' _)); [|contradiction].
      cbn in G. inversion G; subst; eauto. }
    destruct R as [p' Rp]. pose proof (rgetattr m h h' p p' k H Rp) as G. destruct (getattr _ _ h p k) as [g|e]; [|reflexivity]. cbn [rbind].
    destruct (getattr _ _ h' p' k) as [g'|e]; cbn [rres] in G; [|contradiction]. destruct G as [G1 G2]. apply (IH g g' G1). rewrite G2. lia.
Qed.
Lemma rtarget : forall m b h h' f f', good m h h' -> rtf m f f' ->
  rres (rcode m) (target _ _ (fun k => option_map val (b k)) (S (length h)) h f) (target _ _ (fun k => option_map val (b k)) (S (length h')) h' f').
Proof.
  intros m b h h' f f' G F. pose proof G as (H & _). pose proof (rheap_length _ _ _ H) as Le.
  assert (Q := target_enough m b h h' G (S (length h)) f f' F ltac:(lia) (length h' - length h)).
  replace (S (length h) + (length h' - length h)) with (S (length h')) in Q by lia. rewrite <- Q. now apply rtarget_same.
Qed.
End Relation.
