(** * Line numbers of generated code *)

From Coq Require Import Ascii String List NArith ZArith Bool Lia Arith.
From Verif Require Import PyStr M_IR M_Lnotab S_Lines P_IR.
Import ListNotations.
Open Scope nat_scope.
Open Scope list_scope.

(** [track m l hi]: no code of [l] stands above what was read before it (up to line [m]), and
    everything stands up to line [hi]. *)
Inductive track : nat -> list site -> nat -> Prop :=
| tr_nil : forall m hi, m <= hi -> track m [] hi
| tr_plain : forall m m' n l hi, m <= m' -> n <= m' -> track m' l hi -> track m ((n, None) :: l) hi
| tr_code : forall m n e l hi, m <= n -> n <> 0 -> track n l hi -> track m ((n, Some e) :: l) hi.
Lemma track_le : forall m l hi, track m l hi -> m <= hi.
Proof. induction 1; lia. Qed.
Lemma track_lower : forall m l hi, track m l hi -> forall m0, m0 <= m -> track m0 l hi.
Proof. intros m l hi T m0 Lm. destruct T; [apply tr_nil; lia|eapply tr_plain; [| |eassumption]; lia|apply tr_code; [lia|assumption|assumption]]. Qed.
Lemma track_higher : forall m l hi, track m l hi -> forall hi', hi <= hi' -> track m l hi'.
Proof. induction 1; intros h0 Lh; [apply tr_nil; lia|eapply tr_plain; eauto|apply tr_code; auto]. Qed.
Lemma track_app : forall m a hi, track m a hi -> forall b hi', track hi b hi' -> track m (a ++ b) hi'.
Proof. induction 1; intros b h' T; cbn [app]; [now apply (track_lower hi)|econstructor; eauto|constructor; auto]. Qed.
Lemma track_plain : forall m n l hi, track m ((n, None) :: l) hi -> exists m', m <= m' /\ n <= m' /\ track m' l hi.
Proof. intros m n l hi T. inversion T; subst. eauto. Qed.
Lemma track_code : forall m n e l hi, track m ((n, Some e) :: l) hi -> m <= n /\ n <> 0 /\ track n l hi.
Proof. intros m n e l hi T. inversion T; subst. auto. Qed.
Lemma track_split : forall a m b hi, track m (a ++ b) hi -> exists mid, track m a mid /\ track mid b hi.
Proof.
  induction a as [|[n [e|]] a IH]; intros m b hi T; cbn [app] in T.
  - exists m. split; [now constructor|exact T].
  - apply track_code in T as (A & B & T). destruct (IH _ _ _ T) as (mid & T1 & T2). exists mid. split; [now constructor|exact T2].
  - apply track_plain in T as (m' & A & B & T). destruct (IH _ _ _ T) as (mid & T1 & T2). exists mid. split; [econstructor; eauto|exact T2].
Qed.
Lemma code_app : forall a b, code_sites (a ++ b) = code_sites a ++ code_sites b.
Proof. induction a as [|[n [e|]] a IH]; intros b; cbn [app code_sites]; now rewrite ?IH. Qed.

Lemma in_order_track : forall l, in_order l -> exists hi, track 0 l hi.
Proof.
  assert (G : forall l pre, in_order (pre ++ l) -> forall m, (forall n e r, l = (n, Some e) :: r -> m <= n) \/ True ->
     (m = fold_right Nat.max 0 (map fst pre)) -> exists hi, track m l hi).
  { induction l as [|[n [e|]] l IH]; intros pre I m _ Em; [exists m; now constructor| |].
    - destruct (I pre n e l eq_refl) as [L1 F]. assert (Lm : m <= n).
      { subst m. clear - F. induction F as [|x pre Hx F IH]; cbn [map fold_right]; lia. }
      destruct (IH (pre ++ [(n, Some e)])) with (m := fold_right Nat.max 0 (map fst (pre ++ [(n, Some e)]))) as (hi & T); [now rewrite <- app_assoc|now right|reflexivity|].
      exists hi. constructor; [exact Lm|lia|]. eapply track_lower; [exact T|]. clear. induction pre as [|x pre IH]; cbn [map app fold_right fst]; lia.
    - destruct (IH (pre ++ [(n, None)])) with (m := fold_right Nat.max 0 (map fst (pre ++ [(n, @None str)]))) as (hi & T); [now rewrite <- app_assoc|now right|reflexivity|].
      exists hi. econstructor; [| |exact T]; subst m; clear; induction pre as [|x pre IH]; cbn [map app fold_right fst]; lia. }
  intros l I. apply (G l []); [exact I|now right|reflexivity].
Qed.

(** ** Items *)
Definition line_site (l : pyline) : site := (p_lineno l, numbered_code l).
Definition item_sites (i : item) : list site :=
  match i with
  | IIndent | IDedent => []
  | IText ln _ _ => [(ln, None)]
  | ILines ln ps => map (fun p => (ln, match ln with 0 => None | _ => code_of (snd p) end)) ps
  end.
Notation sites_of := (flat_map item_sites).
Lemma sites_app : forall a b, sites_of (a ++ b) = sites_of a ++ sites_of b.
Proof. intros. apply flat_map_app. Qed.
Lemma generate_sites : forall l n, map line_site (generate_from n l) = sites_of l.
Proof.
  induction l as [|i l IH]; intros n; [reflexivity|]. cbn [flat_map]. destruct i as [| |ln t g|ln ps]; cbn [generate_from item_sites app map]; rewrite ?map_app, ?IH; try reflexivity.
  - f_equal. unfold line_site, numbered_code. cbn. destruct ln; [reflexivity|]. unfold text_stmt. now destruct (truthy_guard g).
  - f_equal. rewrite map_map. apply map_ext. intros p. unfold line_site, numbered_code. cbn. now destruct ln.
Qed.

(** [fits k l s]: the items [l] hold the code of [s], whenever that is in order and line [k] was
    reached before. *)
Definition fits (k : nat) (l : list item) (s : list site) : Prop :=
  forall m hi, k <= m -> track m s hi -> track m (sites_of l) hi /\ code_sites (sites_of l) = code_sites s.
Lemma fits_app : forall k a s b s', fits k a s -> fits k b s' -> fits k (a ++ b) (s ++ s').
Proof.
  intros k a s b s' A B m hi Lk T. apply track_split in T as (mid & T1 & T2). destruct (A _ _ Lk T1) as [A1 A2].
  destruct (B mid hi) as [B1 B2]; [apply track_le in T1; lia|exact T2|].
  rewrite sites_app, !code_app. split; [eapply track_app; eassumption|congruence].
Qed.
Lemma fits_weaken : forall k k' l s, k <= k' -> fits k l s -> fits k' l s.
Proof. intros k k' l s Lk F m hi Lm T. apply F; [lia|exact T]. Qed.
Lemma fits_optimize : forall k l s, fits k l s -> fits k (optimize l) s.
Proof.
  assert (G : forall l last, (forall m hi, track m (sites_of (match last with Some i => [i] | None => [] end ++ l)) hi -> track m (sites_of (optimize_from last l)) hi) /\
     code_sites (sites_of (optimize_from last l)) = code_sites (sites_of (match last with Some i => [i] | None => [] end ++ l))).
  { induction l as [|i l IH]; intros last.
    - cbn [optimize_from]. rewrite app_nil_r. destruct last; split; auto.
    - assert (D : (forall m hi, track m (sites_of (match last with Some i => [i] | None => [] end ++ i :: l)) hi ->
                    track m (sites_of (match last with Some n => n :: optimize_from (Some i) l | None => optimize_from (Some i) l end)) hi) /\
                  code_sites (sites_of (match last with Some n => n :: optimize_from (Some i) l | None => optimize_from (Some i) l end)) =
                  code_sites (sites_of (match last with Some i => [i] | None => [] end ++ i :: l))).
      { destruct (IH (Some i)) as [I1 I2]. destruct last as [n|]; cbn [app] in *.
        - change (n :: optimize_from (Some i) l) with ([n] ++ optimize_from (Some i) l). change (n :: i :: l) with ([n] ++ i :: l). rewrite !sites_app, !code_app. split.
          + intros m hi T. apply track_split in T as (mid & T1 & T2). eapply track_app; [exact T1|]. now apply I1.
          + now rewrite I2.
        - split; [exact I1|exact I2]. }
      destruct i as [| |ln t g|ln ps]; cbn [optimize_from]; destruct last as [[| |ln0 t0 g0|ln0 ps0]|]; try exact D.
      destruct (oseqb g0 g); [|exact D]. destruct (IH (Some (IText ln0 (t0 ++ t) g0))) as [I1 I2]. split.
      + intros m hi T. apply I1. cbn [app flat_map item_sites] in *. apply track_plain in T as (m1 & A & B & T). apply track_plain in T as (m2 & A2 & B2 & T).
        apply (tr_plain m m1); [exact A|exact B|]. eapply track_lower; eassumption.
      + rewrite I2. reflexivity. }
  intros k l s F m hi Lm T. destruct (F m hi Lm T) as [A B]. destruct (G l None) as [G1 G2]. cbn [app] in *. split; [now apply G1|]. unfold optimize. now rewrite G2.
Qed.

(** Lines without code, at a place already reached. *)
Lemma track_quiet : forall m l, Forall (fun x : site => fst x <= m /\ snd x = None) l -> track m l m.
Proof. intros m l F. induction F as [|[n c] l [A B] F IH]; cbn in *; subst; [now constructor|]. apply (tr_plain m m); [lia|lia|exact IH]. Qed.
Lemma quiet_code : forall l, Forall (fun x : site => snd x = None) l -> code_sites l = [].
Proof. intros l F. induction F as [|[n c] l A F IH]; cbn in *; subst; auto. Qed.
Lemma fits_quiet : forall k l, Forall (fun x : site => fst x <= k /\ snd x = None) (sites_of l) -> fits k l [].
Proof.
  intros k l F m hi Lk T. cbn [code_sites]. split.
  - apply track_le in T. apply (track_higher m _ m); [|exact T]. apply track_quiet. eapply Forall_impl; [|exact F]. cbn. intros x [A B]. split; [lia|exact B].
  - apply quiet_code. eapply Forall_impl; [|exact F]. cbn. tauto.
Qed.
(** A node with a line: what follows begins there. *)
Lemma fits_lines : forall ln ps l s, fits ln l s -> ps <> [] -> fits 0 (ILines ln (at0 ps) :: l) (map (fun p => (ln, code_of p)) ps ++ s).
Proof.
  intros ln ps l s F Np m hi Lm T. cbn [flat_map].
  assert (E : item_sites (ILines ln (at0 ps)) = map (fun p => (ln, code_of p)) ps).
  { clear - T. cbn [item_sites]. unfold at0. rewrite map_map. destruct ln as [|n]; [|reflexivity].
    revert m T. induction ps as [|p ps IH]; intros m T; [reflexivity|]. cbn [map app] in *. destruct (code_of p) as [e|] eqn:Ep; cbn [snd].
    - apply track_code in T as (_ & N & _). congruence.
    - apply track_plain in T as (m' & _ & _ & T). f_equal. eapply IH; exact T. }
  rewrite E, !code_app. apply track_split in T as (mid & T1 & T2).
  assert (Lm2 : ln <= mid).
  { clear - T1 Np. destruct ps as [|p ps]; [congruence|]. cbn [map] in T1. destruct (code_of p) as [e|].
    - apply track_code in T1 as (_ & _ & T). now apply track_le in T.
    - apply track_plain in T1 as (m' & _ & Lm & T). apply track_le in T. lia. }
  destruct (F mid hi Lm2 T2) as [F1 F2]. split; [eapply track_app; eassumption|now rewrite F2].
Qed.

(** ** The table *)
Lemma reported_app : forall a b, reported (a ++ b) = reported a ++ map (fun r => Z.max (fold_left Z.max (map (fun l => Z.of_nat (p_lineno l)) a) 0%Z) r) (reported b).
Proof.
  assert (G0 : forall l i last k, map snd (py_linenos_from i (Z.max k last) l) = map (Z.max k) (map snd (py_linenos_from i last l))).
  { induction l as [|x l IH]; intros i last k; cbn [py_linenos_from map snd]; [reflexivity|]. f_equal; [lia|]. rewrite <- IH. do 2 f_equal. lia. }
  assert (G1 : forall l i i' last, map snd (py_linenos_from i last l) = map snd (py_linenos_from i' last l)).
  { induction l as [|x l IH]; intros i i' last; cbn [py_linenos_from map snd]; [reflexivity|]. f_equal. apply IH. }
  assert (G2 : forall a b i last, (0 <= last)%Z -> map snd (py_linenos_from i last (a ++ b)) =
     map snd (py_linenos_from i last a) ++ map (Z.max (fold_left Z.max a last)) (map snd (py_linenos_from 0 0 b))).
  { induction a as [|x a IH]; intros b i last Hl; cbn [app py_linenos_from map snd fold_left].
    - rewrite <- G0. rewrite (G1 b 0%Z i). do 2 f_equal. lia.
    - f_equal. apply IH. lia. }
  intros a b. unfold reported, py_linenos. rewrite map_app. rewrite G2 by lia. reflexivity.
Qed.
Lemma reported_length : forall l, length (reported l) = length l.
Proof.
  intros l. unfold reported, py_linenos. rewrite map_length.
  assert (G : forall l i k, length (py_linenos_from i k l) = length l) by (induction l0; intros; cbn [py_linenos_from length]; auto).
  rewrite G. apply map_length.
Qed.
Definition coded (r : list Z) (l : list pyline) : list (Z * str) :=
  flat_map (fun x : Z * pyline => match numbered_code (snd x) with Some e => [(fst x, e)] | None => [] end) (combine r l).
Definition in_Z (x : nat * str) : Z * str := (Z.of_nat (fst x), snd x).
Lemma track_reported : forall lines m hi, track m (map line_site lines) hi -> forall i,
  coded (map snd (py_linenos_from i (Z.of_nat m) (map (fun l => Z.of_nat (p_lineno l)) lines))) lines = map in_Z (code_sites (map line_site lines)).
Proof.
  induction lines as [|l lines IH]; intros m hi T i; [reflexivity|]. unfold line_site in T at 1. cbn [map] in T. unfold coded in *. cbn [map py_linenos_from snd combine flat_map code_sites].
  unfold line_site at 1. destruct (numbered_code l) as [e|] eqn:En; cbn [fst snd].
  - apply track_code in T as (A & B & H6). cbn [app map]. f_equal; [unfold in_Z; cbn [fst snd]; f_equal; lia|]. rewrite <- (IH _ _ H6 (i + 1)%Z). do 3 f_equal. f_equal. lia.
  - apply track_plain in T as (m' & A & B & H6). cbn [app]. rewrite <- (IH m' hi H6 (i+1)%Z).
    (* the table may run behind [m'] *)
    assert (G : forall lines k k' hi j, (k <= k')%nat -> track k' (map line_site lines) hi ->
       coded (map snd (py_linenos_from j (Z.of_nat k) (map (fun l => Z.of_nat (p_lineno l)) lines))) lines =
       coded (map snd (py_linenos_from j (Z.of_nat k') (map (fun l => Z.of_nat (p_lineno l)) lines))) lines).
    { clear. induction lines as [|l lines IH]; intros k k' hi j Lk T; [reflexivity|]. unfold line_site in T at 1. cbn [map] in T. unfold coded in *.
      cbn [map py_linenos_from snd combine flat_map]. rewrite <- !Nat2Z.inj_max. destruct (numbered_code l) as [e|] eqn:En; cbn [fst snd]; [apply track_code in T as (A & B & H6)|apply track_plain in T as (m' & A & B & H6)].
      - replace (Nat.max k (p_lineno l)) with (p_lineno l) by lia. replace (Nat.max k' (p_lineno l)) with (p_lineno l) by lia. reflexivity.
      - cbn [app]. transitivity (coded (map snd (py_linenos_from (j + 1) (Z.of_nat m') (map (fun l => Z.of_nat (p_lineno l)) lines))) lines).
        + apply (IH _ _ hi); [lia|exact H6].
        + symmetry. apply (IH _ _ hi); [lia|exact H6]. }
    rewrite <- Nat2Z.inj_max. apply (G lines _ _ hi); [lia|exact H6].
Qed.
