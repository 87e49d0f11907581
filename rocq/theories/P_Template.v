(** * Lookups in globals *)

From Coq Require Import Ascii String List NArith ZArith Bool Lia Arith.
From Verif Require Import PyStr PyStrLemmas M_Template S_Template.
Import ListNotations.
Open Scope list_scope.

Lemma get_set : forall A k k' (v : A) d, get k (set k' v d) = if seqb k k' then Some v else get k d.
Proof.
  intros A k k' v. induction d as [|[k2 v2] d IH]; cbn [set get]; [reflexivity|].
  destruct (seqb_spec k' k2) as [->|Ne]; cbn [get].
  - destruct (seqb_spec k k2); reflexivity.
  - rewrite IH. destruct (seqb_spec k k2) as [->|Ne2]; [|reflexivity]. destruct (seqb_spec k2 k'); [congruence|reflexivity].
Qed.
Lemma get_in : forall A k (v : A) d, a_dict d -> (get k d = Some v <-> In (k, v) d).
Proof.
  intros A k v. induction d as [|[k2 v2] d IH]; intros D; cbn [get In]; [split; [discriminate|intros []]|].
  inversion D as [|? ? N1 N2]; subst. specialize (IH N2). destruct (seqb_spec k k2) as [->|Ne].
  - split; [intros E; left; congruence|]. intros [E|I1]; [congruence|]. exfalso. apply N1. apply (in_map fst) in I1. exact I1.
  - rewrite IH. split; [now right|]. intros [E|I1]; [congruence|exact I1].
Qed.
Lemma get_none : forall A k (d : list (str * A)), get k d = None <-> unknown k d.
Proof.
  intros A k. unfold unknown, keys. induction d as [|[k2 v2] d IH]; cbn [get map fst In]; [tauto|].
  destruct (seqb_spec k k2) as [->|Ne]; [split; [discriminate|tauto]|]. rewrite IH. split; [|tauto]. intros N0 [E|I1]; [now apply Ne|now apply N0].
Qed.
Lemma get_some_in : forall A k (v : A) d, get k d = Some v -> In (k, v) d.
Proof.
  intros A k v. induction d as [|[k2 v2] d IH]; cbn [get]; [discriminate|]. destruct (seqb_spec k k2) as [->|Ne]; intros E; [left; congruence|right; auto].
Qed.
Lemma keys_set : forall A k (v : A) d, keys (set k v d) = if smem k (keys d) then keys d else keys d ++ [k].
Proof.
  intros A k v. unfold keys. induction d as [|[k2 v2] d IH]; cbn [set map fst]; [reflexivity|].
  unfold smem in *. cbn [existsb]. destruct (seqb_spec k k2) as [->|Ne]; cbn [map fst orb]; [reflexivity|]. rewrite IH.
  now destruct (existsb (seqb k) (map fst d)).
Qed.
Lemma set_dict : forall A k (v : A) d, a_dict d -> a_dict (set k v d).
Proof.
  intros A k v d D. unfold a_dict. rewrite keys_set. destruct (smem k (keys d)) eqn:E; [exact D|]. apply smem_notIn in E.
  clear - D E. unfold a_dict in D. induction (keys d) as [|x l IH]; cbn [app]; [repeat constructor; intros []|]. inversion D as [|? ? N1 N2]; subst. constructor.
  - intros I1. apply in_app_or in I1 as [I1|[->|[]]]; [contradiction|]. apply E. now left.
  - apply IH; [exact N2|]. intros I1. apply E. now right.
Qed.

Section Names.
Variable obj : Type.
Variable fn : Type.
Notation gval := (gval obj fn).
Notation dict := (dict obj fn).
Notation cls := (cls obj fn).
Notation heap := (heap obj fn).
Notation update := (update obj fn).
Notation globals := (globals obj fn).
Notation attrs := (attrs obj fn).
Notation new := (new obj fn).
Notation stands_for := (stands_for obj fn).

Lemma update_dict : forall (d' d : dict), a_dict d -> a_dict (update d d').
Proof. unfold M_Template.update. induction d' as [|kv d' IH]; intros d D; [exact D|]. cbn [fold_left]. apply IH. now apply set_dict. Qed.
Lemma get_update : forall k (d' d : dict), a_dict d' -> get k (update d d') = match get k d' with Some v => Some v | None => get k d end.
Proof.
  intros k. unfold M_Template.update. induction d' as [|[k2 v2] d' IH]; intros d D; [reflexivity|]. inversion D as [|? ? N1 N2]; subst.
  cbn [fold_left fst snd get]. rewrite IH by assumption. rewrite get_set. destruct (seqb_spec k k2) as [->|Ne]; [|reflexivity].
  apply (get_none _ k2 d') in N1. now rewrite N1.
Qed.
Lemma get_bound : forall i k (ms : list (str * fn)), get k (bound fn i ms) = option_map (fun f => TplFunc fn (Code fn f) i) (get k ms).
Proof. intros i k. induction ms as [|[k2 f] ms IH]; [reflexivity|]. cbn [bound map get fst snd]. destruct (seqb k k2); [reflexivity|exact IH]. Qed.
Lemma get_map : forall A B (g : A -> B) k (d : list (str * A)), get k (map (fun kv => (fst kv, g (snd kv))) d) = option_map g (get k d).
Proof. intros A B g k. induction d as [|[k2 f] d IH]; [reflexivity|]. cbn [map get fst snd]. destruct (seqb k k2); [reflexivity|exact IH]. Qed.
Lemma keys_map : forall A B (g : A -> B) (d : list (str * A)), keys (map (fun kv => (fst kv, g (snd kv))) d) = keys d.
Proof. intros. unfold keys. now rewrite map_map. Qed.
Lemma keys_bound : forall i (ms : list (str * fn)), keys (bound fn i ms) = keys ms.
Proof. intros. unfold keys, bound. now rewrite map_map. Qed.
Lemma get_helpers : forall i k v, get k (helpers obj fn i) = Some v <-> helper obj fn i k v.
Proof.
  intros i k v. split.
  - intros H. apply get_some_in in H. cbn [helpers In] in H. repeat destruct H as [H|H]; try (assert (E := f_equal fst H); assert (E2 := f_equal snd H); cbn [fst snd] in E, E2; subst; constructor). destruct H.
  - intros H. destruct H; reflexivity.
Qed.
Lemma helpers_none : forall i k, get k (helpers obj fn i) = None <-> forall v, ~ helper obj fn i k v.
Proof.
  intros i k. split.
  - intros E v H. apply get_helpers in H. congruence.
  - intros H. destruct (get k (helpers obj fn i)) as [v|] eqn:E; [|reflexivity]. apply get_helpers in E. now destruct (H v).
Qed.

(** The globals of a new instance, before [_] and [value_of] are set. *)
Definition first_globals (i : nat) (c : cls) (ctx : dict) : dict :=
  update (update (update (helpers obj fn i) (base_globals _ _ c)) (map (fun kf => (fst kf, GFun obj fn (snd kf))) (bound fn i (methods _ _ c)))) ctx.
Lemma get_first : forall i c ctx k, a_class obj fn c -> a_dict ctx ->
  get k (first_globals i c ctx) =
  match get k ctx with Some v => Some v | None =>
  match get k (methods _ _ c) with Some f => Some (function_of obj fn f i) | None =>
  match get k (base_globals _ _ c) with Some v => Some v | None => get k (helpers obj fn i) end end end.
Proof.
  intros i c ctx k [Dm Db] Dc. unfold first_globals. rewrite get_update by assumption. destruct (get k ctx); [reflexivity|].
  rewrite get_update; [|unfold a_dict; rewrite keys_map, keys_bound; exact Dm]. rewrite get_map, get_bound. destruct (get k (methods _ _ c)); [reflexivity|].
  cbn [option_map]. now rewrite get_update.
Qed.
Lemma first_stands : forall i c ctx k v, a_class obj fn c -> a_dict ctx -> (get k (first_globals i c ctx) = Some v <-> stands_for c ctx i k v).
Proof.
  intros i c ctx k v C Dc. rewrite get_first by assumption. destruct C as [Dm Db]. destruct (get k ctx) as [v1|] eqn:E1.
  - apply (get_in _ k v1 ctx Dc) in E1. split; [intros E; apply sf_context; congruence|].
    intros H. assert (Ik : In k (keys ctx)) by (apply (in_map fst) in E1; exact E1).
    destruct H as [v H|f U|v U|v U]; [|exfalso; apply U; exact Ik..]. apply (get_in _ k v ctx Dc) in H. apply (get_in _ k v1 ctx Dc) in E1. congruence.
  - pose proof E1 as U1. apply get_none in U1. assert (NC : forall v, ~ In (k, v) ctx) by (intros v0 I1; apply U1; apply (in_map fst) in I1; exact I1).
    destruct (get k (methods _ _ c)) as [f|] eqn:E2.
    + apply (get_in _ k f _ Dm) in E2. assert (Ik : In k (keys (methods _ _ c))) by (apply (in_map fst) in E2; exact E2).
      split; [intros E; assert (v = function_of obj fn f i) by congruence; subst; now apply sf_function|].
      intros H. destruct H as [v H|f' U H|v U U2|v U U2]; [now destruct (NC v)| |contradiction..]. apply (get_in _ k f' _ Dm) in H. apply (get_in _ k f _ Dm) in E2. congruence.
    + pose proof E2 as U2. apply get_none in U2. assert (NM : forall v, ~ In (k, v) (methods _ _ c)) by (intros v0 I1; apply U2; apply (in_map fst) in I1; exact I1).
      destruct (get k (base_globals _ _ c)) as [v2|] eqn:E3.
      * apply (get_in _ k v2 _ Db) in E3. assert (Ik : In k (keys (base_globals _ _ c))) by (apply (in_map fst) in E3; exact E3).
        split; [intros E; apply sf_base; congruence|]. intros H. destruct H as [v H|f' U H|v U U3 H|v U U3 U4]; [now destruct (NC v)|now destruct (NM f')| |contradiction].
        apply (get_in _ k v _ Db) in H. apply (get_in _ k v2 _ Db) in E3. congruence.
      * pose proof E3 as U3. apply get_none in U3. rewrite get_helpers. split; [intros H; now apply sf_helper|].
        intros H. destruct H as [v H|f' U H|v U U4 H|v U U4 U5 H]; [now destruct (NC v)|now destruct (NM f')| |exact H].
        exfalso. apply U3. apply (in_map fst) in H. exact H.
Qed.
Lemma first_dict : forall i c ctx, a_dict (first_globals i c ctx).
Proof. intros. unfold first_globals. repeat apply update_dict. repeat constructor; cbn; intuition discriminate. Qed.
Lemma first_gettext : forall i c ctx, a_class obj fn c -> a_dict ctx -> exists v, get (L "gettext") (first_globals i c ctx) = Some v.
Proof.
  intros i c ctx C Dc. rewrite get_first by assumption. destruct (get _ ctx); [eauto|]. destruct (get _ (methods _ _ c)); [eauto|]. destruct (get _ (base_globals _ _ c)); [eauto|].
  eexists. reflexivity.
Qed.
Lemma get_init : forall i c ctx k, a_class obj fn c -> a_dict ctx ->
  get k (init_globals obj fn i c ctx) =
  if seqb k (L "value_of") then Some (GValueOf obj fn i) else
  if seqb k (L "_") then get (L "gettext") (first_globals i c ctx) else get k (first_globals i c ctx).
Proof.
  intros i c ctx k C Dc. unfold init_globals. fold (first_globals i c ctx). destruct (first_gettext i c ctx C Dc) as [v E]. rewrite E, !get_set.
  destruct (seqb k (L "value_of")); [reflexivity|]. destruct (seqb k (L "_")); reflexivity.
Qed.
Lemma init_dict : forall i c ctx, a_dict (init_globals obj fn i c ctx).
Proof.
  intros i c ctx. unfold init_globals. fold (first_globals i c ctx). apply set_dict. pose proof (first_dict i c ctx). destruct (get _ _); [now apply set_dict|assumption].
Qed.

(** ** The heap *)
Lemma put_length : forall (h : heap) i x, length (put obj fn h i x) = length h.
Proof. induction h as [|y h IH]; intros [|i] x; cbn [put length]; auto. Qed.
Lemma nth_put : forall (h : heap) i x j, nth_error (put obj fn h i x) j = if Nat.eqb i j then match nth_error h j with Some _ => Some x | None => None end else nth_error h j.
Proof.
  induction h as [|y h IH]; intros [|i] x [|j]; cbn [put nth_error Nat.eqb]; try reflexivity; [now destruct (Nat.eqb i j)|]. apply IH.
Qed.
Lemma globals_with : forall h i d j, i < length h -> globals (with_globals obj fn h i d) j = if Nat.eqb i j then d else globals h j.
Proof.
  intros h i d j Hi. unfold M_Template.globals, with_globals. destruct (nth_error h i) as [x|] eqn:E; [|apply nth_error_None in E; lia].
  rewrite nth_put. destruct (Nat.eqb_spec i j) as [<-|Ne]; [now rewrite E|reflexivity].
Qed.
Lemma attrs_with : forall h i d j, attrs (with_globals obj fn h i d) j = attrs h j.
Proof.
  intros h i d j. unfold M_Template.attrs, with_globals. destruct (nth_error h i) as [x|] eqn:E; [|reflexivity].
  rewrite nth_put. destruct (Nat.eqb_spec i j) as [<-|Ne]; [now rewrite E|reflexivity].
Qed.
Lemma attrs_set : forall h i a j, i < length h -> attrs (with_attrs obj fn h i a) j = if Nat.eqb i j then a else attrs h j.
Proof.
  intros h i d j Hi. unfold M_Template.attrs, with_attrs. destruct (nth_error h i) as [x|] eqn:E; [|apply nth_error_None in E; lia].
  rewrite nth_put. destruct (Nat.eqb_spec i j) as [<-|Ne]; [now rewrite E|reflexivity].
Qed.
Lemma globals_attrs : forall h i a j, globals (with_attrs obj fn h i a) j = globals h j.
Proof.
  intros h i d j. unfold M_Template.globals, with_attrs. destruct (nth_error h i) as [x|] eqn:E; [|reflexivity].
  rewrite nth_put. destruct (Nat.eqb_spec i j) as [<-|Ne]; [now rewrite E|reflexivity].
Qed.
Lemma length_with : forall h i d, length (with_globals obj fn h i d) = length h.
Proof. intros. unfold with_globals. destruct (nth_error h i); [apply put_length|reflexivity]. Qed.
Lemma length_attrs : forall h i a, length (with_attrs obj fn h i a) = length h.
Proof. intros. unfold with_attrs. destruct (nth_error h i); [apply put_length|reflexivity]. Qed.
Definition same_shape (h h' : heap) : Prop :=
  length h' = length h /\ forall j x, nth_error h j = Some x -> exists x', nth_error h' j = Some x' /\ i_class _ _ x' = i_class _ _ x /\ i_context _ _ x' = i_context _ _ x.
Lemma shape_refl : forall h, same_shape h h.
Proof. intros h. split; [reflexivity|]. eauto. Qed.
Lemma shape_trans : forall a b c, same_shape a b -> same_shape b c -> same_shape a c.
Proof.
  intros a b c [L1 H1] [L2 H2]. split; [congruence|]. intros j x E. destruct (H1 j x E) as (y & E1 & C1 & X1). destruct (H2 j y E1) as (z & E2 & C2 & X2). exists z. repeat split; congruence.
Qed.
Lemma shape_with : forall h i d, same_shape h (with_globals obj fn h i d).
Proof.
  intros h i d. split; [apply length_with|]. intros j x E. unfold with_globals. destruct (nth_error h i) as [y|] eqn:Ei; [|eauto].
  rewrite nth_put. destruct (Nat.eqb_spec i j) as [<-|Ne]; [|eauto]. rewrite E. assert (y = x) by congruence. subst. eexists. split; [reflexivity|]. now split.
Qed.
Lemma shape_attrs : forall h i d, same_shape h (with_attrs obj fn h i d).
Proof.
  intros h i d. split; [apply length_attrs|]. intros j x E. unfold with_attrs. destruct (nth_error h i) as [y|] eqn:Ei; [|eauto].
  rewrite nth_put. destruct (Nat.eqb_spec i j) as [<-|Ne]; [|eauto]. rewrite E. assert (y = x) by congruence. subst. eexists. split; [reflexivity|]. now split.
Qed.
Lemma globals_new : forall h c ctx j, globals (fst (new h c ctx)) j =
  if Nat.eqb j (length h) then init_globals obj fn j c (context_of obj fn h ctx) else globals h j.
Proof.
  intros h c ctx j. unfold M_Template.globals, M_Template.new. cbn [fst]. destruct (Nat.eqb_spec j (length h)) as [->|Ne].
  - rewrite nth_error_app2 by lia. now rewrite Nat.sub_diag.
  - destruct (Nat.lt_ge_cases j (length h)) as [Lt|Ge]; [now rewrite nth_error_app1|].
    assert (nth_error h j = None) as -> by (apply nth_error_None; lia). now rewrite (proj2 (nth_error_None _ _)) by (rewrite app_length; cbn [length]; lia).
Qed.
Lemma attrs_new : forall h c ctx j, attrs (fst (new h c ctx)) j =
  if Nat.eqb j (length h) then bound fn j (methods _ _ c) else attrs h j.
Proof.
  intros h c ctx j. unfold M_Template.attrs, M_Template.new. cbn [fst]. destruct (Nat.eqb_spec j (length h)) as [->|Ne].
  - rewrite nth_error_app2 by lia. now rewrite Nat.sub_diag.
  - destruct (Nat.lt_ge_cases j (length h)) as [Lt|Ge]; [now rewrite nth_error_app1|].
    assert (nth_error h j = None) as -> by (apply nth_error_None; lia). now rewrite (proj2 (nth_error_None _ _)) by (rewrite app_length; cbn [length]; lia).
Qed.
End Names.
