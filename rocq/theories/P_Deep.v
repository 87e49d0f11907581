(** * Proofs: looking for an inherited function

    A search as long as there are objects finds what any longer one finds. *)

From Coq Require Import Ascii String List Arith NArith ZArith Bool Lia.
From Verif Require Import PyStr PyStrLemmas M_Values M_Template P_Template.
Import ListNotations.
Open Scope list_scope.
Open Scope nat_scope.

Section Deep.
Variables obj fn : Type.
Variable builtin : str -> option (gval obj fn).
Hypothesis Hbuiltin : forall k i, builtin k <> Some (GInst _ _ i).
Notation heap := (heap obj fn).

(** A function that is looked for in the parent is looked for under its name. *)
Definition tidy_attrs (a : list (str * tplfun fn)) : Prop := forall k t k', get k a = Some t -> f_code _ t = Trampoline _ k' -> k' = k.
Definition tidy (h : heap) : Prop := forall i, tidy_attrs (attrs _ _ h i).

Definition step (h : heap) (k : str) (i : nat) : option nat :=
  match resolve _ _ builtin h i (L "parent") with
  | Ok (GInst _ _ p) =>
      match get k (attrs _ _ h p) with
      | Some t => match f_code _ t with Trampoline _ _ => Some (f_inst _ t) | Code _ _ => None end
      | None => None
      end
  | _ => None
  end.
Fixpoint walk (h : heap) (k : str) (f : nat) (i : nat) : option nat :=
  match f with O => Some i | S f' => match step h k i with Some j => walk h k f' j | None => None end end.

Lemma step_lt : forall h k i j, step h k i = Some j -> i < length h.
Proof.
  intros h k i j E. unfold step, resolve, globals in E. destruct (nth_error h i) as [x|] eqn:X; [apply nth_error_Some; congruence|]. cbn [get] in E.
  destruct (builtin (L "parent")) as [v|] eqn:B; [|discriminate]. destruct v; try discriminate. now apply Hbuiltin in B.
Qed.
Lemma target_step : forall h k i f, tidy h ->
  target _ _ builtin (S f) h (TplFunc _ (Trampoline _ k) i) =
  match step h k i with
  | Some j => target _ _ builtin f h (TplFunc _ (Trampoline _ k) j)
  | None => target _ _ builtin 1 h (TplFunc _ (Trampoline _ k) i)
  end.
Proof.
  intros h k i f T. cbn [target f_code f_inst]. unfold step, getattr. destruct (resolve _ _ builtin h i (L "parent")) as [v|]; [|reflexivity]. cbn [rbind]. destruct v; try reflexivity. cbn [as_instance rbind].
  destruct (get k (attrs _ _ h i0)) as [[c j]|] eqn:G; [|reflexivity]. cbn [rbind f_code f_inst]. destruct c as [c|k']; [now destruct f|]. now rewrite (T i0 k _ k' G eq_refl).
Qed.
Lemma walk_app : forall h k a b i j, walk h k a i = Some j -> walk h k (a + b) i = walk h k b j.
Proof. intros h k. induction a as [|a IH]; intros b i j E; cbn in E |- *; [now injection E as ->|]. destruct (step h k i) as [j'|]; [|discriminate]. now apply IH. Qed.
Lemma walk_prefix : forall h k a b i, walk h k (a + b) i <> None -> walk h k a i <> None.
Proof. intros h k. induction a as [|a IH]; intros b i E; cbn in E |- *; [discriminate|]. destruct (step h k i) as [j'|]; [|exact E]. now apply (IH b). Qed.

(** A walk that ends has at most as many steps as there are objects. *)
Lemma walk_short : forall h k f i, (forall f', f' < f -> walk h k f' i <> None) -> walk h k f i = None -> f <= S (length h).
Proof.
  intros h k f i Hf E. destruct f as [|f]; [lia|]. apply le_n_S.
  set (l := map (fun a => walk h k a i) (seq 0 f)).
  assert (ND : NoDup l).
  { apply NoDup_nth_error. intros a b La Eab. unfold l in *. rewrite map_length, seq_length in La. rewrite !nth_error_map in Eab.
    assert (NS : forall a, a < f -> nth_error (seq 0 f) a = Some a).
    { intros a0 L0. rewrite (nth_error_nth' (seq 0 f) 0) by (now rewrite seq_length). rewrite seq_nth by exact L0. reflexivity. }
    assert (Lb : b < f).
    { destruct (nth_error (seq 0 f) b) as [y|] eqn:Y; [apply (f_equal (fun o => match o with Some _ => true | None => false end)) in Y; rewrite <- (seq_length f 0); apply nth_error_Some; now destruct (nth_error (seq 0 f) b)|].
      rewrite (NS a La) in Eab. discriminate. }
    rewrite (NS a La), (NS b Lb) in Eab. cbn [option_map] in Eab. injection Eab as Eab.
    assert (Key : forall a b, a < b -> b < f -> walk h k a i = walk h k b i -> False).
    { intros c d L1 L2 Ecd. destruct (walk h k d i) as [j|] eqn:D; [|now apply (Hf d); [lia|]].
      apply (Hf (c + (S f - d))); [lia|]. rewrite (walk_app _ _ _ _ _ _ Ecd). replace (S f) with (d + (S f - d)) in E by lia. now rewrite (walk_app _ _ _ _ _ _ D) in E. }
    destruct (Nat.lt_trichotomy a b) as [C|[C|C]]; [exfalso; now apply (Key a b)|exact C|exfalso; now apply (Key b a)]. }
  assert (IN : incl l (map (@Some nat) (seq 0 (length h)))).
  { intros x I. unfold l in I. apply in_map_iff in I as (a & <- & I). apply in_seq in I as [_ I]. cbn in I. destruct (walk h k a i) as [j|] eqn:A; [|exfalso; now apply (Hf a); [lia|]].
    apply in_map. apply in_seq. split; [lia|]. cbn. assert (N : walk h k (a + 1) i <> None) by (apply Hf; lia). rewrite (walk_app _ _ _ _ _ _ A) in N. cbn [walk] in N. destruct (step h k j) as [j'|] eqn:St; [|now elim N]. now apply step_lt in St. }
  pose proof (NoDup_incl_length ND IN) as LL. unfold l in LL. now rewrite !map_length, !seq_length in LL.
Qed.
Lemma target_long : forall h k f i, tidy h -> walk h k f i <> None -> target _ _ builtin f h (TplFunc _ (Trampoline _ k) i) = Raise "RecursionError".
Proof.
  intros h k f. induction f as [|f IH]; intros i T W; [reflexivity|]. rewrite (target_step _ _ _ _ T). cbn [walk] in W. destruct (step h k i) as [j|]; [now apply IH|now elim W].
Qed.
Lemma target_ends : forall h k f i g, tidy h -> walk h k f i = None -> f <= g -> target _ _ builtin g h (TplFunc _ (Trampoline _ k) i) = target _ _ builtin f h (TplFunc _ (Trampoline _ k) i).
Proof.
  intros h k f. induction f as [|f IH]; intros i g T W Le; [discriminate|]. destruct g as [|g]; [lia|]. rewrite (target_step h k i g T), (target_step h k i f T). cbn [walk] in W. destruct (step h k i) as [j|]; [|reflexivity]. apply IH; [exact T|exact W|lia].
Qed.
Lemma walk_least : forall h k f i, walk h k f i = None -> exists f0, f0 <= f /\ walk h k f0 i = None /\ forall f', f' < f0 -> walk h k f' i <> None.
Proof.
  intros h k. induction f as [|f IH]; intros i W; [discriminate|]. destruct (walk h k f i) as [j|] eqn:E.
  - exists (S f). split; [lia|]. split; [exact W|]. intros f' L W'. assert (N : walk h k f' i <> None) by (apply (walk_prefix _ _ f' (f - f')); replace (f' + (f - f')) with f by lia; congruence). contradiction.
  - destruct (IH i E) as (f0 & L & A & B). exists f0. split; [lia|]. now split.
Qed.
Theorem target_enough : forall h t f, tidy h -> S (length h) <= f -> target _ _ builtin f h t = target _ _ builtin (S (length h)) h t.
Proof.
  intros h [[c|k] i] f T Le; [now destruct f|]. destruct (walk h k f i) as [j|] eqn:W.
  - rewrite (target_long h k f i T) by congruence. symmetry. apply target_long; [exact T|]. apply (walk_prefix _ _ _ (f - S (length h))). replace (S (length h) + (f - S (length h))) with f by lia. congruence.
  - destruct (walk_least h k f i W) as (f0 & L & A & B). pose proof (walk_short h k f0 i B A) as Sh. rewrite (target_ends h k f0 i f T A L). symmetry. now apply target_ends.
Qed.

(** ** Objects are tidy *)
Lemma tidy_bound : forall i (ms : list (str * fn)), tidy_attrs (bound _ i ms).
Proof. intros i ms k t k' G C. induction ms as [|[k1 f] ms IH]; [discriminate|]. cbn [bound map get fst snd] in G. destruct (seqb k k1); [|now apply IH]. injection G as <-. discriminate. Qed.
Lemma tidy_with_globals : forall h i d, tidy h -> tidy (with_globals _ _ h i d).
Proof. intros h i d T j. rewrite attrs_with. apply T. Qed.
Lemma tidy_new : forall h c ctx, tidy h -> tidy (fst (new _ _ h c ctx)).
Proof.
  intros h c ctx T j. unfold new, attrs. cbn [fst]. specialize (T j). unfold attrs in T. destruct (Nat.lt_trichotomy j (length h)) as [L|[-> |L]].
  - now rewrite nth_error_app1.
  - rewrite nth_error_app2, Nat.sub_diag by lia. cbn [nth_error i_attrs]. apply tidy_bound.
  - rewrite nth_error_app2 by lia. destruct (j - length h) as [|[|q]] eqn:Q; [lia|intros k t k' G; discriminate..].
Qed.
Lemma tidy_with_attrs : forall h i a, tidy h -> tidy_attrs a -> tidy (with_attrs _ _ h i a).
Proof.
  intros h i a T A j. destruct (Nat.lt_ge_cases i (length h)) as [L|L].
  - rewrite attrs_set by exact L. destruct (Nat.eqb i j); [exact A|apply T].
  - unfold with_attrs. rewrite (proj2 (nth_error_None h i) L). apply T.
Qed.
Lemma tidy_set : forall a k i, tidy_attrs a -> tidy_attrs (set k (TplFunc _ (Trampoline _ k) i) a).
Proof.
  intros a k i T k1 t k' G C. rewrite get_set in G. destruct (seqb k1 k) eqn:E; [|now apply (T k1 t)].
  apply seqb_eq in E as ->. injection G as <-. cbn in C. congruence.
Qed.
Lemma tidy_inherit : forall i h kv, tidy h -> tidy (inherit _ _ i h kv).
Proof.
  intros i h [k v] T. unfold inherit. destruct (seqb k (L "__main__") || negb (is_fun _ _ v)); [exact T|].
  assert (T1 : tidy (if has k (globals _ _ h i) then h else with_globals _ _ h i (set k v (globals _ _ h i)))) by (destruct (has k (globals _ _ h i)); [exact T|now apply tidy_with_globals]).
  revert T1. generalize (if has k (globals _ _ h i) then h else with_globals _ _ h i (set k v (globals _ _ h i))). intros h1 T1. destruct (hasattr _ _ h1 i k); [exact T1|]. apply tidy_with_attrs; [exact T1|]. apply tidy_set, T1.
Qed.
Lemma tidy_extend : forall h i c hp, tidy h -> extend _ _ h i c = Ok hp -> tidy (fst hp).
Proof.
  intros h i c hp T E. unfold extend in E. destruct (nth_error h i) as [x|]; [|discriminate]. pose proof (tidy_new h c (i_context _ _ x) T) as T1. destruct (new _ _ h c (i_context _ _ x)) as [h1 p]. cbn [fst] in T1.
  match type of E with context [get (L "self") (globals _ _ ?H i)] => set (h4 := H) in E; assert (T4 : tidy h4) end.
  { unfold h4. apply tidy_with_globals, tidy_with_globals. assert (T2 : tidy (with_globals _ _ h1 p (update _ _ (globals _ _ h1 p) (overrides _ _ (globals _ _ h1 i))))) by (now apply tidy_with_globals).
    revert T2. generalize (with_globals _ _ h1 p (update _ _ (globals _ _ h1 p) (overrides _ _ (globals _ _ h1 i)))). intros h2. generalize (globals _ _ h2 p). intros d. revert h2. induction d as [|kv d IH]; intros h2 T2; [exact T2|]. cbn [fold_left]. apply IH. now apply tidy_inherit. }
  destruct (get (L "self") (globals _ _ h4 i)) as [s|]; [|discriminate]. injection E as <-. cbn [fst]. now apply tidy_with_globals, tidy_with_globals, tidy_with_globals.
Qed.
Lemma tidy_import : forall h name alias c g, tidy h -> tidy (fst (import_ _ _ h name alias c g)).
Proof.
  intros h name alias c g T. unfold import_. pose proof (tidy_new h c (GlobalsOf _ _ g) T) as T1. destruct (new _ _ h c (GlobalsOf _ _ g)) as [h1 r]. cbn [fst] in *. now apply tidy_with_globals.
Qed.
End Deep.
