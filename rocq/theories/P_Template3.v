(** * Chains of templates *)

From Coq Require Import Ascii String List NArith ZArith Bool Lia Arith.
From Verif Require Import PyStr PyStrLemmas M_Template S_Template P_Template P_Template2.
Import ListNotations.
Open Scope list_scope.

Section Names.
Variable obj : Type.
Variable fn : Type.
Variable builtin : str -> option (gval obj fn).
Notation gval := (gval obj fn).
Notation dict := (dict obj fn).
Notation cls := (cls obj fn).
Notation heap := (heap obj fn).
Notation update := (update obj fn).
Notation globals := (globals obj fn).
Notation attrs := (attrs obj fn).
Notation new := (new obj fn).
Notation is_fun := (is_fun obj fn).
Notation fun_of := (fun_of obj fn).
Notation GInst := (GInst obj fn).

Section Chain.
Variable cs : list cls.
Variable ctx : dict.
Hypothesis Cs : Forall (a_class obj fn) cs.
Hypothesis Ctx : a_dict ctx.

(** The globals of the instances: new, about to be extended, and extended. *)
Definition fresh (i : nat) (k : str) : option gval :=
  match nth_error cs i with Some c => get k (init_globals obj fn i c ctx) | None => None end.
Fixpoint pre (j : nat) (k : str) : option gval :=
  match j with
  | O => fresh 0 k
  | S j' => if seqb k (L "self") then fresh 0 (L "self") else if seqb k (L "local") then Some (GInst j) else if seqb k (L "child") then Some (GInst j')
            else or_else (fun_of k (pre j' k)) (fresh j k)
  end.
Definition offered (j : nat) (k : str) : option gval := fun_of k (or_else (fun_of k (pre j k)) (fresh (S j) k)).
Definition final (j : nat) (k : str) : option gval :=
  if seqb k (L "local") then Some (GInst j) else if seqb k (L "parent") then Some (GInst (S j)) else or_else (pre j k) (offered j k).
Definition methods_at (i : nat) : list (str * fn) := match nth_error cs i with Some c => methods _ _ c | None => [] end.
Definition attr_final (j : nat) (k : str) : option (tplfun fn) :=
  or_else (get k (bound fn j (methods_at j)))
    (match offered j k with Some _ => if smem k template_attributes then None else Some (TplFunc fn (Trampoline fn k) j) | None => None end).

Definition inv (h : heap) (j : nat) : Prop := length h = S j /\
  forall m, m <= j -> (exists x, nth_error h m = Some x /\ i_context _ _ x = Given _ _ ctx) /\ a_dict (globals h m) /\
    (forall k, get k (globals h m) = if m <? j then final m k else pre m k) /\
    (forall k, get k (attrs h m) = if m <? j then attr_final m k else get k (bound fn m (methods_at m))).

Lemma fun_at_of : forall k d, fun_at obj fn k d = fun_of k (get k d).
Proof. reflexivity. Qed.
Hypothesis Self : pre 0 (L "self") = Some (GInst 0).
Hypothesis Local : pre 0 (L "local") = Some (GInst 0).
Lemma pre_self : forall j, pre j (L "self") = Some (GInst 0).
Proof. intros [|j]; [exact Self|]. cbn [pre]. rewrite seqb_refl. exact Self. Qed.
Lemma pre_local : forall j, pre j (L "local") = Some (GInst j).
Proof. intros [|j]; [exact Local|]. reflexivity. Qed.

Lemma chain_step : forall h j c, inv h j -> nth_error cs (S j) = Some c ->
  exists h', exec_extend obj fn builtin h j c = Ok (h', S j) /\ inv h' (S j).
Proof.
  intros h j c [Lh H] Ec. destruct (H j (le_n j)) as ((x & Ex & Cx) & Dx & Gx & Ax).
  rewrite Nat.ltb_irrefl in Gx, Ax.
  unfold exec_extend, resolve. rewrite (Gx (L "local")), pre_local. cbn [rbind as_instance].
  destruct (extend_spec obj fn h j x c (GInst 0) Ex Dx) as (h' & E & L' & Sh & (y & Ey & _ & Cy) & O & D1 & D2 & Gp & Gi & Ap & Ai); [now rewrite Gx, pre_self|].
  rewrite E. rewrite Lh in *. exists h'. split; [reflexivity|]. split; [exact L'|].
  assert (PG : forall k, parent_globals obj fn h j x c k = or_else (fun_of k (pre j k)) (fresh (S j) k)).
  { intros k. unfold parent_globals. rewrite fun_at_of, Gx, Lh, Cx. cbn [context_of]. unfold fresh. now rewrite Ec. }
  intros m Hm. destruct (Nat.eq_dec m (S j)) as [->|Ne].
  - split; [exists y; split; [exact Ey|congruence]|]. split; [exact D2|]. rewrite Nat.ltb_irrefl. split.
    + intros k. rewrite Gp, PG. cbn [pre]. change (fresh 0 (L "self")) with (pre 0 (L "self")). now rewrite Self.
    + intros k. rewrite Ap. unfold methods_at. now rewrite Ec.
  - assert (Hm' : m <= j) by lia. assert (Lt : m <? S j = true) by (apply Nat.ltb_lt; lia). rewrite Lt.
    destruct (H m Hm') as ((x' & Ex' & Cx') & Dx' & Gx' & Ax').
    destruct (Sh m x' Ex') as (y' & Ey' & _ & Cy'). split; [exists y'; split; [exact Ey'|congruence]|].
    destruct (Nat.eq_dec m j) as [->|Nj].
    + split; [exact D1|]. split; intros k.
      * rewrite Gi, PG, Gx. unfold final, offered. reflexivity.
      * rewrite Ai, PG, Ax. unfold attr_final, offered. reflexivity.
    + destruct (O m Nj Ne) as [Eg Ea]. rewrite Eg, Ea. assert (Lm : m <? j = true) by (apply Nat.ltb_lt; lia). rewrite Lm in *. auto.
Qed.
Lemma chain_run : forall ps j h, inv h j -> skipn (S j) cs = ps ->
  exists h', exec_chain obj fn builtin h j ps = Ok (h', j + length ps) /\ inv h' (j + length ps).
Proof.
  induction ps as [|c ps IH]; intros j h I1 Es; cbn [exec_chain length].
  - exists h. now rewrite Nat.add_0_r.
  - assert (Ec : nth_error cs (S j) = Some c).
    { rewrite <- (firstn_skipn (S j) cs), Es. assert (Lj : length (firstn (S j) cs) = S j).
      { rewrite firstn_length. assert (length cs > S j); [|lia]. destruct (Nat.le_gt_cases (length cs) (S j)) as [Le|]; [|assumption]. rewrite skipn_all2 in Es by exact Le. discriminate. }
      rewrite nth_error_app2 by lia. rewrite Lj, Nat.sub_diag. reflexivity. }
    destruct (chain_step h j c I1 Ec) as (h1 & E1 & I2). rewrite E1. cbn [rbind fst snd].
    destruct (IH (S j) h1 I2) as (h2 & E2 & I3).
    + clear - Es. revert cs Es. generalize (S j). clear. intros n. induction n as [|n IH]; intros [|c0 l] E; try discriminate; cbn [skipn] in *; [congruence|]. now apply IH.
    + exists h2. replace (j + S (length ps)) with (S j + length ps) by lia. now split.
Qed.

(** ** Reading off *)
Hypothesis Pctx : plain obj fn ctx.
Hypothesis Pbase : Forall (fun c => plain obj fn (base_globals _ _ c)) cs.
Fixpoint fdef (j : nat) (k : str) : option (fn * nat) :=
  match j with
  | O => option_map (fun f => (f, 0)) (get k (methods_at 0))
  | S j' => or_else (fdef j' k) (option_map (fun f => (f, j)) (get k (methods_at j)))
  end.
Lemma class_at : forall i c, nth_error cs i = Some c -> a_class obj fn c /\ plain obj fn (base_globals _ _ c).
Proof.
  intros i c E. apply nth_error_In in E. rewrite Forall_forall in Cs, Pbase. auto.
Qed.
Lemma defines_at : forall i k f, defines obj fn cs i k f <-> get k (methods_at i) = Some f.
Proof.
  intros i k f. unfold defines, methods_at. destruct (nth_error cs i) as [c|] eqn:E.
  - destruct (class_at i c E) as [[Dm _] _]. rewrite (get_in _ k f _ Dm). split; [intros (c' & E' & I1); congruence|intros I1; now exists c].
  - split; [intros (c' & E' & _); congruence|discriminate].
Qed.
Lemma not_defined_at : forall i k, not_defined obj fn cs i k <-> get k (methods_at i) = None.
Proof.
  intros i k. unfold not_defined. split.
  - intros H. destruct (get k (methods_at i)) as [f|] eqn:E; [|reflexivity]. apply defines_at in E. now destruct (H f).
  - intros E f H. apply defines_at in H. congruence.
Qed.
Lemma fdef_none : forall j k, fdef j k = None <-> forall i, i <= j -> not_defined obj fn cs i k.
Proof.
  induction j as [|j IH]; intros k; cbn [fdef].
  - split.
    + intros E i Hi. assert (i = 0) as -> by lia. apply not_defined_at. now destruct (get k (methods_at 0)).
    + intros H. specialize (H 0 (le_n 0)). apply not_defined_at in H. now rewrite H.
  - split.
    + intros E i Hi. destruct (fdef j k) eqn:Ef; [discriminate|]. cbn [or_else] in E. destruct (Nat.eq_dec i (S j)) as [->|Ne].
      * apply not_defined_at. now destruct (get k (methods_at (S j))).
      * apply (proj1 (IH k) Ef). lia.
    + intros H. rewrite (proj2 (IH k)) by (intros i Hi; apply H; lia). cbn [or_else]. specialize (H (S j) (le_n _)). apply not_defined_at in H. now rewrite H.
Qed.
Lemma fdef_some : forall j k f i, fdef j k = Some (f, i) <-> overriding obj fn cs j k f i.
Proof.
  assert (U : forall j k f i f' i', overriding obj fn cs j k f i -> overriding obj fn cs j k f' i' -> (f, i) = (f', i')).
  { intros j k f i f' i' (L1 & D1 & N1) (L2 & D2 & N2). destruct (Nat.lt_trichotomy i i') as [Lt|[->|Gt]].
    - now destruct (N2 i Lt f).
    - apply defines_at in D1, D2. congruence.
    - now destruct (N1 i' Gt f'). }
  assert (H : forall j k f i, fdef j k = Some (f, i) -> overriding obj fn cs j k f i).
  { induction j as [|j IH]; intros k f i; cbn [fdef].
    - destruct (get k (methods_at 0)) as [f0|] eqn:E; [|discriminate]. intros E2. assert (f0 = f /\ i = 0) as [-> ->] by (split; cbn in E2; congruence).
      split; [lia|]. split; [now apply defines_at|]. intros; lia.
    - destruct (fdef j k) as [[f0 i0]|] eqn:E; cbn [or_else]; intros E2.
      + assert (f0 = f /\ i0 = i) as [-> ->] by (split; congruence). destruct (IH k f i E) as (L1 & D1 & N1). split; [lia|]. now split.
      + destruct (get k (methods_at (S j))) as [f0|] eqn:Eg; [|discriminate]. cbn [option_map] in E2. assert (f0 = f /\ i = S j) as [-> ->] by (split; congruence).
        split; [lia|]. split; [now apply defines_at|]. intros i' Li. apply (proj1 (fdef_none j k) E). lia. }
  intros j k f i. split; [apply H|]. intros O. destruct (fdef j k) as [[f' i']|] eqn:E.
  - apply H in E. now rewrite (U _ _ _ _ _ _ O E).
  - destruct O as (L1 & D1 & _). exfalso. now apply (proj1 (fdef_none j k) E i L1 f).
Qed.
Lemma fresh_get : forall i k c, nth_error cs i = Some c -> ~ In k (special) ->
  fresh i k = or_else (get k ctx) (or_else (option_map (fun f => function_of obj fn f i) (get k (methods_at i))) (or_else (get k (base_of obj fn cs i)) (get k (helpers obj fn i)))).
Proof.
  intros i k c E Ns. unfold fresh, methods_at, base_of. rewrite E. destruct (class_at i c E) as [Ac _]. rewrite get_init by assumption.
  assert (k <> L "value_of" /\ k <> L "_") as [N1 N2] by (split; intros ->; apply Ns; vm_compute; tauto).
  destruct (seqb_spec k (L "value_of")); [contradiction|]. destruct (seqb_spec k (L "_")); [contradiction|]. rewrite get_first by assumption.
  destruct (get k ctx); [reflexivity|]. destruct (get k (methods _ _ c)); [reflexivity|]. now destruct (get k (base_globals _ _ c)).
Qed.
Lemma plain_not_fun : forall k v (d : dict), plain obj fn d -> get k d = Some v -> is_fun v = false.
Proof. intros k v d P E. apply get_some_in in E. eapply P. exact E. Qed.
Lemma helper_not_fun : forall i k v, get k (helpers obj fn i) = Some v -> is_fun v = false.
Proof. intros i k v E. apply get_helpers in E. now destruct E. Qed.
Lemma base_plain : forall i, plain obj fn (base_of obj fn cs i).
Proof. intros i. unfold base_of. destruct (nth_error cs i) as [c|] eqn:E; [apply (class_at i c E)|intros k v []]. Qed.
Lemma not_main : forall k, ~ In k special -> seqb k (L "__main__") = false.
Proof. intros k Ns. destruct (seqb_spec k (L "__main__")) as [->|]; [|reflexivity]. exfalso. apply Ns. vm_compute. tauto. Qed.
Lemma not_relative : forall k, ~ In k special -> seqb k (L "self") = false /\ seqb k (L "local") = false /\ seqb k (L "child") = false /\ seqb k (L "parent") = false.
Proof.
  intros k Ns. repeat split; match goal with |- seqb k ?x = false => destruct (seqb_spec k x) as [->|]; [|reflexivity] end; exfalso; apply Ns; vm_compute; tauto.
Qed.
Lemma fun_of_fresh : forall i k c, nth_error cs i = Some c -> ~ In k special ->
  fun_of k (fresh i k) = match get k ctx with Some _ => None | None => option_map (fun f => function_of obj fn f i) (get k (methods_at i)) end.
Proof.
  intros i k c E Ns. rewrite (fresh_get i k c E Ns). unfold P_Template2.fun_of. rewrite (not_main k Ns). destruct (get k ctx) as [v|] eqn:Ek; cbn [or_else].
  - now rewrite (plain_not_fun k v ctx Pctx Ek).
  - destruct (get k (methods_at i)); [reflexivity|]. cbn [option_map or_else]. destruct (get k (base_of obj fn cs i)) as [v|] eqn:Eb; cbn [or_else].
    + now rewrite (plain_not_fun k v _ (base_plain i) Eb).
    + destruct (get k (helpers obj fn i)) as [v|] eqn:Eh; [|reflexivity]. now rewrite (helper_not_fun i k v Eh).
Qed.
Lemma pre_get : forall j k, j < length cs -> ~ In k special ->
  pre j k = or_else (get k ctx) (match fdef j k with Some (f, i) => Some (function_of obj fn f i) | None => or_else (get k (base_of obj fn cs j)) (get k (helpers obj fn j)) end) /\
  fun_of k (pre j k) = match get k ctx with Some _ => None | None => option_map (fun fi => function_of obj fn (fst fi) (snd fi)) (fdef j k) end.
Proof.
  intros j k Hj Ns. assert (X : pre j k = or_else (get k ctx) (match fdef j k with Some (f, i) => Some (function_of obj fn f i) | None => or_else (get k (base_of obj fn cs j)) (get k (helpers obj fn j)) end)).
  { revert Hj. induction j as [|j IH]; intros Hj.
    - destruct (nth_error cs 0) as [c|] eqn:E; [|apply nth_error_None in E; lia]. cbn [pre fdef]. rewrite (fresh_get 0 k c E Ns). f_equal. now destruct (get k (methods_at 0)).
    - destruct (nth_error cs (S j)) as [c|] eqn:E; [|apply nth_error_None in E; lia]. cbn [pre fdef].
      destruct (not_relative k Ns) as (-> & -> & -> & _). rewrite IH by lia. rewrite (fresh_get (S j) k c E Ns).
      unfold P_Template2.fun_of. rewrite (not_main k Ns). destruct (get k ctx) as [v|] eqn:Ek; cbn [or_else].
      + now rewrite (plain_not_fun k v ctx Pctx Ek).
      + destruct (fdef j k) as [[f i]|]; [reflexivity|]. cbn [or_else].
        assert (N1 : match or_else (get k (base_of obj fn cs j)) (get k (helpers obj fn j)) with Some v => if is_fun v then Some v else None | None => None end = None).
        { destruct (get k (base_of obj fn cs j)) as [v|] eqn:Eb; cbn [or_else]; [now rewrite (plain_not_fun k v _ (base_plain j) Eb)|].
          destruct (get k (helpers obj fn j)) as [v|] eqn:Eh; [|reflexivity]. now rewrite (helper_not_fun j k v Eh). }
        rewrite N1. cbn [or_else]. now destruct (get k (methods_at (S j))). }
  split; [exact X|]. rewrite X. unfold P_Template2.fun_of. rewrite (not_main k Ns). destruct (get k ctx) as [v|] eqn:Ek; cbn [or_else].
  - now rewrite (plain_not_fun k v ctx Pctx Ek).
  - destruct (fdef j k) as [[f i]|]; [reflexivity|]. cbn [option_map]. destruct (get k (base_of obj fn cs j)) as [v|] eqn:Eb; cbn [or_else]; [now rewrite (plain_not_fun k v _ (base_plain j) Eb)|].
    destruct (get k (helpers obj fn j)) as [v|] eqn:Eh; [|reflexivity]. now rewrite (helper_not_fun j k v Eh).
Qed.
Lemma offered_get : forall j k, S j < length cs -> ~ In k special ->
  offered j k = match get k ctx with Some _ => None | None => option_map (fun fi => function_of obj fn (fst fi) (snd fi)) (fdef (S j) k) end.
Proof.
  intros j k Hj Ns. unfold offered. destruct (nth_error cs (S j)) as [c|] eqn:E; [|apply nth_error_None in E; lia].
  rewrite (proj2 (pre_get j k ltac:(lia) Ns)). destruct (get k ctx) as [v|] eqn:Ek.
  - cbn [or_else]. rewrite (fun_of_fresh (S j) k c E Ns). now rewrite Ek.
  - cbn [fdef]. destruct (fdef j k) as [[f i]|]; cbn [option_map or_else fst snd].
    + unfold P_Template2.fun_of. now rewrite (not_main k Ns).
    + rewrite (fun_of_fresh (S j) k c E Ns), Ek. now destruct (get k (methods_at (S j))).
Qed.
Lemma final_get : forall j k, S j < length cs -> ~ In k special ->
  final j k = or_else (get k ctx) (match fdef j k with Some (f, i) => Some (function_of obj fn f i) | None =>
    or_else (get k (base_of obj fn cs j)) (or_else (get k (helpers obj fn j)) (option_map (fun f => function_of obj fn f (S j)) (get k (methods_at (S j))))) end).
Proof.
  intros j k Hj Ns. unfold final. destruct (not_relative k Ns) as (_ & -> & _ & ->). rewrite (proj1 (pre_get j k ltac:(lia) Ns)), (offered_get j k Hj Ns).
  destruct (get k ctx) as [v|] eqn:Ek; cbn [or_else]; [reflexivity|]. cbn [fdef]. destruct (fdef j k) as [[f i]|]; [reflexivity|].
  cbn [or_else]. destruct (get k (base_of obj fn cs j)); [reflexivity|]. cbn [or_else]. destruct (get k (helpers obj fn j)); [reflexivity|]. cbn [or_else].
  now destruct (get k (methods_at (S j))).
Qed.

(** All names, in the end. *)
Lemma base_dict : forall j, a_dict (base_of obj fn cs j).
Proof. intros j. unfold base_of. destruct (nth_error cs j) as [c|] eqn:E; [apply (class_at j c E)|constructor]. Qed.
Lemma in_keys : forall A k (v : A) d, In (k, v) d -> In k (keys d).
Proof. intros A k v d I1. apply (in_map fst) in I1. exact I1. Qed.
Lemma final_visible : forall j k v, j < length cs -> ~ In k special ->
  ((if S j <? length cs then final j k else pre j k) = Some v <-> visible obj fn cs ctx j k v).
Proof.
  intros j k v Hj Ns.
  assert (X : (if S j <? length cs then final j k else pre j k) =
    or_else (get k ctx) (match fdef j k with Some (f, i) => Some (function_of obj fn f i) | None =>
    or_else (get k (base_of obj fn cs j)) (or_else (get k (helpers obj fn j)) (option_map (fun f => function_of obj fn f (S j)) (get k (methods_at (S j))))) end)).
  { destruct (Nat.ltb_spec (S j) (length cs)) as [Lt|Ge]; [now apply final_get|]. rewrite (proj1 (pre_get j k Hj Ns)). f_equal.
    destruct (fdef j k) as [[f i]|]; [reflexivity|]. f_equal. assert (methods_at (S j) = []) as -> by (unfold methods_at; now rewrite (proj2 (nth_error_None _ _))).
    cbn [get option_map]. now destruct (get k (helpers obj fn j)). }
  rewrite X. clear X. destruct (get k ctx) as [v1|] eqn:Ek; cbn [or_else].
  - apply (get_in _ _ _ _ Ctx) in Ek. split; [intros E; apply vi_context; congruence|].
    intros H. destruct H as [v I1|f i U|v U|v U|f U]; try (exfalso; apply U; eapply in_keys; exact Ek). apply (get_in _ _ _ _ Ctx) in I1, Ek. congruence.
  - apply get_none in Ek. destruct (fdef j k) as [[f i]|] eqn:Ef.
    + apply fdef_some in Ef. split; [intros E; assert (v = function_of obj fn f i) as -> by congruence; now apply vi_function|].
      intros H. destruct Ef as (Li & Df & Nf). destruct H as [v I1|f' i' U O|v U N0|v U N0|f' U N0]; [exfalso; apply Ek; eapply in_keys; exact I1| |exfalso; now apply (N0 i Li f)..].
      assert (E1 : fdef j k = Some (f, i)) by (apply fdef_some; repeat split; assumption). apply fdef_some in O. congruence.
    + pose proof (proj1 (fdef_none j k) Ef) as Nf. destruct (get k (base_of obj fn cs j)) as [v1|] eqn:Eb; cbn [or_else].
      * apply (get_in _ _ _ _ (base_dict j)) in Eb. split; [intros E; apply vi_base; auto; congruence|].
        intros H. destruct H as [v I1|f' i' U O|v U N0 I1|v U N0 Ub|f' U N0 Ub]; try (exfalso; apply Ub; eapply in_keys; exact Eb); [exfalso; apply Ek; eapply in_keys; exact I1| |].
        -- exfalso. apply fdef_some in O. congruence.
        -- apply (get_in _ _ _ _ (base_dict j)) in I1, Eb. congruence.
      * apply get_none in Eb. destruct (get k (helpers obj fn j)) as [v1|] eqn:Eh; cbn [or_else].
        -- apply get_helpers in Eh. split; [intros E; apply vi_helper; auto; congruence|].
           intros H. destruct H as [v I1|f' i' U O|v U N0 I1|v U N0 Ub He|f' U N0 Ub Nh].
           ++ exfalso; apply Ek; eapply in_keys; exact I1.
           ++ exfalso. apply fdef_some in O. congruence.
           ++ exfalso; apply Eb; eapply in_keys; exact I1.
           ++ apply get_helpers in He, Eh. congruence.
           ++ now destruct (Nh v1).
        -- pose proof (proj1 (helpers_none obj fn j k) Eh) as Nh. destruct (get k (methods_at (S j))) as [f|] eqn:Em; cbn [option_map].
           ++ apply defines_at in Em. split; [intros E; assert (v = function_of obj fn f (S j)) as -> by congruence; now apply vi_inherited|].
              intros H. destruct H as [v I1|f' i' U O|v U N0 I1|v U N0 Ub He|f' U N0 Ub Nh' Df].
              ** exfalso; apply Ek; eapply in_keys; exact I1.
              ** exfalso. apply fdef_some in O. congruence.
              ** exfalso; apply Eb; eapply in_keys; exact I1.
              ** now destruct (Nh v).
              ** apply defines_at in Em, Df. congruence.
           ++ apply not_defined_at in Em. split; [discriminate|]. intros H. exfalso. destruct H as [v I1|f' i' U O|v U N0 I1|v U N0 Ub He|f' U N0 Ub Nh' Df].
              ** apply Ek; eapply in_keys; exact I1.
              ** apply fdef_some in O. congruence.
              ** apply Eb; eapply in_keys; exact I1.
              ** now apply (Nh v).
              ** now apply (Em f').
Qed.
End Chain.
End Names.
