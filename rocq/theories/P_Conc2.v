(** * Renderings at the same time: variables, expressions and statements up to renaming *)

From Coq Require Import Ascii String List NArith ZArith Bool Lia Arith.
From Verif Require Import PyStr PyStrLemmas M_Values M_IR M_Template M_Run S_Template P_Template.
From Verif Require Import P_Run1.
From Verif Require P_Run3.
From Verif Require Import P_Conc1.
Import ListNotations.
Open Scope list_scope.

Section Worlds.
Variable A : Type.
Variable py : python.
Notation rgv := (rgv A).
Notation rtf := (rtf A).
Notation good := (good A).
Notation plain := (plain A).

Definition rframe (m : maps) (a b : frame A) : Prop := fr_names b = fr_names a /\ ralist (rgv m) (fr_vars a) (fr_vars b).
Definition rframes (m : maps) (fs fs' : list (frame A)) : Prop :=
  length (mf m) = length fs /\ NoDup (mf m) /\
  forall i j, is_at (mf m) i j -> exists x y, nth_error fs i = Some x /\ nth_error fs' j = Some y /\ rframe m x y.
Definition rworld (m : maps) (w w' : world A) : Prop := good m (w_heap w) (w_heap w') /\ rframes m (w_frames w) (w_frames w').
Definition rplace (m : maps) (p p' : place) : Prop := is_at (mi m) (p_inst p) (p_inst p') /\ Forall2 (is_at (mf m)) (p_scopes p) (p_scopes p').

(** From one moment to the next: more instances and variables, the new ones new to all; nothing of
    others changes. *)
Definition fresh (m m' : maps) (n f : nat) : Prop :=
  exists a b, mi m' = mi m ++ a /\ mf m' = mf m ++ b /\ incl (me m) (me m') /\ Forall (fun z => n <= z) a /\ Forall (fun z => f <= z) b.
Definition moves (m m' : maps) (w w' : world A) : Prop :=
  fresh m m' (length (w_heap w)) (length (w_frames w)) /\ keep (mi m) (w_heap w) (w_heap w') /\ keep (mf m) (w_frames w) (w_frames w').
Lemma fresh_refl : forall m n f, fresh m m n f.
Proof. intros. exists [], []. rewrite !app_nil_r. split; [reflexivity|]. split; [reflexivity|]. split; [intros x Hx; exact Hx|]. split; constructor. Qed.
Lemma fresh_ext : forall m m' n f, fresh m m' n f -> ext m m'.
Proof. intros m m' n f (a & b & E1 & E2 & I & _). split; [eauto|]. split; [eauto|exact I]. Qed.
Lemma moves_refl : forall m w, moves m m w w.
Proof. intros. split; [apply fresh_refl|]. split; apply keep_refl. Qed.
Lemma moves_ext : forall m m' w w', moves m m' w w' -> ext m m'.
Proof. intros m m' w w' [F _]. eapply fresh_ext, F. Qed.
Lemma moves_trans : forall m1 m2 m3 a b c, moves m1 m2 a b -> moves m2 m3 b c -> moves m1 m3 a c.
Proof.
  intros m1 m2 m3 a b c ((t1 & u1 & E1 & F1 & I1 & A1 & B1) & K1 & J1) ((t2 & u2 & E2 & F2 & I2 & A2 & B2) & K2 & J2).
  rewrite E1 in K2. rewrite F1 in J2. split; [|split].
  - exists (t1 ++ t2), (u1 ++ u2). rewrite E2, E1, F2, F1, !app_assoc. split; [reflexivity|]. split; [reflexivity|].
    split; [intros x Hx; apply I2, I1, Hx|]. destruct K1 as [K1 _], J1 as [J1 _]. split; apply Forall_app; split; try assumption.
    + eapply Forall_impl; [|exact A2]. cbn. intros; lia.
    + eapply Forall_impl; [|exact B2]. cbn. intros; lia.
  - eapply keep_trans; eassumption.
  - eapply keep_trans; eassumption.
Qed.

Lemma rframe_ext : forall m m' a b, ext m m' -> rframe m a b -> rframe m' a b.
Proof. intros m m' a b X [E R]. split; [exact E|]. revert R. apply ralist_impl. intros x y. now apply rgv_ext. Qed.
Lemma rplace_ext : forall m m' p p', ext m m' -> rplace m p p' -> rplace m' p p'.
Proof. intros m m' p p' X [H1 H2]. split; [now apply (ext_mi m)|]. eapply F2_impl; [|exact H2]. intros a b. now apply (ext_mf m). Qed.
Lemma rframes_in : forall m fs fs' j, rframes m fs fs' -> In j (mf m) -> j < length fs'.
Proof. intros m fs fs' j (_ & _ & H) Hj. apply In_nth_error in Hj as [i Hi]. destruct (H i j Hi) as (x & y & X & Y & _). apply nth_error_Some. congruence. Qed.
Lemma rframes_ext : forall m m' fs fs', ext m m' -> mf m' = mf m -> rframes m fs fs' -> rframes m' fs fs'.
Proof.
  intros m m' fs fs' X E (H1 & H2 & H3). unfold rframes. rewrite E. split; [exact H1|]. split; [exact H2|]. intros i j Hij.
  destruct (H3 i j Hij) as (x & y & X1 & Y1 & R). exists x, y. split; [exact X1|]. split; [exact Y1|]. now apply (rframe_ext m).
Qed.

(** ** Names *)
Lemma find_name_rel : forall m fs fs' x, rframes m fs fs' -> forall ss ss', Forall2 (is_at (mf m)) ss ss' -> forall err,
  ropt (rres (rgv m)) (find_name fs err ss x) (find_name fs' err ss' x).
Proof.
  intros m fs fs' x (_ & _ & H) ss ss' F. induction F as [|f f' ss ss' Hf F IH]; intros err; [exact Logic.I|]. cbn [find_name].
  destruct (H f f' Hf) as (fr & fr' & -> & -> & E1 & E2). rewrite E1. destruct (smem x (fr_names fr)); [|apply IH]. pose proof (ralist_get _ x _ _ E2) as G.
  destruct (get x (fr_vars fr)), (get x (fr_vars fr')); try contradiction; [exact G|reflexivity].
Qed.
Lemma lookup_rel : forall m w w' p p' x, rworld m w w' -> rplace m p p' -> rres (rgv m) (lookup py w p x) (lookup py w' p' x).
Proof.
  intros m w w' p p' x (H1 & H2) [P1 P2]. unfold lookup. pose proof (find_name_rel _ _ _ x H2 _ _ P2 "UnboundLocalError"%string) as E.
  destruct (find_name (w_frames w) _ _ _), (find_name (w_frames w') _ _ _); try contradiction; [exact E|]. apply rresolve; [apply H1|exact P1].
Qed.
Lemma instance_rel : forall m w w' p p' r, rworld m w w' -> rplace m p p' -> rres (is_at (mi m)) (instance py w p r) (instance py w' p' r).
Proof. intros m w w' p p' r H P. unfold instance. eapply rres_bind; [now apply (lookup_rel m)|]. intros v v' V. eapply ras_instance. exact V. Qed.

(** ** Assignments *)
Lemma set_name_rel : forall m w w' p p' x v v', rworld m w w' -> rplace m p p' -> rgv m v v' ->
  rworld m (set_name w p x v) (set_name w' p' x v') /\ moves m m w' (set_name w' p' x v').
Proof.
  intros m w w' p p' x v v' (H1 & H2) [P1 P2] V. unfold set_name. destruct P2 as [|f f' ss ss' Hf P2]; [split; [now split|apply moves_refl]|].
  destruct H2 as (L & N & H2). destruct (H2 f f' Hf) as (fr & fr' & E & E' & R1 & R2). rewrite E, E'. split.
  - split; [exact H1|]. cbn [w_frames]. split; [now rewrite P_Run3.put_frame_length|]. split; [exact N|]. intros i j Hij. rewrite !P_Run3.nth_put_frame.
    destruct (H2 i j Hij) as (a & b & Ea & Eb & R). destruct (Nat.eqb_spec f i) as [->|Ni].
    + assert (f' = j) by (unfold is_at in *; congruence). subst f'. rewrite Nat.eqb_refl, Ea, Eb. eexists. eexists. split; [reflexivity|]. split; [reflexivity|].
      split; [exact R1|]. cbn [fr_vars]. now apply ralist_set.
    + destruct (Nat.eqb_spec f' j) as [->|Nj]; [exfalso; apply Ni; now apply (at_inj (mf m) f i j)|]. eauto.
  - split; [apply fresh_refl|]. cbn [w_heap w_frames]. split; [apply keep_refl|]. split; [rewrite P_Run3.put_frame_length; lia|]. intros j Hj Nj. rewrite P_Run3.nth_put_frame.
    destruct (Nat.eqb_spec f' j) as [->|]; [|reflexivity]. exfalso. apply Nj. exact (at_in _ _ _ Hf).
Qed.
Lemma set_names_rel : forall m p p' l l', rplace m p p' -> ralist (rgv m) l l' -> forall w w', rworld m w w' ->
  rworld m (set_names w p l) (set_names w' p' l') /\ moves m m w' (set_names w' p' l').
Proof.
  intros m p p' l l' P F. induction F as [|[x v] [x' v'] l l' [E V] F IH]; intros w w' H; [split; [exact H|apply moves_refl]|]. cbn [fst snd set_names] in *. subst x'.
  destruct (set_name_rel m w w' p p' x v v' H P V) as [R M]. destruct (IH _ _ R) as [R2 M2]. split; [exact R2|]. eapply moves_trans; eassumption.
Qed.
Lemma local_value_rel : forall m w w' p p' x, rworld m w w' -> rplace m p p' -> ropt (rgv m) (local_value w p x) (local_value w' p' x).
Proof.
  intros m w w' p p' x (H1 & H2) [P1 P2]. unfold local_value. destruct P2 as [|f f' ss ss' Hf P2]; [exact Logic.I|].
  destruct H2 as (L & N & H2). destruct (H2 f f' Hf) as (fr & fr' & -> & -> & R1 & R2). now apply ralist_get.
Qed.

(** ** Expressions *)
Lemma as_value_rel : forall m v v', rgv m v v' -> as_value v' = as_value v.
Proof. intros m v v' H. now destruct H. Qed.
Lemma reads_rel : forall m w w' p p' xs, rworld m w w' -> rplace m p p' -> reads py w' p' xs = reads py w p xs.
Proof.
  intros m w w' p p' xs H P. unfold reads. apply map_ext. intros x. symmetry. apply rres_eq. eapply rres_map; [now apply (lookup_rel m)|].
  intros v v' V. symmetry. exact (as_value_rel _ _ _ V).
Qed.
Lemma rval : forall m (r : result value), rres (rgv m) (rmap val r) (rmap val r).
Proof. intros m [v|e]; [constructor|reflexivity]. Qed.
Lemma eval_arg_rel : forall m w w' p p' a, rworld m w w' -> rplace m p p' -> rres (rgv m) (eval_arg py w p a) (eval_arg py w' p' a).
Proof.
  intros m w w' p p' [x|xs f] H P; cbn [eval_arg].
  - now apply (lookup_rel m).
  - rewrite (reads_rel m w w' p p') by assumption. apply rval.
Qed.
Definition rargs (m : maps) := Forall2 (fun (a b : option str * gval (fobj A) (str * A)) => fst b = fst a /\ rgv m (snd a) (snd b)).
Lemma eval_args_rel : forall m w w' p p' l, rworld m w w' -> rplace m p p' -> rres (rargs m) (eval_args py w p l) (eval_args py w' p' l).
Proof.
  intros m w w' p p' l H P. induction l as [|[k a] l IH]; cbn [eval_args]; [constructor|].
  eapply rres_bind; [now apply (eval_arg_rel m)|]. intros v v' V. eapply rres_map; [exact IH|]. intros l1 l2 R. constructor; [now split|exact R].
Qed.
Lemma values_rel : forall m l l', rargs m l l' -> values l' = values l.
Proof. intros m l l' H. induction H as [|[k v] [k' v'] l l' [E V] H IH]; [reflexivity|]. unfold values in *. cbn [map fst snd] in *. rewrite IH, E, (as_value_rel _ _ _ V). reflexivity. Qed.

Definition rcallable (m : maps) (c c' : callable A) : Prop :=
  let '(d, b, i, ss) := c in let '(d', b', i', ss') := c' in d' = d /\ b' = b /\ is_at (mi m) i i' /\ Forall2 (is_at (mf m)) ss ss'.
Definition rfound (m : maps) (f f' : found A) : Prop :=
  match f, f' with
  | FTemplate c, FTemplate c' => rcallable m c c'
  | FObject v, FObject v' => v' = v
  | FMethod v k, FMethod v' k' => v' = v /\ k' = k
  | FBuiltin g, FBuiltin g' => rgv m g g'
  | _, _ => False
  end.
Lemma tpl_callable_rel : forall m h h' f f', good m h h' -> rtf m f f' -> rres (rcallable m) (tpl_callable py h f) (tpl_callable py h' f').
Proof.
  intros m h h' f f' H F. unfold tpl_callable. eapply rres_map; [now apply (rtarget A m)|].
  intros [[d b] i] [[d' b'] i'] [R1 R2]. cbn in *. split; [congruence|]. split; [congruence|]. split; [exact R2|constructor].
Qed.
Lemma main_of_rel : forall m h h' i i', good m h h' -> is_at (mi m) i i' -> rres (rcallable m) (main_of py h i) (main_of py h' i').
Proof. intros m h h' i i' H I. unfold main_of. eapply rres_bind; [apply (rgetattr A m); [apply H|exact I]|]. intros f f' [F _]. now apply tpl_callable_rel. Qed.
Lemma method_rel : forall m h h' i i' k, good m h h' -> is_at (mi m) i i' -> rres (rtf m) (method h i k) (method h' i' k).
Proof.
  intros m h h' i i' k H I. unfold method. pose proof (rgetattr A m h h' i i' k (proj1 H) I) as E.
  destruct (getattr _ _ h i k), (getattr _ _ h' i' k); cbn [rres] in E; try contradiction; [apply E|]. subst. now destruct (smem k _).
Qed.
Lemma find_callee_rel : forall m w w' p p' c, rworld m w w' -> rplace m p p' -> rres (rfound m) (find_callee py w p c) (find_callee py w' p' c).
Proof.
  intros m w w' p p' c H P. pose proof H as (H1 & _). destruct c as [f|o f]; cbn [find_callee];
    (eapply rres_bind; [now apply (lookup_rel m)|]); intros g g' G; destruct G; try reflexivity; try (cbn; solve [now constructor]).
  - eapply rres_map; [apply (tpl_callable_rel m); eassumption|]. intros c c' C. exact C.
  - eapply rres_bind; [eapply (method_rel m); eassumption|]. intros t t' T. eapply rres_map; [apply (tpl_callable_rel m); eassumption|]. intros c c' C. exact C.
Qed.
Lemma call_builtin_rel : forall m h h' g g' l, good m h h' -> rgv m g g' -> call_builtin py h' g' l = call_builtin py h g l.
Proof.
  intros m h h' g g' l (H1 & _) G.
  assert (GV : forall i i' k, is_at (mi m) i i' -> match get k (globals _ _ h' i') with Some v => Some (as_value v) | None => None end =
                           match get k (globals _ _ h i) with Some v => Some (as_value v) | None => None end).
  { intros i i' k I. pose proof (ralist_get _ k _ _ (rglobals A m _ _ i i' H1 I)) as E. destruct (get k _), (get k _); try contradiction; [|reflexivity]. cbn in E. now rewrite (as_value_rel _ _ _ E). }
  destruct G as [v|d b i ss i' ss' I F|i i' I|f f' F|i i' I|i i' I| | | |]; try reflexivity; cbn [call_builtin].
  - destruct l as [|[[k|] v] l]; try reflexivity. destruct v; try reflexivity. destruct l; [|reflexivity]. now rewrite (ralist_has _ s _ _ (rglobals A m _ _ i i' H1 I)).
  - destruct l as [|[[k|] v] l]; try reflexivity. destruct v; try reflexivity. specialize (GV i i' s I).
    destruct l as [|[[k2|] v2] [|]]; try reflexivity; destruct (get s _), (get s _); congruence.
Qed.
Lemma bind_args_rel : forall m d args args', rargs m args args' -> rres (ralist (rgv m)) (bind_args py d args) (bind_args py d args').
Proof.
  intros m d args args' R. unfold bind_args.
  assert (E : map fst args' = map fst args) by (clear - R; induction R as [|a b l l' [E V] R IH]; [reflexivity|]; cbn [map]; congruence). rewrite E.
  destruct (bind_params py d (map fst args)) as [l|]; [|reflexivity]. cbn [rbind]. clear E.
  induction l as [|[x a] l IH]; cbn [map rseq]; [constructor|]. destruct a as [n|v]; cbn [fst snd].
  - pose proof (F2_nth _ _ _ _ _ n R) as En. destruct (nth_error args n) as [a|], (nth_error args' n) as [a'|]; try contradiction; [|reflexivity].
    destruct En as [_ V]. cbn [rbind]. eapply rres_map; [exact IH|]. intros l1 l2 R1. constructor; [now split|exact R1].
  - cbn [rbind]. eapply rres_map; [exact IH|]. intros l1 l2 R1. constructor; [split; [reflexivity|constructor]|exact R1].
Qed.
Lemma eval_rel : forall m w w' p p' e, rworld m w w' -> rplace m p p' -> rres (rgv m) (eval py w p e) (eval py w' p' e).
Proof.
  intros m w w' p p' [x|o k|xs f|c args] H P; cbn [eval]; pose proof H as (H1 & _).
  - now apply (lookup_rel m).
  - eapply rres_bind; [now apply (lookup_rel m)|]. intros g g' G. destruct G; try reflexivity.
    + apply rval.
    + eapply rres_map; [eapply (method_rel m); eassumption|]. intros t t' T. now constructor.
  - rewrite (reads_rel m w w' p p') by assumption. apply rval.
  - eapply rres_bind; [now apply (find_callee_rel m)|]. intros fo fo' FO. eapply rres_bind; [now apply (eval_args_rel m)|].
    intros a a' R. destruct fo, fo'; cbn in FO; try contradiction.
    + reflexivity.
    + subst. rewrite (values_rel _ _ _ R). apply rval.
    + destruct FO as [-> ->]. rewrite (values_rel _ _ _ R). apply rval.
    + rewrite (values_rel _ _ _ R), (call_builtin_rel m (w_heap w) (w_heap w') g g0) by assumption. apply rval.
Qed.
Lemma evalue_rel : forall m w w' p p' x, rworld m w w' -> rplace m p p' -> evalue py w' p' x = evalue py w p x.
Proof. intros m w w' p p' x H P. symmetry. apply rres_eq. eapply rres_map; [now apply (eval_rel m)|]. intros v v' V. symmetry. exact (as_value_rel _ _ _ V). Qed.
Lemma condition_rel : forall m w w' p p' x, rworld m w w' -> rplace m p p' -> condition py w' p' x = condition py w p x.
Proof. intros m w w' p p' x H P. unfold condition. now rewrite (evalue_rel m w w' p p'). Qed.
Lemma attributes_rel : forall m w w' p p' x, rworld m w w' -> rplace m p p' -> attributes py w' p' x = attributes py w p x.
Proof. intros m w w' p p' x H P. unfold attributes. now rewrite (evalue_rel m w w' p p'). Qed.
Lemma rounds_rel : forall m w w' p p' d, rworld m w w' -> rplace m p p' -> rounds py w' p' d = rounds py w p d.
Proof.
  intros m w w' p p' d H P. unfold rounds. destruct (parse_for py d) as [xs e]. symmetry. apply rres_eq.
  eapply rres_bind; [now apply (eval_rel m)|]. intros g g' G. rewrite (as_value_rel _ _ _ G). apply rres_refl. reflexivity.
Qed.
(** The values of the variables of loops are values. *)
Definition plain_rounds (rs : list (list (str * gval (fobj A) (str * A)))) : Prop := Forall plain rs.
Lemma combine_plain : forall xs vs, plain (combine xs (map val vs)).
Proof. intros xs vs m. revert vs. induction xs as [|x xs IH]; intros [|v vs]; cbn; constructor; [split; [reflexivity|constructor]|apply IH]. Qed.
Lemma rounds_plain : forall w p d rs, rounds py w p d = Ok rs -> plain_rounds rs.
Proof.
  intros w p d rs. unfold rounds. destruct (parse_for py d) as [xs e]. destruct (eval py w p e) as [g|]; [|discriminate]. cbn [rbind].
  destruct (iterate py (as_value g)) as [items|]; [|discriminate]. cbn [rbind]. revert rs. induction items as [|v items IH]; intros rs E; cbn [map rseq] in E.
  - assert (rs = []) as -> by congruence. constructor.
  - set (one := match xs with [x] => _ | _ => _ end) in E.
    assert (O : forall r, one = Ok r -> plain r).
    { intros r Er. unfold one in Er.
      assert (X : forall l, rbind (unpack py v) (fun vs => if Nat.eqb (length vs) (length l) then Ok (combine l (map val vs)) else Raise "ValueError") = Ok r -> plain r).
      { intros l El. destruct (unpack py v) as [vs|]; [|discriminate El]. cbn [rbind] in El. destruct (Nat.eqb _ _); [|discriminate El].
        assert (r = combine l (map val vs)) as -> by congruence. apply combine_plain. }
      destruct xs as [|x [|x2 xs]]; [apply (X [] Er)| |apply (X (x :: x2 :: xs) Er)]. assert (r = [(x, val v)]) as -> by congruence. intros m. repeat constructor. }
    clearbody one. destruct one as [r|]; [|discriminate E]. cbn [rbind] in E.
    destruct (rseq _) as [rs'|] eqn:E2; [|discriminate E]. cbn [rmap] in E. assert (rs = r :: rs') as -> by congruence. constructor; [now apply O|now apply IH].
Qed.

(** ** Embedded Python *)
Lemma bind_some_rel : forall m p p', rplace m p p' -> forall ys vs w w', rworld m w w' ->
  rworld m (bind_some w p ys vs) (bind_some w' p' ys vs) /\ moves m m w' (bind_some w' p' ys vs).
Proof.
  intros m p p' P. induction ys as [|y ys IH]; intros [|[v|] vs] w w' H; cbn [bind_some]; try (split; [exact H|apply moves_refl]); [|now apply IH].
  destruct (set_name_rel m w w' p p' y (val v) (val v) H P (rg_val _ _ _)) as [R M]. destruct (IH vs _ _ R) as [R2 M2]. split; [exact R2|]. eapply moves_trans; eassumption.
Qed.
Lemma run_block_rel : forall m p p', rplace m p p' -> forall l w w', rworld m w w' ->
  rres (fun a b => fst b = fst a /\ rworld m (snd a) (snd b) /\ moves m m w' (snd b)) (run_block py w p l) (run_block py w' p' l).
Proof.
  intros m p p' P. induction l as [|[x e|xs ys f] l IH]; intros w w' H; cbn [run_block].
  - cbn. split; [reflexivity|]. split; [exact H|apply moves_refl].
  - pose proof (eval_rel m w w' p p' e H P) as E. destruct (eval py w p e) as [v|], (eval py w' p' e) as [v'|]; cbn [rres] in E; try contradiction; [|exact E]. cbn [rbind].
    destruct (set_name_rel m w w' p p' x v v' H P E) as [R M]. specialize (IH _ _ R).
    destruct (run_block py (set_name w p x v) p l), (run_block py (set_name w' p' x v') p' l); cbn [rres] in *; try contradiction; [|exact IH].
    destruct IH as (I1 & I2 & I3). split; [exact I1|]. split; [exact I2|]. eapply moves_trans; eassumption.
  - rewrite (reads_rel m w w' p p') by assumption. destruct (f _) as [[o vs]|]; [|reflexivity]. cbn [rbind fst snd].
    destruct (bind_some_rel m p p' P ys vs w w' H) as [R M]. specialize (IH _ _ R).
    destruct (run_block py (bind_some w p ys vs) p l), (run_block py (bind_some w' p' ys vs) p' l); cbn [rres rmap] in *; try contradiction; [|exact IH].
    destruct IH as (I1 & I2 & I3). cbn [fst snd]. split; [congruence|]. split; [exact I2|]. eapply moves_trans; eassumption.
Qed.
Lemma translate_rel : forall m w w' p p' t, rworld m w w' -> rplace m p p' -> translate py w' p' t = translate py w p t.
Proof.
  intros m w w' p p' t H P. unfold translate. symmetry. apply rres_eq. eapply rres_bind; [now apply (instance_rel m)|]. intros i i' I.
  destruct H as ((H1 & _) & _). pose proof (ralist_get _ (L "gettext") _ _ (rglobals A m _ _ i i' H1 I)) as E.
  destruct (get _ _), (get _ _); try contradiction; [|reflexivity]. cbn in E. destruct E; try reflexivity. apply rres_refl. reflexivity.
Qed.

(** ** New variables *)
Definition framed (m : maps) (j : nat) : maps := Maps (mi m) (mf m ++ [j]) (me m).
Lemma push_frame_rel : forall m w w' fr fr', rworld m w w' -> rframe m fr fr' ->
  let w1 := World (w_heap w) (w_frames w ++ [fr]) in let w1' := World (w_heap w') (w_frames w' ++ [fr']) in
  let m1 := framed m (length (w_frames w')) in
  rworld m1 w1 w1' /\ moves m m1 w' w1' /\ is_at (mf m1) (length (w_frames w)) (length (w_frames w')).
Proof.
  intros m w w' fr fr' ((H & Ch & Be) & F) R. cbv zeta. pose proof F as (F1 & F2 & F3).
  assert (X : ext m (framed m (length (w_frames w')))) by (split; [exists []; now rewrite app_nil_r|split; [now eexists|intros x Hx; exact Hx]]).
  split; [|split].
  - split; [split; [now apply rheap_mf|split; [exact Ch|exact Be]]|]. cbn [w_frames]. split; [|split].
    + unfold framed. cbn [mf]. rewrite !app_length. cbn [length]. lia.
    + unfold framed. cbn [mf]. apply nodup_snoc; [exact F2|]. intros I. apply (rframes_in _ _ _ _ F) in I. lia.
    + intros i j Hij. unfold framed in Hij. cbn [mf] in Hij. apply at_snoc in Hij as [Hij|[-> ->]].
      * destruct (F3 i j Hij) as (x & y & E & E' & Q). exists x, y.
        assert (i < length (w_frames w)) by (apply nth_error_Some; congruence). assert (j < length (w_frames w')) by (apply nth_error_Some; congruence).
        rewrite !nth_error_app1 by assumption. split; [exact E|]. split; [exact E'|]. now apply (rframe_ext m).
      * rewrite F1. rewrite !nth_error_app2, !Nat.sub_diag by lia. cbn [nth_error]. eexists. eexists. split; [reflexivity|]. split; [reflexivity|]. now apply (rframe_ext m).
  - split; [|split; [apply keep_refl|apply keep_app]]. exists [], [length (w_frames w')]. rewrite app_nil_r. split; [reflexivity|]. split; [reflexivity|].
    split; [intros x Hx; exact Hx|]. split; repeat constructor.
  - unfold framed. cbn [mf]. rewrite <- F1. apply at_last.
Qed.

(** ** Other templates *)
Variable load : bool -> str -> result (cls (fobj A) (str * A)).
Definition plain_load : Prop := forall b t c, load b t = Ok c -> plain (base_globals _ _ c).
Hypothesis Hload : plain_load.
Definition rother (m : maps) (w w' : world A) (a b : world A * nat) : Prop :=
  exists m', rworld m' (fst a) (fst b) /\ moves m m' w' (fst b) /\ snd a = length (w_heap w) /\ snd b = length (w_heap w') /\
    is_at (mi m') (snd a) (snd b) /\ length (w_heap (fst a)) = S (length (w_heap w)) /\ mf m' = mf m /\ mi m' = mi m ++ [snd b] /\
    w_frames (fst b) = w_frames w'.
Lemma len_heap : forall m h h', good m h h' -> length (mi m) = length h. Proof. intros m h h' ((H & _) & _). exact H. Qed.
Lemma rother_intro : forall m m' w w' h h', rworld m w w' -> good m' h h' -> keep (mi m) (w_heap w') h' -> mi m' = mi m ++ [length (w_heap w')] -> mf m' = mf m -> incl (me m) (me m') ->
  rother m w w' (World h (w_frames w), length (w_heap w)) (World h' (w_frames w'), length (w_heap w')).
Proof.
  intros m m' w w' h h' [H1 H2] G K E1 E2 I. exists m'. cbn [fst snd w_heap w_frames].
  assert (X : fresh m m' (length (w_heap w')) (length (w_frames w'))).
  { exists [length (w_heap w')], []. rewrite app_nil_r. split; [exact E1|]. split; [exact E2|]. split; [exact I|]. split; repeat constructor. }
  split; [split; [exact G|apply (rframes_ext m); [eapply fresh_ext, X|exact E2|exact H2]]|].
  split; [split; [exact X|split; [exact K|apply keep_refl]]|]. split; [reflexivity|]. split; [reflexivity|].
  split; [rewrite E1, <- (len_heap _ _ _ H1); apply at_last|].
  split; [|split; [exact E2|split; [exact E1|reflexivity]]]. rewrite <- (len_heap _ _ _ G), E1, app_length, (len_heap _ _ _ H1). cbn [length]. lia.
Qed.
Lemma import_rel : forall m w w' p p' t a, rworld m w w' -> rplace m p p' ->
  rres (rother m w w') (import_template py load w p t a) (import_template py load w' p' t a).
Proof.
  intros m w w' p p' t a H P. unfold import_template. eapply rres_bind; [now apply (instance_rel m)|]. intros _ _ _.
  eapply rres_bind; [now apply (instance_rel m)|]. intros g g' Hg.
  destruct (load true t) as [c|e] eqn:El; [|reflexivity]. cbn [rmap]. pose proof H as (H1 & H2).
  destruct (rimport A m _ _ t a c g g' H1 (Hload _ _ _ El) Hg) as (R1 & R2 & R3 & R4). cbv zeta in *.
  destruct (import_ _ _ (w_heap w) t a c g) as [h r], (import_ _ _ (w_heap w') t a c g') as [h' r']. cbn [fst snd] in *. subst r' r. cbn [rres].
  apply (rother_intro m (newborn m (length (w_heap w')))); try assumption; try reflexivity. intros x Hx. exact Hx.
Qed.
Lemma extend_rel : forall m w w' p p' t, rworld m w w' -> rplace m p p' -> rres (rother m w w') (extend_template py load w p t) (extend_template py load w' p' t).
Proof.
  intros m w w' p p' t H P. unfold extend_template. eapply rres_bind; [now apply (instance_rel m)|]. intros i j Hij.
  destruct (load false t) as [c|e] eqn:El; [|reflexivity]. cbn [rbind]. pose proof H as (H1 & H2).
  eapply rres_map; [apply (rextend A m _ _ i j c H1 Hij (Hload _ _ _ El))|]. intros [h r] [h' r'] (R1 & R2 & R3 & R4). cbn [fst snd] in *. subst r' r.
  apply (rother_intro m (extended m i (length (w_heap w')))); try assumption; try reflexivity. intros x Hx. now right.
Qed.
End Worlds.
