(** * Whole templates: variables and expressions for two representations of code *)

From Coq Require Import Ascii String List NArith ZArith Bool Lia Arith.
From Verif Require Import PyStr PyStrLemmas M_Values M_IR M_Template M_Run S_Template P_Template P_Run1 P_Run2.
From Verif Require S_Run.
Import ListNotations.
Open Scope list_scope.

Section Worlds.
Variables A B : Type.
Variable rf : str * A -> str * B -> Prop.
Variable py : python.
Variable gen : str -> Prop.
Hypothesis Hgen : S_Run.generated_names py gen.
Hypothesis rf_decl : forall f f', rf f f' -> fst f' = fst f /\ S_Run.a_decl py gen (fst f).

Notation rgv := (rgv A B rf).
Notation rtf := (rtf A B rf).
Notation rheap := (rheap A B rf).
Notation rcls := (rcls A B rf).

Lemma gen_reserved : forall r, In r reserved -> ~ gen r.
Proof. intros r Hr G. now destruct (Hgen r G). Qed.

Definition rframe (n m : nat) (fr : frame A) (fr' : frame B) : Prop :=
  (forall x, ~ gen x -> smem x (fr_names fr) = smem x (fr_names fr')) /\
  (forall x, ~ gen x -> ropt (rgv n m) (get x (fr_vars fr)) (get x (fr_vars fr'))) /\
  (forall r, In r reserved -> smem r (fr_names fr) = false).
Definition rworld (w : world A) (w' : world B) : Prop :=
  rheap (length (w_frames w)) (w_heap w) (w_heap w') /\
  Forall2 (rframe (length (w_heap w)) (length (w_frames w))) (w_frames w) (w_frames w') /\
  hinv _ _ (w_heap w).
Definition rplace (w : world A) (p : place) : Prop :=
  p_inst p < length (w_heap w) /\ Forall (fun f => f < length (w_frames w)) (p_scopes p).
Notation rv w := (rgv (length (w_heap w)) (length (w_frames w))).

Lemma rframe_mono : forall n m n' m' a b, n <= n' -> m <= m' -> rframe n m a b -> rframe n' m' a b.
Proof.
  intros n m n' m' a b L1 L2 (H1 & H2 & H3). split; [exact H1|]. split; [|exact H3]. intros x Hx. specialize (H2 x Hx).
  destruct (get x (fr_vars a)), (get x (fr_vars b)); try contradiction; [|exact Logic.I]. cbn in *. eapply rgv_mono; eassumption.
Qed.

(** The worlds that may follow. *)
Definition grows (w w1 : world A) : Prop :=
  evolve _ _ (w_heap w) (w_heap w1) /\ length (w_frames w) <= length (w_frames w1) /\
  forall i fr, nth_error (w_frames w) i = Some fr -> exists fr1, nth_error (w_frames w1) i = Some fr1 /\ fr_names fr1 = fr_names fr.
Lemma grows_refl : forall w, grows w w.
Proof. intros w. split; [apply evolve_refl|]. split; [lia|]. eauto. Qed.
Lemma grows_trans : forall a b c, grows a b -> grows b c -> grows a c.
Proof.
  intros a b c (E1 & L1 & F1) (E2 & L2 & F2). split; [eapply evolve_trans; eassumption|]. split; [lia|]. intros i fr H.
  destruct (F1 i fr H) as (fr1 & H1 & N1). destruct (F2 i fr1 H1) as (fr2 & H2 & N2). exists fr2. split; congruence.
Qed.
Lemma rplace_grows : forall w w1 p, grows w w1 -> rplace w p -> rplace w1 p.
Proof.
  intros w w1 p ((L0 & _) & L1 & _) [H1 H2]. split; [lia|]. eapply Forall_impl; [|exact H2]. cbn. intros; lia.
Qed.
Lemma rv_grows : forall w w1 v v', grows w w1 -> rv w v v' -> rv w1 v v'.
Proof. intros w w1 v v' ((L0 & _) & L1 & _). now apply rgv_mono. Qed.

(** ** Names *)
Lemma find_name_rel : forall n m fs fs' x, ~ gen x -> Forall2 (rframe n m) fs fs' ->
  forall scopes err, ropt (rres (rgv n m)) (find_name fs err scopes x) (find_name fs' err scopes x).
Proof.
  intros n m fs fs' x Hx H scopes. induction scopes as [|f scopes IH]; intros err; [exact Logic.I|]. cbn [find_name].
  pose proof (F2_nth _ _ _ _ _ f H) as E. destruct (nth_error fs f) as [fr|], (nth_error fs' f) as [fr'|]; try contradiction; [|apply IH].
  destruct E as (E1 & E2 & _). rewrite (E1 x Hx). destruct (smem x (fr_names fr')); [|apply IH]. specialize (E2 x Hx).
  destruct (get x (fr_vars fr)), (get x (fr_vars fr')); try contradiction; [exact E2|reflexivity].
Qed.
Lemma lookup_rel : forall w w' p x, rworld w w' -> ~ gen x -> rres (rv w) (lookup py w p x) (lookup py w' p x).
Proof.
  intros w w' p x (H1 & H2 & H3) Hx. unfold lookup. pose proof (find_name_rel _ _ _ _ x Hx H2 (p_scopes p) "UnboundLocalError"%string) as E.
  destruct (find_name (w_frames w) _ _ _), (find_name (w_frames w') _ _ _); try contradiction; [exact E|]. now apply rresolve.
Qed.
Lemma find_reserved : forall n m fs fs' r, In r reserved -> Forall2 (rframe n m) fs fs' -> forall scopes err, find_name fs err scopes r = None.
Proof.
  intros n m fs fs' r Hr H scopes. induction scopes as [|f scopes IH]; intros err; [reflexivity|]. cbn [find_name].
  pose proof (F2_nth _ _ _ _ _ f H) as E. destruct (nth_error fs f) as [fr|], (nth_error fs' f) as [fr'|]; try contradiction; [|apply IH].
  destruct E as (_ & _ & E). rewrite (E r Hr). apply IH.
Qed.
Lemma lookup_reserved : forall w w' p r, rworld w w' -> In r reserved -> lookup py w p r = resolve _ _ (fun k => option_map val (builtin_value py k)) (w_heap w) (p_inst p) r.
Proof. intros w w' p r (H1 & H2 & H3) Hr. unfold lookup. now rewrite (find_reserved _ _ _ _ r Hr H2). Qed.
(** What [local], [self] and [__kj__] are. *)
Lemma reserved_ok : forall w w' p, rworld w w' -> rplace w p -> exists j s,
  j < length (w_heap w) /\ s < length (w_heap w) /\
  get (L "local") (globals _ _ (w_heap w) (p_inst p)) = Some (GInst _ _ j) /\
  get (L "local") (globals _ _ (w_heap w) j) = Some (GInst _ _ j) /\
  instance py w p (L "local") = Ok j /\ instance py w p (L "self") = Ok s /\ lookup py w p (L "__kj__") = Ok (GKajiki _ _).
Proof.
  intros w w' p H [P1 P2]. destruct (hinv_globals _ _ _ _ (proj2 (proj2 H)) P1) as (_ & j & s & Hj & Hs & G1 & G2 & G3 & G4).
  exists j, s. unfold instance. rewrite !(lookup_reserved w w') by (assumption || apply local_in || apply self_in || apply kj_in).
  unfold resolve. rewrite G1, G3, G4. repeat split; assumption.
Qed.
(** The instance [local], at any time. *)
Definition local_of (w : world A) (p : place) : nat :=
  match get (L "local") (globals _ _ (w_heap w) (p_inst p)) with Some (GInst _ _ j) => j | _ => 0 end.
Lemma instance_local : forall w w' p, rworld w w' -> rplace w p -> instance py w p (L "local") = Ok (local_of w p) /\ local_of w p < length (w_heap w).
Proof.
  intros w w' p H P. destruct (reserved_ok w w' p H P) as (j & s & Hj & Hs & G1 & G2 & I1 & I2 & I3). unfold local_of. now rewrite G1.
Qed.
Lemma local_grows : forall w w1 p, rplace w p -> grows w w1 -> local_of w1 p = local_of w p.
Proof. intros w w1 p [P1 P2] ((L0 & E) & _). unfold local_of. now rewrite E by (lia || apply local_in). Qed.
Lemma instance_self : forall w w' p, rworld w w' -> rplace w p -> exists s, instance py w p (L "self") = Ok s /\ s < length (w_heap w).
Proof. intros w w' p H P. destruct (reserved_ok w w' p H P) as (j & s & Hj & Hs & G1 & G2 & I1 & I2 & I3). eauto. Qed.
Lemma lookup_kajiki : forall w w' p, rworld w w' -> rplace w p -> lookup py w p (L "__kj__") = Ok (GKajiki _ _).
Proof. intros w w' p H P. now destruct (reserved_ok w w' p H P) as (j & s & Hj & Hs & G1 & G2 & I1 & I2 & I3). Qed.
Lemma instance_rel : forall w w' p r, rworld w w' -> In r reserved ->
  rres (fun a b => b = a /\ a < length (w_heap w)) (instance py w p r) (instance py w' p r).
Proof.
  intros w w' p r H Hr. unfold instance. eapply rres_bind; [apply lookup_rel; [exact H|now apply gen_reserved]|].
  intros v v' V. eapply ras_instance. exact V.
Qed.

(** ** Assignments *)
Lemma put_frame_length : forall C (fs : list (frame C)) i x, length (put_frame fs i x) = length fs.
Proof. intros C. induction fs as [|y fs IH]; intros [|i] x; cbn; auto. Qed.
Lemma nth_put_frame : forall C (fs : list (frame C)) i x j, nth_error (put_frame fs i x) j =
  if Nat.eqb i j then match nth_error fs j with Some _ => Some x | None => None end else nth_error fs j.
Proof. intros C. induction fs as [|y fs IH]; intros [|i] x [|j]; cbn [put_frame nth_error Nat.eqb]; try reflexivity; [now destruct (Nat.eqb i j)|]. apply IH. Qed.
Lemma F2_put_l : forall (P : frame A -> frame B -> Prop) fs fs' i x, Forall2 P fs fs' ->
  (forall y, nth_error fs' i = Some y -> P x y) -> Forall2 P (put_frame fs i x) fs'.
Proof. intros P fs fs' i x H. revert i. induction H as [|a b l l' H0 H IH]; intros [|i] X; cbn [put_frame]; constructor; auto. Qed.
Lemma F2_put : forall (P : frame A -> frame B -> Prop) fs fs' i x y, Forall2 P fs fs' -> P x y -> Forall2 P (put_frame fs i x) (put_frame fs' i y).
Proof. intros P fs fs' i x y H X. revert i. induction H as [|a b l l' H0 H IH]; intros [|i]; cbn [put_frame]; constructor; auto. Qed.

Lemma set_name_heap : forall C (w : world C) p x v, w_heap (set_name w p x v) = w_heap w.
Proof. intros. unfold set_name. destruct (p_scopes p); [reflexivity|]. now destruct (nth_error _ _). Qed.
Lemma set_name_frames : forall C (w : world C) p x v, length (w_frames (set_name w p x v)) = length (w_frames w).
Proof. intros. unfold set_name. destruct (p_scopes p); [reflexivity|]. destruct (nth_error _ _); [|reflexivity]. cbn [w_frames]. apply put_frame_length. Qed.
Lemma set_name_grows : forall w p x v, grows w (set_name w p x v).
Proof.
  intros w p x v. split; [rewrite set_name_heap; apply evolve_refl|]. split; [rewrite set_name_frames; lia|]. intros i fr E. unfold set_name.
  destruct (p_scopes p) as [|f ss]; [eauto|]. destruct (nth_error (w_frames w) f) as [fr0|] eqn:Ef; [|eauto]. cbn [w_frames]. rewrite nth_put_frame.
  destruct (Nat.eqb_spec f i) as [->|Ne]; [|eauto]. rewrite E. assert (fr0 = fr) by congruence. subst fr0. eexists. split; reflexivity.
Qed.
Lemma set_name_rel : forall w w' p x v v', rworld w w' -> rv w v v' -> rworld (set_name w p x v) (set_name w' p x v').
Proof.
  intros w w' p x v v' (H1 & H2 & H3) V. unfold rworld. rewrite !set_name_heap, !set_name_frames. split; [exact H1|]. split; [|exact H3].
  unfold set_name. destruct (p_scopes p) as [|f ss]; [exact H2|]. pose proof (F2_nth _ _ _ _ _ f H2) as E.
  destruct (nth_error (w_frames w) f) as [fr|], (nth_error (w_frames w') f) as [fr'|]; try contradiction; [|exact H2]. cbn [w_frames].
  apply F2_put; [exact H2|]. destruct E as (E1 & E2 & E3). split; [exact E1|]. split; [|exact E3]. cbn [fr_vars]. intros y Hy. rewrite !get_set.
  destruct (seqb y x); [exact V|now apply E2].
Qed.
Lemma set_name_gen : forall w w' p x v, rworld w w' -> gen x -> rworld (set_name w p x v) w'.
Proof.
  intros w w' p x v (H1 & H2 & H3) G. unfold rworld. rewrite !set_name_heap, !set_name_frames. split; [exact H1|]. split; [|exact H3].
  unfold set_name. destruct (p_scopes p) as [|f ss]; [exact H2|].
  destruct (nth_error (w_frames w) f) as [fr|] eqn:Ef; [|exact H2]. cbn [w_frames].
  apply F2_put_l; [exact H2|]. intros fr' Ef'. pose proof (F2_nth _ _ _ _ _ f H2) as E. rewrite Ef, Ef' in E.
  destruct E as (E1 & E2 & E3). split; [exact E1|]. split; [|exact E3]. cbn [fr_vars]. intros y Hy. rewrite !get_set.
  destruct (seqb_spec y x) as [->|]; [contradiction|now apply E2].
Qed.
Lemma set_names_grows : forall l w p, grows w (set_names w p l).
Proof. induction l as [|[x v] l IH]; intros w p; [apply grows_refl|]. cbn [set_names]. eapply grows_trans; [apply set_name_grows|apply IH]. Qed.
Lemma set_names_rel : forall p l l' w w', rworld w w' -> ralist (rv w) l l' -> rworld (set_names w p l) (set_names w' p l').
Proof.
  intros p l. induction l as [|[x v] l IH]; intros l' w w' H F; inversion F as [|? [x' v'] ? l2 [E V] F2]; subst; [exact H|].
  cbn [fst snd] in *. subst x'. cbn [set_names]. apply IH; [now apply set_name_rel|]. now rewrite set_name_heap, set_name_frames.
Qed.
Lemma local_value_rel : forall w w' p x, rworld w w' -> ~ gen x -> ropt (rv w) (local_value w p x) (local_value w' p x).
Proof.
  intros w w' p x (H1 & H2 & H3) Hx. unfold local_value. destruct (p_scopes p) as [|f ss]; [exact Logic.I|]. pose proof (F2_nth _ _ _ _ _ f H2) as E.
  destruct (nth_error (w_frames w) f) as [fr|], (nth_error (w_frames w') f) as [fr'|]; try contradiction; [|exact Logic.I].
  destruct E as (E1 & E2 & E3). now apply E2.
Qed.
(** A name that is local and has just been set. *)
Lemma lookup_set : forall (w : world A) p x v f ss fr, p_scopes p = f :: ss -> nth_error (w_frames w) f = Some fr -> smem x (fr_names fr) = true ->
  lookup py (set_name w p x v) p x = Ok v.
Proof.
  intros w p x v f ss fr Ep Ef Hx. unfold lookup, set_name. rewrite Ep, Ef. cbn [w_frames find_name]. rewrite nth_put_frame, Nat.eqb_refl, Ef. cbn [fr_names fr_vars].
  now rewrite Hx, get_set, seqb_refl.
Qed.

(** ** Expressions *)
Lemma as_value_rel : forall n m v v', rgv n m v v' -> as_value v = as_value v'.
Proof. intros n m v v' H. now destruct H. Qed.
(** A name that stands for related things. *)
Definition agrees (w : world A) (w' : world B) (p : place) (x : str) : Prop := rres (rv w) (lookup py w p x) (lookup py w' p x).
Lemma user_agrees : forall w w' p xs, rworld w w' -> Forall (fun y => ~ gen y) xs -> Forall (agrees w w' p) xs.
Proof. intros w w' p xs H. apply Forall_impl. intros x Hx. now apply lookup_rel. Qed.
Lemma reads_rel : forall w w' p xs, Forall (agrees w w' p) xs -> reads py w p xs = reads py w' p xs.
Proof.
  intros w w' p xs F. unfold reads. induction F as [|x xs Hx F IH]; [reflexivity|]. cbn [map]. rewrite IH. f_equal. apply rres_eq.
  eapply rres_map; [exact Hx|]. intros v v' V. now apply (as_value_rel _ _ _ _ V).
Qed.
Lemma eval_arg_rel : forall w w' p a, Forall (agrees w w' p) (S_Run.arg_names a) -> rres (rv w) (eval_arg py w p a) (eval_arg py w' p a).
Proof.
  intros w w' p [x|xs f] F; cbn [eval_arg S_Run.arg_names] in *.
  - now inversion F.
  - rewrite (reads_rel w w') by assumption. destruct (f _); cbn; [constructor|reflexivity].
Qed.
Notation rargs w := (Forall2 (fun (a : option str * gval (fobj A) (str * A)) (b : option str * gval (fobj B) (str * B)) => fst a = fst b /\ rv w (snd a) (snd b))).
Lemma eval_args_rel : forall w w' p l, Forall (agrees w w' p) (flat_map (fun ka => S_Run.arg_names (snd ka)) l) ->
  rres (rargs w) (eval_args py w p l) (eval_args py w' p l).
Proof.
  intros w w' p l. induction l as [|[k a] l IH]; intros F; cbn [eval_args]; [constructor|]. cbn [flat_map snd] in F. apply Forall_app in F as [F1 F2].
  eapply rres_bind; [now apply eval_arg_rel|]. intros v v' V. eapply rres_map; [now apply IH|]. intros l1 l2 R. constructor; [now split|exact R].
Qed.
Lemma values_rel : forall (w : world A) l l', rargs w l l' -> values l = values l'.
Proof. intros w l l' H. induction H as [|[k v] [k' v'] l l' [E V] H IH]; [reflexivity|]. unfold values in *. cbn [map fst snd] in *. rewrite IH, E, (as_value_rel _ _ _ _ V). reflexivity. Qed.

Definition rcallable (n m : nat) (c : callable A) (c' : callable B) : Prop :=
  let '(d, b, i, ss) := c in let '(d', b', i', ss') := c' in
  rf (d, b) (d', b') /\ i' = i /\ i < n /\ ss' = ss /\ Forall (fun f => f < m) ss.
Definition rfound (w : world A) (f : found A) (f' : found B) : Prop :=
  match f, f' with
  | FTemplate c, FTemplate c' => rcallable (length (w_heap w)) (length (w_frames w)) c c'
  | FObject v, FObject v' => v' = v
  | FMethod v k, FMethod v' k' => v' = v /\ k' = k
  | FBuiltin g, FBuiltin g' => rv w g g'
  | _, _ => False
  end.
Lemma tpl_callable_rel : forall m h h' f f', rheap m h h' -> rtf (length h) f f' -> rres (rcallable (length h) m) (tpl_callable py h f) (tpl_callable py h' f').
Proof.
  intros m h h' f f' H F. unfold tpl_callable. rewrite (rheap_length _ _ _ _ _ _ H). eapply rres_map; [eapply rtarget; eassumption|].
  intros [[d b] i] [[d' b'] i'] (R1 & R2 & R3). cbn in *. repeat split; try assumption. constructor.
Qed.
Lemma main_of_rel : forall m h h' i, rheap m h h' -> rres (rcallable (length h) m) (main_of py h i) (main_of py h' i).
Proof.
  intros m h h' i H. unfold main_of. eapply rres_bind; [eapply rgetattr; eassumption|]. intros f f' F. eapply tpl_callable_rel; eassumption.
Qed.
Lemma method_rel : forall m h h' i k, rheap m h h' -> rres (rtf (length h)) (method h i k) (method h' i k).
Proof.
  intros m h h' i k H. unfold method. pose proof (rgetattr _ _ _ _ _ _ i k H) as E.
  destruct (getattr _ _ h i k), (getattr _ _ h' i k); cbn [rres] in E; try contradiction; [exact E|]. subst. now destruct (smem k _).
Qed.
Lemma find_callee_rel : forall w w' p c, rworld w w' -> Forall (agrees w w' p) (S_Run.callee_names c) -> rres (rfound w) (find_callee py w p c) (find_callee py w' p c).
Proof.
  intros w w' p c H F. pose proof H as (H1 & _). destruct c as [f|o f]; cbn [find_callee S_Run.callee_names] in *; inversion F as [|? ? F1 _]; subst;
    (eapply rres_bind; [exact F1|]); intros g g' G; destruct G; try reflexivity; try (cbn; solve [constructor]).
  - cbn. repeat split; assumption.
  - eapply rres_map; [eapply tpl_callable_rel; eassumption|]. intros c c' C. exact C.
  - now split.
  - eapply rres_bind; [eapply method_rel; eassumption|]. intros t t' T. eapply rres_map; [eapply tpl_callable_rel; eassumption|]. intros c c' C. exact C.
Qed.
Lemma call_builtin_rel : forall w w' g g' l, rworld w w' -> rv w g g' -> call_builtin py (w_heap w) g l = call_builtin py (w_heap w') g' l.
Proof.
  intros w w' g g' l (H1 & _) G.
  assert (GV : forall i k, match get k (globals _ _ (w_heap w) i) with Some v => Some (as_value v) | None => None end =
                           match get k (globals _ _ (w_heap w') i) with Some v => Some (as_value v) | None => None end).
  { intros i k. pose proof (ralist_get _ k _ _ (rglobals _ _ _ _ _ _ i H1)) as E. destruct (get k _), (get k _); try contradiction; [|reflexivity]. cbn in E. now rewrite (as_value_rel _ _ _ _ E). }
  destruct G; try reflexivity; cbn [call_builtin].
  - destruct l as [|[[k|] v] l]; try reflexivity. destruct v; try reflexivity. destruct l; [|reflexivity]. now rewrite (ralist_has _ s _ _ (rglobals _ _ _ _ _ _ i H1)).
  - destruct l as [|[[k|] v] l]; try reflexivity. destruct v; try reflexivity. specialize (GV i s).
    destruct l as [|[[k2|] v2] [|]]; try reflexivity; destruct (get s _), (get s _); congruence.
Qed.
Lemma bind_args_rel : forall w w' d args args', rworld w w' -> S_Run.a_decl py gen d -> rargs w args args' ->
  rres (fun l l' => ralist (rv w) l l' /\ Forall (fun xv => S_Run.a_name gen (fst xv)) l) (bind_args py d args) (bind_args py d args').
Proof.
  intros w w' d args args' H [_ D] R. unfold bind_args.
  assert (E : map fst args = map fst args') by (clear - R; induction R as [|a b l l' [E V] R IH]; [reflexivity|]; cbn [map]; congruence). rewrite <- E.
  destruct (bind_params py d (map fst args)) as [l|] eqn:El; [|reflexivity]. cbn [rbind]. specialize (D _ _ El). clear El E.
  induction D as [|[x a] l Hx D IH]; cbn [map rseq]; [split; constructor|]. cbn [fst] in Hx. destruct a as [n|v]; cbn [fst snd].
  - pose proof (F2_nth _ _ _ _ _ n R) as En. destruct (nth_error args n) as [a|], (nth_error args' n) as [a'|]; try contradiction; [|reflexivity].
    destruct En as [_ V]. cbn [rbind]. eapply rres_map; [exact IH|]. intros l1 l2 [R1 R2]. split; constructor; try assumption. now split.
  - cbn [rbind]. eapply rres_map; [exact IH|]. intros l1 l2 [R1 R2]. split; constructor; try assumption. split; [reflexivity|constructor].
Qed.

Lemma eval_rel : forall w w' p e, rworld w w' -> Forall (agrees w w' p) (S_Run.expr_names e) -> rres (rv w) (eval py w p e) (eval py w' p e).
Proof.
  intros w w' p [x|o k|xs f|c args] H F; cbn [eval S_Run.expr_names] in *.
  - now inversion F.
  - inversion F as [|? ? F1 _]; subst. eapply rres_bind; [exact F1|]. pose proof H as (H1 & _). intros g g' G. destruct G; try reflexivity.
    + unfold val at 1 3. cbn. destruct (value_attr py v k); cbn; [constructor|reflexivity].
    + eapply rres_map; [eapply method_rel; eassumption|]. intros t t' T. now constructor.
  - rewrite (reads_rel w w') by assumption. destruct (f _); cbn; [constructor|reflexivity].
  - apply Forall_app in F as [F1 F2]. eapply rres_bind; [now apply find_callee_rel|]. intros fo fo' FO. eapply rres_bind; [now apply eval_args_rel|].
    intros a a' R. destruct fo, fo'; cbn in FO; try contradiction.
    + reflexivity.
    + subst. rewrite (values_rel _ _ _ R). destruct (call_object _ _ _); cbn; [constructor|reflexivity].
    + destruct FO as [-> ->]. rewrite (values_rel _ _ _ R). destruct (call_method _ _ _ _); cbn; [constructor|reflexivity].
    + rewrite (values_rel _ _ _ R), (call_builtin_rel w w' g g0) by assumption. destruct (call_builtin _ _ _ _); cbn; [constructor|reflexivity].
Qed.
Lemma evalue_rel : forall w w' p x, rworld w w' -> S_Run.user py gen x -> evalue py w p x = evalue py w' p x.
Proof. intros w w' p x H U. apply rres_eq. eapply rres_map; [apply eval_rel; [exact H|now apply user_agrees]|]. intros v v' V. now apply (as_value_rel _ _ _ _ V). Qed.
Lemma condition_rel : forall w w' p x, rworld w w' -> S_Run.user py gen x -> condition py w p x = condition py w' p x.
Proof. intros. unfold condition. now rewrite (evalue_rel w w'). Qed.
Lemma attributes_rel : forall w w' p x, rworld w w' -> S_Run.user py gen x -> attributes py w p x = attributes py w' p x.
Proof. intros. unfold attributes. now rewrite (evalue_rel w w'). Qed.

Lemma combine_rel : forall n m xs vs, ralist (rgv n m) (combine xs (map val vs)) (combine xs (map val vs)).
Proof. intros n m. induction xs as [|x xs IH]; intros [|v vs]; cbn; constructor; [split; [reflexivity|constructor]|apply IH]. Qed.
(** The variables of a loop: their values are values. *)
Definition rrounds := Forall2 (fun (l : list (str * gval (fobj A) (str * A))) (l' : list (str * gval (fobj B) (str * B))) => ralist (rgv 0 0) l l').
Lemma rounds_rel : forall w w' p d, rworld w w' -> S_Run.user_for py gen d -> rres rrounds (rounds py w p d) (rounds py w' p d).
Proof.
  intros w w' p d H [U1 U2]. unfold rounds. destruct (parse_for py d) as [xs e]. cbn [fst snd] in *.
  eapply rres_bind; [apply eval_rel; [exact H|now apply user_agrees]|]. intros g g' G. rewrite (as_value_rel _ _ _ _ G). destruct (iterate py (as_value g')) as [items|]; [|reflexivity]. cbn [rbind].
  induction items as [|v items IH]; cbn [map rseq]; [constructor|].
  eapply (rres_bind _ _ _ _ (ralist (rgv 0 0))).
  - assert (X : forall (l : list str), rres (ralist (rgv 0 0))
      (rbind (unpack py v) (fun vs => if Nat.eqb (length vs) (length l) then Ok (combine l (map val vs)) else Raise "ValueError"))
      (rbind (unpack py v) (fun vs => if Nat.eqb (length vs) (length l) then Ok (combine l (map val vs)) else Raise "ValueError"))).
    { intros l. destruct (unpack py v) as [vs|]; [|reflexivity]. cbn [rbind]. destruct (Nat.eqb _ _); [apply combine_rel|reflexivity]. }
    destruct xs as [|x [|x2 xs]]; [apply (X [])| |apply (X (x :: x2 :: xs))]. repeat constructor.
  - intros l l' R. eapply rres_map; [exact IH|]. intros; now constructor.
Qed.

(** ** Embedded Python *)
Lemma bind_some_rel : forall p ys vs w w', rworld w w' -> rworld (bind_some w p ys vs) (bind_some w' p ys vs) /\ grows w (bind_some w p ys vs).
Proof.
  intros p. induction ys as [|y ys IH]; intros [|[v|] vs] w w' H; cbn [bind_some]; try (split; [exact H|apply grows_refl]); [|now apply IH].
  destruct (IH vs (set_name w p y (val v)) (set_name w' p y (val v))) as [R G].
  - apply set_name_rel; [exact H|constructor].
  - split; [exact R|]. eapply grows_trans; [apply set_name_grows|exact G].
Qed.
Lemma run_block_rel : forall p l w w', rworld w w' -> Forall (S_Run.user_stm gen) l ->
  rres (fun a b => fst a = fst b /\ rworld (snd a) (snd b) /\ grows w (snd a)) (run_block py w p l) (run_block py w' p l).
Proof.
  intros p. induction l as [|[x e|xs ys f] l IH]; intros w w' H F; cbn [run_block].
  - cbn. split; [reflexivity|]. split; [exact H|apply grows_refl].
  - apply Forall_cons_iff in F as [[Fx Fe] F]. pose proof (eval_rel w w' p e H (user_agrees _ _ _ _ H Fe)) as E.
    destruct (eval py w p e) as [v|], (eval py w' p e) as [v'|]; cbn [rres] in E; try contradiction; [|exact E]. cbn [rbind].
    specialize (IH (set_name w p x v) (set_name w' p x v') (set_name_rel _ _ _ _ _ _ H E) F).
    destruct (run_block py (set_name w p x v) p l), (run_block py (set_name w' p x v') p l); cbn [rres] in *; try contradiction; [|exact IH].
    destruct IH as (I1 & I2 & I3). split; [exact I1|]. split; [exact I2|]. eapply grows_trans; [apply set_name_grows|exact I3].
  - apply Forall_cons_iff in F as [[Fy Fx] F]. rewrite (reads_rel w w') by now apply user_agrees. destruct (f _) as [[o vs]|]; [|reflexivity]. cbn [rbind fst snd].
    destruct (bind_some_rel p ys vs w w' H) as [R G]. specialize (IH _ _ R F).
    destruct (run_block py (bind_some w p ys vs) p l), (run_block py (bind_some w' p ys vs) p l); cbn [rres rmap] in *; try contradiction; [|exact IH].
    destruct IH as (I1 & I2 & I3). cbn [fst snd]. split; [congruence|]. split; [exact I2|]. eapply grows_trans; eassumption.
Qed.

Lemma translate_rel : forall w w' p t, rworld w w' -> translate py w p t = translate py w' p t.
Proof.
  intros w w' p t H. unfold translate. apply rres_eq. eapply rres_bind; [apply instance_rel; [exact H|apply local_in]|]. intros i i' [-> Hi].
  destruct H as (H1 & _). pose proof (ralist_get _ (L "gettext") _ _ (rglobals _ _ _ _ _ _ i H1)) as E.
  destruct (get _ _), (get _ _); try contradiction; [|reflexivity]. cbn in E. destruct E; try reflexivity. apply rres_refl. reflexivity.
Qed.

(** ** Other templates *)
Variable load : bool -> str -> result (cls (fobj A) (str * A)).
Variable load' : bool -> str -> result (cls (fobj B) (str * B)).
Definition rload : Prop := forall b t, rres (fun c c' => rcls c c' /\ cinv _ _ c) (load b t) (load' b t).
Hypothesis Hload : rload.

Definition rother (w : world A) (a : world A * nat) (b : world B * nat) : Prop :=
  rworld (fst a) (fst b) /\ snd b = snd a /\ snd a = length (w_heap w) /\ length (w_heap (fst a)) = S (length (w_heap w)) /\ grows w (fst a).
Lemma rworld_heap : forall w w' h h', rworld w w' -> rheap (length (w_frames w)) h h' -> hinv _ _ h -> length (w_heap w) <= length h ->
  rworld (World h (w_frames w)) (World h' (w_frames w')).
Proof.
  intros w w' h h' (H1 & H2 & H3) R I Le. split; [exact R|]. split; [|exact I]. cbn [w_heap w_frames]. eapply F2_impl; [|exact H2]. intros a b. apply rframe_mono; lia.
Qed.
Lemma grows_heap : forall w h, evolve _ _ (w_heap w) h -> grows w (World h (w_frames w)).
Proof. intros w h E. split; [exact E|]. cbn [w_frames]. split; [lia|]. eauto. Qed.
Lemma import_rel : forall w w' p t a, rworld w w' -> ~ In (S_Run.alias_name t a) reserved ->
  rres (rother w) (import_template py load w p t a) (import_template py load' w' p t a).
Proof.
  intros w w' p t a H Ha. unfold import_template. eapply rres_bind; [apply instance_rel; [exact H|apply local_in]|]. intros _ _ _.
  eapply rres_bind; [apply instance_rel; [exact H|apply self_in]|]. intros g g' [-> Hg].
  eapply rres_map; [apply Hload|]. intros c c' [C CI]. pose proof H as (H1 & H2 & H3).
  destruct (rimport _ _ _ _ _ _ t a c c' g H1 C Hg) as (R1 & R2 & R3 & R4). cbv zeta in *.
  destruct (import_inv _ _ (w_heap w) t a c g H3 CI Hg Ha) as [I1 I2].
  destruct (import_ _ _ (w_heap w) t a c g) as [h r], (import_ _ _ (w_heap w') t a c' g) as [h' r']. cbn [fst snd] in *. subst r' r.
  unfold rother. cbn [fst snd w_heap]. split; [apply rworld_heap; try assumption; lia|]. repeat split; try assumption; apply grows_heap; exact I2.
Qed.
Lemma extend_rel : forall w w' p t, rworld w w' -> rplace w p -> rres (rother w) (extend_template py load w p t) (extend_template py load' w' p t).
Proof.
  intros w w' p t H P. unfold extend_template. destruct (reserved_ok w w' p H P) as (j & s & Hj & Hs & G1 & G2 & I1 & I2 & I3).
  pose proof (instance_rel w w' p (L "local") H local_in) as IR. rewrite I1 in *. destruct (instance py w' p (L "local")) as [j'|]; cbn in IR; [|contradiction].
  destruct IR as [-> _]. cbn [rbind]. eapply rres_bind; [apply Hload|]. intros c c' [C CI]. pose proof H as (HH & HF & HI).
  pose proof (rextend _ _ _ _ _ _ j c c' HH C) as RE. destruct (extend_inv _ _ (w_heap w) j c HI CI Hj G2) as (h1 & E1 & I4 & I5). rewrite E1 in *.
  destruct (extend _ _ (w_heap w') j c') as [[h1' r']|]; cbn in RE; [|contradiction]. destruct RE as (R1 & R2 & R3 & R4). subst r'. cbn [rmap rres].
  unfold rother. cbn [fst snd w_heap]. split; [apply rworld_heap; try assumption; lia|]. repeat split; try assumption; apply grows_heap; exact I5.
Qed.
End Worlds.
