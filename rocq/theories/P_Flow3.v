(** * Proofs: what the value of a variable can change, whole templates *)

From Coq Require Import Ascii String List Arith NArith ZArith Bool Lia.
From Verif Require Import PyStr PyStrLemmas M_Values S_Values P_Values M_IR M_Template S_Template P_Template M_Run S_Run P_Run4 P_Run11 S_Flow P_Flow P_Flow2.
From Verif Require M_Exec.
Import ListNotations.
Open Scope list_scope.
Open Scope nat_scope.

Section Flow.
Variable py : python.
Variable free : str -> Prop.
Variable F : str -> Prop.
Variable declared : str -> Prop.
Hypothesis Fr : forall k, free k -> ~ In k kept_names /\ ~ F k.
Hypothesis Fh : forall k, F k -> ~ In k helper_functions.
Hypothesis Fp : fair_python py F.
Notation quiet := (quiet free).
Notation flow := (flow py free F declared).
Notation flow_decl := (flow_decl py F declared).
Notation flow_class := (flow_class py free F declared).
Notation flow_expr := (flow_expr py free declared).
Notation flow_arg := (flow_arg free).
Notation flow_params := (flow_params py free declared).
Notation entry := (entry py free F declared).
Notation items := (Forall2 (item py free F declared)).
Notation heaps := (Forall2 (inst_rel py free F declared)).
Notation worlds := (worlds py free F declared).
Notation at_name := (at_name py free F declared).
Notation code_ok := (code_ok py free F declared).
Notation fun_ok := (fun_ok py free F declared).
Notation callable_ok := (callable_ok py free F declared).
Notation lookup_rel := (lookup_rel py free F declared Fp).
Notation lookup_kept := (lookup_kept py free F declared Fp).
Ltac named := cbv [In kept_names helper_functions app]; tauto.

(** ** Expressions *)
Definition value_ok (g : dval) : Prop :=
  match g with
  | GObj _ _ (RC d b _ _) => code_ok d b
  | GFun _ _ f => fun_ok f
  | GValueOf _ _ _ | GDefined _ _ _ | GLiteral _ _ | GGettext _ _ => False
  | _ => True
  end.
Definition gsim (g g' : dval) : Prop :=
  (g = g' /\ value_ok g) \/ exists x x', g = val x /\ g' = val x' /\ swap x x'.
Lemma entry_gsim : forall k g g', ~ In k helper_functions -> entry k g g' -> gsim g g'.
Proof.
  intros k g g' Hk [[<- E]|(_ & E)]; [|now right]. left. split; [reflexivity|]. destruct g as [[x|d b i ss]|j|f|j|j| | | |]; cbn [P_Flow.at_name value_ok] in *; try exact Logic.I; try exact E; try contradiction.
  subst k. apply Hk. named.
Qed.
Lemma gsim_entry : forall k g g', ~ F k -> gsim g g' -> free k \/ g = g' -> entry k g g'.
Proof.
  intros k g g' Hk G H.
  assert (Q : forall g, value_ok g -> at_name k g) by (intros [[x|d b i ss]|j|f|j|j| | | |] V; cbn [P_Flow.at_name value_ok] in *; try exact Logic.I; try exact V; try exact Hk; contradiction).
  destruct G as [[<- V]|(x & x' & -> & -> & S1)]; [left; split; [reflexivity|now apply Q]|]. destruct H as [H|H]; [right; split; [exact H|]; eauto|]. left. split; [exact H|]. exact Hk.
Qed.
Lemma gsim_value : forall g g', gsim g g' -> swap (as_value g) (as_value g').
Proof. intros g g' [[-> _]|(x & x' & -> & -> & H)]; [apply swap_refl|exact H]. Qed.
Lemma gsim_val : forall v v', swap v v' -> gsim (val v) (val v').
Proof. intros v v' H. right. eauto. Qed.

Lemma reads_rel : forall w w' p xs, worlds w w' -> Forall2 (both swap) (reads py w p xs) (reads py w' p xs).
Proof.
  intros w w' p xs H. unfold reads. induction xs as [|x xs IH]; cbn [map]; constructor; [|exact IH]. eapply both_map; [apply lookup_rel; exact H|]. intros a b E. exact (entry_value py free F declared x a b E).
Qed.
Lemma reads_kept : forall w w' p xs, worlds w w' -> quiet xs -> reads py w p xs = reads py w' p xs.
Proof. intros w w' p xs H Q. unfold reads. apply map_ext_in. intros x Hx. rewrite (lookup_kept w w' p x H); [reflexivity|]. unfold S_Flow.quiet in Q. rewrite Forall_forall in Q. now apply Q. Qed.
Lemma apply_rel : forall w w' p xs f, worlds w w' -> quiet xs \/ respects f -> both swap (f (reads py w p xs)) (f (reads py w' p xs)).
Proof.
  intros w w' p xs f H [Q|R]; [rewrite (reads_kept w w' p xs H Q); apply both_refl; intros; apply swap_refl|]. apply R. now apply reads_rel.
Qed.
Lemma eval_arg_rel : forall w w' p a, worlds w w' -> flow_arg a -> both gsim (eval_arg py w p a) (eval_arg py w' p a).
Proof.
  intros w w' p [x|xs f] H Ha; cbn [eval_arg S_Flow.flow_arg] in *.
  - eapply both_weaken; [|apply lookup_rel; exact H]. intros a b E. now apply (entry_gsim x).
  - eapply both_map; [apply apply_rel; [exact H|exact Ha]|]. intros a b E. now apply gsim_val.
Qed.
Lemma eval_arg_kept : forall w w' p a, worlds w w' -> quiet (arg_names a) -> eval_arg py w p a = eval_arg py w' p a.
Proof.
  intros w w' p [x|xs f] H Ha; cbn [eval_arg arg_names] in *; [apply Forall_cons_iff in Ha; apply lookup_kept; tauto|]. now rewrite (reads_kept w w' p xs H Ha).
Qed.
Definition args_rel (args : list (option str * arg)) (l l' : list (option str * dval)) : Prop :=
  Forall2 (fun a a' => fst a = fst a' /\ gsim (snd a) (snd a')) l l' /\ map fst l = map fst args /\
  forall n a g g', nth_error args n = Some a -> nth_error l n = Some g -> nth_error l' n = Some g' -> quiet (arg_names (snd a)) -> g = g'.
Lemma eval_args_rel : forall w w' p args, worlds w w' -> Forall (fun ka => flow_arg (snd ka)) args ->
  both (args_rel args) (eval_args py w p args) (eval_args py w' p args).
Proof.
  intros w w' p args H Ha. induction Ha as [|[k a] args H1 H2 IH]; cbn [eval_args].
  - split; [constructor|]. split; [reflexivity|]. intros [|n] a g g' E; discriminate E.
  - cbn [snd] in H1. pose proof (eval_arg_rel w w' p a H H1) as R. pose proof (eval_arg_kept w w' p a H) as K. destruct (eval_arg py w p a) as [v|e], (eval_arg py w' p a) as [v'|e']; cbn [both] in R; try contradiction; [|exact R]. cbn [rbind].
    eapply both_map; [exact IH|]. intros l l' (Q1 & Q2 & Q3). split; [constructor; [now split|exact Q1]|]. split; [cbn [map fst]; now rewrite Q2|].
    intros [|n] a0 g g' E1 E2 E3 Q; cbn [nth_error] in *; [|now apply (Q3 n a0)]. assert (a0 = (k, a)) by congruence. subst a0. cbn [snd] in Q. specialize (K Q). congruence.
Qed.
Lemma eval_args_kept : forall w w' p args, worlds w w' -> quiet (flat_map (fun ka => arg_names (snd ka)) args) -> eval_args py w p args = eval_args py w' p args.
Proof.
  intros w w' p args H. induction args as [|[k a] args IH]; intros Q; cbn [eval_args flat_map snd] in *; [reflexivity|]. unfold S_Flow.quiet in Q. apply Forall_app in Q. destruct Q as [Q1 Q2]. rewrite (eval_arg_kept w w' p a H Q1), (IH Q2). reflexivity.
Qed.
Lemma values_rel : forall l l' : list (option str * dval), Forall2 (fun a a' => fst a = fst a' /\ gsim (snd a) (snd a')) l l' ->
  Forall2 (fun a a' => fst a = fst a' /\ swap (snd a) (snd a')) (values l) (values l').
Proof. intros l l' H. unfold values. induction H as [|a a' l l' [E G] H IH]; cbn [map]; constructor; [|exact IH]. cbn [fst snd]. split; [exact E|now apply gsim_value]. Qed.

(** ** Calls *)
Definition found_rel (c : callee) (fo fo' : found dcode) : Prop :=
  (fo = fo' /\ match fo with FTemplate c => callable_ok c | FBuiltin g => exists f, c = ByName f /\ at_name f g /\ ~ value_ok g | _ => True end) \/
  (exists v v', fo = FObject v /\ fo' = FObject v' /\ swap v v') \/ (exists v v' k, fo = FMethod v k /\ fo' = FMethod v' k /\ swap v v').
Lemma find_callee_rel : forall w w' p c, worlds w w' -> both (found_rel c) (find_callee py w p c) (find_callee py w' p c).
Proof.
  intros w w' p [f|o f] H; cbn [find_callee].
  - eapply both_bind; [apply lookup_rel; exact H|]. intros g g' [[<- E]|(_ & x & x' & -> & -> & E)]; [|right; left; eauto].
    destruct g as [[x|d b i ss]|j|t|j|j| | | |]; cbn [both P_Flow.at_name] in *; try reflexivity.
    + left. now split.
    + left. split; [reflexivity|exact E].
    + eapply both_map; [apply (tpl_callable_rel py free F declared Fr Fp); [apply H|exact E]|]. intros c c' [<- Hc]. left. now split.
    + left. split; [reflexivity|]. exists f. split; [reflexivity|]. split; [exact E|intros []].
    + left. split; [reflexivity|]. exists f. split; [reflexivity|]. split; [exact E|intros []].
    + left. split; [reflexivity|]. exists f. split; [reflexivity|]. split; [exact E|intros []].
    + left. split; [reflexivity|]. exists f. split; [reflexivity|]. split; [exact E|intros []].
  - eapply both_bind; [apply lookup_rel; exact H|]. intros g g' [[<- E]|(_ & x & x' & -> & -> & E)]; [|right; right; exists x, x', f; auto].
    destruct g as [[x|d b i ss]|j|t|j|j| | | |]; cbn [both] in *; try reflexivity; [left; now split|].
    eapply both_bind; [apply (method_rel py free F declared); apply H|]. intros t t' [<- Ht]. eapply both_map; [apply (tpl_callable_rel py free F declared Fr Fp); [apply H|exact Ht]|]. intros c c' [<- Hc]. left. now split.
Qed.
Lemma find_callee_kept : forall w w' p c, worlds w w' -> quiet (callee_names c) -> find_callee py w p c = find_callee py w' p c.
Proof.
  intros w w' p c H Q.
  assert (K : forall x, callee_names c = [x] -> lookup py w p x = lookup py w' p x).
  { intros x E. rewrite E in Q. apply Forall_cons_iff in Q. apply lookup_kept; tauto. }
  assert (T : forall t, fun_ok t -> tpl_callable py (w_heap w) t = tpl_callable py (w_heap w') t).
  { intros t Ht. pose proof (tpl_callable_rel py free F declared Fr Fp _ _ t (proj1 H) Ht) as R. destruct (tpl_callable py (w_heap w) t), (tpl_callable py (w_heap w') t); cbn [both] in R; try contradiction; [now destruct R; subst|now subst]. }
  destruct c as [f|o f]; cbn [find_callee].
  - pose proof (lookup_rel w w' p f H) as R. rewrite <- (K f eq_refl) in *. destruct (lookup py w p f) as [g|e]; [|reflexivity]. cbn [rbind both] in *. apply kept_entry in R; [|apply Forall_cons_iff in Q; tauto]. destruct R as [_ R]. destruct g as [[x|d b i ss]|j|t|j|j| | | |]; try reflexivity. now rewrite (T t R).
  - rewrite <- (K o eq_refl). destruct (lookup py w p o) as [g|e]; [|reflexivity]. cbn [rbind]. destruct g as [[x|d b i ss]|j|t|j|j| | | |]; try reflexivity.
    pose proof (method_rel py free F declared _ _ j f (proj1 H)) as R. destruct (method (w_heap w) j f) as [t|e], (method (w_heap w') j f) as [t'|e']; cbn [both rbind] in *; try contradiction; [|now subst]. destruct R as [<- Ht]. now rewrite (T t Ht).
Qed.
Lemma call_builtin_kept : forall h h' g args, heaps h h' -> (forall i, g <> GValueOf _ _ i) -> call_builtin py h g args = call_builtin py h' g args.
Proof.
  intros h h' g args H Hg. destruct g as [o|j|t|j|j| | | |]; cbn [call_builtin]; try reflexivity; [|now destruct (Hg j)].
  destruct args as [|[[k|] [ |b|z|s|l|x s|s]] [|a l0]]; try reflexivity. now rewrite (items_has py free F declared _ _ s (globals_rel py free F declared _ _ j H)).
Qed.
Lemma callee_builtin : forall c args w w' p g, worlds w w' -> flow_expr (ECall c args) -> found_rel c (FBuiltin g) (FBuiltin g) ->
  (forall i, g <> GValueOf _ _ i) /\ eval_args py w p args = eval_args py w' p args.
Proof.
  intros c args w w' p g H (_ & _ & Hc) [[_ (f & -> & E & V)]|[(v & v' & X & _)|(v & v' & k & X & _)]]; [|discriminate X|discriminate X].
  assert (Hf : In f helper_functions).
  { destruct g as [[x|d b i ss]|j|t|j|j| | | |]; cbn [P_Flow.at_name value_ok] in E, V; try (now destruct V); try exact E; [subst f; named]. }
  destruct (Hc Hf) as [H1 H2]. split; [intros i ->; cbn [P_Flow.at_name] in E; contradiction|]. now apply eval_args_kept.
Qed.
Lemma eval_rel : forall w w' p e, worlds w w' -> flow_expr e -> both gsim (eval py w p e) (eval py w' p e).
Proof.
  intros w w' p [x|o k|xs f|c args] H He; cbn [eval].
  - eapply both_weaken; [|apply lookup_rel; exact H]. intros a b E. now apply (entry_gsim x).
  - eapply both_bind; [apply lookup_rel; exact H|]. intros g g' [[<- E]|(_ & x & x' & -> & -> & E)].
    + destruct g as [[x|d b i ss]|j|t|j|j| | | |]; cbn [both]; try reflexivity.
      * apply both_refl. intros a Ea. destruct (value_attr py x k); cbn [rmap] in Ea; [|discriminate]. assert (a = val a0) as -> by congruence. apply gsim_val, swap_refl.
      * eapply both_map; [apply (method_rel py free F declared); apply H|]. intros t t' [<- Ht]. left. now split.
    + cbn [val]. eapply both_map; [apply (fp_attr _ _ Fp); exact E|]. intros a b Eab. now apply gsim_val.
  - eapply both_map; [apply apply_rel; [exact H|exact He]|]. intros a b E. now apply gsim_val.
  - pose proof He as (Ha & _ & _). pose proof (find_callee_rel w w' p c H) as R. destruct (find_callee py w p c) as [fo|e], (find_callee py w' p c) as [fo'|e']; cbn [both rbind] in *; try contradiction; [|exact R].
    assert (FB : forall g, fo = FBuiltin g -> fo = fo' -> (forall i, g <> GValueOf _ _ i) /\ eval_args py w p args = eval_args py w' p args).
    { intros g -> <-. now apply (callee_builtin c args w w' p g H He). }
    pose proof (eval_args_rel w w' p args H Ha) as A. destruct (eval_args py w p args) as [l|e] eqn:El, (eval_args py w' p args) as [l'|e'] eqn:El'; cbn [both rbind] in *; try contradiction; [|exact A]. destruct A as (A1 & _ & _). apply values_rel in A1.
    destruct R as [[<- R]|[(v & v' & -> & -> & E)|(v & v' & k & -> & -> & E)]].
    + destruct fo as [c0|v|v k|g]; [reflexivity| | |].
      * eapply both_map; [apply (fp_object _ _ Fp); [apply swap_refl|exact A1]|]. intros a b Eab. now apply gsim_val.
      * eapply both_map; [apply (fp_method _ _ Fp); [apply swap_refl|exact A1]|]. intros a b Eab. now apply gsim_val.
      * destruct (FB g eq_refl eq_refl) as [Hg Hl]. assert (l = l') as <- by congruence. rewrite (call_builtin_kept _ _ g (values l) (proj1 H) Hg). apply both_refl. intros a Ea. destruct (call_builtin py (w_heap w') g (values l)); cbn [rmap] in Ea; [|discriminate]. assert (a = val a0) as -> by congruence. apply gsim_val, swap_refl.
    + eapply both_map; [apply (fp_object _ _ Fp); [exact E|exact A1]|]. intros a b Eab. now apply gsim_val.
    + eapply both_map; [apply (fp_method _ _ Fp); [exact E|exact A1]|]. intros a b Eab. now apply gsim_val.
Qed.
Lemma eval_kept : forall w w' p e, worlds w w' -> flow_expr e -> quiet (expr_names e) -> eval py w p e = eval py w' p e.
Proof.
  intros w w' p [x|o k|xs f|c args] H He Q; cbn [eval expr_names] in *.
  - apply Forall_cons_iff in Q. apply lookup_kept; tauto.
  - apply Forall_cons_iff in Q. destruct Q as [Q _]. rewrite <- (lookup_kept w w' p o H Q). destruct (lookup py w p o) as [g|e]; [|reflexivity]. cbn [rbind]. destruct g as [[x|d b i ss]|j|t|j|j| | | |]; try reflexivity.
    pose proof (method_rel py free F declared _ _ j k (proj1 H)) as R. destruct (method (w_heap w) j k) as [t|e], (method (w_heap w') j k) as [t'|e']; cbn [both rmap] in *; try contradiction; [|now subst]. now destruct R as [<- _].
  - now rewrite (reads_kept w w' p xs H Q).
  - unfold S_Flow.quiet in Q. apply Forall_app in Q. destruct Q as [Q1 Q2]. pose proof (find_callee_rel w w' p c H) as R. rewrite <- (find_callee_kept w w' p c H Q1) in *. rewrite <- (eval_args_kept w w' p args H Q2). destruct (find_callee py w p c) as [fo|e]; [|reflexivity]. cbn [rbind both] in *.
    destruct (eval_args py w p args) as [l|e]; [|reflexivity]. cbn [rbind]. destruct fo as [c0|v|v k|g]; try reflexivity.
    destruct (callee_builtin c args w w' p g H He R) as [Hg _]. now rewrite (call_builtin_kept _ _ g (values l) (proj1 H) Hg).
Qed.
Lemma evalue_rel : forall w w' p x, worlds w w' -> flow_text py free declared x -> both swap (evalue py w p x) (evalue py w' p x).
Proof. intros w w' p x H Hx. unfold evalue. eapply both_map; [apply eval_rel; [exact H|exact Hx]|]. intros a b E. now apply gsim_value. Qed.
Lemma evalue_kept : forall w w' p x, worlds w w' -> decides py free declared x -> evalue py w p x = evalue py w' p x.
Proof. intros w w' p x H [H1 H2]. unfold evalue. now rewrite (eval_kept w w' p _ H H1 H2). Qed.
Lemma condition_kept : forall w w' p x, worlds w w' -> decides py free declared x -> condition py w p x = condition py w' p x.
Proof. intros w w' p x H Hx. unfold condition. now rewrite (evalue_kept w w' p x H Hx). Qed.
Lemma kept_rel : forall w w' p x v v', worlds w w' -> entry x v v' -> worlds (set_name w p x v) (set_name w' p x v').
Proof. exact (set_name_rel py free F declared). Qed.
Lemma sets_rel : forall w w' p x e, worlds w w' -> sets py free F declared x e -> both (entry x) (eval py w p e) (eval py w' p e).
Proof.
  intros w w' p x e H (H1 & H2 & H3). pose proof (eval_rel w w' p e H H1) as R. pose proof (eval_kept w w' p e H H1) as K.
  destruct (eval py w p e) as [g|er] eqn:Eg, (eval py w' p e) as [g'|er'] eqn:Eg'; cbn [both] in *; try contradiction; [|exact R].
  assert (Q : free x \/ g = g') by (destruct H2 as [H2|H2]; [now left|right; specialize (K H2); congruence]).
  destruct H3 as [H3|(o & k & -> & Ho)]; [now apply gsim_entry|].
  (* an attribute of a template *)
  cbn [eval] in Eg, Eg'. pose proof (lookup_rel w w' p o H) as Lo. destruct (lookup py w p o) as [a|], (lookup py w' p o) as [b|]; cbn [both rbind] in *; try contradiction; try discriminate.
  destruct Lo as [[<- Ao]|(Hf & _)]; [|exfalso; now destruct (Fr o Hf)]. destruct a as [[y|d b i ss]|j|t|j|j| | | |]; try discriminate; [cbn [P_Flow.at_name] in Ao; contradiction|].
  pose proof (method_rel py free F declared _ _ j k (proj1 H)) as M. destruct (method (w_heap w) j k) as [t|], (method (w_heap w') j k) as [t'|]; cbn [both rmap] in *; try contradiction; try discriminate. destruct M as [<- Ht].
  assert (g = GFun _ _ t) as -> by congruence. assert (g' = GFun _ _ t) as -> by congruence. left. split; [reflexivity|exact Ht].
Qed.

(** Parameters. *)
Lemma bind_args_rel : forall d args l l', flow_decl d -> args_rel args l l' -> flow_params args ->
  both items (bind_args py d l) (bind_args py d l').
Proof.
  intros d args l l' [Dd Dn] (A1 & A2 & A3) P. unfold bind_args.
  assert (E : map fst l = map fst l') by (clear -A1; induction A1 as [|a a' l l' [E _] A IH]; cbn [map]; congruence).
  rewrite <- E. destruct (bind_params py d (map fst l)) as [ps|e] eqn:Eb; cbn [rbind]; [|reflexivity]. pose proof (Dn _ _ Eb) as Hn. rewrite A2 in Eb. specialize (P d ps Dd Eb). apply both_seq.
  clear Eb. induction ps as [|[x a] ps IH]; cbn [map]; [constructor|]. apply Forall_cons_iff in Hn. destruct Hn as [Hn1 Hn]. apply Forall_cons_iff in P. destruct P as [P1 P]. constructor; [|now apply IH].
  cbn [fst snd] in *. destruct a as [n|v]; [|split; [reflexivity|]; left; split; [reflexivity|exact Hn1]].
  pose proof (forall2_nth _ _ _ _ _ n A1) as G. destruct (nth_error l n) as [a|] eqn:E1, (nth_error l' n) as [a'|] eqn:E2; try contradiction; [|reflexivity]. destruct G as [_ G]. split; [reflexivity|]. cbn [fst snd].
  apply gsim_entry; [exact Hn1|exact G|]. destruct P1 as [P1|P1]; [now left|right].
  destruct (nth_error args n) as [a0|] eqn:E0; [now rewrite (A3 n a0 a a' E0 E1 E2 (P1 a0 eq_refl))|].
  exfalso. apply nth_error_None in E0. assert (L1 : length l = length args) by (rewrite <- (map_length fst l), A2; apply map_length). assert (n < length l) by (apply nth_error_Some; congruence). lia.
Qed.

(** ** Showing *)
Variable load : bool -> str -> result (cls (fobj dcode) (str * dcode)).
Hypothesis Hload : forall fragment name c, load fragment name = Ok c -> flow_class c.
Definition meant_rel (raw : bool) (m m' : meant) : Prop :=
  both (fun a b => Forall2 (shown raw) (fst a) (fst b) /\ worlds (snd a) (snd b)) m m'.
Variable invoke : callable dcode -> list (str * dval) -> dworld -> meant.
Definition invokes : Prop :=
  forall raw d b i ss params params' w w', Forall (flow raw) b -> items params params' -> worlds w w' ->
    meant_rel raw (invoke (d, b, i, ss) params w) (invoke (d, b, i, ss) params' w').
Hypothesis Hinv : invokes.
Variable p : place.
Notation meaning := (meaning py load invoke p).
Notation means := (means py load invoke p).
Notation under := (under py p).

Definition flat_rel (v v' : M_Values.value) : Prop := exists l l', v = VFlat l /\ v' = VFlat l' /\ Forall2 (shown false) l l'.
Lemma call_function_rel : forall c args l l' w w', callable_ok c -> args_rel args l l' -> flow_params args -> worlds w w' ->
  both (fun a b => flat_rel (fst a) (fst b) /\ worlds (snd a) (snd b)) (call_function py invoke c l w) (call_function py invoke c l' w').
Proof.
  intros [[[d b] i] ss] args l l' w w' [Hd Hb] A P H. unfold call_function. cbn [fst snd]. eapply both_bind; [apply (bind_args_rel d args l l' Hd A P)|]. intros ps ps' Hp.
  eapply both_map; [apply (Hinv false d b i ss ps ps' w w' Hb Hp H)|]. intros [o w1] [o' w1'] [Q1 Q2]. cbn [fst snd] in *. split; [|exact Q2]. exists o, o'. auto.
Qed.
Lemma show_value_rel : forall x w w', worlds w w' -> flow_text py free declared x ->
  both (fun a b => (flat_rel (fst a) (fst b) \/ swap (fst a) (fst b) /\ (quiet (expr_names (parse py x)) -> fst a = fst b) /\ ~ calls_function py F x) /\ worlds (snd a) (snd b))
    (show_value py (fun w => w) invoke p x w) (show_value py (fun w => w) invoke p x w').
Proof.
  intros x w w' H Hx. unfold show_value.
  assert (Q : ~ calls_function py F x -> both (fun a b => (flat_rel (fst a) (fst b) \/ swap (fst a) (fst b) /\ (quiet (expr_names (parse py x)) -> fst a = fst b) /\ ~ calls_function py F x) /\ worlds (snd a) (snd b))
                (rmap (fun v => (v, w)) (evalue py w p x)) (rmap (fun v => (v, w')) (evalue py w' p x))).
  { intros Nc. pose proof (evalue_rel w w' p x H Hx) as R. pose proof (fun q => evalue_kept w w' p x H (conj Hx q)) as K. destruct (evalue py w p x) as [v|e], (evalue py w' p x) as [v'|e']; cbn [both rmap] in *; try contradiction; [|exact R].
    cbn [fst snd]. split; [|exact H]. right. split; [exact R|]. split; [|exact Nc]. intros q. specialize (K q). congruence. }
  destruct (parse py x) as [y|o k|xs f|c args] eqn:Ep; try (apply Q; intros (f0 & a0 & E0 & _); congruence).
  pose proof Hx as Hx'. unfold flow_text in Hx'. rewrite Ep in Hx'. destruct Hx' as (Ha & P & _). cbn beta.
  assert (NF : forall fo fo', found_rel c fo fo' -> find_callee py w p c = Ok fo -> (forall t, fo <> FTemplate t) -> ~ calls_function py F x).
  { intros fo fo' _ Ef Nt (f0 & a0 & E0 & Ff). assert (f0 = c) as -> by congruence. assert (Fn : forall o g, F o -> lookup py w p o = Ok g -> (forall v, g <> val v) /\ (forall g', g = g' -> ~ In o helper_functions)).
    { intros o g Fo Eo. pose proof (lookup_rel w w' p o H) as R. rewrite Eo in R. destruct (lookup py w' p o) as [g'|]; cbn [both] in R; [|contradiction]. split; [|intros _ _; now apply Fh]. intros v ->. destruct R as [[_ R]|(R & _)]; [cbn [P_Flow.at_name val] in R; contradiction|]. now destruct (Fr o R). }
    destruct c as [f|o f]; cbn [callee_names find_callee] in *; apply Forall_cons_iff in Ff; destruct Ff as [Ff _].
    - destruct (lookup py w p f) as [g|] eqn:Eg; cbn [rbind] in Ef; [|discriminate]. destruct (Fn f g Ff Eg) as [N1 N2]. pose proof (lookup_rel w w' p f H) as R. rewrite Eg in R. destruct (lookup py w' p f) as [g'|]; cbn [both] in R; [|contradiction].
      apply kept_entry in R; [|intros X; now destruct (Fr f X)]. destruct R as [_ R].
      destruct g as [[v|d b i ss]|j|t|j|j| | | |]; try discriminate; cbn [P_Flow.at_name] in R; try contradiction; try (now apply (N2 _ eq_refl)).
      + now apply (Nt (d, b, i, ss)); congruence.
      + destruct (tpl_callable py (w_heap w) t) as [t0|]; cbn [rmap] in Ef; [|discriminate]. apply (Nt t0). congruence.
      + apply (N2 _ eq_refl). subst f. named.
    - destruct (lookup py w p o) as [g|] eqn:Eg; cbn [rbind] in Ef; [|discriminate]. destruct (Fn o g Ff Eg) as [N1 _]. destruct g as [[v|d b i ss]|j|t|j|j| | | |]; try discriminate; [now destruct (N1 v)|].
      destruct (method (w_heap w) j f) as [t|]; cbn [rbind] in Ef; [|discriminate]. destruct (tpl_callable py (w_heap w) t) as [t0|]; cbn [rmap] in Ef; [|discriminate]. apply (Nt t0). congruence. }
  pose proof (find_callee_rel w w' p c H) as R. destruct (find_callee py w p c) as [fo|e] eqn:Ef, (find_callee py w' p c) as [fo'|e'] eqn:Ef'; cbn [both rbind] in *; try contradiction; [|exact R].
  pose proof R as R0. destruct R as [[<- R]|[(v & v' & -> & -> & E)|(v & v' & k & -> & -> & E)]].
  - destruct fo as [t|v|v k|g]; try (apply Q; eapply NF; [exact R0|reflexivity|congruence]).
    eapply both_bind; [apply (eval_args_rel w w' p args H Ha)|]. intros l l' A. eapply both_weaken; [|apply (call_function_rel t args l l' w w' R A P H)]. intros a b [Fl Hw]. split; [now left|exact Hw].
  - apply Q. eapply NF; [exact R0|reflexivity|congruence].
  - apply Q. eapply NF; [exact R0|reflexivity|congruence].
Qed.

(** ** Statements *)
Lemma under_rel : forall raw g w w' m m', decides_guard py free declared g -> worlds w w' -> meant_rel raw m m' -> meant_rel raw (under g w m) (under g w' m').
Proof.
  intros raw g w w' m m' Hg H Hm. unfold S_Run.under. unfold decides_guard in Hg. destruct (truthy_guard g) as [c|]; [|exact Hm]. rewrite (condition_kept w w' p c H Hg). destruct (condition py w' p c) as [[|]|e]; cbn [rbind]; [exact Hm| |reflexivity].
  split; [constructor|exact H].
Qed.
Lemma then_rel : forall raw m m' f f', meant_rel raw m m' -> (forall w w', worlds w w' -> meant_rel raw (f w) (f' w')) -> meant_rel raw (then_ m f) (then_ m' f').
Proof.
  intros raw m m' f f' H Hf. unfold then_. eapply both_bind; [exact H|]. intros [o w] [o' w'] [H1 H2]. cbn [fst snd] in *. eapply both_map; [apply Hf; exact H2|]. intros [o1 w1] [o1' w1'] [H3 H4]. cbn [fst snd] in *. split; [now apply Forall2_app|exact H4].
Qed.
Definition steps_rel (raw : bool) (s : rstm) : Prop := forall w w', flow raw s -> worlds w w' -> meant_rel raw (meaning s w) (meaning s w').
Lemma means_rel : forall raw l w w', Forall (steps_rel raw) l -> Forall (flow raw) l -> worlds w w' -> meant_rel raw (means l w) (means l w').
Proof.
  intros raw l. induction l as [|s l IH]; intros w w' Hs Hl H; cbn [S_Run.means]; [split; [constructor|exact H]|]. apply Forall_cons_iff in Hs. destruct Hs as [H1 H2]. apply Forall_cons_iff in Hl. destruct Hl as [H3 H4].
  apply then_rel; [now apply H1|]. intros w1 w1' Hw. now apply IH.
Qed.
Lemma for_each_rel : forall raw body body' l w w', (forall w w', worlds w w' -> meant_rel raw (body w) (body' w')) -> Forall (fun r => items r r) l -> worlds w w' ->
  meant_rel raw (for_each p body l w) (for_each p body' l w').
Proof.
  intros raw body body' l w w' Hb Hl. revert w w'. induction Hl as [|r l H1 H2 IH]; intros w w' H; cbn [for_each]; [split; [constructor|exact H]|]. apply then_rel; [|exact IH]. apply Hb. now apply (set_names_rel py free F declared).
Qed.
Lemma rounds_items : forall w d l, Forall (fun x => ~ F x) (fst (parse_for py d)) -> rounds py w p d = Ok l -> Forall (fun r => items r r) l.
Proof.
  intros w d l Hn E. unfold rounds in E. destruct (parse_for py d) as [xs e]. cbn [fst] in Hn. destruct (eval py w p e) as [g|]; cbn [rbind] in E; [|discriminate]. destruct (iterate py (as_value g)) as [vs|]; cbn [rbind] in E; [|discriminate].
  assert (One : forall x v, ~ F x -> item py free F declared (x, val v) (x, val v)) by (intros x v Hx; split; [reflexivity|]; left; split; [reflexivity|exact Hx]).
  assert (Many : forall xs vs, Forall (fun x => ~ F x) xs -> items (combine xs (map val vs)) (combine xs (map val vs))).
  { clear -One. intros xs vs H. revert vs. induction H as [|x xs H1 H2 IH]; intros [|v vs]; cbn [combine map]; constructor; [now apply One|apply IH]. }
  revert l E. induction vs as [|v vs IH]; intros l E; cbn [map rseq] in E; [injection E as <-; constructor|].
  match type of E with rbind ?a _ = _ => destruct a as [r|] eqn:Er end; cbn [rbind] in E; [|discriminate]. match type of E with rmap _ ?a = _ => destruct a as [l1|] eqn:El end; cbn [rmap] in E; [|discriminate]. injection E as <-. constructor; [|now apply IH].
  assert (U : rbind (unpack py v) (fun vs => if Nat.eqb (length vs) (length xs) then Ok (combine xs (map (@val dcode) vs)) else Raise "ValueError") = Ok r -> items r r).
  { intros Eu. destruct (unpack py v) as [us|]; cbn [rbind] in Eu; [|discriminate]. destruct (Nat.eqb (length us) (length xs)); [|discriminate]. injection Eu as <-. now apply Many. }
  destruct xs as [|x [|y xs]]; try (now apply U). injection Er as <-. constructor; [|constructor]. apply One. apply Forall_cons_iff in Hn. tauto.
Qed.
Lemma rounds_kept : forall w w' d, worlds w w' -> decides_expr py free declared (snd (parse_for py d)) -> rounds py w p d = rounds py w' p d.
Proof. intros w w' d H [H1 H2]. unfold rounds. destruct (parse_for py d) as [xs e]. cbn [snd] in *. now rewrite (eval_kept w w' p e H H1 H2). Qed.
Lemma assigns_rel : forall vars w w', Forall (fun kx => sets py free F declared (fst kx) (parse py (snd kx)) /\ ~ F (fst kx)) vars -> worlds w w' ->
  both worlds (assigns py p vars w) (assigns py p vars w').
Proof.
  intros vars w w' Hv. revert w w'. induction Hv as [|[k x] vars [H1 _] H2 IH]; intros w w' H; cbn [assigns]; [exact H|]. cbn [fst snd] in H1. eapply both_bind; [apply (sets_rel w w' p k _ H H1)|]. intros v v' E. apply IH. now apply (set_name_rel py free F declared).
Qed.
Lemma old_values_rel : forall ks w w', Forall (fun k => ~ F k) ks -> worlds w w' -> items (old_values p ks w) (old_values p ks w').
Proof.
  intros ks w w' Hk H. unfold old_values. induction Hk as [|k ks H1 H2 IH]; cbn [map]; constructor; [|exact IH]. split; [reflexivity|]. cbn [fst snd]. pose proof (local_value_rel py free F declared w w' p k H) as R.
  destruct (local_value w p k), (local_value w' p k); try contradiction; [exact R|]. left. split; [reflexivity|exact H1].
Qed.
Lemma define_rel : forall d b w w', code_ok d b -> worlds w w' -> worlds (define p d b w) (define p d b w').
Proof. intros d b w w' Hc H. unfold define. apply (set_name_rel py free F declared); [exact H|]. left. split; [reflexivity|exact Hc]. Qed.
Lemma run_block_rel : forall raw l w w', Forall (flow_pystm py free F declared) l -> worlds w w' -> meant_rel raw (run_block py w p l) (run_block py w' p l).
Proof.
  intros raw l w w' Hl. revert w w'. induction Hl as [|[x e|xs ys f] l H1 H2 IH]; intros w w' H; cbn [run_block]; [split; [constructor|exact H]| |].
  - cbn [flow_pystm] in H1. eapply both_bind; [apply (sets_rel w w' p x e H H1)|]. intros v v' E. apply IH. now apply (set_name_rel py free F declared).
  - cbn [flow_pystm] in H1. destruct H1 as [Hn H1].
    assert (R : both (fun r r' => fst r = fst r' /\ forall w w', worlds w w' -> worlds (bind_some w p ys (snd r)) (bind_some w' p ys (snd r'))) (f (reads py w p xs)) (f (reads py w' p xs))).
    { destruct H1 as [Q|[Hf R]].
      - rewrite (reads_kept w w' p xs H Q). apply both_refl. intros [o vs] _. cbn [fst snd]. split; [reflexivity|]. clear -Hn. revert vs. induction Hn as [|y ys H1 H2 IH]; intros [|[v|] vs] w w' H; cbn [bind_some]; try exact H; apply IH; [|exact H].
        apply (set_name_rel py free F declared); [exact H|]. left. split; [reflexivity|exact H1].
      - eapply both_weaken; [|apply (R _ _ (reads_rel w w' p xs H))]. intros [o vs] [o' vs'] [E Hv]. cbn [fst snd] in *. split; [exact E|]. clear -Hf Hv. revert ys Hf. induction Hv as [|v v' vs vs' H1 H2 IH]; intros [|y ys] Hf w w' H; cbn [bind_some]; try exact H.
        apply Forall_cons_iff in Hf. destruct Hf as [Hf1 Hf]. destruct v as [v|], v' as [v'|]; try contradiction; apply IH; try assumption. apply (set_name_rel py free F declared); [exact H|]. right. split; [exact Hf1|]. eauto. }
    eapply both_bind; [exact R|]. intros [o vs] [o' vs'] [<- Hb]. cbn [fst snd] in *. eapply both_map; [apply IH; apply Hb; exact H|]. intros [o1 w1] [o1' w1'] [H3 H4]. cbn [fst snd] in *. split; [|exact H4]. apply Forall2_app; [|exact H3]. apply forall2_refl. apply Forall_forall. intros. constructor.
Qed.
Lemma instance_kept : forall w w' x, worlds w w' -> In x kept_names -> instance py w p x = instance py w' p x.
Proof.
  intros w w' x H Hx. unfold instance. rewrite (lookup_kept w w' p x H) by now apply (not_free free F Fr). destruct (lookup py w' p x) as [g|]; [|reflexivity]. cbn [rbind]. now destruct g.
Qed.
Lemma translate_kept : forall w w' t, worlds w w' -> translate py w p t = translate py w' p t.
Proof.
  intros w w' t H. unfold translate. rewrite (instance_kept w w' (L "local") H) by named. destruct (instance py w' p (L "local")) as [i|]; [|reflexivity]. cbn [rbind].
  pose proof (items_get py free F declared _ _ (L "gettext") (globals_rel py free F declared _ _ i (proj1 H))) as E.
  destruct (get (L "gettext") (globals _ _ (w_heap w) i)) as [v|], (get (L "gettext") (globals _ _ (w_heap w') i)) as [v'|]; try contradiction; [|reflexivity]. apply kept_entry in E; [|apply (not_free free F Fr); named]. now destruct E as [<- _].
Qed.
Definition loaded_rel (a b : dworld * nat) : Prop := worlds (fst a) (fst b) /\ snd a = snd b.
Lemma import_template_rel : forall w w' t a, worlds w w' -> both loaded_rel (import_template py load w p t a) (import_template py load w' p t a).
Proof.
  intros w w' t a H. unfold import_template. rewrite (instance_kept w w' (L "local") H), (instance_kept w w' (L "self") H) by named. destruct (instance py w' p (L "local")); [|reflexivity]. destruct (instance py w' p (L "self")) as [g|]; [|reflexivity]. cbn [rbind].
  destruct (load true t) as [c|] eqn:El; [|reflexivity]. cbn [rmap]. destruct (import_rel py free F declared Fr Fh (w_heap w) (w_heap w') t a c g (proj1 H) (Hload _ _ _ El)) as [H1 H2].
  destruct (import_ _ _ (w_heap w) t a c g) as [h r], (import_ _ _ (w_heap w') t a c g) as [h' r']. cbn [fst snd both] in *. split; [|exact H2]. split; [exact H1|apply H].
Qed.
Lemma extend_template_rel : forall w w' t, worlds w w' -> both loaded_rel (extend_template py load w p t) (extend_template py load w' p t).
Proof.
  intros w w' t H. unfold extend_template. rewrite (instance_kept w w' (L "local") H) by named. destruct (instance py w' p (L "local")) as [i|]; [|reflexivity]. cbn [rbind].
  destruct (load false t) as [c|] eqn:El; [|reflexivity]. cbn [rbind]. eapply both_map; [apply (extend_rel py free F declared Fr Fh); [apply H|now apply (Hload _ _ _ El)]|]. intros [h q] [h' q'] [H1 H2]. cbn [fst snd] in *. split; [|exact H2]. split; [exact H1|apply H].
Qed.
Lemma show_call_rel : forall raw c w w', callable_ok c -> worlds w w' -> meant_rel raw (show_call py invoke c w) (show_call py invoke c w').
Proof.
  intros raw c w w' Hc H. unfold show_call. eapply both_map; [apply (call_function_rel c [] [] [] w w' Hc); [|intros d l _ _|exact H]|].
  - split; [constructor|]. split; [reflexivity|]. intros [|n] a g g' E; discriminate E.
  - apply Forall_forall. intros [x [n|v]] _; cbn [snd]; [|exact Logic.I]. right. intros a E. destruct n; discriminate E.
  - intros [v w1] [v' w1'] [(l & l' & E1 & E2 & E3) Hw]. cbn [fst snd] in *. subst v v'. split; [|exact Hw]. constructor; [now constructor|constructor].
Qed.
Lemma loaded_main : forall raw r r', both loaded_rel r r' ->
  meant_rel raw (rbind r (fun wr => rbind (main_of py (w_heap (fst wr)) (snd wr)) (fun c => show_call py invoke c (fst wr))))
                (rbind r' (fun wr => rbind (main_of py (w_heap (fst wr)) (snd wr)) (fun c => show_call py invoke c (fst wr)))).
Proof.
  intros raw r r' H. eapply both_bind; [exact H|]. intros [w i] [w' i'] [Hw E]. cbn [fst snd] in *. subst i'. eapply both_bind; [apply (main_rel py free F declared Fr Fp); apply Hw|]. intros c c' [<- Hc]. now apply show_call_rel.
Qed.

Lemma flow_all : forall raw l, (fix go (l : list rstm) : Prop := match l with [] => True | m :: l' => flow raw m /\ go l' end) l <-> Forall (flow raw) l.
Proof. intros raw l. induction l as [|s l IH]; [split; constructor|]. rewrite Forall_cons_iff, IH. reflexivity. Qed.
Lemma flow_cases : forall raw l, (fix go (l : list (str * list rstm)) : Prop := match l with [] => True | (c, b) :: l' => (decides py free declared c /\ (fix go (l : list rstm) : Prop := match l with [] => True | m :: l' => flow raw m /\ go l' end) b) /\ go l' end) l
  <-> Forall (fun cb => decides py free declared (fst cb) /\ Forall (flow raw) (snd cb)) l.
Proof. intros raw l. induction l as [|[c b] l IH]; [split; constructor|]. rewrite Forall_cons_iff, IH, flow_all. reflexivity. Qed.

Theorem meaning_rel : forall s raw, steps_rel raw s.
Proof.
  assert (Body : forall raw l w w', Forall (fun s => forall raw, steps_rel raw s) l -> Forall (flow raw) l -> worlds w w' -> meant_rel raw (means l w) (means l w')).
  { intros raw l w w' Hs. apply means_rel. eapply Forall_impl; [|exact Hs]. intros s Hp. apply Hp. }
  induction s as [ |t g|t g|x s|c b els Hb He|d b els Hb He|v b Hb|d cs els Hc He|a v g m Hv|x g m|d b Hb|d c b Hb|t a|t|t|l] using rstm_ind'; intros raw w w' Fs H.
  - split; [|exact H]. constructor; constructor.
  - cbn [S_Run.meaning]. apply under_rel; [exact Fs|exact H|]. split; [|exact H]. constructor; constructor.
  - cbn [S_Run.meaning]. apply under_rel; [exact Fs|exact H|]. destruct (strip t); [split; [|exact H]; constructor; constructor|]. rewrite (translate_kept w w' t H). destruct (translate py w' p t); cbn [rmap]; [|reflexivity]. split; [|exact H]. constructor; constructor.
  - cbn [S_Run.meaning S_Flow.flow] in *. destruct Fs as [Fx Fs]. eapply both_map; [apply (show_value_rel x w w' H Fx)|]. intros [v w1] [v' w1'] [R Hw]. cbn [fst snd] in *. split; [|exact Hw]. constructor; [|constructor].
    destruct R as [(l & l' & -> & -> & R)|(R & Rq & _)]; [destruct s; now constructor|]. destruct s; [|apply shown_le; now apply escape_both]. destruct Fs as [Fs|[->|Fs]]; [discriminate Fs|now constructor|]. rewrite (Rq Fs). constructor.
  - rewrite !meaning_if. cbn [S_Flow.flow] in Fs. rewrite !flow_all in Fs. destruct Fs as (F1 & F2 & F3). rewrite (condition_kept w w' p c H F1). destruct (condition py w' p c) as [[|]|]; cbn [rbind]; [now apply Body|now apply Body|reflexivity].
  - rewrite !meaning_for. cbn [S_Flow.flow] in Fs. rewrite !flow_all in Fs. destruct Fs as ((F0 & F1) & F2 & F3). rewrite (rounds_kept w w' d H F1). destruct (rounds py w' p d) as [l|] eqn:El; cbn [rbind]; [|reflexivity]. apply then_rel; [|intros; now apply Body].
    apply for_each_rel; [intros; now apply Body|exact (rounds_items w' d l F0 El)|exact H].
  - rewrite !meaning_with. cbn [S_Flow.flow] in Fs. rewrite !flow_all in Fs. destruct Fs as (F1 & F2). eapply both_bind; [apply (assigns_rel v w w' F1 H)|]. intros w1 w1' H1. eapply both_map; [apply (Body raw b w1 w1' Hb F2 H1)|]. intros [o w2] [o' w2'] [H2 H3]. cbn [fst snd] in *. split; [exact H2|].
    apply (set_names_rel py free F declared); [|exact H3]. apply old_values_rel; [|exact H]. apply Forall_map. eapply Forall_impl; [|exact F1]. intros kx [_ Q]. exact Q.
  - rewrite !meaning_switch. cbn [S_Flow.flow] in Fs. rewrite flow_cases, flow_all in Fs. destruct Fs as (F1 & F2 & F3). rewrite (evalue_kept w w' p d H F1). destruct (evalue py w' p d) as [x|]; cbn [rbind]; [|reflexivity].
    induction cs as [|[c b] cs IH]; cbn [first_case]; [now apply Body|]. apply Forall_cons_iff in F2. destruct F2 as [[F4 F5] F2]. apply Forall_cons_iff in Hc. destruct Hc as [Hc1 Hc]. cbn [fst snd] in *. rewrite (evalue_kept w w' p c H F4). destruct (evalue py w' p c) as [u|]; cbn [rbind]; [|reflexivity].
    destruct (veq py u x); [now apply Body|now apply IH].
  - cbn [S_Run.meaning]. cbn [S_Flow.flow] in Fs. rewrite flow_all in Fs. destruct Fs as (F1 & F2). apply under_rel; [exact F1|exact H|]. eapply both_bind; [apply (Hinv true [] v (p_inst p) (p_scopes p) [] [] w w' F2); [constructor|exact H]|]. intros [o w1] [o' w1'] [H1 H2]. cbn [fst snd] in *.
    eapply both_bind; [apply collect_both; exact H1|]. intros x x' Ex. eapply both_map; [apply render_attrs_both; constructor; [split; [reflexivity|exact Ex]|constructor]|]. intros ch ch' Hch. cbn [fst snd]. split; [now apply chunks_shown|exact H2].
  - cbn [S_Run.meaning]. cbn [S_Flow.flow] in Fs. destruct Fs as (F1 & F2). apply under_rel; [exact F1|exact H|]. unfold attributes. eapply both_bind.
    + eapply both_bind; [apply (evalue_rel w w' p x H F2)|]. intros v v' Ev. exact (fp_attrs _ _ Fp v v' Ev).
    + intros l l' Hl. eapply both_map; [apply render_attrs_both; exact Hl|]. intros ch ch' Hch. cbn [fst snd]. split; [now apply chunks_shown|exact H].
  - cbn [S_Run.meaning]. cbn [S_Flow.flow] in Fs. rewrite flow_all in Fs. split; [constructor|]. cbn [snd]. now apply define_rel.
  - cbn [S_Run.meaning]. cbn [S_Flow.flow] in Fs. rewrite flow_all in Fs. destruct Fs as (F1 & F2 & F3 & F4). eapply both_map; [apply (show_value_rel c _ _ (define_rel d b w w' (conj F1 F2) H) F3)|]. intros [v w1] [v' w1'] [R Hw]. cbn [fst snd] in *. split; [|exact Hw]. constructor; [|constructor].
    destruct R as [(l & l' & -> & -> & R)|(_ & _ & R)]; [now constructor|contradiction].
  - cbn [S_Run.meaning]. eapply both_map; [apply (import_template_rel w w' t a H)|]. intros [w1 i] [w1' i'] [H1 _]. split; [constructor|exact H1].
  - cbn [S_Run.meaning]. apply loaded_main. now apply import_template_rel.
  - cbn [S_Run.meaning]. apply loaded_main. now apply extend_template_rel.
  - cbn [S_Run.meaning]. now apply run_block_rel.
Qed.
End Flow.

Section Whole.
Variable py : python.
Variable free : str -> Prop.
Variable F : str -> Prop.
Variable declared : str -> Prop.
Hypothesis Ap : apart free F.
Hypothesis Fp : fair_python py F.
Variable load : bool -> str -> result (cls (fobj dcode) (str * dcode)).
Hypothesis Hload : forall fragment name c, load fragment name = Ok c -> flow_class py free F declared c.

Theorem applies : forall depth, invokes py free F declared (apply py load depth).
Proof.
  destruct Ap as [Fr Fh]. induction depth as [|depth IH]; intros raw d b i ss params params' w w' Hb Hp H; [reflexivity|]. cbn [apply].
  assert (E : map fst params = map fst params') by (clear -Hp; induction Hp as [|x y l l' [E _] H IH]; cbn [map]; congruence).
  rewrite (forall2_len _ _ _ _ _ (proj2 H)). apply means_rel; [|exact Hb|].
  - apply Forall_forall. intros s _. now apply meaning_rel.
  - destruct H as [H1 H2]. split; cbn [w_heap w_frames]; [exact H1|]. apply Forall2_app; [exact H2|]. constructor; [|constructor]. split; cbn [fr_names fr_vars]; [now rewrite E|exact Hp].
Qed.
Theorem template_rel : forall depth c context context', flow_class py free F declared c -> swapped free F context context' ->
  both same_markup (template_means py load depth c (objects context)) (template_means py load depth c (objects context')).
Proof.
  intros depth c context context' Hc Hx. destruct Ap as [Fr Fh]. unfold template_means.
  assert (Hi : Forall2 (item py free F declared) (objects context) (objects context')).
  { unfold objects. clear -Hx. induction Hx as [|[k v] [k' v'] l l' (E & S1 & S2 & S3) H IH]; cbn [map fst snd] in *; constructor; [|exact IH]. subst k'. split; [reflexivity|]. cbn [fst snd]. destruct S2 as [S2|<-]; [right; split; [exact S2|]; eauto|left; split; [reflexivity|exact S3]]. }
  destruct (new_rel py free F declared Fr Fh [] [] c (Given _ _ (objects context)) (Given _ _ (objects context')) (Forall2_nil _) Hc Hi) as [H1 E].
  destruct (new _ _ [] c (Given _ _ (objects context))) as [h i], (new _ _ [] c (Given _ _ (objects context'))) as [h' i']. cbn [fst snd] in *. subst i'.
  eapply both_bind; [apply (main_rel py free F declared Fr Fp); exact H1|]. intros f f' [<- Hf].
  eapply both_map; [apply (call_function_rel py free F declared (apply py load depth) (applies depth) f [] [] [] (World h []) (World h' []) Hf)|].
  - split; [constructor|]. split; [reflexivity|]. intros [|n] a g g' X; discriminate X.
  - intros d l _ _. apply Forall_forall. intros [x [n|v]] _; cbn [snd]; [|exact Logic.I]. right. intros a X. destruct n; discriminate X.
  - split; [exact H1|constructor].
  - intros [v w1] [v' w1'] [(l & l' & E1 & E2 & E3) _]. cbn [fst snd] in *. subst v v'. apply render_same. constructor; [now constructor|constructor].
Qed.
End Whole.
