(** * Proofs: what the value of a variable can change, names and instances *)

From Coq Require Import Ascii String List Arith NArith ZArith Bool Lia.
From Verif Require Import PyStr PyStrLemmas M_Values S_Values P_Values M_IR M_Template S_Template P_Template M_Run S_Run P_NestRun S_Flow.
From Verif Require M_Exec.
Import ListNotations.
Open Scope list_scope.
Open Scope nat_scope.

(** ** Results that correspond *)
Lemma both_bind : forall A B C D (R : A -> B -> Prop) (Q : C -> D -> Prop) r r' f g,
  both R r r' -> (forall a b, R a b -> both Q (f a) (g b)) -> both Q (rbind r f) (rbind r' g).
Proof. intros A B C D R Q [a|e] [b|e'] f g H1 H2; cbn [both rbind] in *; try contradiction; [now apply H2|exact H1]. Qed.
Lemma both_map : forall A B C D (R : A -> B -> Prop) (Q : C -> D -> Prop) r r' f g,
  both R r r' -> (forall a b, R a b -> Q (f a) (g b)) -> both Q (rmap f r) (rmap g r').
Proof. intros A B C D R Q [a|e] [b|e'] f g H1 H2; cbn [both rmap] in *; try contradiction; [now apply H2|exact H1]. Qed.
Lemma both_refl : forall A (R : A -> A -> Prop) (r : result A), (forall a, r = Ok a -> R a a) -> both R r r.
Proof. intros A R [a|e] H; cbn [both]; auto. Qed.
Lemma both_eq : forall A (r r' : result A), r = r' -> both eq r r'.
Proof. intros A [a|e] r' <-; cbn [both]; reflexivity. Qed.
Lemma both_weaken : forall A B (R Q : A -> B -> Prop) r r', (forall a b, R a b -> Q a b) -> both R r r' -> both Q r r'.
Proof. intros A B R Q [a|e] [b|e'] H1 H2; cbn [both] in *; try contradiction; auto. Qed.
Lemma both_seq : forall A B (R : A -> B -> Prop) l l', Forall2 (both R) l l' -> both (Forall2 R) (rseq l) (rseq l').
Proof.
  intros A B R l l' H. induction H as [|x y l l' H1 H2 IH]; cbn [rseq]; [constructor|].
  eapply both_bind; [exact H1|]. intros a b Rab. eapply both_map; [exact IH|]. intros la lb F. now constructor.
Qed.
Lemma forall2_len : forall A B (R : A -> B -> Prop) l l', Forall2 R l l' -> length l = length l'.
Proof. intros A B R l l' H. induction H; cbn [length]; congruence. Qed.
Lemma forall2_weaken : forall A B (R Q : A -> B -> Prop) l l', (forall a b, R a b -> Q a b) -> Forall2 R l l' -> Forall2 Q l l'.
Proof. intros A B R Q l l' H F. induction F; constructor; auto. Qed.
Lemma forall2_nth : forall A B (R : A -> B -> Prop) l l' n, Forall2 R l l' ->
  match nth_error l n, nth_error l' n with Some a, Some b => R a b | None, None => True | _, _ => False end.
Proof. intros A B R l l' n H. revert n. induction H as [|a b l l' H1 H2 IH]; intros [|n]; cbn [nth_error]; auto. apply IH. Qed.
Lemma forall2_refl : forall A (R : A -> A -> Prop) l, Forall (fun a => R a a) l -> Forall2 R l l.
Proof. intros A R l H. induction H; constructor; auto. Qed.
Lemma swap_refl : forall v, swap v v.
Proof. now left. Qed.

Section Flow.
Variable py : python.
Variable free : str -> Prop.
Variable F : str -> Prop.
Variable declared : str -> Prop.
Hypothesis Fr : forall k, free k -> ~ In k kept_names /\ ~ F k.
Hypothesis Fh : forall k, F k -> ~ In k helper_functions.
Hypothesis Fp : fair_python py F.
Notation ddict := (dict (fobj dcode) (str * dcode)).
Notation dheap := (heap (fobj dcode) (str * dcode)).
Notation dcls := (cls (fobj dcode) (str * dcode)).
Notation tfun := (tplfun (str * dcode)).
Notation globals := (globals (fobj dcode) (str * dcode)).
Notation attrs := (attrs (fobj dcode) (str * dcode)).
Notation builtin := (fun k => option_map (@val dcode) (builtin_value py k)).
Notation flow := (flow py free F declared).
Notation flow_decl := (flow_decl py F declared).
Notation flow_class := (flow_class py free F declared).

(** ** Values *)
Definition code_ok (d : str) (b : dcode) : Prop := flow_decl d /\ Forall (flow false) b.
Definition fun_ok (f : tfun) : Prop := match f_code _ f with Code _ c => code_ok (fst c) (snd c) | Trampoline _ _ => True end.
(** Under the name [k]. *)
Definition at_name (k : str) (v : dval) : Prop :=
  match v with
  | GObj _ _ (RV _) => ~ F k
  | GObj _ _ (RC d b _ _) => code_ok d b
  | GFun _ _ f => fun_ok f
  | GValueOf _ _ _ => k = L "value_of"
  | GDefined _ _ _ | GLiteral _ _ | GGettext _ _ => In k helper_functions
  | _ => True
  end.
Definition entry (k : str) (v v' : dval) : Prop :=
  (v = v' /\ at_name k v) \/ (free k /\ exists x x', v = val x /\ v' = val x' /\ swap x x').
Definition item (kv kv' : str * dval) : Prop := fst kv = fst kv' /\ entry (fst kv) (snd kv) (snd kv').
Notation items := (Forall2 item).
Lemma kept_entry : forall k v v', ~ free k -> entry k v v' -> v = v' /\ at_name k v.
Proof. intros k v v' H [E|(H1 & _)]; [exact E|contradiction]. Qed.
Lemma entry_fun : forall k v v', entry k v v' -> is_fun _ _ v = is_fun _ _ v'.
Proof. intros k v v' [[-> _]|(_ & x & x' & -> & -> & _)]; reflexivity. Qed.
Lemma entry_value : forall k v v', entry k v v' -> swap (as_value v) (as_value v').
Proof. intros k v v' [[-> _]|(_ & x & x' & -> & -> & H)]; [apply swap_refl|exact H]. Qed.

(** ** Dictionaries *)
Lemma items_get : forall d d' k, items d d' ->
  match get k d, get k d' with Some v, Some v' => entry k v v' | None, None => True | _, _ => False end.
Proof.
  intros d d' k H. induction H as [|[k1 v1] [k2 v2] d d' [E H1] H2 IH]; cbn [get]; [exact Logic.I|]. cbn [fst snd] in *. subst k2.
  destruct (seqb_spec k k1) as [->|]; [exact H1|exact IH].
Qed.
Lemma items_has : forall d d' k, items d d' -> has k d = has k d'.
Proof. intros d d' k H. unfold has. pose proof (items_get d d' k H) as G. now destruct (get k d), (get k d'); try contradiction. Qed.
Lemma items_set : forall d d' k v v', items d d' -> entry k v v' -> items (set k v d) (set k v' d').
Proof.
  intros d d' k v v' H E. induction H as [|[k1 v1] [k2 v2] d d' [Ek H1] H2 IH]; cbn [set]; [constructor; [now split|constructor]|]. cbn [fst snd] in *. subst k2.
  destruct (seqb_spec k k1) as [->|]; (constructor; [|assumption]); split; cbn [fst snd]; auto.
Qed.
Lemma items_update : forall e e' d d', items e e' -> items d d' -> items (update _ _ d e) (update _ _ d' e').
Proof.
  intros e e' d d' H. revert d d'. unfold update. induction H as [|[k v] [k' v'] e e' [Ek E] H IH]; intros d d' Hd; cbn [fold_left]; [exact Hd|]. cbn [fst snd] in *. subst k'. apply IH. now apply items_set.
Qed.
Lemma items_refl : forall d, Forall (fun kv => at_name (fst kv) (snd kv)) d -> items d d.
Proof. intros d H. apply forall2_refl. eapply Forall_impl; [|exact H]. intros kv Hk. split; [reflexivity|]. left. now split. Qed.
Lemma items_overrides : forall d d', items d d' -> items (overrides _ _ d) (overrides _ _ d').
Proof.
  intros d d' H. unfold overrides. induction H as [|[k v] [k' v'] d d' [Ek E] H IH]; cbn [filter]; [constructor|]. cbn [fst snd] in *. subst k'. rewrite (entry_fun k v v' E).
  destruct (negb (seqb k (L "__main__")) && is_fun _ _ v'); [|exact IH]. constructor; [|exact IH]. now split.
Qed.

(** ** Instances *)
Definition context_rel (c c' : context (fobj dcode) (str * dcode)) : Prop :=
  match c, c' with Given _ _ d, Given _ _ d' => items d d' | GlobalsOf _ _ i, GlobalsOf _ _ j => i = j | _, _ => False end.
Definition inst_rel (x x' : inst (fobj dcode) (str * dcode)) : Prop :=
  context_rel (i_context _ _ x) (i_context _ _ x') /\ items (i_globals _ _ x) (i_globals _ _ x') /\
  i_attrs _ _ x = i_attrs _ _ x' /\ Forall (fun kf => fun_ok (snd kf)) (i_attrs _ _ x).
Notation heaps := (Forall2 inst_rel).

Lemma globals_rel : forall h h' i, heaps h h' -> items (globals h i) (globals h' i).
Proof. intros h h' i H. unfold M_Template.globals. pose proof (forall2_nth _ _ _ _ _ i H) as G. destruct (nth_error h i), (nth_error h' i); try contradiction; [apply G|constructor]. Qed.
Lemma attrs_rel : forall h h' i, heaps h h' -> attrs h i = attrs h' i /\ Forall (fun kf => fun_ok (snd kf)) (attrs h i).
Proof. intros h h' i H. unfold M_Template.attrs. pose proof (forall2_nth _ _ _ _ _ i H) as G. destruct (nth_error h i), (nth_error h' i); try contradiction; [destruct G as (_ & _ & G1 & G2); now split|split; constructor]. Qed.
Lemma put_rel : forall h h' i x x', heaps h h' -> inst_rel x x' -> heaps (put _ _ h i x) (put _ _ h' i x').
Proof. intros h h' i x x' H Hx. revert i. induction H as [|y y' h h' H1 H2 IH]; intros [|i]; cbn [put]; constructor; auto. Qed.
Lemma with_globals_rel : forall h h' i d d', heaps h h' -> items d d' -> heaps (with_globals _ _ h i d) (with_globals _ _ h' i d').
Proof.
  intros h h' i d d' H Hd. unfold with_globals. pose proof (forall2_nth _ _ _ _ _ i H) as G. destruct (nth_error h i), (nth_error h' i); try contradiction; [|exact H].
  apply put_rel; [exact H|]. destruct G as (G1 & G2 & G3 & G4). split; [exact G1|]. split; [exact Hd|]. now split.
Qed.
Lemma set_global_rel : forall h h' i k v v', heaps h h' -> entry k v v' ->
  heaps (with_globals _ _ h i (set k v (globals h i))) (with_globals _ _ h' i (set k v' (globals h' i))).
Proof. intros h h' i k v v' H E. apply with_globals_rel; [exact H|]. apply items_set; [now apply globals_rel|exact E]. Qed.
Lemma with_attrs_rel : forall h h' i a, heaps h h' -> Forall (fun kf => fun_ok (snd kf)) a -> heaps (with_attrs _ _ h i a) (with_attrs _ _ h' i a).
Proof.
  intros h h' i a H Ha. unfold with_attrs. pose proof (forall2_nth _ _ _ _ _ i H) as G. destruct (nth_error h i), (nth_error h' i); try contradiction; [|exact H].
  apply put_rel; [exact H|]. destruct G as (G1 & G2 & G3 & G4). split; [exact G1|]. split; [exact G2|]. now split.
Qed.
Lemma inst_entry : forall k i, entry k (GInst _ _ i) (GInst _ _ i).
Proof. intros k i. left. split; [reflexivity|exact Logic.I]. Qed.

Lemma not_free : forall k, In k kept_names -> ~ free k.
Proof. intros k H Hf. now destruct (Fr k Hf). Qed.
Ltac named := cbv [In kept_names helper_functions app]; tauto.

Lemma helpers_rel : forall i, items (helpers _ _ i) (helpers (fobj dcode) (str * dcode) i).
Proof. intros i. apply items_refl. unfold helpers. repeat (constructor; [cbn [fst snd at_name]; try exact Logic.I; named|]). constructor. Qed.
Lemma bound_rel : forall i ms, Forall (fun kf : str * (str * dcode) => code_ok (fst (snd kf)) (snd (snd kf))) ms -> Forall (fun kf => fun_ok (snd kf)) (bound _ i ms).
Proof. intros i ms H. unfold bound. apply Forall_map. eapply Forall_impl; [|exact H]. intros [k [d b]] Hk. exact Hk. Qed.
Lemma init_rel : forall i c d d', flow_class c -> items d d' -> items (init_globals _ _ i c d) (init_globals _ _ i c d').
Proof.
  intros i c d d' [Cm Cb] Hd. unfold init_globals.
  assert (G : items (update _ _ (update _ _ (update _ _ (helpers _ _ i) (base_globals _ _ c)) (map (fun kf => (fst kf, GFun (fobj dcode) (str * dcode) (snd kf))) (bound _ i (methods _ _ c)))) d)
                    (update _ _ (update _ _ (update _ _ (helpers _ _ i) (base_globals _ _ c)) (map (fun kf => (fst kf, GFun (fobj dcode) (str * dcode) (snd kf))) (bound _ i (methods _ _ c)))) d')).
  { apply items_update; [exact Hd|]. apply items_update.
    - apply items_refl. apply Forall_map. cbn [fst snd at_name]. now apply bound_rel.
    - apply items_update; [|apply helpers_rel]. apply items_refl. eapply Forall_impl; [|exact Cb]. intros [k v] [H1 [x H2]]. cbn [fst snd] in *. subst v. exact H1. }
  revert G. generalize (update _ _ (update _ _ (update _ _ (helpers _ _ i) (base_globals _ _ c)) (map (fun kf => (fst kf, GFun (fobj dcode) (str * dcode) (snd kf))) (bound _ i (methods _ _ c)))) d).
  generalize (update _ _ (update _ _ (update _ _ (helpers _ _ i) (base_globals _ _ c)) (map (fun kf => (fst kf, GFun (fobj dcode) (str * dcode) (snd kf))) (bound _ i (methods _ _ c)))) d').
  intros g' g G. apply items_set; [|left; split; [reflexivity|reflexivity]].
  pose proof (items_get g g' (L "gettext") G) as E. destruct (get (L "gettext") g) as [v|], (get (L "gettext") g') as [v'|]; try contradiction; [|exact G].
  apply items_set; [exact G|]. apply kept_entry in E; [|apply not_free; named]. destruct E as [<- E]. left. split; [reflexivity|]. destruct v as [[x|d0 b0 i0 s0]|j|f|j|j| | | |]; cbn [at_name] in *; try exact E; try named.
  - intros Hf. apply (Fh _ Hf). named.
  - discriminate E.
Qed.
Lemma context_rel_of : forall h h' c c', heaps h h' -> context_rel c c' -> items (context_of _ _ h c) (context_of _ _ h' c').
Proof. intros h h' [d|i] [d'|j] H E; cbn [context_rel context_of] in *; try contradiction; [exact E|]. subst j. now apply globals_rel. Qed.
Lemma new_rel : forall h h' c ctx ctx', heaps h h' -> flow_class c -> context_rel ctx ctx' ->
  heaps (fst (new _ _ h c ctx)) (fst (new _ _ h' c ctx')) /\ snd (new _ _ h c ctx) = snd (new _ _ h' c ctx').
Proof.
  intros h h' c ctx ctx' H Hc Hx. unfold new. cbn [fst snd]. rewrite (forall2_len _ _ _ _ _ H). split; [|reflexivity]. apply Forall2_app; [exact H|]. constructor; [|constructor].
  split; [exact Hx|]. split; [apply init_rel; [exact Hc|now apply context_rel_of]|]. split; [reflexivity|]. apply bound_rel. apply Hc.
Qed.
Lemma trampoline_rel : forall i k h h', heaps h h' ->
  heaps (if hasattr _ _ h i k then h else with_attrs _ _ h i (set k (TplFunc _ (Trampoline _ k) i) (attrs h i)))
        (if hasattr _ _ h' i k then h' else with_attrs _ _ h' i (set k (TplFunc _ (Trampoline _ k) i) (attrs h' i))).
Proof.
  intros i k h h' H. unfold hasattr. destruct (attrs_rel h h' i H) as [<- Ha]. destruct (has k (attrs h i) || smem k template_attributes); [exact H|]. apply with_attrs_rel; [exact H|].
  apply forall_set; [exact Logic.I|exact Ha].
Qed.
Lemma inherit_rel : forall i h h' kv kv', heaps h h' -> item kv kv' -> heaps (inherit _ _ i h kv) (inherit _ _ i h' kv').
Proof.
  intros i h h' [k v] [k' v'] H [Ek E]. cbn [fst snd] in *. subst k'. unfold inherit. rewrite (entry_fun k v v' E). destruct (seqb k (L "__main__") || negb (is_fun _ _ v')); [exact H|].
  apply trampoline_rel. rewrite (items_has _ _ k (globals_rel h h' i H)). destruct (has k (globals h' i)); [exact H|]. now apply set_global_rel.
Qed.
Lemma inherits_rel : forall i l l' h h', items l l' -> heaps h h' -> heaps (fold_left (inherit _ _ i) l h) (fold_left (inherit _ _ i) l' h').
Proof. intros i l l' h h' Hl. revert h h'. induction Hl as [|kv kv' l l' H1 H2 IH]; intros h h' H; cbn [fold_left]; [exact H|]. apply IH. now apply inherit_rel. Qed.
Lemma extend_rel : forall h h' i c, heaps h h' -> flow_class c ->
  both (fun hp hp' => heaps (fst hp) (fst hp') /\ snd hp = snd hp') (extend _ _ h i c) (extend _ _ h' i c).
Proof.
  intros h h' i c H Hc. unfold extend. pose proof (forall2_nth _ _ _ _ _ i H) as G. destruct (nth_error h i) as [x|], (nth_error h' i) as [x'|]; try contradiction; [|reflexivity].
  destruct G as (G1 & _ & _ & _). destruct (new_rel h h' c _ _ H Hc G1) as [H1 E1]. destruct (new _ _ h c (i_context _ _ x)) as [h1 p]. destruct (new _ _ h' c (i_context _ _ x')) as [h1' p']. cbn [fst snd] in *. subst p'. cbv zeta.
  assert (H2 : heaps (with_globals _ _ h1 p (update _ _ (globals h1 p) (overrides _ _ (globals h1 i)))) (with_globals _ _ h1' p (update _ _ (globals h1' p) (overrides _ _ (globals h1' i))))).
  { apply with_globals_rel; [exact H1|]. apply items_update; [apply items_overrides|]; now apply globals_rel. }
  revert H2. generalize (with_globals _ _ h1 p (update _ _ (globals h1 p) (overrides _ _ (globals h1 i)))). generalize (with_globals _ _ h1' p (update _ _ (globals h1' p) (overrides _ _ (globals h1' i)))). intros h2' h2 H2.
  assert (H3 : heaps (fold_left (inherit _ _ i) (globals h2 p) h2) (fold_left (inherit _ _ i) (globals h2' p) h2')) by (apply inherits_rel; [now apply globals_rel|exact H2]).
  revert H3. generalize (fold_left (inherit _ _ i) (globals h2 p) h2). generalize (fold_left (inherit _ _ i) (globals h2' p) h2'). intros h3' h3 H3.
  pose proof (set_global_rel h3 h3' p (L "child") _ _ H3 (inst_entry _ i)) as H4. revert H4.
  generalize (with_globals _ _ h3 p (set (L "child") (GInst _ _ i) (globals h3 p))). generalize (with_globals _ _ h3' p (set (L "child") (GInst _ _ i) (globals h3' p))). intros h4' h4 H4.
  pose proof (set_global_rel h4 h4' p (L "local") _ _ H4 (inst_entry _ p)) as H5. revert H5.
  generalize (with_globals _ _ h4 p (set (L "local") (GInst _ _ p) (globals h4 p))). generalize (with_globals _ _ h4' p (set (L "local") (GInst _ _ p) (globals h4' p))). intros h5' h5 H5.
  pose proof (items_get _ _ (L "self") (globals_rel h5 h5' i H5)) as E. destruct (get (L "self") (globals h5 i)) as [s|], (get (L "self") (globals h5' i)) as [s'|]; try contradiction; [|reflexivity].
  cbn [both fst snd]. split; [|reflexivity]. apply set_global_rel; [|apply inst_entry]. apply set_global_rel; [|apply inst_entry]. now apply set_global_rel.
Qed.
Lemma import_rel : forall h h' name alias c g, heaps h h' -> flow_class c ->
  heaps (fst (import_ _ _ h name alias c g)) (fst (import_ _ _ h' name alias c g)) /\ snd (import_ _ _ h name alias c g) = snd (import_ _ _ h' name alias c g).
Proof.
  intros h h' name alias c g H Hc. unfold import_. destruct (new_rel h h' c (GlobalsOf _ _ g) (GlobalsOf _ _ g) H Hc eq_refl) as [H1 E1].
  destruct (new _ _ h c (GlobalsOf _ _ g)) as [h1 p]. destruct (new _ _ h' c (GlobalsOf _ _ g)) as [h1' p']. cbn [fst snd] in *. subst p'. split; [|reflexivity]. apply set_global_rel; [exact H1|apply inst_entry].
Qed.

(** ** Functions *)
Lemma getattr_rel : forall h h' i k, heaps h h' -> getattr _ _ h i k = getattr _ _ h' i k /\ forall f, getattr _ _ h i k = Ok f -> fun_ok f.
Proof.
  intros h h' i k H. unfold getattr. destruct (attrs_rel h h' i H) as [<- Ha]. split; [reflexivity|]. intros f E. destruct (get k (attrs h i)) as [f0|] eqn:Eg; [|discriminate]. assert (f0 = f) as -> by congruence.
  apply get_some_in in Eg. rewrite Forall_forall in Ha. exact (Ha _ Eg).
Qed.
Lemma resolve_rel : forall h h' i k, heaps h h' -> both (entry k) (resolve _ _ builtin h i k) (resolve _ _ builtin h' i k).
Proof.
  intros h h' i k H. unfold resolve. pose proof (items_get _ _ k (globals_rel h h' i H)) as E. destruct (get k (globals h i)) as [v|], (get k (globals h' i)) as [v'|]; try contradiction; [exact E|].
  cbn beta. destruct (builtin_value py k) as [v|] eqn:Eb; cbn [option_map both]; [|reflexivity]. left. split; [reflexivity|]. exact (fp_builtin _ _ Fp k v Eb).
Qed.
Lemma target_rel : forall fuel h h' f, heaps h h' -> fun_ok f ->
  target _ _ builtin fuel h f = target _ _ builtin fuel h' f /\ forall c i, target _ _ builtin fuel h f = Ok (c, i) -> code_ok (fst c) (snd c).
Proof.
  induction fuel as [|n IH]; intros h h' [[c|k] i] H Hf; cbn [target f_code f_inst].
  - split; [reflexivity|]. intros c' i' E. assert (c' = c) as -> by congruence. exact Hf.
  - split; [reflexivity|discriminate].
  - split; [reflexivity|]. intros c' i' E. assert (c' = c) as -> by congruence. exact Hf.
  - pose proof (resolve_rel h h' i (L "parent") H) as R. destruct (resolve _ _ builtin h i (L "parent")) as [v|e], (resolve _ _ builtin h' i (L "parent")) as [v'|e']; cbn [both] in R; try contradiction; [|subst e'; split; [reflexivity|discriminate]].
    apply kept_entry in R; [|apply not_free; named]. destruct R as [<- _]. cbn [rbind]. destruct v as [o|j|f|j|j| | | |]; cbn [as_instance rbind]; try (split; [reflexivity|discriminate]).
    destruct (getattr_rel h h' j k H) as [<- Hg]. destruct (getattr _ _ h j k) as [f|e]; cbn [rbind]; [|split; [reflexivity|discriminate]]. now apply IH; [|apply Hg].
Qed.
Definition callable_ok (c : callable dcode) : Prop := let '(d, b, _, _) := c in code_ok d b.
Lemma tpl_callable_rel : forall h h' f, heaps h h' -> fun_ok f ->
  both (fun c c' => c = c' /\ callable_ok c) (tpl_callable py h f) (tpl_callable py h' f).
Proof.
  intros h h' f H Hf. unfold tpl_callable. rewrite <- (forall2_len _ _ _ _ _ H). destruct (target_rel (S (length h)) h h' f H Hf) as [<- Ht].
  destruct (target _ _ builtin (S (length h)) h f) as [[[d b] i]|e]; cbn [rmap both fst snd]; [|reflexivity]. split; [reflexivity|]. exact (Ht (d, b) i eq_refl).
Qed.
Lemma method_rel : forall h h' i k, heaps h h' -> both (fun f f' => f = f' /\ fun_ok f) (method h i k) (method h' i k).
Proof.
  intros h h' i k H. unfold method. destruct (getattr_rel h h' i k H) as [<- Hg]. destruct (getattr _ _ h i k) as [f|e]; cbn [both]; [split; [reflexivity|now apply Hg]|]. destruct (smem k template_attributes); reflexivity.
Qed.
Lemma main_rel : forall h h' i, heaps h h' -> both (fun c c' => c = c' /\ callable_ok c) (main_of py h i) (main_of py h' i).
Proof.
  intros h h' i H. unfold main_of. destruct (getattr_rel h h' i (L "__main__") H) as [<- Hg]. destruct (getattr _ _ h i (L "__main__")) as [f|e]; cbn [rbind]; [|reflexivity]. apply tpl_callable_rel; [exact H|now apply Hg].
Qed.

(** ** Variables *)
Definition frame_rel (f f' : frame dcode) : Prop := fr_names f = fr_names f' /\ items (fr_vars f) (fr_vars f').
Definition worlds (w w' : dworld) : Prop := heaps (w_heap w) (w_heap w') /\ Forall2 frame_rel (w_frames w) (w_frames w').
Lemma find_name_rel : forall fs fs' err ss x, Forall2 frame_rel fs fs' ->
  match find_name fs err ss x, find_name fs' err ss x with Some r, Some r' => both (entry x) r r' | None, None => True | _, _ => False end.
Proof.
  intros fs fs' err ss x H. revert err. induction ss as [|f ss IH]; intros err; cbn [find_name]; [exact Logic.I|]. pose proof (forall2_nth _ _ _ _ _ f H) as G. destruct (nth_error fs f) as [fr|], (nth_error fs' f) as [fr'|]; try contradiction; [|apply IH].
  destruct G as [<- G]. destruct (smem x (fr_names fr)); [|apply IH]. pose proof (items_get _ _ x G) as E. destruct (get x (fr_vars fr)), (get x (fr_vars fr')); try contradiction; [exact E|reflexivity].
Qed.
Lemma lookup_rel : forall w w' p x, worlds w w' -> both (entry x) (lookup py w p x) (lookup py w' p x).
Proof.
  intros w w' p x [H1 H2]. unfold lookup. pose proof (find_name_rel _ _ "UnboundLocalError" (p_scopes p) x H2) as G.
  destruct (find_name (w_frames w) "UnboundLocalError" (p_scopes p) x), (find_name (w_frames w') "UnboundLocalError" (p_scopes p) x); try contradiction; [exact G|]. now apply resolve_rel.
Qed.
Lemma lookup_kept : forall w w' p x, worlds w w' -> ~ free x -> lookup py w p x = lookup py w' p x.
Proof.
  intros w w' p x H Hx. pose proof (lookup_rel w w' p x H) as R. destruct (lookup py w p x), (lookup py w' p x); cbn [both] in R; try contradiction; [|now subst]. f_equal. now apply kept_entry in R.
Qed.
Lemma put_frame_rel : forall fs fs' i x x', Forall2 frame_rel fs fs' -> frame_rel x x' -> Forall2 frame_rel (put_frame fs i x) (put_frame fs' i x').
Proof. intros fs fs' i x x' H Hx. revert i. induction H as [|y y' fs fs' H1 H2 IH]; intros [|i]; cbn [put_frame]; constructor; auto. Qed.
Lemma set_name_rel : forall w w' p x v v', worlds w w' -> entry x v v' -> worlds (set_name w p x v) (set_name w' p x v').
Proof.
  intros w w' p x v v' H E. unfold set_name. destruct (p_scopes p) as [|f ss]; [exact H|]. destruct H as [H1 H2]. pose proof (forall2_nth _ _ _ _ _ f H2) as G.
  destruct (nth_error (w_frames w) f) as [fr|], (nth_error (w_frames w') f) as [fr'|]; try contradiction; [|now split]. destruct G as [G1 G2]. split; cbn [w_heap w_frames]; [exact H1|].
  apply put_frame_rel; [exact H2|]. split; cbn [fr_names fr_vars]; [exact G1|]. now apply items_set.
Qed.
Lemma set_names_rel : forall l l' w w' p, items l l' -> worlds w w' -> worlds (set_names w p l) (set_names w' p l').
Proof.
  intros l l' w w' p H. revert w w'. induction H as [|[k v] [k' v'] l l' [Ek E] H IH]; intros w w' Hw; cbn [set_names]; [exact Hw|]. cbn [fst snd] in *. subst k'. apply IH. now apply set_name_rel.
Qed.
Lemma local_value_rel : forall w w' p x, worlds w w' ->
  match local_value w p x, local_value w' p x with Some v, Some v' => entry x v v' | None, None => True | _, _ => False end.
Proof.
  intros w w' p x [_ H]. unfold local_value. destruct (p_scopes p) as [|f ss]; [exact Logic.I|]. pose proof (forall2_nth _ _ _ _ _ f H) as G.
  destruct (nth_error (w_frames w) f) as [fr|], (nth_error (w_frames w') f) as [fr'|]; try contradiction; [|exact Logic.I]. apply items_get. apply G.
Qed.
End Flow.
