(** * Proofs: what iterations leave behind (3): the object afterwards *)

From Coq Require Import Ascii String List Arith NArith ZArith Bool Lia.
From Verif Require Import PyStr PyStrLemmas M_Values M_IR S_IR M_Template P_Template P_Deep M_Run S_Run S_Again S_After P_Run1 P_Run2 P_Run3 P_Run5 P_Run6 P_Run8 P_Run11 P_Shift P_Shift2 M_Process P_Process M_Conc M_Same P_NestRun5 P_After P_After2.
From Verif Require P_Again P_Again2 P_Same.
Import ListNotations.
Open Scope list_scope.

Section Made.
Variable py : python.
Variable gen : str -> Prop.
Hypothesis Hgen : generated_names py gen.
Variable h : heap (fobj bcode) (str * bcode).

(** ** A new object *)
Notation vok := (vok py gen h).
Definition dict_vok (d : list (str * bval)) : Prop := forall k g, get k d = Some g -> vok 0 g.
Lemma vok_set : forall k g d, vok 0 g -> dict_vok d -> dict_vok (set k g d).
Proof. intros k g d V D k' g' E. rewrite get_set in E. destruct (seqb k' k); [injection E as <-; exact V|now apply (D k')]. Qed.
Lemma vok_update : forall u d, Forall (fun kv => vok 0 (snd kv)) u -> dict_vok d -> dict_vok (update _ _ d u).
Proof. intros u. unfold update. induction u as [|[k g] u IH]; intros d U D; [exact D|]. apply Forall_cons_iff in U as [U1 U2]. cbn [fold_left]. apply IH; [exact U2|]. now apply vok_set. Qed.
Lemma plain_vok : forall d : list (str * bval), Forall (fun kv => exists v, snd kv = val v) d -> Forall (fun kv => vok 0 (snd kv)) d.
Proof. intros d F. eapply Forall_impl; [|exact F]. intros [k g] [v E]. cbn [snd] in *. subst. exact Logic.I. Qed.
Lemma new_vok : forall c ctx, h = fst (new _ _ [] c (Given _ _ ctx)) ->
  Forall (fun kf => Forall (good py gen) (snd (snd kf)) /\ read_fun py gen (snd kf)) (methods _ _ c) -> closed bcode c -> Forall (fun kv : str * bval => exists v, snd kv = val v) ctx ->
  (forall i k g, get k (globals _ _ h i) = Some g -> vok 0 g) /\ (forall i k t, get k (attrs _ _ h i) = Some t -> fok py gen h t).
Proof.
  intros c ctx Eh Hm Hc Hx. assert (L1 : 0 < length h) by (rewrite Eh; cbn [new fst app length]; lia).
  split; intros i k g E.
  - rewrite Eh in E. cbn [new fst app] in E. destruct i as [|i]; [|unfold globals in E; destruct i; discriminate]. cbn [globals nth_error i_globals context_of length] in E. revert k g E. change (dict_vok (init_globals _ _ 0 c ctx)). unfold init_globals.
    apply vok_set; [exact Logic.I|].
    assert (D : dict_vok (update _ _ (update _ _ (update _ _ (helpers (fobj bcode) (str * bcode) 0) (base_globals _ _ c)) (map (fun kf => (fst kf, GFun (fobj bcode) _ (snd kf))) (bound _ 0 (methods _ _ c)))) ctx)).
    { apply vok_update; [now apply plain_vok|]. apply vok_update.
      - apply Forall_map. unfold bound. apply Forall_map. eapply Forall_impl; [|exact Hm]. intros [k [d b]] H. exact (conj H L1).
      - apply vok_update; [now apply plain_vok|]. unfold helpers. intros k g E. cbn [get] in E. repeat match type of E with (if ?b then _ else _) = _ => destruct b; [injection E as <-; first [exact Logic.I|exact L1]|] end. discriminate. }
    destruct (get (L "gettext") _) as [v|] eqn:G; [|exact D]. apply vok_set; [now apply (D _ _ G)|exact D].
  - rewrite Eh in E. cbn [new fst app] in E. destruct i as [|i]; [|unfold attrs in E; destruct i; discriminate]. cbn [attrs nth_error i_attrs length] in E. apply P_Again2.get_bound in E as ([d b] & I1 & ->). rewrite Forall_forall in Hm. exact (conj (Hm _ I1) L1).
Qed.

(** ** All schedules *)
Hypothesis Hglobals : forall i k g, get k (globals _ _ h i) = Some g -> vok 0 g.
Hypothesis Hattrs : forall i k t, get k (attrs _ _ h i) = Some t -> fok py gen h t.
Notation fsize s := (length (w_frames (s_world s))).
Lemma again_ok : forall depth i s, sok py gen h s -> both py gen h (fsize s) (again py depth i s).
Proof.
  intros depth i s H. unfold again. apply attempt_ok; [exact H|lia|]. intros [q|] E; [|now apply both_kept; [apply kept_refl|]]. apply (enter_ok py gen h Hgen); [|constructor].
  unfold call_main in E. rewrite (proj1 (proj1 H)) in E. destruct (main_of py h i) as [g|] eqn:Em; [|discriminate]. cbn [rbind] in E. destruct (bind_args py _ []) as [ps|] eqn:B; [|discriminate]. cbn [rmap] in E. assert (q = Pending g ps IShow s) as -> by congruence.
  assert (C : cok py gen h (fsize s) g).
  { unfold main_of in Em. destruct (getattr _ _ h i (L "__main__")) as [t|] eqn:G; [|discriminate]. cbn [rbind] in Em. apply (callable_ok py gen h Hattrs _ t); [|exact Em]. unfold getattr in G. destruct (get (L "__main__") (attrs _ _ h i)) as [t'|] eqn:G'; [|discriminate G]. injection G as <-. now apply (Hattrs i (L "__main__")). }
  split; [exact C|]. cbn [c_params c_state c_end]. split; [exact (bind_args_ok py gen h _ _ [] ps (Forall_nil _) B)|].
  split; [|split; [exact H|split; [reflexivity|intros o m'; exact Logic.I]]]. destruct g as [[[d b] j] ss]. destruct C as (_ & [ss' (_ & D & _)] & _). cbn [fst snd] in *. now apply (bind_args_names py gen d [] ps).
Qed.
Definition along (y : system) : Prop := sok py gen h (shared y) /\ Forall (thok py gen h (fsize (shared y))) (threads y).
Lemma along_step : forall files depth i y e, along y -> along (take py files depth i y e).
Proof.
  intros files depth i y e [H T]. assert (M : forall m, fsize (shared y) <= m -> Forall (thok py gen h m) (threads y)) by (intros m Le; eapply Forall_impl; [|exact T]; intros t; now apply thok_mono). destruct e as [|k]; cbn [take].
  - pose proof (again_ok depth i (shared y) H) as (B1 & B2 & B3). destruct (again py depth i (shared y)) as [t s]. cbn [fst snd] in *. split; [exact B3|]. cbn [threads shared]. apply Forall_app. split; [now apply M|]. constructor; [exact B2|constructor].
  - cbn [happen]. destruct (nth_error (threads y) k) as [t|] eqn:Et; [|now split]. pose proof T as Tt. rewrite Forall_forall in Tt. specialize (Tt t (nth_error_In _ _ Et)).
    pose proof (step_ok py gen h Hgen Hglobals Hattrs (load_file files) t (shared y) Tt H) as (B1 & B2 & B3). destruct (step py (load_file files) t (shared y)) as [t' s]. cbn [fst snd] in *. split; [exact B3|]. cbn [threads shared]. apply P_Same.replace_forall; [now apply M|exact B2].
Qed.
Lemma all_along : forall files depth i l y, along y -> along (fold_left (take py files depth i) l y).
Proof. intros files depth i l. induction l as [|e l IH]; intros y A; [exact A|]. cbn [fold_left]. apply IH. now apply along_step. Qed.
End Made.

Theorem after : forall py gen files depth f context l y depth' n, generated_names py gen -> generated_functions py gen ->
  (forall fragment name f, files fragment name = Ok f -> a_file py gen f \/ refused f) -> a_file py gen f -> object_names context -> file_by_itself f ->
  run_iterations py files depth f context l = Ok y ->
  renders py (load_from files) depth' 0 (S n) (shared y) = rmap (fun t => repeat t (S n)) (run_file py files depth' f context).
Proof.
  intros py gen files depth f context l y depth' n Hgen Hfun Hf F O B E.
  assert (G : forall f, a_file py gen f \/ refused f -> rres (fun c c' => rcls bcode dcode (rfun py gen) c c' /\ cinv _ _ c) (class_of f) (meaning_of f)).
  { intros f0 [A|R]; [now apply class_rel|]. destruct (refused_class f0 R) as [-> ->]. reflexivity. }
  rewrite (run_means py gen Hgen files depth' f context Hf (or_introl F) O). unfold file_means. unfold run_iterations in E. pose proof (G f (or_introl F)) as C.
  destruct (class_of f) as [c|] eqn:Ec, (meaning_of f) as [c'|] eqn:Ec'; cbn [rres] in C; try contradiction; [|discriminate E]. destruct C as [C CI]. cbn [rbind rmap] in E |- *.
  destruct (objects_free bcode context O) as [Dx Fx].
  assert (H0 : rheap bcode dcode (rfun py gen) 0 [] []) by constructor.
  destruct (rnew _ _ _ _ _ _ c c' (Given _ _ (objects context)) (Given _ _ (objects context)) H0 C (objects_rel py gen context)) as (R1 & R2).
  assert (I0 : hinv (fobj bcode) (str * bcode) []) by (intros i x Ex; destruct i; discriminate).
  pose proof (new_inv _ _ [] c (Given _ _ (objects context)) I0 CI (conj Dx Fx)) as I1.
  assert (Cx : Forall (fun kv : str * dval => exists v, snd kv = val v) (objects context)) by (unfold objects; apply Forall_map; apply Forall_forall; intros [k v] _; now exists v).
  set (h := fst (new _ _ [] c (Given _ _ (objects context)))) in *.
  set (h' := fst (new _ _ [] c' (Given _ _ (objects context)))) in *.
  assert (T' : tidy _ _ h') by (apply tidy_new; intros i k t k' Eg; unfold attrs in Eg; now destruct i).
  assert (B' : Forall (fun kf => Forall by_itself (snd (snd kf))) (methods _ _ c')).
  { destruct f as [[t given] module]. unfold meaning_of, directive_class in Ec'. unfold file_by_itself in B. destruct (defs t) as [|n0 l0] eqn:Ed; [discriminate|]. destruct (functions_of (n0 :: l0)) as [fs|] eqn:Efs; cbn [option_map] in Ec'; [|discriminate].
    assert (c' = from_ir _ _ (last_ones fs) (objects given) (objects module)) as -> by congruence. cbn [from_ir methods]. apply last_ones_forall. now apply B. }
  assert (Bm : Forall (fun kf => Forall (good py gen) (snd (snd kf)) /\ read_fun py gen (snd kf)) (methods _ _ c)).
  { destruct C as [Cm _]. clear - Cm B' Hfun. induction Cm as [|[k fn] [k' fn'] l l' [_ R] Cm IH]; [constructor|]. apply Forall_cons_iff in B' as [B1 B2]. constructor; [exact (good_function py gen Hfun fn fn' R B1)|now apply IH]. }
  destruct (new_vok py gen h c (objects context) eq_refl Bm (closed_class f c Ec) (closed_objects context)) as [Og Oa].
  destruct (P_Again2.new_vok c' (objects context) B' (P_Again2.closed_meaning f c' Ec') Cx) as [Hg Ha]. fold h' in Hg, Ha.
  assert (Fix : forall fs0, sh dcode [] fs0 h' = h').
  { intros fs0. pose proof (new_sh dcode [] fs0 [] c' (Given _ _ (objects context)) (P_Again2.closed_meaning f c' Ec')) as N. cbn [sc] in N. rewrite (closed_dict dcode [] fs0 _ Cx) in N. cbn [sh map app] in N. fold h' in N.
    unfold h' at 2. change (sh dcode [] fs0 []) with (@nil (inst (fobj dcode) (str * dcode))) in N. apply (f_equal fst) in N. cbn [fst] in N. symmetry. exact N. }
  assert (Hload : rload bcode dcode (rfun py gen) (load_from files) (fun fragment name => rbind (files fragment name) meaning_of)).
  { intros b t. unfold load_from. destruct (files b t) as [g|] eqn:Eg; [|reflexivity]. cbn [rbind]. apply G. eapply Hf. exact Eg. }
  assert (Ey : y = fold_left (take py files depth 0) l (System [] (new_stacks empty_state (World h []) 0))) by (cbn [new] in E; injection E as <-; reflexivity).
  assert (A : along py gen h y).
  { rewrite Ey. apply all_along; try assumption. split; [|constructor]. split; [split; [reflexivity|constructor]|]. intros i. cbn. destruct i as [|i]; constructor. }
  destruct A as [[[Eh Fr] _] _]. destruct (frames_read py gen h _ _ Fr) as [fs Rf].
  rewrite (P_Again2.renders_alone py gen Hgen (load_from files) _ Hload depth' h' T' Hg Ha Fix n (shared y) fs); [reflexivity|].
  split; [|split].
  - rewrite Eh. cbn [w_heap]. eapply rheap_mono; [|exact R1]. lia.
  - rewrite Eh. exact Rf.
  - rewrite Eh. exact I1.
Qed.
