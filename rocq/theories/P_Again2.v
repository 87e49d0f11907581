(** * Proofs: rendering one object again (2) *)

From Coq Require Import Ascii String List Arith NArith ZArith Bool Lia.
From Verif Require Import PyStr PyStrLemmas M_Values P_Values M_IR S_IR M_Template P_Template P_Deep M_Run S_Run S_Template P_IR P_Run1 P_Run2 P_Run3 P_Run4 P_Run5 P_Run11 P_Run6 P_Run7 P_Run8 P_NestRun5 P_Shift P_Shift2 M_Process P_Process S_Again P_Again.
Import ListNotations.
Open Scope list_scope.

Lemma get_bound : forall fn i (ms : list (str * fn)) k t, get k (bound _ i ms) = Some t -> exists f, In (k, f) ms /\ t = TplFunc _ (Code _ f) i.
Proof.
  intros fn i ms. induction ms as [|[k1 f] ms IH]; intros k t E; [discriminate|]. cbn [bound map get fst snd] in E. destruct (seqb k k1) eqn:Ek; [apply seqb_eq in Ek as ->; injection E as <-; exists f; split; [now left|reflexivity]|].
  destruct (IH k t E) as (g & G1 & G2). exists g. split; [now right|exact G2].
Qed.
Definition dict_vok (d : list (str * dval)) : Prop := forall k g, get k d = Some g -> vok g.
Lemma vok_set : forall k g d, vok g -> dict_vok d -> dict_vok (set k g d).
Proof. intros k g d V D k' g' E. rewrite get_set in E. destruct (seqb k' k); [injection E as <-; exact V|now apply (D k')]. Qed.
Lemma vok_update : forall u d, Forall (fun kv => vok (snd kv)) u -> dict_vok d -> dict_vok (update _ _ d u).
Proof. intros u. unfold update. induction u as [|[k g] u IH]; intros d U D; [exact D|]. apply Forall_cons_iff in U as [U1 U2]. cbn [fold_left]. apply IH; [exact U2|]. now apply vok_set. Qed.
Lemma plain_vok : forall d : list (str * dval), Forall (fun kv => exists v, snd kv = val v) d -> Forall (fun kv => vok (snd kv)) d.
Proof. intros d F. eapply Forall_impl; [|exact F]. intros [k g] [v E]. cbn [snd] in *. subst. exact Logic.I. Qed.
Lemma new_vok : forall c ctx, Forall (fun kf => Forall by_itself (snd (snd kf))) (methods _ _ c) -> closed dcode c -> Forall (fun kv : str * dval => exists v, snd kv = val v) ctx ->
  let h := fst (new _ _ [] c (Given _ _ ctx)) in
  (forall i k g, get k (globals _ _ h i) = Some g -> vok g) /\ (forall i k t, get k (attrs _ _ h i) = Some t -> fok t).
Proof.
  intros c ctx Hm Hc Hx. cbn [new fst app]. split; intros i k g E.
  - destruct i as [|i]; [|unfold globals in E; destruct i; discriminate]. cbn [globals nth_error i_globals context_of length] in E. revert k g E. change (dict_vok (init_globals _ _ 0 c ctx)). unfold init_globals.
    apply vok_set; [exact Logic.I|].
    assert (D : dict_vok (update _ _ (update _ _ (update _ _ (helpers (fobj dcode) (str * dcode) 0) (base_globals _ _ c)) (map (fun kf => (fst kf, GFun (fobj dcode) _ (snd kf))) (bound _ 0 (methods _ _ c)))) ctx)).
    { apply vok_update; [now apply plain_vok|]. apply vok_update.
      - apply Forall_map. unfold bound. apply Forall_map. eapply Forall_impl; [|exact Hm]. intros [k [d b]] H. exact H.
      - apply vok_update; [now apply plain_vok|]. unfold helpers. intros k g E. cbn [get] in E. repeat match type of E with (if ?b then _ else _) = _ => destruct b; [injection E as <-; exact Logic.I|] end. discriminate. }
    destruct (get (L "gettext") _) as [v|] eqn:G; [|exact D]. apply vok_set; [now apply (D _ _ G)|exact D].
  - destruct i as [|i]; [|unfold attrs in E; destruct i; discriminate]. cbn [attrs nth_error i_attrs length] in E. apply get_bound in E as ([d b] & I1 & ->). rewrite Forall_forall in Hm. exact (Hm _ I1).
Qed.

Section Alone.
Variable py : python.
Variable gen : str -> Prop.
Hypothesis Hgen : generated_names py gen.
Variable load : bool -> str -> result (cls (fobj bcode) (str * bcode)).
Variable load' : bool -> str -> result (cls (fobj dcode) (str * dcode)).
Hypothesis Hload : rload bcode dcode (rfun py gen) load load'.
Variable depth : nat.
Variable h : heap (fobj dcode) (str * dcode).
Hypothesis T : tidy _ _ h.
Hypothesis Hg : forall i k g, get k (globals _ _ h i) = Some g -> vok g.
Hypothesis Ha : forall i k t, get k (attrs _ _ h i) = Some t -> fok t.
Hypothesis Hfix : forall fs0, sh dcode [] fs0 h = h.

Definition shown : result str := rbind (main_of py h 0) (fun f => rmap (fun vw => render [fst vw]) (call_function py (apply py load' depth) f [] (World h []))).
Lemma main_cok : forall f, main_of py h 0 = Ok f -> cok f.
Proof. intros f E. unfold main_of in E. destruct (getattr _ _ h 0 (L "__main__")) as [t|] eqn:G; [|discriminate]. cbn [rbind] in E. apply (callable_ok h py Ha t); [|exact E]. unfold getattr in G. destruct (get (L "__main__") (attrs _ _ h 0)) as [t'|] eqn:G'; [|discriminate]. injection G as <-. now apply (Ha 0 (L "__main__")). Qed.
Lemma later_same : forall f fs, main_of py h 0 = Ok f -> simr (rm h fs) (call_function py (apply py load' depth) f [] (World h [])) (call_function py (apply py load' depth) f [] (World h fs)).
Proof.
  intros f fs E. pose proof (main_sim dcode [] fs py h 0 T) as M. unfold sim in M. rewrite Hfix, E in M. change (length (@nil (inst (fobj dcode) (str * dcode))) + 0) with 0 in M. rewrite E in M. cbn [rmap] in M.
  assert (Ef : scall dcode [] fs f = f) by congruence.
  pose proof (call_again h fs py (apply py load' depth) (apply_again h fs py T Hg Ha load' depth) f [] (World h []) (World h fs) (main_cok f E) (Forall_nil _)) as C. rewrite Ef in C. apply C.
  split; [split; [reflexivity|constructor]|]. unfold sw. cbn [w_heap w_frames]. rewrite Hfix. unfold sfs. cbn [map]. now rewrite app_nil_r.
Qed.
Lemma renders_alone : forall n s fs, rworld bcode dcode (rfun py gen) gen (s_world s) (World h fs) -> renders py load depth 0 (S n) s = rmap (fun t => repeat t (S n)) shown.
Proof.
  induction n as [|n IH]; intros s fs R.
  all: cbn [renders]; unfold render_object, shown; pose proof R as (R1 & R2 & R3); cbn [w_heap w_frames] in R1, R2;
    pose proof (main_of_rel bcode dcode (rfun py gen) py _ _ _ 0 R1) as MR;
    destruct (main_of py (w_heap (s_world s)) 0) as [f|], (main_of py h 0) as [f'|] eqn:Ef; cbn [rres] in MR; try contradiction; [|cbn; congruence]; cbn [rbind];
    pose proof (call_sim py gen (invoke py load depth) (apply py load' depth) (invoke_sim py gen Hgen load load' Hload depth) f f' [] [] s _ R MR (Forall2_nil _)) as CS;
    pose proof (later_same f' fs Ef) as LS;
    destruct (call_function py (invoke py load depth) f [] s) as [[v s1]|], (call_function py (apply py load' depth) f' [] (World h fs)) as [[v' w1]|], (call_function py (apply py load' depth) f' [] (World h [])) as [[v0 w0]|] eqn:E0; cbn in CS, LS; try contradiction; try (cbn; congruence);
    destruct CS as (Sv & Rw & _), LS as [Ev [W0 Ww]]; cbn [fst snd] in Ev, W0, Ww, Rw, Sv; subst v' w1;
    assert (Et : render [v] = render [v0]) by (apply same_render; now apply svalue_same).
  - cbn [rmap rbind fst snd renders repeat]. now rewrite Et.
  - cbn [rmap rbind fst snd]. fold (renders py load depth 0 (S n) s1). assert (Rn : rworld bcode dcode (rfun py gen) gen (s_world s1) (World h (w_frames (sw dcode [] fs w0)))).
    { destruct W0 as [Ew _]. unfold sw in Rw |- *. cbn [w_frames]. now rewrite Ew, Hfix in Rw. }
    change (rmap (cons (render [v])) (renders py load depth 0 (S n) s1) = Ok (repeat (render [v0]) (S (S n)))). rewrite (IH s1 _ Rn). unfold shown. rewrite Ef. cbn [rbind]. rewrite E0. cbn [rmap rbind fst]. now rewrite Et.
Qed.
End Alone.

(** Besides other objects. *)
Lemma renders_shift : forall py load depth h0 fs0 w0 q0, (forall fragment name c, load fragment name = Ok c -> closed bcode c) -> forall n i s s', rst h0 fs0 w0 q0 s s' ->
  renders py load depth (length h0 + i) n s' = renders py load depth i n s.
Proof.
  intros py load depth h0 fs0 w0 q0 Hl. induction n as [|n IH]; intros i s s' R; [reflexivity|]. cbn [renders]. unfold render_object. pose proof R as (Ew & T & _). rewrite Ew. cbn [sw w_heap].
  pose proof (main_sim bcode h0 fs0 py (w_heap (s_world s)) i T) as M. unfold sim in M. rewrite M. destruct (main_of py (w_heap (s_world s)) i) as [f|]; [|reflexivity]. cbn [rmap rbind].
  pose proof (call_shift h0 fs0 w0 q0 py (invoke py load depth) (invoke_shift h0 fs0 w0 q0 py load Hl depth) f [] s s' R) as C. cbn [map] in C.
  destruct (call_function py (invoke py load depth) f [] s) as [[v s1]|], (call_function py (invoke py load depth) (scall bcode h0 fs0 f) [] s') as [[v' s1']|]; cbn in C; try contradiction; [|now subst].
  destruct C as [Ev R1]. cbn [fst snd] in *. subst v'. cbn [rmap rbind fst snd]. now rewrite (IH i s1 s1' R1).
Qed.
Lemma create_shift : forall c context s, closed bcode c -> Forall (fun kv : str * bval => exists v, snd kv = val v) context ->
  snd (create c context s) = length (w_heap (s_world s)) + 0 /\
  rst (w_heap (s_world s)) (w_frames (s_world s)) (s_with s) (s_switch s) (State (World (fst (new _ _ [] c (Given _ _ context))) []) (fun _ => []) (fun _ => [])) (fst (create c context s)).
Proof.
  intros c context s Hc Hx. unfold create. set (h0 := w_heap (s_world s)). set (fs0 := w_frames (s_world s)).
  assert (Ec : Given (fobj bcode) (str * bcode) context = sc bcode h0 fs0 (Given _ _ context)) by (cbn [sc]; now rewrite (closed_dict bcode h0 fs0 _ Hx)).
  pose proof (new_sh bcode h0 fs0 [] c (Given _ _ context) Hc) as N. rewrite <- Ec in N. unfold sh at 1 in N. cbn [map] in N. rewrite app_nil_r in N. rewrite N.
  pose proof (tidy_new _ _ [] c (Given _ _ context) tidy_nil) as T. assert (Ei : snd (new _ _ [] c (Given _ _ context)) = 0) by reflexivity.
  destruct (new _ _ [] c (Given _ _ context)) as [h i]. cbn [fst snd] in *. subst i. split; [reflexivity|].
  split; [|split; [exact T|split; [intros j|intros j L]]]; cbn [s_world s_with s_switch].
  + unfold sw. cbn [w_heap w_frames]. f_equal. unfold sfs. cbn [map]. now rewrite app_nil_r.
  + destruct (Nat.ltb_spec (length h0 + j) (length h0 + 0)); [lia|]. now split.
  + destruct (Nat.ltb_spec j (length h0 + 0)); [now split|lia].
Qed.

Lemma closed_meaning : forall f c, meaning_of f = Ok c -> closed dcode c.
Proof.
  intros [[t given] module] c E. unfold meaning_of, directive_class in E. destruct (defs t) as [|n l]; [discriminate|]. destruct (functions_of (n :: l)) as [fs|]; cbn [option_map] in E; [|discriminate].
  assert (c = from_ir _ _ (last_ones fs) (objects given) (objects module)) as -> by congruence. unfold closed, from_ir. cbn [base_globals].
  assert (O : forall l, Forall (fun kv : str * dval => exists v, snd kv = val v) (objects l)) by (intros l0; unfold objects; induction l0 as [|[k v] l0 IH]; [constructor|]; cbn [map]; constructor; [now exists v|exact IH]).
  assert (S1 : forall k (g : dval) d, (exists v, g = val v) -> Forall (fun kv : str * dval => exists v, snd kv = val v) d -> Forall (fun kv : str * dval => exists v, snd kv = val v) (set k g d)).
  { intros k g d Hg F. induction F as [|[k' g'] d H F IH]; cbn [set]; [constructor; [exact Hg|constructor]|]. destruct (seqb k k'); constructor; assumption. }
  assert (U : forall u d : list (str * dval), Forall (fun kv : str * dval => exists v, snd kv = val v) u -> Forall (fun kv : str * dval => exists v, snd kv = val v) d -> Forall (fun kv : str * dval => exists v, snd kv = val v) (update _ _ d u)).
  { intros u. unfold update. induction u as [|[k g] u IH]; intros d Hu D; [exact D|]. apply Forall_cons_iff in Hu as [U1 U2]. cbn [fold_left]. apply IH; [exact U2|]. now apply S1. }
  apply U; apply O.
Qed.
Theorem again : forall py gen files depth f context s n, generated_names py gen ->
  (forall fragment name f, files fragment name = Ok f -> a_file py gen f \/ refused f) -> a_file py gen f -> object_names context -> file_by_itself f ->
  pages_of_object py files depth (S n) f context s = rmap (fun t => repeat t (S n)) (run_file py files depth f context).
Proof.
  intros py gen files depth f context s n Hgen Hf F O B.
  assert (G : forall f, a_file py gen f \/ refused f -> rres (fun c c' => rcls bcode dcode (rfun py gen) c c' /\ cinv _ _ c) (class_of f) (meaning_of f)).
  { intros f0 [A|R]; [now apply class_rel|]. destruct (refused_class f0 R) as [-> ->]. reflexivity. }
  rewrite (run_means py gen Hgen files depth f context Hf (or_introl F) O). unfold pages_of_object, file_means. pose proof (G f (or_introl F)) as C.
  destruct (class_of f) as [c|] eqn:Ec, (meaning_of f) as [c'|] eqn:Ec'; cbn [rres] in C; try contradiction; [|cbn; congruence]. destruct C as [C CI]. cbn [rbind].
  pose proof (create_shift c (objects context) s (closed_class f c Ec) (closed_objects context)) as [Ei R]. destruct (create c (objects context) s) as [s1 i]. cbn [fst snd] in Ei, R. subst i.
  rewrite (renders_shift py (load_from files) depth _ _ _ _ (closed_load files) (S n) 0 _ _ R).
  destruct (objects_free bcode context O) as [Dx Fx].
  assert (H0 : rheap bcode dcode (rfun py gen) 0 [] []) by constructor.
  destruct (rnew _ _ _ _ _ _ c c' (Given _ _ (objects context)) (Given _ _ (objects context)) H0 C (objects_rel py gen context)) as (R1 & R2).
  assert (I0 : hinv (fobj bcode) (str * bcode) []) by (intros i x E; destruct i; discriminate).
  pose proof (new_inv _ _ [] c (Given _ _ (objects context)) I0 CI (conj Dx Fx)) as I1.
  assert (Cx : Forall (fun kv : str * dval => exists v, snd kv = val v) (objects context)) by (unfold objects; apply Forall_map; apply Forall_forall; intros [k v] _; now exists v).
  set (h' := fst (new _ _ [] c' (Given _ _ (objects context)))) in *.
  assert (T' : tidy _ _ h') by (apply tidy_new; intros i k t k' Eg; unfold attrs in Eg; now destruct i).
  assert (B' : Forall (fun kf => Forall by_itself (snd (snd kf))) (methods _ _ c')).
  { destruct f as [[t given] module]. unfold meaning_of, directive_class in Ec'. unfold file_by_itself in B. destruct (defs t) as [|n0 l0] eqn:Ed; [discriminate|]. destruct (functions_of (n0 :: l0)) as [fs|] eqn:Efs; cbn [option_map] in Ec'; [|discriminate].
    assert (c' = from_ir _ _ (last_ones fs) (objects given) (objects module)) as -> by congruence. cbn [from_ir methods]. apply last_ones_forall. now apply B. }
  destruct (new_vok c' (objects context) B' (closed_meaning f c' Ec') Cx) as [Hg Ha]. fold h' in Hg, Ha.
  assert (Fix : forall fs0, sh dcode [] fs0 h' = h').
  { intros fs0. pose proof (new_sh dcode [] fs0 [] c' (Given _ _ (objects context)) (closed_meaning f c' Ec')) as N. cbn [sc] in N. rewrite (closed_dict dcode [] fs0 _ Cx) in N. cbn [sh map app] in N. fold h' in N.
    unfold h' at 2. change (sh dcode [] fs0 []) with (@nil (inst (fobj dcode) (str * dcode))) in N. apply (f_equal fst) in N. cbn [fst] in N. symmetry. exact N. }
  assert (Hload : rload bcode dcode (rfun py gen) (load_from files) (fun fragment name => rbind (files fragment name) meaning_of)).
  { intros b t. unfold load_from. destruct (files b t) as [g|] eqn:E; [|reflexivity]. cbn [rbind]. apply G. eapply Hf. exact E. }
  rewrite (renders_alone py gen Hgen (load_from files) _ Hload depth h' T' Hg Ha Fix n _ []); [reflexivity|]. cbn [s_world].
  split; [exact R1|]. split; [constructor|exact I1].
Qed.
