(** * Proofs: pages in a process *)

From Coq Require Import Ascii String List Arith NArith ZArith Bool Lia.
From Verif Require Import PyStr PyStrLemmas M_Values M_IR M_Template P_Template P_Deep M_Run P_Shift P_Shift2 M_Process S_Process.
Import ListNotations.
Open Scope list_scope.

Lemma closed_objects : forall l, Forall (fun kv : str * bval => exists v, snd kv = val v) (objects l).
Proof. intros l. unfold objects. induction l as [|[k v] l IH]; [constructor|]. cbn [map]. constructor; [now exists v|exact IH]. Qed.
Lemma closed_set : forall k (g : bval) d, (exists v, g = val v) -> Forall (fun kv : str * bval => exists v, snd kv = val v) d -> Forall (fun kv : str * bval => exists v, snd kv = val v) (set k g d).
Proof. intros k g d Hg F. induction F as [|[k' g'] d H F IH]; cbn [set]; [constructor; [exact Hg|constructor]|]. destruct (seqb k k'); constructor; assumption. Qed.
Lemma closed_update : forall u d : list (str * bval), Forall (fun kv : str * bval => exists v, snd kv = val v) u -> Forall (fun kv : str * bval => exists v, snd kv = val v) d -> Forall (fun kv : str * bval => exists v, snd kv = val v) (update _ _ d u).
Proof. intros u. unfold update. induction u as [|[k g] u IH]; intros d U D; [exact D|]. apply Forall_cons_iff in U as [U1 U2]. cbn [fold_left]. apply IH; [exact U2|]. now apply closed_set. Qed.
Lemma closed_class : forall f c, class_of f = Ok c -> closed bcode c.
Proof.
  intros [[t given] module] c E. unfold class_of in E. destruct (M_Exec.parses _); [|discriminate]. unfold template_class in E. destruct (class_functions _) as [fs|]; cbn [option_map] in E; [|discriminate].
  assert (c = from_ir _ _ (class_methods fs) (objects given) (objects module)) as -> by congruence. unfold closed, from_ir. cbn [base_globals]. apply closed_update; apply closed_objects.
Qed.
Lemma closed_load : forall files fragment name c, load_from files fragment name = Ok c -> closed bcode c.
Proof. intros files fragment name c E. unfold load_from in E. destruct (files fragment name) as [f|]; [|discriminate]. cbn [rbind] in E. now apply (closed_class f). Qed.

Definition relation (s : state) : state -> state -> Prop := rst (w_heap (s_world s)) (w_frames (s_world s)) (s_with s) (s_switch s).
Lemma tidy_nil : tidy (fobj bcode) (str * bcode) [].
Proof. intros i k t k' G. unfold attrs in G. now destruct i. Qed.
Lemma new_shift : forall py load depth c context s, (forall fragment name c, load fragment name = Ok c -> closed bcode c) -> closed bcode c -> Forall (fun kv : str * bval => exists v, snd kv = val v) context ->
  simr (fun t ts => t = fst ts /\ exists s1, relation s s1 (snd ts)) (run_template py load depth c context) (render_new py load depth c context s).
Proof.
  intros py load depth c context s Hload Hc Hx. unfold run_template, render_new, create, render_object.
  set (h0 := w_heap (s_world s)). set (fs0 := w_frames (s_world s)).
  assert (Ec : Given (fobj bcode) (str * bcode) context = sc bcode h0 fs0 (Given _ _ context)) by (cbn [sc]; now rewrite (closed_dict bcode h0 fs0 _ Hx)).
  pose proof (new_sh bcode h0 fs0 [] c (Given _ _ context) Hc) as N. rewrite <- Ec in N. unfold sh at 1 in N. cbn [map] in N. rewrite app_nil_r in N. rewrite N.
  pose proof (tidy_new _ _ [] c (Given _ _ context) tidy_nil) as T. assert (Ei : snd (new _ _ [] c (Given _ _ context)) = 0) by reflexivity.
  destruct (new _ _ [] c (Given _ _ context)) as [h i]. cbn [fst snd] in *. subst i. cbn [s_world w_heap].
  eapply simr_bind_f; [exact (main_sim bcode h0 fs0 py h 0 T)|]. intros f _.
  eapply (simr_map _ _ _ _ (rvs h0 fs0 (s_with s) (s_switch s))).
  - apply (call_shift h0 fs0 (s_with s) (s_switch s) py (invoke py load depth) (invoke_shift h0 fs0 (s_with s) (s_switch s) py load Hload depth) f []).
    split; [|split; [exact T|split; [intros j|intros j L]]]; cbn [s_world s_with s_switch].
    + unfold sw. cbn [w_heap w_frames]. f_equal. unfold sfs. cbn [map]. now rewrite app_nil_r.
    + destruct (Nat.ltb_spec (length h0 + j) (length h0 + 0)); [lia|]. now split.
    + destruct (Nat.ltb_spec j (length h0 + 0)); [now split|lia].
  - intros [v s1] [v' s1'] [E R]. cbn [fst snd] in *. subst v'. split; [reflexivity|]. now exists s1.
Qed.
Lemma relation_kept : forall s s1 s', relation s s1 s' -> kept s s'.
Proof. intros s s1 s' (E & _ & _ & D). split; [|split; [|exact D]]; rewrite E; cbn [sw w_heap w_frames]; [unfold sh|unfold sfs]; eexists; reflexivity. Qed.

Theorem page_alone : forall py files depth f context s, simr (fun t ts => t = fst ts /\ kept s (snd ts)) (run_file py files depth f context) (page_in py files depth f context s).
Proof.
  intros py files depth f context s. unfold run_file, page_in. destruct (class_of f) as [c|] eqn:E; [|reflexivity]. cbn [rbind].
  pose proof (new_shift py (load_from files) depth c (objects context) s (closed_load files) (closed_class _ _ E) (closed_objects context)) as H. fold (load_from files) in *.
  change (fun (fragment : bool) (name : str) => rbind (files fragment name) class_of) with (load_from files).
  destruct (run_template _ _ _ _ _) as [t|], (render_new _ _ _ _ _ _) as [ts|]; cbn in *; try contradiction; [|exact H]. destruct H as [-> [s1 R]]. split; [reflexivity|]. now apply (relation_kept _ s1).
Qed.
Theorem pages_alone : forall py files depth s l, pages py files depth s l -> Forall (fun fcr => snd fcr = run_file py files depth (fst (fst fcr)) (snd (fst fcr))) l.
Proof.
  intros py files depth s l P. induction P as [s|s f context t s' l E P IH|s f context e s' l E P IH]; [constructor|constructor; [|exact IH]..]; cbn [fst snd];
    pose proof (page_alone py files depth f context s) as H; rewrite E in H; destruct (run_file py files depth f context); cbn in H; try contradiction; [destruct H as [-> _]; reflexivity|congruence].
Qed.
