(** * Whole templates: calls to any depth, classes, files *)

From Coq Require Import Ascii String List NArith ZArith Bool Lia Arith Permutation.
From Verif Require Import PyStr PyStrLemmas M_Values P_Values M_IR S_IR M_Template M_Run S_Run S_Template P_Template P_IR P_Run1 P_Run2 P_Run3 P_Run4 P_Run5 P_Run11 P_Run6 P_Run7.
From Verif Require P_Run12.
From Verif Require M_Exec S_Exec P_Exec2.
Import ListNotations.
Open Scope list_scope.

Section Calls.
Variable py : python.
Variable gen : str -> Prop.
Hypothesis Hgen : generated_names py gen.

Notation rfun := (rfun py gen).
Notation rworld := (rworld bcode dcode rfun gen).
Notation rload := (rload bcode dcode rfun).
Notation rcls := (rcls bcode dcode rfun).

Lemma smem_app : forall x a b, smem x (a ++ b) = smem x a || smem x b.
Proof. intros x. induction a as [|y a IH]; intros b; [reflexivity|]. cbn [app smem existsb]. unfold smem in *. cbn. rewrite IH. now rewrite orb_assoc. Qed.

Section Depth.
Variable load : bool -> str -> result (cls (fobj bcode) (str * bcode)).
Variable load' : bool -> str -> result (cls (fobj dcode) (str * dcode)).
Hypothesis Hload : rload load load'.

Lemma push_frame : forall w w' params params' body body', rworld w w' -> rbody py gen body body' ->
  ralist (rgv bcode dcode rfun (length (w_heap w)) (length (w_frames w))) params params' -> Forall (fun xv => a_name gen (fst xv)) params ->
  rworld (World (w_heap w) (w_frames w ++ [Frame (map fst params ++ all_names py body) params]))
         (World (w_heap w') (w_frames w' ++ [Frame (map fst params' ++ flat_map (binds py) body') params'])).
Proof.
  intros w w' params params' body body' (H1 & H2 & H3) RB RP NP. unfold P_Run3.rworld. cbn [w_heap w_frames]. rewrite app_length. cbn [length].
  split; [eapply rheap_mono; [|exact H1]; lia|]. split; [|exact H3]. apply Forall2_app.
  - eapply F2_impl; [|exact H2]. intros a b. apply rframe_mono; lia.
  - constructor; [|constructor]. split; [|split]; cbn [fr_names fr_vars].
    + intros x Hx. rewrite !smem_app, (ralist_keys _ _ _ RP). f_equal. now apply (rbody_names py gen Hgen).
    + intros x Hx. pose proof (ralist_get _ x _ _ RP) as G. destruct (get x params), (get x params'); try contradiction; [|exact Logic.I]. cbn in *. eapply rgv_mono; [| |exact G]; lia.
    + intros r Hr. apply smem_notIn. intros I. apply in_app_or in I as [I|I].
      * apply in_map_iff in I as (xv & <- & I). rewrite Forall_forall in NP. now apply (proj2 (NP _ I)).
      * exact (proj1 (rbody_names py gen Hgen _ _ RB r) I Hr).
Qed.
Lemma push_grows : forall w fr, grows bcode w (World (w_heap w) (w_frames w ++ [fr])).
Proof.
  intros w fr. split; [apply evolve_refl|]. cbn [w_frames]. rewrite app_length. split; [lia|]. intros i fr0 E. exists fr0. split; [|reflexivity].
  rewrite nth_error_app1; [exact E|]. apply nth_error_Some. congruence.
Qed.

Theorem invoke_sim : forall depth, invokes py gen (invoke py load depth) (apply py load' depth).
Proof.
  induction depth as [|depth IH]; intros c c' params params' s w A C RP NP; [reflexivity|].
  destruct c as [[[d b] i] ss], c' as [[[d' b'] i'] ss']. destruct C as (RB & -> & Hi & -> & Hs). cbn [invoke apply].
  pose proof A as (A1 & A2 & _). rewrite (F2_length _ _ _ _ _ A2).
  set (fr := Frame (map fst params ++ all_names py b) params). set (pl := Place i (length (w_frames (s_world s)) :: ss)).
  set (s1 := set_world s (World (w_heap (s_world s)) (w_frames (s_world s) ++ [fr]))).
  set (w1 := World (w_heap w) (w_frames w ++ [Frame (map fst params' ++ flat_map (binds py) b') params'])).
  assert (B1 : rworld (s_world s1) w1) by (now apply push_frame).
  assert (U1 : unchanged s s1) by (apply unchanged_world, push_grows).
  assert (P1 : rplace bcode (s_world s1) pl).
  { split; [exact Hi|]. cbn [p_scopes s_world set_world w_frames s1 pl]. rewrite app_length. cbn [length]. constructor; [lia|]. eapply Forall_impl; [|exact Hs]. cbn. intros; lia. }
  destruct RB as (nodes & -> & St & Wn).
  assert (H1 : here (s_world s1) pl (all_names py (programs nodes))).
  { exists (length (w_frames (s_world s))), ss, fr. split; [reflexivity|]. cbn [s_world set_world w_frames s1]. rewrite nth_error_app2, Nat.sub_diag by lia. split; [reflexivity|].
    intros x I. unfold fr. cbn [fr_names]. apply smem_In. apply in_or_app. now right. }
  assert (H2 : here w1 pl (flat_map (binds py) b')).
  { exists (length (w_frames (s_world s))), ss. eexists. split; [reflexivity|]. cbn [w_frames w1]. rewrite <- (F2_length _ _ _ _ _ A2), nth_error_app2, Nat.sub_diag by lia. split; [reflexivity|].
    intros x I. cbn [fr_names]. apply smem_In. apply in_or_app. now right. }
  assert (G : Forall (good py gen load load' (invoke py load depth) (apply py load' depth) pl) nodes).
  { apply Forall_forall. intros n _. apply all_good; try assumption. apply apply_kept. }
  pose proof (good_body py gen load load' (invoke py load depth) (apply py load' depth) (apply_kept py load' depth) pl nodes b' G St Wn CNone s1 w1 B1 P1 H1 H2) as GB.
  unfold drop_chain in GB. fold s1 w1. match goal with |- sim2 _ _ _ ?x _ => destruct x as [[o s2]|] end; match goal with |- sim2 _ _ _ _ ?x => destruct x as [[o' w2]|] end; cbn in *; try contradiction; [|exact GB].
  destruct GB as (So & A3 & U3). spl; [exact So|exact A3|]. eapply unchanged_trans; eassumption.
Qed.

(** [cls(context).render()] *)
Theorem run_sim : forall depth c c' ctx ctx', rcls c c' -> cinv _ _ c -> rdict bcode dcode rfun 0 0 ctx ctx' -> a_dict ctx -> free (keys ctx) ->
  run_template py load depth c ctx = template_means py load' depth c' ctx'.
Proof.
  intros depth c c' ctx ctx' C CI X Dx Fx. unfold run_template, template_means.
  assert (H0 : rheap bcode dcode rfun 0 [] []) by constructor.
  destruct (rnew _ _ _ _ _ _ c c' (Given _ _ ctx) (Given _ _ ctx') H0 C X) as (R1 & R2).
  assert (I0 : hinv (fobj bcode) (str * bcode) []) by (intros i x E; destruct i; discriminate).
  pose proof (new_inv _ _ [] c (Given _ _ ctx) I0 CI (conj Dx Fx)) as I1.
  destruct (new _ _ [] c (Given _ _ ctx)) as [h i], (new _ _ [] c' (Given _ _ ctx')) as [h' i']. cbn [fst snd] in *.
  assert (i' = i) as -> by (destruct R2; congruence).
  pose proof (main_of_rel bcode dcode rfun py 0 h h' i R1) as MR.
  destruct (main_of py h i) as [f|], (main_of py h' i) as [f'|]; cbn [rres] in MR; try contradiction; [|cbn; congruence]. cbn [rbind].
  set (s0 := State (World h []) (fun _ => []) (fun _ => [])).
  assert (A0 : rworld (s_world s0) (World h' [])) by (split; [exact R1|split; [constructor|exact I1]]).
  pose proof (call_sim py gen (invoke py load depth) (apply py load' depth) (invoke_sim depth) f f' [] [] s0 _ A0 MR (Forall2_nil _)) as CS.
  destruct (call_function py (invoke py load depth) f [] s0) as [[v s1]|], (call_function py (apply py load' depth) f' [] (World h' [])) as [[v' w1]|]; cbn in CS; try contradiction; [|cbn; congruence].
  cbn [rmap fst]. f_equal. apply same_render. now apply svalue_same.
Qed.
End Depth.

(** ** Classes *)
Lemma join_tail : forall l h b r, join_texts (St h :: Bl b r :: l) = St h :: Bl b r :: join_texts l.
Proof. reflexivity. Qed.
Lemma functions_rel : forall l fs', functions_of l = Some fs' -> Forall (well_named py gen) l ->
  exists fs, class_functions (programs l) = Some fs /\ ralist rfun fs fs' /\ Forall (fun kf => ~ In (fst kf) reserved) fs.
Proof.
  induction l as [|n l IH]; intros fs' E W.
  - cbn in E. assert (fs' = []) as -> by congruence. exists []. repeat split; constructor.
  - destruct n as [| | | |ln i d b| | | | | | | | | | | | | ]; try discriminate E. destruct i; [discriminate|]. cbn [functions_of] in E.
    destruct (structure b) as [b'|] eqn:Eb; [|discriminate]. cbn [S_Exec.obind] in E. unfold not_empty in E.
    destruct (existsb says_something (or_pass b')); [|discriminate]. cbn [S_Exec.obind] in E. destruct (functions_of l) as [fs0|]; [|discriminate]. cbn [option_map] in E.
    assert (fs' = (fun_name d, (d, or_pass b')) :: fs0) as -> by congruence. apply Forall_cons_iff in W as [[Wd Wb] Wl].
    destruct (IH fs0 eq_refl Wl) as (fs & E1 & R1 & N1). unfold programs in *. cbn [flat_map program app]. rewrite body_eq, join_tail. cbn [class_functions]. rewrite E1. cbn [option_map].
    eexists. split; [reflexivity|]. split.
    + constructor; [|exact R1]. split; [reflexivity|]. cbn [snd]. split; [reflexivity|]. split; [exact Wd|]. cbn [snd].
      destruct b as [|b0 b]; [assert (b' = []) as -> by (cbn in Eb; congruence); apply rbody_pass|].
      exists (b0 :: b). split; [reflexivity|]. split; [|exact Wb]. destruct b'; [now apply structure_cons in Eb|exact Eb].
    + constructor; [exact (proj1 Wd)|exact N1].
Qed.
Lemma insert_rel : forall X Y (R : X -> Y -> Prop) l l' a b, ralist R l l' -> fst a = fst b -> R (snd a) (snd b) -> ralist R (insert_attr a l) (insert_attr b l').
Proof.
  intros X Y R l l' [k v] [k' v'] H E V. cbn [fst snd] in *. subst k'. induction H as [|[k1 v1] [k2 v2] l l' [E1 V1] H IH]; cbn [insert_attr].
  - repeat constructor. exact V.
  - cbn [fst snd] in *. subst k2. match goal with |- context [if ?c then _ else _] => destruct c end; constructor; try (now split); [|exact IH]. constructor; [now split|exact H].
Qed.
Lemma sort_rel : forall X Y (R : X -> Y -> Prop) l l', ralist R l l' -> ralist R (sort_attrs l) (sort_attrs l').
Proof. intros X Y R l l' H. induction H as [|a b l l' [E V] H IH]; cbn [sort_attrs]; [constructor|]. now apply insert_rel. Qed.
Lemma sets_rel : forall X Y (R : X -> Y -> Prop) l l' d d', ralist R l l' -> ralist R d d' ->
  ralist R (fold_left (fun d kf => set (fst kf) (snd kf) d) l d) (fold_left (fun d kf => set (fst kf) (snd kf) d) l' d').
Proof.
  intros X Y R l l' d d' H. revert d d'. induction H as [|[k v] [k' v'] l l' [E V] H IH]; intros d d' D; [exact D|]. cbn [fold_left fst snd] in *. subst k'. apply IH. now apply ralist_set.
Qed.
Lemma sets_keys : forall X (l d : list (str * X)), a_dict d -> a_dict (fold_left (fun d kf => set (fst kf) (snd kf) d) l d) /\
  forall x, In x (keys (fold_left (fun d kf => set (fst kf) (snd kf) d) l d)) <-> In x (keys l) \/ In x (keys d).
Proof.
  intros X. induction l as [|[k v] l IH]; intros d D; cbn [fold_left fst snd].
  - split; [exact D|]. intros x. cbn. tauto.
  - destruct (IH (set k v d) (set_dict _ k v d D)) as [I1 I2]. split; [exact I1|]. intros x. rewrite I2, keys_set. cbn [keys map In fst].
    destruct (smem k (keys d)) eqn:E; [apply smem_In in E|]; [|rewrite in_app_iff; cbn [In]]; split; intros; intuition; subst; tauto.
Qed.
Lemma methods_inv : forall l : list (str * (str * bcode)), Forall (fun kf => ~ In (fst kf) reserved) l -> a_dict (class_methods l) /\ free (keys (class_methods l)).
Proof.
  intros l F. unfold class_methods. destruct (sets_keys _ l [] (NoDup_nil _)) as [D1 D2].
  set (d := fold_left _ l []) in *. pose proof (Permutation_map fst (sort_perm _ d)) as P. split.
  - unfold a_dict, keys. eapply Permutation_NoDup; [symmetry; exact P|exact D1].
  - intros r Hr I. unfold keys in I. apply (Permutation_in _ P) in I. apply D2 in I as [I|[]]. apply in_map_iff in I as (kf & E & I). rewrite Forall_forall in F. apply (F _ I). now rewrite E.
Qed.
Lemma objects_keys : forall code l, keys (@objects code l) = map fst l.
Proof. intros code l. unfold keys, objects. rewrite map_map. reflexivity. Qed.
Lemma objects_rel : forall l, rdict bcode dcode rfun 0 0 (objects l) (objects l).
Proof. unfold objects. induction l as [|[k v] l IH]; constructor; [split; [reflexivity|constructor]|exact IH]. Qed.
Lemma objects_free : forall code l, object_names l -> a_dict (@objects code l) /\ free (keys (@objects code l)).
Proof.
  intros code l [N F]. unfold a_dict, free. rewrite objects_keys. split; [exact N|]. intros r Hr I. rewrite Forall_forall in F. now apply (F r I).
Qed.

Lemma class_rel : forall f, a_file py gen f -> rres (fun c c' => rcls c c' /\ cinv _ _ c) (class_of f) (meaning_of f).
Proof.
  intros [[t given] module] (F & W & Og & Om). unfold class_of, meaning_of. rewrite (P_Run12.class_exact _ F). unfold template_class, directive_class.
  destruct (defs t) as [|n0 l0] eqn:El; [reflexivity|]. rewrite <- El in *. clear El n0 l0. 
  destruct (functions_of (defs t)) as [fs'|] eqn:E; cbn [P_Run12.is_some option_map]; [|reflexivity].
  destruct (functions_rel _ _ E W) as (fs & E1 & R1 & N1). rewrite E1. cbn [option_map rres].
  destruct (methods_inv fs N1) as [M1 M2]. destruct (objects_free bcode given Og) as [G1 G2]. destruct (objects_free bcode module Om) as [G3 G4].
  split; [split|split; [split|split]]; cbn [from_ir methods base_globals].
  - unfold class_methods, last_ones. apply sort_rel. apply sets_rel; [exact R1|constructor].
  - apply rupdate; apply objects_rel.
  - exact M1.
  - now apply update_dict.
  - exact M2.
  - intros r Hr I. unfold update in I. apply (sets_keys _ (objects module) (objects given) G1) in I as [I|I]; [now apply (G4 r)|now apply (G2 r)].
Qed.

(** Files that Python refuses. *)
Definition refused (f : file) : Prop := let '(t, _, _) := f in Forall function_in_place (defs t) /\ functions_of (defs t) = None.
Lemma refused_class : forall f, refused f -> class_of f = Raise "KajikiSyntaxError" /\ meaning_of f = Raise "KajikiSyntaxError".
Proof.
  intros [[t given] module] [F E]. unfold class_of, meaning_of, directive_class. rewrite (P_Run12.class_exact _ F), E. now destruct (defs t).
Qed.
(** Running a file is what it means. *)
Theorem run_means : forall files depth f context,
  (forall fragment name f, files fragment name = Ok f -> a_file py gen f \/ refused f) -> a_file py gen f \/ refused f -> object_names context ->
  run_file py files depth f context = file_means py files depth f context.
Proof.
  assert (G : forall f, a_file py gen f \/ refused f -> rres (fun c c' => rcls c c' /\ cinv _ _ c) (class_of f) (meaning_of f)).
  { intros f [A|R]; [now apply class_rel|]. destruct (refused_class f R) as [-> ->]. reflexivity. }
  intros files depth f context Hf F O. unfold run_file, file_means. pose proof (G f F) as C.
  destruct (class_of f) as [c|], (meaning_of f) as [c'|]; cbn [rres] in C; try contradiction; [|cbn; congruence]. destruct C as [C CI]. cbn [rbind].
  destruct (objects_free bcode context O) as [D1 D2].
  apply run_sim; try assumption; [|apply objects_rel].
  intros b t. destruct (files b t) as [g|] eqn:E; [|reflexivity]. cbn [rbind]. apply G. eapply Hf. exact E.
Qed.
Theorem run_file_means : forall files depth f context,
  (forall fragment name f, files fragment name = Ok f -> a_file py gen f) -> a_file py gen f -> object_names context ->
  run_file py files depth f context = file_means py files depth f context.
Proof. intros files depth f context Hf F O. apply run_means; [|now left|exact O]. intros b t g E. left. eapply Hf. exact E. Qed.
End Calls.
