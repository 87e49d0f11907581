(** * Proofs: template objects besides others (2): running *)

From Coq Require Import Ascii String List Arith NArith ZArith Bool Lia.
From Verif Require Import PyStr PyStrLemmas M_Values M_IR M_Template P_Template P_Deep M_Run P_Shift.
From Verif Require P_IR3.
Import ListNotations.
Open Scope list_scope.

Definition simr {A B : Type} (R : A -> B -> Prop) (r : result A) (r' : result B) : Prop :=
  match r, r' with Ok a, Ok b => R a b | Raise e, Raise e' => e = e' | _, _ => False end.
Lemma simr_bind : forall A B C D (Q : A -> B -> Prop) (R : C -> D -> Prop) r r' k k', simr Q r r' -> (forall a b, Q a b -> simr R (k a) (k' b)) -> simr R (rbind r k) (rbind r' k').
Proof. intros A B C D Q R r r' k k' H K. destruct r, r'; cbn in *; try contradiction; [now apply K|exact H]. Qed.
Lemma simr_map : forall A B C D (Q : A -> B -> Prop) (R : C -> D -> Prop) r r' (k : A -> C) (k' : B -> D), simr Q r r' -> (forall a b, Q a b -> R (k a) (k' b)) -> simr R (rmap k r) (rmap k' r').
Proof. intros A B C D Q R r r' k k' H K. destruct r, r'; cbn in *; try contradiction; [now apply K|exact H]. Qed.
Lemma simr_bind_f : forall A B C D (f : A -> B) (R : C -> D -> Prop) r r' k k', r' = rmap f r -> (forall a, r = Ok a -> simr R (k a) (k' (f a))) -> simr R (rbind r k) (rbind r' k').
Proof. intros A B C D f R r r' k k' -> K. destruct r; cbn; [now apply K|reflexivity]. Qed.
Lemma simr_map_f : forall A B C D (f : A -> B) (R : C -> D -> Prop) r r' (k : A -> C) (k' : B -> D), r' = rmap f r -> (forall a, r = Ok a -> R (k a) (k' (f a))) -> simr R (rmap k r) (rmap k' r').
Proof. intros A B C D f R r r' k k' -> K. destruct r; cbn; [now apply K|reflexivity]. Qed.

Section Shift.
Variable h0 : heap (fobj bcode) (str * bcode).
Variable fs0 : list (frame bcode).
Variable w0 : nat -> list (list bval).
Variable q0 : nat -> list value.
Notation n := (length h0).
Notation sg := (sg bcode h0 fs0).
Notation sd := (mapv sg).
Notation sw := (sw bcode h0 fs0).
Notation sp := (sp bcode h0 fs0).
Notation scall := (scall bcode h0 fs0).
Notation sas := (map (fun kg : option str * bval => (fst kg, sg (snd kg)))).

(** The same state, besides other objects. *)
Definition rst (s s' : state) : Prop :=
  s_world s' = sw (s_world s) /\ tidy _ _ (w_heap (s_world s)) /\
  (forall i, s_with s' (n + i) = map (map sg) (s_with s i) /\ s_switch s' (n + i) = s_switch s i) /\
  (forall j, j < n -> s_with s' j = w0 j /\ s_switch s' j = q0 j).
Definition rvs {A : Type} (a b : A * state) : Prop := fst a = fst b /\ rst (snd a) (snd b).

Variable py : python.
Variable load : bool -> str -> result (cls (fobj bcode) (str * bcode)).
Hypothesis Hload : forall fragment name c, load fragment name = Ok c -> closed bcode c.
Variable invoke : callable bcode -> list (str * bval) -> state -> result (list value * state).
Hypothesis Hinv : forall c params s s', rst s s' -> simr rvs (invoke c params s) (invoke (scall c) (sd params) s').

Lemma rst_world : forall s s' w w', rst s s' -> w' = sw w -> tidy _ _ (w_heap w) -> rst (set_world s w) (set_world s' w').
Proof. intros s s' w w' (A & B & C & D) E T. now repeat split; cbn [set_world s_world s_with s_switch]; try (apply C); try (apply D). Qed.
Lemma upd_shift : forall A B (f : A -> B) (g : nat -> A) (g' : nat -> B) i x, (forall j, g' (n + j) = f (g j)) -> forall j, upd g' (n + i) (f x) (n + j) = f (upd g i x j).
Proof. intros A B f g g' i x H j. unfold upd. destruct (Nat.eqb j i) eqn:E; [apply Nat.eqb_eq in E as ->; now rewrite Nat.eqb_refl|]. destruct (Nat.eqb (n + j) (n + i)) eqn:E'; [apply Nat.eqb_eq in E'; apply Nat.eqb_neq in E; lia|]. apply H. Qed.
Lemma upd_low : forall A (g : nat -> A) i x j, j < n -> upd g (n + i) x j = g j.
Proof. intros A g i x j L. unfold upd. destruct (Nat.eqb j (n + i)) eqn:E; [apply Nat.eqb_eq in E; lia|reflexivity]. Qed.
Lemma rst_with : forall s s' i x, rst s s' -> rst (with_with s i x) (with_with s' (n + i) (map (map sg) x)).
Proof.
  intros s s' i x (A & B & C & D). split; [exact A|]. split; [exact B|]. split; [intros j|intros j L]; cbn [with_with s_with s_switch].
  - split; [|apply C]. apply (upd_shift _ _ (map (map sg))). intros k. apply C.
  - rewrite upd_low by exact L. now apply D.
Qed.
Lemma rst_switch : forall s s' i x, rst s s' -> rst (with_switch s i x) (with_switch s' (n + i) x).
Proof.
  intros s s' i x (A & B & C & D). split; [exact A|]. split; [exact B|]. split; [intros j|intros j L]; cbn [with_switch s_with s_switch].
  - split; [apply C|]. apply (upd_shift _ _ (fun x => x)). intros k. apply C.
  - rewrite upd_low by exact L. now apply D.
Qed.
Lemma rst_new : forall s s' w w' i, rst s s' -> w' = sw w -> tidy _ _ (w_heap w) -> rst (new_stacks s w i) (new_stacks s' w' (n + i)).
Proof.
  intros s s' w w' i (A & B & C & D) E T. split; [exact E|]. split; [exact T|]. split; [intros j|intros j L]; cbn [new_stacks s_with s_switch].
  - split; [apply (upd_shift _ _ (map (map sg)) _ _ i [])|apply (upd_shift _ _ (fun x => x) _ _ i [])]; intros k; apply C.
  - rewrite !upd_low by exact L. now apply D.
Qed.

(** ** Calls *)
Lemma call_shift : forall c args s s', rst s s' -> simr rvs (call_function py invoke c args s) (call_function py invoke (scall c) (sas args) s').
Proof.
  intros c args s s' H. unfold call_function. eapply simr_bind_f; [destruct c as [[[d b] i] ss]; cbn [P_Shift.scall fst]; apply bind_args_sh|]. intros params _. eapply simr_map; [now apply Hinv|]. intros [o s1] [o' s1'] [E R]. cbn in E. subst. now split.
Qed.
Lemma show_shift : forall p x s s', rst s s' -> simr rvs (show_value py s_world invoke p x s) (show_value py s_world invoke (sp p) x s').
Proof.
  intros p x s s' H. pose proof H as (Ew & T & _). unfold show_value. rewrite Ew.
  assert (V : simr rvs (rmap (fun v => (v, s)) (evalue py (s_world s) p x)) (rmap (fun v => (v, s')) (evalue py (sw (s_world s)) (sp p) x))).
  { eapply simr_map_f; [apply evalue_sim; exact T|]. intros v _. now split. }
  destruct (parse py x) as [y|o k|xs f|c args]; try exact V. eapply simr_bind_f; [apply callee_sim; exact T|]. intros fo _. destruct fo as [f|v|v k|g]; cbn [sfound]; try exact V.
  eapply simr_bind_f; [apply args_sh|]. intros l _. now apply call_shift.
Qed.

(** ** Statements *)
Variable p : place.
Notation chain := M_Exec.chain.
Definition rcs (a b : list value * chain * state) : Prop := fst a = fst b /\ rst (snd a) (snd b).
Lemma guarded_shift : forall g v s s', rst s s' -> simr rcs (guarded py p g v s) (guarded py (sp p) g v s').
Proof.
  intros g v s s' H. pose proof H as (Ew & T & _). unfold guarded. destruct g as [g|].
  - rewrite Ew. eapply simr_bind_f; [apply condition_sim; exact T|]. intros [|] _; [|now split]. destruct v; cbn; [now split|reflexivity].
  - destruct v; cbn; [now split|reflexivity].
Qed.
Lemma import_tidy : forall w name alias wr, tidy _ _ (w_heap w) -> import_template py load w p name alias = Ok wr -> tidy _ _ (w_heap (fst wr)).
Proof.
  intros w name alias wr T E. unfold import_template in E. destruct (instance py w p (L "local")) as [i|]; [|discriminate]. cbn [rbind] in E. destruct (instance py w p (L "self")) as [g|]; [|discriminate]. cbn [rbind] in E. destruct (load true name) as [c|]; [|discriminate]. cbn [rmap rbind] in E.
  pose proof (tidy_import _ _ (w_heap w) name alias c g T) as T1. destruct (import_ _ _ (w_heap w) name alias c g) as [h r]. cbn in E, T1. injection E as <-. exact T1.
Qed.
Lemma extend_tidy : forall w name wr, tidy _ _ (w_heap w) -> extend_template py load w p name = Ok wr -> tidy _ _ (w_heap (fst wr)).
Proof.
  intros w name wr T E. unfold extend_template in E. destruct (instance py w p (L "local")) as [i|]; [|discriminate]. cbn [rbind] in E. destruct (load false name) as [c|]; [|discriminate]. cbn [rbind] in E.
  destruct (extend _ _ (w_heap w) i c) as [[h r]|] eqn:X; [|discriminate]. pose proof (tidy_extend _ _ (w_heap w) i c (h, r) T X) as T1. cbn in E, T1. injection E as <-. exact T1.
Qed.
Lemma saved_shift : forall w ns, map (fun k => match local_value (sw w) (sp p) k with Some v => v | None => val M_Exec.unit_value end) ns =
  map sg (map (fun k => match local_value w p k with Some v => v | None => val M_Exec.unit_value end) ns).
Proof. intros w ns. rewrite map_map. apply map_ext. intros k. rewrite local_sh. now destruct (local_value w p k). Qed.
Lemma combine_sd2 : forall (xs : list str) l, combine xs (map sg l) = sd (combine xs l).
Proof. induction xs as [|x xs IH]; intros [|v l]; try reflexivity. cbn [combine map mapv fst snd]. f_equal. apply IH. Qed.
Ltac ok := split; [reflexivity|].
Lemma stmt_shift : forall q s s', rst s s' -> simr rcs (exec_stmt py load invoke p q s) (exec_stmt py load invoke (sp p) q s').
Proof.
  intros q s s' H. pose proof H as (Ew & T & C & D). destruct q; try reflexivity; cbn [exec_stmt]; try rewrite Ew.
  - now apply guarded_shift.
  - rewrite translate_sh. now apply guarded_shift.
  - eapply simr_map; [now apply show_shift|]. intros [v s1] [v' s1'] [E R]. cbn in E. subst. now split.
  - eapply simr_bind_f; [apply instance_sh|]. intros i _. eapply simr_map; [now apply show_shift|]. intros [v s1] [v' s1'] [E R]. cbn in E. subst. now split.
  - now split.
  - eapply simr_bind_f; [apply instance_sh|]. intros i _. eapply simr_bind_f; [apply lookup_sh|]. intros g _. destruct g as [[v|d b j ss]| | | | | | | | ]; try reflexivity. cbn [P_Shift.sg].
    eapply simr_bind; [apply (Hinv (d, b, j, ss) [] s s' H)|]. intros [o s1] [o' s1'] [E R]. cbn in E. subst. cbn [fst snd] in *. destruct (collect o') as [v|]; [|reflexivity]. cbn. ok. cbn [snd].
    pose proof R as (E1 & T1 & _). apply rst_world; [exact R| |now rewrite set_name_heap]. rewrite E1. exact (set_name_sh bcode h0 fs0 _ p _ (val v)).
  - eapply simr_bind_f; [apply lookup_sh|]. intros g _. destruct g as [[v|d b j ss]| | | | | | | | ]; try reflexivity. now split.
  - eapply simr_map_f; [apply instance_sh|]. intros i _. ok. cbn [snd]. rewrite saved_shift. replace (s_with s' (n + i)) with (map (map sg) (s_with s i)) by (symmetry; apply C). exact (rst_with s s' i (_ :: _) H).
  - destruct (M_Exec.targets k) as [|x [|]]; try reflexivity. destruct (M_Exec.is_name x); [|reflexivity]. eapply simr_map_f; [apply eval_sim; exact T|]. intros g _. ok. cbn [snd]. apply rst_world; [exact H|apply set_name_sh|now rewrite set_name_heap].
  - eapply simr_bind_f; [apply instance_sh|]. intros i _. rewrite (proj1 (C i)). destruct (s_with s i) as [|saved rest]; [reflexivity|]. cbn [map]. destruct (negb (forallb M_Exec.is_name (flat_map M_Exec.targets names))); [reflexivity|]. rewrite map_length.
    destruct (Nat.eqb (length (flat_map M_Exec.targets names)) (length saved)); [|reflexivity]. ok. cbn [snd]. apply rst_with. apply rst_world; [exact H| |now rewrite set_names_heap]. rewrite combine_sd2. apply set_names_sh.
  - eapply simr_bind_f; [apply instance_sh|]. intros i _. eapply simr_map_f; [apply evalue_sim; exact T|]. intros v _. ok. cbn [snd]. rewrite (proj2 (C i)). now apply rst_switch.
  - now split.
  - eapply simr_bind_f; [apply instance_sh|]. intros i _. rewrite (proj2 (C i)). destruct (s_switch s i) as [|x rest]; [reflexivity|]. ok. now apply rst_switch.
  - eapply simr_map_f; [apply import_template_sh; exact Hload|]. intros wr E. ok. cbn [snd]. apply rst_new; [exact H|reflexivity|]. now apply (import_tidy _ _ _ _ T E).
  - eapply simr_bind_f; [apply import_template_sh; exact Hload|]. intros wr E. pose proof (import_tidy _ _ _ _ T E) as T1. cbn [fst snd new_stacks s_world swi]. eapply simr_bind_f; [exact (main_sim bcode h0 fs0 py _ (snd wr) T1)|]. intros c _. eapply simr_map; [apply (call_shift c []); apply rst_new; [exact H|reflexivity|exact T1]|].
    intros [v s1] [v' s1'] [Ev R]. cbn in Ev. subst. now split.
  - eapply simr_bind_f; [apply extend_template_sh; exact Hload|]. intros wr E. pose proof (extend_tidy _ _ _ T E) as T1. cbn [fst snd new_stacks s_world swi]. eapply simr_bind_f; [exact (main_sim bcode h0 fs0 py _ (snd wr) T1)|]. intros c _. eapply simr_map; [apply (call_shift c []); apply rst_new; [exact H|reflexivity|exact T1]|].
    intros [v s1] [v' s1'] [Ev R]. cbn in Ev. subst. now split.
Qed.
Lemma loop_shift : forall body body', (forall s s', rst s s' -> simr rvs (body s) (body' s')) ->
  forall l s s', rst s s' -> simr rvs (loop p body l s) (loop (sp p) body' (map sd l) s').
Proof.
  intros body body' Hb. induction l as [|r l IH]; intros s s' H; [now split|]. cbn [map loop]. pose proof H as (Ew & T & _). eapply simr_bind.
  - apply Hb. apply rst_world; [exact H| |now rewrite set_names_heap]. rewrite Ew. apply set_names_sh.
  - intros [o s1] [o' s1'] [E R]. cbn in E. subst. eapply simr_map; [now apply IH|]. intros [o2 s2] [o2' s2'] [E2 R2]. cbn in E2. subst. now split.
Qed.
Lemma block_shift : forall h code body body' c s s', (forall s s', rst s s' -> simr rvs (body s) (body' s')) -> rst s s' ->
  simr rcs (exec_block py p h code body c s) (exec_block py (sp p) h code body' c s').
Proof.
  intros h code body body' c s s' Hb H. pose proof H as (Ew & T & C & D). 
  assert (Run : forall c, simr rcs (rmap (fun os => (fst os, c, snd os)) (body s)) (rmap (fun os => (fst os, c, snd os)) (body' s'))).
  { intros c1. eapply simr_map; [now apply Hb|]. intros [o s1] [o' s1'] [E R]. cbn in E. subst. now split. }
  assert (Def : forall x d, rcs ([], M_Exec.CNone, set_world s (set_name (s_world s) p x (GObj _ _ (RC d code (p_inst p) (p_scopes p)))))
                                ([], M_Exec.CNone, set_world s' (set_name (sw (s_world s)) (sp p) x (GObj _ _ (RC d code (p_inst (sp p)) (p_scopes (sp p))))))).
  { intros x d. ok. cbn [snd]. apply rst_world; [exact H| |now rewrite set_name_heap]. exact (set_name_sh bcode h0 fs0 _ p x (GObj _ _ (RC d code (p_inst p) (p_scopes p)))). }
  assert (Write : forall x chunks, simr rcs (rmap (fun os => (fst os, M_Exec.CFor, snd os)) (loop p body (map (fun t => [(x, val (VStr t))]) chunks) s))
                                           (rmap (fun os => (fst os, M_Exec.CFor, snd os)) (loop (sp p) body' (map (fun t => [(x, val (VStr t))]) chunks) s'))).
  { intros x chunks. eapply (simr_map _ _ _ _ rvs); [|intros [o s1] [o' s1'] [E R]; cbn in E; subst; now split].
    assert (E : map (fun t => [(x, @val bcode (VStr t))]) chunks = map sd (map (fun t => [(x, @val bcode (VStr t))]) chunks)) by (rewrite map_map; now apply map_ext).
    rewrite E at 2. now apply loop_shift. }
  destruct h; try reflexivity; cbn [exec_block]; try rewrite Ew; try (apply Def).
  - eapply simr_bind_f; [apply instance_sh|]. intros i _. eapply simr_bind_f; [apply lookup_sh|]. intros g _. rewrite value_sg. eapply (simr_bind_f _ _ _ _ (fun x => x)); [match goal with |- _ = rmap _ ?r => now destruct r end|]. intros chunks _. apply Write.
  - eapply simr_bind_f; [apply instance_sh|]. intros i _. eapply simr_bind_f; [apply attributes_sim; exact T|]. intros attrs _. eapply (simr_bind_f _ _ _ _ (fun x => x)); [match goal with |- _ = rmap _ ?r => now destruct r end|]. intros chunks _. apply Write.
  - eapply simr_bind_f; [apply rounds_sim; exact T|]. intros l _. eapply simr_map; [now apply loop_shift|]. intros [o s1] [o' s1'] [E R]. cbn in E. subst. now split.
  - eapply simr_bind_f; [apply condition_sim; exact T|]. intros [|] _; [apply Run|now split].
  - destruct c as [|[|]|]; try reflexivity; [now split|]. eapply simr_bind_f; [apply instance_sh|]. intros i _. eapply simr_bind_f; [apply evalue_sim; exact T|]. intros v _. rewrite (proj2 (C i)). destruct (s_switch s i) as [|x l]; [reflexivity|]. destruct (veq py v x); [apply Run|now split].
  - destruct c as [|[|]|]; try reflexivity; [now split|apply Run..].
Qed.
Lemma execs_shift_of : forall l, Forall (fun b => forall c s s', rst s s' -> simr rcs (exec py load invoke p b c s) (exec py load invoke (sp p) b c s')) l ->
  forall c s s', rst s s' -> simr rcs (execs py load invoke p l c s) (execs py load invoke (sp p) l c s').
Proof.
  intros l F. induction F as [|b l Hb F IH]; intros c s s' H; [now split|]. cbn [execs]. eapply simr_bind; [now apply Hb|]. intros [[o c1] s1] [[o' c1'] s1'] [E R]. cbn [fst snd] in *. injection E as -> ->.
  eapply simr_map; [now apply IH|]. intros [[o2 c2] s2] [[o2' c2'] s2'] [E R2]. cbn [fst snd] in *. injection E as -> ->. now split.
Qed.
Lemma exec_shift : forall b c s s', rst s s' -> simr rcs (exec py load invoke p b c s) (exec py load invoke (sp p) b c s').
Proof.
  induction b as [t g|q|h body F|lines] using P_IR3.blk_ind'; intros c s s' H.
  - cbn [exec]. now apply guarded_shift.
  - cbn [exec]. now apply stmt_shift.
  - pose proof (execs_shift_of body F) as G. cbn [exec]. apply block_shift; [|exact H]. intros s1 s1' H1. specialize (G M_Exec.CNone s1 s1' H1).
    eapply simr_map; [exact G|]. intros [[o2 c2] s2] [[o2' c2'] s2'] [E R2]. cbn [fst snd] in *. injection E as -> ->. now split.
  - cbn [exec]. pose proof H as (Ew & T & _). rewrite Ew. eapply simr_map_f; [apply block_sim; exact T|]. intros [o w1] E. ok. cbn [snd fst sow]. apply rst_world; [exact H|reflexivity|]. pose proof (block_heap _ _ _ _ _ _ E) as X. cbn [snd] in X. rewrite X. exact T.
Qed.
Lemma execs_shift : forall l c s s', rst s s' -> simr rcs (execs py load invoke p l c s) (execs py load invoke (sp p) l c s').
Proof. intros l. apply execs_shift_of. apply Forall_forall. intros b _. apply exec_shift. Qed.
End Shift.

Section Run.
Variable h0 : heap (fobj bcode) (str * bcode).
Variable fs0 : list (frame bcode).
Variable w0 : nat -> list (list bval).
Variable q0 : nat -> list value.
Variable py : python.
Variable load : bool -> str -> result (cls (fobj bcode) (str * bcode)).
Hypothesis Hload : forall fragment name c, load fragment name = Ok c -> closed bcode c.
Theorem invoke_shift : forall depth c params s s', rst h0 fs0 w0 q0 s s' ->
  simr (rvs h0 fs0 w0 q0) (invoke py load depth c params s) (invoke py load depth (scall bcode h0 fs0 c) (mapv (sg bcode h0 fs0) params) s').
Proof.
  induction depth as [|depth IH]; intros [[[d b] i] ss] params s s' H; [reflexivity|]. cbn [invoke scall].
  eapply simr_map.
  - pose proof H as (Ew & T & _). rewrite Ew. cbn [sw w_frames w_heap]. unfold sfs at 1. rewrite app_length, map_length.
    change (Place (length h0 + i) (length fs0 + length (w_frames (s_world s)) :: map (Nat.add (length fs0)) ss)) with (sp bcode h0 fs0 (Place i (length (w_frames (s_world s)) :: ss))).
    apply (execs_shift h0 fs0 w0 q0 py load Hload (invoke py load depth) IH). apply rst_world; [exact H| |exact T]. unfold sw. cbn [w_heap w_frames]. f_equal. unfold sfs. rewrite map_app, <- app_assoc. cbn [map]. do 2 f_equal. unfold sf. cbn [fr_names fr_vars]. do 2 f_equal. unfold mapv. now rewrite map_map.
  - intros [[o2 c2] s2] [[o2' c2'] s2'] [E R2]. cbn [fst snd] in *. injection E as -> ->. now split.
Qed.
End Run.
