(** * Whole templates: what calls leave alone; depth *)

From Coq Require Import Ascii String List NArith ZArith Bool Lia Arith.
From Verif Require Import PyStr PyStrLemmas M_Values M_IR S_IR M_Template M_Run S_Run P_IR P_Run1 P_Run3 P_Run4 P_Run11.
From Verif Require M_Exec.
Import ListNotations.
Open Scope list_scope.

(** An induction principle for blocks. *)
Section BlkInd.
Variable P : blk -> Prop.
Hypothesis HTx : forall t g, P (Tx t g).
Hypothesis HSt : forall q, P (St q).
Hypothesis HBl : forall h b, Forall P b -> P (Bl h b).
Hypothesis HPy : forall l, P (Py l).
Fixpoint blk_ind' (b : blk) : P b :=
  match b with
  | Tx t g => HTx t g
  | St q => HSt q
  | Bl h body => HBl h body ((fix go (l : list blk) : Forall P l := match l with [] => Forall_nil _ | b :: l' => Forall_cons _ (blk_ind' b) (go l') end) body)
  | Py l => HPy l
  end.
End BlkInd.

(** ** The variables of other calls *)
Definition keeps (f : nat) (s s' : state) : Prop :=
  length (w_frames (s_world s)) <= length (w_frames (s_world s')) /\
  forall j, j < length (w_frames (s_world s)) -> j <> f -> nth_error (w_frames (s_world s')) j = nth_error (w_frames (s_world s)) j.
Lemma keeps_refl : forall f s, keeps f s s.
Proof. intros f s. split; [lia|reflexivity]. Qed.
Lemma keeps_trans : forall f a b c, keeps f a b -> keeps f b c -> keeps f a c.
Proof. intros f a b c [L1 H1] [L2 H2]. split; [lia|]. intros j Hj Nj. rewrite H2 by (lia || assumption). now apply H1. Qed.
Lemma keeps_frames : forall f s s', w_frames (s_world s') = w_frames (s_world s) -> keeps f s s'.
Proof. intros f s s' E. split; [rewrite E; lia|]. intros j _ _. now rewrite E. Qed.
Lemma keeps_set_name : forall f ss i s s' x v, w_frames (s_world s') = w_frames (set_name (s_world s) (Place i (f :: ss)) x v) -> keeps f s s'.
Proof.
  intros f ss i s s' x v E. unfold keeps. rewrite E. rewrite set_name_frames. split; [lia|]. intros j Hj Nj. unfold set_name. cbn [p_scopes].
  destruct (nth_error (w_frames (s_world s)) f) as [fr|]; [|reflexivity]. cbn [w_frames]. rewrite nth_put_frame. destruct (Nat.eqb_spec f j); [congruence|reflexivity].
Qed.
Lemma keeps_set_names : forall f ss i l s s', w_frames (s_world s') = w_frames (set_names (s_world s) (Place i (f :: ss)) l) -> keeps f s s'.
Proof.
  intros f ss i l. induction l as [|[x v] l IH]; intros s s' E; cbn [set_names] in E; [now apply keeps_frames|].
  eapply keeps_trans; [|apply (IH (set_world s (set_name (s_world s) (Place i (f :: ss)) x v))); exact E]. eapply keeps_set_name. reflexivity.
Qed.

Lemma keeps_block : forall f ss i py l s o s', run_block py (s_world s) (Place i (f :: ss)) l = Ok (o, s_world s') -> keeps f s s'.
Proof.
  intros f ss i py. induction l as [|[x e|xs ys g] l IH]; intros s o s' H; cbn [run_block] in H.
  - apply keeps_frames. congruence.
  - inv_ok H. eapply keeps_trans; [|eapply (IH (set_world s (set_name (s_world s) (Place i (f :: ss)) x a))); exact H]. eapply keeps_set_name. reflexivity.
  - inv_ok H. destruct a as [o1 vs], a0 as [o2 w2]. simp. assert (w2 = s_world s') as -> by congruence.
    assert (B : forall ys vs s, keeps f s (set_world s (bind_some (s_world s) (Place i (f :: ss)) ys vs))).
    { clear. induction ys as [|y ys IH]; intros [|[v|] vs] s; cbn [bind_some]; try (apply keeps_frames; reflexivity); [|apply IH].
      eapply keeps_trans; [|apply (IH vs (set_world s (set_name (s_world s) (Place i (f :: ss)) y (val v))))]. eapply keeps_set_name. reflexivity. }
    eapply keeps_trans; [apply (B ys vs)|eapply IH; exact E0].
Qed.

Section Keeps.
Variable py : python.
Variable load : bool -> str -> result (cls (fobj bcode) (str * bcode)).
Variable invoke : callable bcode -> list (str * bval) -> state -> result (list value * state).
Hypothesis Hinv : forall c params s o s', invoke c params s = Ok (o, s') ->
  length (w_frames (s_world s)) <= length (w_frames (s_world s')) /\
  forall j, j < length (w_frames (s_world s)) -> nth_error (w_frames (s_world s')) j = nth_error (w_frames (s_world s)) j.
Variables (i0 f : nat) (ss : list nat).
Notation p := (Place i0 (f :: ss)).

Lemma invoke_keeps : forall c params s o s', invoke c params s = Ok (o, s') -> keeps f s s'.
Proof. intros c params s o s' H. destruct (Hinv _ _ _ _ _ H) as [H1 H2]. split; [exact H1|]. intros j Hj _. now apply H2. Qed.
Lemma call_keeps : forall c args s v s', call_function py invoke c args s = Ok (v, s') -> keeps f s s'.
Proof.
  intros c args s v s' H. unfold call_function in H. inv_ok H. destruct a0 as [o s1]. simp. assert (s' = s1) as -> by congruence. eapply invoke_keeps. exact E0.
Qed.
Lemma show_keeps : forall q x s v s', show_value py s_world invoke q x s = Ok (v, s') -> keeps f s s'.
Proof.
  intros q x s v s' H. unfold show_value in H.
  assert (D : rmap (fun v => (v, s)) (evalue py (s_world s) q x) = Ok (v, s') -> keeps f s s').
  { intros D. inv_ok D. assert (s' = s) as -> by congruence. apply keeps_refl. }
  destruct (parse py x); try (now apply D). destruct (find_callee py (s_world s) q c) as [fo|]; [|discriminate]. simp.
  destruct fo; try (now apply D). inv_ok H. eapply call_keeps. exact H.
Qed.
Lemma guarded_keeps : forall g r s o c s', guarded py p g r s = Ok (o, c, s') -> keeps f s s'.
Proof.
  intros g r s o c s' H. unfold guarded in H. destruct g as [g|]; inv_ok H.
  - destruct a; [inv_ok H|]; assert (s' = s) as -> by congruence; apply keeps_refl.
  - assert (s' = s) as -> by congruence. apply keeps_refl.
Qed.
Lemma other_keeps : forall s w i r, w_frames w = w_frames (s_world s) ->
  forall o c s', rbind (main_of py (w_heap w) i) (fun c => rmap (fun vs => ([fst vs], CNone, snd vs)) (call_function py invoke c r (new_stacks s w i))) = Ok (o, c, s') ->
  keeps f s s'.
Proof.
  intros s w i r E o c s' H. inv_ok H. destruct a0 as [v s1]. simp. assert (s' = s1) as -> by congruence.
  eapply keeps_trans; [|eapply call_keeps; exact E1]. apply keeps_frames. exact E.
Qed.
Lemma import_frames : forall w t a w1 i, import_template py load w p t a = Ok (w1, i) -> w_frames w1 = w_frames w.
Proof. intros w t a w1 i H. unfold import_template in H. inv_ok H. destruct (import_ _ _ _ _ _ _ _) as [h r]. assert (w1 = World h (w_frames w)) as -> by congruence. reflexivity. Qed.
Lemma extend_frames : forall w t w1 i, extend_template py load w p t = Ok (w1, i) -> w_frames w1 = w_frames w.
Proof. intros w t w1 i H. unfold extend_template in H. inv_ok H. assert (w1 = World (fst a1) (w_frames w)) as -> by congruence. reflexivity. Qed.

Lemma stmt_keeps : forall q s o c s', exec_stmt py load invoke p q s = Ok (o, c, s') -> keeps f s s'.
Proof.
  intros q s o c s' H. destruct q; cbn [exec_stmt] in H; try discriminate H.
  - eapply guarded_keeps. exact H.
  - eapply guarded_keeps. exact H.
  - inv_ok H. destruct a as [v s1]. simp. assert (s' = s1) as -> by congruence. eapply show_keeps. exact E.
  - inv_ok H. destruct a0 as [v s1]. simp. assert (s' = s1) as -> by congruence. eapply show_keeps. exact E0.
  - assert (s' = s) as -> by congruence. apply keeps_refl.
  - inv_ok H. destruct a0 as [[v|d b i sc]| | | | | | | | ]; try discriminate H. inv_ok H. match type of E1 with _ = Ok ?x => destruct x as [o1 s1] end. simp.
    eapply keeps_trans; [eapply invoke_keeps; exact E1|]. match type of H with Ok (_, _, ?s2) = _ => assert (s' = s2) as -> by congruence end. eapply keeps_set_name. reflexivity.
  - inv_ok H. destruct a; try discriminate H. assert (s' = s) as -> by congruence. apply keeps_refl.
  - inv_ok H. match type of H with Ok (_, _, ?s2) = _ => assert (s' = s2) as -> by congruence end. now apply keeps_frames.
  - destruct (M_Exec.targets k) as [|x [|]]; try discriminate H. destruct (M_Exec.is_name x); [|discriminate H]. inv_ok H.
    match type of H with Ok (_, _, ?s2) = _ => assert (s' = s2) as -> by congruence end. eapply keeps_set_name. reflexivity.
  - inv_ok H. destruct (s_with s a) as [|saved rest]; [discriminate H|]. destruct (negb _); [discriminate H|]. destruct (Nat.eqb _ _); [|discriminate H].
    match type of H with Ok (_, _, ?s2) = _ => assert (s' = s2) as -> by congruence end. eapply keeps_set_names. reflexivity.
  - inv_ok H. match type of H with Ok (_, _, ?s2) = _ => assert (s' = s2) as -> by congruence end. now apply keeps_frames.
  - assert (s' = s) as -> by congruence. apply keeps_refl.
  - inv_ok H. destruct (s_switch s a); [discriminate H|]. match type of H with Ok (_, _, ?s2) = _ => assert (s' = s2) as -> by congruence end. now apply keeps_frames.
  - inv_ok H. destruct a as [w1 i]. match type of H with Ok (_, _, ?s2) = _ => assert (s' = s2) as -> by congruence end. apply keeps_frames. simp. now apply import_frames in E.
  - destruct (import_template py load (s_world s) p tpl None) as [[w1 i]|] eqn:E; [|discriminate]. cbn [rbind fst snd] in H. apply import_frames in E. eapply other_keeps; [exact E|exact H].
  - destruct (extend_template py load (s_world s) p tpl) as [[w1 i]|] eqn:E; [|discriminate]. cbn [rbind fst snd] in H. apply extend_frames in E. eapply other_keeps; [exact E|exact H].
Qed.
Lemma loop_keeps : forall body l s o s', (forall s o s', body s = Ok (o, s') -> keeps f s s') -> loop p body l s = Ok (o, s') -> keeps f s s'.
Proof.
  intros body l s o s' B. revert s o s'. induction l as [|r l IH]; intros s o s' H; cbn [loop] in H; [assert (s' = s) as -> by congruence; apply keeps_refl|].
  destruct (body (set_world s (set_names (s_world s) p r))) as [[o1 s1]|] eqn:E; [|discriminate]. simp. destruct (loop p body l s1) as [[o2 s2]|] eqn:E2; [|discriminate]. simp.
  assert (s' = s2) as -> by congruence. eapply keeps_trans; [|eapply IH; exact E2]. eapply keeps_trans; [|eapply B; exact E]. eapply keeps_set_names. reflexivity.
Qed.
Ltac fin H := match type of H with Ok (fst ?x, _, _) = _ => destruct x as [? ?]; cbn [fst snd] in H; match type of H with Ok (_, _, ?s2) = Ok (_, _, ?s') => assert (s' = s2) as -> by congruence end; eapply loop_keeps; eassumption end.
Lemma block_keeps : forall h code body c s o c' s', (forall s o s', body s = Ok (o, s') -> keeps f s s') ->
  exec_block py p h code body c s = Ok (o, c', s') -> keeps f s s'.
Proof.
  intros h code body c s o c' s' B H.
  assert (R : forall c0, rmap (fun os => (fst os, c0, snd os)) (body s) = Ok (o, c', s') -> keeps f s s').
  { intros c0 R. destruct (body s) as [[o1 s1]|] eqn:E; [|discriminate]. simp. assert (s' = s1) as -> by congruence. eapply B. exact E. }
  assert (R2 : forall l, rmap (fun os => (fst os, CFor, snd os)) (loop p body l s) = Ok (o, c', s') -> keeps f s s').
  { intros l R2. destruct (loop p body l s) as [[o1 s1]|] eqn:E; [|discriminate]. simp. assert (s' = s1) as -> by congruence. eapply loop_keeps; eassumption. }
  assert (R0 : forall o1 c1, Ok (o1, c1, s) = Ok (o, c', s') -> keeps f s s') by (intros o1 c1 R0; assert (s' = s) as -> by congruence; apply keeps_refl).
  destruct h; cbn [exec_block] in H; try discriminate H.
  - match type of H with Ok (_, _, ?s2) = _ => assert (s' = s2) as -> by congruence end. eapply keeps_set_name. reflexivity.
  - inv_ok H. fin H.
  - inv_ok H. fin H.
  - inv_ok H. fin H.
  - inv_ok H. destruct a; [eapply R; exact H|eapply R0; exact H].
  - destruct c as [|[]|]; try discriminate H; [eapply R0; exact H|]. inv_ok H. destruct (s_switch s a) as [|x l]; [discriminate H|].
    match type of H with (if ?t then _ else _) = _ => destruct t end; [eapply R; exact H|eapply R0; exact H].
  - destruct c as [|[]|]; try discriminate H; [eapply R0; exact H|eapply R; exact H|eapply R; exact H].
  - match type of H with Ok (_, _, ?s2) = _ => assert (s' = s2) as -> by congruence end. eapply keeps_set_name. reflexivity.
Qed.
Lemma execs_keeps : forall l, Forall (fun b => forall c s o c' s', exec py load invoke p b c s = Ok (o, c', s') -> keeps f s s') l ->
  forall c s o c' s', execs py load invoke p l c s = Ok (o, c', s') -> keeps f s s'.
Proof.
  induction 1 as [|b l Hb Hl IH]; intros c s o c' s' H; cbn [execs] in H; [assert (s' = s) as -> by congruence; apply keeps_refl|].
  destruct (exec py load invoke p b c s) as [[[o1 c1] s1]|] eqn:E1; [|discriminate]. simp. destruct (execs py load invoke p l c1 s1) as [[[o2 c2] s2]|] eqn:E2; [|discriminate]. simp.
  assert (s' = s2) as -> by congruence. eapply keeps_trans; [eapply Hb; exact E1|eapply IH; exact E2].
Qed.
Lemma exec_keeps : forall b c s o c' s', exec py load invoke p b c s = Ok (o, c', s') -> keeps f s s'.
Proof.
  induction b as [t g|q|h b IH|l] using blk_ind'; intros c s o c' s' H.
  - eapply guarded_keeps. exact H.
  - eapply stmt_keeps. exact H.
  - rewrite exec_bl in H. eapply block_keeps; [|exact H]. intros s1 o1 s1' B. cbn beta in B. destruct (execs py load invoke p b CNone s1) as [[[o2 c2] s2]|] eqn:E; [|discriminate B]. simp.
    assert (s1' = s2) as -> by congruence. eapply execs_keeps; [exact IH|exact E].
  - cbn [exec] in H. inv_ok H. destruct a as [o1 w1]. simp. assert (s' = set_world s w1) as -> by congruence. eapply keeps_block. exact E.
Qed.
End Keeps.

(** A call leaves all variables that existed before as they are. *)
Theorem invoke_keeps_all : forall py load depth c params s o s', invoke py load depth c params s = Ok (o, s') ->
  length (w_frames (s_world s)) <= length (w_frames (s_world s')) /\
  forall j, j < length (w_frames (s_world s)) -> nth_error (w_frames (s_world s')) j = nth_error (w_frames (s_world s)) j.
Proof.
  intros py load. induction depth as [|depth IH]; intros c params s o s' H; [discriminate|]. destruct c as [[[d b] i] ss]. cbn [invoke] in H.
  set (s1 := set_world s _) in H. destruct (execs py load _ _ b _ s1) as [[[o2 c2] s2]|] eqn:E; [|discriminate]. simp. assert (s' = s2) as -> by congruence.
  pose proof (execs_keeps py load (invoke py load depth) i (length (w_frames (s_world s))) ss b) as K.
  specialize (K (proj2 (Forall_forall _ _) (fun b _ => exec_keeps py load (invoke py load depth) IH i (length (w_frames (s_world s))) ss b)) _ _ _ _ _ E) as [K1 K2].
  cbn [s1 s_world set_world w_frames] in K1, K2. rewrite app_length in K1, K2. cbn [length] in K1, K2. split; [lia|]. intros j Hj. rewrite K2 by lia. now apply nth_error_app1.
Qed.

(** ** Depth: a rendering that is not cut off does not depend on the limit *)
Definition upto {A} (r r' : result A) : Prop := r = r' \/ r = Raise "RecursionError".
Lemma upto_refl : forall A (r : result A), upto r r.
Proof. now left. Qed.
Lemma upto_bind : forall A B (r r' : result A) (k k' : A -> result B), upto r r' -> (forall a, upto (k a) (k' a)) -> upto (rbind r k) (rbind r' k').
Proof. intros A B r r' k k' [->| ->] H; [|right; reflexivity]. destruct r'; cbn [rbind]; [apply H|left; reflexivity]. Qed.
Lemma upto_map : forall A B (r r' : result A) (k : A -> B), upto r r' -> upto (rmap k r) (rmap k r').
Proof. intros A B r r' k [->| ->]; [now left|now right]. Qed.
Section Depth.
Variable py : python.
Variable load : bool -> str -> result (cls (fobj bcode) (str * bcode)).
Variables invoke invoke' : callable bcode -> list (str * bval) -> state -> result (list value * state).
Hypothesis Hinv : forall c params s, upto (invoke c params s) (invoke' c params s).
Lemma call_upto : forall c args s, upto (call_function py invoke c args s) (call_function py invoke' c args s).
Proof. intros c args s. apply upto_bind; [apply upto_refl|]. intros a. apply upto_map, Hinv. Qed.
Lemma show_upto : forall p e s, upto (show_value py s_world invoke p e s) (show_value py s_world invoke' p e s).
Proof.
  intros p e s. unfold show_value. destruct (parse py e); try apply upto_refl. apply upto_bind; [apply upto_refl|]. intros [f| | |]; try apply upto_refl.
  apply upto_bind; [apply upto_refl|]. intros a. apply call_upto.
Qed.
Lemma stmt_upto : forall p q s, upto (exec_stmt py load invoke p q s) (exec_stmt py load invoke' p q s).
Proof.
  intros p q s. destruct q; cbn [exec_stmt]; try apply upto_refl.
  - apply upto_map, show_upto.
  - apply upto_bind; [apply upto_refl|]. intros _. apply upto_map, show_upto.
  - apply upto_bind; [apply upto_refl|]. intros _. apply upto_bind; [apply upto_refl|]. intros [[v|d b i ss]| | | | | | | | ]; try apply upto_refl.
    apply upto_bind; [apply Hinv|]. intros r. apply upto_refl.
  - apply upto_bind; [apply upto_refl|]. intros r. apply upto_bind; [apply upto_refl|]. intros c. apply upto_map, call_upto.
  - apply upto_bind; [apply upto_refl|]. intros r. apply upto_bind; [apply upto_refl|]. intros c. apply upto_map, call_upto.
Qed.
Lemma loop_upto : forall p body body' l s, (forall s, upto (body s) (body' s)) -> upto (loop p body l s) (loop p body' l s).
Proof.
  intros p body body' l s H. revert s. induction l as [|r l IH]; intros s; cbn [loop]; [apply upto_refl|]. apply upto_bind; [apply H|]. intros a. apply upto_map, IH.
Qed.
Lemma block_upto : forall p h code body body' c s, (forall s, upto (body s) (body' s)) -> upto (exec_block py p h code body c s) (exec_block py p h code body' c s).
Proof.
  intros p h code body body' c s H.
  assert (W : forall x chunks, upto (rmap (fun os => (fst os, M_Exec.CFor, snd os)) (loop p body (map (fun t => [(x, val (VStr t))]) chunks) s))
                                    (rmap (fun os => (fst os, M_Exec.CFor, snd os)) (loop p body' (map (fun t => [(x, val (VStr t))]) chunks) s))).
  { intros x chunks. apply upto_map, loop_upto, H. }
  destruct h; cbn [exec_block]; try apply upto_refl.
  - apply upto_bind; [apply upto_refl|]. intros _. apply upto_bind; [apply upto_refl|]. intros g. apply upto_bind; [apply upto_refl|]. intros r. apply W.
  - apply upto_bind; [apply upto_refl|]. intros _. apply upto_bind; [apply upto_refl|]. intros g. apply upto_bind; [apply upto_refl|]. intros r. apply W.
  - apply upto_bind; [apply upto_refl|]. intros l. apply upto_map, loop_upto, H.
  - apply upto_bind; [apply upto_refl|]. intros [|]; [apply upto_map, H|apply upto_refl].
  - destruct c as [|[]|]; try apply upto_refl. apply upto_bind; [apply upto_refl|]. intros i. apply upto_bind; [apply upto_refl|]. intros v.
    destruct (s_switch s i) as [|x l]; [apply upto_refl|]. match goal with |- context [if ?t then _ else _] => destruct t end; [apply upto_map, H|apply upto_refl].
  - destruct c as [|[]|]; try apply upto_refl; apply upto_map, H.
Qed.
Lemma execs_upto : forall p l, Forall (fun b => forall c s, upto (exec py load invoke p b c s) (exec py load invoke' p b c s)) l ->
  forall c s, upto (execs py load invoke p l c s) (execs py load invoke' p l c s).
Proof.
  intros p l H. induction H as [|b l Hb Hl IH]; intros c s; cbn [execs]; [apply upto_refl|]. apply upto_bind; [apply Hb|]. intros a. apply upto_map, IH.
Qed.
Lemma exec_upto : forall p b c s, upto (exec py load invoke p b c s) (exec py load invoke' p b c s).
Proof.
  intros p b. induction b as [t g|q|h b IH|l] using blk_ind'; intros c s.
  - apply upto_refl.
  - apply stmt_upto.
  - rewrite !exec_bl. apply block_upto. intros s1. apply upto_map, execs_upto, IH.
  - apply upto_refl.
Qed.
End Depth.

Theorem invoke_upto : forall py load n m c params s, n <= m -> upto (invoke py load n c params s) (invoke py load m c params s).
Proof.
  intros py load. induction n as [|n IH]; intros m c params s H; [right; reflexivity|]. destruct m as [|m]; [lia|]. destruct c as [[[d b] i] ss]. cbn [invoke].
  apply upto_map, execs_upto, Forall_forall. intros x _. apply exec_upto. intros c0 ps s0. apply IH. lia.
Qed.
Theorem run_upto : forall py files n m f context, n <= m -> upto (run_file py files n f context) (run_file py files m f context).
Proof.
  intros py files n m f context H. unfold run_file. apply upto_bind; [apply upto_refl|]. intros c. unfold run_template.
  destruct (new _ _ [] c (Given _ _ (objects context))) as [h i]. apply upto_bind; [apply upto_refl|]. intros g. apply upto_map, call_upto. intros c0 ps s. apply invoke_upto, H.
Qed.
