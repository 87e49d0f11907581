(** * Renderings at the same time: one rendering alone, step by step *)

From Coq Require Import Ascii String List NArith ZArith Bool Lia Arith.
From Verif Require Import PyStr PyStrLemmas M_Values M_IR S_IR M_Template M_Run M_Conc.
From Verif Require M_Exec P_IR3 P_Run4.
Import ListNotations.
Open Scope list_scope.

Section Alone.
Variable py : python.
Variable load : bool -> str -> result (cls (fobj bcode) (str * bcode)).

Fixpoint iter (n : nat) (x : thread * state) : thread * state :=
  match n with O => x | S n' => iter n' (step py load (fst x) (snd x)) end.
Lemma iter_add : forall a b x, iter (a + b) x = iter b (iter a x).
Proof. induction a as [|a IH]; intros b x; [reflexivity|]. cbn [Nat.add iter]. apply IH. Qed.
Definition reach (x y : thread * state) : Prop := exists n, iter n x = y.
Definition fails (x : thread * state) (e : string) : Prop := exists n s, iter n x = (Failed e, s).
Definition leads {T : Type} (x : thread * state) (r : result T) (k : T -> thread * state) : Prop :=
  match r with Ok v => reach x (k v) | Raise e => fails x e end.
Lemma reach_refl : forall x, reach x x. Proof. intros x. now exists 0. Qed.
Lemma reach_trans : forall x y z, reach x y -> reach y z -> reach x z.
Proof. intros x y z [a <-] [b <-]. exists (a + b). apply iter_add. Qed.
Lemma reach_fails : forall x y e, reach x y -> fails y e -> fails x e.
Proof. intros x y e [a <-] (b & s & E). exists (a + b), s. now rewrite iter_add. Qed.
Lemma reach_leads : forall T x y (r : result T) k, reach x y -> leads y r k -> leads x r k.
Proof. intros T x y [v|e] k R L; cbn in *; [eapply reach_trans; eassumption|eapply reach_fails; eassumption]. Qed.
Lemma leads_bind : forall T U x (r : result T) k (f : T -> result U) k2, leads x r k -> (forall v, r = Ok v -> leads (k v) (f v) k2) -> leads x (rbind r f) k2.
Proof. intros T U x [v|e] k f k2 L F; cbn in *; [eapply reach_leads; [exact L|now apply F]|exact L]. Qed.
Lemma leads_map : forall T U x (r : result T) (f : T -> U) k k2, leads x r k -> (forall v, reach (k v) (k2 (f v))) -> leads x (rmap f r) k2.
Proof. intros T U x [v|e] f k k2 L F; cbn in *; [eapply reach_trans; [exact L|apply F]|exact L]. Qed.
Lemma one : forall t s y, step py load t s = y -> reach (t, s) y.
Proof. intros t s y E. exists 1. exact E. Qed.
Lemma one_leads : forall T t s (r : result T) k y, step py load t s = y -> leads y r k -> leads (t, s) r k.
Proof. intros T t s r k y E L. eapply reach_leads; [apply one, E|exact L]. Qed.
Lemma leads_attempt : forall T (r : result T) s k, leads (attempt r s k) r k.
Proof. intros T [v|e] s k; cbn; [apply reach_refl|]. exists 0, s. reflexivity. Qed.

(** ** Statements and blocks of [M_Run], through [call_of] and [decide] *)
Definition finished (i : item) (os : list value * state) : result (list value * M_Exec.chain * state) :=
  match i with
  | ICollect _ p n => rmap (fun v => ([], M_Exec.CNone, set_world (snd os) (set_name (s_world (snd os)) p n (val v)))) (collect (fst os))
  | _ => Ok ([VFlat (fst os)], M_Exec.CNone, snd os)
  end.
Definition an_end (f : list value -> item) : Prop := f = IShow \/ exists p n, f = fun o => ICollect o p n.

Section Invoke.
Variable inv : callable bcode -> list (str * bval) -> state -> result (list value * state).
Definition call_then (o : option pending) (simple : result (list value * M_Exec.chain * state)) : result (list value * M_Exec.chain * state) :=
  match o with
  | Some q => rbind (inv (c_fun q) (c_params q) (c_state q)) (finished (c_end q []))
  | None => simple
  end.
Lemma rbind_map : forall (T U V : Type) (r : result T) (f : T -> U) (g : U -> result V), rbind (rmap f r) g = rbind r (fun x => g (f x)).
Proof. now intros T U V [x|e] f g. Qed.
Lemma rmap_map : forall (T U V : Type) (r : result T) (f : T -> U) (g : U -> V), rmap g (rmap f r) = rmap (fun x => g (f x)) r.
Proof. now intros T U V [x|e] f g. Qed.
Lemma show_call : forall p x s (g : value -> value), (forall o, g (VFlat o) = VFlat o) ->
  rmap (fun vs => ([g (fst vs)], M_Exec.CNone, snd vs)) (show_value py s_world inv p x s) =
  rbind (call_named py p x s) (fun o => call_then o (rmap (fun vs => ([g (fst vs)], M_Exec.CNone, snd vs)) (show_value py s_world no_invoke p x s))).
Proof.
  intros p x s g Hg. unfold show_value, call_named. destruct (parse py x) as [y|o k|xs f|c args]; try reflexivity.
  destruct (find_callee py (s_world s) p c) as [[f|v|v k|v]|e] eqn:E; cbn [rbind rmap call_then]; try reflexivity.
  destruct (eval_args py (s_world s) p args) as [a|e]; cbn [rbind rmap]; [|reflexivity]. unfold call_function.
  destruct (bind_args py _ a) as [l|e]; cbn [rbind rmap call_then c_fun c_params c_state c_end]; [|reflexivity].
  destruct (inv f l s) as [[o s1]|e]; cbn [rbind rmap finished fst snd]; [now rewrite Hg|reflexivity].
Qed.
Lemma main_call : forall s i, 
  rbind (main_of py (w_heap (s_world s)) i) (fun c => rmap (fun vs => ([fst vs], M_Exec.CNone, snd vs)) (call_function py inv c [] s)) =
  rbind (call_main py s i) (fun o => call_then o (Raise "not modelled")).
Proof.
  intros s i. unfold call_main. destruct (main_of py _ i) as [f|e]; cbn [rbind]; [|reflexivity]. unfold call_function.
  destruct (bind_args py _ []) as [l|e]; cbn [rbind rmap call_then c_fun c_params c_state c_end]; [|reflexivity].
  now destruct (inv f l s) as [[o s1]|e].
Qed.
Lemma main_never_none : forall s i, call_main py s i <> Ok None.
Proof. intros s i. unfold call_main. destruct (main_of py _ i) as [f|e]; cbn [rbind]; [|discriminate]. now destruct (bind_args py _ []). Qed.
Lemma never_none : forall (r : result (option pending)) a b, r <> Ok None -> rbind r (fun o => call_then o a) = rbind r (fun o => call_then o b).
Proof. intros [[q|]|e] a b H; try reflexivity. congruence. Qed.
Lemma exec_stmt_calls : forall p q s, exec_stmt py load inv p q s = rbind (call_of py load p q s) (fun o => call_then o (exec_stmt py load no_invoke p q s)).
Proof.
  intros p q s. destruct q; cbn [exec_stmt call_of]; try reflexivity.
  - apply (show_call p e s (fun v => v)). reflexivity.
  - destruct (instance py (s_world s) p (L "self")) as [i|x]; cbn [rbind]; [|reflexivity]. now apply (show_call p e s escape).
  - destruct (instance py (s_world s) p (L "self")) as [i|x]; cbn [rbind]; [|reflexivity].
    destruct (lookup py (s_world s) p name) as [[[v|d b i0 ss]| | | | | | | |]|x]; cbn [rbind call_then]; try reflexivity.
  - destruct (import_template py load (s_world s) p tpl None) as [[w r]|x]; cbn [rbind fst snd]; [|reflexivity]. rewrite main_call. apply never_none. apply main_never_none.
  - destruct (extend_template py load (s_world s) p tpl) as [[w r]|x]; cbn [rbind fst snd]; [|reflexivity]. rewrite main_call. apply never_none. apply main_never_none.
Qed.
Lemma call_named_end : forall p x s q, call_named py p x s = Ok (Some q) -> an_end (c_end q).
Proof.
  intros p x s q. unfold call_named. destruct (parse py x) as [y|o k|xs f|c args]; try discriminate.
  destruct (find_callee py (s_world s) p c) as [[f|v|v k|v]|e]; cbn [rbind]; try discriminate.
  destruct (eval_args py (s_world s) p args) as [a|e]; cbn [rbind]; [|discriminate]. destruct (bind_args py _ a) as [l|e]; cbn [rmap]; [|discriminate].
  intros E. assert (q = Pending f l IShow s) as -> by congruence. now left.
Qed.
Lemma call_main_end : forall s i q, call_main py s i = Ok (Some q) -> an_end (c_end q).
Proof.
  intros s i q. unfold call_main. destruct (main_of py _ i) as [f|e]; cbn [rbind]; [|discriminate]. destruct (bind_args py _ []) as [l|e]; cbn [rmap]; [|discriminate].
  intros E. assert (q = Pending f l IShow s) as -> by congruence. now left.
Qed.
Lemma call_of_end : forall p c s q, call_of py load p c s = Ok (Some q) -> an_end (c_end q).
Proof.
  intros p c s q. destruct c; cbn [call_of]; try discriminate.
  - apply call_named_end.
  - destruct (instance py (s_world s) p (L "self")) as [i|x]; cbn [rbind]; [|discriminate]. apply call_named_end.
  - destruct (instance py (s_world s) p (L "self")) as [i|x]; cbn [rbind]; [|discriminate].
    destruct (lookup py (s_world s) p name) as [[[v|d b i0 ss]| | | | | | | |]|x]; cbn [rbind]; try discriminate.
    intros E. assert (q = Pending (d, b, i0, ss) [] (fun before => ICollect before p name) s) as -> by congruence. right. exists p, name. reflexivity.
  - destruct (import_template py load (s_world s) p tpl None) as [[w r]|x]; cbn [rbind fst snd]; [|discriminate]. apply call_main_end.
  - destruct (extend_template py load (s_world s) p tpl) as [[w r]|x]; cbn [rbind fst snd]; [|discriminate]. apply call_main_end.
Qed.
Definition follow (p : place) (body : state -> result (list value * state)) (s : state) (d : decision) : result (list value * M_Exec.chain * state) :=
  match d with
  | Skip c s' => Ok ([], c, s')
  | Enter c => rmap (fun os => (fst os, c, snd os)) (body s)
  | Repeat rs => rmap (fun os => (fst os, M_Exec.CFor, snd os)) (loop p body rs s)
  end.
Lemma exec_block_decides : forall p h code body c s, exec_block py p h code body c s = rbind (decide py p h code c s) (follow p body s).
Proof.
  intros p h code body c s. destruct h; cbn [exec_block decide]; cbv zeta; try reflexivity.
  - destruct (instance py (s_world s) p (L "self")) as [i|x0]; cbn [rbind]; [|reflexivity]. destruct (lookup py (s_world s) p name) as [g|x0]; cbn [rbind]; [|reflexivity].
    now destruct (render_attrs _ _).
  - destruct (instance py (s_world s) p (L "self")) as [i|x0]; cbn [rbind]; [|reflexivity]. destruct (attributes py (s_world s) p e) as [g|x0]; cbn [rbind]; [|reflexivity].
    now destruct (render_attrs _ _).
  - now destruct (rounds py (s_world s) p decl).
  - now destruct (condition py (s_world s) p e) as [[|]|].
  - destruct c as [|[|]|]; try reflexivity. destruct (instance py (s_world s) p (L "local")) as [i|x0]; cbn [rbind]; [|reflexivity].
    destruct (evalue py (s_world s) p e) as [v|x0]; cbn [rbind]; [|reflexivity]. destruct (s_switch s i); [reflexivity|]. cbn [rbind]. now destruct (veq py v v0).
  - now destruct c as [|[|]|].
Qed.
End Invoke.

(** ** The machine *)
Definition calls_ok (d : nat) : Prop := forall q out todo, an_end (c_end q) ->
  leads (enter py d out todo q) (rbind (invoke py load d (c_fun q) (c_params q) (c_state q)) (finished (c_end q [])))
    (fun r => (Running d (out ++ fst (fst r)) todo, snd r)).
Definition exec_ok (d : nat) (b : blk) : Prop := forall p c s l todo out,
  leads (Running d out (IBlock p (b :: l) c :: todo), s) (exec py load (invoke py load d) p b c s)
    (fun r => (Running d (out ++ fst (fst r)) (IBlock p l (snd (fst r)) :: todo), snd r)).

Lemma execs_ok : forall d l, Forall (exec_ok d) l -> forall p c s todo out,
  leads (Running d out (IBlock p l c :: todo), s) (execs py load (invoke py load d) p l c s) (fun r => (Running d (out ++ fst (fst r)) todo, snd r)).
Proof.
  intros d l F. induction F as [|b l B F IH]; intros p c s todo out; cbn [execs].
  - cbn [leads fst snd]. rewrite app_nil_r. apply one. reflexivity.
  - eapply leads_bind; [apply B|]. intros [[o c1] s1] _. cbn [fst snd]. eapply leads_map; [apply IH|]. intros [[o2 c2] s2]. cbn [fst snd]. rewrite app_assoc. apply reach_refl.
Qed.
Lemma loop_ok : forall d body, Forall (exec_ok d) body -> forall p rs s todo out,
  leads (Running d out (ILoop p body rs :: todo), s)
    (loop p (fun s => rmap (fun r => (fst (fst r), snd r)) (execs py load (invoke py load d) p body M_Exec.CNone s)) rs s)
    (fun r => (Running d (out ++ fst r) todo, snd r)).
Proof.
  intros d body F p rs. induction rs as [|r rs IH]; intros s todo out; cbn [loop].
  - cbn [leads fst snd]. rewrite app_nil_r. apply one. reflexivity.
  - eapply one_leads; [reflexivity|]. rewrite rbind_map. eapply leads_bind; [now apply execs_ok|]. intros [[o c1] s1] _. cbn [fst snd].
    eapply leads_map; [apply IH|]. intros [o2 s2]. cbn [fst snd]. rewrite app_assoc. apply reach_refl.
Qed.
Lemma exec_steps : forall d, calls_ok d -> forall b, exec_ok d b.
Proof.
  intros d CO b. induction b as [t g|q|h body F|lines] using P_IR3.blk_ind'; intros p c s l todo out.
  - eapply one_leads; [reflexivity|]. apply leads_attempt.
  - cbn [exec]. rewrite exec_stmt_calls. eapply one_leads; [reflexivity|]. cbn [step]. destruct (call_of py load p q s) as [[call|]|e] eqn:E; cbn [rbind attempt call_then].
    + pose proof (CO call out (IBlock p l M_Exec.CNone :: todo) (call_of_end _ _ _ _ E)) as Q.
      destruct (invoke py load d (c_fun call) (c_params call) (c_state call)) as [os|e]; cbn [rbind] in *; [|exact Q].
      destruct (call_of_end _ _ _ _ E) as [X|(p0 & n0 & X)]; rewrite X in *; cbn [finished] in *; [exact Q|]. destruct (collect (fst os)); exact Q.
    + pose proof (leads_attempt _ (exec_stmt py load no_invoke p q s) s (fun r => (Running d (out ++ fst (fst r)) (IBlock p l (snd (fst r)) :: todo), snd r))) as Q. exact Q.
    + exists 0, s. reflexivity.
  - rewrite P_Run4.exec_bl, exec_block_decides. eapply one_leads; [reflexivity|]. cbn [step].
    destruct (decide py p h body c s) as [dc|e]; cbn [rbind attempt]; [|exists 0, s; reflexivity]. destruct dc as [c1 s1|c1|rs]; cbn [follow].
    + cbn [leads fst snd]. rewrite app_nil_r. apply reach_refl.
    + rewrite rmap_map. eapply leads_map; [now apply execs_ok|]. intros [[o2 c2] s2]. apply reach_refl.
    + eapply leads_map; [now apply loop_ok|]. intros [o2 s2]. apply reach_refl.
  - eapply one_leads; [reflexivity|]. apply leads_attempt.
Qed.
Lemma calls_steps : forall d, calls_ok d.
Proof.
  induction d as [|d IH]; intros q out todo Q; unfold enter; cbn [invoke].
  - exists 0. eexists. reflexivity.
  - destruct (c_fun q) as [[[dc body] i] ss]. rewrite rbind_map.
    eapply leads_bind; [apply execs_ok; apply Forall_forall; intros b _; now apply exec_steps|]. intros [[o c1] s1] _. cbn [fst snd app].
    destruct Q as [->|(p0 & n0 & ->)]; cbn [finished fst snd].
    + cbn [leads fst snd]. apply one. reflexivity.
    + eapply one_leads; [reflexivity|]. cbn [step]. destruct (collect o) as [v|e]; cbn [attempt rmap leads fst snd]; [rewrite app_nil_r; apply reach_refl|exists 0; eexists; reflexivity].
Qed.

(** A call from outside. *)
Lemma enter_done : forall depth q, c_end q = IShow ->
  match invoke py load depth (c_fun q) (c_params q) (c_state q) with
  | Ok os => exists s, reach (enter py depth [] [] q) (Done [VFlat (fst os)], s)
  | Raise e => fails (enter py depth [] [] q) e
  end.
Proof.
  intros depth q E. pose proof (calls_steps depth q [] [] (or_introl E)) as L. rewrite E in L.
  destruct (invoke py load depth (c_fun q) (c_params q) (c_state q)) as [[o s]|e]; cbn [rbind leads finished fst snd app] in *; [|exact L].
  exists s. eapply reach_trans; [exact L|]. apply one. reflexivity.
Qed.
Lemma iter_done : forall n t s, (forall d o l, t <> Running d o l) -> iter n (t, s) = (t, s).
Proof. induction n as [|n IH]; intros t s H; [reflexivity|]. cbn [iter fst snd]. destruct t as [d o l| |]; [now destruct (H d o l)| |]; cbn [step]; now apply IH. Qed.
End Alone.
