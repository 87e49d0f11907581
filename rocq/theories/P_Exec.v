(** * Execution refines meaning: proofs *)

From Coq Require Import Ascii String List NArith ZArith Bool Lia.
From Verif Require Import PyStr PyStrLemmas M_Values M_IR S_IR M_Exec S_Exec P_IR P_IR3.
Import ListNotations.
Open Scope list_scope.

(** ** Outputs up to joining of neighbouring strings *)

Inductive same_out : list value -> list value -> Prop :=
| so_refl : forall a, same_out a a
| so_sym : forall a b, same_out a b -> same_out b a
| so_trans : forall a b c, same_out a b -> same_out b c -> same_out a c
| so_app : forall a a' b b', same_out a a' -> same_out b b' -> same_out (a ++ b) (a' ++ b')
| so_join : forall s t, same_out [VStr (s ++ t)] [VStr s; VStr t].

Lemma collect_parts_app : forall a b,
  collect_parts (a ++ b) = rbind (collect_parts a) (fun x => rmap (fun y => x ++ y) (collect_parts b)).
Proof.
  induction a as [|v a IH]; intros b; cbn [app collect_parts].
  - cbn. now destruct (collect_parts b).
  - destruct v; rewrite ?IH; try (destruct (collect_parts a); cbn; [destruct (collect_parts b)|]; reflexivity).
    destruct (accumulate_str items); cbn; [|reflexivity].
    destruct (collect_parts a); cbn; [destruct (collect_parts b)|]; reflexivity.
Qed.

(** [collect_parts] up to the splitting of the text into parts. *)
Definition csum (o : list value) : result (str * bool) :=
  rmap (fun l : list str => (concat l, match l with [] => true | _ => false end)) (collect_parts o).
Lemma csum_app : forall a b, csum (a ++ b) =
  rbind (csum a) (fun x => rmap (fun y => (fst x ++ fst y, snd x && snd y)) (csum b)).
Proof.
  intros a b. unfold csum. rewrite collect_parts_app.
  destruct (collect_parts a) as [la|]; [|reflexivity]. cbn [rbind rmap].
  destruct (collect_parts b) as [lb|]; [|reflexivity]. cbn [rbind rmap fst snd].
  rewrite concat_app. now destruct la, lb.
Qed.
Lemma collect_csum : forall o, collect o = rmap (fun x : str * bool => if snd x then VNone else VStr (fst x)) (csum o).
Proof. intros o. unfold collect, csum. now destruct (collect_parts o) as [[|]|]. Qed.

Lemma same_out_csum : forall a b, same_out a b -> csum a = csum b.
Proof.
  induction 1; try congruence.
  - now rewrite !csum_app, IHsame_out1, IHsame_out2.
  - unfold csum. cbn. now rewrite !app_nil_r.
Qed.
Lemma same_out_collect : forall a b, same_out a b -> collect a = collect b.
Proof. intros a b H. now rewrite !collect_csum, (same_out_csum _ _ H). Qed.

Lemma flat_iter_app : forall a b, flat_iter (a ++ b) = flat_iter a ++ flat_iter b.
Proof. intros a b. unfold flat_iter. now rewrite flat_map_app, ?filter_app. Qed.
Lemma render_app : forall a b, render (a ++ b) = render a ++ render b.
Proof. intros a b. unfold render, tpl_iter. now rewrite flat_iter_app, map_app, concat_app. Qed.
Lemma same_out_render : forall a b, same_out a b -> render a = render b.
Proof.
  induction 1; try congruence.
  - now rewrite !render_app, IHsame_out1, IHsame_out2.
  - unfold render, tpl_iter. cbn. now rewrite !app_nil_r.
Qed.

(** ** Blocks *)

Section Exec.
Variable py : python.

Lemma exec_bl : forall h body c s,
  exec py (Bl h body) c s =
  exec_block py h (fun s => rmap (fun r => (fst (fst r), snd r)) (execs py body CNone s)) c s.
Proof. reflexivity. Qed.

Lemma execs_app : forall l1 l2 c s, execs py (l1 ++ l2) c s =
  rbind (execs py l1 c s) (fun r =>
  rmap (fun r' => (fst (fst r) ++ fst (fst r'), snd (fst r'), snd r')) (execs py l2 (snd (fst r)) (snd r))).
Proof.
  induction l1 as [|b l1 IH]; intros l2 c s; cbn [app execs rbind fst snd].
  - now destruct (execs py l2 c s) as [[[? ?] ?]|].
  - destruct (exec py b c s) as [[[o1 c1] s1]|]; [|reflexivity]. cbn [rbind fst snd]. rewrite IH.
    destruct (execs py l1 c1 s1) as [[[o2 c2] s2]|]; [|reflexivity]. cbn [rbind rmap fst snd].
    destruct (execs py l2 c2 s2) as [[[o3 c3] s3]|]; [|reflexivity]. cbn [rmap fst snd]. now rewrite app_assoc.
Qed.

(** Same result up to joining. *)
Definition same_res {A} (r r' : result (list value * A)) : Prop :=
  match r, r' with
  | Ok (o, a), Ok (o', a') => same_out o o' /\ a = a'
  | Raise x, Raise y => x = y
  | _, _ => False
  end.
Definition out3 (r : result (list value * chain * st)) : result (list value * (chain * st)) :=
  rmap (fun r => (fst (fst r), (snd (fst r), snd r))) r.
Definition same3 (r r' : result (list value * chain * st)) : Prop := same_res (out3 r) (out3 r').

Lemma same3_refl : forall r, same3 r r.
Proof. intros [[[? ?] ?]|]; cbn; [split|]; constructor. Qed.
Lemma same3_trans : forall a b c, same3 a b -> same3 b c -> same3 a c.
Proof.
  intros [[[? ?] ?]|] [[[? ?] ?]|] [[[? ?] ?]|]; cbn; try tauto; try congruence.
  intros [? ?] [? ?]. split; [eapply so_trans; eassumption|congruence].
Qed.

Lemma execs_cons_same : forall b l l' c s,
  (forall c s, same3 (execs py l c s) (execs py l' c s)) ->
  same3 (execs py (b :: l) c s) (execs py (b :: l') c s).
Proof.
  intros b l l' c s H. cbn [execs]. destruct (exec py b c s) as [[[o1 c1] s1]|]; [|apply same3_refl].
  cbn [rbind fst snd]. specialize (H c1 s1).
  destruct (execs py l c1 s1) as [[[? ?] ?]|], (execs py l' c1 s1) as [[[? ?] ?]|]; cbn in *; try tauto.
  destruct H as [? ?]. split; [apply so_app; [constructor|assumption]|congruence].
Qed.

Lemma guarded_join : forall g t t' r c s,
  same3 (execs py (Tx (t ++ t') g :: r) c s) (execs py (Tx t g :: Tx t' g :: r) c s).
Proof.
  intros g t t' r c s. cbn [execs exec]. unfold guarded. destruct (truthy_guard g) as [x|]; cbn [rbind fst snd].
  - destruct (ev_bool py (s_env s) x) as [b|] eqn:Eb; [|apply same3_refl]. cbn [rmap rbind fst snd].
    rewrite Eb. cbn [rmap rbind fst snd].
    destruct (execs py r (CIf b) s) as [[[o c1] s1]|]; [|apply same3_refl]. cbn. split; [|reflexivity].
    destruct b; [|apply so_refl]. change (same_out ([VStr (t ++ t')] ++ o) ([VStr t; VStr t'] ++ o)). apply so_app; [apply so_join|apply so_refl].
  - destruct (execs py r CNone s) as [[[o c1] s1]|]; [|apply same3_refl]. cbn. split; [|reflexivity].
    change (same_out ([VStr (t ++ t')] ++ o) ([VStr t; VStr t'] ++ o)). apply so_app; [apply so_join|apply so_refl].
Qed.

Lemma oseqb_eq : forall a b, oseqb a b = true -> a = b.
Proof.
  intros [a|] [b|] H; cbn in H; try discriminate; [|reflexivity]. apply seqb_eq in H. now subst.
Qed.

Lemma execs_join : forall l c s, same3 (execs py (join_texts l) c s) (execs py l c s).
Proof.
  induction l as [|b l IH]; intros c s; [apply same3_refl|].
  destruct b as [t g|p|h body|ls]; try (apply execs_cons_same; exact IH).
  cbn [join_texts]. destruct (join_texts l) as [|[t' g'|p|h body|ls] r] eqn:E;
    try (apply execs_cons_same; exact IH).
  destruct (oseqb g g') eqn:Eg; [|apply execs_cons_same; exact IH].
  apply oseqb_eq in Eg. subst g'.
  eapply same3_trans; [apply guarded_join|]. apply execs_cons_same. exact IH.
Qed.
End Exec.

(** ** Lists inside nodes *)

Lemma piece_of_pieces : forall l,
  (fix go (l : list node) : option (list piece) :=
     match l with
     | [] => Some []
     | m :: l' => obind (piece_of m) (fun p => option_map (cons p) (go l'))
     end) l = pieces_of l.
Proof. induction l as [|m l IH]; [reflexivity|]. cbn [pieces_of]. now rewrite IH. Qed.

Lemma meaning_means : forall py l e,
  (fix go (l : list stm) (e : env) : meant :=
     match l with [] => Ok ([], e) | m :: l' => then_ (meaning py m e) (go l') end) l e = means py l e.
Proof.
  induction l as [|m l IH]; intros e; [reflexivity|]. cbn [means]. unfold then_.
  destruct (meaning py m e) as [[o e1]|]; [|reflexivity]. cbn [rbind snd]. now rewrite IH.
Qed.

Lemma for_each_ext : forall f g rounds e, (forall e, f e = g e) -> for_each f rounds e = for_each g rounds e.
Proof.
  induction rounds as [|r rounds IH]; intros e H; [reflexivity|]. cbn [for_each]. rewrite H. unfold then_.
  destruct (g (r ++ e)); [|reflexivity]. cbn [rbind]. now rewrite IH.
Qed.
Lemma then_ext : forall a f g, (forall e, f e = g e) -> then_ a f = then_ a g.
Proof. intros a f g H. unfold then_. destruct a; [|reflexivity]. cbn [rbind]. now rewrite H. Qed.

(** The equations of [meaning], with [means] for the bodies. *)
Fixpoint first_case (py : python) (w : value) (cases : list (str * list stm)) (els : list stm) (e : env) : meant :=
  match cases with
  | [] => means py els e
  | (c, b) :: cases' =>
      rbind (ev py e c) (fun v => if veq py v w then means py b e else first_case py w cases' els e)
  end.
Section Equations.
Variable py : python.
Lemma meaning_if : forall c b els e, meaning py (SIf c b els) e =
  rbind (ev_bool py e c) (fun t : bool => if t then means py b e else means py els e).
Proof. intros. cbn [meaning]. destruct (ev_bool py e c) as [[]|]; [| |reflexivity]; cbn [rbind]; apply meaning_means. Qed.
Lemma meaning_for : forall d b els e, meaning py (SFor d b els) e =
  rbind (ev_for py e d) (fun rounds => then_ (for_each (means py b) rounds e) (means py els)).
Proof.
  intros. cbn [meaning]. destruct (ev_for py e d) as [rounds|]; [|reflexivity]. cbn [rbind].
  rewrite (for_each_ext _ _ rounds e (meaning_means py b)). apply then_ext. apply meaning_means.
Qed.
Lemma meaning_with : forall vars b e, meaning py (SWith vars b) e =
  rbind (assigns py vars e) (fun e1 =>
  rmap (fun oe => (fst oe, restore (map fst vars) e (snd oe))) (means py b e1)).
Proof.
  intros. cbn [meaning]. destruct (assigns py vars e) as [e1|]; [|reflexivity]. cbn [rbind].
  now rewrite meaning_means.
Qed.
Lemma meaning_switch : forall d cases els e, meaning py (SSwitch d cases els) e =
  rbind (ev py e d) (fun w => first_case py w cases els e).
Proof.
  intros. cbn [meaning]. destruct (ev py e d) as [w|]; [|reflexivity]. cbn [rbind].
  induction cases as [|[c b] cases IH]; [apply meaning_means|]. cbn [first_case].
  destruct (ev py e c) as [v|]; [|reflexivity]. cbn [rbind]. destruct (veq py v w); [apply meaning_means|exact IH].
Qed.
Definition value_of (v : list stm) (e : env) : meant :=
  match v with [] => Ok ([VStr []], e) | _ => means py v e end.
Lemma meaning_attr : forall a v g mode e, meaning py (SAttr a v g mode) e =
  under py g e
    (rbind (value_of v e) (fun oe =>
     rbind (collect (fst oe)) (fun x =>
     rmap (fun chunks => (map VStr chunks, e)) (render_attrs [(a, x)] mode)))).
Proof. intros. unfold value_of. destruct v as [|s v]; [reflexivity|]. now rewrite <- (meaning_means py (s :: v) e). Qed.
End Equations.

(** ** Pieces one after the other *)

Section Steps.
Variable py : python.

Definition with_chain (c : chain) (m : meant) : result (list value * chain * env) :=
  rmap (fun oe => (fst oe, c, snd oe)) m.
Definition step (p : piece) (c : chain) (sw : list value) (e : env) : result (list value * chain * env) :=
  match p with
  | PcStm (SIf cd b _) => rbind (ev_bool py e cd) (fun t : bool =>
      if t then with_chain (CIf true) (means py b e) else Ok ([], CIf false, e))
  | PcStm (SFor d b _) => rbind (ev_for py e d) (fun rounds => with_chain CFor (for_each (means py b) rounds e))
  | PcStm s => with_chain CNone (meaning py s e)
  | PcElse b =>
      match c with
      | CIf true => Ok ([], CNone, e)
      | CIf false | CFor => with_chain CNone (means py b e)
      | CNone => Raise "SyntaxError"
      end
  | PcCase cd b =>
      match c with
      | CIf true => Ok ([], CIf true, e)
      | CIf false =>
          rbind (ev py e cd) (fun v =>
          match sw with
          | [] => Raise "IndexError"
          | w :: _ => if veq py v w then with_chain (CIf true) (means py b e) else Ok ([], CIf false, e)
          end)
      | _ => Raise "SyntaxError"
      end
  end.
Fixpoint steps (l : list piece) (c : chain) (sw : list value) (e : env) : result (list value * chain * env) :=
  match l with
  | [] => Ok ([], c, e)
  | p :: l' =>
      rbind (step p c sw e) (fun r =>
      rmap (fun r' => (fst (fst r) ++ fst (fst r'), snd (fst r'), snd r')) (steps l' (snd (fst r)) sw (snd r)))
  end.
Definition no_chain (r : result (list value * chain * env)) : meant := rmap (fun r => (fst (fst r), snd r)) r.

(** A freshly structured directive has no else yet. *)
Definition fresh (p : piece) : Prop :=
  match p with PcStm (SIf _ _ els) | PcStm (SFor _ _ els) => els = [] | _ => True end.

Lemma no_chain_cons : forall p l c sw e,
  no_chain (steps (p :: l) c sw e) =
  rbind (step p c sw e) (fun r =>
    rmap (fun oe => (fst (fst r) ++ fst oe, snd oe)) (no_chain (steps l (snd (fst r)) sw (snd r)))).
Proof.
  intros. cbn [steps]. destruct (step p c sw e) as [[[o1 c1] e1]|]; [|reflexivity]. cbn [rbind fst snd].
  unfold no_chain. now destruct (steps l c1 sw e1) as [[[o2 c2] e2]|].
Qed.


Lemma app_nil_meant : forall m : meant, rmap (fun oe => ([] ++ fst oe, snd oe)) m = m.
Proof. now intros [[o e]|]. Qed.

Lemma steps_plain : forall s l ss c sw e,
  (forall c sw e, no_chain (steps l c sw e) = means py ss e) ->
  match s with SIf _ _ els | SFor _ _ els => els = [] | _ => True end ->
  no_chain (steps (PcStm s :: l) c sw e) = then_ (meaning py s e) (means py ss).
Proof.
  intros s l ss c sw e H F. rewrite no_chain_cons.
  assert (G : forall c', rbind (with_chain c' (meaning py s e)) (fun r =>
     rmap (fun oe => (fst (fst r) ++ fst oe, snd oe)) (no_chain (steps l (snd (fst r)) sw (snd r)))) =
     then_ (meaning py s e) (means py ss)).
  { intros c'. destruct (meaning py s e) as [[o e1]|]; [|reflexivity].
    cbn [with_chain rbind rmap fst snd then_]. rewrite H. reflexivity. }
  destruct s; try apply G.
  - subst els. cbn [step]. rewrite meaning_if. destruct (ev_bool py e c0) as [[]|]; [| |reflexivity]; cbn [rbind].
    + unfold then_. destruct (means py b e) as [[o e1]|]; [|reflexivity].
      cbn [with_chain rbind rmap fst snd]. now rewrite H.
    + cbn [fst snd means then_ rbind]. now rewrite H.
  - subst els. cbn [step]. rewrite meaning_for. destruct (ev_for py e d) as [rounds|]; [|reflexivity]. cbn [rbind].
    unfold then_. destruct (for_each (means py b) rounds e) as [[o e1]|]; [|reflexivity].
    cbn [with_chain rbind rmap fst snd means]. rewrite app_nil_r. now rewrite H.
Qed.

Lemma steps_assemble : forall n l ss c sw e, length l <= n ->
  Forall fresh l -> assemble l = Some ss -> no_chain (steps l c sw e) = means py ss e.
Proof.
  induction n as [|n IH]; intros l ss c sw e Hn F A.
  { destruct l; [|cbn in Hn; lia]. cbn in A. injection A as <-. reflexivity. }
  destruct l as [|p l]; [cbn in A; injection A as <-; reflexivity|].
  inversion F as [|? ? Fp Fl]; subst. cbn [length] in Hn.
  destruct p as [s|b|cd b]; [|discriminate A|discriminate A].
  assert (P : forall ss', assemble l = Some ss' -> ss = s :: ss' ->
              no_chain (steps (PcStm s :: l) c sw e) = means py ss e).
  { intros ss' A' ->. cbn [means]. apply steps_plain; [|exact Fp].
    intros c1 sw1 e1. apply IH; [lia|assumption|assumption]. }
  assert (D : assemble (PcStm s :: l) = option_map (cons s) (assemble l) ->
              no_chain (steps (PcStm s :: l) c sw e) = means py ss e).
  { intros E. rewrite E in A. destruct (assemble l) as [ss'|] eqn:E'; [|discriminate].
    injection A as <-. now apply (P ss'). }
  destruct s as [ |t g|t g|x safe|cd b els|d b els|vars b|d cases els|a v g mode|x g mode]; try (apply D; reflexivity).
  - (* if *)
    destruct l as [|[s2|b2|cd2 b2] l]; try (apply D; reflexivity).
    clear P D. cbn [assemble] in A. destruct (assemble l) as [ss'|] eqn:E; [|discriminate]. injection A as <-.
    inversion Fl; subst. cbn [length] in Hn. rewrite no_chain_cons. cbn [step means]. rewrite meaning_if.
    destruct (ev_bool py e cd) as [[]|]; [| |reflexivity]; cbn [rbind].
    + unfold then_. destruct (means py b e) as [[o e1]|]; [|reflexivity].
      cbn [with_chain rbind rmap fst snd]. rewrite no_chain_cons. cbn [step rbind fst snd].
      rewrite app_nil_meant. now rewrite (IH l ss') by (assumption || lia).
    + cbn [fst snd]. rewrite app_nil_meant. rewrite no_chain_cons. cbn [step].
      unfold then_. destruct (means py b2 e) as [[o e1]|]; [|reflexivity].
      cbn [with_chain rbind rmap fst snd]. now rewrite (IH l ss') by (assumption || lia).
  - (* for *)
    destruct l as [|[s2|b2|cd2 b2] l]; try (apply D; reflexivity).
    clear P D. cbn [assemble] in A. destruct (assemble l) as [ss'|] eqn:E; [|discriminate]. injection A as <-.
    inversion Fl; subst. cbn [length] in Hn. rewrite no_chain_cons. cbn [step means]. rewrite meaning_for.
    destruct (ev_for py e d) as [rounds|]; [|reflexivity]. cbn [rbind].
    unfold then_ at 1 2. destruct (for_each (means py b) rounds e) as [[o e1]|]; [|reflexivity].
    cbn [with_chain rbind rmap fst snd]. rewrite no_chain_cons. cbn [step].
    destruct (means py b2 e1) as [[o2 e2]|]; [|reflexivity].
    cbn [with_chain rbind rmap fst snd]. rewrite (IH l ss') by (assumption || lia).
    destruct (means py ss' e2) as [[o3 e3]|]; [|reflexivity]. cbn [rmap fst snd]. now rewrite app_assoc.
Qed.

Lemma steps_taken : forall l cs els sw e, assemble_switch l = Some (cs, els) ->
  no_chain (steps l (CIf true) sw e) = Ok ([], e).
Proof.
  induction l as [|p l IH]; intros cs els sw e A; [reflexivity|].
  destruct p as [s|b|cd b]; [discriminate| |].
  - destruct l; [|discriminate]. cbn. reflexivity.
  - rewrite no_chain_cons. cbn [step rbind fst snd]. rewrite app_nil_meant.
    cbn [assemble_switch] in A. destruct (assemble_switch l) as [[cs' els']|] eqn:E; [|discriminate].
    exact (IH _ _ sw e eq_refl).
Qed.
Lemma steps_switch : forall l cs els w sw e, assemble_switch l = Some (cs, els) ->
  no_chain (steps l (CIf false) (w :: sw) e) = first_case py w cs els e.
Proof.
  induction l as [|p l IH]; intros cs els w sw e A.
  { cbn in A. injection A as <- <-. reflexivity. }
  destruct p as [s|b|cd b]; [discriminate| |].
  - destruct l; [|discriminate]. cbn in A. injection A as <- <-. cbn [steps step first_case].
    destruct (means py b e) as [[o e1]|]; [|reflexivity]. cbn. now rewrite app_nil_r.
  - cbn [assemble_switch] in A. destruct (assemble_switch l) as [[cs' els']|] eqn:E; [|discriminate].
    cbn [option_map fst snd] in A. assert (cs = (cd, b) :: cs' /\ els = els') as [-> ->] by (split; congruence).
    rewrite no_chain_cons. cbn [step first_case]. destruct (ev py e cd) as [v|]; [|reflexivity]. cbn [rbind].
    destruct (veq py v w).
    + destruct (means py b e) as [[o e1]|]; [|reflexivity]. cbn [with_chain rbind rmap fst snd].
      rewrite (steps_taken l cs' els' _ e1 E). cbn. now rewrite app_nil_r.
    + cbn [rbind fst snd]. rewrite app_nil_meant. now apply IH.
Qed.
End Steps.
