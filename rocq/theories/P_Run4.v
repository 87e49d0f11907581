(** * Whole templates: pieces one after the other; blocks *)

From Coq Require Import Ascii String List NArith ZArith Bool Lia Arith.
From Verif Require Import PyStr PyStrLemmas M_Values M_IR S_IR M_Template M_Run S_Run P_Run1.
From Verif Require M_Exec S_Exec P_Exec.
Import ListNotations.
Open Scope list_scope.

Notation chain := M_Exec.chain.
Notation CNone := M_Exec.CNone.
Notation CIf := M_Exec.CIf.
Notation CFor := M_Exec.CFor.

Lemma pieces_eq : forall l,
  (fix go (l : list node) : option (list rpiece) :=
     match l with
     | [] => Some []
     | m :: l' => obind (piece_of m) (fun p => option_map (cons p) (go l'))
     end) l = pieces_of l.
Proof. induction l as [|m l IH]; [reflexivity|]. cbn [pieces_of]. now rewrite IH. Qed.

(** ** Generated code *)
Section Exec.
Variable py : python.
Variable load : bool -> str -> result (cls (fobj bcode) (str * bcode)).
Variable invoke : callable bcode -> list (str * bval) -> state -> result (list value * state).
Variable p : place.
Notation exec := (exec py load invoke p).
Notation execs := (execs py load invoke p).

Lemma exec_bl : forall h body c s,
  exec (Bl h body) c s =
  exec_block py p h body (fun s => rmap (fun r => (fst (fst r), snd r)) (execs body CNone s)) c s.
Proof. reflexivity. Qed.
Lemma execs_app : forall l1 l2 c s, execs (l1 ++ l2) c s =
  rbind (execs l1 c s) (fun r =>
  rmap (fun r' => (fst (fst r) ++ fst (fst r'), snd (fst r'), snd r')) (execs l2 (snd (fst r)) (snd r))).
Proof.
  induction l1 as [|b l1 IH]; intros l2 c s; cbn [app M_Run.execs rbind fst snd].
  - now destruct (execs l2 c s) as [[[? ?] ?]|].
  - destruct (exec b c s) as [[[o1 c1] s1]|]; [|reflexivity]. cbn [rbind fst snd]. rewrite IH.
    destruct (execs l1 c1 s1) as [[[o2 c2] s2]|]; [|reflexivity]. cbn [rbind rmap fst snd].
    destruct (execs l2 c2 s2) as [[[o3 c3] s3]|]; [|reflexivity]. cbn [rmap fst snd]. now rewrite app_assoc.
Qed.
Lemma single : forall b c s, execs [b] c s = exec b c s.
Proof.
  intros b c s. cbn [M_Run.execs]. destruct (exec b c s) as [[[o c1] s1]|]; [|reflexivity]. cbn. now rewrite app_nil_r.
Qed.

(** Same result up to joining. *)
Definition same3 (r r' : result (list value * chain * state)) : Prop :=
  match r, r' with
  | Ok (o, c, s), Ok (o', c', s') => same o o' /\ c = c' /\ s = s'
  | Raise x, Raise y => x = y
  | _, _ => False
  end.
Lemma same3_refl : forall r, same3 r r.
Proof. intros [[[? ?] ?]|]; cbn; [repeat split|reflexivity]; constructor. Qed.
Lemma same3_trans : forall a b c, same3 a b -> same3 b c -> same3 a c.
Proof.
  intros [[[? ?] ?]|] [[[? ?] ?]|] [[[? ?] ?]|]; cbn; try tauto; try congruence.
  intros (? & ? & ?) (? & ? & ?). split; [eapply sm_trans; eassumption|split; congruence].
Qed.
Lemma execs_cons_same : forall b l l' c s,
  (forall c s, same3 (execs l c s) (execs l' c s)) -> same3 (execs (b :: l) c s) (execs (b :: l') c s).
Proof.
  intros b l l' c s H. cbn [M_Run.execs]. destruct (exec b c s) as [[[o1 c1] s1]|]; [|reflexivity].
  cbn [rbind fst snd]. specialize (H c1 s1).
  destruct (execs l c1 s1) as [[[? ?] ?]|], (execs l' c1 s1) as [[[? ?] ?]|]; cbn in *; try tauto.
  destruct H as (? & ? & ?). split; [apply sm_app; [constructor|assumption]|now split].
Qed.
Lemma guarded_join : forall g t t' r c s,
  same3 (execs (Tx (t ++ t') g :: r) c s) (execs (Tx t g :: Tx t' g :: r) c s).
Proof.
  intros g t t' r c s. cbn [M_Run.execs M_Run.exec]. unfold guarded. destruct (truthy_guard g) as [x|]; cbn [rbind rmap fst snd].
  - destruct (condition py (s_world s) p x) as [b|] eqn:Eb; [|reflexivity]. destruct b; cbn [rmap rbind fst snd]; rewrite Eb; cbn [rmap rbind fst snd].
    + destruct (execs r (CIf true) s) as [[[o c1] s1]|]; [|reflexivity]. cbn. split; [|now split].
      change (same ([VStr (t ++ t')] ++ o) ([VStr t; VStr t'] ++ o)). apply sm_app; [apply sm_join|apply sm_refl].
    + destruct (execs r (CIf false) s) as [[[o c1] s1]|]; [|reflexivity]. cbn. repeat split. constructor.
  - destruct (execs r CNone s) as [[[o c1] s1]|]; [|reflexivity]. cbn. split; [|now split].
    change (same ([VStr (t ++ t')] ++ o) ([VStr t; VStr t'] ++ o)). apply sm_app; [apply sm_join|apply sm_refl].
Qed.
Lemma execs_join : forall l c s, same3 (execs (join_texts l) c s) (execs l c s).
Proof.
  induction l as [|b l IH]; intros c s; [apply same3_refl|].
  destruct b as [t g|q|h body|ls]; try (apply execs_cons_same; exact IH).
  cbn [join_texts]. destruct (join_texts l) as [|[t' g'|q|h body|ls] r] eqn:E;
    try (apply execs_cons_same; exact IH).
  destruct (oseqb g g') eqn:Eg; [|apply execs_cons_same; exact IH].
  apply P_Exec.oseqb_eq in Eg. subst g'.
  eapply same3_trans; [apply guarded_join|]. apply execs_cons_same. exact IH.
Qed.
End Exec.

(** ** Meanings *)
Section Steps.
Variable py : python.
Variable load : bool -> str -> result (cls (fobj dcode) (str * dcode)).
Variable invoke : callable dcode -> list (str * dval) -> dworld -> meant.
Variable p : place.
Notation meaning := (meaning py load invoke p).
Notation means := (means py load invoke p).
Notation for_each := (for_each p).

Lemma meaning_means : forall l w,
  (fix go (l : list rstm) (w : dworld) : meant :=
     match l with [] => Ok ([], w) | m :: l' => then_ (meaning m w) (go l') end) l w = means l w.
Proof.
  induction l as [|m l IH]; intros w; [reflexivity|]. cbn [S_Run.means]. unfold then_.
  destruct (meaning m w) as [[o w1]|]; [|reflexivity]. cbn [rbind snd]. now rewrite IH.
Qed.
Lemma for_each_ext : forall f g l w, (forall w, f w = g w) -> for_each f l w = for_each g l w.
Proof.
  induction l as [|r l IH]; intros w H; [reflexivity|]. cbn [S_Run.for_each]. rewrite H. unfold then_.
  destruct (g _); [|reflexivity]. cbn [rbind]. now rewrite IH.
Qed.
Lemma then_ext : forall a f g, (forall w, f w = g w) -> then_ a f = then_ a g.
Proof. intros a f g H. unfold then_. destruct a; [|reflexivity]. cbn [rbind]. now rewrite H. Qed.

Fixpoint first_case (x : value) (cases : list (str * list rstm)) (els : list rstm) (w : dworld) : meant :=
  match cases with
  | [] => means els w
  | (c, b) :: cases' =>
      rbind (evalue py w p c) (fun v => if veq py v x then means b w else first_case x cases' els w)
  end.
Lemma meaning_if : forall c b els w, meaning (RIf c b els) w =
  rbind (condition py w p c) (fun t : bool => if t then means b w else means els w).
Proof. intros. cbn [S_Run.meaning]. destruct (condition py w p c) as [[]|]; [| |reflexivity]; cbn [rbind]; apply meaning_means. Qed.
Lemma meaning_for : forall d b els w, meaning (RFor d b els) w =
  rbind (rounds py w p d) (fun l => then_ (for_each (means b) l w) (means els)).
Proof.
  intros. cbn [S_Run.meaning]. destruct (rounds py w p d) as [l|]; [|reflexivity]. cbn [rbind].
  rewrite (for_each_ext _ _ l w (meaning_means b)). apply then_ext. apply meaning_means.
Qed.
Lemma meaning_with : forall vars b w, meaning (RWith vars b) w =
  rbind (assigns py p vars w) (fun w1 =>
  rmap (fun ow => (fst ow, set_names (snd ow) p (old_values p (map fst vars) w))) (means b w1)).
Proof.
  intros. cbn [S_Run.meaning]. destruct (assigns py p vars w) as [w1|]; [|reflexivity]. cbn [rbind].
  now rewrite meaning_means.
Qed.
Lemma meaning_switch : forall d cases els w, meaning (RSwitch d cases els) w =
  rbind (evalue py w p d) (fun x => first_case x cases els w).
Proof.
  intros. cbn [S_Run.meaning]. destruct (evalue py w p d) as [x|]; [|reflexivity]. cbn [rbind].
  induction cases as [|[c b] cases IH]; [apply meaning_means|]. cbn [first_case].
  destruct (evalue py w p c) as [v|]; [|reflexivity]. cbn [rbind]. destruct (veq py v x); [apply meaning_means|exact IH].
Qed.

Definition with_chain (c : chain) (m : meant) : result (list value * chain * dworld) :=
  rmap (fun ow => (fst ow, c, snd ow)) m.
(** Under a condition, as an if; [c]: what an else finds if there is no condition. *)
Definition step_under (g : option str) (c : chain) (w : dworld) (m : meant) : result (list value * chain * dworld) :=
  match truthy_guard g with
  | None => with_chain c m
  | Some cd => rbind (condition py w p cd) (fun t : bool => if t then with_chain (CIf true) m else Ok ([], CIf false, w))
  end.
Definition step (pc : rpiece) (c : chain) (sw : list value) (w : dworld) : result (list value * chain * dworld) :=
  match pc with
  | RcStm (RIf cd b _) => rbind (condition py w p cd) (fun t : bool =>
      if t then with_chain (CIf true) (means b w) else Ok ([], CIf false, w))
  | RcStm (RFor d b _) => rbind (rounds py w p d) (fun l => with_chain CFor (for_each (means b) l w))
  | RcStm (RText t g) => step_under g CNone w (meaning (RText t None) w)
  | RcStm (RTrans t g) => step_under g CNone w (meaning (RTrans t None) w)
  | RcStm (RAttr a v g mode) => step_under g CFor w (meaning (RAttr a v None mode) w)
  | RcStm (RAttrs x g mode) => step_under g CFor w (meaning (RAttrs x None mode) w)
  | RcStm (RPython lines) => with_chain (if forallb ignored lines then c else CNone) (meaning (RPython lines) w)
  | RcStm s => with_chain CNone (meaning s w)
  | RcElse b =>
      match c with
      | M_Exec.CIf true => Ok ([], CNone, w)
      | M_Exec.CIf false | M_Exec.CFor => with_chain CNone (means b w)
      | M_Exec.CNone => Raise "SyntaxError"
      end
  | RcCase cd b =>
      match c with
      | M_Exec.CIf true => Ok ([], CIf true, w)
      | M_Exec.CIf false =>
          rbind (evalue py w p cd) (fun v =>
          match sw with
          | [] => Raise "IndexError"
          | x :: _ => if veq py v x then with_chain (CIf true) (means b w) else Ok ([], CIf false, w)
          end)
      | _ => Raise "SyntaxError"
      end
  end.
Fixpoint steps (l : list rpiece) (c : chain) (sw : list value) (w : dworld) : result (list value * chain * dworld) :=
  match l with
  | [] => Ok ([], c, w)
  | pc :: l' =>
      rbind (step pc c sw w) (fun r =>
      rmap (fun r' => (fst (fst r) ++ fst (fst r'), snd (fst r'), snd r')) (steps l' (snd (fst r)) sw (snd r)))
  end.
Definition no_chain (r : result (list value * chain * dworld)) : meant := rmap (fun r => (fst (fst r), snd r)) r.

(** A freshly structured directive has no else yet. *)
Definition fresh (pc : rpiece) : Prop :=
  match pc with RcStm (RIf _ _ els) | RcStm (RFor _ _ els) => els = [] | _ => True end.

Lemma no_chain_cons : forall pc l c sw w,
  no_chain (steps (pc :: l) c sw w) =
  rbind (step pc c sw w) (fun r =>
    rmap (fun ow => (fst (fst r) ++ fst ow, snd ow)) (no_chain (steps l (snd (fst r)) sw (snd r)))).
Proof.
  intros. cbn [steps]. destruct (step pc c sw w) as [[[o1 c1] w1]|]; [|reflexivity]. cbn [rbind fst snd].
  unfold no_chain. now destruct (steps l c1 sw w1) as [[[o2 c2] w2]|].
Qed.
Lemma app_nil_meant : forall m : meant, rmap (fun ow => ([] ++ fst ow, snd ow)) m = m.
Proof. now intros [[o w]|]. Qed.

(** What has a condition means the same as an if. *)
Lemma no_chain_under : forall g c w m, no_chain (step_under g c w m) = under py p g w m.
Proof.
  intros g c w m. unfold step_under, under. destruct (truthy_guard g) as [cd|].
  - destruct (condition py w p cd) as [[]|]; [| |reflexivity]; cbn [rbind]; [|reflexivity]. now destruct m as [[? ?]|].
  - now destruct m as [[? ?]|].
Qed.
Lemma no_chain_with : forall c m, no_chain (with_chain c m) = m.
Proof. now intros c [[? ?]|]. Qed.
Lemma step_meaning : forall s c sw w, fresh (RcStm s) -> no_chain (step (RcStm s) c sw w) = meaning s w.
Proof.
  intros s c sw w F. destruct s; cbn [step]; try apply no_chain_with; try (rewrite no_chain_under; reflexivity); cbn [fresh] in F; subst els.
  - rewrite meaning_if. destruct (condition py w p c0) as [[]|]; [| |reflexivity]; cbn [rbind]; [apply no_chain_with|reflexivity].
  - rewrite meaning_for. destruct (rounds py w p d) as [l|]; [|reflexivity]. cbn [rbind]. rewrite no_chain_with. unfold then_.
    destruct (for_each (means b) l w) as [[o w1]|]; [|reflexivity]. cbn [rbind rmap fst snd S_Run.means]. now rewrite app_nil_r.
Qed.
Lemma comment_means : forall s w, says_something s = false -> meaning s w = Ok ([], w).
Proof.
  intros s w H. destruct s; try discriminate. cbn [says_something] in H. cbn [S_Run.meaning]. unfold python_of.
  destruct (forallb ignored lines); [reflexivity|discriminate].
Qed.
Lemma comment_step : forall s c sw w, says_something s = false -> step (RcStm s) c sw w = Ok ([], c, w).
Proof.
  intros s c sw w H. pose proof (comment_means s w H) as M. destruct s; try discriminate. cbn [step]. rewrite M. cbn [says_something] in H.
  destruct (forallb ignored lines); [reflexivity|discriminate].
Qed.
Lemma then_nil : forall m : meant, then_ m (means []) = m.
Proof. intros [[o w]|]; [|reflexivity]. cbn. now rewrite app_nil_r. Qed.
Lemma then_assoc : forall (m : meant) f g, then_ (then_ m f) g = then_ m (fun w => then_ (f w) g).
Proof.
  intros [[o w]|] f g; [|reflexivity]. unfold then_. cbn [rbind fst snd]. destruct (f w) as [[o1 w1]|]; [|reflexivity]. cbn [rbind rmap fst snd].
  destruct (g w1) as [[o2 w2]|]; [|reflexivity]. cbn [rmap fst snd]. now rewrite app_assoc.
Qed.
Lemma means_app : forall a b w, means (a ++ b) w = then_ (means a w) (means b).
Proof.
  induction a as [|s a IH]; intros b w; cbn [app S_Run.means].
  - unfold then_. cbn [rbind fst snd]. symmetry. apply app_nil_meant.
  - rewrite then_assoc. apply then_ext. intros w1. apply IH.
Qed.
Lemma means_one : forall s w, means [s] w = meaning s w.
Proof. intros s w. exact (then_nil (meaning s w)). Qed.
(** The else that follows, if there is one, belongs to what is right before it. *)
Definition else_or_not (o : option (list rstm)) (ss : list rstm) (c : chain) (w : dworld) : meant :=
  match o, c with
  | None, _ | Some _, M_Exec.CIf true => means ss w
  | Some els, M_Exec.CIf false | Some els, M_Exec.CFor => then_ (means els w) (means ss)
  | Some _, M_Exec.CNone => Raise "SyntaxError"
  end.
Lemma then_no_chain : forall r (f : chain -> dworld -> meant) g, (forall c w, f c w = g w) ->
  rbind r (fun r => rmap (fun ow => (fst (fst r) ++ fst ow, snd ow)) (f (snd (fst r)) (snd r))) = then_ (no_chain r) g.
Proof. intros [[[o c] w]|] f g H; [|reflexivity]. unfold then_. cbn [rbind fst snd no_chain rmap]. now rewrite H. Qed.
Lemma steps_attach : forall l o ss c sw w, Forall fresh l -> attach l = Some (o, ss) ->
  no_chain (steps l c sw w) = else_or_not o ss c w.
Proof.
  induction l as [|pc l IH]; intros o ss c sw w F A; cbn [attach] in A.
  { assert (o = None /\ ss = []) as [-> ->] by (split; congruence). reflexivity. }
  apply Forall_cons_iff in F as [Fp Fl]. rewrite no_chain_cons.
  destruct pc as [s|b|cd b]; [| |discriminate].
  - destruct (attach l) as [[[els|] r]|] eqn:El; [| |discriminate].
    + assert (IHl : forall c w, no_chain (steps l c sw w) = else_or_not (Some els) r c w) by (intros; now apply IH).
      destruct (says_something s) eqn:Es.
      2:{ assert (o = Some els /\ ss = s :: r) as [-> ->] by (split; congruence). rewrite (comment_step s c sw w Es). cbn [rbind fst snd]. rewrite IHl, app_nil_meant.
          assert (M : forall w, means (s :: r) w = means r w).
          { intros w1. cbn [S_Run.means]. rewrite (comment_means s w1 Es). unfold then_. cbn [rbind fst snd]. apply app_nil_meant. }
          unfold else_or_not. destruct c as [|[]|]; [reflexivity|now rewrite M| |]; apply then_ext; intros w1; now rewrite M. }
      (* an if *)
      assert (U : forall g s0 k, step_under g k w (meaning s0 w) = step (RcStm s) c sw w ->
        ss = match truthy_guard g with Some cd => [RIf cd [s0] els] | None => s0 :: els end ++ r -> k = CFor \/ truthy_guard g <> None ->
        rbind (step (RcStm s) c sw w) (fun r0 => rmap (fun ow => (fst (fst r0) ++ fst ow, snd ow)) (no_chain (steps l (snd (fst r0)) sw (snd r0)))) = means ss w).
      { intros g s0 k E0 -> K. rewrite <- E0. rewrite means_app. unfold step_under. destruct (truthy_guard g) as [cd|].
        - rewrite means_one, meaning_if. destruct (condition py w p cd) as [[]|]; [| |reflexivity]; cbn [rbind].
          + rewrite means_one. unfold then_. destruct (meaning s0 w) as [[o1 w1]|]; [|reflexivity].
            cbn [with_chain rbind rmap fst snd]. now rewrite IHl.
          + cbn [fst snd]. rewrite IHl, app_nil_meant. reflexivity.
        - destruct K as [->|K]; [|congruence]. change (s0 :: els) with ([s0] ++ els). rewrite means_app, means_one, then_assoc.
          destruct (meaning s0 w) as [[o1 w1]|]; [|reflexivity]. unfold then_ at 1. cbn [with_chain rbind rmap fst snd]. now rewrite IHl. }
      destruct (with_else s els) as [s'|] eqn:Ew; [|discriminate]. cbn [option_map] in A. assert (o = None /\ ss = s' ++ r) as [-> ->] by (split; congruence).
      cbn [else_or_not].
      destruct s; cbn [with_else] in Ew; try discriminate.
      * destruct (truthy_guard g) as [cd|] eqn:Eg; [|discriminate]. apply (U g (RText t None) CNone); [reflexivity| |now right; rewrite Eg].
        rewrite Eg. cbn [option_map] in Ew. congruence.
      * destruct (truthy_guard g) as [cd|] eqn:Eg; [|discriminate]. apply (U g (RTrans t None) CNone); [reflexivity| |now right; rewrite Eg].
        rewrite Eg. cbn [option_map] in Ew. congruence.
      * assert (s' = [RIf c0 b els]) as -> by congruence. clear U. cbn [fresh] in Fp. cbn [app S_Run.means step]. rewrite meaning_if.
        destruct (condition py w p c0) as [[]|]; [| |reflexivity]; cbn [rbind].
        -- unfold then_. destruct (means b w) as [[o1 w1]|]; [|reflexivity]. cbn [with_chain rbind rmap fst snd]. now rewrite IHl.
        -- cbn [fst snd]. rewrite IHl, app_nil_meant. reflexivity.
      * assert (s' = [RFor d b els]) as -> by congruence. clear U. cbn [app S_Run.means step]. rewrite meaning_for.
        destruct (rounds py w p d) as [rs|]; [|reflexivity]. cbn [rbind]. rewrite then_assoc.
        destruct (for_each (means b) rs w) as [[o1 w1]|]; [|reflexivity]. unfold then_ at 1. cbn [with_chain rbind rmap fst snd]. now rewrite IHl.
      * apply (U g (RAttr a v None mode) CFor); [reflexivity| |now left]. now assert (s' = match truthy_guard g with Some c => [RIf c [RAttr a v None mode] els] | None => RAttr a v None mode :: els end) as -> by congruence.
      * apply (U g (RAttrs x None mode) CFor); [reflexivity| |now left]. now assert (s' = match truthy_guard g with Some c => [RIf c [RAttrs x None mode] els] | None => RAttrs x None mode :: els end) as -> by congruence.
    + assert (o = None /\ ss = s :: r) as [-> ->] by (split; congruence). cbn [else_or_not S_Run.means].
      rewrite (then_no_chain _ (fun c w => no_chain (steps l c sw w)) (means r)); [now rewrite step_meaning|].
      intros c1 w1. now rewrite (IH None r).
  - destruct (attach l) as [[[els|] r]|] eqn:El; [discriminate| |discriminate]. assert (o = Some b /\ ss = r) as [-> ->] by (split; congruence).
    assert (IHl : forall c w, no_chain (steps l c sw w) = means r w) by (intros; now rewrite (IH None r)).
    cbn [step else_or_not]. destruct c as [|[]|]; [reflexivity| | |].
    + cbn [rbind fst snd]. rewrite IHl. apply app_nil_meant.
    + rewrite (then_no_chain _ (fun c w => no_chain (steps l c sw w)) (means r)); [now rewrite no_chain_with|]. intros; apply IHl.
    + rewrite (then_no_chain _ (fun c w => no_chain (steps l c sw w)) (means r)); [now rewrite no_chain_with|]. intros; apply IHl.
Qed.
Lemma steps_assemble : forall l ss c sw w, Forall fresh l -> assemble l = Some ss -> no_chain (steps l c sw w) = means ss w.
Proof.
  intros l ss c sw w F A. unfold assemble in A. destruct (attach l) as [[[els|] r]|] eqn:E; [discriminate| |discriminate]. assert (r = ss) as -> by congruence.
  now rewrite (steps_attach l None ss c sw w F E).
Qed.

Lemma steps_taken : forall l cs els sw w, assemble_switch l = Some (cs, els) ->
  no_chain (steps l (CIf true) sw w) = Ok ([], w).
Proof.
  induction l as [|pc l IH]; intros cs els sw w A; [reflexivity|].
  destruct pc as [s|b|cd b]; [discriminate| |].
  - destruct l; [|discriminate]. cbn. reflexivity.
  - rewrite no_chain_cons. cbn [step rbind fst snd]. rewrite app_nil_meant.
    cbn [assemble_switch] in A. destruct (assemble_switch l) as [[cs' els']|] eqn:E; [|discriminate].
    exact (IH _ _ sw w eq_refl).
Qed.
Lemma steps_switch : forall l cs els x sw w, assemble_switch l = Some (cs, els) ->
  no_chain (steps l (CIf false) (x :: sw) w) = first_case x cs els w.
Proof.
  induction l as [|pc l IH]; intros cs els x sw w A.
  { cbn in A. injection A as <- <-. reflexivity. }
  destruct pc as [s|b|cd b]; [discriminate| |].
  - destruct l; [|discriminate]. cbn in A. injection A as <- <-. cbn [steps step first_case].
    destruct (means b w) as [[o w1]|]; [|reflexivity]. cbn. now rewrite app_nil_r.
  - cbn [assemble_switch] in A. destruct (assemble_switch l) as [[cs' els']|] eqn:E; [|discriminate].
    cbn [option_map fst snd] in A. assert (cs = (cd, b) :: cs' /\ els = els') as [-> ->] by (split; congruence).
    rewrite no_chain_cons. cbn [step first_case]. destruct (evalue py w p cd) as [v|]; [|reflexivity]. cbn [rbind].
    destruct (veq py v x).
    + destruct (means b w) as [[o w1]|]; [|reflexivity]. cbn [with_chain rbind rmap fst snd].
      rewrite (steps_taken l cs' els' _ w1 E). cbn. now rewrite app_nil_r.
    + cbn [rbind fst snd]. rewrite app_nil_meant. now apply IH.
Qed.

(** What a piece needs to be able to run: an else needs something to join. *)
Definition joins (pc : rpiece) (c' : chain) : Prop :=
  match pc with RcElse _ => c' <> CNone | RcCase _ _ => exists b, c' = CIf b | _ => True end.
Definition leaving (s : rstm) : M_Exec.before :=
  match s with
  | RIf _ _ _ => M_Exec.BIf
  | RFor _ _ _ => M_Exec.BFor
  | RText _ g | RTrans _ g => match truthy_guard g with Some _ => M_Exec.BIf | None => M_Exec.BNone end
  | RAttr _ _ g _ | RAttrs _ g _ => match truthy_guard g with Some _ => M_Exec.BIf | None => M_Exec.BFor end
  | _ => M_Exec.BNone
  end.
Definition exactly (b : M_Exec.before) (c : chain) : Prop :=
  match b with M_Exec.BNone => c = CNone | M_Exec.BIf => exists t, c = CIf t | M_Exec.BFor => c = CFor end.
Definition gives (k : chain -> Prop) (pc : rpiece) (c' : chain) : Prop :=
  match pc with
  | RcStm s => if says_something s then exactly (leaving s) c' else k c'
  | RcElse _ => c' = CNone
  | RcCase _ _ => exists b, c' = CIf b
  end.
Fixpoint fits (k : chain -> Prop) (ps : list rpiece) : Prop :=
  match ps with
  | [] => True
  | pc :: ps' => (forall c', k c' -> joins pc c') /\ fits (gives k pc) ps'
  end.
Lemma step_gives : forall (k : chain -> Prop) pc c' sw w o c2 w2, k c' -> joins pc c' -> step pc c' sw w = Ok (o, c2, w2) -> gives k pc c2.
Proof.
  intros k pc c' sw w o c2 w2 K J H.
  assert (W : forall c m, with_chain c m = Ok (o, c2, w2) -> c2 = c).
  { intros c [[? ?]|] E; [|discriminate]. cbn in E. congruence. }
  assert (U : forall g c m, step_under g c w m = Ok (o, c2, w2) -> match truthy_guard g with Some _ => exists t, c2 = CIf t | None => c2 = c end).
  { intros g c m E. unfold step_under in E. destruct (truthy_guard g) as [cd|]; [|now apply W in E].
    destruct (condition py w p cd) as [[]|]; [| |discriminate]; cbn [rbind] in E; [apply W in E; now exists true|exists false; congruence]. }
  destruct pc as [s|b|cd b].
  - cbn [gives]. destruct (says_something s) eqn:Es.
    2:{ rewrite (comment_step s c' sw w Es) in H. now assert (c2 = c') as -> by congruence. }
    destruct s as [ |t g|t g|x safe|cd b els|d b els|vars b|d cases els|a v g mode|x g mode|d b|d cl b|t a|t|t|ls]; cbn [step leaving exactly] in *; try (now apply W in H);
      try (apply U in H; now destruct (truthy_guard g)).
    + destruct (condition py w p cd) as [[]|]; [| |discriminate]; cbn [rbind] in H.
      * apply W in H. now exists true.
      * exists false. congruence.
    + destruct (rounds py w p d); [|discriminate]. now apply W in H.
    + cbn [says_something] in Es. destruct (forallb ignored ls); [discriminate|]. now apply W in H.
  - cbn [step gives] in *. destruct c' as [|[]|]; [discriminate| | |]; [congruence| |]; now apply W in H.
  - cbn [step gives] in *. destruct c' as [|[]|]; [discriminate| | |discriminate].
    + exists true. congruence.
    + destruct (evalue py w p cd); [|discriminate]. cbn [rbind] in H. destruct sw as [|x sw]; [discriminate|].
      destruct (veq py _ x); [apply W in H; now exists true|exists false; congruence].
Qed.
Lemma with_else_leaving : forall s els, with_else s els <> None <-> leaving s <> M_Exec.BNone.
Proof.
  intros s els. destruct s; cbn [with_else leaving]; try (split; congruence); destruct (truthy_guard g); cbn [option_map]; split; congruence.
Qed.
Lemma exactly_something : forall b c, b <> M_Exec.BNone -> exactly b c -> c <> CNone.
Proof. intros [] c N E; [congruence|destruct E as [t ->]; discriminate|cbn in E; subst c; discriminate]. Qed.
Lemma attach_fits : forall ps o ss (k : chain -> Prop), attach ps = Some (o, ss) -> (o <> None -> forall c, k c -> c <> CNone) -> fits k ps.
Proof.
  induction ps as [|pc ps IH]; intros o ss k A K; [exact Logic.I|]. cbn [attach] in A. cbn [fits].
  destruct pc as [s|b|cd b]; [| |discriminate].
  - split; [intros; exact Logic.I|]. destruct (attach ps) as [[[els|] r]|] eqn:El; [| |discriminate].
    + apply (IH _ _ _ eq_refl). intros _ c G. cbn [gives] in G. destruct (says_something s).
      * apply (exactly_something (leaving s)); [|exact G]. apply (with_else_leaving s els). intros E. rewrite E in A. discriminate.
      * apply K; [|exact G]. intros E. rewrite E in A. discriminate.
    + apply (IH _ _ _ eq_refl). congruence.
  - destruct (attach ps) as [[[els|] r]|] eqn:El; [discriminate| |discriminate]. split.
    + intros c' Kc. cbn [joins]. apply K; [|exact Kc]. intros E. rewrite E in A. discriminate.
    + apply (IH _ _ _ eq_refl). congruence.
Qed.
Lemma assemble_fits : forall ps ss k, assemble ps = Some ss -> fits k ps.
Proof.
  intros ps ss k A. unfold assemble in A. destruct (attach ps) as [[[els|] r]|] eqn:E; [discriminate| |discriminate]. apply (attach_fits ps None r k E). congruence.
Qed.
Lemma steps_filter : forall l c sw w, steps (filter piece_says l) c sw w = steps l c sw w.
Proof.
  induction l as [|pc l IH]; intros c sw w; [reflexivity|]. cbn [filter]. destruct (piece_says pc) eqn:E.
  - cbn [steps]. destruct (step pc c sw w) as [[[o c1] w1]|]; [|reflexivity]. cbn [rbind fst snd]. now rewrite IH.
  - destruct pc as [s| |]; try discriminate. cbn [steps]. rewrite (comment_step s c sw w E). cbn [rbind fst snd]. rewrite IH. now destruct (steps l c sw w) as [[[? ?] ?]|].
Qed.
Lemma switch_fits : forall ps ce, assemble_switch (filter piece_says ps) = Some ce -> fits (fun c => exists b, c = CIf b) ps.
Proof.
  assert (R : forall ps (k : chain -> Prop), filter piece_says ps = [] -> fits k ps).
  { induction ps as [|pc ps IH]; intros k E; [exact Logic.I|]. cbn [filter] in E. destruct (piece_says pc) eqn:Ep; [discriminate|].
    destruct pc as [s| |]; try discriminate. split; [intros; exact Logic.I|]. now apply IH. }
  induction ps as [|pc ps IH]; intros ce A; [exact Logic.I|]. cbn [filter] in A.
  destruct pc as [s|b|cd b]; cbn [piece_says] in A.
  - split; [intros; exact Logic.I|]. destruct (says_something s) eqn:Es; [discriminate|].
    assert (E : gives (fun c => exists b, c = CIf b) (RcStm s) = (fun c => exists b, c = CIf b)) by (unfold gives; now rewrite Es).
    rewrite E. exact (IH _ A).
  - split; [intros c' [t ->]; discriminate|]. apply R. destruct (filter piece_says ps); [reflexivity|discriminate].
  - cbn [assemble_switch] in A. destruct (assemble_switch (filter piece_says ps)) as [ce'|]; [|discriminate].
    split; [intros c' H; exact H|]. exact (IH _ eq_refl).
Qed.
End Steps.

Lemma piece_fresh : forall n pc, piece_of n = Some pc -> fresh pc.
Proof.
  intros n pc H.
  destruct n; cbn [piece_of] in H; try discriminate; try (injection H as <-; exact Logic.I);
    try (match type of H with (if ?x then _ else _) = _ => destruct x; try discriminate end); try (injection H as <-; exact Logic.I);
    match type of H with option_map _ ?x = _ => destruct x; [|discriminate] end;
    cbn [option_map] in H; injection H as <-; try exact Logic.I; reflexivity.
Qed.
Lemma pieces_fresh : forall l ps, pieces_of l = Some ps -> Forall fresh ps.
Proof.
  induction l as [|n l IH]; intros ps H; cbn [pieces_of] in H.
  - injection H as <-. constructor.
  - destruct (piece_of n) as [pc|] eqn:E; [|discriminate]. cbn [S_Exec.obind] in H.
    destruct (pieces_of l) as [ps'|]; [|discriminate]. cbn in H. injection H as <-.
    constructor; [now apply (piece_fresh n)|now apply IH].
Qed.

(** Something stands for something. *)
Lemma with_else_some : forall s els s', with_else s els = Some s' -> s' <> [].
Proof. intros s els s' H ->. destruct s; cbn [with_else] in H; try discriminate; destruct (truthy_guard g); discriminate. Qed.
Lemma attach_cons : forall pc ps r, attach (pc :: ps) = Some (None, r) -> r <> [].
Proof.
  intros pc ps r E. cbn [attach] in E. destruct pc as [s|b|cd b]; [| |discriminate].
  - destruct (attach ps) as [[[els|] r0]|]; [|assert (r = s :: r0) as -> by congruence; discriminate|discriminate].
    destruct (says_something s); [|discriminate]. destruct (with_else s els) as [s'|] eqn:Ew; [|discriminate]. cbn [option_map] in E.
    assert (r = s' ++ r0) as -> by congruence. intros N. apply app_eq_nil in N as [N _]. now apply with_else_some in Ew.
  - destruct (attach ps) as [[[els|] r0]|]; discriminate.
Qed.
Lemma assemble_cons : forall pc ps r, assemble (pc :: ps) = Some r -> r <> [].
Proof.
  intros pc ps r E. unfold assemble in E. destruct (attach (pc :: ps)) as [[[els|] r0]|] eqn:Ea; [discriminate| |discriminate].
  assert (r = r0) as -> by congruence. now apply attach_cons in Ea.
Qed.
Lemma structure_cons : forall n l ss, structure (n :: l) = Some ss -> ss <> [].
Proof.
  intros n l ss E. unfold structure in E. cbn [pieces_of] in E. destruct (piece_of n) as [p0|]; [|discriminate]. cbn [S_Exec.obind] in E.
  destruct (pieces_of l) as [ps|]; [|discriminate]. cbn [option_map S_Exec.obind] in E. now apply assemble_cons in E.
Qed.
