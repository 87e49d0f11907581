(** * Rendering depends on translations of the messages only *)

From Coq Require Import Ascii String List NArith ZArith Bool Lia Arith.
From Verif Require Import PyStr PyStrLemmas M_Values M_IR M_Exec S_IR M_I18n S_I18n P_IR P_IR3 P_I18n.
Import ListNotations.
Open Scope list_scope.

(** The messages of a program. *)
Fixpoint blk_calls (b : blk) : list str :=
  match b with
  | St (PGettext _ m) => [m]
  | Bl _ body => (fix go (l : list blk) : list str := match l with [] => [] | c :: l' => blk_calls c ++ go l' end) body
  | _ => []
  end.
Lemma go_blk : forall l, (fix go (l : list blk) : list str := match l with [] => [] | c :: l' => blk_calls c ++ go l' end) l = flat_map blk_calls l.
Proof. induction l as [|b l IH]; [reflexivity|]. cbn [flat_map]. now rewrite <- IH. Qed.
Lemma join_calls : forall l, flat_map blk_calls (join_texts l) = flat_map blk_calls l.
Proof.
  induction l as [|b l IH]; [reflexivity|]. destruct b as [t g|p|h body|ls]; cbn [join_texts flat_map]; try (now rewrite IH).
  cbn [blk_calls app]. destruct (join_texts l) as [|[t2 g2| | |] r]; try exact IH. destruct (oseqb g g2); exact IH.
Qed.
Lemma go_program : forall l, (fix go (l : list node) : list blk := match l with [] => [] | m :: l' => program m ++ go l' end) l = flat_map program l.
Proof. induction l as [|n l IH]; [reflexivity|]. cbn [flat_map]. now rewrite <- IH. Qed.
Lemma bodies_calls : forall l, Forall (fun n => flat_map blk_calls (program n) = map snd (node_messages n)) l ->
  flat_map blk_calls (join_texts (flat_map program l)) = map snd (flat_map node_messages l).
Proof.
  intros l F. rewrite join_calls. induction F as [|n l H F IH]; [reflexivity|]. cbn [flat_map]. rewrite flat_map_app, map_app, IH, H. reflexivity.
Qed.
Lemma program_calls : forall n, flat_map blk_calls (program n) = map snd (node_messages n).
Proof.
  induction n using node_ind'; cbn [program node_messages]; rewrite ?go_program, ?go_messages;
    try match goal with F : Forall _ _ |- _ => apply bodies_calls in F end;
    try (cbn [flat_map blk_calls app]; rewrite ?flat_map_app, ?go_blk; cbn [flat_map blk_calls app]; rewrite ?app_nil_r; (reflexivity || assumption)).
  - (* def *) destruct b as [|n0 b]; [destruct i; reflexivity|]. set (w := n0 :: b) in *. cbn [flat_map blk_calls app]. rewrite go_blk, H, app_nil_r. destruct i; reflexivity.
  - (* with *) cbn [flat_map blk_calls app]. rewrite !flat_map_app, H. cbn [flat_map blk_calls app]. rewrite app_nil_r.
    match goal with |- ?x ++ _ = _ => assert (E : x = []) end; [|now rewrite E]. clear. induction v as [|kv v IH]; [reflexivity|]. cbn [map flat_map blk_calls app]. exact IH.
  - (* trans *) unfold trans_stmt. destruct (strip t); reflexivity.
  - destruct s; reflexivity.
  - (* attr *) destruct v as [|v0 v].
    + destruct (truthy_guard g); reflexivity.
    + set (w := v0 :: v) in *. destruct (truthy_guard g); cbn [flat_map blk_calls app]; rewrite ?go_blk, H, !app_nil_r; reflexivity.
  - (* attrs *) destruct (truthy_guard g); reflexivity.
Qed.
Lemma programs_calls : forall l, flat_map blk_calls (programs l) = map snd (flat_map node_messages l).
Proof. intros l. apply bodies_calls. apply Forall_forall. intros n _. apply program_calls. Qed.

Section Same.
Variable py : python.
Variable f : str -> value.
Notation py' := (with_gettext py f).

(** States that differ in the texts of their attribute functions only. *)
Definition fun_same (a b : str * generator) : Prop := fst a = fst b /\ forall e w sw, snd a e w sw = snd b e w sw.
Definition st_same (s s' : st) : Prop :=
  s_env s = s_env s' /\ s_with s = s_with s' /\ s_switch s = s_switch s' /\ Forall2 fun_same (s_funs s) (s_funs s').
Definition res_same {A} (r r' : result (A * st)) : Prop :=
  match r, r' with
  | Ok (a, s), Ok (a', s') => a = a' /\ st_same s s'
  | Raise x, Raise y => x = y
  | _, _ => False
  end.
Lemma find_same : forall x l l', Forall2 fun_same l l' ->
  match find_fun x l, find_fun x l' with
  | Some g, Some g' => forall e w sw, g e w sw = g' e w sw
  | None, None => True
  | _, _ => False
  end.
Proof.
  intros x l l' F. induction F as [|[y g] [y' g'] l l' [E H] F IH]; [exact Logic.I|]. cbn [fst snd] in *. subst y'. cbn [find_fun].
  destruct (seqb x y); [exact H|exact IH].
Qed.
Lemma st_same_set : forall s s' e, st_same s s' -> st_same (set_env s e) (set_env s' e).
Proof. intros s s' e (A & B & C & D). unfold st_same, set_env; cbn [s_env s_with s_switch s_funs]. auto. Qed.
Lemma loop_same : forall b b', (forall s s', st_same s s' -> res_same (b s) (b' s')) ->
  forall rounds s s', st_same s s' -> res_same (loop b rounds s) (loop b' rounds s').
Proof.
  intros b b' H. induction rounds as [|r rounds IH]; intros s s' S; cbn [loop]; [now split|].
  pose proof S as (Ee & _). rewrite <- Ee.
  pose proof (H (set_env s (r ++ s_env s)) (set_env s' (r ++ s_env s)) (st_same_set _ _ _ S)) as HB.
  destruct (b _) as [[o s1]|x], (b' _) as [[o' s1']|y]; cbn [res_same rbind] in *; try contradiction; [|exact HB].
  destruct HB as [-> S1]. cbn [fst snd]. specialize (IH s1 s1' S1).
  destruct (loop b rounds s1) as [[o2 s2]|x], (loop b' rounds s1') as [[o2' s2']|y]; cbn [res_same rmap fst snd] in *; try contradiction; [|exact IH].
  destruct IH as [-> S2]. now split.
Qed.
Lemma guarded_same : forall g v s s', st_same s s' -> res_same (guarded py g v s) (guarded py' g v s').
Proof.
  intros [g|] v s s' S; unfold guarded; [|now split]. pose proof S as (Ee & _). rewrite <- Ee. cbn [ev_bool with_gettext].
  destruct (ev_bool py (s_env s) g); cbn [rmap res_same]; [now split|reflexivity].
Qed.
Lemma stmt_same : forall p s s', (forall g m, p = PGettext g m -> f m = trans py m) -> st_same s s' ->
  res_same (exec_stmt py p s) (exec_stmt py' p s').
Proof.
  intros p s s' H S. pose proof S as (Ee & Ew & Es & Ef).
  destruct p; cbn [exec_stmt]; try reflexivity; rewrite <- ?Ee, <- ?Ew, <- ?Es; cbn [ev with_gettext trans]; try (now split).
  - now apply guarded_same.
  - rewrite (H guard s0 eq_refl). now apply guarded_same.
  - destruct (ev py (s_env s) e); cbn [rmap res_same]; [now split|reflexivity].
  - destruct (ev py (s_env s) e); cbn [rmap res_same]; [now split|reflexivity].
  - pose proof (find_same name _ _ Ef) as F. destruct (find_fun name (s_funs s)) as [g|], (find_fun name (s_funs s')) as [g'|]; try contradiction; [|reflexivity].
    rewrite <- F. destruct (g _ _ _) as [[[items w] sw]|x]; cbn [rbind]; [|reflexivity].
    destruct (collect items); cbn [rmap res_same]; [|reflexivity]. split; [reflexivity|]. now repeat split.
  - destruct (ev py (s_env s) v); cbn [rbind rmap res_same]; [|reflexivity]. change (assign py' k a (s_env s)) with (assign py k a (s_env s)).
    destruct (assign py k a (s_env s)); cbn [rmap res_same]; [|reflexivity]. split; [reflexivity|]. now apply st_same_set.
  - destruct (s_with s) as [|sv w]; [reflexivity|]. destruct (set_vars _ _ _); cbn [rmap res_same]; [|reflexivity]. split; [reflexivity|]. now repeat split.
  - destruct (ev py (s_env s) e); cbn [rmap res_same]; [|reflexivity]. split; [reflexivity|]. repeat split; cbn [s_env s_with s_switch s_funs]; congruence || assumption.
  - destruct (s_switch s); [reflexivity|]. split; [reflexivity|]. now repeat split.
Qed.
Lemma block_same : forall h b b' c s s', (forall s s', st_same s s' -> res_same (b s) (b' s')) -> st_same s s' ->
  res_same (exec_block py h b c s) (exec_block py' h b' c s').
Proof.
  intros h b b' c s s' H S. pose proof S as (Ee & Ew & Es & Ef).
  assert (R : forall c0 : chain, res_same (rmap (fun os : list value * st => (fst os, c0, snd os)) (b s)) (rmap (fun os : list value * st => (fst os, c0, snd os)) (b' s'))).
  { intros c0. specialize (H s s' S). destruct (b s) as [[o s1]|x], (b' s') as [[o' s1']|y]; cbn [res_same rmap fst snd] in *; try contradiction; [|exact H].
    destruct H as [-> S1]. now split. }
  assert (Lp : forall rounds, res_same (rmap (fun os : list value * st => (fst os, CFor, snd os)) (loop b rounds s)) (rmap (fun os : list value * st => (fst os, CFor, snd os)) (loop b' rounds s'))).
  { intros rounds. pose proof (loop_same b b' H rounds s s' S) as HL. destruct (loop b rounds s) as [[o s1]|x], (loop b' rounds s') as [[o' s1']|y]; cbn [res_same rmap fst snd] in *; try contradiction; [|exact HL].
    destruct HL as [-> S1]. now split. }
  destruct h; cbn [exec_block]; try reflexivity; rewrite <- ?Ee, <- ?Ew, <- ?Es; cbn [ev ev_bool ev_for ev_attrs veq with_gettext].
  - (* def *) split; [reflexivity|]. repeat split; cbn [s_env s_with s_switch s_funs]; try assumption. constructor; [|assumption]. split; [reflexivity|]. cbn [snd].
    intros e w sw. assert (S0 : st_same (St_ e w sw []) (St_ e w sw [])) by (repeat split; constructor).
    specialize (H _ _ S0). destruct (b _) as [[o s1]|x], (b' _) as [[o' s1']|y]; cbn [res_same rmap fst snd] in *; try contradiction; [|congruence].
    destruct H as [-> (_ & A & B & _)]. now rewrite A, B.
  - destruct (lookup name (s_env s)); [|reflexivity]. destruct (render_attrs _ _); cbn [rbind]; [apply Lp|reflexivity].
  - destruct (ev_attrs py (s_env s) e); cbn [rbind]; [|reflexivity]. destruct (render_attrs _ _); cbn [rbind]; [apply Lp|reflexivity].
  - destruct (ev_for py (s_env s) decl); cbn [rbind]; [apply Lp|reflexivity].
  - destruct (ev_bool py (s_env s) e) as [[|]|]; cbn [rbind]; [apply R|now split|reflexivity].
  - destruct c as [|[|]|]; try reflexivity; [now split|]. destruct (ev py (s_env s) e); cbn [rbind]; [|reflexivity].
    destruct (s_switch s); [reflexivity|]. destruct (veq py a v); [apply R|now split].
  - destruct c as [|[|]|]; try reflexivity; [now split|apply R|apply R].
Qed.
Lemma exec_same : forall b, (forall m, In m (blk_calls b) -> f m = trans py m) ->
  forall c s s', st_same s s' -> res_same (exec py b c s) (exec py' b c s').
Proof.
  induction b as [t g|p|h body F|ls] using blk_ind'; intros Hm c s s' S; cbn [exec].
  - now apply guarded_same.
  - apply stmt_same; [|exact S]. intros g m ->. apply Hm. now left.
  - apply block_same; [|exact S]. clear s s' S c. intros s s' S. cbn [blk_calls] in Hm. rewrite go_blk in Hm.
    match goal with |- res_same (rmap _ (?g body CNone s)) (rmap _ (?g' body CNone s')) =>
      assert (X : forall l c s s', Forall (fun b => (forall m, In m (blk_calls b) -> f m = trans py m) -> forall c s s', st_same s s' -> res_same (exec py b c s) (exec py' b c s')) l ->
        (forall m, In m (flat_map blk_calls l) -> f m = trans py m) -> st_same s s' -> res_same (g l c s) (g' l c s')) end.
    { clear. induction l as [|b l IH]; intros c s s' F Hm S; [now split|]. inversion F as [|? ? Fb Fl]; subst.
      assert (HB : res_same (exec py b c s) (exec py' b c s')) by (apply Fb; [intros m I1; apply Hm; cbn [flat_map]; apply in_or_app; now left|exact S]).
      destruct (exec py b c s) as [[[o c1] s1]|x], (exec py' b c s') as [[[o' c1'] s1']|y]; cbn [res_same rbind fst snd] in *; try contradiction; [|exact HB].
      destruct HB as [E S1]. injection E as <- <-.
      assert (HL := IH c1 s1 s1' Fl (fun m I1 => Hm m (in_or_app (blk_calls b) _ m (or_intror I1))) S1).
      match goal with |- res_same (rmap _ ?x) (rmap _ ?y) => destruct x as [[[o2 c2] s2]|x1], y as [[[o2' c2'] s2']|y1] end; cbn [res_same rmap fst snd] in *; try contradiction; [|exact HL].
      destruct HL as [E S2]. injection E as <- <-. now split. }
    specialize (X body CNone s s' F Hm S).
    match goal with |- res_same (rmap _ ?x) (rmap _ ?y) => destruct x as [[[o2 c2] s2]|x1], y as [[[o2' c2'] s2']|y1] end; cbn [res_same rmap fst snd] in *; try contradiction; [|exact X].
    destruct X as [E S2]. injection E as <- <-. now split.
  - reflexivity.
Qed.
Lemma execs_same : forall l, (forall m, In m (flat_map blk_calls l) -> f m = trans py m) ->
  forall c s s', st_same s s' -> res_same (execs py l c s) (execs py' l c s').
Proof.
  induction l as [|b l IH]; intros Hm c s s' S; [now split|]. cbn [execs].
  assert (HB : res_same (exec py b c s) (exec py' b c s')) by (apply exec_same; [intros m I1; apply Hm; cbn [flat_map]; apply in_or_app; now left|exact S]).
  destruct (exec py b c s) as [[[o c1] s1]|x], (exec py' b c s') as [[[o' c1'] s1']|y]; cbn [res_same rbind fst snd] in *; try contradiction; [|exact HB].
  destruct HB as [E S1]. injection E as <- <-.
  assert (HL := IH (fun m I1 => Hm m (in_or_app (blk_calls b) _ m (or_intror I1))) c1 s1 s1' S1).
  destruct (execs py l c1 s1) as [[[o2 c2] s2]|x1], (execs py' l c1 s1') as [[[o2' c2'] s2']|y1]; cbn [res_same rmap fst snd] in *; try contradiction; [|exact HL].
  destruct HL as [E S2]. injection E as <- <-. now split.
Qed.
Theorem body_same : forall l e w sw, (forall m, In m (map snd (flat_map node_messages l)) -> f m = trans py m) ->
  exec_body py (programs l) e w sw = exec_body py' (programs l) e w sw.
Proof.
  intros l e w sw Hm. unfold exec_body. rewrite <- programs_calls in Hm.
  assert (S0 : st_same (St_ e w sw []) (St_ e w sw [])) by (repeat split; constructor).
  pose proof (execs_same _ Hm CNone _ _ S0) as H.
  destruct (execs py _ _ _) as [[[o c] s]|x], (execs py' _ _ _) as [[[o' c'] s']|y]; cbn [res_same rmap fst snd] in *; try contradiction; [|congruence].
  destruct H as [E (_ & A & B & _)]. injection E as <- <-. now rewrite A, B.
Qed.
End Same.
