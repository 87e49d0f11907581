(** * Renderings at the same time: a step of a rendering, up to renaming *)

From Coq Require Import Ascii String List NArith ZArith Bool Lia Arith.
From Verif Require Import PyStr PyStrLemmas M_Values M_IR S_IR M_Template M_Run M_Conc S_Template P_Template.
From Verif Require Import P_Run1.
From Verif Require Import P_Conc1 P_Conc2.
From Verif Require M_Exec.
Import ListNotations.
Open Scope list_scope.

Section Steps.
Variable py : python.
Variable load : bool -> str -> result (cls (fobj bcode) (str * bcode)).
Hypothesis Hload : plain_load bcode load.
Notation rgv := (rgv bcode).
Notation rworld := (rworld bcode).
Notation moves := (moves bcode).

Definition rstate (m : maps) (s s' : state) : Prop :=
  rworld m (s_world s) (s_world s') /\
  forall i j, is_at (mi m) i j -> Forall2 (Forall2 (rgv m)) (s_with s i) (s_with s' j) /\ s_switch s' j = s_switch s i.
Definition smoves (m m' : maps) (s s' : state) : Prop :=
  moves m m' (s_world s) (s_world s') /\
  forall j, j < length (w_heap (s_world s)) -> ~ In j (mi m) -> s_with s' j = s_with s j /\ s_switch s' j = s_switch s j.
Lemma smoves_refl : forall m s, smoves m m s s.
Proof. intros. split; [apply moves_refl|]. now split. Qed.
Lemma smoves_trans : forall m1 m2 m3 a b c, smoves m1 m2 a b -> smoves m2 m3 b c -> smoves m1 m3 a c.
Proof.
  intros m1 m2 m3 a b c [M1 S1] [M2 S2]. split; [eapply moves_trans; eassumption|]. intros j Hj Nj. destruct (S1 j Hj Nj) as [E1 E2].
  destruct M1 as ((t & u & T & _ & _ & F & _) & [K _] & _). rewrite <- E1, <- E2. apply S2; [lia|]. rewrite T, in_app_iff. intros [H|H]; [contradiction|].
  rewrite Forall_forall in F. specialize (F j H). lia.
Qed.
Lemma smoves_ext : forall m m' s s', smoves m m' s s' -> ext m m'.
Proof. intros m m' s s' [M _]. eapply moves_ext, M. Qed.
Lemma set_world_rel : forall m m' s s' w w', rstate m s s' -> rworld m' w w' -> moves m m' (s_world s') w' -> mi m' = mi m ->
  rstate m' (set_world s w) (set_world s' w') /\ smoves m m' s' (set_world s' w').
Proof.
  intros m m' s s' w w' [W S] W' M E. split; [|split; [exact M|now split]]. split; [exact W'|]. intros i j Hij. rewrite E in Hij. destruct (S i j Hij) as [S1 S2].
  split; [|exact S2]. cbn [set_world s_with]. eapply F2_impl; [|exact S1]. intros a b. apply F2_impl. intros x y. apply rgv_ext. eapply moves_ext, M.
Qed.
Lemma upd_rel : forall T m i j (f f' : nat -> T) (R : T -> T -> Prop) x x', NoDup (mi m) -> is_at (mi m) i j ->
  (forall a b, is_at (mi m) a b -> R (f a) (f' b)) -> R x x' -> forall a b, is_at (mi m) a b -> R (upd f i x a) (upd f' j x' b).
Proof.
  intros T m i j f f' R x x' N Hij H X a b Hab. unfold upd. destruct (Nat.eqb_spec a i) as [->|Na].
  - assert (b = j) by (unfold is_at in *; congruence). subst b. now rewrite Nat.eqb_refl.
  - destruct (Nat.eqb_spec b j) as [->|Nb]; [exfalso; apply Na; now apply (at_inj (mi m) a i j)|]. now apply H.
Qed.
Lemma rstate_nodup : forall m s s', rstate m s s' -> NoDup (mi m).
Proof. intros m s s' [((( _ & N & _) & _) & _) _]. exact N. Qed.
Lemma with_with_rel : forall m s s' i j x x', rstate m s s' -> is_at (mi m) i j -> Forall2 (Forall2 (rgv m)) x x' ->
  rstate m (with_with s i x) (with_with s' j x') /\ smoves m m s' (with_with s' j x').
Proof.
  intros m s s' i j x x' R Hij X. pose proof R as [W S]. split; [split; [exact W|]|split; [apply moves_refl|]].
  - intros a b Hab. cbn [with_with s_with s_switch]. split; [|now apply S]. revert a b Hab. apply upd_rel; try assumption; [eapply rstate_nodup, R|]. intros a b Hab. now apply S.
  - intros k Hk Nk. cbn [with_with s_with s_switch]. unfold upd. destruct (Nat.eqb_spec k j) as [->|]; [|now split]. exfalso. apply Nk. exact (at_in _ _ _ Hij).
Qed.
Lemma with_switch_rel : forall m s s' i j x, rstate m s s' -> is_at (mi m) i j ->
  rstate m (with_switch s i x) (with_switch s' j x) /\ smoves m m s' (with_switch s' j x).
Proof.
  intros m s s' i j x R Hij. pose proof R as [W S]. split; [split; [exact W|]|split; [apply moves_refl|]].
  - intros a b Hab. cbn [with_switch s_with s_switch]. split; [now apply S|]. revert a b Hab. apply (upd_rel _ m i j _ _ (fun a b => b = a)); try assumption; [eapply rstate_nodup, R| |reflexivity]. intros a b Hab. now apply S.
  - intros k Hk Nk. cbn [with_switch s_with s_switch]. unfold upd. destruct (Nat.eqb_spec k j) as [->|]; [|now split]. exfalso. apply Nk. exact (at_in _ _ _ Hij).
Qed.
Lemma new_stacks_rel : forall m s s' w w' i j m', rstate m s s' -> rworld m' w w' -> moves m m' (s_world s') w' ->
  i = length (w_heap (s_world s)) -> j = length (w_heap (s_world s')) -> mi m' = mi m ++ [j] ->
  rstate m' (new_stacks s w i) (new_stacks s' w' j) /\ smoves m m' s' (new_stacks s' w' j).
Proof.
  intros m s s' w w' i j m' R W' M Ei Ej E. pose proof R as [W S]. split; [split; [exact W'|]|split; [exact M|]].
  - assert (Li : length (mi m) = i) by (rewrite Ei; eapply len_heap, (proj1 W)).
    intros a b Hab. rewrite E in Hab. apply at_snoc in Hab as [Hab|[-> ->]]; cbn [new_stacks s_with s_switch]; unfold upd.
    + pose proof (at_lt _ _ _ Hab) as La. assert (Lb : b < length (w_heap (s_world s'))) by (eapply rheap_in; [apply (proj1 W)|exact (at_in _ _ _ Hab)]).
      destruct (Nat.eqb_spec a i); [lia|]. destruct (Nat.eqb_spec b j); [lia|]. destruct (S a b Hab) as [S1 S2]. split; [|exact S2].
      eapply F2_impl; [|exact S1]. intros x y. apply F2_impl. intros z1 z2. apply rgv_ext. eapply moves_ext, M.
    + rewrite Li, !Nat.eqb_refl. split; [constructor|reflexivity].
  - intros k Hk Nk. cbn [new_stacks s_with s_switch]. unfold upd. destruct (Nat.eqb_spec k j); [lia|now split].
Qed.

(** ** Statements *)
Definition after_simple (m : maps) (s' : state) (a b : list value * M_Exec.chain * state) : Prop :=
  fst b = fst a /\ exists m', rstate m' (snd a) (snd b) /\ smoves m m' s' (snd b).
Lemma same_after : forall m s s' o c, rstate m s s' -> after_simple m s' (o, c, s) (o, c, s').
Proof. intros m s s' o c H. split; [reflexivity|]. exists m. split; [exact H|apply smoves_refl]. Qed.
Lemma world_after : forall m s s' w w' o c, rstate m s s' -> rworld m w w' -> moves m m (s_world s') w' ->
  after_simple m s' (o, c, set_world s w) (o, c, set_world s' w').
Proof. intros m s s' w w' o c H W M. split; [reflexivity|]. exists m. cbn [snd]. now apply set_world_rel. Qed.
Lemma guarded_rel : forall m s s' p p' g v, rstate m s s' -> rplace m p p' ->
  rres (after_simple m s') (guarded py p g v s) (guarded py p' g v s').
Proof.
  intros m s s' p p' [g|] v H P; cbn [guarded].
  - rewrite (condition_rel _ py m _ _ p p' g (proj1 H) P). destruct (condition py (s_world s) p g) as [[|]|e]; cbn [rbind]; [|cbn; now apply same_after|reflexivity].
    destruct v; cbn; [now apply same_after|reflexivity].
  - destruct v; cbn; [now apply same_after|reflexivity].
Qed.
Lemma show_value_rel : forall m s s' p p' e, rstate m s s' -> rplace m p p' ->
  rres (fun a b => fst b = fst a /\ snd a = s /\ snd b = s') (show_value py s_world no_invoke p e s) (show_value py s_world no_invoke p' e s').
Proof.
  intros m s s' p p' e H P. pose proof (proj1 H) as W.
  assert (V : rres (fun a b => fst b = fst a /\ snd a = s /\ snd b = s') (rmap (fun v => (v, s)) (evalue py (s_world s) p e)) (rmap (fun v => (v, s')) (evalue py (s_world s') p' e))).
  { rewrite (evalue_rel _ py m _ _ p p' e W P). destruct (evalue py (s_world s) p e); cbn; [repeat split|reflexivity]. }
  unfold show_value. destruct (parse py e) as [x|o k|xs f|c args]; try exact V.
  pose proof (find_callee_rel _ py m _ _ p p' c W P) as E.
  destruct (find_callee py (s_world s) p c) as [fo|], (find_callee py (s_world s') p' c) as [fo'|]; cbn [rres] in E; try contradiction; [|exact E]. cbn [rbind].
  destruct fo as [f| | |], fo' as [f'| | |]; cbn in E; try contradiction; try exact V.
  eapply rres_bind; [now apply (eval_args_rel _ py m)|]. intros a a' R. unfold call_function.
  destruct f as [[[d b] i] ss], f' as [[[d' b'] i'] ss']. destruct E as (-> & _). cbn [fst].
  eapply rres_bind; [apply (bind_args_rel _ py m); exact R|]. intros l l' _. reflexivity.
Qed.
Lemma locals_rel : forall m w w' p p' ns, rworld m w w' -> rplace m p p' ->
  Forall2 (rgv m) (map (fun k => match local_value w p k with Some v => v | None => val M_Exec.unit_value end) ns)
                  (map (fun k => match local_value w' p' k with Some v => v | None => val M_Exec.unit_value end) ns).
Proof.
  intros m w w' p p' ns W P. induction ns as [|k ns IH]; cbn [map]; constructor; [|exact IH]. pose proof (local_value_rel _ m w w' p p' k W P) as E.
  destruct (local_value w p k), (local_value w' p' k); try contradiction; [exact E|constructor].
Qed.
Lemma combine_alist : forall m xs vs vs', Forall2 (rgv m) vs vs' -> ralist (rgv m) (combine xs vs) (combine xs vs').
Proof. intros m xs vs vs' F. revert xs. induction F as [|v v' vs vs' V F IH]; intros [|x xs]; cbn; constructor; [now split|apply IH]. Qed.
Lemma exec_stmt_rel : forall m s s' p p' q, rstate m s s' -> rplace m p p' ->
  rres (after_simple m s') (exec_stmt py load no_invoke p q s) (exec_stmt py load no_invoke p' q s').
Proof.
  intros m s s' p p' q H P. pose proof H as [W SS].
  assert (I : forall r, rres (is_at (mi m)) (instance py (s_world s) p r) (instance py (s_world s') p' r)) by (intros r; now apply (instance_rel _ py m)).
  destruct q; cbn [exec_stmt]; cbv zeta; try reflexivity.
  - now apply guarded_rel.
  - rewrite (translate_rel _ py m _ _ p p' _ W P). now apply guarded_rel.
  - eapply rres_map; [now apply (show_value_rel m)|]. intros [v a] [v' b] (E1 & E2 & E3). cbn [fst snd] in *. subst. now apply same_after.
  - eapply rres_bind; [apply I|]. intros _ _ _.
    eapply rres_map; [now apply (show_value_rel m)|]. intros [v a] [v' b] (E1 & E2 & E3). cbn [fst snd] in *. subst. now apply same_after.
  - cbn. now apply same_after.
  - eapply rres_bind; [apply I|]. intros _ _ _. eapply rres_bind; [now apply (lookup_rel _ py m)|]. intros g g' G. destruct G; reflexivity.
  - eapply rres_bind; [now apply (lookup_rel _ py m)|]. intros g g' G. destruct G; try reflexivity. cbn. now apply same_after.
  - eapply rres_map; [apply I|]. intros i j Hij. destruct (SS i j Hij) as [S1 _]. split; [reflexivity|]. exists m. cbn [snd]. apply with_with_rel; [exact H|exact Hij|].
    constructor; [now apply locals_rel|exact S1].
  - destruct (M_Exec.targets _) as [|x [|]]; try reflexivity. destruct (M_Exec.is_name x); [|reflexivity].
    eapply rres_map; [now apply (eval_rel _ py m)|]. intros g g' G. destruct (set_name_rel _ m _ _ p p' x g g' W P G) as [R M]. now apply world_after.
  - eapply rres_bind; [apply I|]. intros i j Hij. destruct (SS i j Hij) as [S1 _]. destruct S1 as [|sv sv' rest rest' F1 F2]; [reflexivity|].
    destruct (negb _); [reflexivity|]. rewrite (F2_length _ _ _ _ _ F1). destruct (Nat.eqb _ _); [|reflexivity]. cbn [rres].
    split; [reflexivity|]. exists m. cbn [snd].
    match goal with |- context [combine ?xs sv] => destruct (set_names_rel _ m p p' _ _ P (combine_alist m xs _ _ F1) _ _ W) as [R M] end.
    destruct (set_world_rel m m s s' _ _ H R M eq_refl) as [R1 M1]. destruct (with_with_rel m _ _ i j rest rest' R1 Hij F2) as [R2 M2].
    split; [exact R2|]. eapply smoves_trans; eassumption.
  - eapply rres_bind; [apply I|]. intros i j Hij. destruct (SS i j Hij) as [_ S2]. rewrite (evalue_rel _ py m _ _ p p' _ W P), S2.
    destruct (evalue py (s_world s) p _); cbn; [|reflexivity]. split; [reflexivity|]. exists m. cbn [snd]. now apply with_switch_rel.
  - cbn. now apply same_after.
  - eapply rres_bind; [apply I|]. intros i j Hij. destruct (SS i j Hij) as [_ S2]. rewrite S2. destruct (s_switch s i) as [|x rest]; [reflexivity|].
    split; [reflexivity|]. exists m. cbn [snd]. now apply with_switch_rel.
  - eapply rres_map; [now apply (import_rel _ py load Hload m)|]. intros [w r] [w' r'] (m' & R1 & M1 & E1 & E2 & Q1 & Q2 & Q3 & Q4 & Q5). cbn [fst snd] in *.
    split; [reflexivity|]. exists m'. cbn [snd]. now apply (new_stacks_rel m).
  - eapply rres_bind; [first [now apply (import_rel _ py load Hload m)|now apply (extend_rel _ py load Hload m)]|]. intros [w r] [w' r'] (m' & R1 & M1 & E1 & E2 & Q1 & Q2 & Q3 & Q4 & Q5). cbn [fst snd s_world new_stacks] in *.
    eapply rres_bind; [apply (main_of_rel _ py m'); [apply R1|exact Q1]|]. intros [[[d b] i] ss] [[[d' b'] i'] ss'] (-> & _). unfold call_function. cbn [fst].
    destruct (bind_args py d []); reflexivity.
  - eapply rres_bind; [first [now apply (import_rel _ py load Hload m)|now apply (extend_rel _ py load Hload m)]|]. intros [w r] [w' r'] (m' & R1 & M1 & E1 & E2 & Q1 & Q2 & Q3 & Q4 & Q5). cbn [fst snd s_world new_stacks] in *.
    eapply rres_bind; [apply (main_of_rel _ py m'); [apply R1|exact Q1]|]. intros [[[d b] i] ss] [[[d' b'] i'] ss'] (-> & _). unfold call_function. cbn [fst].
    destruct (bind_args py d []); reflexivity.
Qed.
Definition simple_blk (b : blk) : Prop := match b with Bl _ _ => False | _ => True end.
Lemma exec_rel : forall m s s' p p' b c, rstate m s s' -> rplace m p p' -> simple_blk b ->
  rres (after_simple m s') (exec py load no_invoke p b c s) (exec py load no_invoke p' b c s').
Proof.
  intros m s s' p p' b c H P Sb. destruct b as [t g|q|h body|lines]; cbn [exec]; [now apply guarded_rel|now apply exec_stmt_rel|destruct Sb|].
  eapply rres_map; [apply (run_block_rel _ py m p p' P _ _ _ (proj1 H))|]. intros [o w] [o' w'] (-> & R & M). cbn [fst snd] in *. now apply world_after.
Qed.

(** ** Calls *)
Definition ritem (m : maps) (a b : item) : Prop :=
  match a, b with
  | IBlock p l c, IBlock p' l' c' => rplace m p p' /\ l' = l /\ c' = c
  | ILoop p l rs, ILoop p' l' rs' => rplace m p p' /\ l' = l /\ rs' = rs /\ plain_rounds bcode rs
  | IShow o, IShow o' => o' = o
  | ICollect o p n, ICollect o' p' n' => o' = o /\ rplace m p p' /\ n' = n
  | _, _ => False
  end.
Lemma ritem_ext : forall m m' a b, ext m m' -> ritem m a b -> ritem m' a b.
Proof.
  intros m m' a b X. destruct a, b; cbn; try tauto.
  - intros (H1 & H2 & H3). split; [now apply (rplace_ext m)|now split].
  - intros (H1 & H2 & H3). split; [now apply (rplace_ext m)|now split].
  - intros (H1 & H2 & H3). split; [exact H1|]. split; [now apply (rplace_ext m)|exact H3].
Qed.
Definition rpending (m : maps) (s' : state) (q q' : pending) : Prop :=
  exists m', rstate m' (c_state q) (c_state q') /\ smoves m m' s' (c_state q') /\ rcallable bcode m' (c_fun q) (c_fun q') /\
    ralist (rgv m') (c_params q) (c_params q') /\ forall o, ritem m' (c_end q o) (c_end q' o).
Lemma call_named_rel : forall m s s' p p' x, rstate m s s' -> rplace m p p' ->
  rres (ropt (rpending m s')) (call_named py p x s) (call_named py p' x s').
Proof.
  intros m s s' p p' x H P. pose proof (proj1 H) as W. unfold call_named. destruct (parse py x) as [y|o k|xs f|c args]; try exact Logic.I.
  eapply rres_bind; [now apply (find_callee_rel _ py m)|]. intros fo fo' E. destruct fo as [f| | |], fo' as [f'| | |]; cbn in E; try contradiction; try exact Logic.I.
  eapply rres_bind; [now apply (eval_args_rel _ py m)|]. intros a a' R.
  assert (D : fst (fst (fst f')) = fst (fst (fst f))) by (destruct f as [[[d b] i] ss], f' as [[[d' b'] i'] ss']; apply E). rewrite D.
  eapply rres_map; [apply (bind_args_rel _ py m); exact R|]. intros l l' RL. cbn [ropt]. exists m. cbn [c_state c_fun c_params c_end].
  split; [exact H|]. split; [apply smoves_refl|]. split; [exact E|]. split; [exact RL|reflexivity].
Qed.
Lemma call_main_rel : forall m s s' i j, rstate m s s' -> is_at (mi m) i j -> rres (ropt (rpending m s')) (call_main py s i) (call_main py s' j).
Proof.
  intros m s s' i j H Hij. unfold call_main. eapply rres_bind; [apply (main_of_rel _ py m); [apply (proj1 H)|exact Hij]|]. intros f f' E.
  assert (D : fst (fst (fst f')) = fst (fst (fst f))) by (destruct f as [[[d b] z] ss], f' as [[[d' b'] z'] ss']; apply E). rewrite D.
  eapply rres_map; [apply (bind_args_rel _ py m _ [] []); constructor|]. intros l l' RL. cbn [ropt]. exists m. cbn [c_state c_fun c_params c_end].
  split; [exact H|]. split; [apply smoves_refl|]. split; [exact E|]. split; [exact RL|reflexivity].
Qed.
Lemma rpending_back : forall m m1 s' s1 q q', smoves m m1 s' s1 -> ropt (rpending m1 s1) q q' -> ropt (rpending m s') q q'.
Proof.
  intros m m1 s' s1 [q|] [q'|] M; cbn; try tauto. intros (m' & R & M2 & X). exists m'. split; [exact R|]. split; [eapply smoves_trans; eassumption|exact X].
Qed.
Lemma call_of_rel : forall m s s' p p' q, rstate m s s' -> rplace m p p' -> rres (ropt (rpending m s')) (call_of py load p q s) (call_of py load p' q s').
Proof.
  intros m s s' p p' q H P. pose proof H as [W SS].
  assert (I : forall r, rres (is_at (mi m)) (instance py (s_world s) p r) (instance py (s_world s') p' r)) by (intros r; now apply (instance_rel _ py m)).
  destruct q; cbn [call_of]; cbv zeta; try exact Logic.I.
  - now apply call_named_rel.
  - eapply rres_bind; [apply I|]. intros _ _ _. now apply call_named_rel.
  - eapply rres_bind; [apply I|]. intros _ _ _. eapply rres_bind; [now apply (lookup_rel _ py m)|]. intros g g' G. destruct G as [v|d b i ss i' ss' Hi Hs| | | | | | | |]; try reflexivity.
    cbn [rres ropt]. exists m. cbn [c_state c_fun c_params c_end]. split; [exact H|]. split; [apply smoves_refl|].
    split; [exact (conj eq_refl (conj eq_refl (conj Hi Hs)))|]. split; [constructor|]. intros o. exact (conj eq_refl (conj P eq_refl)).
  - eapply rres_bind; [first [now apply (import_rel _ py load Hload m)|now apply (extend_rel _ py load Hload m)]|]. intros [w r] [w' r'] (m' & R1 & M1 & E1 & E2 & Q1 & Q2 & Q3 & Q4 & Q5). cbn [fst snd] in *.
    destruct (new_stacks_rel m s s' w w' r r' m' H R1 M1 E1 E2 Q4) as [R2 M2]. pose proof (call_main_rel m' _ _ r r' R2 Q1) as C.
    destruct (call_main py (new_stacks s w r) r), (call_main py (new_stacks s' w' r') r'); cbn [rres] in *; try contradiction; [|exact C]. eapply rpending_back; eassumption.
  - eapply rres_bind; [first [now apply (import_rel _ py load Hload m)|now apply (extend_rel _ py load Hload m)]|]. intros [w r] [w' r'] (m' & R1 & M1 & E1 & E2 & Q1 & Q2 & Q3 & Q4 & Q5). cbn [fst snd] in *.
    destruct (new_stacks_rel m s s' w w' r r' m' H R1 M1 E1 E2 Q4) as [R2 M2]. pose proof (call_main_rel m' _ _ r r' R2 Q1) as C.
    destruct (call_main py (new_stacks s w r) r), (call_main py (new_stacks s' w' r') r'); cbn [rres] in *; try contradiction; [|exact C]. eapply rpending_back; eassumption.
Qed.

(** ** Blocks *)
Definition rdecision (m : maps) (s s' : state) (d d' : decision) : Prop :=
  match d, d' with
  | Skip c t, Skip c' t' => c' = c /\ rstate m t t' /\ smoves m m s' t'
  | Enter c, Enter c' => c' = c
  | Repeat rs, Repeat rs' => rs' = rs /\ plain_rounds bcode rs
  | _, _ => False
  end.
Lemma write_plain : forall x (l : list str), plain_rounds bcode (map (fun t => [(x, val (VStr t))]) l).
Proof. intros x l. unfold plain_rounds. induction l as [|t l IH]; constructor; [|exact IH]. intros m. repeat constructor. Qed.
Lemma decide_rel : forall m s s' p p' h code c, rstate m s s' -> rplace m p p' -> rres (rdecision m s s') (decide py p h code c s) (decide py p' h code c s').
Proof.
  intros m s s' p p' h code c H P. pose proof H as [W SS].
  assert (I : forall r, rres (is_at (mi m)) (instance py (s_world s) p r) (instance py (s_world s') p' r)) by (intros r; now apply (instance_rel _ py m)).
  assert (K : forall c, rdecision m s s' (Skip c s) (Skip c s')) by (intros; split; [reflexivity|]; split; [exact H|apply smoves_refl]).
  assert (D : forall x d, rdecision m s s' (Skip M_Exec.CNone (set_world s (set_name (s_world s) p x (GObj _ _ (RC d code (p_inst p) (p_scopes p))))))
                                           (Skip M_Exec.CNone (set_world s' (set_name (s_world s') p' x (GObj _ _ (RC d code (p_inst p') (p_scopes p'))))))).
  { intros x d. split; [reflexivity|]. destruct P as [P1 P2].
    destruct (set_name_rel _ m _ _ p p' x (GObj _ _ (RC d code (p_inst p) (p_scopes p))) (GObj _ _ (RC d code (p_inst p') (p_scopes p'))) W (conj P1 P2)) as [R M]; [now constructor|].
    now apply set_world_rel. }
  destruct h; cbn [decide]; cbv zeta; try reflexivity.
  - apply D.
  - eapply rres_bind; [apply I|]. intros _ _ _. eapply rres_bind; [now apply (lookup_rel _ py m)|]. intros g g' G. rewrite (as_value_rel _ _ _ _ G).
    destruct (render_attrs _ _); cbn; [|reflexivity]. split; [reflexivity|apply write_plain].
  - eapply rres_bind; [apply I|]. intros _ _ _. rewrite (attributes_rel _ py m _ _ p p' _ W P). destruct (attributes py (s_world s) p _); cbn [rbind]; [|reflexivity].
    destruct (render_attrs _ _); cbn; [|reflexivity]. split; [reflexivity|apply write_plain].
  - rewrite (rounds_rel _ py m _ _ p p' _ W P). destruct (rounds py (s_world s) p _) as [rs|] eqn:E; cbn; [|reflexivity]. split; [reflexivity|]. eapply rounds_plain, E.
  - rewrite (condition_rel _ py m _ _ p p' _ W P). destruct (condition py (s_world s) p _) as [[|]|]; cbn; try reflexivity. apply K.
  - destruct c as [|[|]|]; try reflexivity; [apply K|]. eapply rres_bind; [apply I|]. intros i j Hij. rewrite (evalue_rel _ py m _ _ p p' _ W P). destruct (SS i j Hij) as [_ S2]. rewrite S2.
    destruct (evalue py (s_world s) p _); cbn [rbind]; [|reflexivity]. destruct (s_switch s i); [reflexivity|]. cbn [rres]. destruct (veq py _ _); [reflexivity|apply K].
  - destruct c as [|[|]|]; try reflexivity. apply K.
  - apply D.
Qed.

(** ** Steps *)
Definition rthread (m : maps) (t t' : thread) : Prop :=
  match t, t' with
  | Running d o l, Running d' o' l' => d' = d /\ o' = o /\ Forall2 (ritem m) l l'
  | Done o, Done o' => o' = o
  | Failed e, Failed e' => e' = e
  | _, _ => False
  end.
Lemma ritems_ext : forall m m' l l', ext m m' -> Forall2 (ritem m) l l' -> Forall2 (ritem m') l l'.
Proof. intros m m' l l' X. apply F2_impl. intros a b. now apply ritem_ext. Qed.
Definition next (m : maps) (s' : state) (a b : thread * state) : Prop :=
  exists m', rthread m' (fst a) (fst b) /\ rstate m' (snd a) (snd b) /\ smoves m m' s' (snd b).
Lemma attempt_rel : forall X Y (R : X -> Y -> Prop) m s s' r r' k k', rstate m s s' -> rres R r r' ->
  (forall x y, R x y -> next m s' (k x) (k' y)) -> next m s' (attempt r s k) (attempt r' s' k').
Proof.
  intros X Y R m s s' [x|e] [y|e'] k k' H RR K; cbn [rres] in RR; try contradiction; cbn [attempt]; [now apply K|].
  exists m. cbn [fst snd]. split; [now symmetry|]. split; [exact H|apply smoves_refl].
Qed.
Lemma enter_rel : forall m s' d o l l' q q', Forall2 (ritem m) l l' -> rpending m s' q q' -> next m s' (enter py d o l q) (enter py d o l' q').
Proof.
  intros m s' d o l l' q q' F (m1 & R & M & C & PR & EN). unfold enter. pose proof (smoves_ext _ _ _ _ M) as X. destruct d as [|d].
  - exists m1. split; [reflexivity|]. split; [exact R|exact M].
  - destruct (c_fun q) as [[[dc b] i] ss], (c_fun q') as [[[dc' b'] i'] ss']. destruct C as (-> & -> & C1 & C2).
    set (fr := Frame (map fst (c_params q) ++ all_names py b) (c_params q)). set (fr' := Frame (map fst (c_params q') ++ all_names py b) (c_params q')).
    assert (RF : rframe bcode m1 fr fr') by (split; [cbn [fr_names fr fr']; now rewrite (ralist_keys _ _ _ PR)|exact PR]). clearbody fr fr'.
    destruct (push_frame_rel _ m1 _ _ fr fr' (proj1 R) RF) as (R2 & M2 & A2). cbv zeta in *.
    set (m2 := framed m1 _) in *. destruct (set_world_rel m1 m2 _ _ _ _ R R2 M2 eq_refl) as [R3 M3]. pose proof (moves_ext _ _ _ _ _ M2) as X2.
    exists m2. cbn [fst snd]. split; [|split; [exact R3|eapply smoves_trans; eassumption]]. cbn [rthread]. split; [reflexivity|]. split; [reflexivity|].
    constructor; [|constructor].
    + split; [|now split]. split; [now apply (ext_mi m1)|]. cbn [p_scopes]. constructor; [exact A2|]. eapply F2_impl; [|exact C2]. intros a c. now apply (ext_mf m1).
    + apply (ritem_ext m1); [exact X2|apply EN].
    + apply (ritems_ext m); [eapply ext_trans; eassumption|exact F].
Qed.
Lemma step_rel : forall m s s' t t', rstate m s s' -> rthread m t t' -> next m s' (step py load t s) (step py load t' s').
Proof.
  intros m s s' t t' H T. destruct t as [d o l|o|e], t' as [d' o' l'|o'|e']; cbn [rthread] in T; try contradiction.
  2,3: cbn [step]; exists m; cbn [fst snd]; split; [exact T|split; [exact H|apply smoves_refl]].
  destruct T as (-> & -> & F). cbn [step].
  destruct F as [|a a' l l' Ra F]; [exists m; cbn [fst snd]; split; [reflexivity|split; [exact H|apply smoves_refl]]|].
  destruct a as [p bl c|p bl rs|b|b p n], a' as [p' bl' c'|p' bl' rs'|b'|b' p' n']; cbn [ritem] in Ra; try contradiction.
  - destruct Ra as (P & -> & ->).
    destruct bl as [|b bl]; [exists m; cbn [fst snd]; split; [exact (conj eq_refl (conj eq_refl F))|split; [exact H|apply smoves_refl]]|].
    set (simple := attempt (exec py load no_invoke p b c s) s _). set (simple' := attempt (exec py load no_invoke p' b c s') s' _).
    assert (SI : simple_blk b -> next m s' simple simple').
    { intros Sb. unfold simple, simple'. eapply attempt_rel; [exact H|apply (exec_rel m); assumption|]. intros [[o1 c1] s1] [[o2 c2] s2] (E & m1 & R & M). cbn [fst snd] in *.
      assert (o2 = o1) by congruence. assert (c2 = c1) by congruence. subst. exists m1. cbn [fst snd]. split; [|split; [exact R|exact M]].
      pose proof (smoves_ext _ _ _ _ M) as X. split; [reflexivity|]. split; [reflexivity|]. constructor; [|now apply (ritems_ext m)]. split; [now apply (rplace_ext m)|now split]. }
    clearbody simple simple'.
    destruct b as [tx g|q|h body|lines]; try (now apply SI).
    + eapply attempt_rel; [exact H|apply (call_of_rel m); assumption|]. intros [q1|] [q2|] Q; cbn [ropt] in Q; try contradiction; [|now apply SI].
      apply enter_rel; [|exact Q]. constructor; [|exact F]. split; [exact P|now split].
    + eapply attempt_rel; [exact H|apply (decide_rel m); assumption|]. intros [c1 s1|c1|rs1] [c2 s2|c2|rs2] D; cbn [rdecision] in D; try contradiction.
      * destruct D as (-> & R & M). exists m. cbn [fst snd]. split; [|now split]. split; [reflexivity|]. split; [reflexivity|]. constructor; [|exact F]. split; [exact P|now split].
      * subst. exists m. cbn [fst snd]. split; [|split; [exact H|apply smoves_refl]]. split; [reflexivity|]. split; [reflexivity|].
        constructor; [split; [exact P|now split]|]. constructor; [split; [exact P|now split]|exact F].
      * destruct D as [-> PL]. exists m. cbn [fst snd]. split; [|split; [exact H|apply smoves_refl]]. split; [reflexivity|]. split; [reflexivity|].
        constructor; [split; [exact P|now split]|]. constructor; [split; [exact P|now split]|exact F].
  - destruct Ra as (P & -> & -> & PL).
    destruct rs as [|r rs]; [exists m; cbn [fst snd]; split; [exact (conj eq_refl (conj eq_refl F))|split; [exact H|apply smoves_refl]]|].
    apply Forall_cons_iff in PL as [PR PL]. destruct (set_names_rel _ m p p' r r P (PR m) _ _ (proj1 H)) as [R M]. destruct (set_world_rel m m s s' _ _ H R M eq_refl) as [R1 M1].
    exists m. cbn [fst snd]. split; [|now split]. split; [reflexivity|]. split; [reflexivity|]. constructor; [split; [exact P|now split]|].
    constructor; [|exact F]. split; [exact P|now split].
  - subst. exists m. cbn [fst snd]. split; [exact (conj eq_refl (conj eq_refl F))|split; [exact H|apply smoves_refl]].
  - destruct Ra as (-> & P & ->). eapply (attempt_rel _ _ eq); [exact H|apply rres_refl; reflexivity|]. intros v v' <-.
    destruct (set_name_rel _ m _ _ p p' n (val v) (val v) (proj1 H) P (rg_val _ _ _)) as [R M]. destruct (set_world_rel m m s s' _ _ H R M eq_refl) as [R1 M1].
    exists m. cbn [fst snd]. split; [exact (conj eq_refl (conj eq_refl F))|now split].
Qed.

(** ** The beginning *)
Lemma begin_rel : forall m s s' d c ctx, rstate m s s' -> plain bcode (base_globals _ _ c) -> plain bcode ctx -> next m s' (begin py d c ctx s) (begin py d c ctx s').
Proof.
  intros m s s' d c ctx H C X. unfold begin. pose proof H as [[G F] SS].
  destruct (good_new _ m _ _ c (Given _ _ ctx) (Given _ _ ctx) G C (conj eq_refl X)) as [G1 K1].
  assert (E : snd (new _ _ (w_heap (s_world s)) c (Given _ _ ctx)) = length (w_heap (s_world s))) by reflexivity.
  assert (E' : snd (new _ _ (w_heap (s_world s')) c (Given _ _ ctx)) = length (w_heap (s_world s'))) by reflexivity.
  destruct (new _ _ (w_heap (s_world s)) c (Given _ _ ctx)) as [h i], (new _ _ (w_heap (s_world s')) c (Given _ _ ctx)) as [h' i']. cbn [fst snd] in *.
  destruct (rother_intro _ m (newborn m (length (w_heap (s_world s')))) _ _ h h' (conj G F) G1 K1 eq_refl eq_refl (fun x Hx => Hx)) as (m' & R1 & M1 & E1 & E2 & Q1 & Q2 & Q3 & Q4 & Q5).
  cbn [fst snd] in *. rewrite <- E in *. rewrite <- E' in *.
  destruct (new_stacks_rel m s s' _ _ i i' m' H R1 M1 E E' Q4) as [R2 M2].
  set (s1 := new_stacks s _ i) in *. set (s1' := new_stacks s' _ i') in *.
  assert (N : next m' s1' (attempt (call_main py s1 i) s1 (fun o => match o with Some call => enter py d [] [] call | None => (Failed "not modelled", s1) end))
                          (attempt (call_main py s1' i') s1' (fun o => match o with Some call => enter py d [] [] call | None => (Failed "not modelled", s1') end))).
  { eapply attempt_rel; [exact R2|apply (call_main_rel m'); assumption|]. intros [q|] [q'|] Q; cbn [ropt] in Q; try contradiction; [apply enter_rel; [constructor|exact Q]|].
    exists m'. cbn [fst snd]. split; [reflexivity|]. split; [exact R2|apply smoves_refl]. }
  destruct N as (m2 & N1 & N2 & N3). exists m2. split; [exact N1|]. split; [exact N2|]. eapply smoves_trans; eassumption.
Qed.
End Steps.
