(** * Proofs: iterations over one object that run at the same time (2) *)

From Coq Require Import Ascii String List Arith NArith ZArith Bool Lia.
From Verif Require Import PyStr PyStrLemmas M_Values P_Values M_IR S_IR P_IR P_IR3 M_Template P_Template P_Deep M_Run P_Run11 P_Run1 P_Shift P_Process P_Again2 P_I18nRun M_Conc S_Conc M_Same S_Same P_Steady P_Conc1 P_Conc2 P_Conc3 P_Conc4 P_Conc5.
From Verif Require M_Exec.
Import ListNotations.
Open Scope list_scope.

(** ** The functions of a steady template *)
Lemma steady_nodes : forall l, (fix go (l : list node) : Prop := match l with [] => True | m :: l' => steady m /\ go l' end) l <-> Forall steady l.
Proof. induction l as [|b l IH]; [split; [constructor|trivial]|]. rewrite Forall_cons_iff, IH. reflexivity. Qed.
Lemma steady_flat : forall l, Forall (fun n => steady n -> Forall steady_blk (program n)) l -> Forall steady l -> Forall steady_blk (flat_map program l).
Proof. intros l F G. induction F as [|n l H F IH]; [constructor|]. apply Forall_cons_iff in G as [G1 G2]. cbn [flat_map]. apply Forall_app. split; [now apply H|now apply IH]. Qed.
Lemma steady_bl : forall hd l, Forall steady_blk l -> steady_blk (Bl hd l).
Proof. intros hd l F. cbn [steady_blk]. now apply steady_body. Qed.
Lemma steady_program : forall n, steady n -> Forall steady_blk (program n).
Proof.
  induction n using node_ind'; cbn [steady program]; intros Q; rewrite ?steady_nodes in Q; rewrite ?go_flat; try contradiction.
  all: try (match goal with F : Forall _ ?b |- _ => pose proof (steady_join _ (steady_flat _ F Q)) as J end).
  all: try (now repeat (constructor; try exact Logic.I)).
  - constructor; [now destruct i|]. constructor; [|constructor]. apply steady_bl. destruct b; [constructor; [exact Logic.I|constructor]|exact J].
  - constructor; [exact Logic.I|]. constructor; [now apply steady_bl|]. constructor; [exact Logic.I|constructor].
  - constructor; [now apply steady_bl|constructor].
  - constructor; [now apply steady_bl|constructor].
  - constructor; [now apply steady_bl|constructor].
  - constructor; [now apply steady_bl|constructor].
  - constructor; [|constructor]. unfold trans_stmt. now destruct (strip t).
  - constructor; [now destruct s|constructor].
  - assert (AT : forall g, Forall steady_blk [Bl (PDefGen g) (match v with [] => [Tx [] None] | _ => join_texts (flat_map program v) end); St (PCollect g); Bl (PForAttr x a g m) [St (PYield x)]]).
    { intros g0. constructor; [|constructor; [exact Logic.I|constructor; [now split|constructor]]]. apply steady_bl. destruct v; [constructor; [exact Logic.I|constructor]|exact J]. }
    destruct (truthy_guard g); [|apply AT]. constructor; [|constructor]. apply steady_bl. apply AT.
  - destruct (truthy_guard g); constructor; try constructor; cbn; tauto.
Qed.
Lemma steady_functions : forall l fs, Forall steady_blk l -> class_functions l = Some fs -> Forall (fun kf => Forall steady_blk (snd (snd kf))) fs.
Proof.
  fix IH 1. intros l fs F E. destruct l as [|b l]; [injection E as <-; constructor|]. destruct b as [t g|q|hd bd|ls]; try discriminate. destruct q; try discriminate. destruct l as [|b l]; [discriminate|]. destruct b as [t g|q|hd bd|ls]; try discriminate. destruct hd; try discriminate.
  cbn [class_functions] in E. destruct (class_functions l) as [fs'|] eqn:C; [|discriminate]. injection E as <-. apply Forall_cons_iff in F as [_ F]. apply Forall_cons_iff in F as [B F]. constructor; [cbn [snd]; cbn [steady_blk] in B; now apply steady_body|]. exact (IH l fs' F C).
Qed.
Lemma set_forall : forall A (P : str * A -> Prop) k v l, P (k, v) -> Forall P l -> Forall P (set k v l).
Proof. intros A P k v l H F. induction F as [|[k' v'] l X F IH]; cbn [set]; [now repeat constructor|]. destruct (seqb k k') eqn:E; constructor; try assumption. Qed.
Lemma steady_class : forall f c, steady_file f -> class_of f = Ok c -> Forall (fun kf => Forall steady_blk (snd (snd kf))) (methods _ _ c).
Proof.
  intros [[t g] md] c Q. unfold class_of. destruct (M_Exec.parses _); [|discriminate]. unfold template_class. destruct (class_functions _) as [fs|] eqn:C; cbn [option_map]; [|discriminate].
  intros E. assert (c = from_ir _ _ (class_methods fs) (objects g) (objects md)) as -> by congruence. cbn [from_ir methods]. unfold class_methods. apply sort_forall.
  assert (F : Forall (fun kf => Forall steady_blk (snd (snd kf))) fs).
  { eapply steady_functions; [|exact C]. apply steady_join. apply steady_flat; [|exact Q]. apply Forall_forall. intros n _. apply steady_program. }
  revert F. generalize (@nil (str * (str * bcode))) (Forall_nil (fun kf : str * (str * bcode) => Forall steady_blk (snd (snd kf)))). clear. induction fs as [|[k v] fs IH]; intros d D F; [exact D|]. apply Forall_cons_iff in F as [F1 F2]. cbn [fold_left fst snd]. apply IH; [|exact F2]. now apply set_forall.
Qed.

(** ** Its objects *)
Definition dict_vok (d : list (str * bval)) : Prop := forall k g, get k d = Some g -> vok g.
Lemma vok_set : forall k g d, vok g -> dict_vok d -> dict_vok (set k g d).
Proof. intros k g d V D k' g' E. rewrite get_set in E. destruct (seqb k' k); [injection E as <-; exact V|now apply (D k')]. Qed.
Lemma vok_update : forall u d, Forall (fun kv => vok (snd kv)) u -> dict_vok d -> dict_vok (update _ _ d u).
Proof. intros u. unfold update. induction u as [|[k g] u IH]; intros d U D; [exact D|]. apply Forall_cons_iff in U as [U1 U2]. cbn [fold_left]. apply IH; [exact U2|]. now apply vok_set. Qed.
Lemma plain_vok : forall d : list (str * bval), Forall (fun kv => exists v, snd kv = val v) d -> Forall (fun kv => vok (snd kv)) d.
Proof. intros d F. eapply Forall_impl; [|exact F]. intros [k g] [v E]. cbn [snd] in *. subst. exact Logic.I. Qed.
Lemma new_vok : forall c ctx, Forall (fun kf => Forall steady_blk (snd (snd kf))) (methods _ _ c) -> closed bcode c -> Forall (fun kv : str * bval => exists v, snd kv = val v) ctx ->
  let h := fst (new _ _ [] c (Given _ _ ctx)) in
  (forall i k g, get k (globals _ _ h i) = Some g -> vok g) /\ (forall i k t, get k (attrs _ _ h i) = Some t -> fok t).
Proof.
  intros c ctx Hm Hc Hx. cbn [new fst app]. split; intros i k g E.
  - destruct i as [|i]; [|unfold globals in E; destruct i; discriminate]. cbn [globals nth_error i_globals context_of length] in E. revert k g E. change (dict_vok (init_globals _ _ 0 c ctx)). unfold init_globals.
    apply vok_set; [exact Logic.I|].
    assert (D : dict_vok (update _ _ (update _ _ (update _ _ (helpers (fobj bcode) (str * bcode) 0) (base_globals _ _ c)) (map (fun kf => (fst kf, GFun (fobj bcode) _ (snd kf))) (bound _ 0 (methods _ _ c)))) ctx)).
    { apply vok_update; [now apply plain_vok|]. apply vok_update.
      - apply Forall_map. unfold bound. apply Forall_map. eapply Forall_impl; [|exact Hm]. intros [k [d b]] H. exact H.
      - apply vok_update; [now apply plain_vok|]. unfold helpers. intros k g E. cbn [get] in E. repeat match type of E with (if ?b then _ else _) = _ => destruct b; [injection E as <-; exact Logic.I|] end. discriminate. }
    destruct (get (L "gettext") _) as [v|] eqn:G; [|exact D]. apply vok_set; [now apply (D _ _ G)|exact D].
  - destruct i as [|i]; [|unfold attrs in E; destruct i; discriminate]. cbn [attrs nth_error i_attrs length] in E. apply get_bound in E as ([d b] & I1 & ->). rewrite Forall_forall in Hm. exact (Hm _ I1).
Qed.

(** ** All schedules *)
Lemma begun_app : forall a b, begun (a ++ b) = begun a + begun b.
Proof. intros a b. unfold begun. now rewrite filter_app, app_length. Qed.
Lemma turns_of_app : forall k a b n, turns_of n k (a ++ b) = turns_of n k a + turns_of (n + begun a) k b.
Proof.
  intros k. induction a as [|[|j] a IH]; intros b n; cbn [app turns_of].
  - change (begun []) with 0. now rewrite Nat.add_0_r.
  - rewrite IH. change (begun (Start :: a)) with (S (begun a)). f_equal. f_equal. lia.
  - rewrite IH. change (begun (Next j :: a)) with (begun a). lia.
Qed.
Lemma turns_of_none : forall k l, begun l <= k -> turns_of 0 k l = 0.
Proof.
  intros k l. enough (H : forall n, n + begun l <= k -> turns_of n k l = 0) by (intros Hk; now apply H).
  induction l as [|[|j] l IH]; intros n Hk; cbn [turns_of]; [reflexivity| |].
  - apply IH. change (begun (Start :: l)) with (S (begun l)) in Hk. lia.
  - change (begun (Next j :: l)) with (begun l) in Hk. rewrite IH by exact Hk. destruct (Nat.ltb_spec k n); [lia|]. now rewrite andb_false_r.
Qed.

Section Same.
Variable py : python.
Variable files : bool -> str -> result file.
Notation load := (load_file files).
Variable depth : nat.
Variable f : file.
Variable context : list (str * value).
Variable c : cls (fobj bcode) (str * bcode).
Hypothesis Hc : class_of f = Ok c.
Hypothesis Hs : steady_file f.
Notation j := (depth, f, context).
Definition object := fst (new _ _ [] c (Given _ _ (objects context))).
Definition s1 : state := new_stacks empty_state (World object []) 0.
Definition m0 : maps := newborn none 0.
Notation ok := (sok object (s_with s1) (s_switch s1)).

Lemma object_ok : (forall i k g, get k (globals _ _ object i) = Some g -> vok g) /\ (forall i k t, get k (attrs _ _ object i) = Some t -> fok t).
Proof. apply new_vok; [exact (steady_class f c Hs Hc)|exact (closed_class f c Hc)|exact (closed_objects context)]. Qed.
Lemma s1_ok : ok s1.
Proof. split; [split; [reflexivity|constructor]|]. now split. Qed.
Lemma m0_rel : forall s, ok s -> rstate m0 s1 s.
Proof.
  intros s ((Eh & _) & Ew & Eq).
  destruct (good_new _ none [] [] c (Given _ _ (objects context)) (Given _ _ (objects context)) (proj1 (proj1 (rstate_none empty_state))) (class_plain _ _ Hc) (conj eq_refl (objects_plain context))) as [G _].
  split; [split|].
  - rewrite Eh. exact G.
  - split; [reflexivity|]. split; [constructor|]. intros i k E. now apply at_none in E.
  - intros i k Hij. rewrite Ew, Eq. unfold is_at, m0, newborn, none in Hij. destruct i as [|i]; cbn in Hij; [injection Hij as <-|destruct i; discriminate]. split; [constructor|reflexivity].
Qed.
Lemma start_again : forall s, ok s -> exists m, rthread m (fst (start py j)) (fst (again py depth 0 s)) /\ rstate m (snd (start py j)) (snd (again py depth 0 s)) /\ smoves m0 m s (snd (again py depth 0 s)) /\
  both object (s_with s1) (s_switch s1) (again py depth 0 s).
Proof.
  intros s H. pose proof (m0_rel s H) as R. unfold start. rewrite Hc. unfold begin. change (w_heap (s_world empty_state)) with (@nil (inst (fobj bcode) (str * bcode))). change (w_frames (s_world empty_state)) with (@nil (frame bcode)).
  assert (En : new _ _ [] c (Given _ _ (objects context)) = (object, 0)) by reflexivity. rewrite En. fold s1. unfold again.
  pose proof (call_main_rel py m0 s1 s 0 0 R eq_refl) as CR.
  assert (N : next m0 s (attempt (call_main py s1 0) s1 (fun o => match o with Some call => enter py depth [] [] call | None => (Failed "not modelled", s1) end))
                        (attempt (call_main py s 0) s (fun o => match o with Some call => enter py depth [] [] call | None => (Failed "not modelled", s) end))).
  { eapply attempt_rel; [exact R|exact CR|]. intros [q|] [q'|] Q; cbn [ropt] in Q; try contradiction; [apply enter_rel; [constructor|exact Q]|]. exists m0. split; [reflexivity|]. split; [exact R|apply smoves_refl]. }
  destruct N as (m & T & R' & M). exists m. split; [exact T|]. split; [exact R'|]. split; [exact M|].
  apply attempt_ok; [exact H|]. intros [q|] E; [|now split]. destruct object_ok as [Og Oa]. apply (enter_ok object py); [|constructor].
  unfold call_main in E. pose proof (proj1 (proj1 H)) as Eh. rewrite Eh in E. destruct (main_of py object 0) as [g|] eqn:Em; [|discriminate]. cbn [rbind] in E. destruct (bind_args py _ []) as [ps|] eqn:B; [|discriminate]. cbn [rmap] in E. assert (q = Pending g ps IShow s) as -> by congruence.
  split; [|split; [|split; [exact H|intros o; exact Logic.I]]]; cbn [c_fun c_params].
  - unfold main_of in Em. destruct (getattr _ _ object 0 (L "__main__")) as [t|] eqn:G; [|discriminate]. cbn [rbind] in Em. apply (callable_ok object py Oa t); [|exact Em]. unfold getattr in G. destruct (get (L "__main__") (attrs _ _ object 0)) as [t'|] eqn:G'; [|discriminate]. injection G as <-. now apply (Oa 0 (L "__main__")).
  - apply (bind_args_ok py _ [] ps (Forall_nil _) B).
Qed.

Definition frames_apart (m m' : maps) : Prop := forall x, In x (mf m) -> ~ In x (mf m').
Lemma others_stay : forall m s s0 ma mb sb, rstate m s s0 -> smoves ma mb s0 sb -> ok s0 -> ok sb -> frames_apart m ma -> rstate m s sb.
Proof.
  intros m s s0 ma mb sb [[G (L2 & N2 & H2)] SS] [(_ & _ & [K2 K2']) _] ((E0 & _) & W0 & Q0) ((Eb & _) & Wb & Qb) A.
  split; [split|].
  - now rewrite Eb, <- E0.
  - split; [exact L2|]. split; [exact N2|]. intros i k Hij. destruct (H2 i k Hij) as (x & y & X & Y & R). exists x, y. split; [exact X|]. split; [|exact R].
    rewrite K2'; [exact Y|apply nth_error_Some; congruence|]. apply A. exact (at_in _ _ _ Hij).
  - intros i k Hij. rewrite Wb, Qb, <- W0, <- Q0. now apply SS.
Qed.
Lemma stay_apart : forall m s s0 ma mb sb, rstate m s s0 -> smoves ma mb s0 sb -> frames_apart m ma -> frames_apart m mb.
Proof.
  intros m s s0 ma mb sb [[_ H2] _] [((a & b & _ & E2 & _ & _ & F2) & _) _] A x Hx. rewrite E2, in_app_iff. intros [Hy|Hy]; [now apply (A x)|]. rewrite Forall_forall in F2. specialize (F2 x Hy). pose proof (rframes_in _ _ _ _ _ H2 Hx). lia.
Qed.
Lemma apart_swap : forall m m', frames_apart m m' -> frames_apart m' m.
Proof. intros m m' A x Hx Hy. now apply (A x). Qed.

Definition along (l : list turn) (y : system) (ms : list maps) : Prop :=
  length ms = begun l /\ length (threads y) = begun l /\ ok (shared y) /\ Forall thok (threads y) /\
  (forall k m t, nth_error ms k = Some m -> nth_error (threads y) k = Some t ->
     rthread m (fst (solo py files j (turns_of 0 k l))) t /\ rstate m (snd (solo py files j (turns_of 0 k l))) (shared y)) /\
  (forall k k' m m', nth_error ms k = Some m -> nth_error ms k' = Some m' -> k <> k' -> frames_apart m m').
Lemma replace_forall : forall P l k t, Forall P l -> P t -> Forall P (replace_thread l k t).
Proof. intros P l k t F. revert k. induction F as [|x l Hx F IH]; intros [|k] Ht; cbn [replace_thread]; constructor; try assumption. now apply IH. Qed.
Lemma along_step : forall l y ms e, along l y ms -> exists ms', along (l ++ [e]) (take py files depth 0 y e) ms'.
Proof.
  intros l y ms e (LM & LT & OK & TH & C & A). destruct e as [|k].
  - destruct (start_again (shared y) OK) as (m & T & R & M & [B1 B2]). cbn [take]. destruct (again py depth 0 (shared y)) as [t s]. cbn [fst snd] in *.
    assert (J : begun (l ++ [Start]) = begun l + 1) by (rewrite begun_app; reflexivity).
    assert (TU : forall k, turns_of 0 k (l ++ [Start]) = turns_of 0 k l) by (intros k; rewrite turns_of_app; cbn [turns_of]; lia).
    assert (A0 : forall m1, frames_apart m1 m0) by (intros m1 x _ []).
    assert (AN : forall i mi0, nth_error ms i = Some mi0 -> frames_apart mi0 m).
    { intros i mi0 Ei. pose proof (nth_lt _ _ _ _ Ei) as Li. rewrite LM, <- LT in Li. destruct (nth_ex _ _ _ Li) as [t0 Et].
      destruct (C i mi0 t0 Ei Et) as [_ R0]. eapply stay_apart; [exact R0|exact M|apply A0]. }
    exists (ms ++ [m]). unfold along. rewrite J. cbn [threads shared]. rewrite !app_length. cbn [length]. split; [lia|]. split; [lia|]. split; [exact B2|]. split; [apply Forall_app; split; [exact TH|constructor; [exact B1|constructor]]|]. split.
    + intros k mm tt Em Et. rewrite TU. apply nth_snoc in Em as [[Lm Em]|[Lm ->]].
      * apply nth_snoc in Et as [[Lt Et]|[Lt _]]; [|lia]. destruct (C k mm tt Em Et) as [T0 R0]. split; [exact T0|]. eapply others_stay; [exact R0|exact M|exact OK|exact B2|apply A0].
      * apply nth_snoc in Et as [[Lt Et]|[Lt ->]]; [lia|]. rewrite turns_of_none by lia. exact (conj T R).
    + intros k k' ma mb E0 E1 Nk. apply nth_snoc in E0 as [[L0 E0]|[L0 ->]], E1 as [[L1 E1]|[L1 ->]].
      * now apply (A k k').
      * now apply (AN k).
      * apply apart_swap. now apply (AN k').
      * lia.
  - assert (J : begun (l ++ [Next k]) = begun l) by (rewrite begun_app; change (begun [Next k]) with 0; lia).
    assert (TU : forall i, turns_of 0 i (l ++ [Next k]) = turns_of 0 i l + (if Nat.eqb k i && Nat.ltb i (begun l) then 1 else 0)) by (intros i; rewrite turns_of_app; cbn [turns_of Nat.add]; lia).
    cbn [take happen]. destruct (nth_error (threads y) k) as [t|] eqn:Et.
    + pose proof (nth_lt _ _ _ _ Et) as Lk. rewrite LT, <- LM in Lk. destruct (nth_ex _ _ _ Lk) as [m Em]. rewrite LM in Lk.
      destruct (C k m t Em Et) as [T R]. destruct (step_rel py load (load_plain files) m _ _ _ _ R T) as (m' & T' & R' & M').
      assert (Tt : thok t) by (rewrite Forall_forall in TH; apply TH; exact (nth_error_In _ _ Et)). destruct object_ok as [Og Oa].
      pose proof (step_ok object py Og Oa load (s_with s1) (s_switch s1) t (shared y) Tt OK) as [B1 B2].
      destruct (step py load t (shared y)) as [t2 s2] eqn:Es. cbn [fst snd] in *.
      assert (AN : forall i mi0, i <> k -> nth_error ms i = Some mi0 -> frames_apart mi0 m').
      { intros i mi0 Ni Ei. pose proof (nth_lt _ _ _ _ Ei) as Li. rewrite LM, <- LT in Li. destruct (nth_ex _ _ _ Li) as [t0 Et0].
        destruct (C i mi0 t0 Ei Et0) as [_ R0]. eapply stay_apart; [exact R0|exact M'|]. now apply (A i k). }
      exists (setm ms k m'). unfold along. rewrite J, setm_length. cbn [threads shared]. rewrite replace_length. split; [exact LM|]. split; [exact LT|]. split; [exact B2|]. split; [now apply replace_forall|]. split.
      * intros i mm tt Em0 Et0. rewrite TU. rewrite nth_setm in Em0. rewrite nth_replace in Et0. destruct (Nat.eqb_spec k i) as [<-|Ni].
        -- rewrite Em in Em0. rewrite Et in Et0. assert (mm = m') as -> by congruence. assert (tt = t2) as -> by congruence.
           destruct (Nat.ltb_spec k (begun l)) as [_|]; [|lia]. cbn [andb]. unfold solo. rewrite iter_last. split; [exact T'|exact R'].
        -- cbn [andb]. rewrite Nat.add_0_r. destruct (C i mm tt Em0 Et0) as [T0 R0]. split; [exact T0|]. eapply others_stay; [exact R0|exact M'|exact OK|exact B2|]. apply (A i k); auto.
      * intros i i' ma mb E0 E1 Ni. rewrite nth_setm in E0, E1. destruct (Nat.eqb_spec k i) as [<-|N0], (Nat.eqb_spec k i') as [<-|N1].
        -- congruence.
        -- rewrite Em in E0. assert (ma = m') as -> by congruence. apply apart_swap. now apply (AN i'); auto.
        -- rewrite Em in E1. assert (mb = m') as -> by congruence. now apply (AN i); auto.
        -- now apply (A i i').
    + exists ms. unfold along. rewrite J. split; [exact LM|]. split; [exact LT|]. split; [exact OK|]. split; [exact TH|]. split; [|exact A]. intros i m t Em Et0. rewrite TU.
      destruct (Nat.eqb_spec k i) as [->|Ni]; [congruence|]. cbn [andb]. rewrite Nat.add_0_r. now apply (C i).
Qed.
Lemma all_along : forall l, exists ms, along l (fold_left (take py files depth 0) l (System [] s1)) ms.
Proof.
  intros l. induction l as [|e l IH] using rev_ind.
  - exists []. split; [reflexivity|]. split; [reflexivity|]. split; [apply s1_ok|]. split; [constructor|]. split; [intros [|k] m t E; discriminate E|intros [|k] k' m m' E; discriminate E].
  - destruct IH as [ms H]. destruct (along_step l _ ms e H) as [ms' H']. exists ms'. rewrite fold_left_app. exact H'.
Qed.
End Same.

Lemma iterations_thread : forall py files depth f context l y, steady_file f -> run_iterations py files depth f context l = Ok y ->
  length (threads y) = begun l /\
  forall k t, nth_error (threads y) k = Some t -> exists m, rthread m (fst (solo py files (depth, f, context) (turns_of 0 k l))) t.
Proof.
  intros py files depth f context l y Q E. unfold run_iterations in E. destruct (class_of f) as [c|] eqn:Ec; [|discriminate]. cbn [rmap] in E.
  assert (y = fold_left (take py files depth 0) l (System [] (s1 context c))) as -> by (cbn [new] in E; injection E as <-; reflexivity).
  destruct (all_along py files depth f context c Ec Q l) as (ms & LM & LT & _ & _ & C & _). split; [exact LT|].
  intros k t Et. pose proof (nth_lt _ _ _ _ Et) as Lk. rewrite LT, <- LM in Lk. destruct (nth_ex _ _ _ Lk) as [m Em]. exists m. now apply (C k m t).
Qed.
