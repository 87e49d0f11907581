(** * Execution refines meaning: each kind of node *)

From Coq Require Import Ascii String List NArith ZArith Bool Lia.
From Verif Require Import PyStr PyStrLemmas M_Values M_IR S_IR M_Exec S_Exec P_IR P_IR3 P_Exec P_Exec2.
Import ListNotations.
Open Scope list_scope.

Section Nodes.
Variable py : python.
Variables gen user : str -> Prop.
Hypothesis Hy : hygienic py gen user.

Notation agree := (agree gen).
Notation sim := (sim gen).
Notation sim2 := (sim2 gen).
Notation good := (good py gen user).

Lemma body_eq : forall l, join_texts ((fix go (l : list node) : list blk :=
                match l with [] => [] | m :: l' => program m ++ go l' end) l) = programs l.
Proof. intros l. now rewrite program_bodies. Qed.
Lemma structure_eq : forall l, obind ((fix go (l : list node) : option (list piece) :=
     match l with
     | [] => Some []
     | m :: l' => obind (piece_of m) (fun p => option_map (cons p) (go l'))
     end) l) assemble = structure l.
Proof. intros l. now rewrite piece_of_pieces. Qed.

Definition filled (l : list node) : option (list stm) := obind (pieces_of l) assemble_block.
Lemma filled_eq : forall l, obind ((fix go (l : list node) : option (list piece) :=
     match l with
     | [] => Some []
     | m :: l' => obind (piece_of m) (fun p => option_map (cons p) (go l'))
     end) l) assemble_block = filled l.
Proof. intros l. now rewrite piece_of_pieces. Qed.
Lemma block_some : forall ps b, assemble_block ps = Some b <-> assemble ps = Some b /\ b <> [].
Proof.
  intros ps b. unfold assemble_block. destruct (assemble ps) as [[|s l]|]; cbn [obind]; split; try discriminate.
  - intros [H1 H2]. congruence.
  - intros H. split; [exact H|]. intros ->. discriminate.
  - now intros [H _].
  - now intros [H _].
Qed.
Lemma filled_some : forall l b, filled l = Some b -> structure l = Some b /\ b <> [].
Proof.
  intros l b H. unfold filled, structure in *. destruct (pieces_of l); [|discriminate]. now apply block_some.
Qed.


(** Guarded outputs. *)
Lemma guarded_sim : forall g v c0 s e, user_guard user g -> agree (s_env s) e ->
  sim s (guarded py (truthy_guard g) v s) (with_chain c0 (under py g e (Ok ([v], e)))) \/ c0 <> CNone.
Proof.
  intros g v c0 s e U A. destruct c0; [left|right; discriminate|right; discriminate].
  unfold guarded, under, user_guard in *. destruct (truthy_guard g) as [x|].
  - rewrite (h_bool _ _ _ Hy x _ e U A). destruct (ev_bool py e x) as [b|]; [|reflexivity].
    destruct b; cbn; repeat split; try assumption; try (now left); constructor.
  - cbn. repeat split; try assumption; try (now left); constructor.
Qed.
Lemma guarded_sim' : forall g v s e, user_guard user g -> agree (s_env s) e ->
  sim s (guarded py (truthy_guard g) v s) (with_chain CNone (under py g e (Ok ([v], e)))).
Proof. intros g v s e U A. destruct (guarded_sim g v CNone s e U A) as [H|H]; [exact H|congruence]. Qed.

(** A block under an optional guard. *)
Lemma under_sim : forall g l c s e m, user_guard user g -> agree (s_env s) e ->
  (forall c, sim s (execs py l c s) (with_chain CNone m)) ->
  sim s (execs py (match truthy_guard g with Some cd => [Bl (PIf cd) l] | None => l end) c s)
        (with_chain CNone (under py g e m)).
Proof.
  intros g l c s e m U A H. unfold under, user_guard in *. destruct (truthy_guard g) as [x|]; [|apply H].
  rewrite single, exec_bl. cbn [exec_block]. rewrite (h_bool _ _ _ Hy x _ e U A).
  destruct (ev_bool py e x) as [b|]; [|reflexivity]. cbn [rbind]. destruct b.
  - specialize (H CNone). destruct (execs py l CNone s) as [[[o c1] s1]|], m as [[o' e']|]; cbn in *; try tauto.
  - cbn. repeat split; try assumption; try (now left); constructor.
Qed.

(** The loop that writes attributes. *)
Lemma write_chunks : forall x body chunks s, gen x ->
  (forall s, body s = rmap (fun r => (fst (fst r), snd r)) (execs py [St (PYield x)] CNone s)) ->
  exists s', loop body (map (fun t => [(x, VStr t)]) chunks) s = Ok (map VStr chunks, s') /\
    (forall e, agree (s_env s) e -> agree (s_env s') e) /\ s_with s' = s_with s /\ s_switch s' = s_switch s.
Proof.
  intros x body chunks. induction chunks as [|t chunks IH]; intros s G B; cbn [map loop].
  - exists s. tauto.
  - set (s1 := set_env s ([(x, VStr t)] ++ s_env s)). rewrite B. rewrite single. cbn [exec exec_stmt].
    rewrite (h_gen _ _ _ Hy x (s_env s1) (VStr t) G) by (cbn; now rewrite seqb_refl).
    cbn [rmap rbind fst snd]. destruct (IH s1 G B) as (s' & E & A' & W & S). rewrite E. cbn [rmap fst snd app].
    exists s'. split; [reflexivity|]. split; [|split].
    + intros e A. apply A'. cbn. now apply agree_set_gen.
    + rewrite W. reflexivity.
    + rewrite S. reflexivity.
Qed.

(** [py:with]. *)
Lemma execs_assigns : forall vars c s e,
  Forall (fun kx : str * str => plain gen (fst kx) /\ user (snd kx)) vars -> agree (s_env s) e ->
  match assigns py vars e with
  | Ok e1 => exists c1 s1, execs py (map (fun kv => St (PAssign (fst kv) (snd kv))) vars) c s = Ok ([], c1, s1) /\
      agree (s_env s1) e1 /\ s_with s1 = s_with s /\ s_switch s1 = s_switch s
  | Raise x => execs py (map (fun kv => St (PAssign (fst kv) (snd kv))) vars) c s = Raise x
  end.
Proof.
  induction vars as [|[k x] vars IH]; intros c s e F A; cbn [assigns map].
  - exists c, s. cbn. tauto.
  - inversion F as [|? ? [[Kn Kg] Ux] Fv]; subst. cbn [fst snd] in *. cbn [execs exec exec_stmt].
    rewrite (h_ev _ _ _ Hy x _ e Ux A). destruct (ev py e x) as [v|]; [|reflexivity]. cbn [rbind].
    unfold assign. rewrite (targets_name k Kn). cbn [set_vars]. rewrite Kn. cbn [rmap rbind fst snd].
    specialize (IH CNone (set_env s (set_var k v (s_env s))) (set_var k v e) Fv (agree_set gen k v _ _ A)).
    destruct (assigns py vars (set_var k v e)) as [e1|]; [|now rewrite IH].
    destruct IH as (c1 & s1 & E & A1 & W1 & S1). exists c1, s1. rewrite E. cbn. tauto.
Qed.

Lemma restore_sim : forall names old olds s1 e1,
  Forall (plain gen) names -> agree old olds -> agree s1 e1 ->
  exists s2, set_vars names (map (fun k => match lookup k old with Some v => v | None => unit_value end) names) s1 = Ok s2 /\
    agree s2 (restore names olds e1).
Proof.
  induction names as [|k names IH]; intros old olds s1 e1 F Ao A; cbn [map set_vars restore fold_left].
  - exists s1. split; [reflexivity|exact A].
  - inversion F as [|? ? [Kn Kg] Fv]; subst. rewrite Kn. rewrite <- (Ao k Kg).
    apply IH; [assumption|exact Ao|now apply agree_set].
Qed.

Ltac destr := repeat match goal with
  | H : option_map _ ?x = Some _ |- _ => let E := fresh "E" in destruct x eqn:E; [cbn [option_map] in H|discriminate H]
  end.

Theorem all_good : forall n, good n.
Proof.
  induction n using node_ind'; intros p Hp W cc cc' st0 env0 Gc J A;
    cbn [piece_of] in Hp; try discriminate Hp; cbn [well_named] in W.
  - (* pass *)
    assert (p = PcStm SPass) by congruence. subst p. cbn. repeat split; try assumption; try (now left); constructor.
  - (* for *)
    rewrite filled_eq in Hp. destr. match goal with H : filled _ = Some _ |- _ => apply filled_some in H as [H _] end. assert (p = PcStm (SFor d l [])) by congruence. subst p. destruct W as [Ud Wb].
    cbn [program]. rewrite body_eq, single, exec_bl. cbn [exec_block step].
    rewrite (h_for _ _ _ Hy d _ env0 Ud A). destruct (ev_for py env0 d) as [rounds|]; [|reflexivity]. cbn [rbind].
    apply sim_put; [now right|]. apply loop_sim; [|exact A].
    intros s1 e1 A1. now apply good_body with (user := user) (l := b).
  - (* with *)
    rewrite structure_eq in Hp. destr. assert (p = PcStm (SWith v l)) by congruence. subst p. destruct W as [Uv Wb].
    cbn [program]. rewrite body_eq. cbn [step]. rewrite meaning_with.
    cbn [execs exec exec_stmt rbind fst snd].
    set (saved := map (fun k => match lookup k (s_env st0) with Some v => v | None => unit_value end) (map fst v)).
    set (s1 := St_ (s_env st0) (saved :: s_with st0) (s_switch st0) (s_funs st0)).
    rewrite execs_app.
    pose proof (execs_assigns v CNone s1 env0 Uv A) as HA.
    destruct (assigns py v env0) as [e1|]; [|now rewrite HA].
    destruct HA as (c1 & s2 & E2 & A2 & W2 & S2). rewrite E2. cbn [rbind fst snd]. rewrite execs_app.
    pose proof (good_body py gen user b l H E Wb c1 s2 e1 A2) as HB.
    destruct (execs py (programs b) c1 s2) as [[[o3 c3] s3]|], (means py l e1) as [[o3' e3]|]; cbn [drop_chain rmap fst snd P_Exec2.sim2] in HB; try contradiction.
    + destruct HB as (So & A3 & W3 & S3). cbn [rbind fst snd]. rewrite single. cbn [exec exec_stmt].
      rewrite W3, W2. cbn [s_with s1].
      assert (F : Forall (plain gen) (map fst v)).
      { rewrite Forall_map. eapply Forall_impl; [|exact Uv]. intros [k x] [P1 _]. exact P1. }
      rewrite targets_names.
      2:{ eapply Forall_impl; [|exact F]. intros k [P1 _]. exact P1. }
      destruct (restore_sim (map fst v) (s_env st0) env0 (s_env s3) e3 F A A3) as (s4 & E4 & A4).
      unfold saved. rewrite E4. cbn. repeat split.
      * rewrite app_nil_r. exact So.
      * now left.
      * exact A4.
      * rewrite S3, S2. reflexivity.
    + cbn. exact HB.
  - (* switch *)
    rewrite piece_of_pieces in Hp. destr. destruct p0 as [cases els]. cbn [fst snd] in Hp.
    assert (p = PcStm (SSwitch d cases els)) by congruence. subst p. destruct W as [Ud Wb].
    destruct (pieces_of b) as [ps|] eqn:Eb; [|discriminate]. cbn [obind] in E.
    cbn [program]. rewrite body_eq. cbn [step]. rewrite meaning_switch.
    cbn [execs exec exec_stmt]. rewrite (h_ev _ _ _ Hy d _ env0 Ud A).
    destruct (ev py env0 d) as [w|]; [|reflexivity]. cbn [rmap rbind fst snd].
    set (s1 := St_ (s_env st0) (s_with st0) (w :: s_switch st0) (s_funs st0)). rewrite execs_app.
    assert (HS : sim s1 (execs py (programs b) (CIf false) s1) (steps py ps (CIf false) (s_switch s1) env0)).
    { eapply sim_same; [apply execs_join|].
      eapply good_list; try eassumption; [eapply switch_fits; eassumption|now exists false|now right]. }
    apply sim_sim2 in HS. cbn [s_switch s1] in HS. rewrite (steps_switch py ps cases els w _ env0 E) in HS.
    destruct (execs py (programs b) (CIf false) s1) as [[[o3 c3] s3]|], (first_case py w cases els env0) as [[o3' e3]|];
      cbn [drop_chain rmap fst snd P_Exec2.sim2] in HS; try contradiction.
    + destruct HS as (So & A3 & W3 & S3). cbn [rbind fst snd]. rewrite single. cbn [exec exec_stmt].
      rewrite S3. cbn. rewrite app_nil_r. repeat split; try assumption. now left.
    + cbn. exact HS.
  - (* case *)
    rewrite filled_eq in Hp. destr. match goal with H : filled _ = Some _ |- _ => apply filled_some in H as [H _] end. assert (p = PcCase d l) by congruence. subst p. destruct W as [Ud Wb].
    cbn [program]. rewrite body_eq, single, exec_bl. cbn [exec_block step].
    destruct J as [t ->]. destruct Gc as [Gc|Gc]; [discriminate|]. subst cc.
    destruct t; [apply sim_ok; [now right|exact A]|].
    rewrite (h_ev _ _ _ Hy d _ env0 Ud A). destruct (ev py env0 d) as [x|]; [|reflexivity]. cbn [rbind].
    destruct (s_switch st0) as [|w sw] eqn:Es; [reflexivity|]. destruct (veq py x w).
    + apply sim_put; [now right|]. now apply good_body with (user := user) (l := b).
    + apply sim_ok; [now right|exact A].
  - (* if *)
    rewrite filled_eq in Hp. destr. match goal with H : filled _ = Some _ |- _ => apply filled_some in H as [H _] end. assert (p = PcStm (SIf d l [])) by congruence. subst p. destruct W as [Ud Wb].
    cbn [program]. rewrite body_eq, single, exec_bl. cbn [exec_block step].
    rewrite (h_bool _ _ _ Hy d _ env0 Ud A). destruct (ev_bool py env0 d) as [t|]; [|reflexivity]. cbn [rbind].
    destruct t; [|apply sim_ok; [now right|exact A]].
    apply sim_put; [now right|]. now apply good_body with (user := user) (l := b).
  - (* else *)
    rewrite filled_eq in Hp. destr. match goal with H : filled _ = Some _ |- _ => apply filled_some in H as [H _] end. assert (p = PcElse l) by congruence. subst p.
    cbn [program]. rewrite body_eq, single, exec_bl. cbn [exec_block step].
    cbn in J. destruct Gc as [Gc|Gc]; [contradiction|]. subst cc.
    destruct cc' as [|[]|]; [contradiction| | |].
    + apply sim_ok; [now left|exact A].
    + apply sim_put; [now left|]. now apply good_body with (user := user) (l := b).
    + apply sim_put; [now left|]. now apply good_body with (user := user) (l := b).
  - (* text *)
    assert (p = PcStm (SText t g)) by congruence. subst p. cbn [program]. rewrite single.
    cbn [exec step meaning]. now apply guarded_sim'.
  - (* translatable text *)
    assert (p = PcStm (STrans t g)) by congruence. subst p. cbn [program]. rewrite single.
    cbn [exec step meaning]. unfold trans_stmt. destruct (strip t); cbn [exec_stmt]; now apply guarded_sim'.
  - (* expression *)
    assert (p = PcStm (SExpr e s)) by congruence. subst p. cbn [program]. rewrite single.
    cbn [exec step meaning]. destruct s; cbn [exec_stmt]; rewrite (h_ev _ _ _ Hy e _ env0 W A);
      (destruct (ev py env0 e) as [v|]; [|reflexivity]); cbn; repeat split; try assumption; try (now left); constructor.
  - (* attribute *)
    rewrite structure_eq in Hp. destr. assert (p = PcStm (SAttr a l g m)) by congruence. subst p.
    destruct W as (Ug & G1 & G2 & Gx & Wv). cbn [program]. rewrite body_eq. cbn [step]. rewrite meaning_attr.
    assert (AT : forall nm c, gen nm -> sim st0 (execs py
      [Bl (PDefGen nm) (match v with [] => [Tx [] None] | _ => programs v end);
       St (PCollect nm); Bl (PForAttr x a nm m) [St (PYield x)]] c st0)
      (with_chain CNone (rbind (value_of py l env0) (fun oe =>
         rbind (collect (fst oe)) (fun x => rmap (fun chunks => (map VStr chunks, env0)) (render_attrs [(a, x)] m)))))).
    { intros nm c1 Gn. set (bd := match v with [] => [Tx [] None] | _ => programs v end).
      assert (HB : sim2 (St_ (s_env st0) (s_with st0) (s_switch st0) [])
        (drop_chain (execs py bd CNone (St_ (s_env st0) (s_with st0) (s_switch st0) []))) (value_of py l env0)).
      { unfold bd. destruct v as [|v0 v].
        - assert (l = []) by (cbn in E; congruence). subst l. cbn. repeat split; try assumption. constructor.
        - replace (value_of py l env0) with (means py l env0).
          + now apply good_body with (user := user) (l := v0 :: v).
          + destruct l as [|s0 l]; [|reflexivity]. exfalso. unfold structure in E. cbn [pieces_of] in E.
            destruct (piece_of v0) as [p0|]; [|discriminate]. cbn [obind] in E.
            destruct (pieces_of v) as [ps|]; [|discriminate]. cbn [option_map obind assemble] in E.
            destruct p0 as [s0| |]; [|discriminate|discriminate].
            destruct s0, ps as [|[]]; cbn in E; try discriminate;
              match type of E with option_map _ ?x = _ => destruct x; discriminate end. }
      cbn [execs]. rewrite exec_bl. cbn [exec_block rbind fst snd exec exec_stmt s_funs find_fun]. rewrite seqb_refl.
      cbn [s_env s_with s_switch].
      fold (drop_chain (execs py bd CNone (St_ (s_env st0) (s_with st0) (s_switch st0) []))).
      destruct (drop_chain (execs py bd CNone (St_ (s_env st0) (s_with st0) (s_switch st0) []))) as [[o3 s3]|],
        (value_of py l env0) as [[o3' e3]|]; cbn [P_Exec2.sim2] in HB; try contradiction.
      - destruct HB as (So & A3 & W3 & S3). cbn [rmap rbind fst snd]. rewrite (same_out_collect _ _ So).
        destruct (collect o3') as [val|]; [|reflexivity]. cbn [rmap rbind fst snd s_env lookup set_var].
        rewrite seqb_refl. destruct (render_attrs [(a, val)] m) as [chunks|]; [|reflexivity]. cbn [rmap rbind].
        match goal with |- context [loop ?bb _ ?ss] =>
          destruct (write_chunks x bb chunks ss Gx (fun s => eq_refl)) as (s' & El & A4 & W4 & S4) end.
        rewrite El. cbn. rewrite app_nil_r. repeat split.
        + constructor.
        + now left.
        + apply A4. cbn. now apply agree_set_gen.
        + rewrite W4. cbn. exact W3.
        + rewrite S4. cbn. exact S3.
      - cbn. now subst. }
    pose proof (under_sim g) as US. unfold under in *.
    destruct (truthy_guard g) as [cd|] eqn:Eg.
    + specialize (US _ cc st0 env0 _ Ug A (fun c => AT gen2 c G2)). exact US.
    + apply (AT gen0 cc G1).
  - (* attributes *)
    assert (p = PcStm (SAttrs e g m)) by congruence. subst p. destruct W as (Ug & Ue & Gx).
    cbn [program step meaning].
    pose proof (under_sim g [Bl (PForAttrs x e m) [St (PYield x)]] cc st0 env0
      (rbind (ev_attrs py env0 e) (fun attrs =>
         rmap (fun chunks => (map VStr chunks, env0)) (render_attrs attrs m))) Ug A) as US.
    unfold under in US. unfold under. destruct (truthy_guard g) as [cd|]; apply US; clear US; intros c1;
    rewrite single, exec_bl; cbn [exec_block]; rewrite (h_attrs _ _ _ Hy e _ env0 Ue A);
    (destruct (ev_attrs py env0 e) as [attrs|]; [|reflexivity]); cbn [rbind];
    (destruct (render_attrs attrs m) as [chunks|]; [|reflexivity]); cbn [rmap rbind];
    match goal with |- context [loop ?bb _ ?ss] =>
          destruct (write_chunks x bb chunks ss Gx (fun s => eq_refl)) as (s' & El & A4 & W4 & S4) end;
    rewrite El; cbn; (repeat split; [constructor|now left|now apply A4|assumption|assumption]).
Qed.

(** ** Whole bodies *)
Theorem refines : forall l ss c s e, structure l = Some ss -> Forall (well_named gen user) l -> agree (s_env s) e ->
  sim2 s (drop_chain (execs py (programs l) c s)) (means py ss e).
Proof.
  intros l ss c s e S W A. apply good_body with (user := user); [|exact S| |exact A].
  - apply Forall_forall. intros n _. apply all_good.
  - clear S; induction W; [exact I|split; assumption].
Qed.
End Nodes.
