(** * Whole templates: each kind of node *)

From Coq Require Import Ascii String List NArith ZArith Bool Lia Arith.
From Verif Require Import PyStr PyStrLemmas M_Values M_IR S_IR M_Template M_Run S_Run P_IR P_Run1 P_Run2 P_Run3 P_Run4 P_Run5 P_Run11 P_Run6.
From Verif Require M_Exec S_Exec P_Exec2.
Import ListNotations.
Open Scope list_scope.

Section Nodes.
Variable py : python.
Variable gen : str -> Prop.
Hypothesis Hgen : generated_names py gen.

Notation rfun := (rfun py gen).
Notation rworld := (rworld bcode dcode rfun gen).
Notation rplace := (rplace bcode).
Notation grows := (grows bcode).
Notation local_of := (local_of bcode).
Notation rv w := (rgv bcode dcode rfun (length (w_heap w)) (length (w_frames w))).
Notation rload := (rload bcode dcode rfun).
Notation sim := (sim py gen).
Notation sim2 := (sim2 py gen).
Notation all_names := (all_names py).

Variable load : bool -> str -> result (cls (fobj bcode) (str * bcode)).
Variable load' : bool -> str -> result (cls (fobj dcode) (str * dcode)).
Hypothesis Hload : rload load load'.
Variable invoke : callable bcode -> list (str * bval) -> state -> result (list value * state).
Variable invoke' : callable dcode -> list (str * dval) -> dworld -> meant.
Hypothesis Hinv : invokes py gen invoke invoke'.
Hypothesis Hkept : keeping invoke'.
Variable p : place.

Notation exec := (exec py load invoke p).
Notation execs := (execs py load invoke p).
Notation means := (means py load' invoke' p).
Notation steps := (steps py load' invoke' p).
Notation good := (good py gen load load' invoke invoke' p).
Notation well_names := (well_names py gen).

Ltac destr := repeat match goal with
  | H : option_map _ ?x = Some _ |- _ => let E := fresh "E" in destruct x eqn:E; [cbn [option_map] in H|discriminate H]
  end;
  repeat match goal with
  | H : obind _ not_empty = Some _ |- _ => apply not_empty_some in H
  | H : obind _ (fun b => not_empty (_ b)) = Some ?l |- _ =>
      let b := fresh "b" in let E := fresh "E" in apply not_empty_or in H as (b & H & E); subst l; rename b into l
  end.

(** What a block contains. *)
Lemma names_block : forall h b, (match h with PDefGen _ | PDef _ => False | _ => True end) -> incl (all_names b) (all_names [Bl h b]).
Proof.
  intros h b H x I. unfold M_Run.all_names at 1. cbn [flat_map]. rewrite app_nil_r.
  destruct h; cbn [M_Run.names]; try contradiction; rewrite ?names_all; try exact I; try (now right).
  apply in_or_app. now right.
Qed.

(** An attribute: a function, collected, then written. *)
Lemma attr_sim : forall nm x a m bd l c st0 w, gen nm -> gen x -> rbody py gen bd l ->
  rworld (s_world st0) w -> rplace (s_world st0) p ->
  here (s_world st0) p (all_names [Bl (PDefGen nm) bd; St (PCollect nm); Bl (PForAttr x a nm m) [St (PYield x)]]) ->
  sim st0 (execs [Bl (PDefGen nm) bd; St (PCollect nm); Bl (PForAttr x a nm m) [St (PYield x)]] c st0)
    (with_chain CFor (rbind (invoke' ([], l, p_inst p, p_scopes p) [] w) (fun ow =>
         rbind (collect (fst ow)) (fun x =>
         rmap (fun chunks => (map VStr chunks, snd ow)) (render_attrs [(a, x)] m))))).
Proof.
  intros nm x a m bd l c st0 w Gn Gx RB A P Hr.
  assert (In1 : In nm (all_names [Bl (PDefGen nm) bd; St (PCollect nm); Bl (PForAttr x a nm m) [St (PYield x)]])) by now left.
  assert (In2 : In x (all_names [Bl (PDefGen nm) bd; St (PCollect nm); Bl (PForAttr x a nm m) [St (PYield x)]])) by (right; right; now left).
  set (xs := all_names _) in *. clearbody xs.
  cbn [M_Run.execs]. rewrite exec_bl. cbn [exec_block rbind fst snd app].
  match goal with |- context [set_world st0 (set_name _ p nm ?v)] => set (s1 := set_world st0 (set_name (s_world st0) p nm v)); set (clo := v) in * end.
  assert (U1 : unchanged st0 s1) by (apply unchanged_world, set_name_grows).
  assert (A1 : rworld (s_world s1) w) by (now apply set_name_gen).
  cbn [M_Run.exec exec_stmt].
  destruct (instance_self bcode dcode rfun py gen (s_world s1) w p A1 (place_after _ _ _ U1 P)) as (si & Es & _). rewrite Es. cbn [rbind].
  change (lookup py (s_world s1) p nm) with (lookup py (set_name (s_world st0) p nm clo) p nm). rewrite (here_set py _ _ p xs nm clo Hr In1). cbn [rbind]. unfold clo at 1.
  assert (HI : sim2 s1 (invoke (nm ++ L "()", bd, p_inst p, p_scopes p) [] s1) (invoke' ([], l, p_inst p, p_scopes p) [] w)).
  { apply Hinv; [exact A1| |constructor|constructor]. pose proof (place_after _ _ _ U1 P) as [P1 P2]. repeat split; assumption. }
  destruct (invoke (nm ++ L "()", bd, p_inst p, p_scopes p) [] s1) as [[o3 s3]|], (invoke' ([], l, p_inst p, p_scopes p) [] w) as [[o3' w3]|]; cbn [P_Run6.sim2] in HI; try contradiction; [|exact HI].
  destruct HI as (So & A3 & U3). cbn [rmap rbind fst snd]. rewrite (same_collect _ _ So).
  destruct (collect o3') as [v|]; [|reflexivity]. cbn [rmap rbind fst snd].
  set (s4 := set_world s3 (set_name (s_world s3) p nm (val v))).
  assert (U4 : unchanged s3 s4) by (apply unchanged_world, set_name_grows).
  assert (A4 : rworld (s_world s4) w3) by (now apply set_name_gen).
  pose proof (unchanged_trans _ _ _ U1 U3) as U13. pose proof (unchanged_trans _ _ _ U13 U4) as U14.
  destruct (instance_self bcode dcode rfun py gen (s_world s4) w3 p A4 (place_after _ _ _ U14 P)) as (si2 & Es2 & _).
  cbn [exec_block]. rewrite Es2. cbn [rbind].
  change (lookup py (s_world s4) p nm) with (lookup py (set_name (s_world s3) p nm (val v)) p nm). rewrite (here_set py _ _ p xs nm (val v) (here_after p _ _ _ U13 Hr) In1). cbn [rbind as_value val].
  destruct (render_attrs [(a, v)] m) as [chunks|]; [|reflexivity]. cbn [rmap rbind].
  match goal with |- context [loop p ?bb _ s4] =>
    destruct (write_chunks py gen Hgen load invoke p x bb chunks xs s4 w3 Gx In2 (fun s => eq_refl) A4 (here_after p _ _ _ U14 Hr)) as (s5 & El & A5 & U5) end.
  rewrite El. cbn [rmap rbind fst snd app with_chain P_Run6.sim]. rewrite app_nil_r. spl; [apply sm_refl|now right|exact A5|]. eapply unchanged_trans; eassumption.
Qed.

Theorem all_good : forall n, good n.
Proof.
  induction n using node_ind'; intros pc Hp W cc cc' st0 w0 Gc J A P Hr Hd;
    cbn [piece_of] in Hp; try discriminate Hp; cbn [S_Run.well_named] in W.
  - (* pass *)
    assert (pc = RcStm RPass) as -> by congruence. cbn. spl; try assumption; try (now left); try apply sm_refl; apply unchanged_refl.
  - (* import *)
    assert (pc = RcStm (RImport t a)) as -> by congruence. cbn [program step S_Run.meaning]. rewrite single. cbn [M_Run.exec exec_stmt].
    pose proof (import_rel bcode dcode rfun py gen Hgen load load' Hload (s_world st0) w0 p t a A W) as IR.
    destruct (import_template py load (s_world st0) p t a) as [[w1 i]|], (import_template py load' w0 p t a) as [[w1' i']|]; cbn [rres] in IR; try contradiction; [|exact IR].
    destruct IR as (A1 & E1 & E2 & E3 & G1). cbn [fst snd] in *. subst i' i. cbn. spl; [apply sm_refl|now left|exact A1|now apply new_unchanged].
  - (* include *)
    assert (pc = RcStm (RInclude t)) as -> by congruence. cbn [program step S_Run.meaning]. rewrite single. cbn [M_Run.exec exec_stmt].
    apply other_sim; [exact Hinv|]. now apply import_rel.
  - (* extend *)
    assert (pc = RcStm (RExtend t)) as -> by congruence. cbn [program step S_Run.meaning]. rewrite single. cbn [M_Run.exec exec_stmt].
    apply other_sim; [exact Hinv|]. now apply extend_rel.
  - (* function *)
    destruct i; [|discriminate]. rewrite structure_eq in Hp. destr. assert (pc = RcStm (RDef d (or_pass l))) as -> by congruence. destruct W as [Wd Wb].
    cbn [program step S_Run.meaning with_chain rmap fst snd]. rewrite body_eq. change (execs (?a :: ?b) cc st0) with (rbind (exec a cc st0) (fun r => rmap (fun r' => (fst (fst r) ++ fst (fst r'), snd (fst r'), snd r')) (execs b (snd (fst r)) (snd r)))).
    cbn [M_Run.exec exec_stmt]. rewrite (lookup_kajiki bcode dcode rfun py gen (s_world st0) w0 p A P). cbn [rbind fst snd]. cbn [M_Run.execs]. rewrite exec_bl. cbn [rbind fst snd exec_block rmap app P_Run6.sim M_Run.exec exec_stmt].
    spl; [apply sm_refl|now left| |apply unchanged_world, set_name_grows].
    cbn [s_world set_world]. apply set_name_rel; [exact A|]. destruct P as [P1 P2]. constructor; [|exact P1|exact P2]. split; [reflexivity|]. split; [exact Wd|]. cbn [snd].
    destruct b as [|b0 b]; [assert (l = []) as -> by (cbn in E; congruence); apply rbody_pass|].
    exists (b0 :: b). split; [reflexivity|]. split; [|exact Wb]. destruct l; [|exact E]. now apply structure_cons in E.
  - (* call *)
    rewrite structure_eq in Hp. destr. assert (pc = RcStm (RCall d c l)) as -> by congruence. destruct W as [Wd [Wc Wb]].
    cbn [program step S_Run.meaning]. rewrite body_eq. change (execs (?a :: ?b) cc st0) with (rbind (exec a cc st0) (fun r => rmap (fun r' => (fst (fst r) ++ fst (fst r'), snd (fst r'), snd r')) (execs b (snd (fst r)) (snd r)))).
    cbn [M_Run.exec exec_stmt]. rewrite (lookup_kajiki bcode dcode rfun py gen (s_world st0) w0 p A P). cbn [rbind fst snd]. cbn [M_Run.execs]. rewrite exec_bl. cbn [rbind fst snd exec_block rmap app P_Run6.sim M_Run.exec exec_stmt].
    match goal with |- context [show_value py s_world invoke p c ?s] => set (s1 := s) end.
    assert (U1 : unchanged st0 s1) by (apply unchanged_world, set_name_grows).
    assert (A1 : rworld (s_world s1) (define p d l w0)).
    { apply set_name_rel; [exact A|]. destruct P as [P1 P2]. constructor; [|exact P1|exact P2]. split; [reflexivity|]. split; [exact Wd|]. exists b. now repeat split. }
    assert (Ag : Forall (agrees bcode dcode rfun py (s_world s1) (define p d l w0) p) (expr_names (parse py c))).
    { eapply Forall_impl; [|exact Wc]. cbn beta. intros y [Y| ->]; [now apply (lookup_rel bcode dcode rfun py gen)|].
      unfold agrees. unfold s1, define. cbn [s_world set_world]. rewrite !(here_set py _ _ p [fun_name d]) by
        ((eapply here_incl; [|first [exact Hd|exact Hr]]; intros y [<-|[]]; now left) || now left).
      destruct P as [P1 P2]. cbn [rres]. rewrite set_name_heap, set_name_frames. constructor; [|exact P1|exact P2]. split; [reflexivity|]. split; [exact Wd|]. exists b. now repeat split. }
    pose proof (show_agrees py gen invoke invoke' Hinv p c s1 _ A1 Ag) as SS.
    destruct (show_value py s_world invoke p c s1) as [[v s2]|], (show_value py (fun w => w) invoke' p c (define p d l w0)) as [[v' w2]|]; cbn in SS; try contradiction; [|exact SS].
    destruct SS as (SV & A2 & U2). cbn. spl; [now apply svalue_same|now left|exact A2|]. eapply unchanged_trans; eassumption.
  - (* for *)
    rewrite structure_eq in Hp. destr. assert (pc = RcStm (RFor d l [])) as -> by congruence. destruct W as [Ud Wb].
    cbn [program] in *. rewrite body_eq in *. rewrite single, exec_bl. cbn [exec_block step].
    pose proof (rounds_rel bcode dcode rfun py gen (s_world st0) w0 p d A Ud) as RR.
    destruct (rounds py (s_world st0) p d) as [rs|], (rounds py w0 p d) as [rs'|]; cbn [rres] in RR; try contradiction; [|exact RR]. cbn [rbind].
    apply sim_put; [now right|]. apply (here_incl _ _ _ _ (all_names (programs b))) in Hr; [|now apply names_block].
    eapply loop_sim with (ys := flat_map (binds py) l); try eassumption.
    + intros s1 w1 A1 P1 H1 H2. now apply good_body with (l := b).
    + intros w1 o1 w2. now apply means_kept'.
    + eapply here_incl; [|exact Hd]. cbn [pbinds S_Run.binds]. rewrite binds_all. intros y I1. apply in_or_app. right. apply in_or_app. now left.
  - (* with *)
    rewrite structure_eq in Hp. destr. assert (pc = RcStm (RWith v l)) as -> by congruence. destruct W as [Uv Wb].
    cbn [program] in *. rewrite body_eq in *. cbn [step]. rewrite meaning_with.
    assert (Hb : here (s_world st0) p (all_names (programs b))).
    { eapply here_incl; [|exact Hr]. intros y Iy. change (St (PPushWith (map fst v)) :: ?a ++ ?b) with ([St (PPushWith (map fst v))] ++ a ++ b). rewrite !names_app, !in_app_iff. tauto. }
    assert (Hc : here w0 p (flat_map (binds py) l)).
    { eapply here_incl; [|exact Hd]. cbn [pbinds S_Run.binds]. rewrite binds_all. apply incl_appr, incl_refl. }
    clear Hr. cbn [M_Run.execs M_Run.exec exec_stmt].
    destruct (instance_local bcode dcode rfun py gen (s_world st0) w0 p A P) as [Ei Hi]. rewrite Ei. cbn [rmap rbind fst snd].
    set (i := local_of (s_world st0) p) in *.
    set (saved := map (fun k => match local_value (s_world st0) p k with Some v => v | None => val M_Exec.unit_value end) (map fst v)).
    set (s1 := with_with st0 i (saved :: s_with st0 i)). rewrite execs_app.
    pose proof (execs_assigns py gen load invoke p v CNone s1 w0 Uv A) as HA.
    destruct (assigns py p v w0) as [w1|] eqn:Ea; [|now rewrite HA]. apply assigns_kept in Ea.
    destruct HA as (c1 & s2 & E2 & A2 & U2). rewrite E2. cbn [rbind fst snd]. rewrite execs_app.
    assert (G12 : grows (s_world st0) (s_world s2)) by apply U2.
    pose proof (good_body py gen load load' invoke invoke' Hkept p b l H E Wb c1 s2 w1 A2 (rplace_grows _ _ _ _ G12 P) (here_grows _ _ _ _ G12 Hb) (here_kept _ _ _ _ _ Ea Hc)) as HB.
    destruct (execs (programs b) c1 s2) as [[[o3 c3] s3]|], (means l w1) as [[o3' w3]|]; cbn [drop_chain rmap fst snd P_Run6.sim2] in HB; try contradiction; [|exact HB].
    destruct HB as (So & A3 & U3). cbn [rbind fst snd]. rewrite single. cbn [M_Run.exec exec_stmt].
    assert (G13 : grows (s_world st0) (s_world s3)) by (eapply grows_trans; [exact G12|apply U3]).
    destruct (instance_local bcode dcode rfun py gen (s_world s3) w3 p A3 (rplace_grows _ _ _ _ G13 P)) as [Ei3 _]. rewrite Ei3. rewrite (local_grows _ _ _ _ P G13). fold i. cbn [rbind].
    pose proof (unchanged_trans _ _ _ U2 U3) as U13. destruct (proj2 U13 i Hi) as [SW _]. rewrite SW. cbn [s_with with_with s1]. unfold upd at 1. rewrite Nat.eqb_refl.
    rewrite P_Exec2.targets_names by (rewrite Forall_map; eapply Forall_impl; [|exact Uv]; intros [k x] [P1 _]; exact P1).
    replace (forallb M_Exec.is_name (map fst v)) with true
      by (symmetry; apply forallb_forall; intros y Iy; apply in_map_iff in Iy as (kx & <- & Iy); rewrite Forall_forall in Uv; now apply Uv).
    cbn [negb]. replace (Nat.eqb (length (map fst v)) (length saved)) with true by (symmetry; apply Nat.eqb_eq; unfold saved; now rewrite !map_length).
    cbn [rmap rbind fst snd with_chain app P_Run6.sim]. rewrite app_nil_r. spl; [exact So|now left| |].
    + cbn [s_world set_world with_with]. apply set_names_rel; [exact A3|].
      assert (OR : ralist (rv (s_world st0)) (combine (map fst v) saved) (old_values p (map fst v) w0)).
      { apply (old_rel py gen p st0); [exact A|]. rewrite Forall_map. eapply Forall_impl; [|exact Uv]. intros [k x] (_ & [P1 _] & _). exact P1. }
      revert OR. apply ralist_impl. intros y y'. now apply rv_grows.
    + split; [eapply grows_trans; [exact G13|]; cbn [s_world with_with set_world]; apply set_names_grows|].
      intros j Hj. cbn [s_with s_switch with_with set_world]. destruct (proj2 U13 j Hj) as [SW1 SW2]. cbn [s_with s_switch with_with s1] in SW1, SW2. rewrite SW2. split; [|reflexivity].
      unfold upd in *. destruct (Nat.eqb_spec j i) as [->|]; [reflexivity|exact SW1].
  - (* switch *)
    rewrite pieces_eq in Hp. destr. destruct p0 as [cases els]. cbn [fst snd] in Hp.
    assert (pc = RcStm (RSwitch d cases els)) as -> by congruence. destruct W as [Ud Wb].
    destruct (pieces_of b) as [ps|] eqn:Eb; [|discriminate]. cbn [S_Exec.obind] in E.
    cbn [program] in *. rewrite body_eq in *. cbn [step]. rewrite meaning_switch.
    assert (Hb : here (s_world st0) p (all_names (programs b))).
    { eapply here_incl; [|exact Hr]. intros y Iy. change (St (PPushSwitch d) :: St PIfFalse :: ?a ++ ?b) with ([St (PPushSwitch d); St PIfFalse] ++ a ++ b). rewrite !names_app, !in_app_iff. tauto. }
    clear Hr. cbn [M_Run.execs M_Run.exec exec_stmt].
    destruct (instance_local bcode dcode rfun py gen (s_world st0) w0 p A P) as [Ei Hi]. rewrite Ei. cbn [rbind].
    rewrite (evalue_rel bcode dcode rfun py gen (s_world st0) w0 p d A Ud).
    destruct (evalue py w0 p d) as [x|]; [|reflexivity]. cbn [rmap rbind fst snd].
    set (i := local_of (s_world st0) p) in *. set (s1 := with_switch st0 i (x :: s_switch st0 i)). rewrite execs_app.
    assert (HS : sim s1 (execs (programs b) (CIf false) s1) (steps ps (CIf false) (s_switch s1 (local_of (s_world s1) p)) w0)).
    { eapply sim_same; [apply execs_join|]. unfold programs in Hb. rewrite names_join in Hb.
      eapply good_list; try eassumption; [eapply switch_fits; eassumption|now exists false|now right|].
      eapply here_incl; [|exact Hd]. intros y. rewrite <- filter_binds. now apply (switch_binds py d (filter piece_says ps) cases els E). }
    apply sim_sim2 in HS. change (local_of (s_world s1) p) with i in HS. cbn [s_switch with_switch s1] in HS. unfold upd in HS at 1. rewrite Nat.eqb_refl in HS.
    rewrite <- steps_filter, (steps_switch py load' invoke' p _ cases els x _ w0 E) in HS. fold s1 in HS.
    destruct (execs (programs b) (CIf false) s1) as [[[o3 c3] s3]|], (first_case py load' invoke' p x cases els w0) as [[o3' w3]|];
      cbn [drop_chain rmap fst snd P_Run6.sim2] in HS; try contradiction; [|exact HS].
    destruct HS as (So & A3 & U3). cbn [rbind fst snd]. rewrite single. cbn [M_Run.exec exec_stmt].
    assert (G13 : grows (s_world st0) (s_world s3)) by apply U3.
    destruct (instance_local bcode dcode rfun py gen (s_world s3) w3 p A3 (rplace_grows _ _ _ _ G13 P)) as [Ei3 _]. rewrite Ei3. rewrite (local_grows _ _ _ _ P G13). fold i. cbn [rbind].
    destruct (proj2 U3 i Hi) as [_ SW]. rewrite SW. cbn [s_switch with_switch s1]. unfold upd at 1. rewrite Nat.eqb_refl.
    cbn [rmap rbind fst snd with_chain app P_Run6.sim]. rewrite app_nil_r. spl; [exact So|now left|exact A3|].
    split; [exact G13|]. intros j Hj. cbn [s_with s_switch with_switch]. destruct (proj2 U3 j Hj) as [SW1 SW2]. cbn [s_with s_switch with_switch s1] in SW1, SW2. rewrite SW1. split; [reflexivity|].
    unfold upd in *. destruct (Nat.eqb_spec j i) as [->|]; [reflexivity|exact SW2].
  - (* case *)
    rewrite structure_eq in Hp. destr. assert (pc = RcCase d l) as -> by congruence. destruct W as [Ud Wb].
    cbn [program] in *. rewrite body_eq in *. rewrite single, exec_bl. cbn [exec_block step].
    destruct J as [t ->]. destruct Gc as [Gc|Gc]; [discriminate|]. subst cc.
    destruct t; [apply sim_ok; [now right|exact A]|].
    destruct (instance_local bcode dcode rfun py gen (s_world st0) w0 p A P) as [Ei Hi]. rewrite Ei. cbn [rbind].
    rewrite (evalue_rel bcode dcode rfun py gen (s_world st0) w0 p d A Ud). destruct (evalue py w0 p d) as [x|]; [|reflexivity]. cbn [rbind].
    destruct (s_switch st0 (local_of (s_world st0) p)) as [|y sw] eqn:Es; [reflexivity|]. destruct (veq py x y).
    + apply sim_put; [now right|]. apply good_body with (l := b); try assumption; eapply here_incl; [|exact Hr]; now apply names_block.
    + apply sim_ok; [now right|exact A].
  - (* if *)
    rewrite structure_eq in Hp. destr. assert (pc = RcStm (RIf d l [])) as -> by congruence. destruct W as [Ud Wb].
    cbn [program] in *. rewrite body_eq in *. rewrite single, exec_bl. cbn [exec_block step].
    rewrite (condition_rel bcode dcode rfun py gen (s_world st0) w0 p d A Ud). destruct (condition py w0 p d) as [t|]; [|reflexivity]. cbn [rbind].
    destruct t; [|apply sim_ok; [now right|exact A]].
    apply sim_put; [now right|]. apply good_body with (l := b); try assumption; [eapply here_incl; [|exact Hr]; now apply names_block|eapply here_incl; [|exact Hd]; cbn [pbinds S_Run.binds]; rewrite binds_all; apply incl_appl, incl_refl].
  - (* else *)
    rewrite structure_eq in Hp. destr. assert (pc = RcElse l) as -> by congruence.
    cbn [program] in *. rewrite body_eq in *. rewrite single, exec_bl. cbn [exec_block step].
    cbn in J. destruct Gc as [Gc|Gc]; [contradiction|]. subst cc.
    apply (here_incl _ _ _ _ (all_names (programs b))) in Hr; [|now apply names_block].
    destruct cc' as [|[]|]; [contradiction| | |].
    + apply sim_ok; [now left|exact A].
    + apply sim_put; [now left|]. now apply good_body with (l := b).
    + apply sim_put; [now left|]. now apply good_body with (l := b).
  - (* text *)
    assert (pc = RcStm (RText t g)) as -> by congruence. cbn [program]. rewrite single. cbn [M_Run.exec step]. change (S_Run.meaning py load' invoke' p (RText t None) w0) with (Ok ([VStr t], w0)).
    change (Ok ([VStr t], w0)) with (rmap (fun v => ([v], w0)) (Ok (VStr t))). now apply guarded_sim.
  - (* translatable text *)
    assert (pc = RcStm (RTrans t g)) as -> by congruence. cbn [program]. rewrite single. cbn [M_Run.exec step S_Run.meaning]. unfold under. cbn [truthy_guard].
    unfold trans_stmt. destruct (strip t); cbn [exec_stmt].
    + change (Ok ([VStr t], w0)) with (rmap (fun v => ([v], w0)) (Ok (VStr t))). now apply guarded_sim.
    + apply guarded_sim; try assumption. now apply translate_rel with (rf := rfun) (gen := gen).
  - (* expression *)
    assert (pc = RcStm (RExpr e s)) as -> by congruence. cbn [program]. rewrite single. cbn [M_Run.exec step S_Run.meaning]. destruct s; cbn [exec_stmt].
    + apply (simv_sim py gen (fun v => v)); [apply svalue_same|]. now apply show_sim.
    + destruct (instance_self bcode dcode rfun py gen (s_world st0) w0 p A P) as (si & Es & _). rewrite Es. cbn [rbind].
      apply (simv_sim py gen escape); [apply svalue_escape|]. now apply show_sim.
  - (* attribute *)
    rewrite structure_eq in Hp. destr. assert (pc = RcStm (RAttr a (or_empty l) g m)) as -> by congruence.
    destruct W as (Ug & G1 & G2 & Gx & Wv). cbn [program] in *. rewrite body_eq in *. cbn [step S_Run.meaning].
    set (bd := match v with [] => [Tx [] None] | _ => programs v end) in *.
    assert (RB : rbody py gen bd (or_empty l)).
    { unfold bd. destruct v as [|v0 v]; [assert (l = []) as -> by (cbn in E; congruence); apply rbody_empty|].
      exists (v0 :: v). split; [reflexivity|]. split; [|exact Wv]. destruct l; [|exact E]. now apply structure_cons in E. }
    clearbody bd. change (under py p None w0 ?m) with m. pose proof (under_sim py gen load invoke p g) as US. unfold step_under in *. destruct (truthy_guard g) as [cd|] eqn:Eg.
    + apply (US _ cc CFor st0 w0 _ Ug A). intros c1. apply attr_sim; assumption.
    + apply attr_sim; assumption.
  - (* attributes *)
    assert (pc = RcStm (RAttrs e g m)) as -> by congruence. destruct W as (Ug & Ue & Gx). cbn [program step S_Run.meaning] in *.
    assert (In1 : here (s_world st0) p [x]).
    { eapply here_incl; [|exact Hr]. intros y [<-|[]]. destruct (truthy_guard g); now left. }
    clear Hr. change (under py p None w0 ?m) with m. apply (under_sim py gen load invoke p g); [exact Ug|exact A|]. intros c1;
    rewrite single, exec_bl; cbn [exec_block];
    (destruct (instance_self bcode dcode rfun py gen (s_world st0) w0 p A P) as (si & Es & _)); rewrite Es; cbn [rbind];
    rewrite (attributes_rel bcode dcode rfun py gen (s_world st0) w0 p e A Ue);
    (destruct (attributes py w0 p e) as [attrs|]; [|reflexivity]); cbn [rbind];
    (destruct (render_attrs attrs m) as [chunks|]; [|reflexivity]); cbn [rmap rbind];
    match goal with |- context [loop p ?bb _ ?ss] =>
          destruct (write_chunks py gen Hgen load invoke p x bb chunks [x] ss w0 Gx (or_introl eq_refl) (fun s => eq_refl) A In1) as (s' & El & A4 & U4) end;
    rewrite El; cbn; (spl; [apply sm_refl|now right|exact A4|exact U4]).
  - (* Python *)
    destruct m; [discriminate|]. assert (pc = RcStm (RPython l)) as -> by congruence. cbn [program]. rewrite single. cbn [M_Run.exec step S_Run.meaning].
    pose proof (run_block_rel bcode dcode rfun py gen p (python_of py l) (s_world st0) w0 A W) as RB.
    destruct (run_block py (s_world st0) p (python_of py l)) as [[o1 w1]|], (run_block py w0 p (python_of py l)) as [[o1' w1']|]; cbn [rres] in RB; try contradiction; [|exact RB].
    cbn [fst snd] in RB. destruct RB as (-> & R1 & R2). cbn. spl; [apply sm_refl|destruct (forallb ignored l); [exact Gc|now left]|exact R1|now apply unchanged_world].
Qed.
End Nodes.
