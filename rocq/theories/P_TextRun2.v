(** * Text templates without a reading are refused: proof *)

From Coq Require Import Ascii String List Arith NArith ZArith Bool Lia.
From Verif Require Import PyStr PyStrLemmas M_Values M_IR P_IR M_Template M_Text S_Text P_Text3 P_Text6 S_TextTree P_Text9 M_Dom M_XCompile
  M_Run P_Run4 P_Run5 P_Run8 M_XRun S_XRun P_XRun1 P_XRun2 P_XRun3 S_Run M_TextRun S_TextRun P_TextRun.
From Verif Require S_Exec P_Run12.
Import ListNotations.
Open Scope list_scope.

(** A function body that Python accepts. *)
Definition sound (b : list node) : Prop := exists ss, structure b = Some ss /\ solid (or_pass ss).
Lemma not_empty_solid : forall l b, not_empty l = Some b -> b = l /\ solid l.
Proof. intros l b H. apply P_Run12.not_empty_says in H as [-> H]. split; [reflexivity|]. now apply solid_eq. Qed.
Lemma block_inv : forall l b, obind (structure l) not_empty = Some b -> exists ps, pieces_of l = Some ps /\ assemble ps = Some b /\ solid b.
Proof.
  intros l b H. unfold structure in H. destruct (pieces_of l) as [ps|]; [|discriminate]. cbn [S_Exec.obind] in H. destruct (assemble ps) as [b'|] eqn:A; [|discriminate].
  cbn [S_Exec.obind] in H. apply not_empty_solid in H as [-> H]. now exists ps.
Qed.
Lemma pass_inv : forall l b, obind (structure l) (fun b' => not_empty (or_pass b')) = Some b ->
  exists ps b', pieces_of l = Some ps /\ assemble ps = Some b' /\ b = or_pass b' /\ solid (or_pass b').
Proof.
  intros l b H. unfold structure in H. destruct (pieces_of l) as [ps|]; [|discriminate]. cbn [S_Exec.obind] in H. destruct (assemble ps) as [b'|] eqn:A; [|discriminate].
  cbn [S_Exec.obind] in H. apply not_empty_solid in H as [-> H]. now exists ps, b'.
Qed.
Lemma sound_inv : forall l, sound l -> exists ps b', pieces_of l = Some ps /\ assemble ps = Some b' /\ solid (or_pass b').
Proof.
  intros l (ss & E & S). unfold structure in E. destruct (pieces_of l) as [ps|]; [|discriminate]. cbn [S_Exec.obind] in E. now exists ps, ss.
Qed.
Lemma pieces_cons : forall n l ps, pieces_of (n :: l) = Some ps -> exists p qs, piece_of n = Some p /\ pieces_of l = Some qs /\ ps = p :: qs.
Proof.
  intros n l ps H. cbn [pieces_of] in H. destruct (piece_of n) as [p|]; [|discriminate]. cbn [S_Exec.obind] in H. destruct (pieces_of l) as [qs|]; [|discriminate].
  cbn [option_map] in H. exists p, qs. repeat split. congruence.
Qed.

Section Complete.
Variable autoescape : bool.
Variable helper : nat -> str.
Variable gen : str -> Prop.
Hypothesis helper_gen : forall i, gen (helper i).
Notation nodes := (tree_nodes autoescape helper).
Notation defined := (tree_defined autoescape helper).
Notation Tells := (text_tells autoescape gen).

Theorem complete : forall f i c k ps, pieces_of (nodes i c k f) = Some ps -> Forall (fun kv => sound (snd kv)) (defined i c k f) ->
  exists fs, Tells i c f ps fs (c || tree_extends f).
Proof.
  induction f as [|ln t f IH|ln e f IH|co e b IHb f IH|d b IHb f IH|args call b IHb f IH|name b IHb f IH|ls f IH|ls f IH|fn f IH|fn al f IH|fn f IH|f IH];
    intros i c k ps P D; cbn [tree_nodes tree_defined tree_extends] in *.
  - assert (ps = []) as -> by (cbn in P; congruence). exists []. rewrite orb_false_r. constructor.
  - apply pieces_cons in P as (p & qs & E & P & ->). cbn [piece_of] in E. assert (p = RcStm (RText t None)) as -> by congruence.
    destruct (IH _ _ _ _ P D) as [fs T]. exists fs. now constructor.
  - apply pieces_cons in P as (p & qs & E & P & ->). cbn [piece_of] in E. assert (p = RcStm (RExpr e (negb autoescape))) as -> by congruence.
    destruct (IH _ _ _ _ P D) as [fs T]. exists fs. now constructor.
  - apply Forall_app in D as [Db D]. apply pieces_cons in P as (p & qs & E & P & ->). destruct (IH _ _ _ _ P D) as [gs T]. clear IH. rewrite <- orb_assoc in T.
    destruct co; cbn [construct_node piece_of] in E; rewrite ?structure_eq in E.
    + destruct (obind (structure _) not_empty) as [b'|] eqn:Eb; [|discriminate]. apply block_inv in Eb as (bs & Pb & A & Sd). destruct (IHb _ _ _ _ Pb Db) as [fs Tb].
      cbn [option_map] in E. assert (p = RcStm (RFor e b' [])) as -> by congruence. eexists. eapply tt_for; eassumption.
    + destruct (obind (structure _) not_empty) as [b'|] eqn:Eb; [|discriminate]. apply block_inv in Eb as (bs & Pb & A & Sd). destruct (IHb _ _ _ _ Pb Db) as [fs Tb].
      cbn [option_map] in E. assert (p = RcStm (RIf e b' [])) as -> by congruence. eexists. eapply tt_if; eassumption.
    + destruct (obind (structure _) not_empty) as [b'|] eqn:Eb; [|discriminate]. apply block_inv in Eb as (bs & Pb & A & Sd). destruct (IHb _ _ _ _ Pb Db) as [fs Tb].
      cbn [option_map] in E. assert (p = RcElse b') as -> by congruence. eexists. eapply tt_else; eassumption.
    + rewrite pieces_eq in E. destruct (pieces_of (nodes i c k b)) as [bs|] eqn:Pb; [|discriminate]. destruct (IHb _ _ _ _ Pb Db) as [fs Tb]. cbn [S_Exec.obind] in E.
      destruct (assemble_switch (filter piece_says bs)) as [[cases els]|] eqn:A; [|discriminate]. cbn [option_map fst snd] in E.
      assert (p = RcStm (RSwitch e cases els)) as -> by congruence. eexists. eapply tt_switch; eassumption.
    + destruct (obind (structure _) not_empty) as [b'|] eqn:Eb; [|discriminate]. apply block_inv in Eb as (bs & Pb & A & Sd). destruct (IHb _ _ _ _ Pb Db) as [fs Tb].
      cbn [option_map] in E. assert (p = RcCase e b') as -> by congruence. eexists. eapply tt_case; eassumption.
  - apply Forall_app in D as [Db D]. apply Forall_app in D as [Dd D]. destruct i; cbn [app] in P.
    + apply pieces_cons in P as (p & qs & E & P & ->). destruct (IH _ _ _ _ P D) as [gs T]. rewrite <- orb_assoc in T. cbn [piece_of] in E. rewrite structure_eq in E.
      destruct (obind (structure _) (fun b' => not_empty (or_pass b'))) as [b'|] eqn:Eb; [|discriminate]. apply pass_inv in Eb as (bs & b0 & Pb & A & -> & Sd).
      destruct (IHb _ _ _ _ Pb Db) as [fs Tb]. cbn [option_map] in E. assert (p = RcStm (RDef d (or_pass b0))) as -> by congruence. eexists. eapply tt_inner; eassumption.
    + destruct (IH _ _ _ _ P D) as [gs T]. rewrite <- orb_assoc in T. apply Forall_cons_iff in Dd as [Dd _]. cbn [snd] in Dd. apply sound_inv in Dd as (bs & b0 & Pb & A & Sd).
      destruct (IHb _ _ _ _ Pb Db) as [fs Tb]. eexists. eapply tt_def; eassumption.
  - apply Forall_app in D as [Db D]. apply pieces_cons in P as (p & qs & E & P & ->). destruct (IH _ _ _ _ P D) as [gs T]. rewrite <- orb_assoc in T.
    unfold mk_call in E. cbn [piece_of] in E. rewrite structure_eq in E.
    destruct (obind (structure _) not_empty) as [b'|] eqn:Eb; [|discriminate]. apply block_inv in Eb as (bs & Pb & A & Sd). destruct (IHb _ _ _ _ Pb Db) as [fs Tb].
    cbn [option_map] in E. eexists. assert (X := tt_call autoescape gen i c args call b f _ bs b' fs _ qs gs _ (helper_gen (k + tree_calls b)) Tb A Sd T).
    match type of X with text_tells _ _ _ _ _ (?q :: _) _ _ => assert (p = q) as -> by (unfold with_caller; congruence) end. exact X.
  - apply Forall_app in D as [Db D]. apply Forall_app in D as [Dd D]. apply Forall_cons_iff in Dd as [Dd _]. cbn [snd] in Dd. destruct (c || tree_extends b) eqn:Ec; cbn [app] in *.
    + destruct (IH _ _ _ _ P D) as [gs T]. cbn [orb] in T. apply sound_inv in Dd as (bs & b0 & Pb & A & Sd).
      apply pieces_cons in Pb as (p & qs & E & Pb & ->). cbn [piece_of] in E. assert (p = RcStm (RPython [L "parent_block=parent._kj_block_" ++ name])) as -> by congruence.
      destruct (IHb _ _ _ _ Pb Db) as [fs Tb]. rewrite Ec in Tb. rewrite orb_assoc, Ec. cbn [orb]. 
      assert (exists b', assemble qs = Some b') as [b' A'].
      { unfold assemble in *. cbn [attach] in A. destruct (attach qs) as [[[els|] r]|]; [|eexists; reflexivity|discriminate]. discriminate. }
      eexists. eapply tt_override; eassumption.
    + apply pieces_cons in P as (p & qs & E & P & ->). destruct (IH _ _ _ _ P D) as [gs T]. cbn [orb] in T. cbn [piece_of] in E.
      assert (p = RcStm (RExpr (L "_kj_block_" ++ name ++ L "()") false)) as -> by congruence. apply sound_inv in Dd as (bs & b0 & Pb & A & Sd).
      destruct (IHb _ _ _ _ Pb Db) as [fs Tb]. rewrite Ec in Tb. rewrite orb_assoc, Ec. cbn [orb]. eexists. eapply tt_block; eassumption.
  - apply pieces_cons in P as (p & qs & E & P & ->). cbn [piece_of] in E. assert (p = RcStm (RPython ls)) as -> by congruence.
    destruct (IH _ _ _ _ P D) as [fs T]. exists fs. now constructor.
  - destruct (IH _ _ _ _ P D) as [fs T]. eexists. apply tt_module; exact T.
  - apply pieces_cons in P as (p & qs & E & P & ->). cbn [piece_of] in E. assert (p = RcStm (RExtend fn)) as -> by congruence.
    destruct (IH _ _ _ _ P D) as [fs T]. exists fs. rewrite orb_true_r. now constructor.
  - apply pieces_cons in P as (p & qs & E & P & ->). cbn [piece_of] in E. assert (p = RcStm (RImport fn al)) as -> by congruence.
    destruct (IH _ _ _ _ P D) as [fs T]. exists fs. now constructor.
  - apply pieces_cons in P as (p & qs & E & P & ->). cbn [piece_of] in E. assert (p = RcStm (RInclude fn)) as -> by congruence.
    destruct (IH _ _ _ _ P D) as [fs T]. exists fs. now constructor.
  - destruct (IH _ _ _ _ P D) as [fs T]. eexists. apply tt_nothing; exact T.
Qed.

Lemma declared_names : forall f i c k, map fst (defined i c k f) = declared i f.
Proof.
  induction f as [|ln t f IH|ln e f IH|co e b IHb f IH|d b IHb f IH|args call b IHb f IH|name b IHb f IH|ls f IH|ls f IH|fn f IH|fn al f IH|fn f IH|f IH];
    intros i c k; cbn [tree_defined declared]; rewrite ?map_app, ?IH, ?IHb; try reflexivity. now destruct i.
Qed.
Lemma nodes_in_place : forall f sw i c k, items_in_place sw f ->
  Forall (in_place sw) (nodes i c k f) /\ Forall (fun kv => Forall (in_place false) (snd kv)) (defined i c k f).
Proof.
  assert (A : forall sw l, Forall (in_place sw) l -> (fix go (switch : bool) (l : list node) : Prop := match l with [] => True | m :: l' => in_place switch m /\ go switch l' end) sw l).
  { intros sw l F. rewrite P_Run12.all_in_place_eq. now apply P_Run12.all_in_place_Forall. }
  induction f as [|ln t f IH|ln e f IH|co e b IHb f IH|d b IHb f IH|args call b IHb f IH|name b IHb f IH|ls f IH|ls f IH|fn f IH|fn al f IH|fn f IH|f IH];
    intros sw i c k H; cbn [tree_nodes tree_defined items_in_place] in *.
  - split; constructor.
  - destruct H as [-> H]. destruct (IH false i c k H). split; [constructor; [reflexivity|assumption]|assumption].
  - destruct H as [-> H]. destruct (IH false i c k H). split; [constructor; [reflexivity|assumption]|assumption].
  - assert (exists s1, items_in_place s1 b /\ items_in_place sw f /\ forall l, Forall (in_place s1) l -> in_place sw (construct_node co e l)) as (s1 & Hb & Hf & X).
    { destruct co; [exists false|exists false|exists false|exists true|exists false]; [destruct H as (-> & Hb & Hf)|destruct H as (-> & Hb & Hf)|destruct H as (Hb & Hf)|destruct H as (-> & Hb & Hf)|destruct H as (-> & Hb & Hf)];
        (split; [exact Hb|split; [exact Hf|]]; intros l F; cbn [construct_node in_place]; try (split; [reflexivity|]); now apply A). }
    destruct (IH sw i (c || tree_extends b) (k + tree_calls b) Hf), (IHb s1 i c k Hb). split; [constructor; [now apply X|assumption]|now apply Forall_app].
  - destruct H as (-> & Hb & Hf). destruct (IH false i (c || tree_extends b) (k + tree_calls b) Hf), (IHb false true c k Hb).
    destruct i; cbn [app]; (split; [|apply Forall_app; split; [assumption|]]); try assumption; constructor; try assumption. cbn [in_place]. split; [reflexivity|]. split; [reflexivity|]. now apply A.
  - destruct H as (-> & Hb & Hf). destruct (IH false i (c || tree_extends b) (k + tree_calls b + 1) Hf), (IHb false i c k Hb).
    split; [constructor; [|assumption]|now apply Forall_app]. unfold mk_call. cbn [in_place]. split; [reflexivity|]. now apply A.
  - destruct H as (-> & Hb & Hf). destruct (IH false i (c || tree_extends b) (k + tree_calls b) Hf), (IHb false i c k Hb).
    destruct (c || tree_extends b); cbn [app]; (split; [|apply Forall_app; split; [assumption|constructor; [|assumption]]]); try assumption.
    + cbn [snd]. constructor; [|assumption]. cbn [in_place]. now split.
    + constructor; [reflexivity|assumption].
  - destruct H as [X H]. destruct (IH sw i c k H). split; [constructor; [|assumption]|assumption]. cbn [in_place]. now split.
  - now apply IH.
  - destruct H as [-> H]. destruct (IH false i true k H). split; [constructor; [reflexivity|assumption]|assumption].
  - destruct H as [-> H]. destruct (IH false i c k H). split; [constructor; [reflexivity|assumption]|assumption].
  - destruct H as [-> H]. destruct (IH false i c k H). split; [constructor; [reflexivity|assumption]|assumption].
  - now apply IH.
Qed.
End Complete.

Lemma functions_sound : forall l fs ln d b, functions_of l = Some fs -> In (NDef ln false d b) l -> sound b.
Proof.
  induction l as [|n l IH]; intros fs ln d b E I; [destruct I|]. destruct n as [| | | |ln' i d' b'| | | | | | | | | | | | | ]; try discriminate E. destruct i; [discriminate E|].
  cbn [functions_of] in E. destruct (obind (structure b') (fun b' => not_empty (or_pass b'))) as [b1|] eqn:Eb; [|discriminate]. cbn [S_Exec.obind] in E.
  destruct (functions_of l) as [fs'|]; [|discriminate]. destruct I as [E1|I]; [|now apply (IH fs' ln d b)].
  assert (b' = b) as -> by congruence. unfold sound. destruct (structure b) as [ss|]; [|discriminate]. cbn [S_Exec.obind] in Eb. exists ss. split; [reflexivity|]. now apply not_empty_solid in Eb.
Qed.
Lemma last_def_in : forall n b l1 l2, ~ In n (map fst l2) -> last_def n (l1 ++ (n, b) :: l2) = b.
Proof.
  intros n b l1 l2 H. unfold last_def. rewrite fold_left_app. cbn [fold_left fst snd]. rewrite seqb_refl. revert b H. induction l2 as [|[k v] l2 IH]; intros b H; [reflexivity|].
  cbn [fold_left fst snd]. cbn [map fst In] in H. destruct (seqb k n) eqn:E; [apply seqb_eq in E; tauto|]. apply IH. tauto.
Qed.

Theorem text_complete : forall compile shlex_split (gen : str -> Prop) x ts f, (forall i, gen (t_helper x i)) ->
  t_file x = true \/ t_text x <> [] -> lex compile None 1 (t_text x) ts -> Forall block_on_a_line ts -> taken shlex_split f ts ->
  items_in_place false f -> NoDup (L "__main__()" :: declared false f) ->
  exists t, text_tree compile shlex_split x = Ok t /\ Forall function_in_place (defs t) /\
    (functions_of (defs t) <> None -> exists r, text_says compile shlex_split gen x r).
Proof.
  intros compile shlex_split gen x ts f Hg Ne Lx Bl W Pl Nd. exists (tree_template (t_autoescape x) (t_helper x) f).
  destruct (nodes_in_place (t_autoescape x) (t_helper x) f false false false 0 Pl) as [P1 P2].
  set (ns := tree_nodes (t_autoescape x) (t_helper x) false false 0 f) in *. set (ds := tree_defined (t_autoescape x) (t_helper x) false false 0 f) in *.
  assert (Nd' : NoDup (L "__main__()" :: map fst ds)) by (unfold ds; now rewrite declared_names). clear Nd. apply NoDup_cons_iff in Nd' as [Nm Nd].
  assert (Ed : defs (tree_template (t_autoescape x) (t_helper x) f) =
    map (fun n => NDef 0 false n (last_def n ((L "__main__()", []) :: ds ++ [(L "__main__()", ns)]))) (first_names [] ((L "__main__()", []) :: ds ++ [(L "__main__()", ns)]))) by reflexivity.
  assert (Lm : last_def (L "__main__()") ((L "__main__()", []) :: ds ++ [(L "__main__()", ns)]) = ns).
  { change ((L "__main__()", []) :: ds ++ [(L "__main__()", ns)]) with (((L "__main__()", []) :: ds) ++ (L "__main__()", ns) :: []). apply last_def_in. intros []. }
  assert (Ld : forall d b, In (d, b) ds -> last_def d ((L "__main__()", []) :: ds ++ [(L "__main__()", ns)]) = b).
  { intros d b I. destruct (in_split _ _ I) as (l1 & l2 & E).
    assert (Hm : d <> L "__main__()") by (intros ->; apply Nm; apply (in_map fst) in I; exact I).
    rewrite E in Nd |- *. rewrite map_app in Nd. cbn [map fst] in Nd. apply NoDup_remove_2 in Nd. rewrite <- app_assoc. cbn [app].
    change ((L "__main__()", []) :: l1 ++ (d, b) :: l2 ++ [(L "__main__()", ns)]) with (((L "__main__()", []) :: l1) ++ (d, b) :: l2 ++ [(L "__main__()", ns)]).
    apply last_def_in. rewrite map_app. intros I2. apply in_app_or in I2 as [I2|[I2|[]]]; [apply Nd; apply in_or_app; now right|]. cbn [fst] in I2. congruence. }
  split; [|split].
  - unfold text_tree, text_template. pose proof (lex_scan _ _ _ Lx) as ->.
    rewrite (proj2 (parse_exact (t_autoescape x) shlex_split (t_helper x) ts _ Bl) (ex_intro _ f (conj W eq_refl))). destruct (t_file x); [reflexivity|]. destruct (t_text x); [destruct Ne; congruence|reflexivity].
  - rewrite Ed. apply Forall_forall. intros n I. apply in_map_iff in I as (d & <- & I). apply first_names_in in I as [I _]. cbn [function_in_place].
    cbn [map fst In] in I. rewrite map_app, in_app_iff in I. cbn [map fst In] in I.
    assert (I' : d = L "__main__()" \/ In d (map fst ds)) by (destruct I as [I|[I|[I|[]]]]; [left; now symmetry|now right|left; now symmetry]). clear I.
    destruct I' as [->|I]; [now rewrite Lm|]. apply in_map_iff in I as ([d' b] & E & I). cbn [fst] in E. subst d'. rewrite (Ld d b I). rewrite Forall_forall in P2. exact (P2 _ I).
  - intros Hf. destruct (functions_of _) as [fs|] eqn:Ef; [|now elim Hf]. clear Hf. rewrite Ed in Ef.
    assert (Sn : sound ns).
    { apply (functions_sound _ _ 0 (L "__main__()") ns Ef). apply in_map_iff. exists (L "__main__()"). rewrite Lm. split; [reflexivity|]. apply first_names_in. split; [now left|reflexivity]. }
    assert (Sd : Forall (fun kv => sound (snd kv)) ds).
    { apply Forall_forall. intros [d b] I. cbn [snd]. apply (functions_sound _ _ 0 d b Ef). apply in_map_iff. exists d. rewrite (Ld d b I). split; [reflexivity|].
      apply first_names_in. split; [|reflexivity]. right. rewrite map_app. apply in_or_app. left. apply (in_map fst) in I. exact I. }
    apply sound_inv in Sn as (ps & b & P & A & S). destruct (complete (t_autoescape x) (t_helper x) gen Hg f false false 0 ps P Sd) as [gs T].
    eexists. eapply text_reading; eassumption.
Qed.
