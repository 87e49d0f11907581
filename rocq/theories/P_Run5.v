(** * Whole templates: the local names of functions *)

From Coq Require Import Ascii String List NArith ZArith Bool Lia Arith.
From Verif Require Import PyStr PyStrLemmas M_Values M_IR S_IR M_Template M_Run S_Run P_IR P_Run1 P_Run4.
From Verif Require M_Exec S_Exec P_Exec2.
Import ListNotations.
Open Scope list_scope.

Section Names.
Variable py : python.
Variable gen : str -> Prop.
Hypothesis Hgen : generated_names py gen.
Notation names := (names py).
Notation all_names := (all_names py).
Notation binds := (binds py).
Notation well_named := (well_named py gen).

Fixpoint well_names (l : list node) : Prop :=
  match l with [] => True | m :: l' => well_named m /\ well_names l' end.

Lemma names_all : forall l, (fix go (l : list blk) : list str := match l with [] => [] | b :: l' => names b ++ go l' end) l = all_names l.
Proof. induction l as [|b l IH]; [reflexivity|]. unfold M_Run.all_names in *. cbn [flat_map]. now rewrite <- IH. Qed.
Lemma binds_all : forall l, (fix go (l : list rstm) : list str := match l with [] => [] | s :: l' => binds s ++ go l' end) l = flat_map binds l.
Proof. induction l as [|b l IH]; [reflexivity|]. cbn [flat_map]. now rewrite <- IH. Qed.
Lemma binds_cases : forall l, (fix go (l : list (str * list rstm)) : list str := match l with [] => [] | (_, b) :: l' =>
   (fix go (l : list rstm) : list str := match l with [] => [] | s :: l' => binds s ++ go l' end) b ++ go l' end) l = flat_map (fun cb => flat_map binds (snd cb)) l.
Proof. induction l as [|[c b] l IH]; [reflexivity|]. cbn [flat_map snd]. now rewrite binds_all, IH. Qed.
Lemma names_join : forall l, all_names (join_texts l) = all_names l.
Proof.
  induction l as [|b l IH]; [reflexivity|]. destruct b as [t g|q|h body|ls]; try (unfold M_Run.all_names in *; cbn [join_texts flat_map]; now rewrite IH).
  unfold M_Run.all_names in *. cbn [join_texts flat_map M_Run.names app]. rewrite <- IH.
  destruct (join_texts l) as [|[t' g'|q|h body|ls] r]; try reflexivity. destruct (oseqb g g'); reflexivity.
Qed.
Lemma names_app : forall a b, all_names (a ++ b) = all_names a ++ all_names b.
Proof. intros. apply flat_map_app. Qed.
Lemma body_eq : forall l, join_texts ((fix go (l : list node) : list blk :=
                match l with [] => [] | m :: l' => program m ++ go l' end) l) = programs l.
Proof. intros l. now rewrite P_Exec2.program_bodies. Qed.
Lemma structure_eq : forall l, obind ((fix go (l : list node) : option (list rpiece) :=
     match l with
     | [] => Some []
     | m :: l' => obind (piece_of m) (fun p => option_map (cons p) (go l'))
     end) l) assemble = structure l.
Proof. intros l. now rewrite pieces_eq. Qed.

Definition pbinds (pc : rpiece) : list str :=
  match pc with RcStm s => binds s | RcElse b => flat_map binds b | RcCase _ b => flat_map binds b end.
Lemma comment_binds : forall s, says_something s = false -> binds s = [].
Proof.
  intros [] E; try discriminate. cbn [says_something] in E. cbn [S_Run.binds]. unfold python_of.
  now destruct (forallb ignored lines).
Qed.
Lemma with_else_binds : forall s els s', fresh (RcStm s) -> with_else s els = Some s' ->
  forall x, In x (flat_map binds s') <-> In x (binds s) \/ In x (flat_map binds els).
Proof.
  intros s els s' F H x. destruct s as [ |t g|t g|y safe|cd b e0|d b e0|vars b|d cases e0|a v g mode|y g mode|d b|d cl b|t a|t|t|ls]; cbn [with_else] in H; try discriminate;
    try (destruct (truthy_guard g) as [cd|]); try discriminate; cbn [option_map fresh] in *; try subst e0;
    match type of H with Some ?v = Some _ => assert (s' = v) as -> by congruence end; cbn [flat_map S_Run.binds app]; rewrite ?binds_all, ?app_nil_r, ?in_app_iff; cbn [flat_map In app S_Run.binds]; tauto.
Qed.
Lemma attach_binds : forall ps o r, Forall fresh ps -> attach ps = Some (o, r) ->
  forall x, In x (flat_map pbinds ps) <-> In x (flat_map binds match o with Some els => els | None => [] end) \/ In x (flat_map binds r).
Proof.
  induction ps as [|pc ps IH]; intros o r F H x.
  { cbn in H. assert (o = None /\ r = []) as [-> ->] by (split; congruence). cbn. tauto. }
  apply Forall_cons_iff in F as [F1 F2]. cbn [attach] in H. cbn [flat_map]. rewrite in_app_iff.
  destruct pc as [s|b|cd b]; [| |discriminate].
  - destruct (attach ps) as [[[els|] r0]|] eqn:E; [| |discriminate]; specialize (IH _ _ F2 eq_refl x); rewrite IH; cbn [pbinds].
    + destruct (says_something s) eqn:Es.
      * destruct (with_else s els) as [s'|] eqn:Ew; [|discriminate]. cbn [option_map] in H. assert (o = None /\ r = s' ++ r0) as [-> ->] by (split; congruence).
        rewrite flat_map_app, in_app_iff, (with_else_binds s els s' F1 Ew x). cbn [flat_map In]. tauto.
      * assert (o = Some els /\ r = s :: r0) as [-> ->] by (split; congruence). cbn [flat_map]. rewrite (comment_binds s Es). cbn [In app]. tauto.
    + assert (o = None /\ r = s :: r0) as [-> ->] by (split; congruence). cbn [flat_map In]. rewrite in_app_iff. tauto.
  - destruct (attach ps) as [[[els|] r0]|] eqn:E; [discriminate| |discriminate]. specialize (IH _ _ F2 eq_refl x). rewrite IH. cbn [pbinds].
    assert (o = Some b /\ r = r0) as [-> ->] by (split; congruence). cbn [flat_map In]. tauto.
Qed.
Lemma assemble_binds : forall ps ss, Forall fresh ps -> assemble ps = Some ss ->
  forall x, In x (flat_map binds ss) <-> In x (flat_map pbinds ps).
Proof.
  intros ps ss F H x. unfold assemble in H. destruct (attach ps) as [[[els|] r]|] eqn:E; [discriminate| |discriminate].
  assert (ss = r) as -> by congruence. rewrite (attach_binds ps None r F E x). cbn [flat_map In]. tauto.
Qed.
Lemma filter_binds : forall ps, flat_map pbinds (filter piece_says ps) = flat_map pbinds ps.
Proof.
  induction ps as [|pc ps IH]; [reflexivity|]. cbn [filter flat_map]. destruct (piece_says pc) eqn:E; [cbn [flat_map]; now rewrite IH|].
  destruct pc as [s| |]; try discriminate. cbn [pbinds piece_says] in *. now rewrite (comment_binds s E), IH.
Qed.
Lemma switch_binds : forall d ps cs els, assemble_switch ps = Some (cs, els) -> forall x, In x (binds (RSwitch d cs els)) <-> In x (flat_map pbinds ps).
Proof.
  intros d. cbn [S_Run.binds]. induction ps as [|pc ps IH]; intros cs els H x.
  - cbn in H. assert (cs = [] /\ els = []) as [-> ->] by (split; congruence). reflexivity.
  - destruct pc as [s|b|cd b]; [discriminate| |].
    + destruct ps; [|discriminate]. cbn in H. assert (cs = [] /\ els = b) as [-> ->] by (split; congruence). rewrite binds_all. cbn [flat_map pbinds app]. now rewrite app_nil_r.
    + cbn [assemble_switch] in H. destruct (assemble_switch ps) as [[cs' els']|] eqn:E; [|discriminate]. cbn [option_map fst snd] in H.
      assert (cs = (cd, b) :: cs' /\ els = els') as [-> ->] by (split; congruence). specialize (IH cs' els' eq_refl x).
      rewrite binds_cases, !binds_all in *. cbn [flat_map pbinds snd]. rewrite !in_app_iff in *. tauto.
Qed.

Definition names_ok (n : node) : Prop := forall pc, piece_of n = Some pc -> well_named n ->
  forall x, (In x (all_names (program n)) -> ~ In x reserved) /\ (~ gen x -> (In x (all_names (program n)) <-> In x (pbinds pc))).
Lemma names_pieces : forall l, Forall names_ok l -> forall ps, pieces_of l = Some ps -> well_names l ->
  forall x, (In x (all_names (programs l)) -> ~ In x reserved) /\ (~ gen x -> (In x (all_names (programs l)) <-> In x (flat_map pbinds ps))).
Proof.
  intros l H ps P W x. unfold programs. rewrite names_join. revert ps P W. induction H as [|n l Hn H IH]; intros ps P W.
  - cbn in P. assert (ps = []) as -> by congruence. split; [intros []|tauto].
  - cbn [pieces_of] in P. destruct (piece_of n) as [pc|] eqn:Ep; [|discriminate]. cbn [S_Exec.obind] in P. destruct (pieces_of l) as [ps'|] eqn:El; [|discriminate].
    cbn [option_map] in P. assert (ps = pc :: ps') as -> by congruence. destruct W as [Wn Wl]. destruct (Hn pc Ep Wn x) as [A1 A2]. destruct (IH ps' eq_refl Wl) as [B1 B2].
    cbn [flat_map]. rewrite names_app, !in_app_iff. tauto.
Qed.
Lemma names_body : forall l, Forall names_ok l -> forall ss, structure l = Some ss -> well_names l ->
  forall x, (In x (all_names (programs l)) -> ~ In x reserved) /\ (~ gen x -> (In x (all_names (programs l)) <-> In x (flat_map binds ss))).
Proof.
  intros l H ss S W x. unfold structure in S. destruct (pieces_of l) as [ps|] eqn:E; [|discriminate]. cbn [S_Exec.obind] in S.
  rewrite (assemble_binds ps ss (pieces_fresh _ _ E) S x). now apply names_pieces.
Qed.

Lemma not_empty_some : forall (o : option (list rstm)) l, obind o not_empty = Some l -> o = Some l.
Proof. intros [b|] l H; [|discriminate]. cbn [S_Exec.obind] in H. unfold not_empty in H. destruct (existsb _ b); [exact H|discriminate]. Qed.
Lemma not_empty_or : forall (f : list rstm -> list rstm) (o : option (list rstm)) l, obind o (fun b => not_empty (f b)) = Some l -> exists b, o = Some b /\ l = f b.
Proof.
  intros f [b|] l H; [|discriminate]. exists b. cbn [S_Exec.obind] in H. unfold not_empty in H. destruct (existsb _ (f b)); [|discriminate].
  split; congruence.
Qed.
Ltac destr := repeat match goal with
  | H : option_map _ ?x = Some _ |- _ => let E := fresh "E" in destruct x eqn:E; [cbn [option_map] in H|discriminate H]
  end;
  repeat match goal with
  | H : obind _ not_empty = Some _ |- _ => apply not_empty_some in H
  | H : obind _ (fun b => not_empty (_ b)) = Some ?l |- _ =>
      let b := fresh "b" in let E := fresh "E" in apply not_empty_or in H as (b & H & E); subst l; rename b into l
  end.

Lemma names_all_ok : forall n, names_ok n.
Proof.
  induction n using node_ind'; intros pc Hp W y; cbn [piece_of] in Hp; try discriminate Hp; cbn [S_Run.well_named] in W.
  - assert (pc = RcStm RPass) as -> by congruence. cbn. tauto.
  - assert (pc = RcStm (RImport t a)) as -> by congruence. cbn. tauto.
  - assert (pc = RcStm (RInclude t)) as -> by congruence. cbn. tauto.
  - assert (pc = RcStm (RExtend t)) as -> by congruence. cbn. tauto.
  - (* def *)
    destruct i; [|discriminate]. destr. assert (pc = RcStm (RDef d (or_pass l))) as -> by congruence.
    destruct W as [[W _] _]. cbn [program]. unfold M_Run.all_names. cbn. split; [|tauto]. intros [<-|[]]. exact W.
  - (* call *)
    destr. assert (pc = RcStm (RCall d c l)) as -> by congruence.
    destruct W as [[W _] _]. cbn [program]. unfold M_Run.all_names. cbn. split; [|tauto]. intros [<-|[]]. exact W.
  - (* for *)
    rewrite structure_eq in Hp. destr. assert (pc = RcStm (RFor d l [])) as -> by congruence. destruct W as [[W1 W2] W3].
    cbn [program]. rewrite body_eq. unfold M_Run.all_names at 1 2. cbn [flat_map M_Run.names pbinds S_Run.binds app]. rewrite app_nil_r, names_all, binds_all, app_nil_r.
    destruct (names_body b H l E W3 y) as [A1 A2]. rewrite !in_app_iff. split; [|tauto]. intros [I1|I1]; [|tauto]. rewrite Forall_forall in W1. now apply W1.
  - (* with *)
    rewrite structure_eq in Hp. destr. assert (pc = RcStm (RWith v l)) as -> by congruence. destruct W as [W1 W2].
    cbn [program]. rewrite body_eq. cbn [pbinds S_Run.binds]. rewrite binds_all.
    assert (N1 : flat_map M_Exec.targets (map fst v) = map fst v).
    { apply P_Exec2.targets_names. rewrite Forall_map. eapply Forall_impl; [|exact W1]. intros [k e] [K _]. exact K. }
    assert (N2 : all_names (map (fun kv : str * str => St (PAssign (fst kv) (snd kv))) v) = map fst v).
    { rewrite <- N1. clear. induction v as [|[k e] v IH]; [reflexivity|]. unfold M_Run.all_names in *. cbn [map flat_map fst snd M_Run.names stmt_names]. now rewrite IH. }
    change (St (PPushWith (map fst v)) :: ?a ++ ?b) with ([St (PPushWith (map fst v))] ++ a ++ b).
    rewrite !names_app, N2. replace (all_names [St (PPopWith (map fst v))]) with (map fst v) by (unfold M_Run.all_names; cbn [flat_map M_Run.names stmt_names]; now rewrite app_nil_r).
    change (all_names [St (PPushWith (map fst v))]) with (@nil str). cbn [app]. destruct (names_body b H l E W2 y) as [A1 A2]. rewrite !in_app_iff.
    assert (K : In y (map fst v) -> ~ In y reserved). { intros I1. apply in_map_iff in I1 as ([k e] & <- & I1). rewrite Forall_forall in W1. apply W1 in I1. apply I1. }
    tauto.
  - (* switch *)
    rewrite pieces_eq in Hp. destr. destruct p as [cases els]. cbn [fst snd] in Hp. assert (pc = RcStm (RSwitch d cases els)) as -> by congruence. destruct W as [_ W].
    destruct (pieces_of b) as [ps|] eqn:Eb; [|discriminate]. cbn [S_Exec.obind] in E. destruct (names_pieces b H ps Eb W y) as [A1 A2].
    cbn [program pbinds]. rewrite body_eq. rewrite (switch_binds d _ cases els E y), filter_binds.
    change (St (PPushSwitch d) :: St PIfFalse :: ?a ++ ?b) with ([St (PPushSwitch d); St PIfFalse] ++ a ++ b). rewrite !names_app.
    change (all_names [St (PPushSwitch d); St PIfFalse]) with (@nil str). change (all_names [St PPopSwitch]) with (@nil str). rewrite app_nil_r. cbn [app]. now split.
  - (* case *)
    rewrite structure_eq in Hp. destr. assert (pc = RcCase d l) as -> by congruence. destruct W as [_ W].
    cbn [program pbinds]. rewrite body_eq. unfold M_Run.all_names at 1 2. cbn [flat_map M_Run.names]. rewrite app_nil_r, names_all. now apply names_body.
  - (* if *)
    rewrite structure_eq in Hp. destr. assert (pc = RcStm (RIf d l [])) as -> by congruence. destruct W as [_ W].
    cbn [program pbinds S_Run.binds]. rewrite body_eq, binds_all, app_nil_r. unfold M_Run.all_names at 1 2. cbn [flat_map M_Run.names]. rewrite app_nil_r, names_all. now apply names_body.
  - (* else *)
    rewrite structure_eq in Hp. destr. assert (pc = RcElse l) as -> by congruence.
    cbn [program pbinds]. rewrite body_eq. unfold M_Run.all_names at 1 2. cbn [flat_map M_Run.names]. rewrite app_nil_r, names_all. now apply names_body.
  - assert (pc = RcStm (RText t g)) as -> by congruence. cbn. tauto.
  - assert (pc = RcStm (RTrans t g)) as -> by congruence. cbn [program]. unfold trans_stmt. destruct (strip t); cbn; tauto.
  - assert (pc = RcStm (RExpr e s)) as -> by congruence. cbn [program]. destruct s; cbn; tauto.
  - (* attribute *)
    destr. assert (pc = RcStm (RAttr a (or_empty l) g m)) as -> by congruence. destruct W as (_ & G1 & G2 & Gx & _). cbn [program].
    destruct (truthy_guard g); cbn; (split; [intros [<-|[<-|[<-|[]]]]; now apply Hgen|]); intros N0; (split; [|tauto]); intros [<-|[<-|[<-|[]]]]; contradiction.
  - assert (pc = RcStm (RAttrs e g m)) as -> by congruence. destruct W as (_ & _ & Gx). cbn [program].
    destruct (truthy_guard g); cbn; (split; [intros [<-|[]]; now apply Hgen|]); intros N0; (split; [|tauto]); intros [<-|[]]; contradiction.
  - (* Python *)
    destruct m; [discriminate|]. assert (pc = RcStm (RPython l)) as -> by congruence. cbn [program pbinds S_Run.binds]. unfold M_Run.all_names. cbn [flat_map M_Run.names]. rewrite app_nil_r.
    split; [|tauto]. intros I1. apply in_flat_map in I1 as (s & Is & I1). rewrite Forall_forall in W. specialize (W s Is).
    destruct s as [x e|xs ys f]; cbn [pystm_names user_stm] in *.
    + destruct I1 as [<-|[]]. apply W.
    + destruct W as [W _]. rewrite Forall_forall in W. now apply W.
Qed.

(** The body of a function. *)
Definition rbody (bl : list blk) (ss : list rstm) : Prop :=
  exists nodes, bl = programs nodes /\ structure nodes = Some ss /\ well_names nodes.
Lemma rbody_names : forall bl ss, rbody bl ss -> forall x,
  (In x (all_names bl) -> ~ In x reserved) /\ (~ gen x -> smem x (all_names bl) = smem x (flat_map binds ss)).
Proof.
  intros bl ss (l & -> & S & W) x. assert (F : Forall names_ok l) by (apply Forall_forall; intros n _; apply names_all_ok).
  destruct (names_body l F ss S W x) as [A1 A2]. split; [exact A1|]. intros N0. specialize (A2 N0).
  destruct (smem x (all_names (programs l))) eqn:E1, (smem x (flat_map binds ss)) eqn:E2; try reflexivity.
  - apply smem_In in E1. apply smem_notIn in E2. tauto.
  - apply smem_notIn in E1. apply smem_In in E2. tauto.
Qed.
Lemma rbody_pass : rbody [St PPass] [RPass].
Proof. exists [NPass 0]. repeat split. Qed.
Lemma rbody_empty : rbody [Tx [] None] [RText [] None].
Proof. exists [NText 0 [] None]. repeat split. Qed.
End Names.
