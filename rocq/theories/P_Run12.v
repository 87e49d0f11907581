(** * Whole templates are accepted by Python's parser: proofs *)

From Coq Require Import Ascii String List NArith ZArith Bool Lia Arith.
From Verif Require Import PyStr PyStrLemmas M_Values M_IR S_IR P_IR M_Template M_Run S_Run P_Run4 P_Run5.
From Verif Require Import M_Exec.
From Verif Require S_Exec P_Exec2 P_Exec3 P_Exec4.
Import ListNotations.
Open Scope list_scope.

Notation last_leaves := P_Exec4.last_leaves.

(** Blocks that are not empty. *)
Lemma piece_counts : forall n p, piece_of n = Some p -> P_Exec4.node_counts n = piece_says p.
Proof.
  intros n p H. destruct n; cbn [piece_of] in H; try discriminate; try (injection H as <-; reflexivity);
    try (match type of H with (if ?x then _ else _) = _ => destruct x; try discriminate end); try (injection H as <-; reflexivity);
    match type of H with option_map _ ?x = _ => destruct x; [|discriminate] end; cbn [option_map] in H; injection H as <-; reflexivity.
Qed.
Lemma pieces_count : forall l ps, pieces_of l = Some ps -> existsb P_Exec4.node_counts l = existsb piece_says ps.
Proof.
  induction l as [|n l IH]; intros ps H; cbn [pieces_of] in H; [injection H as <-; reflexivity|].
  destruct (piece_of n) as [p|] eqn:E; [|discriminate]. cbn [S_Exec.obind] in H. destruct (pieces_of l) as [ps'|]; [|discriminate].
  cbn [option_map] in H. injection H as <-. cbn [existsb]. now rewrite (piece_counts n p E), (IH ps').
Qed.
Lemma with_else_says : forall s els s', with_else s els = Some s' -> existsb says_something s' = true.
Proof. intros s els s' H. destruct s; cbn [with_else] in H; try discriminate; try (destruct (truthy_guard g); try discriminate); injection H as <-; reflexivity. Qed.
Lemma attach_says : forall ps o b, attach ps = Some (o, b) -> existsb piece_says ps = match o with Some _ => true | None => existsb says_something b end.
Proof.
  induction ps as [|p ps IH]; intros o b A; cbn [attach] in A; [assert (o = None /\ b = []) as [-> ->] by (split; congruence); reflexivity|].
  destruct p as [s|x|c x]; [| |discriminate]; cbn [existsb piece_says].
  - destruct (attach ps) as [[[els|] r]|]; [| |discriminate]; rewrite (IH _ _ eq_refl).
    + rewrite orb_true_r. destruct (says_something s).
      * destruct (with_else s els) as [s'|] eqn:E; [|discriminate]. cbn [option_map] in A. assert (o = None /\ b = s' ++ r) as [-> ->] by (split; congruence).
        now rewrite existsb_app, (with_else_says s els s' E).
      * assert (o = Some els) as -> by congruence. reflexivity.
    + assert (o = None /\ b = s :: r) as [-> ->] by (split; congruence). reflexivity.
  - destruct (attach ps) as [[[els|] r]|]; [discriminate| |discriminate]. assert (o = Some x) as -> by congruence. reflexivity.
Qed.
Lemma assemble_says : forall ps b, assemble ps = Some b -> existsb says_something b = existsb piece_says ps.
Proof.
  intros ps b A. unfold assemble in A. destruct (attach ps) as [[[els|] r]|] eqn:E; [discriminate| |discriminate]. assert (b = r) as -> by congruence.
  now rewrite (attach_says ps _ _ E).
Qed.
Lemma body_counts : forall l b, structure l = Some b -> existsb counts (programs l) = existsb says_something b.
Proof.
  intros l b S. unfold structure in S. destruct (pieces_of l) as [ps|] eqn:E; [|discriminate]. cbn [S_Exec.obind] in S.
  now rewrite P_Exec4.programs_count, (pieces_count l ps E), (assemble_says _ _ S).
Qed.
Lemma not_empty_says : forall l b, not_empty l = Some b -> b = l /\ existsb says_something l = true.
Proof. intros l b H. unfold not_empty in H. destruct (existsb says_something l); [|discriminate]. split; [congruence|reflexivity]. Qed.

(** What may come before a piece, and what it leaves. *)
Definition joinsb (p : rpiece) (b : before) : bool :=
  match p with
  | RcStm _ => true
  | RcElse _ => match b with BNone => false | _ => true end
  | RcCase _ _ => match b with BIf => true | _ => false end
  end.
Definition leavesb (p : rpiece) (b : before) : before :=
  match p with
  | RcStm s => if says_something s then leaving s else b
  | RcElse _ => BNone
  | RcCase _ _ => BIf
  end.
Fixpoint fitsb (b : before) (ps : list rpiece) : bool :=
  match ps with [] => true | p :: ps' => joinsb p b && fitsb (leavesb p b) ps' end.
Definition is_some {A : Type} (o : option A) : bool := match o with Some _ => true | None => false end.

Definition no_case (p : rpiece) : Prop := match p with RcCase _ _ => False | _ => True end.
Definition of_switch (p : rpiece) : Prop := match p with RcStm s => says_something s = false | _ => True end.
Lemma fits_attach : forall ps b, Forall no_case ps ->
  fitsb b ps = match attach ps with Some (None, _) => true | Some (Some _, _) => match b with BNone => false | _ => true end | None => false end.
Proof.
  induction ps as [|p ps IH]; intros b F; [reflexivity|]. apply Forall_cons_iff in F as [F1 F2]. cbn [fitsb attach]. rewrite IH by exact F2.
  destruct p as [s|x|c x]; [| |contradiction]; cbn [joinsb leavesb].
  - cbn [andb]. destruct (attach ps) as [[[els|] r]|]; try reflexivity. destruct (says_something s); [|reflexivity].
    pose proof (with_else_leaving s els) as W. destruct (with_else s els) as [s'|]; cbn [option_map].
    + destruct (leaving s); try reflexivity. exfalso. apply (proj1 W); congruence.
    + destruct (leaving s) eqn:E; try reflexivity; exfalso; (apply (proj2 W); [discriminate|reflexivity]).
  - destruct (attach ps) as [[[els|] r]|]; destruct b; reflexivity.
Qed.
Lemma fits_assemble : forall ps, Forall no_case ps -> fitsb BNone ps = is_some (assemble ps).
Proof. intros ps F. rewrite (fits_attach ps BNone F). unfold assemble. now destruct (attach ps) as [[[els|] r]|]. Qed.
Lemma fits_switch : forall ps, Forall of_switch ps -> fitsb BIf ps = is_some (assemble_switch (filter piece_says ps)).
Proof.
  assert (N : forall ps, Forall of_switch ps -> fitsb BNone ps = match filter piece_says ps with [] => true | _ => false end).
  { induction ps as [|p ps IH]; intros F; [reflexivity|]. apply Forall_cons_iff in F as [F1 F2]. cbn [fitsb filter].
    destruct p as [s|x|c x]; try reflexivity. cbn [of_switch joinsb leavesb piece_says andb] in *. rewrite F1. now apply IH. }
  induction ps as [|p ps IH]; intros F; [reflexivity|]. apply Forall_cons_iff in F as [F1 F2]. cbn [fitsb filter].
  destruct p as [s|x|c x]; cbn [of_switch joinsb leavesb piece_says andb] in *.
  - rewrite F1. now apply IH.
  - rewrite (N ps F2). destruct (filter piece_says ps); reflexivity.
  - rewrite (IH F2). cbn [assemble_switch]. now destruct (assemble_switch (filter piece_says ps)).
Qed.

(** ** Python accepts exactly what has a reading *)
Definition exact (n : node) : Prop := forall sw, in_place sw n -> forall b,
  match piece_of n with
  | Some p => parses_all b (program n) = joinsb p b /\ last_leaves b (program n) = leavesb p b
  | None => parses_all b (program n) = false
  end.
Fixpoint all_in_place (sw : bool) (l : list node) : Prop := match l with [] => True | m :: l' => in_place sw m /\ all_in_place sw l' end.
Lemma all_in_place_eq : forall sw l,
  (fix go (switch : bool) (l : list node) : Prop := match l with [] => True | m :: l' => in_place switch m /\ go switch l' end) sw l = all_in_place sw l.
Proof. intros sw. induction l as [|n l IH]; [reflexivity|]. cbn [all_in_place]. now rewrite IH. Qed.
Lemma all_in_place_Forall : forall sw l, all_in_place sw l <-> Forall (in_place sw) l.
Proof. intros sw. induction l as [|n l IH]; cbn [all_in_place]; [split; [constructor|trivial]|]. rewrite Forall_cons_iff, IH. tauto. Qed.
Lemma exact_list : forall l, Forall exact l -> forall sw, all_in_place sw l -> forall b,
  parses_all b (flat_map program l) = match pieces_of l with Some ps => fitsb b ps | None => false end.
Proof.
  induction 1 as [|n l En El IH]; intros sw I b; [reflexivity|]. destruct I as [I1 I2]. specialize (En sw I1 b). cbn [flat_map pieces_of]. rewrite P_Exec4.parses_all_app.
  destruct (piece_of n) as [p|]; cbn [S_Exec.obind]; [|now rewrite En]. destruct En as [-> ->]. rewrite (IH sw I2).
  destruct (pieces_of l) as [ps|]; cbn [option_map fitsb]; [reflexivity|apply andb_false_r].
Qed.
Lemma piece_no_case : forall n p, in_place false n -> piece_of n = Some p -> no_case p.
Proof.
  intros n p I H. destruct n; cbn [piece_of] in H; try discriminate; try (injection H as <-; exact Logic.I);
    try (match type of H with (if ?x then _ else _) = _ => destruct x; try discriminate end); try (injection H as <-; exact Logic.I);
    try (match type of H with option_map _ ?x = _ => destruct x; [|discriminate] end; cbn [option_map] in H; injection H as <-; try exact Logic.I).
  now destruct I.
Qed.
Lemma piece_of_switch : forall n p, in_place true n -> piece_of n = Some p -> of_switch p.
Proof.
  intros n p I H. destruct n; cbn [in_place] in I; try discriminate I; try (destruct I; discriminate); cbn [piece_of] in H.
  - match type of H with option_map _ ?x = _ => destruct x; [|discriminate] end. cbn [option_map] in H. injection H as <-. exact Logic.I.
  - match type of H with option_map _ ?x = _ => destruct x; [|discriminate] end. cbn [option_map] in H. injection H as <-. exact Logic.I.
  - destruct I as [-> I]. injection H as <-. cbn [of_switch says_something]. now rewrite I.
Qed.
Lemma pieces_all : forall (sw : bool) (Q : rpiece -> Prop), (forall n p, in_place sw n -> piece_of n = Some p -> Q p) ->
  forall l ps, all_in_place sw l -> pieces_of l = Some ps -> Forall Q ps.
Proof.
  intros sw Q HQ. induction l as [|n l IH]; intros ps I H; cbn [pieces_of] in H; [injection H as <-; constructor|]. destruct I as [I1 I2].
  destruct (piece_of n) as [p|] eqn:E; [|discriminate]. cbn [S_Exec.obind] in H. destruct (pieces_of l) as [ps'|]; [|discriminate].
  cbn [option_map] in H. injection H as <-. constructor; [now apply (HQ n)|now apply IH].
Qed.
Lemma exact_body : forall l, Forall exact l -> all_in_place false l -> parses_all BNone (programs l) = is_some (structure l).
Proof.
  intros l E I. unfold programs, structure. rewrite P_Exec4.parses_join, (exact_list l E false I). destruct (pieces_of l) as [ps|] eqn:Ep; [|reflexivity].
  cbn [S_Exec.obind]. apply fits_assemble. exact (pieces_all false no_case piece_no_case l ps I Ep).
Qed.
Lemma exact_block : forall h l, Forall exact l -> all_in_place false l -> parses (Bl h (programs l)) = is_some (obind (structure l) not_empty).
Proof.
  intros h l E I. rewrite P_Exec4.parses_bl, (exact_body l E I). destruct (structure l) as [b|] eqn:S; cbn [is_some S_Exec.obind]; [|apply andb_false_r].
  rewrite (body_counts l b S), andb_true_r. unfold not_empty. now destruct (existsb says_something b).
Qed.
Lemma exact_block_or : forall h l (e : blk) (s : rstm), Forall exact l -> all_in_place false l -> counts e = true -> parses_all BNone [e] = true -> says_something s = true ->
  parses (Bl h (match l with [] => [e] | _ => programs l end)) = is_some (obind (structure l) (fun b => not_empty (match b with [] => [s] | _ => b end))).
Proof.
  intros h l e s E I C Pe Ss. destruct l as [|n l].
  - rewrite P_Exec4.parses_bl. cbn [existsb]. rewrite C, Pe. cbn. unfold not_empty. cbn [existsb]. now rewrite Ss.
  - rewrite (exact_block h _ E I). destruct (structure (n :: l)) as [b|] eqn:S; [|reflexivity]. cbn [S_Exec.obind]. destruct b; [now apply structure_cons in S|reflexivity].
Qed.

Lemma is_some_map : forall A B (f : A -> B) o, is_some (option_map f o) = is_some o.
Proof. now intros A B f [a|]. Qed.
Ltac use_eq I := cbn [in_place] in I; rewrite ?all_in_place_eq in I.
Ltac settle := repeat match goal with |- match option_map _ ?x with _ => _ end => destruct x eqn:?; cbn [option_map is_some] in * end.

Theorem all_exact : forall n, exact n.
Proof.
  induction n using node_ind'; intros sw I b0; cbn [piece_of]; use_eq I; rewrite ?structure_eq.
  - split; reflexivity.
  - split; reflexivity.
  - split; reflexivity.
  - split; reflexivity.
  - (* def *)
    destruct I as (-> & -> & I). cbn [program]. rewrite body_eq.
    pose proof (exact_block_or (PDef d) b (St PPass) RPass H I eq_refl eq_refl eq_refl) as E. change (fun b => not_empty match b with [] => [RPass] | _ => b end) with (fun b => not_empty (or_pass b)) in E.
    cbn [parses_all last_leaves]. rewrite E. settle; [split|]; reflexivity.
  - (* call *)
    destruct I as (-> & I). cbn [program]. rewrite body_eq. cbn [parses_all last_leaves]. rewrite (exact_block (PDef d) b H I). settle; [split|]; reflexivity.
  - (* for *)
    destruct I as (-> & I). cbn [program]. rewrite body_eq. cbn [parses_all last_leaves]. rewrite (exact_block (PFor d) b H I). settle; [split|]; reflexivity.
  - (* with *)
    destruct I as (-> & I). cbn [program]. rewrite body_eq. cbn [parses_all may_follow parses andb]. rewrite P_Exec4.parses_all_app.
    assert (V : forall p, parses_all p (map (fun kv : str * str => St (PAssign (fst kv) (snd kv))) v) = true) by (clear; induction v as [|kx v IH]; intros p; [reflexivity|cbn; apply IH]).
    assert (V2 : forall l, last_leaves (M_Exec.after b0 (St (PPushWith (map fst v)))) (map (fun kv : str * str => St (PAssign (fst kv) (snd kv))) l) = BNone).
    { change (M_Exec.after b0 (St (PPushWith (map fst v)))) with BNone. clear. induction l as [|kx l IH]; [reflexivity|exact IH]. }
    rewrite V, V2, P_Exec4.parses_all_app, (exact_body b H I). cbn [andb].
    destruct (structure b) as [l|]; cbn [option_map is_some]; [|reflexivity]. split; [reflexivity|].
    cbn [P_Exec4.last_leaves leavesb says_something leaving]. rewrite !P_Exec4.last_leaves_app. reflexivity.
  - (* switch *)
    destruct I as (-> & I). cbn [program]. rewrite body_eq, pieces_eq. cbn [parses_all may_follow parses andb]. rewrite P_Exec4.parses_all_app.
    unfold programs. rewrite P_Exec4.parses_join, (exact_list b H true I). change (M_Exec.after _ (St PIfFalse)) with BIf.
    destruct (pieces_of b) as [ps|] eqn:Ep; cbn [S_Exec.obind option_map]; [|reflexivity].
    rewrite (fits_switch ps (pieces_all true of_switch piece_of_switch b ps I Ep)). destruct (assemble_switch (filter piece_says ps)) as [ce|]; cbn [option_map is_some]; [|reflexivity].
    split; [reflexivity|]. cbn [P_Exec4.last_leaves leavesb says_something leaving]. rewrite P_Exec4.last_leaves_app. reflexivity.
  - (* case *)
    destruct I as (-> & I). cbn [program]. rewrite body_eq. cbn [parses_all last_leaves may_follow]. rewrite (exact_block (PCase d) b H I).
    settle; [split; [rewrite !andb_true_r|]|rewrite andb_false_r]; reflexivity.
  - (* if *)
    destruct I as (-> & I). cbn [program]. rewrite body_eq. cbn [parses_all last_leaves]. rewrite (exact_block (PIf d) b H I). settle; [split|]; reflexivity.
  - (* else *)
    cbn [program]. rewrite body_eq. cbn [parses_all last_leaves may_follow]. rewrite (exact_block PElse b H I).
    settle; [split; [rewrite !andb_true_r|]|rewrite andb_false_r]; reflexivity.
  - split; [reflexivity|]. reflexivity.
  - split; [reflexivity|]. cbn [program last_leaves leavesb says_something leaving]. unfold trans_stmt. destruct (strip t), (truthy_guard g); reflexivity.
  - split; [reflexivity|]. now destruct s.
  - (* attribute *)
    destruct I as (-> & I). cbn [program]. rewrite body_eq.
    assert (AT : forall nm q, parses_all q [Bl (PDefGen nm) (match v with [] => [Tx [] None] | _ => programs v end); St (PCollect nm); Bl (PForAttr x a nm m) [St (PYield x)]] =
      is_some (obind (structure v) (fun b => not_empty (or_empty b)))).
    { intros nm q. cbn [parses_all]. rewrite (exact_block_or (PDefGen nm) v (Tx [] None) (RText [] None) H I eq_refl eq_refl eq_refl). cbn. now rewrite andb_true_r. }
    destruct (truthy_guard g) as [c|] eqn:G.
    + cbn [parses_all]. rewrite P_Exec4.parses_bl, AT. cbn [may_follow existsb counts andb orb].
      settle; [split; [reflexivity|]|reflexivity]. cbn. now rewrite G.
    + rewrite AT. settle; [split; [reflexivity|]|reflexivity]. cbn. now rewrite G.
  - cbn [program]. split; [now destruct (truthy_guard g)|]. cbn. now destruct (truthy_guard g).
  - (* Python *)
    destruct I as (-> & I). split; [reflexivity|]. cbn. unfold M_Exec.after. cbn [counts leaves]. now destruct (forallb ignored l).
Qed.

Theorem body_exact : forall l, Forall (in_place false) l -> parses_all BNone (programs l) = is_some (structure l).
Proof. intros l I. apply exact_body; [|now apply all_in_place_Forall]. apply Forall_forall. intros n _. apply all_exact. Qed.
Lemma functions_exact : forall l b, Forall function_in_place l -> parses_all b (flat_map program l) = is_some (functions_of l).
Proof.
  induction l as [|n l IH]; intros b0 F; [reflexivity|]. apply Forall_cons_iff in F as [F1 F2].
  destruct n as [| | | |ln i d b| | | | | | | | | | | | | ]; try contradiction. destruct i; [contradiction|]. cbn [function_in_place functions_of flat_map program app] in *. rewrite body_eq.
  cbn [parses_all may_follow andb]. change (parses (St PExpose)) with true. cbn [andb]. apply all_in_place_Forall in F1.
  assert (E : Forall exact b) by (apply Forall_forall; intros n _; apply all_exact).
  rewrite (exact_block_or (PDef d) b (St PPass) RPass E F1 eq_refl eq_refl eq_refl), IH by exact F2.
  change (fun b => not_empty match b with [] => [RPass] | _ => b end) with (fun b => not_empty (or_pass b)).
  destruct (obind (structure b) (fun b' => not_empty (or_pass b'))) as [b'|]; cbn [is_some S_Exec.obind andb]; [|reflexivity]. now rewrite is_some_map.
Qed.
Theorem class_exact : forall l, Forall function_in_place l ->
  parses (Bl PClass (programs l)) = match l with [] => false | _ => is_some (functions_of l) end.
Proof.
  intros l F. rewrite P_Exec4.parses_bl, P_Exec4.programs_count. unfold programs. rewrite P_Exec4.parses_join, functions_exact by exact F.
  destruct l as [|n l]; [reflexivity|]. apply Forall_cons_iff in F as [F1 _]. destruct n; try contradiction. reflexivity.
Qed.

(** ** What has a reading is in place *)
Definition placed (n : node) : Prop := forall p, piece_of n = Some p ->
  match p with
  | RcStm s => in_place false n /\ (says_something s = false -> in_place true n)
  | RcElse _ => forall sw, in_place sw n
  | RcCase _ _ => in_place true n
  end.
Lemma attach_no_case : forall ps o b, attach ps = Some (o, b) -> Forall no_case ps.
Proof.
  induction ps as [|p ps IH]; intros o b A; [constructor|]. destruct p as [s|els|c els]; cbn [attach] in A; [| |discriminate];
    (destruct (attach ps) as [[o' r]|]; [|discriminate]; constructor; [exact Logic.I|now apply (IH o' r)]).
Qed.
Lemma switch_of_switch : forall ps ce, assemble_switch (filter piece_says ps) = Some ce -> Forall of_switch ps.
Proof.
  induction ps as [|p ps IH]; intros ce A; [constructor|]. destruct p as [s|els|c els]; cbn [filter piece_says] in A.
  - destruct (says_something s) eqn:E; [discriminate|]. constructor; [exact E|now apply (IH ce)].
  - constructor; [exact Logic.I|]. cbn [assemble_switch] in A. destruct (filter piece_says ps) as [|q qs] eqn:Ef; [|discriminate]. now apply (IH ([], [])).
  - constructor; [exact Logic.I|]. cbn [assemble_switch] in A. destruct (assemble_switch (filter piece_says ps)) as [ce'|] eqn:Ea; [|discriminate]. now apply (IH ce').
Qed.
Lemma placed_body : forall l ps, Forall placed l -> pieces_of l = Some ps -> Forall no_case ps -> all_in_place false l.
Proof.
  induction l as [|n l IH]; intros ps P E F; [exact Logic.I|]. apply Forall_cons_iff in P as [P1 P2]. cbn [pieces_of] in E.
  destruct (piece_of n) as [p|] eqn:Ep; [|discriminate]. cbn [S_Exec.obind] in E. destruct (pieces_of l) as [ps'|]; [|discriminate]. cbn [option_map] in E.
  assert (ps = p :: ps') as -> by congruence. apply Forall_cons_iff in F as [F1 F2]. specialize (P1 p Ep). split; [|now apply (IH ps')].
  destruct p; [apply P1|apply P1|contradiction].
Qed.
Lemma placed_switch : forall l ps, Forall placed l -> pieces_of l = Some ps -> Forall of_switch ps -> all_in_place true l.
Proof.
  induction l as [|n l IH]; intros ps P E F; [exact Logic.I|]. apply Forall_cons_iff in P as [P1 P2]. cbn [pieces_of] in E.
  destruct (piece_of n) as [p|] eqn:Ep; [|discriminate]. cbn [S_Exec.obind] in E. destruct (pieces_of l) as [ps'|]; [|discriminate]. cbn [option_map] in E.
  assert (ps = p :: ps') as -> by congruence. apply Forall_cons_iff in F as [F1 F2]. specialize (P1 p Ep). split; [|now apply (IH ps')].
  destruct p; [now apply P1|apply P1|apply P1].
Qed.
Lemma placed_structure : forall l ss, Forall placed l -> structure l = Some ss -> all_in_place false l.
Proof.
  intros l ss P E. unfold structure in E. destruct (pieces_of l) as [ps|] eqn:Ep; [|discriminate]. cbn [S_Exec.obind] in E. apply (placed_body l ps P Ep).
  unfold assemble in E. destruct (attach ps) as [[o r]|] eqn:Ea; [|discriminate]. now apply (attach_no_case ps o r).
Qed.
Theorem all_placed : forall n, placed n.
Proof.
  induction n using node_ind'; intros p E; cbn [piece_of] in E; rewrite ?structure_eq in E;
    try (injection E as <-; split; [reflexivity|discriminate]);
    try (match type of E with context [structure ?l] => destruct (structure l) as [ss|] eqn:Es; [|try (destruct i); discriminate]; assert (all_in_place false l) by (now apply (placed_structure l ss)) end).
  - (* def *) destruct i; [|discriminate]. cbn [S_Exec.obind] in E. destruct (not_empty (or_pass ss)); [|discriminate]. cbn [option_map] in E. injection E as <-.
    cbn [in_place]. rewrite !all_in_place_eq. now split.
  - cbn [S_Exec.obind] in E. destruct (not_empty ss); [|discriminate]. cbn [option_map] in E. injection E as <-. cbn [in_place]. rewrite !all_in_place_eq. now split.
  - cbn [S_Exec.obind] in E. destruct (not_empty ss); [|discriminate]. cbn [option_map] in E. injection E as <-. cbn [in_place]. rewrite !all_in_place_eq. now split.
  - cbn [option_map] in E. injection E as <-. cbn [in_place]. rewrite !all_in_place_eq. now split.
  - (* switch *) rewrite pieces_eq in E. destruct (pieces_of b) as [ps|] eqn:Ep; [|discriminate]. cbn [S_Exec.obind] in E.
    destruct (assemble_switch (filter piece_says ps)) as [ce|] eqn:Ea; [|discriminate]. cbn [option_map] in E. injection E as <-.
    cbn [in_place]. rewrite !all_in_place_eq. split; [|discriminate]. split; [reflexivity|]. apply (placed_switch b ps H Ep). now apply (switch_of_switch ps ce).
  - cbn [S_Exec.obind] in E. destruct (not_empty ss); [|discriminate]. cbn [option_map] in E. injection E as <-. cbn [in_place]. rewrite !all_in_place_eq. now split.
  - cbn [S_Exec.obind] in E. destruct (not_empty ss); [|discriminate]. cbn [option_map] in E. injection E as <-. cbn [in_place]. rewrite !all_in_place_eq. now split.
  - cbn [S_Exec.obind] in E. destruct (not_empty ss); [|discriminate]. cbn [option_map] in E. injection E as <-. cbn [in_place]. rewrite !all_in_place_eq. intros _. assumption.
  - cbn [S_Exec.obind] in E. destruct (not_empty (or_empty ss)); [|discriminate]. cbn [option_map] in E. injection E as <-. cbn [in_place]. rewrite !all_in_place_eq. now split.
  - destruct m; [discriminate|]. injection E as <-. cbn [in_place says_something]. split; [now split|]. intros X. split; [reflexivity|]. intros _. now destruct (forallb ignored l).
Qed.
Theorem structure_placed : forall l ss, structure l = Some ss -> Forall (in_place false) l.
Proof. intros l ss E. apply all_in_place_Forall. apply (placed_structure l ss); [|exact E]. apply Forall_forall. intros n _. apply all_placed. Qed.
Theorem functions_placed : forall l fs, functions_of l = Some fs -> Forall function_in_place l.
Proof.
  induction l as [|n l IH]; intros fs E; [constructor|]. destruct n as [| | | |ln i d b| | | | | | | | | | | | | ]; try discriminate. destruct i; [discriminate|]. cbn [functions_of] in E.
  destruct (structure b) as [ss|] eqn:Es; [|discriminate]. cbn [S_Exec.obind] in E. destruct (not_empty (or_pass ss)); [|discriminate]. cbn [S_Exec.obind] in E.
  destruct (functions_of l) as [fs'|]; [|discriminate]. constructor; [now apply (structure_placed b ss)|now apply (IH fs')].
Qed.
