(** * Documents in the language of whole templates: structure and names *)

From Coq Require Import Ascii String List Arith NArith ZArith Bool Lia Permutation Sorted.
From Verif Require Import PyStr PyStrLemmas M_Values S_Values M_IR P_IR M_Template M_Text M_XText S_XText M_Entities S_Entities M_Dom M_XCompile
  S_XDoc S_XFun P_XDoc P_XDoc2 P_XFun P_XFun2 M_Run S_Run P_Run4 P_Run5 P_Run12 S_XRun.
From Verif Require M_Exec S_Exec P_Exec P_Exec3.
Import ListNotations.
Open Scope list_scope.

(** ** From [S_Exec] to [S_Run] *)
Definition as_piece (p : S_Exec.piece) : rpiece :=
  match p with
  | S_Exec.PcStm s => RcStm (as_rstm s)
  | S_Exec.PcElse b => RcElse (map as_rstm b)
  | S_Exec.PcCase c b => RcCase c (map as_rstm b)
  end.
Lemma as_says : forall s, says_something (as_rstm s) = true. Proof. now intros []. Qed.
Lemma as_attach : forall n ps ss, length ps <= n -> S_Exec.assemble ps = Some ss -> attach (map as_piece ps) = Some (None, map as_rstm ss).
Proof.
  induction n as [|n IH]; intros ps ss Hn A.
  { destruct ps; [cbn in A; assert (ss = []) as -> by congruence; reflexivity|cbn in Hn; lia]. }
  destruct ps as [|p ps]; [cbn in A; assert (ss = []) as -> by congruence; reflexivity|]. cbn [length] in Hn.
  destruct p as [s|b|c b]; [|discriminate|discriminate].
  assert (G : option_map (cons s) (S_Exec.assemble ps) = Some ss -> attach (map as_piece (S_Exec.PcStm s :: ps)) = Some (None, map as_rstm ss)).
  { intros E. destruct (S_Exec.assemble ps) as [ss'|] eqn:E1; [|discriminate]. cbn [option_map] in E. assert (ss = s :: ss') as -> by congruence.
    cbn [map as_piece attach]. rewrite (IH ps ss'); [reflexivity|lia|exact E1]. }
  destruct s; try (exact (G A));
    (destruct ps as [|[s'|b'|c' b'] ps']; try (exact (G A));
     cbn [S_Exec.assemble] in A; destruct (S_Exec.assemble ps') as [ss'|] eqn:E; [|discriminate]; cbn [option_map] in A;
     cbn [map as_piece as_rstm attach]; cbn [length] in Hn; rewrite (IH ps' ss'); [|lia|exact E];
     match type of A with Some ?x = Some _ => assert (ss = x) as -> by congruence end; reflexivity).
Qed.
Lemma as_assemble : forall ps ss, S_Exec.assemble ps = Some ss -> assemble (map as_piece ps) = Some (map as_rstm ss).
Proof. intros ps ss A. unfold assemble. now rewrite (as_attach (length ps) ps ss (le_n _) A). Qed.
Lemma as_switch : forall ps cases els, S_Exec.assemble_switch ps = Some (cases, els) ->
  assemble_switch (map as_piece ps) = Some (map (fun cb => (fst cb, map as_rstm (snd cb))) cases, map as_rstm els).
Proof.
  induction ps as [|p ps IH]; intros cases els A; [injection A as <- <-; reflexivity|].
  destruct p as [s|b|c b]; [discriminate| |].
  - cbn in A. destruct ps; [|discriminate]. injection A as <- <-. reflexivity.
  - cbn [S_Exec.assemble_switch] in A. destruct (S_Exec.assemble_switch ps) as [[cs' els']|]; [|discriminate]. cbn [option_map fst snd] in A. injection A as <- <-.
    cbn [map as_piece assemble_switch]. rewrite (IH cs' els' eq_refl). reflexivity.
Qed.
Ltac om H := match type of H with option_map _ ?o = Some ?x => let E := fresh "E" in destruct o eqn:E; [|discriminate H]; cbn [option_map] in H;
  match type of H with Some ?y = Some _ => assert (x = y) as -> by congruence end;
  repeat match goal with
  | E : obind _ not_empty = Some _ |- _ => apply not_empty_some in E
  | E : obind _ (fun b => not_empty (_ b)) = Some ?l |- _ =>
      let b := fresh "b" in let E' := fresh "E'" in apply not_empty_or in E as (b & E & E'); subst l; rename b into l
  end end.
Lemma as_solid : forall ss, ss <> [] -> not_empty (map as_rstm ss) = Some (map as_rstm ss).
Proof. intros [|s ss] H; [congruence|]. unfold not_empty. cbn [map existsb]. now rewrite as_says. Qed.
Lemma as_node : forall n p, S_Exec.piece_of n = Some p -> piece_of n = Some (as_piece p).
Proof.
  assert (ALL : forall b, Forall (fun n => forall p, S_Exec.piece_of n = Some p -> piece_of n = Some (as_piece p)) b ->
    forall ps, S_Exec.pieces_of b = Some ps -> pieces_of b = Some (map as_piece ps)).
  { intros b F. induction F as [|n b H F IH]; intros ps P; [cbn in P; assert (ps = []) as -> by congruence; reflexivity|].
    cbn [S_Exec.pieces_of] in P. destruct (S_Exec.piece_of n) as [p|]; [|discriminate]. cbn [S_Exec.obind] in P. om P.
    cbn [pieces_of]. rewrite (H p eq_refl). cbn [S_Exec.obind]. rewrite (IH _ eq_refl). reflexivity. }
  assert (BODY : forall b, Forall (fun n => forall p, S_Exec.piece_of n = Some p -> piece_of n = Some (as_piece p)) b ->
    forall ss, S_Exec.structure b = Some ss -> structure b = Some (map as_rstm ss)).
  { intros b F ss A. unfold S_Exec.structure in A. unfold structure. destruct (S_Exec.pieces_of b) as [ps|] eqn:P; [|discriminate]. cbn [S_Exec.obind] in A.
    rewrite (ALL b F ps P). cbn [S_Exec.obind]. now apply as_assemble. }
  induction n using node_ind'; intros p P; cbn [S_Exec.piece_of] in P; try discriminate P; rewrite ?P_Exec.piece_of_pieces in P;
    cbn [piece_of]; rewrite ?structure_eq; try (assert (p = _) as -> by (symmetry; injection P as P; exact P); reflexivity).
  all: try (om P; match goal with E : S_Exec.obind (S_Exec.pieces_of _) S_Exec.assemble_block = Some _ |- _ =>
    apply P_Exec3.filled_some in E as [E NE]; rewrite (BODY _ ltac:(eassumption) _ E); cbn [S_Exec.obind]; rewrite as_solid by exact NE; reflexivity end).
  all: try (om P; rewrite (BODY _ ltac:(eassumption) _ ltac:(eassumption)); reflexivity).
  - (* switch *) om P. rewrite pieces_eq. match goal with |- context [pieces_of ?b] => set (body := b) in * end.
    destruct (S_Exec.pieces_of body) as [ps|] eqn:Pb; [|discriminate]. cbn [S_Exec.obind] in E. destruct p0 as [cases els].
    rewrite (ALL body H ps Pb). cbn [S_Exec.obind]. assert (filter piece_says (map as_piece ps) = map as_piece ps) as ->.
    { clear. induction ps as [|p ps IH]; [reflexivity|]. cbn [map filter]. replace (piece_says (as_piece p)) with true by (symmetry; destruct p; cbn [as_piece piece_says]; [apply as_says|reflexivity..]). now rewrite IH. }
    rewrite (as_switch _ _ _ E). reflexivity.
  - (* attribute *) om P. rewrite (BODY _ ltac:(eassumption) _ ltac:(eassumption)). cbn [S_Exec.obind]. destruct l as [|s l]; [reflexivity|].
    change (or_empty (map as_rstm (s :: l))) with (map as_rstm (s :: l)). now rewrite as_solid.
Qed.
Lemma as_nodes : forall l ps, S_Exec.pieces_of l = Some ps -> pieces_of l = Some (map as_piece ps).
Proof.
  induction l as [|n l IH]; intros ps P; [cbn in P; assert (ps = []) as -> by congruence; reflexivity|].
  cbn [S_Exec.pieces_of] in P. destruct (S_Exec.piece_of n) as [p|] eqn:E; [|discriminate]. cbn [S_Exec.obind] in P. om P.
  cbn [pieces_of]. rewrite (as_node n p E). cbn [S_Exec.obind]. rewrite (IH _ eq_refl). reflexivity.
Qed.
Lemma as_simple : forall ss, map as_piece (map S_Exec.PcStm ss) = simple ss.
Proof. intros ss. unfold simple. rewrite map_map. reflexivity. Qed.

(** ** What assembling depends on *)
Definition shape (p : rpiece) : nat * bool * bool * M_Exec.before :=
  match p with
  | RcStm s => (0, blank_piece p, says_something s, leaving s)
  | RcElse _ => (1, false, true, M_Exec.BNone)
  | RcCase _ _ => (2, false, true, M_Exec.BNone)
  end.
Lemma shape_stm : forall p q, shape p = shape q ->
  match p, q with
  | RcStm s, RcStm s' => blank_piece p = blank_piece q /\ says_something s = says_something s' /\ leaving s = leaving s'
  | RcElse _, RcElse _ | RcCase _ _, RcCase _ _ => True
  | _, _ => False
  end.
Proof. intros [s|b|c b] [s'|b'|c' b'] H; cbn [shape] in H; try discriminate; try exact Logic.I. repeat split; congruence. Qed.
Lemma shape_cons : forall p ps q qs, map shape (p :: ps) = map shape (q :: qs) -> shape p = shape q /\ map shape ps = map shape qs.
Proof. intros p ps q qs H. cbn [map] in H. split; congruence. Qed.
Lemma attach_shape : forall ps qs o b, map shape ps = map shape qs -> attach ps = Some (o, b) ->
  exists o' b', attach qs = Some (o', b') /\ (o = None <-> o' = None).
Proof.
  induction ps as [|p ps IH]; intros [|q qs] o b H A; try discriminate H; [exists None, []; cbn in A; assert (o = None) as -> by congruence; tauto|].
  apply shape_cons in H as [H1 H2]. apply shape_stm in H1. cbn [attach] in A |- *.
  destruct p as [s|x|c x]; [| |discriminate].
  - destruct q as [s'|x'|c' x']; try contradiction. destruct H1 as (_ & Hs & Hl). rewrite <- Hs.
    destruct (attach ps) as [[[els|] r]|]; [| |discriminate].
    + destruct (IH qs _ _ H2 eq_refl) as (o' & r' & -> & Ho). destruct o' as [els'|]; [|destruct Ho as [_ Ho]; now specialize (Ho eq_refl)].
      destruct (says_something s).
      * pose proof (with_else_leaving s els) as W. pose proof (with_else_leaving s' els') as W'. rewrite <- Hl in W'.
        destruct (with_else s els) as [z|]; [|discriminate]. cbn [option_map] in A. assert (o = None) as -> by congruence.
        destruct (with_else s' els') as [z'|]; [do 2 eexists; split; [reflexivity|tauto]|]. exfalso. apply (proj2 W'); [|reflexivity]. apply W. discriminate.
      * assert (o = Some els) as -> by congruence. do 2 eexists. split; [reflexivity|]. split; discriminate.
    + destruct (IH qs _ _ H2 eq_refl) as (o' & r' & -> & Ho). assert (o' = None) as -> by now apply Ho. assert (o = None) as -> by congruence.
      do 2 eexists. split; [reflexivity|tauto].
  - destruct q as [s'|x'|c' x']; try contradiction. destruct (attach ps) as [[[els|] r]|]; [discriminate| |discriminate].
    destruct (IH qs _ _ H2 eq_refl) as (o' & r' & -> & Ho). assert (o' = None) as -> by now apply Ho. assert (o = Some x) as -> by congruence.
    do 2 eexists. split; [reflexivity|]. split; discriminate.
Qed.
Lemma assemble_shape : forall ps qs b, map shape ps = map shape qs -> assemble ps = Some b -> exists b', assemble qs = Some b'.
Proof.
  intros ps qs b H A. unfold assemble in *. destruct (attach ps) as [[[els|] r]|] eqn:E; [discriminate| |discriminate].
  destruct (attach_shape ps qs _ _ H E) as (o' & r' & -> & Ho). assert (o' = None) as -> by now apply Ho. eexists. reflexivity.
Qed.
Lemma blank_shape : forall p q, shape p = shape q -> blank_piece p = blank_piece q.
Proof. intros p q H. apply shape_stm in H. destruct p, q; try contradiction; try reflexivity. apply H. Qed.
(** Empty blocks. *)
Lemma says_shape : forall p q, shape p = shape q -> piece_says p = piece_says q.
Proof. intros p q H. apply shape_stm in H. destruct p, q; try contradiction; try reflexivity. apply H. Qed.
Lemma says_shapes : forall ps qs, map shape ps = map shape qs -> existsb piece_says ps = existsb piece_says qs.
Proof.
  induction ps as [|p ps IH]; intros [|q qs] H; try discriminate; [reflexivity|]. apply shape_cons in H as [H1 H2].
  cbn [existsb]. now rewrite (says_shape p q H1), (IH qs).
Qed.
Lemma solid_eq : forall b, solid b <-> existsb says_something b = true.
Proof. intros b. unfold solid. now rewrite existsb_exists. Qed.
Lemma solid_some : forall b, solid b -> not_empty b = Some b.
Proof. intros b H. apply solid_eq in H. unfold not_empty. now rewrite H. Qed.
Lemma solid_shape : forall ps qs b b', map shape ps = map shape qs -> assemble ps = Some b -> assemble qs = Some b' -> solid b -> solid b'.
Proof.
  intros ps qs b b' H A A'. rewrite !solid_eq, (assemble_says _ _ A), (assemble_says _ _ A'). now rewrite (says_shapes _ _ H).
Qed.
Lemma solid_pass_shape : forall ps qs b b', map shape ps = map shape qs -> assemble ps = Some b -> assemble qs = Some b' -> solid (or_pass b) -> solid (or_pass b').
Proof.
  intros ps qs b b' H A A' S. destruct b' as [|s b']; [exists RPass; split; [now left|reflexivity]|]. destruct b as [|s0 b]; [|now apply (solid_shape ps qs (s0 :: b) (s :: b'))].
  exfalso. destruct ps as [|p ps].
  - destruct qs; [discriminate|discriminate].
  - now apply assemble_cons in A.
Qed.
Lemma filter_shape : forall ps qs, map shape ps = map shape qs ->
  map shape (filter (fun p => negb (blank_piece p)) ps) = map shape (filter (fun p => negb (blank_piece p)) qs).
Proof.
  induction ps as [|p ps IH]; intros [|q qs] H; try discriminate; [reflexivity|]. apply shape_cons in H as [H1 H2].
  cbn [filter]. rewrite <- (blank_shape p q H1). destruct (negb (blank_piece p)); [|now apply IH]. cbn [map]. rewrite H1. f_equal. now apply IH.
Qed.
Lemma says_filter_shape : forall ps qs, map shape ps = map shape qs -> map shape (filter piece_says ps) = map shape (filter piece_says qs).
Proof.
  induction ps as [|p ps IH]; intros [|q qs] H; try discriminate; [reflexivity|]. apply shape_cons in H as [H1 H2].
  cbn [filter]. rewrite <- (says_shape p q H1). destruct (piece_says p); [|now apply IH]. cbn [map]. rewrite H1. f_equal. now apply IH.
Qed.
Lemma switch_says : forall ps ce, assemble_switch ps = Some ce -> filter piece_says ps = ps.
Proof.
  induction ps as [|p ps IH]; intros ce A; [reflexivity|]. destruct p as [s|b|c b]; [discriminate| |].
  - destruct ps; [reflexivity|discriminate].
  - cbn [assemble_switch] in A. destruct (assemble_switch ps) as [ce'|]; [|discriminate]. cbn [filter piece_says]. now rewrite (IH ce').
Qed.
Lemma switch_shape : forall ps qs ce, map shape ps = map shape qs -> assemble_switch ps = Some ce -> exists ce', assemble_switch qs = Some ce'.
Proof.
  induction ps as [|p ps IH]; intros [|q qs] ce H A; try discriminate; [now exists ([], [])|]. apply shape_cons in H as [H1 H2].
  apply shape_stm in H1. destruct p as [s|b|c b]; [discriminate| |].
  - destruct ps; [|discriminate]. destruct qs; [|discriminate]. destruct q as [s|b'|c' b']; try contradiction.
    eexists. reflexivity.
  - cbn [assemble_switch] in A. destruct (assemble_switch ps) as [ce0|] eqn:E; [|discriminate]. destruct (IH qs ce0 H2 eq_refl) as [ce' Ec].
    destruct q as [s|b'|c' b']; try contradiction. cbn [assemble_switch]. rewrite Ec. eexists. reflexivity.
Qed.

(** ** Generated names *)
Section Named.
Variable gen : str -> Prop.
Fixpoint rnamed (n : node) : Prop :=
  let all := fix go (l : list node) : Prop := match l with [] => True | m :: l' => rnamed m /\ go l' end in
  match n with
  | NIf _ _ b | NElse _ b | NFor _ _ b | NWith _ _ b | NSwitch _ _ b | NCase _ _ b | NDef _ _ _ b | NCall _ _ _ b => all b
  | NAttr _ _ v _ _ g1 g2 x => gen g1 /\ gen g2 /\ gen x /\ all v
  | NAttrs _ _ _ _ x => gen x
  | _ => True
  end.
Definition rnameds (l : list node) : Prop := Forall rnamed l.
Lemma rnamed_all : forall l, (fix go (l : list node) : Prop := match l with [] => True | m :: l' => rnamed m /\ go l' end) l <-> rnameds l.
Proof.
  induction l as [|n l IH]; [split; constructor|]. unfold rnameds. rewrite Forall_cons_iff. fold (rnameds l). now rewrite IH.
Qed.
Lemma named_rnamed : forall n p, S_Exec.piece_of n = Some p -> named gen n -> rnamed n.
Proof.
  assert (ALL : forall b, Forall (fun n => forall p, S_Exec.piece_of n = Some p -> named gen n -> rnamed n) b ->
    S_Exec.pieces_of b <> None -> nameds gen b -> rnameds b).
  { intros b F. induction F as [|n b H F IH]; intros P N0; [constructor|]. apply Forall_cons_iff in N0 as [N1 N2].
    cbn [S_Exec.pieces_of] in P. destruct (S_Exec.piece_of n) as [p|]; [|now destruct P]. cbn [S_Exec.obind] in P.
    constructor; [now apply (H p)|]. apply IH; [|exact N2]. intros E. rewrite E in P. now apply P. }
  assert (SOME : forall A B C (f : A -> option B) (g : B -> C) o p, option_map g (S_Exec.obind o f) = Some p -> o <> None) by (intros A B C f g [|] p E; [discriminate|discriminate E]).
  induction n using node_ind'; intros p P N0; cbn [S_Exec.piece_of] in P; try discriminate P; rewrite ?P_Exec.piece_of_pieces in P;
    cbn [named rnamed] in *; try exact N0; try exact Logic.I; rewrite ?rnamed_all; rewrite ?named_all in N0.
  all: try (apply SOME in P; apply ALL; assumption).
  apply SOME in P. destruct N0 as (N1 & N2 & N3 & N4). rewrite ?named_all in N4. split; [exact N1|]. split; [exact N2|]. split; [exact N3|]. now apply ALL.
Qed.
Lemma nameds_rnameds : forall l ps, S_Exec.pieces_of l = Some ps -> nameds gen l -> rnameds l.
Proof.
  induction l as [|n l IH]; intros ps P N0; [constructor|]. apply Forall_cons_iff in N0 as [N1 N2].
  cbn [S_Exec.pieces_of] in P. destruct (S_Exec.piece_of n) as [p|] eqn:E; [|discriminate]. cbn [S_Exec.obind] in P. om P.
  constructor; [now apply (named_rnamed n p)|now apply (IH l0)].
Qed.
End Named.

(** ** Only names of the user *)
Section User.
Variable py : python.
Variable gen : str -> Prop.
Notation ustm := (user_rstm py gen).
Notation well := (S_Run.well_named py gen).

Lemma ruser_all : forall l, (fix go (l : list rstm) : Prop := match l with [] => True | m :: l' => ustm m /\ go l' end) l <-> Forall ustm l.
Proof. induction l as [|n l IH]; [split; constructor|]. now rewrite Forall_cons_iff, IH. Qed.
Lemma rwell_all : forall l, (fix go (l : list node) : Prop := match l with [] => True | m :: l' => well m /\ go l' end) l <-> Forall well l.
Proof. induction l as [|n l IH]; [split; constructor|]. now rewrite Forall_cons_iff, IH. Qed.
Definition ruser_piece (p : rpiece) : Prop :=
  match p with
  | RcStm s => ustm s
  | RcElse b => Forall ustm b
  | RcCase c b => user py gen c /\ Forall ustm b
  end.
Lemma ruser_with_else : forall s els s', P_Run4.fresh (RcStm s) -> with_else s els = Some s' -> Forall ustm s' -> ustm s /\ Forall ustm els.
Proof.
  intros s els s' F W U. destruct s as [ |t g|t g|y safe|cd b e0|d b e0|vars b|d cases e0|a v g mode|y g mode|d b|d cl b|t a|t|t|ls]; cbn [with_else] in W; try discriminate;
    try (destruct (truthy_guard g) as [cd|] eqn:Eg); try discriminate; cbn [option_map P_Run4.fresh] in *; try subst e0;
    match type of W with Some ?v = Some _ => assert (s' = v) as -> by congruence end; apply Forall_cons_iff in U as [U1 U2]; cbn [user_rstm] in U1 |- *; rewrite ?ruser_all in U1; rewrite ?ruser_all;
    unfold user_guard in *; rewrite ?Eg; try tauto.
Qed.
Lemma ruser_attach : forall ps o ss, Forall P_Run4.fresh ps -> attach ps = Some (o, ss) -> Forall ustm ss -> match o with Some els => Forall ustm els | None => True end -> Forall ruser_piece ps.
Proof.
  induction ps as [|p ps IH]; intros o ss F A U Uo; [constructor|]. apply Forall_cons_iff in F as [F1 F2]. cbn [attach] in A.
  destruct p as [s|b|c b]; [| |discriminate].
  - destruct (attach ps) as [[[els|] r]|]; [| |discriminate].
    + destruct (says_something s).
      * destruct (with_else s els) as [s'|] eqn:W; [|discriminate]. cbn [option_map] in A. assert (ss = s' ++ r) as -> by congruence.
        apply Forall_app in U as [U1 U2]. destruct (ruser_with_else s els s' F1 W U1) as [Us Ue]. constructor; [exact Us|]. now apply (IH _ _ F2 eq_refl).
      * assert (o = Some els /\ ss = s :: r) as [-> ->] by (split; congruence). apply Forall_cons_iff in U as [U1 U2]. constructor; [exact U1|]. now apply (IH _ _ F2 eq_refl).
    + assert (o = None /\ ss = s :: r) as [-> ->] by (split; congruence). apply Forall_cons_iff in U as [U1 U2]. constructor; [exact U1|]. now apply (IH _ _ F2 eq_refl).
  - destruct (attach ps) as [[[els|] r]|]; [discriminate| |discriminate]. assert (o = Some b /\ ss = r) as [-> ->] by (split; congruence).
    constructor; [exact Uo|]. now apply (IH _ _ F2 eq_refl).
Qed.
Lemma ruser_assemble : forall ps ss, Forall P_Run4.fresh ps -> assemble ps = Some ss -> Forall ustm ss -> Forall ruser_piece ps.
Proof.
  intros ps ss F A U. unfold assemble in A. destruct (attach ps) as [[[els|] r]|] eqn:E; [discriminate| |discriminate]. assert (ss = r) as -> by congruence.
  now apply (ruser_attach ps None r F E U).
Qed.
(** Comments have no names. *)
Lemma ruser_says : forall ps, Forall ruser_piece (filter piece_says ps) -> Forall ruser_piece ps.
Proof.
  induction ps as [|p ps IH]; intros F; [constructor|]. cbn [filter] in F. destruct (piece_says p) eqn:E.
  - apply Forall_cons_iff in F as [F1 F2]. constructor; auto.
  - constructor; [|now apply IH]. destruct p as [s| |]; try discriminate. destruct s; try discriminate. cbn [piece_says says_something] in E. cbn [ruser_piece user_rstm]. unfold python_of.
    destruct (forallb S_IR.ignored lines); [constructor|discriminate].
Qed.
Lemma ruser_switch : forall ps cases els, assemble_switch ps = Some (cases, els) ->
  (fix go (l : list (str * list rstm)) : Prop :=
     match l with [] => True
     | (c, b) :: l' => (user py gen c /\ (fix go (l : list rstm) : Prop := match l with [] => True | m :: l' => ustm m /\ go l' end) b) /\ go l' end) cases ->
  Forall ustm els -> Forall ruser_piece ps.
Proof.
  induction ps as [|p ps IH]; intros cases els A U Ue; [constructor|].
  destruct p as [s|b|c b]; [discriminate| |].
  - cbn in A. destruct ps; [|discriminate]. injection A as <- <-. constructor; [exact Ue|constructor].
  - cbn [assemble_switch] in A. destruct (assemble_switch ps) as [[cs' els']|] eqn:E; [|discriminate]. cbn [option_map fst snd] in A. injection A as <- <-.
    destruct U as [[Uc Ub] U]. constructor; [split; [exact Uc|now apply ruser_all]|]. eapply IH; [reflexivity|exact U|exact Ue].
Qed.
Lemma or_pass_user : forall b, Forall ustm (or_pass b) -> Forall ustm b. Proof. intros [|s b] H; [constructor|exact H]. Qed.
Lemma or_empty_user : forall b, Forall ustm (or_empty b) -> Forall ustm b. Proof. intros [|s b] H; [constructor|exact H]. Qed.
Lemma ruser_well_named : forall n p, piece_of n = Some p -> ruser_piece p -> rnamed gen n -> well n.
Proof.
  assert (ALL : forall b, Forall (fun n => forall p, piece_of n = Some p -> ruser_piece p -> rnamed gen n -> well n) b ->
    forall ps, pieces_of b = Some ps -> Forall ruser_piece ps -> rnameds gen b -> Forall well b).
  { intros b F. induction F as [|n b H F IH]; intros ps P U N0; [constructor|].
    cbn [pieces_of] in P. destruct (piece_of n) as [p|]; [|discriminate]. cbn [S_Exec.obind] in P. om P.
    apply Forall_cons_iff in U as [U1 U2]. apply Forall_cons_iff in N0 as [N1 N2]. constructor; [now apply (H p)|]. now apply (IH l). }
  assert (BODY : forall b, Forall (fun n => forall p, piece_of n = Some p -> ruser_piece p -> rnamed gen n -> well n) b ->
    forall ss, structure b = Some ss -> Forall ustm ss -> rnameds gen b -> Forall well b).
  { intros b F ss A U N0. unfold structure in A. destruct (pieces_of b) as [ps|] eqn:P; [|discriminate]. cbn [S_Exec.obind] in A. apply (ALL b F ps P); [|exact N0].
    apply (ruser_assemble ps ss); auto. now apply (P_Run4.pieces_fresh b). }
  induction n using node_ind'; intros p P U N0; cbn [piece_of] in P; try discriminate P; rewrite ?structure_eq in P; cbn [rnamed S_Run.well_named] in *;
    try exact Logic.I; try (injection P as <-; exact U).
  all: rewrite ?rwell_all; rewrite ?rnamed_all in N0.
  - (* def *) destruct i; [|discriminate]. om P. cbn [ruser_piece user_rstm] in U. rewrite ruser_all in U. destruct U as [U1 U2]. split; [exact U1|].
    eapply BODY; [eassumption|eassumption|now apply or_pass_user|exact N0].
  - om P. cbn [ruser_piece user_rstm] in U. rewrite ruser_all in U. destruct U as (U1 & U2 & U3). split; [exact U1|]. split; [exact U2|]. eapply BODY; eassumption.
  - om P. cbn [ruser_piece user_rstm] in U. rewrite !ruser_all in U. destruct U as (U1 & U2 & _). split; [exact U1|]. eapply BODY; eassumption.
  - om P. cbn [ruser_piece user_rstm] in U. rewrite !ruser_all in U. destruct U as (U1 & U2). split; [exact U1|]. eapply BODY; eassumption.
  - (* switch *) om P. cbn [ruser_piece user_rstm] in U. destruct U as (U1 & U2 & U3). split; [exact U1|]. rewrite pieces_eq in E.
    match goal with |- Forall _ ?b => set (body := b) in * end. destruct (pieces_of body) as [ps|] eqn:Pb; [|discriminate]. cbn [S_Exec.obind] in E. destruct p0 as [cases els]. cbn [fst snd] in *.
    apply (ALL body H ps Pb); [|exact N0]. apply ruser_says. eapply ruser_switch; [exact E|exact U2|now apply ruser_all].
  - om P. cbn [ruser_piece] in U. destruct U as (U1 & U2). split; [exact U1|]. eapply BODY; eassumption.
  - om P. cbn [ruser_piece user_rstm] in U. rewrite !ruser_all in U. destruct U as (U1 & U2 & _). split; [exact U1|]. eapply BODY; eassumption.
  - om P. cbn [ruser_piece] in U. eapply BODY; eassumption.
  - (* attr *) om P. cbn [ruser_piece user_rstm] in U. rewrite ruser_all in U. destruct U as [U1 U2]. destruct N0 as (N1 & N2 & N3 & N4).
    rewrite ?rnamed_all in N4. split; [exact U1|]. split; [exact N1|]. split; [exact N2|]. split; [exact N3|]. eapply BODY; [eassumption|eassumption|now apply or_empty_user|exact N4].
  - injection P as <-. cbn [ruser_piece user_rstm] in U. destruct U. auto.
  - destruct m; [discriminate|]. injection P as <-. exact U.
Qed.
Lemma rusers_well_named : forall ns ss, structure ns = Some ss -> Forall ustm ss -> rnameds gen ns -> Forall well ns.
Proof.
  intros ns ss A U N0. unfold structure in A. destruct (pieces_of ns) as [ps|] eqn:P; [|discriminate]. cbn [S_Exec.obind] in A.
  assert (UP : Forall ruser_piece ps) by (apply (ruser_assemble ps ss); auto; now apply (P_Run4.pieces_fresh ns)).
  clear A. revert ps P UP. induction N0 as [|n ns Nn N0 IH]; intros ps P UP; [constructor|].
  cbn [pieces_of] in P. destruct (piece_of n) as [p|] eqn:E; [|discriminate]. cbn [S_Exec.obind] in P. om P.
  apply Forall_cons_iff in UP as [U1 U2]. constructor; [now apply (ruser_well_named n p)|]. now apply (IH l).
Qed.
End User.
