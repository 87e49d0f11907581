(** * Expressions of a document *)

From Coq Require Import Ascii String List NArith ZArith Bool Lia Arith Permutation.
From Verif Require Import PyStr PyStrLemmas M_Values M_IR M_Exec S_IR M_Text M_XText M_Entities M_Dom M_XCompile M_I18n S_XDoc S_XFun S_I18n
  P_IR P_Dom P_XText P_XText2 P_XDoc P_XDoc2 P_XFun P_XFun2 P_I18n P_I18n3 P_Values.
Import ListNotations.
Open Scope list_scope.

Lemma seqb_neq : forall a b, seqb a b = false <-> a <> b.
Proof. intros a b. destruct (seqb a b) eqn:E; [apply seqb_eq in E; split; congruence|]. split; [|auto]. intros _ ->. now rewrite seqb_refl in E. Qed.

(** The expressions among the nodes. *)
Fixpoint node_exprs (n : node) : list (nat * str) :=
  let all := fix go (l : list node) : list (nat * str) :=
               match l with [] => [] | m :: l' => node_exprs m ++ go l' end in
  match n with
  | NExpr ln e _ => [(ln, e)]
  | NDef _ _ _ b | NCall _ _ _ b | NFor _ _ b | NWith _ _ b | NSwitch _ _ b | NCase _ _ b | NIf _ _ b | NElse _ b => all b
  | NAttr _ _ v _ _ _ _ _ => all v
  | _ => []
  end.
Lemma go_exprs : forall l, (fix go (l : list node) : list (nat * str) := match l with [] => [] | m :: l' => node_exprs m ++ go l' end) l = flat_map node_exprs l.
Proof. induction l as [|n l IH]; [reflexivity|]. cbn [flat_map]. now rewrite <- IH. Qed.

Notation exps := (flat_map node_exprs).
Definition fexps (l : list (str * list node)) : list (nat * str) := flat_map (fun kv => exps (snd kv)) l.
Definition keys (s : cst) : list str := map fst (c_funs s).
Lemma fexps_set_in : forall k v l x, In x (fexps (set_function k v l)) -> In x (exps v) \/ In x (fexps l).
Proof.
  induction l as [|[k' v'] l IH]; intros x; cbn [set_function].
  - unfold fexps. cbn [flat_map snd]. rewrite app_nil_r. now left.
  - destruct (seqb k k'); unfold fexps in *; cbn [flat_map snd]; rewrite !in_app_iff; [tauto|]. intros [H|H]; [tauto|]. apply IH in H. tauto.
Qed.
Lemma fexps_set_new : forall k v l x, ~ In k (map fst l) -> In x (exps v) \/ In x (fexps l) -> In x (fexps (set_function k v l)).
Proof.
  induction l as [|[k' v'] l IH]; intros x Nk; cbn [set_function].
  - unfold fexps. cbn [flat_map snd]. rewrite app_nil_r. intros [H|[]]. exact H.
  - cbn [map fst In] in Nk. destruct (seqb_spec k k') as [->|Ne]; [tauto|]. unfold fexps in *. cbn [flat_map snd]. rewrite !in_app_iff.
    intros [H|[H|H]]; [right; apply IH; tauto|now left|right; apply IH; tauto].
Qed.
Lemma exps_app : forall a b, exps (a ++ b) = exps a ++ exps b.
Proof. intros. apply flat_map_app. Qed.

Section Doc.
Variable compile : str -> compiled.
Variable helper : nat -> str.
Variable autoblocks : list str.
Variable cdata_scripts : bool.
Variable mode : str.
Notation cnode := (compile_node compile helper autoblocks cdata_scripts mode).
Notation kids := (children compile helper autoblocks cdata_scripts mode).
Notation Role := (role_of autoblocks cdata_scripts).
Notation Declares_ := (declares autoblocks cdata_scripts).
Notation DeclareAll := (declare_all autoblocks cdata_scripts).
Notation Runs := (runs compile helper autoblocks cdata_scripts mode).
Notation Exp := (expression_in compile autoblocks cdata_scripts).
Notation recorded_all := (compile_records compile helper autoblocks cdata_scripts mode).

(** What a computation says, given the names that it declares. *)
Definition tells (b : bool) (T : bool -> nat * str -> Prop) (D : list str -> Prop) (m : M (list node)) : Prop :=
  forall s ns s', c_in_def s = b -> m s = Ok (ns, s') ->
    c_in_def s' = b /\
    (forall x, In x (exps ns) -> T true x) /\
    (forall x, In x (fexps (c_funs s')) -> In x (fexps (c_funs s)) \/ T true x) /\
    (forall names, D names -> NoDup (keys s ++ names) ->
       keys s' = keys s ++ names /\
    (forall x, T false x -> In x (exps ns) \/ In x (fexps (c_funs s'))) /\
    (forall x, In x (fexps (c_funs s)) -> In x (fexps (c_funs s')))).
Definition quiet (m : M (list node)) : Prop := pure m /\ forall s ns s', m s = Ok (ns, s') -> exps ns = [].
Definition keeps (f : list node -> M (list node)) : Prop :=
  forall b, pure (f b) /\ forall s ns s', f b s = Ok (ns, s') -> exps ns = exps b.
Definition nothing (names : list str) : Prop := names = [].

Lemma quiet_ret : forall ns, exps ns = [] -> quiet (ret ns).
Proof. intros ns E. split; [apply pure_ret|]. intros s ns' s' H. unfold ret in H. congruence. Qed.
Lemma cat_ok : forall a b s ns s', cat a b s = Ok (ns, s') -> exists x s1 y, a s = Ok (x, s1) /\ b s1 = Ok (y, s') /\ ns = x ++ y.
Proof.
  intros a b s ns s' E. unfold cat in E. apply bind_ok in E as (x & s1 & E1 & E). apply bind_ok in E as (y & s2 & E2 & E). unfold ret in E.
  exists x, s1, y. split; [exact E1|]. split; [|congruence]. rewrite E2. congruence.
Qed.
Lemma pure_tells : forall b m (T : bool -> nat * str -> Prop), pure m -> (forall s ns s', m s = Ok (ns, s') -> forall c x, In x (exps ns) <-> T c x) -> tells b T nothing m.
Proof.
  intros b m T P Q s ns s' Eb E. pose proof (Q _ _ _ E) as X. apply P in E as [(Ef & _) Ei]. unfold keys. rewrite Ef.
  split; [congruence|]. split; [apply X|]. split; [now left|]. intros names -> _. rewrite app_nil_r. split; [reflexivity|].
  split; [|auto]. intros x Tx. left. now apply (X false).
Qed.
Lemma quiet_tells : forall b m (T : bool -> nat * str -> Prop), quiet m -> (forall c x, ~ T c x) -> tells b T nothing m.
Proof.
  intros b m T [P Q] NT. apply pure_tells; [exact P|]. intros s ns s' E c x. rewrite (Q _ _ _ E). split; [intros []|intros Tx; now destruct (NT c x)].
Qed.
Lemma tells_keeps : forall b T D m f, tells b T D m -> keeps f -> tells b T D (bind m f).
Proof.
  intros b T D m f H K s ns s' Eb E. apply bind_ok in E as (body & s1 & E1 & E2). destruct (K body) as [P Q]. rewrite (Q _ _ _ E2).
  apply P in E2 as [(Ef & _) Ei]. unfold keys. rewrite Ef, Ei. exact (H _ _ _ Eb E1).
Qed.
Lemma tells_before : forall A b T D (m : M A) f, pure m -> (forall a, tells b T D (f a)) -> tells b T D (bind m f).
Proof.
  intros A b T D m f P H s ns s' Eb E. apply bind_ok in E as (body & s1 & E1 & E2). apply P in E1 as [(Ef & _) Ei].
  assert (Eb1 : c_in_def s1 = b) by congruence. pose proof (H body _ _ _ Eb1 E2) as X. unfold keys in *. rewrite Ef in X. exact X.
Qed.
Lemma tells_cat : forall b T D q m, quiet q -> tells b T D m -> tells b T D (cat q m).
Proof.
  intros b T D q m [P Q] H s ns s' Eb E. apply cat_ok in E as (x & s1 & y & E1 & E2 & ->). rewrite exps_app, (Q _ _ _ E1). cbn [app].
  apply P in E1 as [(Ef & _) Ei]. assert (Eb1 : c_in_def s1 = b) by congruence. pose proof (H _ _ _ Eb1 E2) as X. unfold keys in *. rewrite Ef in X. exact X.
Qed.
Lemma tells_then : forall b T D q m, quiet q -> tells b T D m -> tells b T D (cat m q).
Proof.
  intros b T D q m [P Q] H s ns s' Eb E. apply cat_ok in E as (x & s1 & y & E1 & E2 & ->). rewrite exps_app, (Q _ _ _ E2), app_nil_r.
  apply P in E2 as [(Ef & _) Ei]. unfold keys. rewrite Ef, Ei. exact (H _ _ _ Eb E1).
Qed.
Lemma tells_seq : forall b T1 T2 D1 D2 m1 m2, tells b T1 D1 m1 -> tells b T2 D2 m2 ->
  tells b (fun c x => T1 c x \/ T2 c x) (fun names => exists n1 n2, D1 n1 /\ D2 n2 /\ names = n1 ++ n2) (cat m1 m2).
Proof.
  intros b T1 T2 D1 D2 m1 m2 H1 H2 s ns s' Eb E. apply cat_ok in E as (x & s1 & y & E1 & E2 & ->). rewrite exps_app.
  destruct (H1 _ _ _ Eb E1) as (I1 & A1 & B1 & C1). destruct (H2 _ _ _ I1 E2) as (I2 & A2 & B2 & C2). split; [exact I2|]. split; [|split].
  - intros z Iz. apply in_app_or in Iz as [Iz|Iz]; [left; auto|right; auto].
  - intros z Iz. destruct (B2 z Iz) as [Iz'|Tz]; [|tauto]. destruct (B1 z Iz'); tauto.
  - intros names (n1 & n2 & Dn1 & Dn2 & ->) ND. rewrite app_assoc in ND.
    assert (ND1 : NoDup (keys s ++ n1)) by (clear - ND; induction (keys s ++ n1) as [|k l IH]; [constructor|]; inversion ND; subst; constructor; [intros X; match goal with H : ~ In _ _ |- _ => apply H end; apply in_or_app; now left|auto]).
    destruct (C1 n1 Dn1 ND1) as (K1 & F1 & G1). rewrite <- K1 in ND. destruct (C2 n2 Dn2 ND) as (K2 & F2 & G2).
    split; [rewrite K2, K1; now rewrite app_assoc|]. split.
    + intros z [Tz|Tz]; [destruct (F1 z Tz) as [Iz|Iz]; [left; apply in_or_app; now left|right; auto]|].
      destruct (F2 z Tz) as [Iz|Iz]; [left; apply in_or_app; now right|now right].
    + auto.
Qed.
Lemma tells_iff : forall b (T T' : bool -> nat * str -> Prop) (D D' : list str -> Prop) m, (forall c x, T c x <-> T' c x) -> (forall n, D' n -> D n) -> tells b T D m -> tells b T' D' m.
Proof.
  intros b T T' D D' m E ED H s ns s' Eb Em. destruct (H _ _ _ Eb Em) as (I1 & A & B & C). split; [exact I1|]. split; [|split].
  - intros x Ix. apply E. auto.
  - intros x Ix. destruct (B x Ix); [now left|right; now apply E].
  - intros names Dn ND. destruct (C names (ED _ Dn) ND) as (K & C1 & C2). split; [exact K|]. split; [|exact C2]. intros x Tx. apply C1. now apply E.
Qed.
Lemma tells_nothing : forall b T T' m q D, tells b T nothing q -> tells b T' D m -> tells b (fun c x => T c x \/ T' c x) D (cat q m).
Proof.
  intros b T T' m q D H1 H2. apply (tells_iff b (fun c x => T c x \/ T' c x) _ (fun names => exists n1 n2, nothing n1 /\ D n2 /\ names = n1 ++ n2)); [intros c x; reflexivity| |now apply tells_seq].
  intros n Dn. exists [], n. split; [reflexivity|]. now split.
Qed.
Lemma keeps_ret : forall f, (forall b, node_exprs (f b) = exps b) -> keeps (fun b => ret [f b]).
Proof.
  intros f H b. split; [apply pure_ret|]. intros s ns s' E. unfold ret in E. assert (ns = [f b]) by congruence. subst. cbn [flat_map]. now rewrite app_nil_r.
Qed.

(** *** Texts *)
Lemma pieces_exprs : forall k ps x, In x (exps (map (piece_node k) ps)) <-> In (XExpr (fst x) (snd x)) ps.
Proof.
  intros k ps [l e]. cbn [fst snd]. induction ps as [|q ps IH]; [reflexivity|]. cbn [map flat_map]. rewrite in_app_iff, IH. cbn [In].
  destruct q as [l' t|l' e']; cbn [piece_node].
  - split; [intros [H|H]; [|now right]|intros [H|H]; [discriminate|now right]]. destruct k; cbn [node_exprs] in H; try destruct H.
    unfold make_text_node in H. destruct (strip t); destruct H.
  - cbn [node_exprs In]. split; (intros [H|H]; [|now right]); left; [destruct H as [H|[]]|left]; congruence.
Qed.
Lemma text_tells : forall b p ln t, tells b (fun _ => text_expression compile ln t) nothing (compile_text compile p ln t).
Proof.
  intros b p ln t. apply pure_tells; [apply pure_text|]. intros s ns s' E.
  destruct p as [|tag a]; cbn [compile_text] in *; [discriminate|]. unfold lift, text_nodes in E.
  destruct (pieces compile t ln) as [ps|] eqn:Ep; [|discriminate]. cbn [rmap] in E. assert (ns = map (piece_node (if smem tag html_cdata_tags then TK_raw else TK_text)) ps) by congruence. subst ns.
  intros _ x. rewrite pieces_exprs. unfold text_expression. rewrite Ep. split; [intros I1; exists ps; now split|intros (ps' & E' & I1)]. now assert (ps' = ps) as -> by congruence.
Qed.

(** *** Children *)
Definition declared (b : bool) (n : dnode) (names : list str) : Prop := exists l, Declares_ b n l /\ names = declared_names l.
Definition declared_all (b : bool) (cs : list dnode) (names : list str) : Prop := exists l, DeclareAll b cs l /\ names = declared_names l.
Definition said (n : dnode) : Prop := forall p prev b, tells b (fun c => Exp c n) (declared b n) (cnode p prev n).
Definition among (marks : bool) (cs : list dnode) (calls : bool) (x : nat * str) : Prop :=
  exists c, In c cs /\ (marks = true -> ~ is_mark c) /\ Exp calls c x.
Lemma kids_tell : forall marks ln tag a cs, Forall said cs -> forall b prev,
  tells b (among marks cs) (declared_all b cs) (kids marks ln (InElement tag a) prev cs).
Proof.
  intros marks ln tag a cs F b. induction F as [|c cs H F IH]; intros prev.
  - apply (tells_iff b (fun _ _ => False) _ nothing); [|intros n (l & D & ->); inversion D; reflexivity|].
    + intros k x. split; [intros []|intros (c & [] & _)].
    + apply quiet_tells; [apply quiet_ret; reflexivity|auto].
  - cbn [children].
    apply (tells_iff b (fun k x => ((marks = true -> ~ is_mark c) /\ Exp k c x) \/ among marks cs k x) _
      (fun names => exists n1 n2, declared b c n1 /\ declared_all b cs n2 /\ names = n1 ++ n2)).
    + intros k x. split.
      * intros [[Nm Mx]|(c0 & I1 & Y)]; [exists c; split; [now left|now split]|exists c0; split; [now right|exact Y]].
      * intros (c0 & [<-|I1] & Y); [left; exact Y|right; exists c0; now split].
    + intros n (l & D & ->). inversion D as [|? ? ? l1 l2 D1 D2]; subst. exists (declared_names l1), (declared_names l2).
      split; [now exists l1|]. split; [now exists l2|]. apply declared_app.
    + apply tells_seq; [|apply IH].
      assert (X : (marks = false \/ ~ is_mark c) -> tells b (fun k x => (marks = true -> ~ is_mark c) /\ Exp k c x) (declared b c) (cnode (InElement tag a) prev c)).
      { intros Nm. eapply tells_iff; [| |exact (H (InElement tag a) prev b)]; [|auto]. intros k x. split; [|tauto]. intros Mx. split; [|exact Mx].
        intros E. destruct Nm; [congruence|assumption]. }
      destruct marks; [|apply X; now left]. destruct c; try (apply X; right; intros []).
      eapply (tells_iff b (fun _ _ => False) _ nothing); [| |apply quiet_tells; [apply quiet_ret; reflexivity|auto]].
      * intros k x. split; [intros []|]. intros [Nm _]. now apply Nm.
      * intros n (l & D & ->). inversion D. reflexivity.
Qed.

(** *** Elements *)
Definition own (calls : bool) (ln : nat) (tag : str) (a : list (str * str)) (x : nat * str) : Prop :=
  calls = true /\ exists name, Role tag a (Block name) /\ x = (ln, L "_kj_block_" ++ name ++ L "()").
Lemma replace_leaf : forall tag a, ~ autoblock autoblocks tag a -> directive tag (L "replace") -> Role tag a Leaf.
Proof. intros tag a NA D. eapply ro_leaf; [exact NA|exact D|]. cbn. tauto. Qed.
Lemma not_plain : forall tag d, directive tag d -> In d known_directives -> ~ plain_tag tag.
Proof. intros tag d D I1 P. exact (P d D I1). Qed.
Lemma among_marks : forall (r : role) calls tag a cs ln x, Role tag a r -> r <> Leaf -> (plain_tag tag -> autoblock autoblocks tag a) ->
  (among false cs calls x \/ own calls ln tag a x <-> Exp calls (DElem ln tag a cs) x).
Proof.
  intros r calls tag a cs ln x Ro Nl Pm. split.
  - intros [(c & I1 & _ & Mx)|(-> & name & R & ->)]; [eapply ei_child; eauto|now apply ei_call].
  - intros Mx. inversion Mx; subst; try (exfalso; match goal with NA : ~ autoblock _ _ _, P : plain_tag _ |- _ => exact (NA (Pm P)) end).
    + left. exists c. split; [assumption|]. split; [discriminate|assumption].
    + exfalso. apply Nl. eapply role_unique; [exact Ro|]. now apply replace_leaf.
    + right. split; [reflexivity|]. eauto.
Qed.
Lemma declared_leaf : forall b ln tag a cs n, Role tag a Leaf -> declared b (DElem ln tag a cs) n -> nothing n.
Proof.
  intros b ln tag a cs n Ro (l & D & ->). unfold nothing. inversion D; subst; try reflexivity;
    match goal with R : role_of _ _ tag a _ |- _ => pose proof (role_unique _ _ _ _ _ _ Ro R) as E; discriminate E end.
Qed.
Lemma declared_inner : forall b ln tag a cs n, Role tag a Inner -> declared b (DElem ln tag a cs) n -> declared_all b cs n.
Proof.
  intros b ln tag a cs n Ro (l & D & ->). inversion D; subst;
    try match goal with R : role_of _ _ tag a _ |- _ => pose proof (role_unique _ _ _ _ _ _ Ro R) as E; discriminate E end.
  now exists l.
Qed.
Lemma not_own : forall r calls ln tag a x, Role tag a r -> (forall n, r <> Block n) -> ~ own calls ln tag a x.
Proof. intros r calls ln tag a x Ro N (_ & name & R & _). apply (N name). eapply role_unique; eassumption. Qed.
Lemma inner_said : forall b ln tag a cs m, Role tag a Inner -> (plain_tag tag -> autoblock autoblocks tag a) ->
  tells b (among false cs) (declared_all b cs) m -> tells b (fun c => Exp c (DElem ln tag a cs)) (declared b (DElem ln tag a cs)) m.
Proof.
  intros b ln tag a cs m Ro Pm H. eapply tells_iff; [|intros n; now apply declared_inner|exact H].
  intros c x. rewrite <- (among_marks Inner c tag a cs ln x Ro ltac:(discriminate) Pm). pose proof (not_own Inner c ln tag a x Ro ltac:(discriminate)). tauto.
Qed.
Lemma leaf_said : forall b ln tag a cs d m, ~ autoblock autoblocks tag a -> directive tag d -> In d leaf_directives -> d <> L "replace" -> quiet m ->
  tells b (fun c => Exp c (DElem ln tag a cs)) (declared b (DElem ln tag a cs)) m.
Proof.
  intros b ln tag a cs d m NA Di Id Nr Q. assert (Ro : Role tag a Leaf) by (eapply ro_leaf; eassumption).
  apply (tells_iff b (fun c => Exp c (DElem ln tag a cs)) _ nothing); [intros c x; reflexivity|intros n; now apply declared_leaf|].
  assert (NP : ~ plain_tag tag) by (apply (not_plain tag d Di); unfold known_directives; apply in_or_app; now left).
  apply quiet_tells; [exact Q|]. intros c x Mx. inversion Mx; subst; try contradiction.
  - match goal with H : ?r <> Leaf |- _ => apply H end. eapply role_unique; eassumption.
  - apply Nr. eapply directive_fun; eassumption.
  - match goal with R : role_of _ _ tag a _ |- _ => pose proof (role_unique _ _ _ _ _ _ Ro R) as E; discriminate E end.
Qed.
Lemma block_said : forall b ln tag a a' cs name, Role tag a (Block name) -> (plain_tag tag -> autoblock autoblocks tag a) -> Forall said cs ->
  tells b (fun c => Exp c (DElem ln tag a cs)) (declared b (DElem ln tag a cs)) (block_nodes ln name (kids false ln (InElement tag a') [] cs)).
Proof.
  intros b ln tag a a' cs name Ro Pm F s ns s' Eb E. unfold block_nodes in E. apply bind_ok in E as (body & s1 & E1 & E).
  destruct (kids_tell false ln tag a' cs F b [] s body s1 Eb E1) as (I1 & A & B & C).
  pose proof (fun c x => among_marks (Block name) c tag a cs ln x Ro ltac:(discriminate) Pm) as Q.
  assert (NO : forall x, ~ own false ln tag a x) by (intros x [X _]; discriminate X).
  set (k := (L "_kj_block_" ++ name) ++ L "()") in *.
  assert (X : exists v, ns = (if c_is_child s1 then [] else [NExpr ln k false]) /\ exps v = exps body /\
     s' = Cst (set_function k v (c_funs s1)) (c_mod s1) (c_in_def s1) (c_is_child s1) (c_names s1)).
  { apply bind_ok in E as (child & s2 & E2 & E). unfold get_is_child in E2. assert (child = c_is_child s1 /\ s2 = s1) as [-> ->] by (split; congruence).
    assert (Mb : exps (match body with [] => [NPass 0] | _ => body end) = exps body) by (destruct body; reflexivity).
    destruct (c_is_child s1) eqn:Ec.
    - apply bind_ok in E as (h & s3 & E3 & E). unfold lift in E3. destruct (mk_python 0 _) as [h'|] eqn:Eh; [|discriminate]. cbn [rmap] in E3.
      assert (s3 = s1 /\ h' = h) as [-> ->] by (split; congruence). apply parent_header in Eh as (lines & -> & _).
      apply add_then in E as [-> ->]. rewrite Ec. eexists. split; [reflexivity|]. split; [|reflexivity]. exact Mb.
    - apply add_then in E as [-> ->]. rewrite Ec. eexists. split; [reflexivity|]. split; [|reflexivity]. exact Mb. }
  destruct X as (v & -> & Mv & ->). cbn [c_in_def c_funs keys]. unfold keys. cbn [c_funs]. split; [exact I1|]. split; [|split].
  - intros x. destruct (c_is_child s1); [intros []|]. intros [<-|[]]. apply Q. right. split; [reflexivity|]. exists name. split; [exact Ro|]. unfold k. now rewrite <- app_assoc.
  - intros x Ix. apply fexps_set_in in Ix as [Ix|Ix]; [right; apply Q; left; apply A; now rewrite <- Mv|]. destruct (B x Ix); [now left|right; apply Q; now left].
  - intros names (l & D & ->) ND.
    assert (Dl : exists l', DeclareAll b cs l' /\ declared_names l = declared_names l' ++ [k]).
    { inversion D; subst; try match goal with R : role_of _ _ tag a _ |- _ => pose proof (role_unique _ _ _ _ _ _ Ro R) as E9; try discriminate E9 end.
      injection E9 as <-. eexists. split; [eassumption|]. rewrite declared_app. cbn [declared_names]. unfold k. now rewrite <- app_assoc. }
    destruct Dl as (l' & Dl & El). rewrite El in *. rewrite app_assoc in ND.
    assert (ND1 : NoDup (keys s ++ declared_names l') /\ ~ In k (keys s ++ declared_names l')).
    { split; [eapply nodup_left; exact ND|]. apply NoDup_remove_2 in ND. now rewrite app_nil_r in ND. }
    destruct ND1 as [ND1 Nk]. destruct (C (declared_names l')) as (K & C1 & C2); [now exists l'|exact ND1|].
    unfold keys in *. rewrite <- K in Nk. split; [|split].
    + rewrite keys_set. apply smem_notIn in Nk. rewrite Nk, K. now rewrite app_assoc.
    + intros x Tx. apply Q in Tx as [Tx|Tx]; [|now destruct (NO x)]. right. apply fexps_set_new; [exact Nk|]. rewrite Mv. exact (C1 x Tx).
    + intros x Ix. apply fexps_set_new; [exact Nk|]. right. auto.
Qed.
Lemma def_said : forall b ln tag a a' cs f, Role tag a (Def f) -> (plain_tag tag -> autoblock autoblocks tag a) -> Forall said cs ->
  tells b (fun c => Exp c (DElem ln tag a cs)) (declared b (DElem ln tag a cs)) (def_nodes ln f (kids false ln (InElement tag a') [] cs)).
Proof.
  intros b ln tag a a' cs f Ro Pm F s ns s' Eb E. unfold def_nodes in E. apply bind_ok in E as (old & s0 & E0 & E).
  unfold get_in_def in E0. assert (old = b /\ s0 = s) as [-> ->] by (split; congruence). clear E0.
  apply bind_ok in E as (u & s2 & E2 & E). unfold set_in_def in E2. assert (s2 = Cst (c_funs s) (c_mod s) true (c_is_child s) (c_names s)) by congruence. subst s2. clear E2.
  apply bind_ok in E as (body & s3 & E3 & E). apply bind_ok in E as (u' & s4 & E4 & E). unfold set_in_def in E4.
  assert (s4 = Cst (c_funs s3) (c_mod s3) b (c_is_child s3) (c_names s3)) by congruence. subst s4. clear E4.
  match type of E3 with _ ?st = _ => destruct (kids_tell false ln tag a' cs F true [] st body s3 eq_refl E3) as (I1 & A & B & C) end. cbn [c_funs] in *. unfold keys in *. cbn [c_funs] in *.
  assert (Q : forall c x, among false cs c x <-> Exp c (DElem ln tag a cs) x).
  { intros c x. rewrite <- (among_marks (Def f) c tag a cs ln x Ro ltac:(discriminate) Pm). pose proof (not_own (Def f) c ln tag a x Ro ltac:(discriminate)). tauto. }
  destruct b.
  - unfold ret in E. assert (ns = [NDef ln true f body] /\ s' = Cst (c_funs s3) (c_mod s3) true (c_is_child s3) (c_names s3)) as [-> ->] by (split; congruence).
    cbn [c_funs c_in_def flat_map node_exprs]. rewrite go_exprs, app_nil_r. split; [reflexivity|]. split; [|split].
    + intros x Ix. apply Q. auto.
    + intros x Ix. destruct (B x Ix); [now left|right; now apply Q].
    + intros names (l & D & ->) ND.
      assert (Dl : DeclareAll true cs l) by (inversion D; subst; try match goal with R : role_of _ _ tag a _ |- _ => pose proof (role_unique _ _ _ _ _ _ Ro R) as E9; discriminate E9 end; assumption).
      destruct (C (declared_names l)) as (K & C1 & C2); [now exists l|exact ND|]. split; [exact K|]. split; [|exact C2]. intros x Tx. apply C1. now apply Q.
  - apply add_then in E as [-> ->]. cbn [c_funs c_in_def c_mod c_is_child c_names flat_map]. split; [reflexivity|]. split; [intros x []|]. split.
    + intros x Ix. apply fexps_set_in in Ix as [Ix|Ix]; [right; apply Q; auto|]. destruct (B x Ix); [now left|right; now apply Q].
    + intros names (l & D & ->) ND.
      assert (Dl : exists l', DeclareAll true cs l' /\ declared_names l = declared_names l' ++ [f]).
      { inversion D; subst; try match goal with R : role_of _ _ tag a _ |- _ => pose proof (role_unique _ _ _ _ _ _ Ro R) as E9; try discriminate E9 end.
        injection E9 as <-. eexists. split; [eassumption|]. rewrite declared_app. reflexivity. }
      destruct Dl as (l' & Dl & El). rewrite El in *. rewrite app_assoc in ND.
      assert (ND1 : NoDup (map fst (c_funs s) ++ declared_names l') /\ ~ In f (map fst (c_funs s) ++ declared_names l')).
      { split; [eapply nodup_left; exact ND|]. apply NoDup_remove_2 in ND. now rewrite app_nil_r in ND. }
      destruct ND1 as [ND1 Nk]. destruct (C (declared_names l')) as (K & C1 & C2); [now exists l'|exact ND1|]. rewrite <- K in Nk. split; [|split].
      * rewrite keys_set. apply smem_notIn in Nk. rewrite Nk, K. now rewrite app_assoc.
      * intros x Tx. apply Q in Tx. right. apply fexps_set_new; [exact Nk|]. destruct (C1 x Tx); auto.
      * intros x Ix. apply fexps_set_new; [exact Nk|]. right. auto.
Qed.

(** *** Rendered elements *)
Definition attr_expression (ln : nat) (l : list (str * str)) (x : nat * str) : Prop :=
  exists k v, In (k, v) l /\ k <> L "py:content" /\ k <> L "py:attrs" /\ text_expression compile ln v x.
Lemma attrs_tell : forall b ln g l, tells b (fun _ => attr_expression ln l) nothing (compile_attrs compile helper mode ln g l).
Proof.
  intros b ln g l. apply pure_tells; [apply pure_attrs|]. intros s ns s' E _ x. revert s ns s' E. induction l as [|[k v] l IH]; intros s ns s' E; cbn [compile_attrs] in E.
  - unfold ret in E. assert (ns = []) as -> by congruence. split; [intros []|intros (k & v & [] & _)].
  - apply bind_ok in E as (value & s1 & E1 & E). unfold lift, text_nodes in E1. destruct (pieces compile v ln) as [ps|] eqn:Ep; [|discriminate]. cbn [rmap] in E1.
    assert (value = map (piece_node TK_attr) ps) by congruence. subst value. destruct (_ || _) eqn:Ek.
    + rewrite (IH _ _ _ E). split; intros (k' & v' & I1 & Y); [exists k', v'; split; [now right|exact Y]|].
      destruct I1 as [I1|I1]; [|exists k', v'; now split]. exfalso. assert (k' = k) by congruence. subst k'. destruct Y as (N1 & N2 & _).
      apply orb_true_iff in Ek as [Ek|Ek]; apply seqb_eq in Ek; contradiction.
    + apply bind_ok in E as (i & s2 & E2 & E). apply cat_ok in E as (y & s3 & z & E3 & E4 & ->). unfold ret in E3. rewrite exps_app, in_app_iff, (IH _ _ _ E4).
      assert (y = [NAttr ln k (map (piece_node TK_attr) ps) g mode (helper i) (helper (i + 1)) (helper (i + 2))]) by congruence. subst y.
      cbn [flat_map node_exprs]. rewrite go_exprs, app_nil_r, pieces_exprs. apply orb_false_iff in Ek as [N1 N2]. apply seqb_neq in N1, N2. split.
      * intros [H|(k' & v' & I1 & Y)]; [|exists k', v'; split; [now right|exact Y]]. exists k, v. split; [now left|]. split; [exact N1|]. split; [exact N2|]. exists ps. now split.
      * intros (k' & v' & [I1|I1] & Y); [left|right; exists k', v'; now split]. destruct Y as (_ & _ & ps' & E' & H). assert (v' = v) by congruence. subst v'. now assert (ps' = ps) as <- by congruence.
Qed.
Lemma quiet_more : forall ln a g, quiet (more_nodes helper mode ln a g).
Proof.
  intros ln a g. split; [now apply pure_more|]. intros s ns s' E. unfold more_nodes in E. destruct (get_attr _ a) as [|c0 r]; [unfold ret in E; now assert (ns = []) as -> by congruence|].
  apply bind_ok in E as (i & s1 & E1 & E). unfold ret in E. assert (ns = [NAttrs ln (c0 :: r) g mode (helper i)]) by congruence. now subst.
Qed.
Definition script_expression (cs : list dnode) (x : nat * str) : Prop :=
  (exists ln t, In (DText ln t false) cs /\ text_expression compile ln t x) \/
  (exists ln t e, In (DText ln t true) cs /\ text_expression compile ln t (fst x, e) /\ unescape e = Ok (snd x)).
Lemma unescaped_exprs : forall k ps ns, rseq (map unescape_node (map (piece_node k) ps)) = Ok ns -> k = TK_raw ->
  forall x, In x (exps ns) <-> exists e, In (XExpr (fst x) e) ps /\ unescape e = Ok (snd x).
Proof.
  intros k ps ns E -> [l e0]. cbn [fst snd]. revert ns E. induction ps as [|q ps IHq]; intros r Er; cbn [map rseq] in Er.
  - assert (r = []) as -> by congruence. split; [intros []|intros (e & [] & _)].
  - destruct q as [l' t'|l' e']; cbn [piece_node unescape_node] in Er.
    + destruct (unescape t') as [t2|]; [|discriminate]. cbn [rmap rbind] in Er. destruct (rseq (map unescape_node (map (piece_node TK_raw) ps))) as [r'|]; [|discriminate].
      cbn [rmap rbind] in Er. assert (r = NText l' t2 None :: r') by congruence. subst r. cbn [flat_map node_exprs app]. rewrite (IHq r' eq_refl).
      split; intros (e & I1 & U); exists e; (split; [|exact U]); [now right|]. destruct I1 as [I1|I1]; [discriminate|exact I1].
    + destruct (unescape e') as [t2|] eqn:Eu; [|discriminate]. cbn [rmap rbind] in Er. destruct (rseq (map unescape_node (map (piece_node TK_raw) ps))) as [r'|]; [|discriminate].
      cbn [rmap rbind] in Er. assert (r = NExpr l' t2 false :: r') by congruence. subst r. cbn [flat_map node_exprs app]. cbn [In]. rewrite (IHq r' eq_refl). split.
      * intros [H|(e & I1 & U)]; [exists e'|exists e; split; [now right|exact U]]. split; [left|]; congruence.
      * intros (e & [H|I1] & U); [left|right; exists e; now split]. assert (l' = l /\ e' = e) as [-> ->] by (split; congruence). congruence.
Qed.
Lemma script_tells : forall b tag a l, script_or_style tag -> tells b (fun _ => script_expression l) nothing (script_nodes compile tag a l).
Proof.
  intros b tag a l Sc. apply pure_tells; [now apply pure_script|]. intros s ns s' E _ x. revert s ns s' E. induction l as [|n l IH]; intros s ns s' E; cbn [script_nodes] in E.
  - unfold ret in E. assert (ns = []) as -> by congruence. split; [intros []|intros [(ln & t & [] & _)|(ln & t & e & [] & _)]].
  - destruct n as [| ln t e|ln t| |]; try discriminate.
    2:{ rewrite (IH _ _ _ E). unfold script_expression. split; (intros [(ln' & t' & I1 & Y)|(ln' & t' & e' & I1 & Y)]; [left; exists ln', t'|right; exists ln', t', e']; (split; [|exact Y])); try (now right);
          (destruct I1 as [I1|I1]; [discriminate|exact I1]). }
    apply bind_ok in E as (y & s1 & E1 & E). apply bind_ok in E as (y' & s2 & E2 & E). apply cat_ok in E as (z & s3 & w & E3 & E4 & ->).
    rewrite exps_app, in_app_iff, (IH _ _ _ E4). unfold ret in E3. assert (z = y') by congruence. subst z.
    cbn [compile_text] in E1. pose proof Sc as Sc'. apply (cdata_tag compile mode) in Sc'. rewrite Sc' in E1. unfold lift, text_nodes in E1. destruct (pieces compile t ln) as [ps|] eqn:Ep; [|discriminate].
    cbn [rmap] in E1. assert (y = map (piece_node TK_raw) ps) by congruence. subst y. unfold script_expression.
    destruct e; unfold lift in E2.
    + destruct (rseq (map unescape_node (map (piece_node TK_raw) ps))) as [r|] eqn:Er; [|discriminate]. cbn [rmap] in E2. assert (y' = r) by congruence. subst y'.
      rewrite (unescaped_exprs TK_raw ps r Er eq_refl). split.
      * intros [(e & I1 & U)|[(ln' & t' & I1 & Y)|(ln' & t' & e' & I1 & Y)]].
        -- right. exists ln, t, e. split; [now left|]. split; [exists ps; now split|exact U].
        -- left. exists ln', t'. split; [now right|exact Y].
        -- right. exists ln', t', e'. split; [now right|exact Y].
      * intros [(ln' & t' & [I1|I1] & Y)|(ln' & t' & e' & [I1|I1] & Y)]; [discriminate| | |].
        -- right. left. exists ln', t'. now split.
        -- left. exists e'. destruct Y as [(ps' & Ep' & H) U]. assert (ln' = ln /\ t' = t) as [-> ->] by (split; congruence). assert (ps' = ps) by congruence. subst ps'. now split.
        -- right. right. exists ln', t', e'. now split.
    + cbn [rmap] in E2. assert (y' = map (piece_node TK_raw) ps) by congruence. subst y'. rewrite pieces_exprs. split.
      * intros [H|[(ln' & t' & I1 & Y)|(ln' & t' & e' & I1 & Y)]].
        -- left. exists ln, t. split; [now left|]. exists ps. now split.
        -- left. exists ln', t'. split; [now right|exact Y].
        -- right. exists ln', t', e'. split; [now right|exact Y].
      * intros [(ln' & t' & [I1|I1] & Y)|(ln' & t' & e' & [I1|I1] & Y)].
        -- left. destruct Y as (ps' & Ep' & H). assert (ln' = ln /\ t' = t) as [-> ->] by (split; congruence). now assert (ps' = ps) as <- by congruence.
        -- right. left. exists ln', t'. now split.
        -- discriminate.
        -- right. right. exists ln', t', e'. now split.
Qed.
Lemma autoblock_attrs : forall tag a a', is_autoblock autoblocks tag a = Ok (false, a') ->
  forall k v, In (k, v) a' <-> In (k, v) a /\ ~ (k = L "py:autoblock" /\ In tag autoblocks).
Proof.
  intros tag a a' E k v. unfold is_autoblock in E. destruct (smem tag autoblocks) eqn:Em.
  - apply smem_In in Em. destruct (has_attr (L "py:autoblock") a) eqn:Eh; [|discriminate].
    destruct (seqb (lower _) (L "false")); [|destruct (seqb (lower _) (L "true")); discriminate]. assert (a' = remove_attr (L "py:autoblock") a) as -> by congruence.
    unfold remove_attr. rewrite filter_In. cbn [fst]. rewrite negb_true_iff, seqb_neq. split; intros [I1 N1]; (split; [exact I1|]); [intros [N2 _]; congruence|intros N2; apply N1; split; congruence].
  - apply smem_notIn in Em. assert (a' = a) as -> by congruence. tauto.
Qed.
Lemma xml_said : forall b ln tag a a' cs, ~ autoblock autoblocks tag a -> plain_tag tag ->
  (forall k, k <> L "py:autoblock" -> get_attr k a' = get_attr k a) ->
  (forall k v, In (k, v) a' <-> In (k, v) a /\ ~ (k = L "py:autoblock" /\ In tag autoblocks)) -> Forall said cs ->
  tells b (fun c => Exp c (DElem ln tag a cs)) (declared b (DElem ln tag a cs)) (xml_nodes compile helper autoblocks cdata_scripts mode ln tag a' cs).
Proof.
  intros b ln tag a a' cs NA Pl Ga Aa F. unfold xml_nodes. cbv zeta.
  assert (G : get_attr (L "py:content") (remove_attr (L "py:strip") a') = get_attr (L "py:content") a)
    by (rewrite get_removed by discriminate; apply Ga; discriminate).
  assert (At : forall x, attr_expression ln (sorted_attrs (remove_attr (L "py:strip") a')) x <->
     exists k v, In (k, v) a /\ ~ special_attr k /\ ~ (k = L "py:autoblock" /\ In tag autoblocks) /\ text_expression compile ln v x).
  { intros x. unfold attr_expression, sorted_attrs. split; intros (k & v & I1 & Y); exists k, v.
    - apply (Permutation_in _ (sort_perm _ _)) in I1. unfold remove_attr in I1. apply filter_In in I1 as [I1 N1]. cbn [fst] in N1. apply negb_true_iff, seqb_neq in N1.
      apply Aa in I1 as [I1 N2]. destruct Y as (N3 & N4 & Y). split; [exact I1|]. split; [intros [X|[X|X]]; congruence|]. now split.
    - destruct Y as (N1 & N2 & Y). assert (NN : k <> L "py:content" /\ k <> L "py:attrs" /\ k <> L "py:strip") by (unfold special_attr in N1; tauto). destruct NN as (N3 & N4 & N5).
      split; [|now split]. apply (Permutation_in _ (Permutation_sym (sort_perm _ _))). unfold remove_attr. apply filter_In. split; [now apply Aa|]. cbn [fst]. apply negb_true_iff, seqb_neq. congruence. }
  assert (NoP : ~ directive tag (L "replace")) by (intros D; apply (Pl _ D); cbn; tauto).
  assert (NoB : forall r, Role tag a r -> r = Leaf \/ r = Inner).
  { intros r Ro. inversion Ro; subst; try contradiction; auto; exfalso; eapply Pl; try eassumption; cbn; tauto. }
  assert (NoC : forall n, ~ Role tag a (Block n)) by (intros n Ro; destruct (NoB _ Ro); discriminate).
  set (TA := fun (_ : bool) x => attr_expression ln (sorted_attrs (remove_attr (L "py:strip") a')) x).
  assert (Wrap : forall (T : bool -> nat * str -> Prop) (D D' : list str -> Prop) g m, tells b T D m -> (forall n, D' n -> D n) ->
     (forall c x, TA c x \/ T c x <-> Exp c (DElem ln tag a cs) x) ->
     tells b (fun c => Exp c (DElem ln tag a cs)) D' (cat (ret [NText ln (L "<" ++ tag) g]) (cat (compile_attrs compile helper mode ln g (sorted_attrs (remove_attr (L "py:strip") a')))
       (cat (more_nodes helper mode ln (remove_attr (L "py:strip") a') g) m)))).
  { intros T D D' g m H HD HT. apply tells_cat; [now apply quiet_ret|]. apply (tells_iff b (fun c x => TA c x \/ T c x) _ D); [exact HT|exact HD|].
    apply tells_nothing; [apply attrs_tell|]. apply tells_cat; [apply quiet_more|exact H]. }
  unfold rest_nodes. cbv zeta. rewrite G. destruct (get_attr (L "py:content") a) as [|c0 c] eqn:Ec.
  - assert (Pe : quiet (if smem tag html_required_end_tags then ret [NText ln (L "></" ++ tag ++ L ">") (strip_guard a')]
                     else if html mode then
                       if smem tag html_optional_end_tags then ret [NText ln (L ">") (strip_guard a')]
                       else ret [NText ln (L "></" ++ tag ++ L ">") (strip_guard a')]
                     else ret [NText ln (L "/>") (strip_guard a')])).
    { destruct (smem tag html_required_end_tags); [now apply quiet_ret|]. destruct (html mode); [|now apply quiet_ret].
      destruct (smem tag html_optional_end_tags); now apply quiet_ret. }
    destruct (cdata_scripts && smem tag html_cdata_tags) eqn:Es.
    + apply andb_true_iff in Es as [Es1 Es2]. apply (cdata_tag compile mode) in Es2. assert (Ro : Role tag a Leaf) by now apply ro_script.
      apply (Wrap (fun _ => script_expression cs) nothing).
      * destruct cs as [|c cs]; [apply quiet_tells; [exact Pe|]; intros _ x [(ln' & t & [] & _)|(ln' & t & e & [] & _)]|].
        apply tells_cat; [now apply quiet_ret|]. apply tells_then; [apply quiet_ret; now destruct (html mode && smem tag html_optional_end_tags)|].
        apply tells_cat; [apply quiet_ret; now destruct (seqb mode (L "xml"))|]. apply tells_then; [apply quiet_ret; now destruct (seqb mode (L "xml"))|now apply script_tells].
      * intros n. now apply declared_leaf.
      * intros calls x. unfold TA. rewrite At. split.
        -- intros [(k & v & I1 & N1 & N2 & Y)|[(ln' & t & I1 & Y)|(ln' & t & e & I1 & Y & U)]].
           ++ eapply ei_attr; eassumption.
           ++ eapply ei_script; eassumption.
           ++ destruct x as [l e']. eapply ei_escaped; eassumption.
        -- intros Mx. inversion Mx; subst; try contradiction; try (exfalso; eapply NoC; eassumption).
           ++ exfalso. match goal with H : ?r <> Leaf |- _ => apply H end. eapply role_unique; eassumption.
           ++ left. eauto 8.
           ++ right. left. eauto.
           ++ right. right. cbn [fst snd]. eauto 6.
    + assert (NS : ~ (cdata_scripts = true /\ script_or_style tag)) by (intros [E0 S]; apply (cdata_tag compile mode) in S; rewrite E0, S in Es; discriminate).
      assert (Ro : Role tag a Inner) by now apply ro_elem.
      apply (Wrap (among true cs) (declared_all b cs)).
      * destruct cs as [|c cs].
        -- apply (tells_iff b (fun _ _ => False) _ nothing); [|intros n (l & D & ->); inversion D; reflexivity|apply quiet_tells; [exact Pe|auto]].
           intros k x. split; [intros []|intros (c & [] & _)].
        -- apply tells_cat; [now apply quiet_ret|]. apply tells_then; [apply quiet_ret; now destruct (html mode && smem tag html_optional_end_tags)|].
           now apply kids_tell.
      * intros n. now apply declared_inner.
      * intros calls x. unfold TA. rewrite At. split.
        -- intros [(k & v & I1 & N1 & N2 & Y)|(c & I1 & Nm & Mx)]; [eapply ei_attr; eassumption|].
           eapply ei_child; eauto; [discriminate|]. intros Mk. now destruct (Nm eq_refl).
        -- intros Mx. inversion Mx; subst; try contradiction; try (exfalso; eapply NoC; eassumption); try (exfalso; apply NS; now split).
           ++ right. exists c. split; [assumption|]. split; [|assumption]. intros _ Mk. apply NA. auto.
           ++ left. eauto 8.
  - assert (Ro : Role tag a Leaf) by (apply ro_content; [exact NA|exact Pl|congruence]).
    apply (Wrap (fun _ x => x = (ln, c0 :: c)) nothing).
    + apply pure_tells; [apply pure_ret|]. intros s ns s' E _ x. unfold ret in E. assert (ns = [NText ln (L ">") (strip_guard a'); NExpr ln (c0 :: c) false; NText ln (L "</" ++ tag ++ L ">") (strip_guard a')]) as -> by congruence.
      cbn [flat_map node_exprs app In]. split; [intros [H|[]]; now symmetry|now left].
    + intros n. now apply declared_leaf.
    + intros calls x. unfold TA. rewrite At. split.
      * intros [(k & v & I1 & N1 & N2 & Y)| ->]; [eapply ei_attr; eassumption|]. eapply ei_content; eauto. discriminate.
      * intros Mx. inversion Mx; subst; try contradiction; try congruence; try (exfalso; eapply NoC; eassumption).
        -- exfalso. match goal with H : ?r <> Leaf |- _ => apply H end. eapply role_unique; eassumption.
        -- left. eauto 8.
        -- right. congruence.
Qed.
Lemma switch_keeps : forall ln d, keeps (fun body => bind (lift (switch_body body)) (fun body => ret [NSwitch ln d body])).
Proof.
  intros ln d body. split; [apply (pure_bind compile mode); [apply pure_lift|]; intros; apply pure_ret|].
  intros s ns s' E. apply bind_ok in E as (b2 & s1 & E1 & E2). unfold ret in E2. assert (ns = [NSwitch ln d b2]) by congruence. subst ns.
  cbn [flat_map node_exprs]. rewrite go_exprs, app_nil_r. unfold lift in E1. destruct (switch_body body) as [b3|] eqn:Eb; [|discriminate]. cbn [rmap] in E1.
  assert (b3 = b2) by congruence. subst b3. clear - Eb. revert b2 Eb. induction body as [|n body IH]; intros b2 Eb; cbn [switch_body] in Eb; [now assert (b2 = []) as -> by congruence|].
  destruct (ir_text n) as [t|] eqn:Et.
  - destruct (strip t) eqn:Es; [|discriminate]. cbn [flat_map]. rewrite (IH _ Eb).
    assert (node_exprs n = []) as -> by (destruct n; try discriminate; reflexivity).
    reflexivity.
  - destruct (is_case_or_else n); [|discriminate]. destruct (switch_body body) as [r|]; [|discriminate]. cbn [rmap] in Eb. assert (b2 = n :: r) by congruence. subst b2.
    cbn [flat_map]. now rewrite (IH r eq_refl).
Qed.
Theorem all_said : forall n, said n.
Proof.
  apply (dnode_rec' said).
  - intros ln tag a cs F p prev b. rewrite compile_elem. intros s ns s' Eb E. apply bind_ok in E as ([bl a'] & s1 & E1 & E).
    unfold lift in E1. destruct (is_autoblock autoblocks tag a) as [ba|x] eqn:Ea; [|discriminate]. cbn [rmap] in E1.
    assert (ba = (bl, a') /\ s1 = s) as [-> ->] by (split; congruence). clear E1.
    pose proof Ea as Aa. apply (autoblock_ok compile autoblocks mode) in Ea as (A1 & A2 & Ga). cbn [fst snd] in E. cbv zeta in E. revert s ns s' Eb E. destruct bl.
    { apply (block_said b ln tag a a' cs tag); [apply ro_auto; auto|auto|exact F]. }
    specialize (A2 eq_refl). clear A1. pose proof (autoblock_attrs _ _ _ Aa) as Ab. clear Aa. pose proof (method_directive tag) as Md.
    assert (Np : forall d, In d known_directives -> Some d = method_name (method_of tag) -> plain_tag tag -> autoblock autoblocks tag a)
      by (intros d Id Ed Pl; exfalso; apply (Pl d); [apply Md; now symmetry|exact Id]).
    assert (Li : forall d, In d leaf_directives -> Some d = method_name (method_of tag) -> Role tag a Leaf)
      by (intros d I1 E0; eapply ro_leaf; [exact A2|apply Md; symmetry; exact E0|exact I1]).
    assert (Ii : forall d, In d inner_directives -> Some d = method_name (method_of tag) -> Role tag a Inner)
      by (intros d I1 E0; eapply ro_inner; [exact A2|apply Md; symmetry; exact E0|exact I1]).
    assert (K : tells b (among false cs) (declared_all b cs) (kids false ln (InElement tag a') [] cs)) by now apply kids_tell.
    match goal with |- forall s ns s', _ -> ?m s = _ -> _ => change (tells b (fun c => Exp c (DElem ln tag a cs)) (declared b (DElem ln tag a cs)) m) end.
    assert (In1 : forall d m, In d inner_directives -> Some d = method_name (method_of tag) -> tells b (among false cs) (declared_all b cs) m ->
       tells b (fun c => Exp c (DElem ln tag a cs)) (declared b (DElem ln tag a cs)) m).
    { intros d m Id Ed H. apply inner_said; [eapply Ii; eassumption| |exact H]. eapply Np; [|exact Ed]. unfold known_directives. apply in_or_app. right. apply in_or_app. now left. }
    destruct (method_of tag) eqn:Em; cbn [method_name] in *.
    + apply xml_said; [exact A2|now apply method_plain|exact Ga|exact Ab|exact F].
    + (* replace *) assert (Di : directive tag (L "replace")) by now apply Md. assert (Ro : Role tag a Leaf) by now apply replace_leaf.
      apply (tells_iff b (fun _ x => x = (ln, get_attr (L "value") a)) _ nothing); [|intros n; now apply declared_leaf|].
      * intros calls x. split; [intros ->; now apply ei_replace|]. assert (NP : ~ plain_tag tag) by (apply (not_plain tag _ Di); cbn; tauto).
        intros Mx. inversion Mx; subst; try contradiction; try reflexivity.
        -- exfalso. match goal with H : ?r <> Leaf |- _ => apply H end. eapply role_unique; eassumption.
        -- match goal with R : role_of _ _ tag a _ |- _ => pose proof (role_unique _ _ _ _ _ _ Ro R) as E9; discriminate E9 end.
      * apply pure_tells; [apply pure_ret|]. intros s ns s' E _ x. unfold ret in E. rewrite (Ga (L "value")) in E by discriminate.
        assert (ns = [NExpr ln (get_attr (L "value") a) false]) as -> by congruence. cbn [flat_map node_exprs app In]. split; [intros [H|[]]; now symmetry|now left].
    + eapply leaf_said; [exact A2|apply Md; reflexivity|cbn; tauto|discriminate|now apply quiet_ret].
    + (* extends *) assert (Ro : Role tag a Ext) by (apply ro_extends; [exact A2|now apply Md]).
      assert (K1 : tells b (among false cs) (declared_all b cs) (cat (ret [NExtend ln (get_attr (L "href") a')]) (kids false ln (InElement tag a') [] cs)))
        by (apply tells_cat; [now apply quiet_ret|exact K]).
      apply (tells_iff b (among false cs) _ (declared_all b cs)).
      * intros c x. rewrite <- (among_marks Ext c tag a cs ln x Ro ltac:(discriminate)); [|eapply Np; [|reflexivity]; cbn; tauto].
        pose proof (not_own Ext c ln tag a x Ro ltac:(discriminate)). tauto.
      * intros n (l & D & ->). inversion D; subst; try match goal with R : role_of _ _ tag a _ |- _ => pose proof (role_unique _ _ _ _ _ _ Ro R) as E9; discriminate E9 end.
        eexists. split; [eassumption|]. reflexivity.
      * intros s ns s' Eb E. apply bind_ok in E as (u & s1 & E1 & E). unfold set_is_child in E1.
        assert (s1 = Cst (c_funs s) (c_mod s) (c_in_def s) true (c_names s)) by congruence. subst s1. exact (K1 (Cst (c_funs s) (c_mod s) (c_in_def s) true (c_names s)) ns s' Eb E).
    + eapply leaf_said; [exact A2|apply Md; reflexivity|cbn; tauto|discriminate|now apply quiet_ret].
    + rewrite Ga by discriminate. apply block_said; [apply ro_block; [exact A2|now apply Md]| |exact F]. eapply Np; [|reflexivity]. cbn; tauto.
    + rewrite Ga by discriminate. apply def_said; [apply ro_def; [exact A2|now apply Md]| |exact F]. eapply Np; [|reflexivity]. cbn; tauto.
    + eapply In1; [|reflexivity|]; [cbn; tauto|]. apply tells_before; [apply pure_lift|]. intros caller. apply tells_keeps; [exact K|].
      intros body. split; [apply (pure_bind compile mode); [apply pure_draw|]; intros; apply pure_ret|]. intros s ns s' E. apply bind_ok in E as (i & s1 & E1 & E2). unfold ret, mk_call in E2.
      match type of E2 with Ok ([?n], _) = _ => assert (ns = [n]) by congruence end. subst ns. cbn [flat_map node_exprs]. now rewrite go_exprs, app_nil_r.
    + eapply In1; [|reflexivity|]; [cbn; tauto|]. apply tells_keeps; [exact K|]. apply keeps_ret. intros b0. cbn [node_exprs]. apply go_exprs.
    + eapply In1; [|reflexivity|]; [cbn; tauto|]. apply tells_keeps; [exact K|]. intros body. split; [apply (pure_bind compile mode); [apply pure_lift|]; intros; apply pure_ret|].
      intros s ns s' E. apply bind_ok in E as (n & s1 & E1 & E2). unfold ret in E2. assert (ns = [n]) by congruence. subst ns. unfold lift, mk_with in E1.
      destruct (with_vars _) as [vs|]; [|discriminate]. cbn [rmap] in E1. assert (n = NWith ln vs body) by congruence. subst n. cbn [flat_map node_exprs]. now rewrite go_exprs, app_nil_r.
    + eapply In1; [|reflexivity|]; [cbn; tauto|]. apply tells_keeps; [exact K|]. apply switch_keeps.
    + eapply In1; [|reflexivity|]; [cbn; tauto|]. apply tells_keeps; [exact K|]. apply keeps_ret. intros b0. cbn [node_exprs]. apply go_exprs.
    + eapply In1; [|reflexivity|]; [cbn; tauto|]. apply tells_keeps; [exact K|]. apply keeps_ret. intros b0. cbn [node_exprs]. apply go_exprs.
    + eapply In1; [|reflexivity|]; [cbn; tauto|]. apply tells_before; [apply pure_lift|]. intros [|].
      * apply tells_keeps; [exact K|]. apply keeps_ret. intros b0. cbn [node_exprs]. apply go_exprs.
      * intros s ns s' _ E. discriminate.
    + eapply In1; [|reflexivity|]; [cbn; tauto|exact K].
    + intros s ns s' _ E. discriminate.
    + intros s ns s' _ E. discriminate.
  - intros ln t e p prev b. cbn [compile_node]. eapply tells_iff; [| |apply text_tells].
    + intros c x. split; [apply ei_text|]. intros Mx. now inversion Mx.
    + intros n (l & D & ->). inversion D. reflexivity.
  - intros ln t p prev b. cbn [compile_node]. eapply tells_iff; [| |apply text_tells].
    + intros c x. split; [apply ei_mark|]. intros Mx. now inversion Mx.
    + intros n (l & D & ->). inversion D. reflexivity.
  - intros ln t p prev b. cbn [compile_node]. apply (tells_iff b (fun c => Exp c (DComment ln t)) _ nothing); [intros c x; reflexivity| |apply quiet_tells].
    + intros n (l & D & ->). inversion D. reflexivity.
    + apply quiet_ret. unfold compile_comment. now destruct (prefixb (L "!") t).
    + intros c x Mx. inversion Mx.
  - intros ln t d p prev b. cbn [compile_node]. intros s ns s' Eb E. unfold compile_pi in E. apply bind_ok in E as (n & s1 & E1 & E).
    unfold lift in E1. destruct (mk_python ln [strip d]) as [n'|] eqn:En; [|discriminate]. cbn [rmap] in E1. assert (n' = n /\ s1 = s) as [-> ->] by (split; congruence).
    assert (X : exps ns = [] /\ c_funs s' = c_funs s /\ c_in_def s' = c_in_def s).
    { unfold mk_python in En. destruct (concat [strip d]) as [|c s0]; [discriminate|]. destruct (N.eqb c c_pct).
      - destruct (normalize s0) as [ls|]; [|discriminate]. cbn [rmap] in En. assert (n = NPython ln ls true) by congruence. subst n.
        apply bind_ok in E as (u & s1 & E2 & E). unfold ret, add_module in *. split; [now assert (ns = []) as -> by congruence|]. assert (s' = s1) by congruence. subst s'.
        split; [assert (s1 = Cst (c_funs s) (c_mod s ++ [(0, ls)]) (c_in_def s) (c_is_child s) (c_names s)) as -> by congruence; reflexivity|].
        assert (s1 = Cst (c_funs s) (c_mod s ++ [(0, ls)]) (c_in_def s) (c_is_child s) (c_names s)) as -> by congruence; reflexivity.
      - destruct (normalize (c :: s0)) as [ls|]; [|discriminate]. cbn [rmap] in En. assert (n = NPython ln ls false) by congruence. subst n. unfold ret in E.
        split; [now assert (ns = [NPython ln ls false]) as -> by congruence|]. now assert (s' = s) as -> by congruence. }
    destruct X as (Mn & Ef & Ei). rewrite Mn. unfold keys. rewrite Ef. split; [congruence|]. split; [intros x []|]. split; [now left|].
    intros names (l & D & ->) _. assert (declared_names l = []) as -> by (inversion D; reflexivity). rewrite app_nil_r. split; [reflexivity|]. split; [|auto].
    intros x Mx. inversion Mx.
Qed.

Theorem document_exprs : forall frag d t, compile_document compile helper autoblocks cdata_scripts mode frag d = Ok t ->
  exists root l, filter no_comment (d_children d) = [root] /\ Declares_ false root l /\
    (forall x, In x (exps (defs t)) -> Exp true root x) /\
    (NoDup (L "__main__()" :: declared_names l) -> forall x, Exp false root x -> In x (exps (defs t))).
Proof.
  intros frag d t E. unfold compile_document in E. destruct (filter no_comment (d_children d)) as [|root [|r2 rs]] eqn:R; try discriminate.
  match type of E with rmap _ ?m = _ => destruct m as [[ns s]|] eqn:Ec end; [|discriminate]. cbn [rmap fst snd] in E.
  set (body := doctype_text mode frag (c_is_child s) (d_dtd d) ++ ns) in *.
  assert (Et : t = TemplateNode 0 (c_mod s) (map (fun kv => NDef 0 false (fst kv) (snd kv)) (set_function main_decl body (c_funs s)))) by congruence. subst t.
  destruct (recorded_all root _ _ _ _ _ Ec) as (l & D & Rn & _). cbn [c_in_def] in D.
  match type of Ec with _ ?st = _ => destruct (all_said root InDocument [] false st _ _ eq_refl Ec) as (_ & A & B & C) end. 
  exists root, l. split; [reflexivity|]. split; [exact D|].
  assert (Mb : exps body = exps ns).
  { unfold body, doctype_text. rewrite exps_app. destruct (frag || c_is_child s); [reflexivity|]. destruct (d_dtd d); [|reflexivity]. now destruct (seqb mode (L "html5")). }
  assert (Mt : forall f, exps (defs (TemplateNode 0 (c_mod s) (map (fun kv => NDef 0 false (fst kv) (snd kv)) f))) = fexps f).
  { intros f. unfold fexps. cbn [defs]. induction f as [|kv f IH]; [reflexivity|]. cbn [map flat_map node_exprs]. now rewrite go_exprs, IH. }
  rewrite Mt. cbn [c_funs] in B. split.
  - intros x Ix. apply fexps_set_in in Ix as [Ix|Ix]; [rewrite Mb in Ix; auto|]. destruct (B x Ix) as [[]|Tx]. exact Tx.
  - intros ND x Mx. destruct (C (declared_names l)) as (K & C1 & _); [now exists l|unfold keys; cbn [c_funs map fst app]; exact ND|].
    unfold keys in K. cbn [c_funs map fst app] in K.
    assert (Im : In main_decl (map fst (c_funs s))) by (rewrite K; now left).
    assert (ND0 : NoDup (map fst [(main_decl, @nil node)])) by (repeat constructor; intros []).
    pose proof (runs_bodies _ _ _ _ _ _ _ _ Rn ND0) as Eb. cbn [c_funs c_is_child] in Eb.
    assert (Ev : forall v, In (main_decl, v) (c_funs s) -> v = []).
    { intros v I1. destruct (Eb _ _ I1) as [[[E0|[]] _]|(l1 & e & l2 & El & _)]; [congruence|]. exfalso. inversion ND as [|? ? Nm _]; subst. apply Nm.
      rewrite declared_app. apply in_or_app. right. now left. }
    destruct (C1 x Mx) as [Ix|Ix]; clear - Ix Mb Im Ev.
    + rewrite <- Mb in Ix. clear Mb Ev.
      induction (c_funs s) as [|[k v] f IH]; [destruct Im|]. cbn [set_function]. destruct (seqb_spec main_decl k) as [->|Ne]; unfold fexps in *; cbn [flat_map snd]; apply in_or_app; [now left|].
      right. apply IH. destruct Im as [E|Im]; [cbn [fst] in E; congruence|exact Im].
    + clear Mb Im.
      induction (c_funs s) as [|[k v] f IH]; [destruct Ix|]. cbn [set_function]. unfold fexps in *. cbn [flat_map snd] in Ix. apply in_app_or in Ix as [Ix|Ix].
      * destruct (seqb_spec main_decl k) as [<-|Ne]; [rewrite (Ev v) in Ix by (now left); destruct Ix|]. cbn [flat_map snd]. apply in_or_app. now left.
      * destruct (seqb_spec main_decl k) as [->|Ne]; cbn [flat_map snd]; apply in_or_app; right; [exact Ix|]. apply IH; [|exact Ix]. intros v0 I1. apply Ev. now right.
Qed.
End Doc.

(** ** The steps of the extractor *)
Lemma go_steps : forall l, (fix go (l : list node) : list (nat * step) := match l with [] => [] | m :: l' => node_steps m ++ go l' end) l = flat_map node_steps l.
Proof. induction l as [|n l IH]; [reflexivity|]. cbn [flat_map]. now rewrite <- IH. Qed.
Definition step_message (s : nat * step) : list (nat * str) :=
  match s with (ln, StText t) => match strip t with [] => [] | _ => [(ln, t)] end | _ => [] end.
Definition step_expr (s : nat * step) : list (nat * str) :=
  match s with (ln, StExpr e) => [(ln, e)] | _ => [] end.
Definition split_steps (n : node) : Prop :=
  flat_map step_message (node_steps n) = node_messages n /\ flat_map step_expr (node_steps n) = node_exprs n.
Lemma steps_all : forall l, Forall split_steps l ->
  flat_map step_message (flat_map node_steps l) = flat_map node_messages l /\ flat_map step_expr (flat_map node_steps l) = exps l.
Proof.
  induction 1 as [|n l [H1 H2] _ [I1 I2]]; [now split|]. cbn [flat_map]. rewrite !flat_map_app. split; congruence.
Qed.
Lemma node_split : forall n, split_steps n.
Proof.
  apply (node_ind' split_steps); intros; unfold split_steps; cbn [node_steps node_messages node_exprs];
    rewrite ?go_steps, ?go_messages, ?go_exprs; try (now apply steps_all); cbn [flat_map step_message step_expr app]; try (now split).
  split; [|reflexivity]. now rewrite app_nil_r.
Qed.
Lemma steps_split : forall t, flat_map step_message (steps t) = messages t /\ flat_map step_expr (steps t) = exps (defs t).
Proof. intros t. apply steps_all. apply Forall_forall. intros n _. apply node_split. Qed.
Lemma steps_text : forall t ln m, In (ln, m) (messages t) <-> In (ln, StText m) (steps t) /\ strip m <> [].
Proof.
  intros t ln m. rewrite <- (proj1 (steps_split t)), in_flat_map. split.
  - intros ([ln' [m'|e]] & I1 & I2); cbn [step_message] in I2; [|destruct I2]. destruct (strip m') eqn:Es; [destruct I2|]. destruct I2 as [I2|[]].
    assert (ln' = ln /\ m' = m) as [-> ->] by (split; congruence). split; [exact I1|congruence].
  - intros [I1 N]. exists (ln, StText m). split; [exact I1|]. cbn [step_message]. destruct (strip m); [now destruct N|now left].
Qed.
Lemma steps_expr : forall t ln e, In (ln, e) (exps (defs t)) <-> In (ln, StExpr e) (steps t).
Proof.
  intros t ln e. rewrite <- (proj2 (steps_split t)), in_flat_map. split.
  - intros ([ln' [m'|e']] & I1 & I2); cbn [step_expr] in I2; [destruct I2|destruct I2 as [I2|[]]]. assert (ln' = ln /\ e' = e) as [-> ->] by (split; congruence). exact I1.
  - intros I1. exists (ln, StExpr e). split; [exact I1|now left].
Qed.

(** ** What the generator yields *)
Lemma yields_none : forall l, yields None l = (map (fun x => Entry (fst x) (L "_", One (snd x), [])) (flat_map step_message l), None).
Proof.
  induction l as [|[ln [t|e]] l IH]; [reflexivity| |].
  - cbn [yields flat_map step_message]. rewrite IH. cbn [fst snd]. now destruct (strip t).
  - cbn [yields flat_map step_message app]. exact IH.
Qed.
Section Yields.
Variable b : babel.
Lemma yields_text : forall ln t l, yields (Some b) ((ln, StText t) :: l) =
  (match strip t with [] => fst (yields (Some b) l) | _ => Entry ln (L "_", One t, []) :: fst (yields (Some b) l) end, snd (yields (Some b) l)).
Proof. reflexivity. Qed.
Lemma yields_expr : forall ln e l, yields (Some b) ((ln, StExpr e) :: l) =
  match snd (b e) with
  | None => (map (Entry ln) (fst (b e)) ++ fst (yields (Some b) l), snd (yields (Some b) l))
  | Some x => (map (Entry ln) (fst (b e)), Some (failed ln x))
  end.
Proof. intros. cbn [yields]. now destruct (b e). Qed.
(** The generator reads the steps up to the first expression on which Babel fails, if there is one. *)
Definition step_entries (s : nat * step) : list entry :=
  match s with
  | (ln, StText t) => match strip t with [] => [] | _ => [Entry ln (L "_", One t, [])] end
  | (ln, StExpr e) => map (Entry ln) (fst (b e))
  end.
Definition fails (s : nat * step) : option (nat * string) :=
  match s with (ln, StExpr e) => match snd (b e) with Some x => Some (ln, x) | None => None end | _ => None end.
Lemma yields_what : forall l,
  (Forall (fun s => fails s = None) l /\ yields (Some b) l = (flat_map step_entries l, None)) \/
  (exists l1 s l2 ln x, l = l1 ++ s :: l2 /\ Forall (fun s => fails s = None) l1 /\ fails s = Some (ln, x) /\
     yields (Some b) l = (flat_map step_entries (l1 ++ [s]), Some (failed ln x))).
Proof.
  induction l as [|s l IH]; [now left; split|].
  assert (St : fails s = None -> yields (Some b) (s :: l) = (step_entries s ++ fst (yields (Some b) l), snd (yields (Some b) l))).
  { destruct s as [ln [t|e]]; intros F; [rewrite yields_text; cbn [step_entries]; now destruct (strip t)|].
    rewrite yields_expr. cbn [fails] in F. destruct (snd (b e)); [discriminate|reflexivity]. }
  destruct (fails s) as [[ln x]|] eqn:Ef.
  - right. exists [], s, l, ln, x. split; [reflexivity|]. split; [constructor|]. split; [exact Ef|]. cbn [app flat_map]. rewrite app_nil_r.
    destruct s as [ln' [t|e]]; [discriminate|]. rewrite yields_expr. cbn [fails] in Ef. destruct (snd (b e)); [|discriminate]. cbn [step_entries]. congruence.
  - specialize (St eq_refl). destruct IH as [[F E]|(l1 & s1 & l2 & ln & x & -> & F & E1 & E)]; rewrite E in St; cbn [fst snd] in St.
    + left. split; [now constructor|exact St].
    + right. exists (s :: l1), s1, l2, ln, x. split; [reflexivity|]. split; [now constructor|]. split; [exact E1|exact St].
Qed.
End Yields.
