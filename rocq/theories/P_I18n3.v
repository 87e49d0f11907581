(** * Messages of a document *)

From Coq Require Import Ascii String List NArith ZArith Bool Lia Arith.
From Verif Require Import PyStr PyStrLemmas M_Values M_IR M_Exec S_IR M_Text M_XText M_Entities M_Dom M_XCompile M_I18n S_XDoc S_XFun S_I18n
  P_IR P_Dom P_XText P_XText2 P_XDoc P_XDoc2 P_XFun P_XFun2 P_I18n.
Import ListNotations.
Open Scope list_scope.

Lemma distinct_nodup : forall l seen, NoDup (seen ++ l) -> distinct seen l = l.
Proof.
  induction l as [|k l IH]; intros seen ND; [reflexivity|]. cbn [distinct].
  assert (Nk : ~ In k seen) by (intros I1; apply NoDup_remove_2 in ND; apply ND; apply in_or_app; now left).
  apply smem_notIn in Nk. rewrite Nk. f_equal. rewrite (distinct_seen l (k :: seen) (seen ++ [k])).
  - apply IH. now rewrite <- app_assoc.
  - intros k'. rewrite in_app_iff. cbn [In]. tauto.
Qed.
Lemma nodup_left : forall (a b : list str), NoDup (a ++ b) -> NoDup a.
Proof.
  induction a as [|x a IH]; intros b H; [constructor|]. inversion H as [|? ? N1 N2]; subst. constructor; [|eapply IH; exact N2].
  intros I1. apply N1. apply in_or_app. now left.
Qed.
Lemma not_blank_spec : forall t, not_blank t <-> strip t <> [].
Proof.
  intros t. pose proof (strip_blank_spec t) as Sb. assert (Q : strip t <> [] <-> forallb is_space t <> true) by (rewrite <- Sb; destruct (strip t); split; congruence). rewrite Q. clear Sb Q. unfold not_blank. split.
  - intros (c & I1 & E) F. rewrite forallb_forall in F. rewrite (F c I1) in E. discriminate.
  - intros H. induction t as [|c t IH]; [now destruct H|]. cbn [forallb] in H. destruct (is_space c) eqn:E.
    + destruct IH as (d & I1 & Ed); [exact H|]. exists d. split; [now right|exact Ed].
    + exists c. split; [now left|exact E].
Qed.
Notation msgs := (flat_map node_messages).
Definition fmsgs (l : list (str * list node)) : list (nat * str) := flat_map (fun kv => msgs (snd kv)) l.
Definition keys (s : cst) : list str := map fst (c_funs s).
Lemma fmsgs_set_in : forall k v l x, In x (fmsgs (set_function k v l)) -> In x (msgs v) \/ In x (fmsgs l).
Proof.
  induction l as [|[k' v'] l IH]; intros x; cbn [set_function].
  - unfold fmsgs. cbn [flat_map snd]. rewrite app_nil_r. now left.
  - destruct (seqb k k'); unfold fmsgs in *; cbn [flat_map snd]; rewrite !in_app_iff; [tauto|]. intros [H|H]; [tauto|]. apply IH in H. tauto.
Qed.
Lemma fmsgs_set_new : forall k v l x, ~ In k (map fst l) -> In x (msgs v) \/ In x (fmsgs l) -> In x (fmsgs (set_function k v l)).
Proof.
  induction l as [|[k' v'] l IH]; intros x Nk; cbn [set_function].
  - unfold fmsgs. cbn [flat_map snd]. rewrite app_nil_r. intros [H|[]]. exact H.
  - cbn [map fst In] in Nk. destruct (seqb_spec k k') as [->|Ne]; [tauto|]. unfold fmsgs in *. cbn [flat_map snd]. rewrite !in_app_iff.
    intros [H|[H|H]]; [right; apply IH; tauto|now left|right; apply IH; tauto].
Qed.
Lemma msgs_app : forall a b, msgs (a ++ b) = msgs a ++ msgs b.
Proof. intros. apply flat_map_app. Qed.

Section Doc.
Variable compile : str -> compiled.
Variable helper : nat -> str.
Variable autoblocks : list str.
Variable cdata_scripts : bool.
Variable mode : str.
Notation cnode := (compile_node compile helper autoblocks cdata_scripts mode).
Notation kids := (children compile helper autoblocks cdata_scripts mode).
Notation Role := (role_of autoblocks cdata_scripts).
Notation Declares_ := (declares autoblocks cdata_scripts).
Notation DeclareAll := (declare_all autoblocks cdata_scripts).
Notation Runs := (runs compile helper autoblocks cdata_scripts mode).
Notation Msg := (message_in compile autoblocks cdata_scripts).
Notation recorded_all := (compile_records compile helper autoblocks cdata_scripts mode).

(** What a computation says, given the names that it declares. *)
Definition tells (b : bool) (T : nat * str -> Prop) (D : list str -> Prop) (m : M (list node)) : Prop :=
  forall s ns s', c_in_def s = b -> m s = Ok (ns, s') ->
    c_in_def s' = b /\
    (forall x, In x (msgs ns) -> T x) /\
    (forall x, In x (fmsgs (c_funs s')) -> In x (fmsgs (c_funs s)) \/ T x) /\
    (forall names, D names -> NoDup (keys s ++ names) ->
       keys s' = keys s ++ names /\
    (forall x, T x -> In x (msgs ns) \/ In x (fmsgs (c_funs s'))) /\
    (forall x, In x (fmsgs (c_funs s)) -> In x (fmsgs (c_funs s')))).
Definition quiet (m : M (list node)) : Prop := pure m /\ forall s ns s', m s = Ok (ns, s') -> msgs ns = [].
Definition keeps (f : list node -> M (list node)) : Prop :=
  forall b, pure (f b) /\ forall s ns s', f b s = Ok (ns, s') -> msgs ns = msgs b.
Definition nothing (names : list str) : Prop := names = [].

Lemma quiet_ret : forall ns, msgs ns = [] -> quiet (ret ns).
Proof. intros ns E. split; [apply pure_ret|]. intros s ns' s' H. unfold ret in H. congruence. Qed.
Lemma cat_ok : forall a b s ns s', cat a b s = Ok (ns, s') -> exists x s1 y, a s = Ok (x, s1) /\ b s1 = Ok (y, s') /\ ns = x ++ y.
Proof.
  intros a b s ns s' E. unfold cat in E. apply bind_ok in E as (x & s1 & E1 & E). apply bind_ok in E as (y & s2 & E2 & E). unfold ret in E.
  exists x, s1, y. split; [exact E1|]. split; [|congruence]. rewrite E2. congruence.
Qed.
Lemma quiet_cat : forall a b, quiet a -> quiet b -> quiet (cat a b).
Proof.
  intros a b [Pa Qa] [Pb Qb]. split; [now apply pure_cat|]. intros s ns s' E. apply cat_ok in E as (x & s1 & y & E1 & E2 & ->).
  rewrite msgs_app. now rewrite (Qa _ _ _ E1), (Qb _ _ _ E2).
Qed.
Lemma pure_tells : forall b m T, pure m -> (forall s ns s', m s = Ok (ns, s') -> forall x, In x (msgs ns) <-> T x) -> tells b T nothing m.
Proof.
  intros b m T P Q s ns s' Eb E. pose proof (Q _ _ _ E) as X. apply P in E as [(Ef & _) Ei]. unfold keys. rewrite Ef.
  split; [congruence|]. split; [apply X|]. split; [now left|]. intros names -> _. rewrite app_nil_r. split; [reflexivity|].
  split; [|auto]. intros x Tx. left. now apply X.
Qed.
Lemma quiet_tells : forall b m T, quiet m -> (forall x, ~ T x) -> tells b T nothing m.
Proof.
  intros b m T [P Q] NT. apply pure_tells; [exact P|]. intros s ns s' E x. rewrite (Q _ _ _ E). split; [intros []|intros Tx; now destruct (NT x)].
Qed.
Lemma tells_keeps : forall b T D m f, tells b T D m -> keeps f -> tells b T D (bind m f).
Proof.
  intros b T D m f H K s ns s' Eb E. apply bind_ok in E as (body & s1 & E1 & E2). destruct (K body) as [P Q]. rewrite (Q _ _ _ E2).
  apply P in E2 as [(Ef & _) Ei]. unfold keys. rewrite Ef, Ei. exact (H _ _ _ Eb E1).
Qed.
Lemma tells_before : forall A b T D (m : M A) f, pure m -> (forall a, tells b T D (f a)) -> tells b T D (bind m f).
Proof.
  intros A b T D m f P H s ns s' Eb E. apply bind_ok in E as (body & s1 & E1 & E2). apply P in E1 as [(Ef & _) Ei].
  assert (Eb1 : c_in_def s1 = b) by congruence. pose proof (H body _ _ _ Eb1 E2) as X. unfold keys in *. rewrite Ef in X. exact X.
Qed.
Lemma tells_cat : forall b T D q m, quiet q -> tells b T D m -> tells b T D (cat q m).
Proof.
  intros b T D q m [P Q] H s ns s' Eb E. apply cat_ok in E as (x & s1 & y & E1 & E2 & ->). rewrite msgs_app, (Q _ _ _ E1). cbn [app].
  apply P in E1 as [(Ef & _) Ei]. assert (Eb1 : c_in_def s1 = b) by congruence. pose proof (H _ _ _ Eb1 E2) as X. unfold keys in *. rewrite Ef in X. exact X.
Qed.
Lemma tells_then : forall b T D q m, quiet q -> tells b T D m -> tells b T D (cat m q).
Proof.
  intros b T D q m [P Q] H s ns s' Eb E. apply cat_ok in E as (x & s1 & y & E1 & E2 & ->). rewrite msgs_app, (Q _ _ _ E2), app_nil_r.
  apply P in E2 as [(Ef & _) Ei]. unfold keys. rewrite Ef, Ei. exact (H _ _ _ Eb E1).
Qed.
Lemma tells_seq : forall b T1 T2 D1 D2 m1 m2, tells b T1 D1 m1 -> tells b T2 D2 m2 ->
  tells b (fun x => T1 x \/ T2 x) (fun names => exists n1 n2, D1 n1 /\ D2 n2 /\ names = n1 ++ n2) (cat m1 m2).
Proof.
  intros b T1 T2 D1 D2 m1 m2 H1 H2 s ns s' Eb E. apply cat_ok in E as (x & s1 & y & E1 & E2 & ->). rewrite msgs_app.
  destruct (H1 _ _ _ Eb E1) as (I1 & A1 & B1 & C1). destruct (H2 _ _ _ I1 E2) as (I2 & A2 & B2 & C2). split; [exact I2|]. split; [|split].
  - intros z Iz. apply in_app_or in Iz as [Iz|Iz]; [left; auto|right; auto].
  - intros z Iz. destruct (B2 z Iz) as [Iz'|Tz]; [|tauto]. destruct (B1 z Iz'); tauto.
  - intros names (n1 & n2 & Dn1 & Dn2 & ->) ND. rewrite app_assoc in ND.
    assert (ND1 : NoDup (keys s ++ n1)) by (clear - ND; induction (keys s ++ n1) as [|k l IH]; [constructor|]; inversion ND; subst; constructor; [intros X; match goal with H : ~ In _ _ |- _ => apply H end; apply in_or_app; now left|auto]).
    destruct (C1 n1 Dn1 ND1) as (K1 & F1 & G1). rewrite <- K1 in ND. destruct (C2 n2 Dn2 ND) as (K2 & F2 & G2).
    split; [rewrite K2, K1; now rewrite app_assoc|]. split.
    + intros z [Tz|Tz]; [destruct (F1 z Tz) as [Iz|Iz]; [left; apply in_or_app; now left|right; auto]|].
      destruct (F2 z Tz) as [Iz|Iz]; [left; apply in_or_app; now right|now right].
    + auto.
Qed.
Lemma tells_iff : forall b (T T' : nat * str -> Prop) (D D' : list str -> Prop) m, (forall x, T x <-> T' x) -> (forall n, D' n -> D n) -> tells b T D m -> tells b T' D' m.
Proof.
  intros b T T' D D' m E ED H s ns s' Eb Em. destruct (H _ _ _ Eb Em) as (I1 & A & B & C). split; [exact I1|]. split; [|split].
  - intros x Ix. apply E. auto.
  - intros x Ix. destruct (B x Ix); [now left|right; now apply E].
  - intros names Dn ND. destruct (C names (ED _ Dn) ND) as (K & C1 & C2). split; [exact K|]. split; [|exact C2]. intros x Tx. apply C1. now apply E.
Qed.
Lemma keeps_ret : forall f, (forall b, node_messages (f b) = msgs b) -> keeps (fun b => ret [f b]).
Proof.
  intros f H b. split; [apply pure_ret|]. intros s ns s' E. unfold ret in E. assert (ns = [f b]) by congruence. subst. cbn [flat_map]. now rewrite app_nil_r.
Qed.

(** *** Texts *)
Lemma text_tells : forall b p ln t, tells b (text_message compile (parent_tag p) ln t) nothing (compile_text compile p ln t).
Proof.
  intros b p ln t. apply pure_tells; [apply pure_text|]. intros s ns s' E.
  destruct p as [|tag a]; cbn [compile_text parent_tag] in *; [discriminate|]. unfold lift, text_nodes in E.
  destruct (pieces compile t ln) as [ps|] eqn:Ep; [|discriminate]. cbn [rmap] in E. assert (ns = map (piece_node (if smem tag html_cdata_tags then TK_raw else TK_text)) ps) by congruence. subst ns.
  intros [l m]. unfold text_message. cbn [fst snd]. destruct (smem tag html_cdata_tags) eqn:Et.
  - apply (cdata_tag compile mode) in Et. split; [|intros [H _]; contradiction]. intros I1. exfalso. apply in_flat_map in I1 as (n & I1 & I2).
    apply in_map_iff in I1 as (q & <- & _). destruct q; destruct I2.
  - split.
    + intros I1. apply in_flat_map in I1 as (n & I1 & I2). apply in_map_iff in I1 as (q & <- & Iq). destruct q as [l' t'|l' e]; [|destruct I2].
      cbn [piece_node] in I2; unfold make_text_node in I2. destruct (strip t') as [|c r] eqn:Es; [destruct I2|]. cbn [node_messages] in I2. rewrite Es in I2. destruct I2 as [E2|[]].
      assert (l' = l /\ t' = m) as [-> ->] by (split; congruence). split.
      * intros S. apply (cdata_tag compile mode) in S. congruence.
      * split; [apply not_blank_spec; congruence|]. exists ps. now split.
    + intros (_ & Nb & ps' & E' & I1). assert (ps' = ps) by congruence. subst. apply not_blank_spec in Nb. apply in_flat_map.
      exists (NTrans l m None). split; [|cbn [node_messages]; destruct (strip m); [congruence|now left]].
      apply in_map_iff. exists (XText l m). split; [|exact I1]. cbn [piece_node]; unfold make_text_node. destruct (strip m); [congruence|reflexivity].
Qed.

(** *** Children *)
Definition declared (b : bool) (n : dnode) (names : list str) : Prop := exists l, Declares_ b n l /\ names = declared_names l.
Definition declared_all (b : bool) (cs : list dnode) (names : list str) : Prop := exists l, DeclareAll b cs l /\ names = declared_names l.
Definition said (n : dnode) : Prop := forall p prev b, tells b (Msg (parent_tag p) n) (declared b n) (cnode p prev n).
Lemma declared_app : forall a b, declared_names (a ++ b) = declared_names a ++ declared_names b.
Proof. induction a as [|[k e| |ls] a IH]; intros b; cbn [app declared_names]; now rewrite ?IH. Qed.
Definition among (marks : bool) (tag : str) (cs : list dnode) (x : nat * str) : Prop :=
  exists c, In c cs /\ (marks = true -> ~ is_mark c) /\ Msg tag c x.
Lemma kids_tell : forall marks ln tag a cs, Forall said cs -> forall b prev,
  tells b (among marks tag cs) (declared_all b cs) (kids marks ln (InElement tag a) prev cs).
Proof.
  intros marks ln tag a cs F b. induction F as [|c cs H F IH]; intros prev.
  - apply (tells_iff b (fun _ => False) _ nothing); [|intros n (l & D & ->); inversion D; reflexivity|].
    + intros x. split; [intros []|intros (c & [] & _)].
    + apply quiet_tells; [apply quiet_ret; reflexivity|auto].
  - cbn [children].
    apply (tells_iff b (fun x => ((marks = true -> ~ is_mark c) /\ Msg tag c x) \/ among marks tag cs x) _
      (fun names => exists n1 n2, declared b c n1 /\ declared_all b cs n2 /\ names = n1 ++ n2)).
    + intros x. split.
      * intros [[Nm Mx]|(c0 & I1 & Y)]; [exists c; split; [now left|now split]|exists c0; split; [now right|exact Y]].
      * intros (c0 & [<-|I1] & Y); [left; exact Y|right; exists c0; now split].
    + intros n (l & D & ->). inversion D as [|? ? ? l1 l2 D1 D2]; subst. exists (declared_names l1), (declared_names l2).
      split; [now exists l1|]. split; [now exists l2|]. apply declared_app.
    + apply tells_seq; [|apply IH].
      assert (X : (marks = false \/ ~ is_mark c) -> tells b (fun x => (marks = true -> ~ is_mark c) /\ Msg tag c x) (declared b c) (cnode (InElement tag a) prev c)).
      { intros Nm. eapply tells_iff; [| |exact (H (InElement tag a) prev b)]; [|auto]. intros x. cbn [parent_tag]. split; [|tauto]. intros Mx. split; [|exact Mx].
        intros E. destruct Nm; [congruence|assumption]. }
      destruct marks; [|apply X; now left]. destruct c; try (apply X; right; intros []).
      eapply (tells_iff b (fun _ => False) _ nothing); [| |apply quiet_tells; [apply quiet_ret; reflexivity|auto]].
      * intros x. split; [intros []|]. intros [Nm _]. now apply Nm.
      * intros n (l & D & ->). inversion D. reflexivity.
Qed.

(** *** Elements *)
Lemma among_marks : forall (r : role) tag a cs parent ln x, Role tag a r -> r <> Leaf -> (plain_tag tag -> autoblock autoblocks tag a) ->
  (among false tag cs x <-> Msg parent (DElem ln tag a cs) x).
Proof.
  intros r tag a cs parent ln x Ro Nl Pm. split.
  - intros (c & I1 & _ & Mx). eapply mi_elem; eauto.
  - intros Mx. inversion Mx; subst. exists c. split; [assumption|]. split; [discriminate|assumption].
Qed.
Lemma leaf_silent : forall tag a cs parent ln x, Role tag a Leaf -> ~ Msg parent (DElem ln tag a cs) x.
Proof. intros tag a cs parent ln x Ro Mx. inversion Mx; subst. match goal with H : ?r <> Leaf |- _ => apply H end. eapply role_unique; eassumption. Qed.
Lemma declared_leaf : forall b ln tag a cs n, Role tag a Leaf -> declared b (DElem ln tag a cs) n -> nothing n.
Proof.
  intros b ln tag a cs n Ro (l & D & ->). unfold nothing. inversion D; subst; try reflexivity;
    match goal with R : role_of _ _ tag a _ |- _ => pose proof (role_unique _ _ _ _ _ _ Ro R) as E; discriminate E end.
Qed.
Lemma declared_inner : forall b ln tag a cs n, Role tag a Inner -> declared b (DElem ln tag a cs) n -> declared_all b cs n.
Proof.
  intros b ln tag a cs n Ro (l & D & ->). inversion D; subst;
    try match goal with R : role_of _ _ tag a _ |- _ => pose proof (role_unique _ _ _ _ _ _ Ro R) as E; discriminate E end.
  now exists l.
Qed.
Lemma leaf_said : forall b ln tag a cs parent m, Role tag a Leaf -> quiet m -> tells b (Msg parent (DElem ln tag a cs)) (declared b (DElem ln tag a cs)) m.
Proof.
  intros b ln tag a cs parent m Ro Q. eapply tells_iff; [intros x; reflexivity|intros n; now apply declared_leaf|].
  apply quiet_tells; [exact Q|]. intros x. now apply leaf_silent.
Qed.
Lemma inner_said : forall b ln tag a cs parent m, Role tag a Inner -> (plain_tag tag -> autoblock autoblocks tag a) ->
  tells b (among false tag cs) (declared_all b cs) m -> tells b (Msg parent (DElem ln tag a cs)) (declared b (DElem ln tag a cs)) m.
Proof.
  intros b ln tag a cs parent m Ro Pm H. eapply tells_iff; [|intros n; now apply declared_inner|exact H].
  intros x. apply (among_marks Inner); [exact Ro|discriminate|exact Pm].
Qed.
Lemma block_said : forall b ln tag a a' cs parent name, Role tag a (Block name) -> (plain_tag tag -> autoblock autoblocks tag a) -> Forall said cs ->
  tells b (Msg parent (DElem ln tag a cs)) (declared b (DElem ln tag a cs)) (block_nodes ln name (kids false ln (InElement tag a') [] cs)).
Proof.
  intros b ln tag a a' cs parent name Ro Pm F s ns s' Eb E. unfold block_nodes in E. apply bind_ok in E as (body & s1 & E1 & E).
  destruct (kids_tell false ln tag a' cs F b [] s body s1 Eb E1) as (I1 & A & B & C).
  pose proof (fun x => among_marks (Block name) tag a cs parent ln x Ro ltac:(discriminate) Pm) as Q.
  set (k := (L "_kj_block_" ++ name) ++ L "()") in *.
  assert (X : exists v, ns = (if c_is_child s1 then [] else [NExpr ln k false]) /\ msgs v = msgs body /\
     s' = Cst (set_function k v (c_funs s1)) (c_mod s1) (c_in_def s1) (c_is_child s1) (c_names s1)).
  { apply bind_ok in E as (child & s2 & E2 & E). unfold get_is_child in E2. assert (child = c_is_child s1 /\ s2 = s1) as [-> ->] by (split; congruence).
    assert (Mb : msgs (match body with [] => [NPass 0] | _ => body end) = msgs body) by (destruct body; reflexivity).
    destruct (c_is_child s1) eqn:Ec.
    - apply bind_ok in E as (h & s3 & E3 & E). unfold lift in E3. destruct (mk_python 0 _) as [h'|] eqn:Eh; [|discriminate]. cbn [rmap] in E3.
      assert (s3 = s1 /\ h' = h) as [-> ->] by (split; congruence). apply parent_header in Eh as (lines & -> & _).
      apply add_then in E as [-> ->]. rewrite Ec. eexists. split; [reflexivity|]. split; [|reflexivity]. exact Mb.
    - apply add_then in E as [-> ->]. rewrite Ec. eexists. split; [reflexivity|]. split; [|reflexivity]. exact Mb. }
  destruct X as (v & -> & Mv & ->). cbn [c_in_def c_funs keys]. unfold keys. cbn [c_funs]. split; [exact I1|]. split; [|split].
  - intros x. destruct (c_is_child s1); intros [].
  - intros x Ix. apply fmsgs_set_in in Ix as [Ix|Ix]; [right; apply Q, A; now rewrite <- Mv|]. destruct (B x Ix); [now left|right; now apply Q].
  - intros names (l & D & ->) ND.
    assert (Dl : exists l', DeclareAll b cs l' /\ declared_names l = declared_names l' ++ [k]).
    { inversion D; subst; try match goal with R : role_of _ _ tag a _ |- _ => pose proof (role_unique _ _ _ _ _ _ Ro R) as E9; try discriminate E9 end.
      injection E9 as <-. eexists. split; [eassumption|]. rewrite declared_app. cbn [declared_names]. unfold k. now rewrite <- app_assoc. }
    destruct Dl as (l' & Dl & El). rewrite El in *. rewrite app_assoc in ND.
    assert (ND1 : NoDup (keys s ++ declared_names l') /\ ~ In k (keys s ++ declared_names l')).
    { split; [eapply nodup_left; exact ND|]. apply NoDup_remove_2 in ND. now rewrite app_nil_r in ND. }
    destruct ND1 as [ND1 Nk]. destruct (C (declared_names l')) as (K & C1 & C2); [now exists l'|exact ND1|].
    unfold keys in *. rewrite <- K in Nk. split; [|split].
    + rewrite keys_set. apply smem_notIn in Nk. rewrite Nk, K. now rewrite app_assoc.
    + intros x Tx. apply Q in Tx. right. apply fmsgs_set_new; [exact Nk|]. rewrite Mv. exact (C1 x Tx).
    + intros x Ix. apply fmsgs_set_new; [exact Nk|]. right. auto.
Qed.
Lemma def_said : forall b ln tag a a' cs parent f, Role tag a (Def f) -> (plain_tag tag -> autoblock autoblocks tag a) -> Forall said cs ->
  tells b (Msg parent (DElem ln tag a cs)) (declared b (DElem ln tag a cs)) (def_nodes ln f (kids false ln (InElement tag a') [] cs)).
Proof.
  intros b ln tag a a' cs parent f Ro Pm F s ns s' Eb E. unfold def_nodes in E. apply bind_ok in E as (old & s0 & E0 & E).
  unfold get_in_def in E0. assert (old = b /\ s0 = s) as [-> ->] by (split; congruence). clear E0.
  apply bind_ok in E as (u & s2 & E2 & E). unfold set_in_def in E2. assert (s2 = Cst (c_funs s) (c_mod s) true (c_is_child s) (c_names s)) by congruence. subst s2. clear E2.
  apply bind_ok in E as (body & s3 & E3 & E). apply bind_ok in E as (u' & s4 & E4 & E). unfold set_in_def in E4.
  assert (s4 = Cst (c_funs s3) (c_mod s3) b (c_is_child s3) (c_names s3)) by congruence. subst s4. clear E4.
  match type of E3 with _ ?st = _ => destruct (kids_tell false ln tag a' cs F true [] st body s3 eq_refl E3) as (I1 & A & B & C) end. cbn [c_funs] in *. unfold keys in *. cbn [c_funs] in *.
  pose proof (fun x => among_marks (Def f) tag a cs parent ln x Ro ltac:(discriminate) Pm) as Q.
  destruct b.
  - unfold ret in E. assert (ns = [NDef ln true f body] /\ s' = Cst (c_funs s3) (c_mod s3) true (c_is_child s3) (c_names s3)) as [-> ->] by (split; congruence).
    cbn [c_funs c_in_def flat_map node_messages]. rewrite go_messages, app_nil_r. split; [reflexivity|]. split; [|split].
    + intros x Ix. apply Q. auto.
    + intros x Ix. destruct (B x Ix); [now left|right; now apply Q].
    + intros names (l & D & ->) ND.
      assert (Dl : DeclareAll true cs l) by (inversion D; subst; try match goal with R : role_of _ _ tag a _ |- _ => pose proof (role_unique _ _ _ _ _ _ Ro R) as E9; discriminate E9 end; assumption).
      destruct (C (declared_names l)) as (K & C1 & C2); [now exists l|exact ND|]. split; [exact K|]. split; [|exact C2]. intros x Tx. apply C1. now apply Q.
  - apply add_then in E as [-> ->]. cbn [c_funs c_in_def c_mod c_is_child c_names flat_map]. split; [reflexivity|]. split; [intros x []|]. split.
    + intros x Ix. apply fmsgs_set_in in Ix as [Ix|Ix]; [right; apply Q; auto|]. destruct (B x Ix); [now left|right; now apply Q].
    + intros names (l & D & ->) ND.
      assert (Dl : exists l', DeclareAll true cs l' /\ declared_names l = declared_names l' ++ [f]).
      { inversion D; subst; try match goal with R : role_of _ _ tag a _ |- _ => pose proof (role_unique _ _ _ _ _ _ Ro R) as E9; try discriminate E9 end.
        injection E9 as <-. eexists. split; [eassumption|]. rewrite declared_app. reflexivity. }
      destruct Dl as (l' & Dl & El). rewrite El in *. rewrite app_assoc in ND.
      assert (ND1 : NoDup (map fst (c_funs s) ++ declared_names l') /\ ~ In f (map fst (c_funs s) ++ declared_names l')).
      { split; [eapply nodup_left; exact ND|]. apply NoDup_remove_2 in ND. now rewrite app_nil_r in ND. }
      destruct ND1 as [ND1 Nk]. destruct (C (declared_names l')) as (K & C1 & C2); [now exists l'|exact ND1|]. rewrite <- K in Nk. split; [|split].
      * rewrite keys_set. apply smem_notIn in Nk. rewrite Nk, K. now rewrite app_assoc.
      * intros x Tx. apply Q in Tx. right. apply fmsgs_set_new; [exact Nk|]. destruct (C1 x Tx); auto.
      * intros x Ix. apply fmsgs_set_new; [exact Nk|]. right. auto.
Qed.

(** *** Rendered elements *)
Lemma quiet_attrs : forall ln g l, quiet (compile_attrs compile helper mode ln g l).
Proof.
  intros ln g l. split; [apply pure_attrs|]. induction l as [|[k v] l IH]; intros s ns s' E; cbn [compile_attrs] in E.
  - unfold ret in E. now assert (ns = []) as -> by congruence.
  - apply bind_ok in E as (value & s1 & E1 & E). unfold lift, text_nodes in E1. destruct (pieces compile v ln) as [ps|]; [|discriminate]. cbn [rmap] in E1.
    assert (value = map (piece_node TK_attr) ps) by congruence. subst value. destruct (_ || _); [eapply IH; exact E|].
    apply bind_ok in E as (i & s2 & E2 & E). apply cat_ok in E as (x & s3 & y & E3 & E4 & ->). unfold ret in E3. rewrite msgs_app, (IH _ _ _ E4), app_nil_r.
    assert (x = [NAttr ln k (map (piece_node TK_attr) ps) g mode (helper i) (helper (i + 1)) (helper (i + 2))]) by congruence. subst x.
    cbn [flat_map node_messages]. rewrite go_messages, app_nil_r. clear. induction ps as [|q ps IH]; [reflexivity|]. cbn [map flat_map]. rewrite IH. now destruct q.
Qed.
Lemma quiet_more : forall ln a g, quiet (more_nodes helper mode ln a g).
Proof.
  intros ln a g. split; [now apply pure_more|]. intros s ns s' E. unfold more_nodes in E. destruct (get_attr _ a) as [|c0 r]; [unfold ret in E; now assert (ns = []) as -> by congruence|].
  apply bind_ok in E as (i & s1 & E1 & E). unfold ret in E. assert (ns = [NAttrs ln (c0 :: r) g mode (helper i)]) by congruence. now subst.
Qed.
Lemma quiet_script : forall tag a l, script_or_style tag -> quiet (script_nodes compile tag a l).
Proof.
  intros tag a l Sc. split; [now apply pure_script|]. induction l as [|n l IH]; intros s ns s' E; cbn [script_nodes] in E.
  - unfold ret in E. now assert (ns = []) as -> by congruence.
  - destruct n as [| ln t e|ln t| |]; try discriminate; [|eapply IH; exact E].
    apply bind_ok in E as (x & s1 & E1 & E). apply bind_ok in E as (y & s2 & E2 & E). apply cat_ok in E as (z & s3 & w & E3 & E4 & ->).
    rewrite msgs_app, (IH _ _ _ E4), app_nil_r. unfold ret in E3. assert (z = y) by congruence. subst z.
    cbn [compile_text] in E1. apply (cdata_tag compile mode) in Sc. rewrite Sc in E1. unfold lift, text_nodes in E1. destruct (pieces compile t ln) as [ps|]; [|discriminate].
    cbn [rmap] in E1. assert (x = map (piece_node TK_raw) ps) by congruence. subst x.
    assert (R : forall ps, msgs (map (piece_node TK_raw) ps) = []) by (intros qs; clear; induction qs as [|q qs IHq]; [reflexivity|]; cbn [map flat_map]; rewrite IHq; now destruct q).
    destruct e; unfold lift in E2; [|cbn [rmap] in E2; assert (y = map (piece_node TK_raw) ps) by congruence; subst; apply R].
    destruct (rseq (map unescape_node (map (piece_node TK_raw) ps))) as [r|] eqn:Er; [|discriminate]. cbn [rmap] in E2. assert (y = r) by congruence. subst y. clear - Er.
    revert r Er. induction ps as [|q ps IHq]; intros r Er; cbn [map rseq] in Er; [now assert (r = []) as -> by congruence|].
    destruct q as [l' t'|l' e']; cbn [piece_node unescape_node] in Er.
    + destruct (unescape t') as [t2|]; [|discriminate]. cbn [rmap rbind] in Er. destruct (rseq (map unescape_node (map (piece_node TK_raw) ps))) as [r'|]; [|discriminate].
      cbn [rmap rbind] in Er. assert (r = NText l' t2 None :: r') by congruence. subst r. cbn [flat_map node_messages app]. now apply IHq.
    + destruct (unescape e') as [t2|]; [|discriminate]. cbn [rmap rbind] in Er. destruct (rseq (map unescape_node (map (piece_node TK_raw) ps))) as [r'|]; [|discriminate].
      cbn [rmap rbind] in Er. assert (r = NExpr l' t2 false :: r') by congruence. subst r. cbn [flat_map node_messages app]. now apply IHq.
Qed.
Lemma xml_said : forall b ln tag a a' cs parent, ~ autoblock autoblocks tag a -> plain_tag tag ->
  (forall k, k <> L "py:autoblock" -> get_attr k a' = get_attr k a) -> Forall said cs ->
  tells b (Msg parent (DElem ln tag a cs)) (declared b (DElem ln tag a cs)) (xml_nodes compile helper autoblocks cdata_scripts mode ln tag a' cs).
Proof.
  intros b ln tag a a' cs parent NA Pl Ga F. unfold xml_nodes. cbv zeta.
  assert (G : get_attr (L "py:content") (remove_attr (L "py:strip") a') = get_attr (L "py:content") a)
    by (rewrite get_removed by discriminate; apply Ga; discriminate).
  unfold rest_nodes. cbv zeta. rewrite G. destruct (get_attr (L "py:content") a) as [|c0 c] eqn:Ec.
  - assert (Pe : quiet (if smem tag html_required_end_tags then ret [NText ln (L "></" ++ tag ++ L ">") (strip_guard a')]
                     else if html mode then
                       if smem tag html_optional_end_tags then ret [NText ln (L ">") (strip_guard a')]
                       else ret [NText ln (L "></" ++ tag ++ L ">") (strip_guard a')]
                     else ret [NText ln (L "/>") (strip_guard a')])).
    { destruct (smem tag html_required_end_tags); [now apply quiet_ret|]. destruct (html mode); [|now apply quiet_ret].
      destruct (smem tag html_optional_end_tags); now apply quiet_ret. }
    destruct (cdata_scripts && smem tag html_cdata_tags) eqn:Es.
    + apply andb_true_iff in Es as [Es1 Es2]. apply (cdata_tag compile mode) in Es2. apply leaf_said; [now apply ro_script|].
      apply quiet_cat; [now apply quiet_ret|]. apply quiet_cat; [apply quiet_attrs|]. apply quiet_cat; [apply quiet_more|].
      destruct cs; [exact Pe|]. apply quiet_cat; [now apply quiet_ret|]. apply quiet_cat; [|apply quiet_ret; now destruct (html mode && smem tag html_optional_end_tags)].
      apply quiet_cat; [apply quiet_ret; now destruct (seqb mode (L "xml"))|]. apply quiet_cat; [now apply quiet_script|apply quiet_ret; now destruct (seqb mode (L "xml"))].
    + assert (Ro : Role tag a Inner) by (apply ro_elem; auto; intros [-> S]; apply (cdata_tag compile mode) in S; rewrite S in Es; discriminate).
      apply (tells_iff b (among true tag cs) _ (declared_all b cs)).
      * intros x. split.
        -- intros (c & I1 & Nm & Mx). eapply mi_elem; eauto; [discriminate|]. intros Mk. now destruct (Nm eq_refl).
        -- intros Mx. inversion Mx; subst. exists c. split; [assumption|]. split; [|assumption]. intros _ Mk. apply NA. auto.
      * intros n. now apply declared_inner.
      * apply tells_cat; [now apply quiet_ret|]. apply tells_cat; [apply quiet_attrs|]. apply tells_cat; [apply quiet_more|].
        destruct cs as [|c cs].
        -- apply (tells_iff b (fun _ => False) _ nothing); [|intros n (l & D & ->); inversion D; reflexivity|apply quiet_tells; [exact Pe|auto]].
           intros x. split; [intros []|intros (c & [] & _)].
        -- apply tells_cat; [now apply quiet_ret|]. apply tells_then; [apply quiet_ret; now destruct (html mode && smem tag html_optional_end_tags)|].
           now apply kids_tell.
  - apply leaf_said; [apply ro_content; [exact NA|exact Pl|congruence]|].
    apply quiet_cat; [now apply quiet_ret|]. apply quiet_cat; [apply quiet_attrs|]. apply quiet_cat; [apply quiet_more|]. now apply quiet_ret.
Qed.
Lemma switch_keeps : forall ln d, keeps (fun body => bind (lift (switch_body body)) (fun body => ret [NSwitch ln d body])).
Proof.
  intros ln d body. split; [apply (pure_bind compile mode); [apply pure_lift|]; intros; apply pure_ret|].
  intros s ns s' E. apply bind_ok in E as (b2 & s1 & E1 & E2). unfold ret in E2. assert (ns = [NSwitch ln d b2]) by congruence. subst ns.
  cbn [flat_map node_messages]. rewrite go_messages, app_nil_r. unfold lift in E1. destruct (switch_body body) as [b3|] eqn:Eb; [|discriminate]. cbn [rmap] in E1.
  assert (b3 = b2) by congruence. subst b3. clear - Eb. revert b2 Eb. induction body as [|n body IH]; intros b2 Eb; cbn [switch_body] in Eb; [now assert (b2 = []) as -> by congruence|].
  destruct (ir_text n) as [t|] eqn:Et.
  - destruct (strip t) eqn:Es; [|discriminate]. cbn [flat_map]. rewrite (IH _ Eb).
    assert (node_messages n = []) as -> by (destruct n; try discriminate; cbn [ir_text] in Et; [reflexivity|]; cbn [node_messages]; assert (text = t) by congruence; subst; now rewrite Es).
    reflexivity.
  - destruct (is_case_or_else n); [|discriminate]. destruct (switch_body body) as [r|]; [|discriminate]. cbn [rmap] in Eb. assert (b2 = n :: r) by congruence. subst b2.
    cbn [flat_map]. now rewrite (IH r eq_refl).
Qed.
Theorem all_said : forall n, said n.
Proof.
  apply (dnode_rec' said).
  - intros ln tag a cs F p prev b. rewrite compile_elem. intros s ns s' Eb E. apply bind_ok in E as ([bl a'] & s1 & E1 & E).
    unfold lift in E1. destruct (is_autoblock autoblocks tag a) as [ba|x] eqn:Ea; [|discriminate]. cbn [rmap] in E1.
    assert (ba = (bl, a') /\ s1 = s) as [-> ->] by (split; congruence). clear E1.
    apply (autoblock_ok compile autoblocks mode) in Ea as (A1 & A2 & Ga). cbn [fst snd] in E. cbv zeta in E. revert s ns s' Eb E. destruct bl.
    { apply (block_said b ln tag a a' cs (parent_tag p) tag); [apply ro_auto; auto|auto|exact F]. }
    specialize (A2 eq_refl). clear A1. pose proof (method_directive tag) as Md.
    assert (Np : forall d, In d known_directives -> Some d = method_name (method_of tag) -> plain_tag tag -> autoblock autoblocks tag a)
      by (intros d Id Ed Pl; exfalso; apply (Pl d); [apply Md; now symmetry|exact Id]).
    assert (Li : forall d, In d leaf_directives -> Some d = method_name (method_of tag) -> Role tag a Leaf)
      by (intros d I1 E0; eapply ro_leaf; [exact A2|apply Md; symmetry; exact E0|exact I1]).
    assert (Ii : forall d, In d inner_directives -> Some d = method_name (method_of tag) -> Role tag a Inner)
      by (intros d I1 E0; eapply ro_inner; [exact A2|apply Md; symmetry; exact E0|exact I1]).
    assert (K : tells b (among false tag cs) (declared_all b cs) (kids false ln (InElement tag a') [] cs)) by now apply kids_tell.
    match goal with |- forall s ns s', _ -> ?m s = _ -> _ => change (tells b (Msg (parent_tag p) (DElem ln tag a cs)) (declared b (DElem ln tag a cs)) m) end.
    assert (In1 : forall d m, In d inner_directives -> Some d = method_name (method_of tag) -> tells b (among false tag cs) (declared_all b cs) m ->
       tells b (Msg (parent_tag p) (DElem ln tag a cs)) (declared b (DElem ln tag a cs)) m).
    { intros d m Id Ed H. apply inner_said; [eapply Ii; eassumption| |exact H]. eapply Np; [|exact Ed]. unfold known_directives. apply in_or_app. right. apply in_or_app. now left. }
    destruct (method_of tag) eqn:Em; cbn [method_name] in *.
    + apply xml_said; [exact A2|now apply method_plain|exact Ga|exact F].
    + apply leaf_said; [eapply Li; [|reflexivity]; cbn; tauto|now apply quiet_ret].
    + apply leaf_said; [eapply Li; [|reflexivity]; cbn; tauto|now apply quiet_ret].
    + (* extends *) assert (Ro : Role tag a Ext) by (apply ro_extends; [exact A2|now apply Md]).
      assert (K1 : tells b (among false tag cs) (declared_all b cs) (cat (ret [NExtend ln (get_attr (L "href") a')]) (kids false ln (InElement tag a') [] cs)))
        by (apply tells_cat; [now apply quiet_ret|exact K]).
      apply (tells_iff b (among false tag cs) _ (declared_all b cs)).
      * intros x. apply (among_marks Ext); [exact Ro|discriminate|]. eapply Np; [|reflexivity]. cbn; tauto.
      * intros n (l & D & ->). inversion D; subst; try match goal with R : role_of _ _ tag a _ |- _ => pose proof (role_unique _ _ _ _ _ _ Ro R) as E9; discriminate E9 end.
        eexists. split; [eassumption|]. reflexivity.
      * intros s ns s' Eb E. apply bind_ok in E as (u & s1 & E1 & E). unfold set_is_child in E1.
        assert (s1 = Cst (c_funs s) (c_mod s) (c_in_def s) true (c_names s)) by congruence. subst s1. exact (K1 (Cst (c_funs s) (c_mod s) (c_in_def s) true (c_names s)) ns s' Eb E).
    + apply leaf_said; [eapply Li; [|reflexivity]; cbn; tauto|now apply quiet_ret].
    + rewrite Ga by discriminate. apply block_said; [apply ro_block; [exact A2|now apply Md]| |exact F]. eapply Np; [|reflexivity]. cbn; tauto.
    + rewrite Ga by discriminate. apply def_said; [apply ro_def; [exact A2|now apply Md]| |exact F]. eapply Np; [|reflexivity]. cbn; tauto.
    + eapply In1; [|reflexivity|]; [cbn; tauto|]. apply tells_before; [apply pure_lift|]. intros caller. apply tells_keeps; [exact K|].
      intros body. split; [apply (pure_bind compile mode); [apply pure_draw|]; intros; apply pure_ret|]. intros s ns s' E. apply bind_ok in E as (i & s1 & E1 & E2). unfold ret, mk_call in E2.
      match type of E2 with Ok ([?n], _) = _ => assert (ns = [n]) by congruence end. subst ns. cbn [flat_map node_messages]. now rewrite go_messages, app_nil_r.
    + eapply In1; [|reflexivity|]; [cbn; tauto|]. apply tells_keeps; [exact K|]. apply keeps_ret. intros b0. cbn [node_messages]. apply go_messages.
    + eapply In1; [|reflexivity|]; [cbn; tauto|]. apply tells_keeps; [exact K|]. intros body. split; [apply (pure_bind compile mode); [apply pure_lift|]; intros; apply pure_ret|].
      intros s ns s' E. apply bind_ok in E as (n & s1 & E1 & E2). unfold ret in E2. assert (ns = [n]) by congruence. subst ns. unfold lift, mk_with in E1.
      destruct (with_vars _) as [vs|]; [|discriminate]. cbn [rmap] in E1. assert (n = NWith ln vs body) by congruence. subst n. cbn [flat_map node_messages]. now rewrite go_messages, app_nil_r.
    + eapply In1; [|reflexivity|]; [cbn; tauto|]. apply tells_keeps; [exact K|]. apply switch_keeps.
    + eapply In1; [|reflexivity|]; [cbn; tauto|]. apply tells_keeps; [exact K|]. apply keeps_ret. intros b0. cbn [node_messages]. apply go_messages.
    + eapply In1; [|reflexivity|]; [cbn; tauto|]. apply tells_keeps; [exact K|]. apply keeps_ret. intros b0. cbn [node_messages]. apply go_messages.
    + eapply In1; [|reflexivity|]; [cbn; tauto|]. apply tells_before; [apply pure_lift|]. intros [|].
      * apply tells_keeps; [exact K|]. apply keeps_ret. intros b0. cbn [node_messages]. apply go_messages.
      * intros s ns s' _ E. discriminate.
    + eapply In1; [|reflexivity|]; [cbn; tauto|exact K].
    + intros s ns s' _ E. discriminate.
    + intros s ns s' _ E. discriminate.
  - intros ln t e p prev b. cbn [compile_node]. eapply tells_iff; [| |apply text_tells].
    + intros x. split; [apply mi_text|]. intros Mx. now inversion Mx.
    + intros n (l & D & ->). inversion D. reflexivity.
  - intros ln t p prev b. cbn [compile_node]. eapply tells_iff; [| |apply text_tells].
    + intros x. split; [apply mi_mark|]. intros Mx. now inversion Mx.
    + intros n (l & D & ->). inversion D. reflexivity.
  - intros ln t p prev b. cbn [compile_node]. eapply tells_iff; [intros x; reflexivity| |apply quiet_tells].
    + intros n (l & D & ->). inversion D. reflexivity.
    + apply quiet_ret. unfold compile_comment. now destruct (prefixb (L "!") t).
    + intros x Mx. inversion Mx.
  - intros ln t d p prev b. cbn [compile_node]. intros s ns s' Eb E. unfold compile_pi in E. apply bind_ok in E as (n & s1 & E1 & E).
    unfold lift in E1. destruct (mk_python ln [strip d]) as [n'|] eqn:En; [|discriminate]. cbn [rmap] in E1. assert (n' = n /\ s1 = s) as [-> ->] by (split; congruence).
    assert (X : msgs ns = [] /\ c_funs s' = c_funs s /\ c_in_def s' = c_in_def s).
    { unfold mk_python in En. destruct (concat [strip d]) as [|c s0]; [discriminate|]. destruct (N.eqb c c_pct).
      - destruct (normalize s0) as [ls|]; [|discriminate]. cbn [rmap] in En. assert (n = NPython ln ls true) by congruence. subst n.
        apply bind_ok in E as (u & s1 & E2 & E). unfold ret, add_module in *. split; [now assert (ns = []) as -> by congruence|]. assert (s' = s1) by congruence. subst s'.
        split; [assert (s1 = Cst (c_funs s) (c_mod s ++ [(0, ls)]) (c_in_def s) (c_is_child s) (c_names s)) as -> by congruence; reflexivity|].
        assert (s1 = Cst (c_funs s) (c_mod s ++ [(0, ls)]) (c_in_def s) (c_is_child s) (c_names s)) as -> by congruence; reflexivity.
      - destruct (normalize (c :: s0)) as [ls|]; [|discriminate]. cbn [rmap] in En. assert (n = NPython ln ls false) by congruence. subst n. unfold ret in E.
        split; [now assert (ns = [NPython ln ls false]) as -> by congruence|]. now assert (s' = s) as -> by congruence. }
    destruct X as (Mn & Ef & Ei). rewrite Mn. unfold keys. rewrite Ef. split; [congruence|]. split; [intros x []|]. split; [now left|].
    intros names (l & D & ->) _. assert (declared_names l = []) as -> by (inversion D; reflexivity). rewrite app_nil_r. split; [reflexivity|]. split; [|auto].
    intros x Mx. inversion Mx.
Qed.

Theorem document_messages : forall frag d t, compile_document compile helper autoblocks cdata_scripts mode frag d = Ok t ->
  exists root l, filter no_comment (d_children d) = [root] /\ Declares_ false root l /\
    (forall x, In x (messages t) -> Msg [] root x) /\
    (NoDup (L "__main__()" :: declared_names l) -> forall x, Msg [] root x -> In x (messages t)).
Proof.
  intros frag d t E. unfold compile_document in E. destruct (filter no_comment (d_children d)) as [|root [|r2 rs]] eqn:R; try discriminate.
  match type of E with rmap _ ?m = _ => destruct m as [[ns s]|] eqn:Ec end; [|discriminate]. cbn [rmap fst snd] in E.
  set (body := doctype_text mode frag (c_is_child s) (d_dtd d) ++ ns) in *.
  assert (Et : t = TemplateNode 0 (c_mod s) (map (fun kv => NDef 0 false (fst kv) (snd kv)) (set_function main_decl body (c_funs s)))) by congruence. subst t.
  destruct (recorded_all root _ _ _ _ _ Ec) as (l & D & Rn & _). cbn [c_in_def] in D.
  match type of Ec with _ ?st = _ => destruct (all_said root InDocument [] false st _ _ eq_refl Ec) as (_ & A & B & C) end. cbn [parent_tag] in *.
  exists root, l. split; [reflexivity|]. split; [exact D|].
  assert (Mb : msgs body = msgs ns).
  { unfold body, doctype_text. rewrite msgs_app. destruct (frag || c_is_child s); [reflexivity|]. destruct (d_dtd d); [|reflexivity]. now destruct (seqb mode (L "html5")). }
  assert (Mt : forall f, messages (TemplateNode 0 (c_mod s) (map (fun kv => NDef 0 false (fst kv) (snd kv)) f)) = fmsgs f).
  { intros f. unfold messages, fmsgs. cbn [defs]. induction f as [|kv f IH]; [reflexivity|]. cbn [map flat_map node_messages]. now rewrite go_messages, IH. }
  rewrite Mt. cbn [c_funs] in B. split.
  - intros x Ix. apply fmsgs_set_in in Ix as [Ix|Ix]; [rewrite Mb in Ix; auto|]. destruct (B x Ix) as [[]|Tx]. exact Tx.
  - intros ND x Mx. destruct (C (declared_names l)) as (K & C1 & _); [now exists l|unfold keys; cbn [c_funs map fst app]; exact ND|].
    unfold keys in K. cbn [c_funs map fst app] in K.
    assert (Im : In main_decl (map fst (c_funs s))) by (rewrite K; now left).
    assert (ND0 : NoDup (map fst [(main_decl, @nil node)])) by (repeat constructor; intros []).
    pose proof (runs_bodies _ _ _ _ _ _ _ _ Rn ND0) as Eb. cbn [c_funs c_is_child] in Eb.
    assert (Ev : forall v, In (main_decl, v) (c_funs s) -> v = []).
    { intros v I1. destruct (Eb _ _ I1) as [[[E0|[]] _]|(l1 & e & l2 & El & _)]; [congruence|]. exfalso. inversion ND as [|? ? Nm _]; subst. apply Nm.
      rewrite declared_app. apply in_or_app. right. now left. }
    destruct (C1 x Mx) as [Ix|Ix]; clear - Ix Mb Im Ev.
    + rewrite <- Mb in Ix. clear Mb Ev.
      induction (c_funs s) as [|[k v] f IH]; [destruct Im|]. cbn [set_function]. destruct (seqb_spec main_decl k) as [->|Ne]; unfold fmsgs in *; cbn [flat_map snd]; apply in_or_app; [now left|].
      right. apply IH. destruct Im as [E|Im]; [cbn [fst] in E; congruence|exact Im].
    + clear Mb Im.
      induction (c_funs s) as [|[k v] f IH]; [destruct Ix|]. cbn [set_function]. unfold fmsgs in *. cbn [flat_map snd] in Ix. apply in_app_or in Ix as [Ix|Ix].
      * destruct (seqb_spec main_decl k) as [<-|Ne]; [rewrite (Ev v) in Ix by (now left); destruct Ix|]. cbn [flat_map snd]. apply in_or_app. now left.
      * destruct (seqb_spec main_decl k) as [->|Ne]; cbn [flat_map snd]; apply in_or_app; right; [exact Ix|]. apply IH; [|exact Ix]. intros v0 I1. apply Ev. now right.
Qed.
End Doc.
