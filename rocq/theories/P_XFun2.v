(** * Functions of whole documents *)

From Coq Require Import Ascii String List Arith NArith ZArith Bool Lia.
From Verif Require Import PyStr PyStrLemmas M_Values M_IR M_Text M_XText M_Entities M_Dom M_XCompile S_XDoc S_XFun P_Dom P_XDoc P_XDoc2 P_XFun.
From Verif Require P_Dom2.
Import ListNotations.
Open Scope list_scope.

(** ** The reading is unique *)
Section Unique.
Variable autoblocks : list str.
Variable cdata_scripts : bool.
Notation Role := (role_of autoblocks cdata_scripts).
Lemma known_leaf : forall d, In d leaf_directives -> In d known_directives.
Proof. intros d H. apply in_or_app. now left. Qed.
Lemma known_inner : forall d, In d inner_directives -> In d known_directives.
Proof. intros d H. apply in_or_app. right. apply in_or_app. now left. Qed.
Definition code (r : role) : nat := match r with Block _ => 0 | Def _ => 1 | Ext => 2 | Leaf => 3 | Inner => 4 end.
(** The directive alone decides. *)
Definition role_code (d : str) : option nat :=
  if seqb d (L "block") then Some 0 else if seqb d (L "def") then Some 1 else if seqb d (L "extends") then Some 2
  else if smem d leaf_directives then Some 3 else if smem d inner_directives then Some 4 else None.
Lemma leaf_code : forall d, In d leaf_directives -> role_code d = Some 3.
Proof. unfold leaf_directives. cbn [In]. intros d H. repeat (destruct H as [<-|H]; [reflexivity|]). destruct H. Qed.
Lemma inner_code : forall d, In d inner_directives -> role_code d = Some 4.
Proof. unfold inner_directives. cbn [In]. intros d H. repeat (destruct H as [<-|H]; [reflexivity|]). destruct H. Qed.
Lemma role_unique : forall tag a r r', Role tag a r -> Role tag a r' -> r = r'.
Proof.
  intros tag a r r' H H'.
  assert (K : forall d, ~ autoblock autoblocks tag a -> directive tag d -> In d known_directives -> forall r, Role tag a r -> role_code d = Some (code r)).
  { intros d NA D Kn r0 Hr. destruct Hr as [A|_ D'|_ D'|_ D'|d' _ D' I1|d' _ D' I1|_ P|_ P|_ P]; try contradiction;
      try (now destruct (P d D Kn)); rewrite (directive_fun _ _ _ D D'); try reflexivity; [now apply leaf_code|now apply inner_code]. }
  assert (Kd : In (L "block") known_directives /\ In (L "def") known_directives /\ In (L "extends") known_directives)
    by (repeat split; apply smem_In; reflexivity).
  destruct Kd as (Kb & Kd & Ke).
  destruct H as [A|NA D|NA D|NA D|d NA D I1|d NA D I1|NA P Ne|NA P Eq C S|NA P Eq NS].
  - destruct H'; try contradiction. reflexivity.
  - pose proof (K _ NA D Kb r' H') as E. destruct H'; cbn in E; try discriminate; try contradiction. reflexivity.
  - pose proof (K _ NA D Kd r' H') as E. destruct H'; cbn in E; try discriminate; try contradiction. reflexivity.
  - pose proof (K _ NA D Ke r' H') as E. destruct H'; cbn in E; try discriminate; try contradiction. reflexivity.
  - pose proof (K _ NA D (known_leaf _ I1) r' H') as E. rewrite (leaf_code d I1) in E. destruct H'; cbn in E; try discriminate; reflexivity.
  - pose proof (K _ NA D (known_inner _ I1) r' H') as E. rewrite (inner_code d I1) in E. destruct H'; cbn in E; try discriminate; reflexivity.
  - destruct H' as [A|_ D|_ D|_ D|d _ D I1|d _ D I1|_ _ _|_ _ Eq _ _|_ _ Eq _]; try contradiction; try reflexivity;
      try (exfalso; now apply (P _ D)).
    + exfalso. now apply (P _ D), known_inner.
  - destruct H' as [A|_ D|_ D|_ D|d _ D I1|d _ D I1|_ _ _|_ _ _ _ _|_ _ _ NS]; try contradiction; try reflexivity;
      try (exfalso; now apply (P _ D)).
    + exfalso. now apply (P _ D), known_inner.
    + exfalso. now apply NS.
  - destruct H' as [A|_ D|_ D|_ D|d _ D I1|d _ D I1|_ _ Ne|_ _ _ C S|_ _ _ _]; try contradiction; try reflexivity;
      try (exfalso; now apply (P _ D)).
    + exfalso. now apply (P _ D), known_leaf.
    + exfalso. now apply NS.
Qed.

Scheme declares_mut := Induction for declares Sort Prop
  with declare_all_mut := Induction for declare_all Sort Prop.
Combined Scheme declares_induction from declares_mut, declare_all_mut.
Lemma dedented_unique : forall t l l', dedented t l -> dedented t l' -> l = l'.
Proof. intros t l l' H H'. apply normalize_spec in H, H'. congruence. Qed.
Lemma declares_unique :
  (forall i n l, declares autoblocks cdata_scripts i n l -> forall l', declares autoblocks cdata_scripts i n l' -> l = l') /\
  (forall i ns l, declare_all autoblocks cdata_scripts i ns l -> forall l', declare_all autoblocks cdata_scripts i ns l' -> l = l').
Proof.
  apply declares_induction.
  - intros i ln tag a cs name l R D IH l' D'. inversion D'; subst; match goal with R' : role_of _ _ tag a _ |- _ => pose proof (role_unique _ _ _ _ R R') as E; try discriminate E end.
    injection E as <-. f_equal. now apply IH.
  - intros ln tag a cs f l R D IH l' D'. inversion D'; subst; match goal with R' : role_of _ _ tag a _ |- _ => pose proof (role_unique _ _ _ _ R R') as E; try discriminate E end.
    injection E as <-. f_equal. now apply IH.
  - intros ln tag a cs f l R D IH l' D'. inversion D'; subst; match goal with R' : role_of _ _ tag a _ |- _ => pose proof (role_unique _ _ _ _ R R') as E; try discriminate E end.
    now apply IH.
  - intros i ln tag a cs l R D IH l' D'. inversion D'; subst; match goal with R' : role_of _ _ tag a _ |- _ => pose proof (role_unique _ _ _ _ R R') as E; try discriminate E end.
    f_equal. now apply IH.
  - intros i ln tag a cs R l' D'. inversion D'; subst; match goal with R' : role_of _ _ tag a _ |- _ => pose proof (role_unique _ _ _ _ R R') as E; try discriminate E end.
    reflexivity.
  - intros i ln tag a cs l R D IH l' D'. inversion D'; subst; match goal with R' : role_of _ _ tag a _ |- _ => pose proof (role_unique _ _ _ _ R R') as E; try discriminate E end.
    now apply IH.
  - intros i ln t d c lines E Dd l' D'. inversion D' as [| | | | | |? ? ? ? ? lines' E' Dd'|? ? ? ? NE| | |]; subst.
    + assert (Ec : c = code0) by congruence. subst. f_equal. f_equal. eapply dedented_unique; eassumption.
    + now destruct (NE c).
  - intros i ln t d NE l' D'. inversion D'; subst; [|reflexivity]. now destruct (NE code0).
  - intros i ln t e l' D'. now inversion D'.
  - intros i ln t l' D'. now inversion D'.
  - intros i ln t l' D'. now inversion D'.
  - intros i l' D'. now inversion D'.
  - intros i n ns l l' D IH Da IHa l2 D'. inversion D'; subst. f_equal; auto.
Qed.
End Unique.

(** ** Dictionaries of functions *)
Lemma keys_set : forall k v l, map fst (set_function k v l) = if smem k (map fst l) then map fst l else map fst l ++ [k].
Proof.
  induction l as [|[k' v'] l IH]; [reflexivity|]. cbn [set_function map fst]. unfold smem in *. cbn [existsb]. destruct (seqb_spec k k') as [->|Ne]; cbn [orb].
  - reflexivity.
  - cbn [map fst]. rewrite IH. destruct (existsb (seqb k) (map fst l)); reflexivity.
Qed.
Lemma in_set : forall k v l k1 v1, NoDup (map fst l) ->
  (In (k1, v1) (set_function k v l) <-> (k1 = k /\ v1 = v) \/ (k1 <> k /\ In (k1, v1) l)).
Proof.
  induction l as [|[k' v'] l IH]; intros k1 v1 ND; cbn [set_function In].
  - split; [intros [E|[]]; left; split; congruence|intros [[-> ->]|[_ []]]; now left].
  - inversion ND as [|? ? Nk ND']; subst. destruct (seqb_spec k k') as [->|Ne]; cbn [In].
    + split.
      * intros [E|I1]; [left; split; congruence|]. right. split; [|now right]. intros ->. apply Nk. apply in_map_iff. now exists (k', v1).
      * intros [[-> ->]|[Ne [E|I1]]]; [now left|congruence|now right].
    + rewrite (IH k1 v1 ND'). split.
      * intros [E|[[-> ->]|[Ne1 I1]]]; [right; split; [congruence|now left]|now left|right; split; [exact Ne1|now right]].
      * intros [[-> ->]|[Ne1 [E|I1]]]; [right; now left|now left|right; right; now split].
Qed.
Lemma nodup_set : forall k v l, NoDup (map fst l) -> NoDup (map fst (set_function k v l)).
Proof.
  intros k v l ND. rewrite keys_set. destruct (smem k (map fst l)) eqn:E; [exact ND|]. apply smem_notIn in E.
  rewrite <- (rev_involutive (map fst l ++ [k])). apply NoDup_rev. rewrite rev_app_distr. cbn [rev app]. constructor.
  - now rewrite <- in_rev.
  - now apply NoDup_rev.
Qed.
Lemma distinct_seen : forall l seen seen', (forall k, In k seen <-> In k seen') -> distinct seen l = distinct seen' l.
Proof.
  induction l as [|k l IH]; intros seen seen' H; [reflexivity|]. cbn [distinct].
  assert (E : smem k seen = smem k seen').
  { destruct (smem k seen) eqn:E; symmetry; [apply smem_In, H, smem_In; exact E|]. apply smem_notIn. apply smem_notIn in E. now rewrite <- H. }
  rewrite E. destruct (smem k seen'); [now apply IH|]. f_equal. apply IH. intros k'. cbn [In]. now rewrite H.
Qed.

Section Final.
Variable compile : str -> compiled.
Variable helper : nat -> str.
Variable autoblocks : list str.
Variable cdata_scripts : bool.
Variable mode : str.
Notation Runs := (runs compile helper autoblocks cdata_scripts mode).
Notation Body := (body_of compile helper autoblocks cdata_scripts mode).

Definition extends_b (l : list decl) : bool := existsb (fun d => match d with Extends => true | _ => false end) l.
Lemma extends_spec : forall l, extends_b l = true <-> extending l.
Proof.
  intros l. unfold extends_b, extending. rewrite existsb_exists. split.
  - intros (d & I1 & E). destruct d; try discriminate. exact I1.
  - intros I1. now exists Extends.
Qed.
Lemma runs_module : forall l s s', Runs l s s' -> c_mod s' = c_mod s ++ map (pair 0) (module_code l).
Proof.
  intros l s s' R. induction R as [s s' (_ & E & _)|d l s s1 s2 E R IH]; cbn [module_code map]; [now rewrite app_nil_r|].
  rewrite IH. destruct d as [k e| |lines]; cbn [effect] in E.
  - destruct E as (v & _ & _ & E & _). now rewrite E.
  - destruct E as (_ & E & _). now rewrite E.
  - destruct E as (_ & E & _). rewrite E, <- app_assoc. reflexivity.
Qed.
Lemma runs_child : forall l s s', Runs l s s' -> c_is_child s' = c_is_child s || extends_b l.
Proof.
  intros l s s' R. induction R as [s s' (_ & _ & E)|d l s s1 s2 E R IH]; cbn [extends_b existsb]; [now rewrite orb_false_r|].
  rewrite IH. unfold extends_b. destruct d as [k e| |lines]; cbn [effect] in E.
  - destruct E as (v & _ & _ & _ & ->). reflexivity.
  - destruct E as (_ & _ & ->). now rewrite orb_true_r.
  - destruct E as (_ & _ & ->). reflexivity.
Qed.
Lemma runs_nodup : forall l s s', Runs l s s' -> NoDup (map fst (c_funs s)) -> NoDup (map fst (c_funs s')).
Proof.
  intros l s s' R. induction R as [s s' (E & _)|d l s s1 s2 E R IH]; intros ND; [now rewrite E|]. apply IH.
  destruct d as [k e| |lines]; cbn [effect] in E; [|destruct E as (-> & _); exact ND|destruct E as (-> & _); exact ND].
  destruct E as (v & _ & -> & _). now apply nodup_set.
Qed.
Lemma runs_keys : forall l s s', Runs l s s' -> map fst (c_funs s') = map fst (c_funs s) ++ distinct (map fst (c_funs s)) (declared_names l).
Proof.
  intros l s s' R. induction R as [s s' (E & _)|d l s s1 s2 E R IH]; cbn [declared_names].
  - rewrite E. cbn [distinct]. now rewrite app_nil_r.
  - rewrite IH. destruct d as [k e| |lines]; cbn [effect] in E; [|destruct E as (-> & _); reflexivity|destruct E as (-> & _); reflexivity].
    destruct E as (v & _ & -> & _). rewrite keys_set. cbn [distinct]. destruct (smem k (map fst (c_funs s))) eqn:Ek; [reflexivity|].
    rewrite <- app_assoc. cbn [app]. f_equal. f_equal. apply distinct_seen. intros k'. rewrite in_app_iff. cbn [In]. tauto.
Qed.
(** The body of a function is that of its last declaration. *)
Lemma runs_bodies : forall l s s', Runs l s s' -> NoDup (map fst (c_funs s)) -> forall k v, In (k, v) (c_funs s') ->
  (In (k, v) (c_funs s) /\ ~ In k (declared_names l)) \/
  exists l1 e l2, l = l1 ++ Declares k e :: l2 /\ ~ In k (declared_names l2) /\ Body (c_is_child s || extends_b l1) e v.
Proof.
  intros l s s' R. induction R as [s s' (E & _)|d l s s1 s2 E R IH]; intros ND k v I1.
  - left. rewrite E in I1. split; [exact I1|intros []].
  - assert (ND1 : NoDup (map fst (c_funs s1))).
    { destruct d as [k0 e0| |lines]; cbn [effect] in E; [|destruct E as (-> & _); exact ND|destruct E as (-> & _); exact ND].
      destruct E as (v0 & _ & -> & _). now apply nodup_set. }
    destruct (IH ND1 k v I1) as [[I2 Nk]|(l1 & e & l2 & -> & Nk & B)].
    + destruct d as [k0 e0| |lines]; cbn [effect declared_names] in *.
      * destruct E as (v0 & B0 & E & _). rewrite E in I2. apply in_set in I2; [|exact ND]. destruct I2 as [[-> ->]|[Ne I2]].
        -- right. exists [], e0, l. split; [reflexivity|]. split; [exact Nk|]. cbn [extends_b existsb]. now rewrite orb_false_r.
        -- left. split; [exact I2|]. intros [E1|I3]; [congruence|contradiction].
      * destruct E as (E & _). rewrite E in I2. now left.
      * destruct E as (E & _). rewrite E in I2. now left.
    + right. exists (d :: l1), e, l2. split; [reflexivity|]. split; [exact Nk|]. cbn [extends_b existsb].
      destruct d as [k0 e0| |lines]; cbn [effect] in E; unfold extends_b in B.
      * destruct E as (v0 & _ & _ & _ & E). now rewrite E in B.
      * destruct E as (_ & _ & E). rewrite E in B. rewrite orb_true_r. exact B.
      * destruct E as (_ & _ & E). now rewrite E in B.
Qed.

(** ** Documents *)
Lemma document_declares : forall frag d t, compile_document compile helper autoblocks cdata_scripts mode frag d = Ok t ->
  exists root l ns s funs, filter no_comment (d_children d) = [root] /\ declares autoblocks cdata_scripts false root l /\
    compile_node compile helper autoblocks cdata_scripts mode InDocument [] root (Cst [(main_decl, [])] [] false false 0) = Ok (ns, s) /\
    t = TemplateNode 0 (map (pair 0) (module_code l)) (map (fun kv => NDef 0 false (fst kv) (snd kv)) funs) /\
    map fst funs = main_decl :: distinct [main_decl] (declared_names l) /\ NoDup (map fst funs) /\
    (forall k v, In (k, v) funs ->
       (k = main_decl /\ v = doctype_text mode frag (extends_b l) (d_dtd d) ++ ns) \/
       (k <> main_decl /\ exists l1 e l2, l = l1 ++ Declares k e :: l2 /\ ~ In k (declared_names l2) /\ Body (extends_b l1) e v)).
Proof.
  intros frag d t E. unfold compile_document in E. destruct (filter no_comment (d_children d)) as [|root [|r2 rs]] eqn:R; try discriminate.
  match type of E with rmap _ ?m = _ => destruct m as [[ns s]|] eqn:Ec end; [|discriminate]. cbn [rmap fst snd] in E.
  destruct (compile_records compile helper autoblocks cdata_scripts mode root _ _ _ _ _ Ec) as (l & D & Rn & _). cbn [c_in_def] in D.
  set (body := doctype_text mode frag (c_is_child s) (d_dtd d) ++ ns) in *.
  pose proof (runs_module _ _ _ Rn) as Em. pose proof (runs_child _ _ _ Rn) as Ech. pose proof (runs_keys _ _ _ Rn) as Ek.
  cbn [c_mod c_is_child c_funs map fst orb app] in Em, Ech, Ek.
  assert (ND0 : NoDup (map fst [(main_decl, @nil node)])) by (repeat constructor; intros []).
  pose proof (runs_nodup _ _ _ Rn ND0) as ND. pose proof (runs_bodies _ _ _ Rn ND0) as Eb. cbn [c_is_child c_funs orb] in Eb.
  exists root, l, ns, s, (set_function main_decl body (c_funs s)). split; [reflexivity|]. split; [exact D|]. split; [exact Ec|]. split; [congruence|].
  assert (Km : smem main_decl (map fst (c_funs s)) = true) by (rewrite Ek; unfold smem; cbn [existsb]; now rewrite seqb_refl).
  split; [rewrite keys_set, Km; exact Ek|]. split; [now apply nodup_set|].
  intros k v I1. apply in_set in I1; [|exact ND]. destruct I1 as [[-> ->]|[Ne I1]].
  - left. split; [reflexivity|]. unfold body. now rewrite Ech.
  - right. split; [exact Ne|]. destruct (Eb k v I1) as [[[E0|[]] _]|X]; [|exact X]. exfalso. apply Ne. congruence.
Qed.
End Final.

(** ** In place *)
Section Place.
Variable compile : str -> compiled.
Variable helper : nat -> str.
Variable autoblocks : list str.
Variable cdata_scripts : bool.
Variable mode : str.
Notation cnode := (compile_node compile helper autoblocks cdata_scripts mode).
Notation Role := (role_of autoblocks cdata_scripts).

Lemma element_role : forall p prev ln tag a cs s ns s' r, cnode p prev (DElem ln tag a cs) s = Ok (ns, s') -> Role tag a r ->
  match r with
  | Block name => exists a', block_nodes ln name (children compile helper autoblocks cdata_scripts mode false ln (InElement tag a') [] cs) s = Ok (ns, s')
  | Def f => exists a', def_nodes ln f (children compile helper autoblocks cdata_scripts mode false ln (InElement tag a') [] cs) s = Ok (ns, s')
  | _ => True
  end.
Proof.
  intros p prev ln tag a cs s ns s' r E Ro. rewrite compile_elem in E. apply bind_ok in E as ([b a'] & s1 & E1 & E).
  unfold lift in E1. destruct (is_autoblock autoblocks tag a) as [ba|x] eqn:Ea; [|discriminate]. cbn [rmap] in E1.
  assert (ba = (b, a') /\ s1 = s) as [-> ->] by (split; congruence). clear E1.
  apply (autoblock_ok compile autoblocks mode) in Ea as (A1 & A2 & Ga). cbn [fst snd] in E. cbv zeta in E.
  assert (Bd : forall m d, In (d, m) methods -> directive tag d -> method_of tag = m).
  { intros m d I1 D. unfold method_of. rewrite (directive_py _ _ D), (directive_last _ _ D). clear - I1. cbn [In methods] in I1.
    repeat (destruct I1 as [I1|I1]; [assert (d = fst (d, m)) as -> by reflexivity; rewrite <- I1; assert (m = snd (d, m)) as -> by reflexivity; rewrite <- I1; reflexivity|]). destruct I1. }
  destruct Ro as [A|NA D|NA D| | | | | | ]; try exact Logic.I.
  - destruct b; [now exists a'|]. now destruct (A2 eq_refl).
  - destruct b; [now destruct NA; apply A1|]. rewrite (Bd KBlock (L "block")) in E by (auto; cbn [In methods]; tauto). exists a'. rewrite <- (Ga (L "name")) by discriminate. exact E.
  - destruct b; [now destruct NA; apply A1|]. rewrite (Bd KDef (L "def")) in E by (auto; cbn [In methods]; tauto). exists a'. rewrite <- (Ga (L "function")) by discriminate. exact E.
Qed.
Lemma block_place : forall p prev ln tag a cs name s ns s', Role tag a (Block name) ->
  cnode p prev (DElem ln tag a cs) s = Ok (ns, s') ->
  ns = if c_is_child s' then [] else [NExpr ln (L "_kj_block_" ++ name ++ L "()") false].
Proof.
  intros p prev ln tag a cs name s ns s' Ro E. destruct (element_role _ _ _ _ _ _ _ _ _ _ E Ro) as [a' E1].
  unfold block_nodes in E1. apply bind_ok in E1 as (body & s1 & _ & E1). apply bind_ok in E1 as (child & s2 & E2 & E1).
  unfold get_is_child in E2. assert (child = c_is_child s1 /\ s2 = s1) as [-> ->] by (split; congruence). destruct (c_is_child s1) eqn:Ec.
  - apply bind_ok in E1 as (h & s3 & E3 & E1). unfold lift in E3. destruct (mk_python 0 _) as [h'|]; [|discriminate]. cbn [rmap] in E3. assert (s3 = s1) by congruence. subst s3.
    apply add_then in E1 as [-> ->]. cbn [c_is_child]. now rewrite Ec.
  - apply add_then in E1 as [-> ->]. cbn [c_is_child]. rewrite Ec, <- app_assoc. reflexivity.
Qed.
Lemma def_place : forall p prev ln tag a cs f s ns s', Role tag a (Def f) ->
  cnode p prev (DElem ln tag a cs) s = Ok (ns, s') ->
  if c_in_def s then exists a' s0 body s1, ns = [NDef ln true f body] /\ compiled_in compile helper autoblocks cdata_scripts mode (InElement tag a') [] cs s0 body s1
  else ns = [].
Proof.
  intros p prev ln tag a cs f s ns s' Ro E. destruct (element_role _ _ _ _ _ _ _ _ _ _ E Ro) as [a' E1].
  unfold def_nodes in E1. apply bind_ok in E1 as (old & s1 & E2 & E1). unfold get_in_def in E2. assert (old = c_in_def s) by congruence. subst old. clear E2.
  apply bind_ok in E1 as (u & s2 & _ & E1). apply bind_ok in E1 as (body & s3 & E3 & E1). apply bind_ok in E1 as (u' & s4 & _ & E1).
  destruct (c_in_def s).
  - exists a', s2, body, s3. unfold ret in E1. split; [congruence|]. eapply kids_compiled. exact E3.
  - apply add_then in E1 as [-> _]. reflexivity.
Qed.
End Place.
