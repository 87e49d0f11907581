(** * What the compiler records *)

From Coq Require Import Ascii String List Arith NArith ZArith Bool Lia.
From Verif Require Import PyStr PyStrLemmas M_Values M_IR M_Text M_XText M_Entities M_Dom M_XCompile S_XDoc S_XFun P_Dom P_XDoc P_XDoc2.
From Verif Require P_Dom2.
Import ListNotations.
Open Scope list_scope.

(** ** Tags *)
Lemma split_aux_nonempty : forall c s cur, split_c_aux c cur s <> [].
Proof. induction s as [|x s IH]; intros cur; cbn; [discriminate|]. destruct (N.eqb x c); [discriminate|apply IH]. Qed.
Lemma split_aux_none : forall c s cur, ~ In c s -> split_c_aux c cur s = [rev cur ++ s].
Proof.
  induction s as [|x s IH]; intros cur H; cbn [split_c_aux]; [now rewrite app_nil_r|].
  destruct (N.eqb_spec x c) as [->|Ne]; [exfalso; apply H; now left|]. rewrite IH by (intros I1; apply H; now right).
  cbn [rev]. now rewrite <- app_assoc.
Qed.
Lemma last_segment_at : forall c q d cur, ~ In c d -> last (split_c_aux c cur (q ++ c :: d)) [] = d.
Proof.
  induction q as [|x q IH]; intros d cur H; cbn [app split_c_aux].
  - rewrite N.eqb_refl, split_aux_none by assumption. cbn [rev app]. reflexivity.
  - destruct (N.eqb x c).
    + pose proof (split_aux_nonempty c (q ++ c :: d) []) as Ne. specialize (IH d [] H).
      destruct (split_c_aux c [] (q ++ c :: d)); [congruence|exact IH].
    + apply IH. exact H.
Qed.
Lemma last_segment : forall (c : char) (s : str), (~ In c s) \/ exists q d, s = q ++ c :: d /\ ~ In c d.
Proof.
  intros c s. induction s as [|x s IH]; [left; intros []|]. destruct IH as [H|(q & d & -> & H)].
  - destruct (N.eq_dec x c) as [->|Ne]; [right; exists [], s; auto|left; intros [E|I1]; auto].
  - right. exists (x :: q), d. auto.
Qed.

Lemma directive_last : forall tag d, directive tag d -> last (split_c c_colon tag) [] = d.
Proof.
  intros tag d (Nc & pre & -> & Pre). unfold split_c. destruct Pre as [->|(q & ->)].
  - cbn [app]. change (L "py:" ++ d) with (L "py" ++ c_colon :: d). now apply last_segment_at.
  - change (L "py:" ++ (q ++ [c_colon]) ++ d) with (L "py" ++ c_colon :: (q ++ [c_colon]) ++ d).
    replace (L "py" ++ c_colon :: (q ++ [c_colon]) ++ d) with ((L "py" ++ c_colon :: q) ++ c_colon :: d)
      by (rewrite <- !app_assoc; cbn [app]; reflexivity).
    now apply last_segment_at.
Qed.
Lemma py_directive : forall tag, prefixb (L "py:") tag = true -> directive tag (last (split_c c_colon tag) []).
Proof.
  intros tag H. apply prefixb_spec in H as [t ->].
  assert (D : exists d, directive (L "py:" ++ t) d).
  { destruct (last_segment c_colon t) as [H|(q & d & -> & H)].
    - exists t. split; [exact H|]. exists []. split; [reflexivity|now left].
    - exists d. split; [exact H|]. exists (q ++ [c_colon]). split; [now rewrite <- app_assoc|right; now exists q]. }
  destruct D as [d D]. now rewrite (directive_last _ _ D).
Qed.
Lemma directive_py : forall tag d, directive tag d -> prefixb (L "py:") tag = true.
Proof. intros tag d (_ & pre & -> & _). apply prefixb_app. Qed.
Lemma directive_fun : forall tag d d', directive tag d -> directive tag d' -> d = d'.
Proof. intros tag d d' H H'. rewrite <- (directive_last _ _ H). now apply directive_last. Qed.

Inductive method_spec (tag : str) : method -> Prop :=
| ms_xml : plain_tag tag -> method_spec tag KXml
| ms_known : forall d m, directive tag d -> In (d, m) methods -> m <> KXml -> method_spec tag m.
Lemma method_is : forall tag, method_spec tag (method_of tag).
Proof.
  intros tag. unfold method_of. destruct (prefixb (L "py:") tag) eqn:Py.
  - pose proof (py_directive tag Py) as D. set (d := last (split_c c_colon tag) []) in *.
    destruct (List.find (fun kv => seqb d (fst kv)) methods) as [[k m]|] eqn:F.
    + apply find_some in F as [I1 E]. cbn [fst] in E. apply seqb_eq in E. subst k.
      destruct m; try (eapply ms_known; [exact D|exact I1|discriminate]).
      apply ms_xml. intros d' D' I2. rewrite <- (directive_fun _ _ _ D D') in I2.
      assert (Ed : d = L "xml").
      { cbn [In methods] in I1. repeat (destruct I1 as [I1|I1]; [congruence|]). destruct I1. }
      rewrite Ed in I2. apply smem_In in I2. vm_compute in I2. discriminate.
    + apply ms_xml. intros d' D' I2. rewrite <- (directive_fun _ _ _ D D') in I2.
      assert (X : exists m, In (d, m) methods).
      { unfold known_directives, leaf_directives, inner_directives in I2. cbn [app] in I2.
        repeat (destruct I2 as [I2|I2]; [rewrite <- I2; eexists; cbn [methods In]; tauto|]). destruct I2. }
      destruct X as [m I3]. pose proof (find_none _ _ F _ I3) as E. cbn [fst] in E. rewrite seqb_refl in E. discriminate.
  - apply ms_xml. intros d D. apply directive_py in D. congruence.
Qed.

Definition method_name (m : method) : option str :=
  match m with
  | KReplace => Some (L "replace") | KImport => Some (L "import") | KExtends => Some (L "extends") | KInclude => Some (L "include")
  | KBlock => Some (L "block") | KDef => Some (L "def") | KCall => Some (L "call") | KFor => Some (L "for") | KWith => Some (L "with")
  | KSwitch => Some (L "switch") | KCase => Some (L "case") | KIf => Some (L "if") | KElse => Some (L "else") | KNop => Some (L "nop")
  | KXml | KData | KNode => None
  end.
Lemma method_directive : forall tag d, method_name (method_of tag) = Some d -> directive tag d.
Proof.
  intros tag d E. pose proof (method_is tag) as Ms. destruct (method_of tag); try discriminate E; cbn [method_name] in E;
    inversion Ms as [|d' m D I1 Ne]; subst; assert (d' = d);
    try (cbn [In methods] in I1; repeat (destruct I1 as [I1|I1]; [congruence|]); destruct I1); congruence.
Qed.
Lemma method_plain : forall tag, method_of tag = KXml -> plain_tag tag.
Proof. intros tag E. pose proof (method_is tag) as Ms. rewrite E in Ms. inversion Ms; [assumption|congruence]. Qed.

(** ** Embedded Python *)
Lemma lstrip_split : forall s, exists p, s = p ++ lstrip s /\ Forall (fun c => is_space c = true) p /\ length p = length s - length (lstrip s).
Proof.
  intros s. exists (takewhile is_space s). unfold lstrip. split; [symmetry; apply takewhile_dropwhile|]. split.
  - apply Forall_forall. rewrite <- forallb_forall. apply takewhile_all.
  - rewrite <- (takewhile_dropwhile is_space s) at 2. rewrite app_length. lia.
Qed.
Lemma strip_prefix_given : forall p ls ls', strip_prefix (Some p) ls = Ok ls' <-> Forall2 (fun x x' => x = p ++ x') ls ls'.
Proof.
  induction ls as [|l ls IH]; intros ls'; cbn [strip_prefix].
  - split; [intros E; injection E as <-; constructor|intros H; inversion H; reflexivity].
  - destruct (prefixb p l) eqn:Pl.
    + pose proof (prefixb_skipn _ _ Pl) as E. split.
      * destruct (strip_prefix (Some p) ls) as [r|] eqn:R; [|discriminate]. cbn [rmap]. intros E1.
        assert (ls' = skipn (length p) l :: r) by congruence. subst. constructor; [exact E|]. now apply IH.
      * intros H. inversion H as [|? l' ? r El Hr]; subst. apply IH in Hr. rewrite Hr. cbn [rmap]. f_equal. f_equal.
        rewrite skipn_app, skipn_all, Nat.sub_diag. reflexivity.
    + split; [discriminate|]. intros H. inversion H; subst. rewrite prefixb_app in Pl. discriminate.
Qed.
Lemma without_mark_spec : forall text rest, without_mark text rest <->
  (if prefixb (L "#" ++ [c_nl]) text then skipn 2 text else text) = rest.
Proof.
  intros text rest. change (L "#" ++ [c_nl]) with [c_hash; c_nl]. destruct (prefixb [c_hash; c_nl] text) eqn:P.
  - pose proof (prefixb_skipn _ _ P) as E. cbn [length] in E. split.
    + intros [->|[-> H]]; [reflexivity|]. exfalso. eapply H. exact E.
    + intros <-. left. exact E.
  - split.
    + intros [->|[-> _]]; [|reflexivity]. rewrite prefixb_app in P. discriminate.
    + intros <-. right. split; [reflexivity|]. intros r ->. rewrite prefixb_app in P. discriminate.
Qed.
Lemma normalize_spec : forall text lines, normalize text = Ok lines <-> dedented text lines.
Proof.
  intros text lines. unfold normalize. set (rest := if prefixb _ text then _ else _).
  assert (W : without_mark text rest) by now apply without_mark_spec.
  assert (U : forall r, without_mark text r -> r = rest) by (intros r Hr; apply without_mark_spec in Hr; now rewrite <- Hr).
  clearbody rest. split.
  - destruct (splitlines rest) as [|l ls] eqn:E; cbn [strip_prefix].
    + intros H. injection H as <-. now apply (dd_none text rest).
    + destruct (lstrip_split l) as (p & El & Fp & Lp). rewrite <- Lp.
      assert (Ep : firstn (length p) l = p) by (rewrite El, firstn_app, firstn_all, Nat.sub_diag; apply app_nil_r).
      rewrite Ep.
      assert (Pl : prefixb p l = true) by (rewrite El; apply prefixb_app). rewrite Pl.
      assert (Sk : skipn (length p) l = lstrip l) by (rewrite El at 1; rewrite skipn_app, skipn_all, Nat.sub_diag; reflexivity).
      rewrite Sk. destruct (strip_prefix (Some p) ls) as [r|] eqn:R; [|discriminate]. cbn [rmap]. intros H.
      assert (lines = lstrip l :: r) by congruence. subst lines.
      apply (dd_some text rest p l ls); auto; [|now apply strip_prefix_given].
      intros c q Eq. unfold lstrip in Eq. now apply dropwhile_head in Eq.
  - intros H. destruct H as [r Hr E|r p l ls l' ls' Hr E Fp El Hl F2].
    + rewrite (U r Hr) in E. rewrite E. reflexivity.
    + rewrite (U r Hr) in E. rewrite E. cbn [strip_prefix].
      assert (Ll : lstrip l = l').
      { unfold lstrip. rewrite El, dropwhile_app_all by now rewrite forallb_forall, <- Forall_forall.
        destruct l' as [|c l']; [reflexivity|]. apply dropwhile_none. now apply (Hl c l'). }
      assert (Len : length l - length l' = length p) by (rewrite El, app_length; lia).
      assert (Ep : firstn (length p) l = p) by (rewrite El, firstn_app, firstn_all, Nat.sub_diag; apply app_nil_r).
      assert (Pl : prefixb p l = true) by (rewrite El; apply prefixb_app).
      rewrite Ll, Len, Ep, Pl, (proj2 (strip_prefix_given p ls ls') F2). cbn [rmap]. f_equal. f_equal.
      rewrite El, skipn_app, skipn_all, Nat.sub_diag. reflexivity.
Qed.

(** ** Effects on the state of the compiler *)
Section Effects.
Variable compile : str -> compiled.
Variable helper : nat -> str.
Variable autoblocks : list str.
Variable cdata_scripts : bool.
Variable mode : str.
Notation cnode := (compile_node compile helper autoblocks cdata_scripts mode).
Notation kids := (children compile helper autoblocks cdata_scripts mode).
Notation Role := (role_of autoblocks cdata_scripts).
Notation Declares_ := (declares autoblocks cdata_scripts).
Notation DeclareAll := (declare_all autoblocks cdata_scripts).
Notation Body := (body_of compile helper autoblocks cdata_scripts mode).
Notation CompiledIn := (compiled_in compile helper autoblocks cdata_scripts mode).

Definition same (s s' : cst) : Prop := c_funs s' = c_funs s /\ c_mod s' = c_mod s /\ c_is_child s' = c_is_child s.
Definition effect (d : decl) (s s' : cst) : Prop :=
  match d with
  | Declares k e => exists v, Body (c_is_child s) e v /\ c_funs s' = set_function k v (c_funs s) /\
                      c_mod s' = c_mod s /\ c_is_child s' = c_is_child s
  | Extends => c_funs s' = c_funs s /\ c_mod s' = c_mod s /\ c_is_child s' = true
  | Module lines => c_funs s' = c_funs s /\ c_mod s' = c_mod s ++ [(0, lines)] /\ c_is_child s' = c_is_child s
  end.
Inductive runs : list decl -> cst -> cst -> Prop :=
| rn_nil : forall s s', same s s' -> runs [] s s'
| rn_cons : forall d l s s1 s2, effect d s s1 -> runs l s1 s2 -> runs (d :: l) s s2.
Lemma same_refl : forall s, same s s. Proof. repeat split. Qed.
Lemma effect_same : forall d s0 s s', same s0 s -> effect d s s' -> effect d s0 s'.
Proof.
  intros [k e| |lines] s0 s s' (A & B & C); cbn [effect]; rewrite A, B, ?C; auto.
Qed.
Lemma runs_same : forall l s0 s s', same s0 s -> runs l s s' -> runs l s0 s'.
Proof.
  intros l s0 s s' S R. destruct R as [s s' S'|d l s s1 s2 E R].
  - constructor. unfold same in *. intuition congruence.
  - econstructor; [eapply effect_same; eassumption|exact R].
Qed.
Lemma runs_app : forall l l' s s1 s2, runs l s s1 -> runs l' s1 s2 -> runs (l ++ l') s s2.
Proof.
  intros l l' s s1 s2 R. induction R as [s s1 S|d l s s1 s2' E R IH]; intros R'; cbn [app].
  - eapply runs_same; eassumption.
  - econstructor; [exact E|]. now apply IH.
Qed.
Lemma runs_same_r : forall l s s1 s2, runs l s s1 -> same s1 s2 -> runs l s s2.
Proof. intros. rewrite <- (app_nil_r l). eapply runs_app; [eassumption|now constructor]. Qed.

(** *** Computations without effects *)
Definition pure {A} (m : M A) : Prop := forall s a s', m s = Ok (a, s') -> same s s' /\ c_in_def s' = c_in_def s.
Lemma pure_ret : forall A (a : A), pure (ret a).
Proof. intros A a s b s' E. unfold ret in E. injection E as _ <-. split; [apply same_refl|reflexivity]. Qed.
Lemma pure_fail : forall A e, pure (@fail A e). Proof. intros A e s a s' E. discriminate. Qed.
Lemma pure_lift : forall A (r : result A), pure (lift r).
Proof. intros A [a|x] s b s' E; cbn in E; [injection E as _ <-; split; [apply same_refl|reflexivity]|discriminate]. Qed.
Lemma pure_draw : forall k, pure (draw k).
Proof. intros k s a s' E. unfold draw in E. injection E as _ <-. repeat split. Qed.
Lemma bind_ok : forall A B (m : M A) (f : A -> M B) s b s', bind m f s = Ok (b, s') -> exists a s1, m s = Ok (a, s1) /\ f a s1 = Ok (b, s').
Proof. intros A B m f s b s' E. unfold bind in E. destruct (m s) as [[a s1]|x]; [|discriminate]. now exists a, s1. Qed.
Lemma pure_bind : forall A B (m : M A) (f : A -> M B), pure m -> (forall a, pure (f a)) -> pure (bind m f).
Proof.
  intros A B m f Hm Hf s b s' E. apply bind_ok in E as (a & s1 & E1 & E2). apply Hm in E1 as [S1 I1]. apply Hf in E2 as [S2 I2].
  unfold same in *. intuition congruence.
Qed.
Lemma pure_cat : forall a b, pure a -> pure b -> pure (cat a b).
Proof. intros a b Ha Hb. unfold cat. apply pure_bind; [exact Ha|]. intros x. apply pure_bind; [exact Hb|]. intros y. apply pure_ret. Qed.
Lemma pure_attrs : forall ln g l, pure (compile_attrs compile helper mode ln g l).
Proof.
  induction l as [|[k v] l IH]; cbn [compile_attrs]; [apply pure_ret|]. apply pure_bind; [apply pure_lift|]. intros value.
  destruct (_ || _); [exact IH|]. apply pure_bind; [apply pure_draw|]. intros i. apply pure_cat; [apply pure_ret|exact IH].
Qed.
Lemma pure_more : forall ln a g, pure (more_nodes helper mode ln a g).
Proof.
  intros ln a g. unfold more_nodes. destruct (get_attr _ a); [apply pure_ret|]. apply pure_bind; [apply pure_draw|]. intros i. apply pure_ret.
Qed.
Lemma pure_text : forall p ln t, pure (compile_text compile p ln t).
Proof. intros [|tag a] ln t; cbn [compile_text]; [apply pure_fail|apply pure_lift]. Qed.
Lemma pure_script : forall tag a l, pure (script_nodes compile tag a l).
Proof.
  induction l as [|n l IH]; cbn [script_nodes]; [apply pure_ret|]. destruct n; try apply pure_fail; [|exact IH].
  apply pure_bind; [apply pure_text|]. intros ns. apply pure_bind; [apply pure_lift|]. intros ns'. apply pure_cat; [apply pure_ret|exact IH].
Qed.

(** *** Computations with the effects of the children *)
Definition declares_all (b : bool) (cs : list dnode) (m : M (list node)) : Prop :=
  forall s ns s', c_in_def s = b -> m s = Ok (ns, s') -> exists l, DeclareAll b cs l /\ runs l s s' /\ c_in_def s' = b.
Lemma with_pure : forall b cs m (f : list node -> M (list node)), declares_all b cs m -> (forall x, pure (f x)) -> declares_all b cs (bind m f).
Proof.
  intros b cs m f Hm Hf s ns s' Eb E. apply bind_ok in E as (a & s1 & E1 & E2).
  destruct (Hm _ _ _ Eb E1) as (l & D & R & I1). apply Hf in E2 as [S2 I2]. exists l. split; [exact D|]. split; [eapply runs_same_r; eassumption|congruence].
Qed.
Lemma pure_with : forall A b cs (m : M A) (f : A -> M (list node)), pure m -> (forall x, declares_all b cs (f x)) -> declares_all b cs (bind m f).
Proof.
  intros A b cs m f Hm Hf s ns s' Eb E. apply bind_ok in E as (a & s1 & E1 & E2). apply Hm in E1 as [S1 I1].
  destruct (Hf a s1 ns s') as (l & D & R & I2); [congruence|exact E2|]. exists l. split; [exact D|]. split; [eapply runs_same; eassumption|congruence].
Qed.
Lemma cat_with : forall b cs x m, pure x -> declares_all b cs m -> declares_all b cs (cat x m).
Proof. intros b cs x m Hx Hm. unfold cat. apply pure_with; [exact Hx|]. intros a. apply with_pure; [exact Hm|]. intros y. apply pure_ret. Qed.
Lemma cat_then : forall b cs x m, pure x -> declares_all b cs m -> declares_all b cs (cat m x).
Proof. intros b cs x m Hx Hm. unfold cat. apply with_pure; [exact Hm|]. intros a. apply pure_bind; [exact Hx|]. intros y. apply pure_ret. Qed.
Lemma pure_declares : forall b m, pure m -> declares_all b [] m.
Proof.
  intros b m H s ns s' Eb E. apply H in E as [S I1]. exists []. split; [constructor|]. split; [now constructor|congruence].
Qed.

(** *** The children *)
Lemma kids_compiled : forall ln self cs prev s ns s', kids false ln self prev cs s = Ok (ns, s') -> CompiledIn self prev cs s ns s'.
Proof.
  induction cs as [|c cs IH]; intros prev s ns s' E; [cbn in E|].
  - unfold children, ret in E. injection E as <- <-. constructor.
  - cbn [children] in E. unfold cat in E. apply bind_ok in E as (a & s1 & E1 & E). apply bind_ok in E as (b & s2 & E2 & E).
    unfold ret in E. assert (ns = a ++ b /\ s' = s2) as [-> ->] by (split; congruence). econstructor; [exact E1|]. apply IH. exact E2.
Qed.
Definition recorded (n : dnode) : Prop := forall p prev s ns s', cnode p prev n s = Ok (ns, s') ->
  exists l, Declares_ (c_in_def s) n l /\ runs l s s' /\ c_in_def s' = c_in_def s.
Lemma kids_declare : forall marks ln self cs, Forall recorded cs -> forall b prev, declares_all b cs (kids marks ln self prev cs).
Proof.
  intros marks ln self cs F. induction F as [|c cs H F IH]; intros b prev s ns s' Eb E.
  - cbn in E. unfold ret in E. injection E as <- <-. exists []. split; [constructor|]. split; [constructor; apply same_refl|exact Eb].
  - cbn [children] in E. unfold cat in E. apply bind_ok in E as (x & s1 & E1 & E). apply bind_ok in E as (y & s2 & E2 & E).
    assert (s' = s2) by (unfold ret in E; congruence). subst s'.
    assert (X : exists l, Declares_ b c l /\ runs l s s1 /\ c_in_def s1 = b).
    { assert (C : cnode self prev c s = Ok (x, s1) -> exists l, Declares_ b c l /\ runs l s s1 /\ c_in_def s1 = b).
      { intros E0. destruct (H _ _ _ _ _ E0) as (l & D & R & I1). rewrite Eb in D, I1. now exists l. }
      destruct marks; [|now apply C]. destruct c; try (now apply C). unfold ret in E1. assert (s1 = s) by congruence. subst s1.
      exists []. split; [constructor|]. split; [constructor; apply same_refl|exact Eb]. }
    destruct X as (l & D & R & I1). destruct (IH b _ s1 y s2 I1 E2) as (l' & D' & R' & I2).
    exists (l ++ l'). split; [now constructor|]. split; [eapply runs_app; eassumption|exact I2].
Qed.

Lemma autoblock_ok : forall tag a b a', is_autoblock autoblocks tag a = Ok (b, a') ->
  (b = true -> autoblock autoblocks tag a) /\ (b = false -> ~ autoblock autoblocks tag a) /\
  (forall k, k <> L "py:autoblock" -> get_attr k a' = get_attr k a).
Proof.
  intros tag a b a' E. unfold is_autoblock in E. unfold autoblock. destruct (smem tag autoblocks) eqn:Em.
  - apply smem_In in Em. destruct (has_attr (L "py:autoblock") a) eqn:Eh.
    + apply has_attr_spec in Eh. destruct (seqb_spec (lower (get_attr (L "py:autoblock") a)) (L "false")) as [Ef|Ef].
      * assert (b = false /\ a' = remove_attr (L "py:autoblock") a) as [-> ->] by (split; congruence).
        split; [discriminate|]. split; [|intros k Ne; now apply get_removed].
        intros _ [_ [Ab|Et]]; [contradiction|]. rewrite Ef in Et. discriminate.
      * destruct (seqb_spec (lower (get_attr (L "py:autoblock") a)) (L "true")) as [Et|Et]; [|discriminate].
        assert (b = true /\ a' = a) as [-> ->] by (split; congruence). split; [intros _; split; [exact Em|now right]|]. split; [discriminate|auto].
    + assert (b = true /\ a' = a) as [-> ->] by (split; congruence). split; [|split; [discriminate|auto]].
      intros _. split; [exact Em|left]. intros I1. apply has_attr_spec in I1. congruence.
  - assert (b = false /\ a' = a) as [-> ->] by (split; congruence). apply smem_notIn in Em. split; [discriminate|]. split; [tauto|auto].
Qed.

Lemma add_then : forall k v r s (ns : list node) s', bind (add_function k v) (fun _ => ret r) s = Ok (ns, s') ->
  ns = r /\ s' = Cst (set_function k v (c_funs s)) (c_mod s) (c_in_def s) (c_is_child s) (c_names s).
Proof. intros k v r s ns s' E. unfold bind, add_function, ret in E. cbn [rbind fst snd] in E. split; congruence. Qed.
Lemma parent_header : forall name h, mk_python 0 [L "parent_block=parent." ++ L "_kj_block_" ++ name] = Ok h ->
  exists lines, h = NPython 0 lines false /\ dedented (L "parent_block=parent._kj_block_" ++ name) lines.
Proof.
  intros name h E. unfold mk_python in E. cbn [concat] in E. rewrite app_nil_r in E.
  change (L "parent_block=parent." ++ L "_kj_block_" ++ name) with (L "parent_block=parent._kj_block_" ++ name) in E.
  set (t := L "parent_block=parent._kj_block_" ++ name) in *.
  assert (Et : exists c r, t = c :: r /\ N.eqb c c_pct = false) by (do 2 eexists; split; reflexivity).
  destruct Et as (c & r & Et & Ec). rewrite Et, Ec, <- Et in E. destruct (normalize t) as [ls|] eqn:En; [|discriminate].
  cbn [rmap] in E. exists ls. split; [congruence|]. now apply normalize_spec.
Qed.

Lemma block_records : forall ln tag a a' name cs s ns s',
  Role tag a (Block name) -> Forall recorded cs ->
  block_nodes ln name (kids false ln (InElement tag a') [] cs) s = Ok (ns, s') ->
  exists l, Declares_ (c_in_def s) (DElem ln tag a cs) l /\ runs l s s' /\ c_in_def s' = c_in_def s.
Proof.
  intros ln tag a a' name cs s ns s' Ro F E. unfold block_nodes in E. apply bind_ok in E as (body & s1 & E1 & E).
  destruct (kids_declare false ln (InElement tag a') cs F (c_in_def s) [] s body s1 eq_refl E1) as (l & D & R & I1).
  pose proof (kids_compiled _ _ _ _ _ _ _ E1) as C.
  exists (l ++ [Declares (L "_kj_block_" ++ name ++ L "()") (DElem ln tag a cs)]). split; [now apply de_block|].
  apply bind_ok in E as (child & s2 & E2 & E). unfold get_is_child in E2. assert (child = c_is_child s1 /\ s2 = s1) as [-> ->] by (split; congruence).
  destruct (c_is_child s1) eqn:Ec.
  - apply bind_ok in E as (h & s2 & E3 & E). unfold lift in E3. destruct (mk_python 0 _) as [h'|x] eqn:Eh in E3; [|discriminate].
    cbn [rmap] in E3. assert (h' = h /\ s2 = s1) as [-> ->] by (split; congruence). apply parent_header in Eh as (lines & -> & Dd).
    apply add_then in E as [-> ->]. cbn [c_in_def]. split; [|exact I1]. eapply runs_app; [exact R|]. econstructor; [|constructor; apply same_refl].
    cbn [effect]. eexists. split; [|split; [cbn [c_funs]; rewrite <- app_assoc; reflexivity|split; reflexivity]].
    rewrite Ec. eapply (bo_override _ _ _ _ _ _ ln tag a a' cs name); [exact Ro|reflexivity|exact C|exact Dd].
  - apply add_then in E as [-> ->]. cbn [c_in_def]. split; [|exact I1]. eapply runs_app; [exact R|]. econstructor; [|constructor; apply same_refl].
    cbn [effect]. eexists. split; [|split; [cbn [c_funs]; rewrite <- app_assoc; reflexivity|split; reflexivity]].
    rewrite Ec. eapply (bo_block _ _ _ _ _ _ ln tag a a' cs name); [exact Ro|reflexivity|exact C].
Qed.

Lemma def_records : forall ln tag a a' f cs s ns s',
  Role tag a (Def f) -> Forall recorded cs ->
  def_nodes ln f (kids false ln (InElement tag a') [] cs) s = Ok (ns, s') ->
  exists l, Declares_ (c_in_def s) (DElem ln tag a cs) l /\ runs l s s' /\ c_in_def s' = c_in_def s.
Proof.
  intros ln tag a a' f cs s ns s' Ro F E. unfold def_nodes in E. apply bind_ok in E as (old & s1 & E1 & E).
  unfold get_in_def in E1. assert (old = c_in_def s /\ s1 = s) as [-> ->] by (split; congruence).
  apply bind_ok in E as (u & s1 & E1' & E). unfold set_in_def in E1'. assert (s1 = Cst (c_funs s) (c_mod s) true (c_is_child s) (c_names s)) by congruence.
  apply bind_ok in E as (body & s2 & E2 & E).
  destruct (kids_declare false ln (InElement tag a') cs F true [] s1 body s2) as (l & D & R & I1); [now subst s1|exact E2|].
  pose proof (kids_compiled _ _ _ _ _ _ _ E2) as C.
  assert (R0 : runs l s s2) by (eapply runs_same; [|exact R]; subst s1; repeat split).
  apply bind_ok in E as (u' & s3 & E3 & E). unfold set_in_def in E3. assert (s3 = Cst (c_funs s2) (c_mod s2) (c_in_def s) (c_is_child s2) (c_names s2)) by congruence.
  destruct (c_in_def s) eqn:Ei.
  - unfold ret in E. assert (s' = s3) by congruence. subst s'. exists l. split; [eapply de_local; eassumption|].
    split; [eapply runs_same_r; [exact R0|subst s3; repeat split]|now subst s3].
  - apply add_then in E as [-> ->]. exists (l ++ [Declares f (DElem ln tag a cs)]). split; [now apply de_def|]. split; [|subst s3; reflexivity].
    eapply runs_app; [exact R0|]. econstructor; [|constructor; apply same_refl]. cbn [effect]. exists body.
    subst s3. cbn [c_funs c_mod c_is_child]. repeat split. eapply bo_def; [exact Ro|exact C].
Qed.

Lemma inner_records : forall ln tag a cs m s ns s', Role tag a Inner -> declares_all (c_in_def s) cs m -> m s = Ok (ns, s') ->
  exists l, Declares_ (c_in_def s) (DElem ln tag a cs) l /\ runs l s s' /\ c_in_def s' = c_in_def s.
Proof.
  intros ln tag a cs m s ns s' Ro D E. destruct (D s ns s' eq_refl E) as (l & Da & R & I1). exists l. split; [now apply de_inner|]. now split.
Qed.
Lemma leaf_records : forall ln tag a cs (m : M (list node)) s ns s', Role tag a Leaf -> pure m -> m s = Ok (ns, s') ->
  exists l, Declares_ (c_in_def s) (DElem ln tag a cs) l /\ runs l s s' /\ c_in_def s' = c_in_def s.
Proof.
  intros ln tag a cs m s ns s' Ro P E. apply P in E as [S I1]. exists []. split; [now apply de_leaf|]. split; [now constructor|exact I1].
Qed.

Lemma xml_records : forall ln tag a a' cs s ns s', ~ autoblock autoblocks tag a -> plain_tag tag ->
  (forall k, k <> L "py:autoblock" -> get_attr k a' = get_attr k a) -> Forall recorded cs ->
  xml_nodes compile helper autoblocks cdata_scripts mode ln tag a' cs s = Ok (ns, s') ->
  exists l, Declares_ (c_in_def s) (DElem ln tag a cs) l /\ runs l s s' /\ c_in_def s' = c_in_def s.
Proof.
  intros ln tag a a' cs s ns s' NA Pl Ga F E. unfold xml_nodes in E. cbv zeta in E.
  assert (G : get_attr (L "py:content") (remove_attr (L "py:strip") a') = get_attr (L "py:content") a)
    by (rewrite get_removed by discriminate; apply Ga; discriminate).
  unfold rest_nodes in E. cbv zeta in E. rewrite G in E. destruct (get_attr (L "py:content") a) as [|c0 c] eqn:Ec.
  - assert (Pe : pure (if smem tag html_required_end_tags then ret [NText ln (L "></" ++ tag ++ L ">") (strip_guard a')]
                     else if html mode then
                       if smem tag html_optional_end_tags then ret [NText ln (L ">") (strip_guard a')]
                       else ret [NText ln (L "></" ++ tag ++ L ">") (strip_guard a')]
                     else ret [NText ln (L "/>") (strip_guard a')])).
    { destruct (smem tag html_required_end_tags); [apply pure_ret|]. destruct (html mode); [|apply pure_ret].
      destruct (smem tag html_optional_end_tags); apply pure_ret. }
    destruct (cdata_scripts && smem tag html_cdata_tags) eqn:Es.
    + apply andb_true_iff in Es as [Es1 Es2]. apply (cdata_tag compile mode) in Es2.
      eapply leaf_records; [now apply ro_script| |exact E].
      apply pure_cat; [apply pure_ret|]. apply pure_cat; [apply pure_attrs|]. apply pure_cat; [apply pure_more|].
      destruct cs; [exact Pe|]. apply pure_cat; [apply pure_ret|]. apply pure_cat; [|apply pure_ret].
      apply pure_cat; [apply pure_ret|]. apply pure_cat; [apply pure_script|apply pure_ret].
    + eapply inner_records; [| |exact E].
      * apply ro_elem; auto. intros [-> S]. apply (cdata_tag compile mode) in S. rewrite S in Es. discriminate.
      * apply cat_with; [apply pure_ret|]. apply cat_with; [apply pure_attrs|]. apply cat_with; [apply pure_more|].
        destruct cs; [apply pure_declares; exact Pe|]. apply cat_with; [apply pure_ret|]. apply cat_then; [apply pure_ret|].
        now apply kids_declare.
  - eapply leaf_records; [apply ro_content; [exact NA|exact Pl|congruence]| |exact E].
    apply pure_cat; [apply pure_ret|]. apply pure_cat; [apply pure_attrs|]. apply pure_cat; [apply pure_more|]. apply pure_ret.
Qed.

Theorem compile_records : forall n, recorded n.
Proof.
  apply (dnode_rec' recorded).
  - intros ln tag a cs F p prev s ns s' E. rewrite compile_elem in E. apply bind_ok in E as ([b a'] & s1 & E1 & E).
    unfold lift in E1. destruct (is_autoblock autoblocks tag a) as [ba|x] eqn:Ea; [|discriminate]. cbn [rmap] in E1.
    assert (ba = (b, a') /\ s1 = s) as [-> ->] by (split; congruence). clear E1.
    apply autoblock_ok in Ea as (A1 & A2 & Ga). cbn [fst snd] in E. cbv zeta in E. destruct b.
    { eapply block_records; [|exact F|exact E]. apply ro_auto. auto. }
    specialize (A2 eq_refl). clear A1. pose proof (method_directive tag) as Md.
    assert (Li : forall d, In d leaf_directives -> Some d = method_name (method_of tag) -> Role tag a Leaf)
      by (intros d I1 E0; eapply ro_leaf; [exact A2|apply Md; symmetry; exact E0|exact I1]).
    assert (Ii : forall d, In d inner_directives -> Some d = method_name (method_of tag) -> Role tag a Inner)
      by (intros d I1 E0; eapply ro_inner; [exact A2|apply Md; symmetry; exact E0|exact I1]).
    assert (K : declares_all (c_in_def s) cs (kids false ln (InElement tag a') [] cs)) by now apply kids_declare.
    destruct (method_of tag) eqn:Em; cbn [method_name] in *.
    + (* xml *) eapply (xml_records ln tag a a' cs); [exact A2|now apply method_plain|exact Ga|exact F|exact E].
    + eapply leaf_records; [eapply Li; [|reflexivity]; cbn; tauto|apply pure_ret|exact E].
    + eapply leaf_records; [eapply Li; [|reflexivity]; cbn; tauto|apply pure_ret|exact E].
    + (* extends *) apply bind_ok in E as (u & s1 & E1 & E). unfold set_is_child in E1.
      assert (s1 = Cst (c_funs s) (c_mod s) (c_in_def s) true (c_names s)) by congruence.
      assert (K1 : declares_all (c_in_def s) cs (cat (ret [NExtend ln (get_attr (L "href") a')]) (kids false ln (InElement tag a') [] cs)))
        by (apply cat_with; [apply pure_ret|exact K]).
      destruct (K1 s1 ns s') as (l & Dl & R & I1); [now subst s1|exact E|].
      exists (Extends :: l). split; [apply de_extends; [|exact Dl]; apply ro_extends; [exact A2|now apply Md]|]. split; [|exact I1].
      econstructor; [|exact R]. subst s1. repeat split.
    + eapply leaf_records; [eapply Li; [|reflexivity]; cbn; tauto|apply pure_ret|exact E].
    + (* block *) eapply block_records; [|exact F|exact E]. rewrite Ga by discriminate. apply ro_block; [exact A2|now apply Md].
    + (* def *) eapply def_records; [|exact F|exact E]. rewrite Ga by discriminate. apply ro_def; [exact A2|now apply Md].
    + (* call *) eapply inner_records; [eapply Ii; [|reflexivity]; cbn; tauto| |exact E]. apply pure_with; [apply pure_lift|]. intros caller.
      apply with_pure; [exact K|]. intros body. apply pure_bind; [apply pure_draw|]. intros i. apply pure_ret.
    + eapply inner_records; [eapply Ii; [|reflexivity]; cbn; tauto| |exact E]. apply with_pure; [exact K|]. intros body. apply pure_ret.
    + eapply inner_records; [eapply Ii; [|reflexivity]; cbn; tauto| |exact E]. apply with_pure; [exact K|]. intros body. apply pure_bind; [apply pure_lift|]. intros n. apply pure_ret.
    + eapply inner_records; [eapply Ii; [|reflexivity]; cbn; tauto| |exact E]. apply with_pure; [exact K|]. intros body. apply pure_bind; [apply pure_lift|]. intros n. apply pure_ret.
    + eapply inner_records; [eapply Ii; [|reflexivity]; cbn; tauto| |exact E]. apply with_pure; [exact K|]. intros body. apply pure_ret.
    + eapply inner_records; [eapply Ii; [|reflexivity]; cbn; tauto| |exact E]. apply with_pure; [exact K|]. intros body. apply pure_ret.
    + eapply inner_records; [eapply Ii; [|reflexivity]; cbn; tauto| |exact E]. apply pure_with; [apply pure_lift|]. intros ok. destruct ok.
      * apply with_pure; [exact K|]. intros body. apply pure_ret.
      * intros s0 ns0 s0' _ E0. discriminate.
    + eapply inner_records; [eapply Ii; [|reflexivity]; cbn; tauto|exact K|exact E].
    + discriminate.
    + discriminate.
  - intros ln t e p prev s ns s' E. cbn [compile_node] in E. apply pure_text in E as [S I1]. exists []. split; [constructor|]. split; [now constructor|exact I1].
  - intros ln t p prev s ns s' E. cbn [compile_node] in E. apply pure_text in E as [S I1]. exists []. split; [constructor|]. split; [now constructor|exact I1].
  - intros ln t p prev s ns s' E. cbn [compile_node] in E. apply pure_ret in E as [S I1]. exists []. split; [constructor|]. split; [now constructor|exact I1].
  - (* embedded Python *) intros ln t d p prev s ns s' E. cbn [compile_node] in E. unfold compile_pi in E. apply bind_ok in E as (n & s1 & E1 & E).
    unfold lift in E1. destruct (mk_python ln [strip d]) as [n'|] eqn:En; [|discriminate]. cbn [rmap] in E1. assert (n' = n /\ s1 = s) as [-> ->] by (split; congruence).
    unfold mk_python in En. cbn [concat] in En. rewrite app_nil_r in En. destruct (strip d) as [|c code] eqn:Es; [discriminate|].
    destruct (N.eqb_spec c c_pct) as [->|Ne].
    + destruct (normalize code) as [ls|] eqn:Ec; [|discriminate]. cbn [rmap] in En. assert (n = NPython ln ls true) by congruence. subst n.
      apply bind_ok in E as (u & s1 & E2 & E). unfold ret in E. unfold add_module in E2.
      assert (s' = Cst (c_funs s) (c_mod s ++ [(0, ls)]) (c_in_def s) (c_is_child s) (c_names s)) by congruence. subst s'.
      exists [Module ls]. split; [eapply de_module; [exact Es|now apply normalize_spec]|]. split; [|reflexivity].
      econstructor; [|constructor; apply same_refl]. repeat split.
    + destruct (normalize (c :: code)) as [ls|] eqn:Ec; [|discriminate]. cbn [rmap] in En. assert (n = NPython ln ls false) by congruence. subst n.
      apply pure_ret in E as [S I1]. exists []. split; [apply de_python; intros code' E'; congruence|]. split; [now constructor|exact I1].
Qed.
End Effects.
