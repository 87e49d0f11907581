(** * What is wrong with a document: the compiler *)

From Coq Require Import Ascii String List Arith NArith ZArith Bool Lia Permutation.
From Verif Require Import PyStr PyStrLemmas M_Values M_IR M_Text M_XText S_XText P_XText P_XText2 M_Entities M_Dom M_XCompile S_XDoc S_XFun P_Dom P_XDoc P_XDoc2 P_XFun P_XFun2 S_XPlace P_XPlace.
From Verif Require P_Dom2 P_Values.
Import ListNotations.
Open Scope list_scope.

Lemma strip_prefix_raise : forall ls p e, strip_prefix p ls = Raise e -> e = "AssertionError"%string.
Proof.
  induction ls as [|l ls IH]; intros p e E; cbn [strip_prefix] in E; [discriminate|]. destruct (prefixb _ l); [|congruence].
  destruct (strip_prefix _ ls) as [x|x] eqn:E1; [discriminate|]. cbn [rmap] in E. assert (x = e) as -> by congruence. eapply IH, E1.
Qed.
Lemma normalize_raise : forall t e, normalize t = Raise e -> e = "AssertionError"%string /\ forall lines, ~ dedented t lines.
Proof.
  intros t e E. split; [unfold normalize in E; eapply strip_prefix_raise, E|]. intros lines D. apply normalize_spec in D. congruence.
Qed.
Lemma first_line : forall c0 s cr cur, exists r ls, splitlines_aux cr (cur ++ [c0]) s = (c0 :: r) :: ls.
Proof.
  intros c0. induction s as [|c s IH]; intros cr cur; cbn [splitlines_aux].
  - exists (rev cur), []. destruct cur as [|x cur]; [reflexivity|]. cbn [app]. change (x :: cur ++ [c0]) with ((x :: cur) ++ [c0]). now rewrite rev_app_distr.
  - destruct (cr && (c =? c_nl)%N); [apply IH|]. destruct (is_linebreak c).
    + exists (rev cur), (splitlines_aux (c =? c_cr)%N [] s). now rewrite rev_app_distr.
    + apply (IH false (c :: cur)).
Qed.
Lemma strip_nothing : forall ls, strip_prefix (Some []) ls = Ok ls.
Proof. induction ls as [|l ls IH]; [reflexivity|]. cbn [strip_prefix prefixb length skipn]. now rewrite IH. Qed.
(** A block's header can always be written. *)
Lemma header_ok : forall name, exists h, mk_python 0 [L "parent_block=parent." ++ L "_kj_block_" ++ name] = Ok h.
Proof.
  intros name. unfold mk_python. cbn [concat]. rewrite app_nil_r.
  set (r := L "arent_block=parent." ++ L "_kj_block_" ++ name). change (L "parent_block=parent." ++ L "_kj_block_" ++ name) with (112%N :: r).
  change (112 =? c_pct)%N with false. cbn iota.
  assert (X : exists ls, normalize (112%N :: r) = Ok ls); [|destruct X as [ls ->]; eexists; reflexivity].
  unfold normalize. change (prefixb (L "#" ++ [c_nl]) (112%N :: r)) with false. cbn iota.
  unfold splitlines. change (splitlines_aux false [] (112%N :: r)) with (splitlines_aux false ([] ++ [112%N]) r).
  destruct (first_line 112%N r false []) as (r' & ls & ->). cbn [strip_prefix].
  change (lstrip (112%N :: r')) with (112%N :: r'). rewrite Nat.sub_diag. cbn [firstn prefixb length skipn]. rewrite strip_nothing. eexists; reflexivity.
Qed.

Section Place.
Variable compile : str -> compiled.
Variable helper : nat -> str.
Variable autoblocks : list str.
Variable cdata_scripts : bool.
Variable mode : str.
Notation cnode := (compile_node compile helper autoblocks cdata_scripts mode).
Notation kids := (children compile helper autoblocks cdata_scripts mode).
Notation Role := (role_of autoblocks cdata_scripts).
Notation Declares_ := (declares autoblocks cdata_scripts).
Notation DeclareAll := (declare_all autoblocks cdata_scripts).
Notation Auto := (autoblock autoblocks).
Notation Wrong := (wrong compile autoblocks cdata_scripts).
Notation Step := (step autoblocks cdata_scripts).
Notation Reaches := (reaches autoblocks cdata_scripts).
Notation Unreadable := (unreadable compile).
Notation Parts := (switch_parts compile autoblocks cdata_scripts).

(** ** How an element is compiled *)
Definition content (ln : nat) (tag : str) (a a' : list (str * str)) (cs : list dnode) (p : parent_node) (prev : str) : M (list node) :=
  let nop := kids false ln (InElement tag a') [] cs in
  match method_of tag with
  | KXml => xml_nodes compile helper autoblocks cdata_scripts mode ln tag a' cs
  | KReplace => ret [NExpr ln (get_attr (L "value") a') false]
  | KImport =>
      ret [NImport ln (get_attr (L "href") a')
             (if has_attr (L "alias") a' then Some (get_attr (L "alias") a') else None)]
  | KExtends => bind set_is_child (fun _ => cat (ret [NExtend ln (get_attr (L "href") a')]) nop)
  | KInclude => ret [NInclude ln (get_attr (L "href") a')]
  | KBlock => block_nodes ln (get_attr (L "name") a') nop
  | KDef => def_nodes ln (get_attr (L "function") a') nop
  | KCall =>
      bind (lift (caller_decl cs)) (fun caller =>
      bind nop (fun body =>
      bind (draw 1) (fun i =>
      ret [mk_call ln (helper i) caller
             (replace (L "%caller") (L "$caller") (get_attr (L "function") a')) body])))
  | KFor => bind nop (fun body => ret [NFor ln (get_attr (L "each") a') body])
  | KWith => bind nop (fun body => bind (lift (mk_with ln (get_attr (L "vars") a') body)) (fun n => ret [n]))
  | KSwitch =>
      bind nop (fun body => bind (lift (switch_body body)) (fun body =>
      ret [NSwitch ln (get_attr (L "test") a') body]))
  | KCase => bind nop (fun body => ret [NCase ln (get_attr (L "value") a') body])
  | KIf => bind nop (fun body => ret [NIf ln (get_attr (L "test") a') body])
  | KElse =>
      bind (lift (else_allowed p prev)) (fun ok : bool =>
      if ok then bind nop (fun body => ret [NElse ln body]) else fail "XMLTemplateCompileError")
  | KNop => nop
  | KData => fail "AttributeError"
  | KNode => fail "RecursionError"
  end.
Lemma elem_not_auto : forall p prev ln tag a cs s a', is_autoblock autoblocks tag a = Ok (false, a') ->
  cnode p prev (DElem ln tag a cs) s = content ln tag a a' cs p prev s.
Proof. intros p prev ln tag a cs s a' E. rewrite compile_elem. unfold bind at 1, lift. rewrite E. cbn [rmap rbind fst snd]. reflexivity. Qed.
Lemma elem_auto : forall p prev ln tag a cs s a', is_autoblock autoblocks tag a = Ok (true, a') ->
  cnode p prev (DElem ln tag a cs) s = block_nodes ln tag (kids false ln (InElement tag a') [] cs) s.
Proof. intros p prev ln tag a cs s a' E. rewrite compile_elem. unfold bind at 1, lift. rewrite E. cbn [rmap rbind fst snd]. reflexivity. Qed.
Lemma elem_ok_auto : forall p prev ln tag a cs s r, cnode p prev (DElem ln tag a cs) s = Ok r ->
  exists b a', is_autoblock autoblocks tag a = Ok (b, a') /\ (b = true <-> Auto tag a) /\ forall k, k <> L "py:autoblock" -> get_attr k a' = get_attr k a.
Proof.
  intros p prev ln tag a cs s r E. rewrite compile_elem in E. unfold bind at 1, lift in E.
  destruct (is_autoblock autoblocks tag a) as [[b a']|] eqn:Ea; [|discriminate]. exists b, a'. split; [reflexivity|].
  apply (autoblock_ok compile autoblocks mode) in Ea as (A1 & A2 & Ga). split; [|exact Ga]. destruct b; (split; [intros X; first [now apply A1|discriminate X]|intros A; first [reflexivity|now destruct (A2 eq_refl)]]).
Qed.
Lemma elem_ok_not : forall p prev ln tag a cs s r, cnode p prev (DElem ln tag a cs) s = Ok r -> ~ Auto tag a ->
  exists a', is_autoblock autoblocks tag a = Ok (false, a') /\ (forall k, k <> L "py:autoblock" -> get_attr k a' = get_attr k a) /\
    content ln tag a a' cs p prev s = Ok r.
Proof.
  intros p prev ln tag a cs s r E NA. destruct (elem_ok_auto _ _ _ _ _ _ _ _ E) as (b & a' & Ea & Ab & Ga). destruct b; [now destruct NA; apply Ab|].
  exists a'. split; [exact Ea|]. split; [exact Ga|]. now rewrite <- (elem_not_auto _ _ _ _ _ _ _ _ Ea).
Qed.

(** ** What compiles is not wrong *)
Lemma xml_ok : forall ln tag a cs s r, xml_nodes compile helper autoblocks cdata_scripts mode ln tag a cs s = Ok r ->
  (forall k v, In (k, v) a -> k <> L "py:strip" -> exists ps, reads compile ln v ps) /\
  (get_attr (L "py:content") a = [] -> cdata_scripts = true -> script_or_style tag -> ~ bad_script compile tag cs /\ ~ bad_content cs) /\
  (get_attr (L "py:content") a = [] -> ~ (cdata_scripts = true /\ script_or_style tag) -> cs <> [] ->
     exists s1 r1, kids true ln (InElement tag a) [] cs s1 = Ok r1 /\ c_in_def s1 = c_in_def s /\ c_is_child s1 = c_is_child s).
Proof.
  intros ln tag a cs s [ns s'] E. unfold xml_nodes in E. cbv zeta in E.
  unfold cat at 1 in E. apply bind_ok in E as (x1 & s1 & E1 & E). unfold ret in E1. assert (s1 = s) as -> by congruence. clear E1.
  apply bind_ok in E as (y1 & t1 & E & _). unfold cat at 1 in E. apply bind_ok in E as (x2 & s2 & E2 & E).
  apply bind_ok in E as (y2 & t2 & E & _). unfold cat at 1 in E. apply bind_ok in E as (x3 & s3 & E3 & E). apply bind_ok in E as (y3 & t3 & E & _).
  pose proof (pure_attrs compile helper mode _ _ _ _ _ _ E2) as [(_ & _ & C2) I2]. pose proof (pure_more compile helper mode _ _ _ _ _ _ E3) as [(_ & _ & C3) I3].
  split; [|assert (G : get_attr (L "py:content") (remove_attr (L "py:strip") a) = get_attr (L "py:content") a) by (apply get_removed; discriminate);
    unfold rest_nodes in E; cbv zeta in E; rewrite G in E; split].
  - intros k v I1 Ne. eapply attrs_ok; [exact E2|]. eapply Permutation_in; [symmetry; apply P_Values.sort_perm|]. unfold remove_attr. apply filter_In. split; [exact I1|].
    cbn [fst]. assert (seqb (L "py:strip") k = false) as -> by (apply P_Dom2.seqb_neq; congruence). reflexivity.
  - intros Gc Cd Sc. rewrite Gc in E. destruct cs as [|c cs].
    { split; [intros [(ln1 & t & e & [] & _)|(ln1 & t & ss & [] & _)]|intros (c & [] & _)]. }
    rewrite Cd, (proj2 (cdata_tag compile mode tag) Sc) in E. cbn [andb] in E. unfold cat in E.
    apply bind_ok in E as (z1 & u1 & _ & E). apply bind_ok in E as (z2 & u2 & E & _). apply bind_ok in E as (z3 & u3 & E & _).
    apply bind_ok in E as (z4 & u4 & _ & E). apply bind_ok in E as (z5 & u5 & E & _). apply bind_ok in E as (z6 & u6 & E & _).
    eapply (script_ok compile mode); eassumption.
  - intros Gc Ns Ne. rewrite Gc in E. destruct cs as [|c cs]; [congruence|].
    assert (Cs : cdata_scripts && smem tag html_cdata_tags = false).
    { destruct (cdata_scripts && smem tag html_cdata_tags) eqn:X; [|reflexivity]. apply andb_true_iff in X as [X1 X2]. apply (cdata_tag compile mode) in X2. now destruct Ns. }
    rewrite Cs in E. unfold cat in E. apply bind_ok in E as (z1 & u1 & E4 & E). unfold ret in E4. assert (u1 = s3) as -> by congruence.
    apply bind_ok in E as (z2 & u2 & E & _). apply bind_ok in E as (z3 & u3 & E & _). exists s3, (z3, u3). split; [exact E|]. split; congruence.
Qed.

Theorem ok_not_wrong : forall p p0 prev n s r e, cnode p prev n s = Ok r -> alike p p0 -> ~ Wrong (Spot (c_in_def s) (c_is_child s) p0 prev n) e.
Proof.
  intros p p0 prev n s [ns s'] e E0 Al W. rewrite (alike_same compile helper autoblocks cdata_scripts mode _ _ _ _ _ Al) in E0. clear Al p.
  remember (Spot (c_in_def s) (c_is_child s) p0 prev n) as sp eqn:Es.
  assert (Mk : forall tag m d, In (d, m) methods -> directive tag d -> method_of tag = m) by exact method_known.
  destruct W as [i x tag a b ln tag1 a1 cs NA D N1 N2 N3|i x b ln tag1 a1 cs NA D|i x p b ln tag a cs NA D Np|i x p b ln tag a cs I1 Na Nv
    |i x p b ln tag a NA D|i x p b ln tag a c cs NA D Ne|i x p b ln tag a cs NA D Nv|i x p b ln tag a cs d NA D I1|i x p b ln tag a cs NA D
    |i x tag a b ln t e exn U|i x tag a b ln t exn U|i x b ln t e|i x b ln t|i x p b ln tag a cs k v exn NA Pl I1 N1 N2 U
    |i x p b ln tag a cs exn NA Pl G Cd Sc B|i x p b ln tag a cs c NA Pl G Cd Sc I1 N1 N2|i x p b ln t d Ed|i x p b ln t d code Ed Nd];
  assert (i = c_in_def s) as -> by congruence; assert (x = c_is_child s) as -> by congruence; assert (Eb : b = prev) by congruence; subst b;
  match type of Es with Spot _ _ _ _ ?m = _ => assert (En : n = m) by congruence; subst n end;
  try (assert (p = p0) as -> by congruence).
  - (* else *) destruct (elem_ok_not _ _ _ _ _ _ _ _ E0 NA) as (a' & _ & _ & E). unfold content in E. rewrite (Mk _ KElse _ ltac:(cbn [methods In]; tauto) D) in E.
    assert (p0 = InElement tag a) as -> by congruence. apply bind_ok in E as (ok & s1 & E1 & E). apply lift_ok in E1 as [E1 _]. cbn [else_allowed] in E1.
    assert (seqb tag (L "py:nop") = false) as X1 by (now apply P_Dom2.seqb_neq). assert (seqb prev (L "py:if") = false) as X2 by (now apply P_Dom2.seqb_neq).
    assert (has_attr (L "py:switch") a = false) as X3 by (destruct (has_attr (L "py:switch") a) eqn:X; [apply has_attr_spec in X; contradiction|reflexivity]).
    rewrite X1, X2, X3 in E1. assert (ok = false) as -> by (cbn in E1; congruence). discriminate.
  - destruct (elem_ok_not _ _ _ _ _ _ _ _ E0 NA) as (a' & _ & _ & E). unfold content in E. rewrite (Mk _ KElse _ ltac:(cbn [methods In]; tauto) D) in E.
    assert (p0 = InDocument) as -> by congruence. apply bind_ok in E as (ok & s1 & E1 & E). discriminate.
  - (* switch *) destruct (elem_ok_not _ _ _ _ _ _ _ _ E0 NA) as (a' & _ & _ & E). unfold content in E. rewrite (Mk _ KSwitch _ ltac:(cbn [methods In]; tauto) D) in E.
    apply bind_ok in E as (body & s1 & E1 & E). apply bind_ok in E as (body' & s2 & E2 & E). apply lift_ok in E2 as [E2 _].
    apply Np. apply (kids_parted compile helper autoblocks cdata_scripts mode) in E1; [|apply Forall_forall; intros c _; apply switch_contents].
    apply E1. pose proof (switch_body_spec body) as B. destruct (forallb only_case body); [reflexivity|congruence].
  - destruct (elem_ok_auto _ _ _ _ _ _ _ _ E0) as (b & a' & Ea & _). apply Nv. eapply (auto_wrong compile autoblocks mode); eassumption.
  - destruct (elem_ok_not _ _ _ _ _ _ _ _ E0 NA) as (a' & _ & _ & E). unfold content in E. rewrite (Mk _ KCall _ ltac:(cbn [methods In]; tauto) D) in E. discriminate.
  - destruct (elem_ok_not _ _ _ _ _ _ _ _ E0 NA) as (a' & _ & _ & E). unfold content in E. rewrite (Mk _ KCall _ ltac:(cbn [methods In]; tauto) D) in E.
    apply bind_ok in E as (u & s1 & E1 & _). apply lift_ok in E1 as [E1 _]. destruct c as [ln1 tag1 a1 cs1| | | | ]; try discriminate. now apply (Ne ln1 tag1 a1 cs1).
  - destruct (elem_ok_not _ _ _ _ _ _ _ _ E0 NA) as (a' & _ & Ga & E). unfold content in E. rewrite (Mk _ KWith _ ltac:(cbn [methods In]; tauto) D) in E.
    apply bind_ok in E as (body & s1 & _ & E). apply bind_ok in E as (m & s2 & E1 & _). apply lift_ok in E1 as [E1 _]. unfold mk_with in E1.
    rewrite Ga in E1 by discriminate. destruct (with_vars _) as [vs|]; [now apply (Nv vs)|discriminate].
  - destruct (elem_ok_not _ _ _ _ _ _ _ _ E0 NA) as (a' & _ & Ga & E). unfold content in E.
    assert (method_of tag = KData) as M1 by (cbn [In] in I1; destruct I1 as [<-|[<-|[<-|[]]]]; eapply Mk; try exact D; cbn [methods In]; tauto). rewrite M1 in E. discriminate.
  - destruct (elem_ok_not _ _ _ _ _ _ _ _ E0 NA) as (a' & _ & Ga & E). unfold content in E. rewrite (Mk _ KNode _ ltac:(cbn [methods In]; tauto) D) in E. discriminate.
  - assert (p0 = InElement tag a) as -> by congruence. cbn [compile_node] in E0. unfold compile_text in E0. apply lift_ok in E0 as [E0 _].
    destruct (nodes_ok _ _ _ _ _ E0) as (ps & R & _). eapply U, R.
  - assert (p0 = InElement tag a) as -> by congruence. cbn [compile_node] in E0. unfold compile_text in E0. apply lift_ok in E0 as [E0 _].
    destruct (nodes_ok _ _ _ _ _ E0) as (ps & R & _). eapply U, R.
  - assert (p0 = InDocument) as -> by congruence. discriminate.
  - assert (p0 = InDocument) as -> by congruence. discriminate.
  - (* attribute *) destruct (elem_ok_not _ _ _ _ _ _ _ _ E0 NA) as (a' & Ea & Ga & E). unfold content in E. rewrite (method_plain_conv _ Pl) in E.
    apply xml_ok in E as [Ra _]. destruct (auto_alike compile autoblocks mode _ _ _ _ Ea) as (_ & Ia & Na). destruct (Ra k v) as [ps R]; [|exact N1|eapply U, R].
    apply Ia. split; [exact I1|]. intros X. apply N2. now apply Na.
  - destruct (elem_ok_not _ _ _ _ _ _ _ _ E0 NA) as (a' & Ea & Ga & E). unfold content in E. rewrite (method_plain_conv _ Pl) in E.
    apply xml_ok in E as (_ & Rs & _). rewrite Ga in Rs by discriminate. destruct (Rs G Cd Sc) as [N1 _]. now apply N1.
  - destruct (elem_ok_not _ _ _ _ _ _ _ _ E0 NA) as (a' & Ea & Ga & E). unfold content in E. rewrite (method_plain_conv _ Pl) in E.
    apply xml_ok in E as (_ & Rs & _). rewrite Ga in Rs by discriminate. destruct (Rs G Cd Sc) as [_ N3]. apply N3. exists c. now split.
  - cbn [compile_node] in E0. unfold compile_pi in E0. apply bind_ok in E0 as (m & s1 & E1 & _). apply lift_ok in E1 as [E1 _]. unfold mk_python in E1. cbn [concat] in E1.
    rewrite app_nil_r, Ed in E1. discriminate.
  - cbn [compile_node] in E0. unfold compile_pi in E0. apply bind_ok in E0 as (m & s1 & E1 & _). apply lift_ok in E1 as [E1 _]. unfold mk_python in E1. cbn [concat] in E1.
    rewrite app_nil_r in E1. destruct Ed as [Ed|(Ed & Nc & Np)].
    + rewrite Ed, N.eqb_refl in E1. destruct (normalize code) as [ls|] eqn:En; [|discriminate]. apply normalize_spec in En. eapply Nd, En.
    + rewrite Ed in E1. destruct code as [|c code]; [congruence|]. destruct (N.eqb_spec c c_pct) as [->|Nq]; [now apply (Np code)|].
      destruct (normalize (c :: code)) as [ls|] eqn:En; [|discriminate]. apply normalize_spec in En. eapply Nd, En.
Qed.

(** ** What is compiled, compiles *)
Definition marks_of (tag : str) (a : list (str * str)) (marks : bool) : Prop := marks = true -> ~ Auto tag a /\ plain_tag tag.
Lemma elem_kids : forall p prev ln tag a cs s r0 r, cnode p prev (DElem ln tag a cs) s = Ok r0 -> Role tag a r -> r <> Leaf -> cs <> [] ->
  exists marks a' s1 r1, kids marks ln (InElement tag a') [] cs s1 = Ok r1 /\ alike (InElement tag a') (InElement tag a) /\ marks_of tag a marks /\
    c_in_def s1 = inside r (c_in_def s) /\ c_is_child s1 = (c_is_child s || match r with Ext => true | _ => false end).
Proof.
  intros p prev ln tag a cs s r0 r E0 Ro Nl Ne. destruct (elem_ok_auto _ _ _ _ _ _ _ _ E0) as (b & a' & Ea & Ab & Ga).
  destruct (auto_alike compile autoblocks mode _ _ _ _ Ea) as (Al & _ & _). pose proof (role_method compile autoblocks cdata_scripts mode _ _ _ Ro) as Rm.
  assert (Plain : r <> Ext -> (forall f, r <> Def f) -> inside r (c_in_def s) = c_in_def s /\ c_is_child s || (match r with Ext => true | _ => false end) = c_is_child s).
  { intros N1 N2. destruct r; try congruence; cbn [inside]; rewrite orb_false_r; try (now split); now destruct (N2 f). }
  assert (Done : forall r1, kids false ln (InElement tag a') [] cs s = Ok r1 -> r <> Ext -> (forall f, r <> Def f) -> exists marks a' s1 r1, kids marks ln (InElement tag a') [] cs s1 = Ok r1 /\
    alike (InElement tag a') (InElement tag a) /\ marks_of tag a marks /\ c_in_def s1 = inside r (c_in_def s) /\ c_is_child s1 = (c_is_child s || match r with Ext => true | _ => false end)).
  { intros r1 E N1 N2. exists false, a', s, r1. destruct (Plain N1 N2) as [-> ->]. split; [exact E|]. split; [exact Al|]. split; [intros X; discriminate|]. now split. }
  assert (Blk : forall name, block_nodes ln name (kids false ln (InElement tag a') [] cs) s = Ok r0 -> exists r1, kids false ln (InElement tag a') [] cs s = Ok r1).
  { intros name E. unfold block_nodes in E. destruct r0 as [ns s']. apply bind_ok in E as (body & s1 & E1 & _). now exists (body, s1). }
  destruct b.
  { rewrite (elem_auto _ _ _ _ _ _ _ _ Ea) in E0. destruct (Blk _ E0) as [r1 E1].
    assert (Auto tag a) as A by now apply Ab. destruct r; try (now destruct Rm). eapply Done; [exact E1|discriminate|discriminate]. }
  assert (NA : ~ Auto tag a) by (intros A; apply Ab in A; discriminate).
  rewrite (elem_not_auto _ _ _ _ _ _ _ _ Ea) in E0. unfold content in E0. destruct r as [name|f| | |]; [| | |congruence|].
  - destruct Rm as [A|[_ M1]]; [contradiction|]. rewrite M1 in E0. destruct (Blk _ E0) as [r1 E1]. eapply Done; [exact E1|discriminate|discriminate].
  - destruct Rm as [_ M1]. rewrite M1 in E0. unfold def_nodes in E0. destruct r0 as [ns s']. apply bind_ok in E0 as (old & s1 & E1 & E). unfold get_in_def in E1. assert (s1 = s) as -> by congruence.
    apply bind_ok in E as (u & s2 & E2 & E). apply bind_ok in E as (body & s3 & E3 & _). unfold set_in_def in E2. assert (s2 = Cst (c_funs s) (c_mod s) true (c_is_child s) (c_names s)) as -> by congruence.
    exists false, a', (Cst (c_funs s) (c_mod s) true (c_is_child s) (c_names s)), (body, s3). split; [exact E3|]. split; [exact Al|]. split; [intros X; discriminate|]. cbn [c_in_def inside c_is_child].
    split; [reflexivity|]. now rewrite orb_false_r.
  - destruct Rm as [_ M1]. rewrite M1 in E0. destruct r0 as [ns s']. apply bind_ok in E0 as (u & s2 & E2 & E). unfold set_is_child in E2. assert (s2 = Cst (c_funs s) (c_mod s) (c_in_def s) true (c_names s)) as -> by congruence.
    unfold cat in E. apply bind_ok in E as (x & s3 & E3 & E). unfold ret in E3. assert (s3 = Cst (c_funs s) (c_mod s) (c_in_def s) true (c_names s)) as -> by congruence.
    apply bind_ok in E as (y & s4 & E4 & _). exists false, a', (Cst (c_funs s) (c_mod s) (c_in_def s) true (c_names s)), (y, s4). split; [exact E4|]. split; [exact Al|]. split; [intros X; discriminate|].
    cbn [c_in_def inside c_is_child]. split; [reflexivity|]. now rewrite orb_true_r.
  - destruct Rm as [_ [M1|M1]].
    + rewrite M1 in E0. apply xml_ok in E0 as (_ & _ & K). rewrite Ga in K by discriminate.
      assert (Pl : plain_tag tag) by now apply method_plain.
      assert (G : get_attr (L "py:content") a = [] /\ ~ (cdata_scripts = true /\ script_or_style tag)).
      { inversion Ro as [| | | | |d NA' D I1| | |NA' Pl' G Ns]; subst; [|now split]. destruct (Pl d D). now apply known_inner. }
      destruct G as [G Ns]. destruct (K G Ns Ne) as (s1 & r1 & E1 & I1 & C1). exists true, a', s1, r1. split; [exact E1|]. split; [exact Al|]. split; [intros _; now split|].
      cbn [inside]. rewrite orb_false_r. now split.
    + cbn [In] in M1. destruct r0 as [ns s'].
      assert (X : exists r1, kids false ln (InElement tag a') [] cs s = Ok r1); [|destruct X as [r1 E1]; eapply Done; [exact E1|discriminate|discriminate]].
      repeat (destruct M1 as [M1|M1]; [rewrite <- M1 in E0;
        first [ apply bind_ok in E0 as (u & s1 & E1 & E0); apply lift_ok in E1 as [E1 ->]; apply bind_ok in E0 as (body & s2 & E2 & _); now exists (body, s2)
              | apply bind_ok in E0 as (ok & s1 & E1 & E0); apply lift_ok in E1 as [E1 ->]; destruct ok; [|discriminate]; apply bind_ok in E0 as (body & s2 & E2 & _); now exists (body, s2)
              | apply bind_ok in E0 as (body & s1 & E1 & E0); now exists (body, s1)
              | now exists (ns, s') ]|]). destruct M1.
Qed.
Lemma last_before : forall l, last_name l = before [] l. Proof. reflexivity. Qed.
Theorem ok_step : forall p p0 prev n s r sp', cnode p prev n s = Ok r -> alike p p0 -> Step (Spot (c_in_def s) (c_is_child s) p0 prev n) sp' ->
  exists p1 s1 r1, cnode p1 (s_before sp') (s_node sp') s1 = Ok r1 /\ alike p1 (s_parent sp') /\ c_in_def s1 = s_in_def sp' /\ c_is_child s1 = s_extends sp'.
Proof.
  intros p p0 prev n s r sp' E0 Al H. inversion H as [i x p' b ln tag a l1 c l2 ro d x' Ro Nl Hm D Ex]; subst. cbn [s_before s_node s_parent s_in_def s_extends].
  destruct (elem_kids _ _ _ _ _ _ _ _ _ E0 Ro Nl) as (marks & a' & s1 & [ns s2] & E1 & Al1 & Mo & I1 & C1); [destruct l1; discriminate|].
  apply kids_ok_at in E1 as (s3 & ns3 & s4 & d' & E3 & D' & I3 & C3).
  - exists (InElement tag a'), s3, (ns3, s4). rewrite last_before. split; [exact E3|]. split; [exact Al1|]. split; [congruence|].
    rewrite I1 in D'. rewrite (proj2 (declares_unique autoblocks cdata_scripts) _ _ _ D' _ D) in C3. rewrite C3, C1. symmetry.
    assert (X : x' = true <-> c_is_child s || (match ro with Ext => true | _ => false end) || extends_b d = true).
    { rewrite Ex, !orb_true_iff, extends_spec. destruct ro; intuition congruence. }
    destruct x', (c_is_child s || _ || _); intuition congruence.
  - intros Em M1. destruct (Mo Em) as [NA Pl]. destruct (Hm M1) as [A|N1]; contradiction.
Qed.
Theorem reached_ok : forall sp sp', Reaches sp sp' -> forall p s r, cnode p (s_before sp) (s_node sp) s = Ok r -> alike p (s_parent sp) -> c_in_def s = s_in_def sp -> c_is_child s = s_extends sp ->
  forall e, ~ Wrong sp' e.
Proof.
  intros sp sp' H. induction H as [sp|sp sp1 sp2 H1 H2 IH]; intros p s r E Al Ei Ec e.
  - destruct sp as [i x p0 b n]. cbn [s_before s_node s_parent s_in_def s_extends] in *. rewrite <- Ei, <- Ec. eapply ok_not_wrong; eassumption.
  - destruct sp as [i x p0 b n]. cbn [s_before s_node s_parent s_in_def s_extends] in *. rewrite <- Ei, <- Ec in H1.
    destruct (ok_step _ _ _ _ _ _ _ E Al H1) as (p1 & s1 & r1 & E1 & Al1 & I1 & C1). eapply IH; eassumption.
Qed.

Theorem reached_switch : forall sp sp', Reaches sp sp' -> forall p s r, cnode p (s_before sp) (s_node sp) s = Ok r -> alike p (s_parent sp) -> c_in_def s = s_in_def sp -> c_is_child s = s_extends sp ->
  forall i x p' b ln tag a cs, sp' = Spot i x p' b (DElem ln tag a cs) -> directive tag (L "switch") -> ~ Auto tag a -> Parts i x cs.
Proof.
  intros sp sp' H. induction H as [sp|sp sp1 sp2 H1 H2 IH]; intros p s r E Al Ei Ec i x p' b ln tag a cs -> D NA.
  - cbn [s_before s_node s_parent s_in_def s_extends] in *. subst i x. destruct r as [ns s'].
    destruct (elem_ok_not _ _ _ _ _ _ _ _ E NA) as (a' & _ & _ & E0). unfold content in E0. rewrite (method_known _ KSwitch _ ltac:(cbn [methods In]; tauto) D) in E0.
    apply bind_ok in E0 as (body & s1 & E1 & E0). apply bind_ok in E0 as (body' & s2 & E2 & _). apply lift_ok in E2 as [E2 _].
    apply (kids_parted compile helper autoblocks cdata_scripts mode) in E1; [|apply Forall_forall; intros c _; apply switch_contents].
    apply E1. pose proof (switch_body_spec body) as B. destruct (forallb only_case body); [reflexivity|congruence].
  - destruct sp as [i0 x0 p0 b0 n]. cbn [s_before s_node s_parent s_in_def s_extends] in *. rewrite <- Ei, <- Ec in H1.
    destruct (ok_step _ _ _ _ _ _ _ E Al H1) as (p1 & s1 & r1 & E1 & Al1 & I1 & C1). eapply IH; try eassumption. reflexivity.
Qed.

(** ** What does not compile is wrong somewhere *)
Lemma xml_raise : forall ln tag a cs s e, xml_nodes compile helper autoblocks cdata_scripts mode ln tag a cs s = Raise e ->
  (exists k v, In (k, v) a /\ k <> L "py:strip" /\ Unreadable ln v) \/
  (get_attr (L "py:content") a = [] /\ cdata_scripts = true /\ script_or_style tag /\ (bad_script compile tag cs \/ (e = "AssertionError"%string /\ bad_content cs))) \/
  (get_attr (L "py:content") a = [] /\ ~ (cdata_scripts = true /\ script_or_style tag) /\
     exists s1, kids true ln (InElement tag a) [] cs s1 = Raise e /\ c_in_def s1 = c_in_def s /\ c_is_child s1 = c_is_child s).
Proof.
  intros ln tag a cs s e E. unfold xml_nodes in E. cbv zeta in E. unfold cat at 1 in E.
  apply bind_raise in E as [E|(x1 & s1 & E1 & E)]; [discriminate|]. unfold ret in E1. assert (s1 = s) as -> by congruence. clear E1.
  apply bind_raise in E as [E|(y1 & t1 & _ & E)]; [|discriminate]. unfold cat at 1 in E. apply bind_raise in E as [E|(x2 & s2 & E2 & E)].
  { left. apply attrs_raise in E as (k & v & I1 & U). exists k, v. eapply Permutation_in in I1; [|apply P_Values.sort_perm]. unfold remove_attr in I1. apply filter_In in I1 as [I1 B].
    split; [exact I1|]. split; [|exact U]. cbn [fst] in B. intros ->. rewrite seqb_refl in B. discriminate. }
  apply bind_raise in E as [E|(y2 & t2 & _ & E)]; [|discriminate]. unfold cat at 1 in E. apply bind_raise in E as [E|(x3 & s3 & E3 & E)].
  { exfalso. unfold more_nodes in E. destruct (get_attr _ _); [discriminate|]. apply bind_raise in E as [E|(i & s3 & _ & E)]; discriminate. }
  apply bind_raise in E as [E|(y3 & t3 & _ & E)]; [|discriminate]. right.
  pose proof (pure_attrs compile helper mode _ _ _ _ _ _ E2) as [(_ & _ & C2) I2]. pose proof (pure_more compile helper mode _ _ _ _ _ _ E3) as [(_ & _ & C3) I3].
  assert (G : get_attr (L "py:content") (remove_attr (L "py:strip") a) = get_attr (L "py:content") a) by (apply get_removed; discriminate).
  unfold rest_nodes in E. cbv zeta in E. rewrite G in E. destruct (get_attr (L "py:content") a) as [|c0 c]; [|discriminate].
  destruct cs as [|c cs].
  { exfalso. destruct (smem tag html_required_end_tags); [discriminate|]. destruct (html mode); [|discriminate]. destruct (smem tag html_optional_end_tags); discriminate. }
  unfold cat at 1 in E. apply bind_raise in E as [E|(z1 & u1 & E4 & E)]; [discriminate|]. unfold ret in E4. assert (u1 = s3) as -> by congruence.
  apply bind_raise in E as [E|(z2 & u2 & _ & E)]; [|discriminate]. unfold cat at 1 in E. apply bind_raise in E as [E|(z3 & u3 & _ & E)].
  2: { apply bind_raise in E as [E|(z4 & u4 & _ & E)]; discriminate. }
  destruct (cdata_scripts && smem tag html_cdata_tags) eqn:Cs.
  - left. apply andb_true_iff in Cs as [Cd Sc]. apply (cdata_tag compile mode) in Sc. split; [reflexivity|]. split; [exact Cd|]. split; [exact Sc|].
    unfold cat in E. apply bind_raise in E as [E|(z4 & u4 & _ & E)]; [discriminate|]. apply bind_raise in E as [E|(z5 & u5 & _ & E)]; [|discriminate].
    apply bind_raise in E as [E|(z6 & u6 & _ & E)]; [|apply bind_raise in E as [E|(z7 & u7 & _ & E)]; discriminate].
    eapply (script_raise compile mode); eassumption.
  - right. split; [reflexivity|]. split; [intros [Cd Sc]; apply (cdata_tag compile mode) in Sc; rewrite Cd, Sc in Cs; discriminate|].
    exists s3. split; [exact E|]. split; congruence.
Qed.
Lemma attrs_dec : forall a b : list (str * str), {a = b} + {a <> b}.
Proof. assert (D : forall x y : str, {x = y} + {x <> y}) by (apply list_eq_dec; apply N.eq_dec). apply list_eq_dec. intros [x1 x2] [y1 y2]. destruct (D x1 y1), (D x2 y2); [left|right|right|right]; congruence. Qed.
Definition faulty (n : dnode) : Prop := forall p p0 prev s e, cnode p prev n s = Raise e -> alike p p0 ->
  exists sp, Reaches (Spot (c_in_def s) (c_is_child s) p0 prev n) sp /\ Wrong sp e.
Lemma kids_faulty : forall p0 prev s marks ln tag a a' cs s1 e r, Forall faulty cs -> Role tag a r -> r <> Leaf ->
  kids marks ln (InElement tag a') [] cs s1 = Raise e -> alike (InElement tag a') (InElement tag a) ->
  (marks = false -> Auto tag a \/ ~ plain_tag tag) ->
  c_in_def s1 = inside r (c_in_def s) -> c_is_child s1 = (c_is_child s || match r with Ext => true | _ => false end) ->
  exists sp, Reaches (Spot (c_in_def s) (c_is_child s) p0 prev (DElem ln tag a cs)) sp /\ Wrong sp e.
Proof.
  intros p0 prev s marks ln tag a a' cs s1 e r F Ro Nl E Al Hm Ei Ec. apply kids_raise in E as (l1 & c & l2 & s2 & d & -> & Nm & E & D & I2 & C2).
  rewrite Ei in I2, D. rewrite Ec in C2.
  assert (Fc : faulty c) by (apply Forall_app in F as [_ F]; now apply Forall_cons_iff in F as [F _]).
  destruct (Fc _ (InElement tag a) _ _ _ E Al) as (sp & Rc & W). exists sp. split; [|exact W].
  eapply rc_inside; [|exact Rc]. rewrite I2. change (before [] l1) with (last_name l1). econstructor; try eassumption.
  - intros M1. destruct marks; [now destruct (Nm eq_refl)|]. now apply Hm.
  - rewrite C2, !orb_true_iff, extends_spec. destruct r; intuition congruence.
Qed.
Theorem raise_wrong : forall n, faulty n.
Proof.
  apply (dnode_rec' faulty).
  - intros ln tag a cs F p p0 prev s e E Al. rewrite (alike_same compile helper autoblocks cdata_scripts mode _ _ _ _ _ Al) in E. clear Al p.
    assert (Here : Wrong (Spot (c_in_def s) (c_is_child s) p0 prev (DElem ln tag a cs)) e ->
      exists sp, Reaches (Spot (c_in_def s) (c_is_child s) p0 prev (DElem ln tag a cs)) sp /\ Wrong sp e) by (intros W; eexists; split; [apply rc_here|exact W]).
    destruct (is_autoblock autoblocks tag a) as [[b a']|x] eqn:Ea.
    2: { assert (e = x) as -> by (rewrite compile_elem in E; unfold bind, lift in E; rewrite Ea in E; cbn [rmap rbind] in E; congruence).
         apply auto_raise in Ea as (-> & I1 & Na & Nv). apply Here. now apply wr_autoblock. }
    destruct (auto_alike compile autoblocks mode _ _ _ _ Ea) as (Al & Ia & Nn). pose proof Ea as Ea0. apply (autoblock_ok compile autoblocks mode) in Ea0 as (A1 & A2 & Ga).
    assert (Inn : forall r, Role tag a r -> r <> Leaf -> Auto tag a \/ ~ plain_tag tag -> forall s1, kids false ln (InElement tag a') [] cs s1 = Raise e ->
      c_in_def s1 = inside r (c_in_def s) -> c_is_child s1 = (c_is_child s || match r with Ext => true | _ => false end) ->
      exists sp, Reaches (Spot (c_in_def s) (c_is_child s) p0 prev (DElem ln tag a cs)) sp /\ Wrong sp e).
    { intros r Ro Nl Hm s1 E1 I1 C1. eapply kids_faulty; try eassumption. intros _. exact Hm. }
    assert (Blk : forall name, Role tag a (Block name) -> Auto tag a \/ ~ plain_tag tag -> forall nm, block_nodes ln nm (kids false ln (InElement tag a') [] cs) s = Raise e ->
      exists sp, Reaches (Spot (c_in_def s) (c_is_child s) p0 prev (DElem ln tag a cs)) sp /\ Wrong sp e).
    { intros name Ro Hm nm E1. unfold block_nodes in E1. apply bind_raise in E1 as [E1|(body & s1 & _ & E1)].
      - eapply Inn; [exact Ro|discriminate|exact Hm|exact E1|reflexivity|now rewrite orb_false_r].
      - exfalso. apply bind_raise in E1 as [E1|(child & s2 & _ & E1)]; [discriminate|]. destruct child.
        + destruct (header_ok nm) as [h Eh]. unfold bind, lift in E1. rewrite Eh in E1. discriminate.
        + discriminate. }
    destruct b.
    { rewrite (elem_auto _ _ _ _ _ _ _ _ Ea) in E. assert (A : Auto tag a) by auto. eapply Blk; [apply ro_auto; exact A|now left|exact E]. }
    specialize (A2 eq_refl). clear A1. rewrite (elem_not_auto _ _ _ _ _ _ _ _ Ea) in E. unfold content in E. pose proof (method_directive tag) as Md.
    assert (Np : method_of tag <> KXml -> ~ plain_tag tag) by (intros X Pl; apply X; now apply method_plain_conv).
    assert (Ii : forall d, In d inner_directives -> directive tag d -> method_of tag <> KXml -> kids false ln (InElement tag a') [] cs s = Raise e ->
      exists sp, Reaches (Spot (c_in_def s) (c_is_child s) p0 prev (DElem ln tag a cs)) sp /\ Wrong sp e).
    { intros d I1 D Nx E1. eapply (Inn Inner); [eapply ro_inner; eassumption|discriminate|right; now apply Np|exact E1|reflexivity|now rewrite orb_false_r]. }
    assert (Kp : forall body s1, kids false ln (InElement tag a') [] cs s = Ok (body, s1) -> (forallb only_case body = true <-> Parts (c_in_def s) (c_is_child s) cs)).
    { intros body s1 E1. eapply (kids_parted compile helper autoblocks cdata_scripts mode); [|exact E1]. apply Forall_forall. intros c _. apply switch_contents. }
    destruct (method_of tag) eqn:Em; cbn [method_name] in *; try discriminate.
    + (* xml *) assert (Pl : plain_tag tag) by now apply method_plain. apply xml_raise in E as [(k & v & I1 & Ns & U)|[(G & Cd & Sc & B)|(G & Ns & s1 & E1 & I1 & C1)]].
      * apply Here. apply Ia in I1 as [I1 Nk]. eapply (wr_attribute _ _ _ _ _ _ _ _ _ _ _ k v); try assumption. intros It Ek. subst k.
        destruct (attrs_dec a' a) as [Eq|Nq]; [|now apply (Nk Nq)].
        (* the attribute is there, so the element is a block or the attribute is removed *)
        apply A2. subst a'. unfold is_autoblock in Ea. apply smem_In in It. rewrite It in Ea.
        assert (H : has_attr (L "py:autoblock") a = true) by (apply has_attr_spec; apply in_map_iff; now exists (L "py:autoblock", v)).
        rewrite H in Ea. destruct (seqb (lower (get_attr (L "py:autoblock") a)) (L "false")).
        { exfalso. assert (X : remove_attr (L "py:autoblock") a = a) by congruence. rewrite <- X in I1. unfold remove_attr in I1. apply filter_In in I1 as [_ I1]. cbn [fst] in I1. rewrite seqb_refl in I1. discriminate. }
        destruct (seqb _ _); discriminate.
      * rewrite Ga in G by discriminate. apply Here. destruct B as [B|[-> (c & I1 & N1 & N2)]]; [now apply wr_script|]. now apply (wr_script_content _ _ _ _ _ _ _ _ _ _ _ c).
      * rewrite Ga in G by discriminate. eapply (kids_faulty p0 prev s true ln tag a a' cs s1 e Inner F); [now apply ro_elem|discriminate|exact E1|exact Al|discriminate|exact I1|now rewrite orb_false_r].
    + (* extends *) apply bind_raise in E as [E|(u & s1 & E1 & E)]; [discriminate|]. unfold set_is_child in E1. assert (s1 = Cst (c_funs s) (c_mod s) (c_in_def s) true (c_names s)) as -> by congruence.
      unfold cat in E. apply bind_raise in E as [E|(x & s2 & E2 & E)]; [discriminate|]. unfold ret in E2. assert (s2 = Cst (c_funs s) (c_mod s) (c_in_def s) true (c_names s)) as -> by congruence.
      apply bind_raise in E as [E|(y & s3 & _ & E)]; [|discriminate].
      eapply (Inn Ext); [apply ro_extends; [exact A2|now apply Md]|discriminate|right; apply Np; discriminate|exact E|reflexivity|cbn [c_is_child]; now rewrite orb_true_r].
    + (* block *) eapply Blk; [apply ro_block; [exact A2|now apply Md]|right; apply Np; discriminate|exact E].
    + (* def *) unfold def_nodes in E. apply bind_raise in E as [E|(old & s1 & E1 & E)]; [discriminate|]. unfold get_in_def in E1. assert (s1 = s) as -> by congruence.
      apply bind_raise in E as [E|(u & s2 & E2 & E)]; [discriminate|]. unfold set_in_def in E2. assert (s2 = Cst (c_funs s) (c_mod s) true (c_is_child s) (c_names s)) as -> by congruence.
      apply bind_raise in E as [E|(body & s3 & _ & E)].
      * eapply (Inn (Def (get_attr (L "function") a))); [apply ro_def; [exact A2|now apply Md]|discriminate|right; apply Np; discriminate|exact E|reflexivity|cbn [c_is_child]; now rewrite orb_false_r].
      * exfalso. apply bind_raise in E as [E|(u' & s4 & _ & E)]; [discriminate|]. destruct old; discriminate.
    + (* call *) apply bind_raise in E as [E|(u & s1 & E1 & E)].
      * apply lift_raise in E. apply Here. unfold caller_decl in E. destruct cs as [|c cs]; [assert (e = "IndexError"%string) as -> by congruence; apply wr_call_empty; [exact A2|now apply Md]|].
        destruct c; try discriminate; assert (e = "AttributeError"%string) as -> by congruence; (apply wr_call; [exact A2|now apply Md|discriminate]).
      * apply lift_ok in E1 as [_ ->]. apply bind_raise in E as [E|(body & s2 & _ & E)]; [eapply (Ii (L "call")); [cbn [inner_directives In]; tauto|now apply Md|discriminate|exact E]|].
        apply bind_raise in E as [E|(i & s3 & _ & E)]; discriminate.
    + apply bind_raise in E as [E|(body & s2 & _ & E)]; [eapply (Ii (L "for")); [cbn [inner_directives In]; tauto|now apply Md|discriminate|exact E]|discriminate].
    + (* with *) apply bind_raise in E as [E|(body & s2 & _ & E)]; [eapply (Ii (L "with")); [cbn [inner_directives In]; tauto|now apply Md|discriminate|exact E]|].
      apply bind_raise in E as [E|(m & s3 & _ & E)]; [|discriminate]. apply lift_raise in E. unfold mk_with in E. rewrite Ga in E by discriminate.
      destruct (with_vars (get_attr (L "vars") a)) as [vs|x] eqn:Ev; [discriminate|]. cbn [rmap] in E. assert (x = e) as -> by congruence.
      assert (e = "AttributeError"%string) as -> by (unfold with_vars in Ev; match type of Ev with context [match ?x with _ => _ end] => destruct x end; congruence).
      apply Here. apply wr_with; [exact A2|now apply Md|congruence].
    + (* switch *) apply bind_raise in E as [E|(body & s2 & E1 & E)]; [eapply (Ii (L "switch")); [cbn [inner_directives In]; tauto|now apply Md|discriminate|exact E]|].
      apply bind_raise in E as [E|(m & s3 & _ & E)]; [|discriminate]. apply lift_raise in E. pose proof (switch_body_spec body) as B. specialize (Kp _ _ E1).
      destruct (forallb only_case body); [destruct B as [l' B]; congruence|]. assert (e = "XMLTemplateCompileError"%string) as -> by congruence.
      apply Here. apply wr_switch; [exact A2|now apply Md|]. intros P. apply Kp in P. discriminate.
    + apply bind_raise in E as [E|(body & s2 & _ & E)]; [eapply (Ii (L "case")); [cbn [inner_directives In]; tauto|now apply Md|discriminate|exact E]|discriminate].
    + apply bind_raise in E as [E|(body & s2 & _ & E)]; [eapply (Ii (L "if")); [cbn [inner_directives In]; tauto|now apply Md|discriminate|exact E]|discriminate].
    + (* else *) apply bind_raise in E as [E|(ok & s1 & E1 & E)].
      * apply lift_raise in E. destruct p0 as [|tg at1]; [|discriminate]. cbn [else_allowed] in E. assert (e = "AttributeError"%string) as -> by congruence. apply Here. apply wr_else_root; [exact A2|now apply Md].
      * apply lift_ok in E1 as [E1 ->]. destruct ok.
        { apply bind_raise in E as [E|(body & s2 & _ & E)]; [eapply (Ii (L "else")); [cbn [inner_directives In]; tauto|now apply Md|discriminate|exact E]|discriminate]. }
        unfold fail in E. assert (e = "XMLTemplateCompileError"%string) as -> by congruence. destruct p0 as [|tg at1]; [discriminate|]. cbn [else_allowed] in E1.
        assert (X : seqb tg (L "py:nop") || has_attr (L "py:switch") at1 || seqb prev (L "py:if") = false) by congruence. apply orb_false_iff in X as [X X3]. apply orb_false_iff in X as [X1 X2].
        apply Here. apply wr_else; [exact A2|now apply Md| | |].
        -- intros ->. rewrite seqb_refl in X1. discriminate.
        -- intros I1. apply has_attr_spec in I1. congruence.
        -- intros ->. rewrite seqb_refl in X3. discriminate.
    + (* nop *) eapply (Ii (L "nop")); [cbn [inner_directives In]; tauto|now apply Md|discriminate|exact E].
    + (* data *) unfold fail in E. assert (e = "AttributeError"%string) as -> by congruence. pose proof (method_is tag) as Ms. rewrite Em in Ms. inversion Ms as [|d m D I1 Ne]; subst.
      apply Here. apply (wr_data _ _ _ _ _ _ _ _ _ _ _ d); [exact A2|exact D|]. cbn [In methods] in I1.
      repeat (destruct I1 as [I1|I1]; [first [congruence|left; congruence|right; left; congruence|right; right; left; congruence]|]). destruct I1.
    + (* node *) unfold fail in E. assert (e = "RecursionError"%string) as -> by congruence. pose proof (method_is tag) as Ms. rewrite Em in Ms. inversion Ms as [|d m D I1 Ne]; subst.
      apply Here. apply wr_node; [exact A2|]. assert (d = L "node") as <-; [|exact D]. cbn [In methods] in I1. repeat (destruct I1 as [I1|I1]; [congruence|]). destruct I1.
  - intros ln t e0 p p0 prev s e E Al. rewrite (alike_same compile helper autoblocks cdata_scripts mode _ _ _ _ _ Al) in E. eexists. split; [apply rc_here|]. cbn [compile_node] in E.
    destruct p0 as [|tg a]; unfold compile_text in E; [unfold fail in E; assert (e = "AttributeError"%string) as -> by congruence; apply wr_text_root|].
    apply lift_raise in E. apply wr_text. eapply nodes_raise, E.
  - intros ln t p p0 prev s e E Al. rewrite (alike_same compile helper autoblocks cdata_scripts mode _ _ _ _ _ Al) in E. eexists. split; [apply rc_here|]. cbn [compile_node] in E.
    destruct p0 as [|tg a]; unfold compile_text in E; [unfold fail in E; assert (e = "AttributeError"%string) as -> by congruence; apply wr_mark_root|].
    apply lift_raise in E. apply wr_mark. eapply nodes_raise, E.
  - intros ln t p p0 prev s e E Al. discriminate.
  - intros ln t d p p0 prev s e E Al. eexists. split; [apply rc_here|]. cbn [compile_node] in E. unfold compile_pi in E. apply bind_raise in E as [E|(m & s1 & _ & E)].
    2: { exfalso. destruct m; try discriminate. destruct module_level; [|discriminate]. apply bind_raise in E as [E|(u & s2 & _ & E)]; discriminate. }
    apply lift_raise in E. unfold mk_python in E. cbn [concat] in E. rewrite app_nil_r in E. destruct (strip d) as [|c code] eqn:Ed; [assert (e = "IndexError"%string) as -> by congruence; now apply wr_python_empty|].
    destruct (N.eqb_spec c c_pct) as [->|Nq].
    + destruct (normalize code) as [ls|x] eqn:En; [discriminate|]. cbn [rmap] in E. assert (x = e) as -> by congruence. apply normalize_raise in En as [-> Nd]. now apply (wr_python _ _ _ _ _ _ _ _ _ _ code); [left|].
    + destruct (normalize (c :: code)) as [ls|x] eqn:En; [discriminate|]. cbn [rmap] in E. assert (x = e) as -> by congruence. apply normalize_raise in En as [-> Nd].
      apply (wr_python _ _ _ _ _ _ _ _ _ _ (c :: code)); [|exact Nd]. right. split; [exact Ed|]. split; [discriminate|]. intros r X. congruence.
Qed.
End Place.
