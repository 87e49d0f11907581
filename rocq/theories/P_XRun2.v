(** * Documents in the language of whole templates: compilation *)

From Coq Require Import Ascii String List Arith NArith ZArith Bool Lia Permutation Sorted.
From Verif Require Import PyStr PyStrLemmas M_Values S_Values M_IR P_IR M_Template M_Text M_XText S_XText P_XText M_Entities S_Entities M_Dom M_XCompile
  S_XDoc S_XFun P_XDoc P_XDoc2 P_XFun P_XFun2 M_Run S_Run P_Run4 P_Run5 S_XRun P_XRun1.
From Verif Require M_Exec S_Exec P_Dom2 P_XText2.
Import ListNotations.
Open Scope list_scope.

(** ** Directives *)
Lemma method_at : forall tag d m, directive tag d -> List.find (fun kv => seqb d (fst kv)) methods = Some (d, m) -> method_of tag = m.
Proof.
  intros tag d m D F. unfold method_of. rewrite (directive_py _ _ D), (directive_last _ _ D), F. reflexivity.
Qed.
Lemma plain_method : forall tag, plain_tag tag -> method_of tag = KXml.
Proof.
  intros tag H. pose proof (method_is tag) as Ms. destruct Ms as [_|d m D I1 Ne]; [reflexivity|]. exfalso. apply (H d D).
  cbn [In methods] in I1. unfold known_directives, leaf_directives, inner_directives. cbn [app].
  repeat (destruct I1 as [I1|I1]; [first [assert (m = KXml) by congruence; congruence|assert (d = _) as -> by (symmetry; injection I1 as I1 _; exact I1); cbn [In]; tauto]|]).
  destruct I1.
Qed.

Lemma pieces_app : forall a b pa pb, pieces_of a = Some pa -> pieces_of b = Some pb -> pieces_of (a ++ b) = Some (pa ++ pb).
Proof.
  induction a as [|n a IH]; intros b pa pb Ha Hb.
  - cbn in Ha. assert (pa = []) as -> by congruence. exact Hb.
  - cbn [pieces_of app] in *. destruct (piece_of n) as [p|]; [|discriminate]. cbn [S_Exec.obind] in *.
    om Ha. rewrite (IH b l pb eq_refl Hb). reflexivity.
Qed.
Lemma functions_app : forall a b, functions (a ++ b) = functions a ++ functions b.
Proof. induction a as [|[d b0|c] a IH]; intros b; cbn [app functions]; [reflexivity|rewrite IH; reflexivity|apply IH]. Qed.
Lemma modules_app : forall a b, modules (a ++ b) = modules a ++ modules b.
Proof. induction a as [|[d b0|c] a IH]; intros b; cbn [app modules]; [reflexivity|apply IH|rewrite IH; reflexivity]. Qed.

(** ** What is recorded *)
Section Gives.
Variable gen : str -> Prop.
Definition adds (fl : list (str * list node)) (l : list (str * list node)) : list (str * list node) :=
  fold_left (fun l kv => set_function (fst kv) (snd kv) l) fl l.
Definition function_of (kv : str * list node) (db : str * list rstm) : Prop :=
  fst kv = fst db /\ rnameds gen (snd kv) /\ exists b', structure (snd kv) = Some b' /\ or_pass b' = snd db /\ solid (snd db).
Definition records (fs : list fact) (s s' : cst) : Prop :=
  exists fl, Forall2 function_of fl (functions fs) /\ c_funs s' = adds fl (c_funs s) /\ c_mod s' = c_mod s ++ map (fun c => (0, c)) (modules fs).
Lemma records_keep : forall s s', keeps s s' -> records [] s s'.
Proof. intros s s' (A & B & _). exists []. split; [constructor|]. split; [exact A|]. cbn. now rewrite app_nil_r. Qed.
Lemma records_app : forall fs fs' s s1 s2, records fs s s1 -> records fs' s1 s2 -> records (fs ++ fs') s s2.
Proof.
  intros fs fs' s s1 s2 (fl & F & A & B) (fl' & F' & A' & B'). exists (fl ++ fl'). rewrite functions_app, modules_app. split; [now apply Forall2_app|].
  split; [unfold adds in *; rewrite fold_left_app; congruence|]. rewrite B', B, map_app, app_assoc. reflexivity.
Qed.
Lemma records_then : forall fs s s1 s2, records fs s s1 -> keeps s1 s2 -> records fs s s2.
Proof. intros fs s s1 s2 R K. rewrite <- (app_nil_r fs). eapply records_app; [exact R|now apply records_keep]. Qed.

Definition Gives (i c c' : bool) (m : M (list node)) (R : list rpiece -> list fact -> Prop) (sh : list (nat * bool * bool * M_Exec.before)) : Prop :=
  forall s, c_in_def s = i -> c_is_child s = c ->
  exists ns s' ps fs, m s = Ok (ns, s') /\ R ps fs /\ map shape ps = sh /\ pieces_of ns = Some ps /\ rnameds gen ns /\
    records fs s s' /\ c_in_def s' = i /\ c_is_child s' = c'.

Lemma g_ret : forall i c ns ps (R : list rpiece -> list fact -> Prop), pieces_of ns = Some ps -> rnameds gen ns -> R ps [] -> Gives i c c (ret ns) R (map shape ps).
Proof.
  intros i c ns ps R P N0 H s Hi Hc. exists ns, s, ps, []. split; [reflexivity|]. split; [exact H|]. split; [reflexivity|]. split; [exact P|]. split; [exact N0|].
  split; [apply records_keep, keeps_refl|]. split; assumption.
Qed.
Lemma g_old : forall i c m ps (R : list rpiece -> list fact -> Prop), P_XDoc.gives gen m ps -> R (map as_piece ps) [] -> Gives i c c m R (map shape (map as_piece ps)).
Proof.
  intros i c m ps R G H s Hi Hc. destruct (G s) as (ns & s' & E & P & N0 & K). pose proof K as (K1 & K2 & K3 & K4).
  exists ns, s', (map as_piece ps), []. split; [exact E|]. split; [exact H|]. split; [reflexivity|]. split; [now apply as_nodes|]. split; [now apply (nameds_rnameds gen ns ps)|].
  split; [now apply records_keep|]. split; congruence.
Qed.
Lemma g_weaken : forall i c c' m (R R' : list rpiece -> list fact -> Prop) sh, Gives i c c' m R sh -> (forall ps fs, R ps fs -> R' ps fs) -> Gives i c c' m R' sh.
Proof. intros i c c' m R R' sh G H s Hi Hc. destruct (G s Hi Hc) as (ns & s' & ps & fs & E & Hr & X). exists ns, s', ps, fs. split; [exact E|]. split; [now apply H|exact X]. Qed.
Lemma g_cat : forall i c c1 c2 a b R1 R2 (R : list rpiece -> list fact -> Prop) sh1 sh2, Gives i c c1 a R1 sh1 -> Gives i c1 c2 b R2 sh2 ->
  (forall ps qs fs fs', R1 ps fs -> R2 qs fs' -> R (ps ++ qs) (fs ++ fs')) -> Gives i c c2 (cat a b) R (sh1 ++ sh2).
Proof.
  intros i c c1 c2 a b R1 R2 R sh1 sh2 Ga Gb H s Hi Hc. destruct (Ga s Hi Hc) as (na & s1 & pa & fa & Ea & Ra & Sa & Pa & Na & Ka & Ia & Ca).
  destruct (Gb s1 Ia Ca) as (nb & s2 & pb & fb & Eb & Rb & Sb & Pb & Nb & Kb & Ib & Cb).
  exists (na ++ nb), s2, (pa ++ pb), (fa ++ fb). unfold cat, bind. rewrite Ea. cbn [rbind fst snd]. rewrite Eb. cbn [rbind fst snd ret].
  split; [reflexivity|]. split; [now apply H|]. split; [rewrite map_app; congruence|]. split; [now apply pieces_app|]. split; [now apply Forall_app|].
  split; [eapply records_app; eassumption|]. split; assumption.
Qed.
(** Nodes before and after that declare nothing. *)
Lemma g_then : forall i c c' a f R1 (R : list rpiece -> list fact -> Prop) sh1 sh, Gives i c c' a R1 sh1 ->
  (forall ns ps fs, pieces_of ns = Some ps -> rnameds gen ns -> R1 ps fs -> map shape ps = sh1 -> forall s, exists n q s',
     f ns s = Ok ([n], s') /\ keeps s s' /\ piece_of n = Some q /\ rnamed gen n /\ R [q] fs /\ [shape q] = sh) ->
  Gives i c c' (bind a f) R sh.
Proof.
  intros i c c' a f R1 R sh1 sh Ga H s Hi Hc. destruct (Ga s Hi Hc) as (na & s1 & pa & fa & Ea & Ra & Sa & Pa & Na & Ka & Ia & Ca).
  destruct (H na pa fa Pa Na Ra Sa s1) as (n & q & s2 & E2 & K2 & Pq & Nq & Rq & Sq). pose proof K2 as (_ & _ & K3 & K4).
  exists [n], s2, [q], fa. unfold bind. rewrite Ea. cbn [rbind fst snd]. split; [exact E2|]. split; [exact Rq|]. split; [exact Sq|].
  split; [cbn [pieces_of]; rewrite Pq; reflexivity|]. split; [now constructor|]. split; [eapply records_then; eassumption|]. split; congruence.
Qed.
Lemma g_lift : forall A (r : result A) a i c c' f R sh, r = Ok a -> Gives i c c' (f a) R sh -> Gives i c c' (bind (lift r) f) R sh.
Proof. intros A r a i c c' f R sh -> G s Hi Hc. unfold bind, lift. cbn [rmap rbind fst snd]. now apply G. Qed.
End Gives.

Section Compile.
Variable compile : str -> compiled.
Variable helper : nat -> str.
Variable autoblocks : list str.
Variable cdata_scripts : bool.
Variable mode : str.
Variable gen : str -> Prop.
Hypothesis helper_gen : forall i, gen (helper i).
Notation cnode := (compile_node compile helper autoblocks cdata_scripts mode).
Notation kids := (children compile helper autoblocks cdata_scripts mode).
Notation Tells := (tells compile autoblocks cdata_scripts mode gen).
Notation RestTells := (rest_tells compile autoblocks cdata_scripts mode gen).
Notation AllTell := (all_tell compile autoblocks cdata_scripts mode gen).
Notation G := (Gives gen).

Lemma own_not_auto : forall tag a a', own_attrs autoblocks tag a a' -> is_autoblock autoblocks tag a = Ok (false, a').
Proof.
  intros tag a a' [H|I1 H E].
  - now apply not_autoblock.
  - unfold is_autoblock. rewrite (proj2 (smem_In _ _) I1). destruct (has_attr (L "py:autoblock") a) eqn:Eh.
    + rewrite E, seqb_refl. reflexivity.
    + exfalso. apply H. intros I2. apply has_attr_spec in I2. congruence.
Qed.
Lemma autoblock_true : forall tag a, autoblock autoblocks tag a -> is_autoblock autoblocks tag a = Ok (true, a).
Proof.
  intros tag a [I1 H]. unfold is_autoblock. rewrite (proj2 (smem_In _ _) I1). destruct H as [H|H].
  - now rewrite has_attr_absent.
  - rewrite H. change (seqb (L "true") (L "false")) with false. change (seqb (L "true") (L "true")) with true. now destruct (has_attr _ a).
Qed.
Lemma directive_compiles : forall tag a d a' m, is_directive autoblocks tag a d a' ->
  List.find (fun kv => seqb d (fst kv)) methods = Some (d, m) ->
  is_autoblock autoblocks tag a = Ok (false, a') /\ method_of tag = m.
Proof. intros tag a d a' m [D O] F. split; [now apply own_not_auto|eapply method_at; eassumption]. Qed.
Ltac opened H := repeat match type of H with
  | option_map _ ?o = _ => destruct o; cbn [option_map] in H
  | (if ?x then _ else _) = _ => destruct x
  end.
(** The content of a py:switch. *)
Lemma switch_keeps : forall ns ps ce, pieces_of ns = Some ps -> assemble_switch (filter (fun p => negb (blank_piece p)) ps) = Some ce -> rnameds gen ns ->
  exists ns', switch_body ns = Ok ns' /\ pieces_of ns' = Some (filter (fun p => negb (blank_piece p)) ps) /\ rnameds gen ns'.
Proof.
  induction ns as [|n ns IH]; intros ps ce P A N0.
  - cbn in P. assert (ps = []) as -> by congruence. exists []. repeat split. constructor.
  - apply Forall_cons_iff in N0 as [Nn Nns]. cbn [pieces_of] in P. destruct (piece_of n) as [p|] eqn:Pn; [|discriminate]. cbn [S_Exec.obind] in P.
    om P. rename l into ps'. cbn [filter] in A |- *.
    assert (T : forall t, ir_text n = Some t -> blank_piece p = forallb is_space t).
    { intros t Et. destruct n; cbn in Et; try discriminate; injection Et as <-; cbn [piece_of] in Pn; injection Pn as <-; reflexivity. }
    cbn [switch_body]. destruct (ir_text n) as [t|] eqn:It.
    + specialize (T t eq_refl). rewrite <- (P_XText2.strip_blank_spec t) in T. destruct (blank_piece p) eqn:B; cbn [negb] in A |- *.
      * destruct (strip t); [|discriminate]. destruct (IH _ _ eq_refl A Nns) as (ns' & Es & R). exists ns'. split; [exact Es|exact R].
      * exfalso. destruct n; cbn in It; try discriminate; cbn [piece_of] in Pn; injection Pn as <-; cbn in A; discriminate.
    + destruct (blank_piece p) eqn:B.
      * exfalso. destruct n; cbn in It; try discriminate It; cbn [piece_of] in Pn; opened Pn; try discriminate Pn; injection Pn as <-; discriminate B.
      * cbn [negb] in A |- *.
        assert (C : is_case_or_else n = true /\ exists ce', assemble_switch (filter (fun p => negb (blank_piece p)) ps') = Some ce').
        { destruct p as [s|b|c b].
          - cbn in A. discriminate.
          - cbn [assemble_switch] in A. destruct (filter _ ps') eqn:Ef; [|discriminate]. split; [|eexists; reflexivity].
            destruct n; cbn [piece_of] in Pn; try reflexivity; opened Pn; discriminate Pn.
          - cbn [assemble_switch] in A. destruct (assemble_switch (filter _ ps')) as [ce'|]; [|discriminate]. split; [|eexists; reflexivity].
            destruct n; cbn [piece_of] in Pn; try reflexivity; opened Pn; discriminate Pn. }
        destruct C as [C [ce' A']]. rewrite C. destruct (IH _ _ eq_refl A' Nns) as (ns' & Es & P' & N').
        rewrite Es. cbn [rmap]. eexists. split; [reflexivity|]. split; [|constructor; assumption].
        cbn [pieces_of]. rewrite Pn. cbn [S_Exec.obind]. now rewrite P'.
Qed.

Scheme tells_mut := Induction for tells Sort Prop
  with rest_tells_mut := Induction for rest_tells Sort Prop
  with all_tell_mut := Induction for all_tell Sort Prop.
Combined Scheme tells_induction from tells_mut, rest_tells_mut, all_tell_mut.

Ltac dir D m :=
  let Ea := fresh "Ea" in let Em := fresh "Em" in
  destruct (directive_compiles _ _ _ _ m D eq_refl) as [Ea Em];
  rewrite compile_elem; eapply g_lift; [exact Ea|]; cbv zeta; cbn [fst snd]; rewrite Em; cbv iota.
Ltac again A S := let b' := fresh "b'" in let A' := fresh "A'" in
  destruct (assemble_shape _ _ _ (eq_sym S) A) as [b' A'].
Ltac again_solid A S Sd := again A S; match goal with A' : assemble _ = Some ?b' |- _ => pose proof (solid_shape _ _ _ _ (eq_sym S) A A' Sd) as Sd' end.
Ltac again_pass A S Sd := again A S; match goal with A' : assemble _ = Some ?b' |- _ => pose proof (solid_pass_shape _ _ _ _ (eq_sym S) A A' Sd) as Sd' end.
Lemma structure_pieces : forall ns ps b, pieces_of ns = Some ps -> assemble ps = Some b -> structure ns = Some b.
Proof. intros ns ps b P A. unfold structure. rewrite P. exact A. Qed.
Lemma add_gives : forall d v b fs s s1, records gen fs s s1 -> rnameds gen v -> structure v = Some b -> solid (or_pass b) ->
  records gen (fs ++ [Function d (or_pass b)]) s (Cst (set_function d v (c_funs s1)) (c_mod s1) (c_in_def s1) (c_is_child s1) (c_names s1)).
Proof.
  intros d v b fs s s1 R N0 E Sd. eapply records_app; [exact R|]. exists [(d, v)]. cbn [functions modules map app]. split; [|split].
  - constructor; [|constructor]. split; [reflexivity|]. split; [exact N0|]. exists b. split; [exact E|split; [reflexivity|exact Sd]].
  - reflexivity.
  - cbn [c_mod]. now rewrite app_nil_r.
Qed.
Lemma fname_eq : forall name, (L "_kj_block_" ++ name) ++ L "()" = L "_kj_block_" ++ name ++ L "()".
Proof. intros. now rewrite <- app_assoc. Qed.
Lemma header_of : forall name lines, dedented (L "parent_block=parent._kj_block_" ++ name) lines ->
  mk_python 0 [L "parent_block=parent." ++ L "_kj_block_" ++ name] = Ok (NPython 0 lines false).
Proof.
  intros name lines D. apply normalize_spec in D. unfold mk_python. cbn [concat]. rewrite app_nil_r.
  change (L "parent_block=parent." ++ L "_kj_block_" ++ name) with (L "parent_block=parent._kj_block_" ++ name).
  set (t := L "parent_block=parent._kj_block_" ++ name) in *.
  assert (Et : exists c r, t = c :: r /\ N.eqb c c_pct = false) by (do 2 eexists; split; reflexivity).
  destruct Et as (c & r & Et & Ec). rewrite Et, Ec, <- Et, D. reflexivity.
Qed.
Lemma first_line : forall s cur, cur <> [] -> exists x ls, splitlines_aux false cur s = (rev cur ++ x) :: ls.
Proof.
  induction s as [|c s IH]; intros cur H.
  - destruct cur as [|c cur]; [congruence|]. exists [], []. cbn [splitlines_aux]. now rewrite app_nil_r.
  - cbn [splitlines_aux andb]. destruct (is_linebreak c).
    + exists []. eexists. rewrite app_nil_r. reflexivity.
    + destruct (IH (c :: cur)) as (x & ls & E); [discriminate|]. exists (c :: x), ls. rewrite E. cbn [rev]. now rewrite <- app_assoc.
Qed.
Lemma header_says : forall name lines, dedented (L "parent_block=parent._kj_block_" ++ name) lines -> says_something (RPython lines) = true.
Proof.
  intros name lines D. set (t := L "parent_block=parent._kj_block_" ++ name) in *.
  assert (Et : exists r, t = 112%N :: r) by (eexists; reflexivity). destruct Et as (r & Et). clearbody t. subst t.
  assert (W : forall rest, without_mark (112%N :: r) rest -> exists x ls, splitlines rest = (112%N :: x) :: ls).
  { intros rest [E|[-> _]]; [discriminate|]. unfold splitlines. cbn [splitlines_aux andb]. change (is_linebreak 112) with false. cbv iota.
    destruct (first_line r [112%N]) as (x & ls & ->); [discriminate|]. cbn [rev app]. eauto. }
  destruct D as [rest Wm E|rest p l ls l' ls' Wm E Sp El Nl F]; destruct (W rest Wm) as (x & ls0 & E0); [congruence|].
  assert (l = 112%N :: x) as El0 by congruence. destruct p as [|c p].
  - cbn [app] in El. subst l l'. cbn [says_something forallb]. reflexivity.
  - exfalso. apply Forall_cons_iff in Sp as [Sp _]. cbn [app] in El. assert (c = 112%N) as -> by congruence. discriminate.
Qed.
Lemma or_node : forall ns b, structure ns = Some b -> rnameds gen ns ->
  rnameds gen (match ns with [] => [NPass 0] | _ => ns end) /\ exists b', structure (match ns with [] => [NPass 0] | _ => ns end) = Some b' /\ or_pass b' = or_pass b.
Proof.
  intros [|n ns] b E N0.
  - cbn in E. assert (b = []) as -> by congruence. split; [repeat constructor|]. exists [RPass]. split; reflexivity.
  - split; [exact N0|]. exists b. split; [exact E|reflexivity].
Qed.
Lemma assemble_stm : forall s ps b, assemble ps = Some b -> assemble (RcStm s :: ps) = Some (s :: b).
Proof.
  intros s ps b A. unfold assemble in *. cbn [attach]. destruct (attach ps) as [[[els|] r]|]; [discriminate| |discriminate]. congruence.
Qed.
Lemma block_gives : forall i c c' ln name nop R1 (R : list rpiece -> list fact -> Prop) sh1 sh, G i c c' nop R1 sh1 ->
  (exists ps b, map shape ps = sh1 /\ assemble ps = Some b /\ (c' = false -> solid (or_pass b))) ->
  (c' = false -> sh = [shape (RcStm RPass)] /\ forall ps fs b, R1 ps fs -> assemble ps = Some b -> solid (or_pass b) ->
     R [RcStm (RExpr (L "_kj_block_" ++ name ++ L "()") false)] (fs ++ [Function (L "_kj_block_" ++ name ++ L "()") (or_pass b)])) ->
  (c' = true -> sh = [] /\ exists lines, dedented (L "parent_block=parent._kj_block_" ++ name) lines /\ forall ps fs b, R1 ps fs -> assemble ps = Some b ->
     R [] (fs ++ [Function (L "_kj_block_" ++ name ++ L "()") (RPython lines :: or_pass b)])) ->
  G i c c' (block_nodes ln name nop) R sh.
Proof.
  intros i c c' ln name nop R1 R sh1 sh Gn (ps0 & b0 & S0 & A0 & Sd0) H0 H1 s Hi Hc.
  destruct (Gn s Hi Hc) as (na & s1 & pa & fa & Ea & Ra & Sa & Pa & Na & Ka & Ia & Ca).
  assert (S' : map shape pa = map shape ps0) by congruence. again A0 S'.
  pose proof (structure_pieces _ _ _ Pa A') as St. destruct (or_node _ _ St Na) as (Nb & b2 & Sb & Eb).
  unfold block_nodes, bind. rewrite Ea. cbn [rbind fst snd]. unfold get_is_child. cbn [rbind fst snd].
  set (body := match na with [] => [NPass 0] | _ => na end) in *. rewrite Ca. destruct c'.
  - destruct (H1 eq_refl) as (-> & lines & D & HR). rewrite (header_of _ _ D). unfold lift. cbn [rmap rbind fst snd]. unfold add_function. cbn [rbind fst snd ret].
    eexists _, _, [], _. split; [reflexivity|]. split; [exact (HR _ _ _ Ra A')|]. split; [reflexivity|]. split; [reflexivity|]. split; [constructor|].
    split; [|split; assumption]. rewrite fname_eq. change (RPython lines :: or_pass b') with (or_pass (RPython lines :: or_pass b')).
    assert (Sh : structure (NPython 0 lines false :: body) = Some (RPython lines :: b2)).
    { unfold structure in Sb |- *. cbn [pieces_of piece_of S_Exec.obind]. destruct (pieces_of body) as [pb|]; [|discriminate]. cbn [option_map S_Exec.obind] in *.
      now apply assemble_stm. }
    assert (E2 : RPython lines :: or_pass b' = or_pass (RPython lines :: or_pass b')) by reflexivity.
    destruct b2 as [|r2 b2].
    { exfalso. destruct body as [|n0 body0] eqn:Eq; [unfold body in Eq; destruct na; discriminate|]. unfold structure in Sb. cbn [pieces_of] in Sb.
      destruct (piece_of n0) as [q|]; [|discriminate]. cbn [S_Exec.obind] in Sb. destruct (pieces_of body0) as [pb|]; [|discriminate]. cbn [option_map S_Exec.obind] in Sb.
      now apply P_Run4.assemble_cons in Sb. }
    rewrite <- Eb. cbn [or_pass] in Eb |- *.
    change (RPython lines :: r2 :: b2) with (or_pass (RPython lines :: r2 :: b2)). apply add_gives; [exact Ka|constructor; [exact Logic.I|exact Nb]|exact Sh|].
    exists (RPython lines). split; [now left|now apply (header_says name)].
  - destruct (H0 eq_refl) as (-> & HR). pose proof (solid_pass_shape _ _ _ _ (eq_sym S') A0 A' (Sd0 eq_refl)) as Sd'. unfold add_function. cbn [rbind fst snd ret]. rewrite fname_eq.
    eexists _, _, [_], _. split; [reflexivity|]. split; [exact (HR _ _ _ Ra A' Sd')|]. split; [reflexivity|]. split; [reflexivity|]. split; [repeat constructor|].
    split; [|split; assumption]. rewrite <- Eb in Sd' |- *. now apply add_gives.
Qed.
Lemma simple_old : forall i c m ss (R : list rpiece -> list fact -> Prop), P_XDoc.gives gen m (map S_Exec.PcStm ss) -> R (simple ss) [] -> G i c c m R (map shape (simple ss)).
Proof. intros i c m ss R H Hr. rewrite <- as_simple. apply g_old; [exact H|]. now rewrite as_simple. Qed.
Lemma text_old : forall i c ln t g (R : list rpiece -> list fact -> Prop), R [RcStm (RText t g)] [] -> G i c c (ret [NText ln t g]) R (map shape [RcStm (RText t g)]).
Proof. intros. apply g_ret; [reflexivity|repeat constructor|assumption]. Qed.
Lemma own_nodup : forall tag a a', own_attrs autoblocks tag a a' -> NoDup (map fst a) -> NoDup (map fst a').
Proof. intros tag a a' [H|I1 H E] ND; [exact ND|]. now apply filter_nodup_keys. Qed.
Definition just (P0 : list rpiece) : list rpiece -> list fact -> Prop := fun ps fs => ps = P0 /\ fs = [].
Lemma just_text : forall i c ln t g, G i c c (ret [NText ln t g]) (just [RcStm (RText t g)]) (map shape [RcStm (RText t g)]).
Proof. intros. apply text_old. split; reflexivity. Qed.
Lemma just_simple : forall i c m ss, P_XDoc.gives gen m (map S_Exec.PcStm ss) -> G i c c m (just (simple ss)) (map shape (simple ss)).
Proof. intros. apply simple_old; [assumption|split; reflexivity]. Qed.
Lemma g_pre : forall i c c' a b P0 sh1 R2 (R : list rpiece -> list fact -> Prop) sh2, G i c c a (just P0) sh1 -> G i c c' b R2 sh2 ->
  (forall qs fs, R2 qs fs -> R (P0 ++ qs) fs) -> G i c c' (cat a b) R (sh1 ++ sh2).
Proof. intros i c c' a b P0 sh1 R2 R sh2 Ga Gb H. eapply g_cat; [exact Ga|exact Gb|]. intros ps qs fs fs' [-> ->] Hr. now apply H. Qed.
Lemma g_post : forall i c c' a b P0 sh1 R1 (R : list rpiece -> list fact -> Prop) sh2, G i c c' a R1 sh1 -> G i c' c' b (just P0) sh2 ->
  (forall ps fs, R1 ps fs -> R (ps ++ P0) fs) -> G i c c' (cat a b) R (sh1 ++ sh2).
Proof. intros i c c' a b P0 sh1 R1 R sh2 Ga Gb H. eapply g_cat; [exact Ga|exact Gb|]. intros ps qs fs fs' Hr [-> ->]. rewrite app_nil_r. now apply H. Qed.

Definition single : Prop := forall x y, gen x -> gen y -> x = y.
(** What is read is unique up to the names of the bodies of calls. *)
Definition only (ps0 : list rpiece) (fs0 : list fact) (ps : list rpiece) (fs : list fact) : Prop := single -> ps = ps0 /\ fs = fs0.
Ltac uniq := let Sg := fresh "Sg" in intros Sg;
  repeat match goal with HE : only _ _ _ _ |- _ => destruct (HE Sg); clear HE end; subst;
  repeat match goal with A : ?x = Some ?b, A' : ?x = Some ?b' |- _ => lazymatch b with b' => fail | _ => assert (b' = b) by congruence; subst; clear A' end end;
  try match goal with Gx : gen ?x |- context[helper ?i] => rewrite (Sg _ _ (helper_gen i) Gx) end; try (split; reflexivity); try (split; congruence).
Lemma compiles_tells :
  (forall i c parent prev n ps fs c', Tells i c parent prev n ps fs c' -> forall p, parent_tag p = parent ->
     G i c c' (cnode p prev n) (fun ps1 fs1 => Tells i c parent prev n ps1 fs1 c' /\ only ps fs ps1 fs1) (map shape ps)) /\
  (forall i c ln tag a g cs ps fs c', RestTells i c ln tag a g cs ps fs c' -> NoDup (map fst a) -> forall self, parent_tag self = tag ->
     G i c c' (rest_nodes compile helper autoblocks cdata_scripts mode self ln tag (remove_attr (L "py:strip") a) g cs)
       (fun ps1 fs1 => RestTells i c ln tag a g cs ps1 fs1 c' /\ only ps fs ps1 fs1) (map shape ps)) /\
  (forall i c marks parent prev l ps fs c', AllTell i c marks parent prev l ps fs c' -> forall ln p, parent_tag p = parent ->
     G i c c' (kids marks ln p prev l) (fun ps1 fs1 => AllTell i c marks parent prev l ps1 fs1 c' /\ only ps fs ps1 fs1) (map shape ps)).
Proof.
  apply tells_induction.
  - (* comment *) intros i c parent prev ln t E p Hp. cbn [compile_node]. unfold compile_comment. rewrite E. apply text_old. split; [now constructor|uniq].
  - intros i c parent prev ln t E p Hp. cbn [compile_node]. unfold compile_comment. rewrite E.
    apply (g_ret gen i c [] []); [reflexivity|constructor|]. split; [now apply tl_hidden|uniq].
  - intros i c parent prev ln t e ss T p Hp. cbn [compile_node]. apply simple_old; [now apply (text_gives compile mode gen p parent)|split; [now constructor|uniq]].
  - intros i c parent prev ln t ss T p Hp. cbn [compile_node]. apply simple_old; [now apply (text_gives compile mode gen p parent)|split; [now constructor|uniq]].
  - (* embedded Python *) intros i c parent prev ln t d lines Ne Np D p Hp. cbn [compile_node]. unfold compile_pi.
    eapply (g_lift gen _ _ (NPython ln lines false)).
    + unfold mk_python. cbn [concat]. rewrite app_nil_r. destruct (strip d) as [|c0 r] eqn:Es; [congruence|].
      destruct (N.eqb_spec c0 c_pct) as [->|Nc]; [exfalso; now apply (Np r)|]. apply normalize_spec in D. rewrite D. reflexivity.
    + cbv iota. apply (g_ret gen i c _ [RcStm (RPython lines)]); [reflexivity|repeat constructor|]. split; [now apply tl_python|uniq].
  - intros i c parent prev ln t d code lines Es D p Hp. cbn [compile_node]. unfold compile_pi.
    eapply (g_lift gen _ _ (NPython ln lines true)).
    + unfold mk_python. cbn [concat]. rewrite app_nil_r, Es, N.eqb_refl. apply normalize_spec in D. rewrite D. reflexivity.
    + cbv iota. intros s Hi Hc. unfold bind, add_module, ret. cbn [rbind fst snd]. eexists _, _, [], [ModuleCode lines]. split; [reflexivity|].
      split; [split; [eapply tl_module; eassumption|uniq]|]. split; [reflexivity|]. split; [reflexivity|]. split; [constructor|]. split; [|split; assumption].
      exists []. split; [constructor|]. split; reflexivity.
  - (* if *) intros i c parent prev ln tag a a' cs ps b fs c' D _ IH A Sd p Hp. dir D KIf. eapply g_then; [apply IH; reflexivity|].
    intros ns ps' fs' P N0 H S s. cbv beta in H; destruct H as [H HE]. again_solid A S Sd. eexists _, _, s. split; [reflexivity|]. split; [apply keeps_refl|]. cbn [piece_of].
    rewrite structure_eq, (structure_pieces _ _ _ P A'). cbn [S_Exec.obind]; rewrite (solid_some _ Sd'); cbn [option_map]. split; [reflexivity|]. split; [now apply rnamed_all|]. split; [|reflexivity]. split; [eapply tl_if; eassumption|uniq].
  - (* else *) intros i c parent prev ln tag a a' cs ps b fs c' D El _ IH A Sd p Hp. dir D KElse. eapply (g_lift gen _ _ true).
    + destruct p as [|tag0 a0]; cbn [parent_tag] in Hp; subst parent.
      * destruct El as [El|[El _]]; [discriminate|congruence].
      * unfold else_allowed. destruct El as [->|[_ ->]]; [reflexivity|]. rewrite orb_true_r. reflexivity.
    + eapply g_then; [apply IH; reflexivity|].
      intros ns ps' fs' P N0 H S s. cbv beta in H; destruct H as [H HE]. again_solid A S Sd. eexists _, _, s. split; [reflexivity|]. split; [apply keeps_refl|]. cbn [piece_of].
      rewrite structure_eq, (structure_pieces _ _ _ P A'). cbn [S_Exec.obind]; rewrite (solid_some _ Sd'); cbn [option_map]. split; [reflexivity|]. split; [now apply rnamed_all|]. split; [|reflexivity]. split; [eapply tl_else; eassumption|uniq].
  - (* for *) intros i c parent prev ln tag a a' cs ps b fs c' D _ IH A Sd p Hp. dir D KFor. eapply g_then; [apply IH; reflexivity|].
    intros ns ps' fs' P N0 H S s. cbv beta in H; destruct H as [H HE]. again_solid A S Sd. eexists _, _, s. split; [reflexivity|]. split; [apply keeps_refl|]. cbn [piece_of].
    rewrite structure_eq, (structure_pieces _ _ _ P A'). cbn [S_Exec.obind]; rewrite (solid_some _ Sd'); cbn [option_map]. split; [reflexivity|]. split; [now apply rnamed_all|]. split; [|reflexivity]. split; [eapply tl_for; eassumption|uniq].
  - (* with *) intros i c parent prev ln tag a a' cs vars ps b fs c' D V _ IH A p Hp. dir D KWith. eapply g_then; [apply IH; reflexivity|].
    intros ns ps' fs' P N0 H S s. cbv beta in H; destruct H as [H HE]. again A S. unfold mk_with, bind, lift. rewrite V. cbn [rmap rbind fst snd ret]. eexists _, _, s. split; [reflexivity|]. split; [apply keeps_refl|]. cbn [piece_of].
    rewrite structure_eq, (structure_pieces _ _ _ P A'). split; [reflexivity|]. split; [now apply rnamed_all|]. split; [|reflexivity]. split; [eapply tl_with; eassumption|uniq].
  - (* switch *) intros i c parent prev ln tag a a' cs ps cases els fs c' D _ IH A p Hp. dir D KSwitch. eapply g_then; [apply IH; reflexivity|].
    intros ns ps' fs' P N0 H S s. cbv beta in H; destruct H as [H HE]. destruct (switch_shape _ _ _ (filter_shape _ _ (eq_sym S)) A) as [[cases' els'] A'].
    destruct (switch_keeps _ _ _ P A' N0) as (ns' & Es & P' & N'). unfold bind, lift. rewrite Es. cbn [rmap rbind fst snd].
    eexists _, _, s. split; [reflexivity|]. split; [apply keeps_refl|]. cbn [piece_of].
    rewrite pieces_eq, P'. cbn [S_Exec.obind]. rewrite (switch_says _ _ A'), A'. cbn [option_map fst snd]. split; [reflexivity|]. split; [now apply rnamed_all|]. split; [|reflexivity]. split; [eapply tl_switch; eassumption|uniq].
  - (* case *) intros i c parent prev ln tag a a' cs ps b fs c' D _ IH A Sd p Hp. dir D KCase. eapply g_then; [apply IH; reflexivity|].
    intros ns ps' fs' P N0 H S s. cbv beta in H; destruct H as [H HE]. again_solid A S Sd. eexists _, _, s. split; [reflexivity|]. split; [apply keeps_refl|]. cbn [piece_of].
    rewrite structure_eq, (structure_pieces _ _ _ P A'). cbn [S_Exec.obind]; rewrite (solid_some _ Sd'); cbn [option_map]. split; [reflexivity|]. split; [now apply rnamed_all|]. split; [|reflexivity]. split; [eapply tl_case; eassumption|uniq].
  - (* replace *) intros i c parent prev ln tag a a' cs D p Hp. dir D KReplace.
    apply (g_ret gen i c _ [RcStm (RExpr (get_attr (L "value") a') false)]); [reflexivity|repeat constructor|]. split; [now apply tl_replace|uniq].
  - (* nop *) intros i c parent prev ln tag a a' cs ps fs c' D _ IH p Hp. dir D KNop.
    eapply g_weaken; [apply IH; reflexivity|]. intros ps' fs' H; cbv beta in H; destruct H as [H HE]. split; [eapply tl_nop; eassumption|uniq].
  - (* def *) intros c parent prev ln tag a a' cs ps b fs c' D _ IH A Sd p Hp. dir D KDef.
    intros s Hi Hc. unfold def_nodes, bind, get_in_def, set_in_def. cbn [rbind fst snd]. rewrite Hi.
    destruct (IH ln (InElement tag a') eq_refl (Cst (c_funs s) (c_mod s) true (c_is_child s) (c_names s)) eq_refl Hc) as (na & s1 & pa & fa & E1 & Ra & Sa & Pa & Na & Ka & Ia & Ca); cbv beta in Ra; destruct Ra as [Ra HE].
    rewrite E1. cbn [rbind fst snd c_funs c_mod c_in_def c_is_child c_names]. again_pass A Sa Sd. unfold add_function, ret. cbn [rbind fst snd c_funs c_mod c_in_def c_is_child c_names].
    eexists _, _, [], _. split; [reflexivity|]. split; [split; [eapply tl_def; eassumption|uniq]|]. split; [reflexivity|]. split; [reflexivity|]. split; [constructor|].
    split; [|split; [reflexivity|exact Ca]]. pose proof (add_gives (get_attr (L "function") a') na b' fa s s1) as AG.
    destruct AG as (fl & F & X & Y); [|exact Na|exact (structure_pieces _ _ _ Pa A')|exact Sd'|exists fl; split; [exact F|split; [exact X|exact Y]]].
    destruct Ka as (fl & F & X & Y). exists fl. split; [exact F|]. split; [exact X|exact Y].
  - intros c parent prev ln tag a a' cs ps b fs c' D _ IH A Sd p Hp. dir D KDef.
    intros s Hi Hc. unfold def_nodes, bind, get_in_def, set_in_def. cbn [rbind fst snd]. rewrite Hi.
    destruct (IH ln (InElement tag a') eq_refl (Cst (c_funs s) (c_mod s) true (c_is_child s) (c_names s)) eq_refl Hc) as (na & s1 & pa & fa & E1 & Ra & Sa & Pa & Na & Ka & Ia & Ca); cbv beta in Ra; destruct Ra as [Ra HE].
    rewrite E1. cbn [rbind fst snd c_funs c_mod c_in_def c_is_child c_names]. again_pass A Sa Sd. unfold ret.
    eexists _, _, [RcStm (RDef (get_attr (L "function") a') (or_pass b'))], _. split; [reflexivity|]. split; [split; [eapply tl_inner; eassumption|uniq]|]. split; [reflexivity|].
    split; [cbn [pieces_of piece_of]; rewrite structure_eq, (structure_pieces _ _ _ Pa A'); cbn [S_Exec.obind]; rewrite (solid_some _ Sd'); reflexivity|]. split; [constructor; [now apply rnamed_all|constructor]|].
    split; [|split; [reflexivity|exact Ca]]. destruct Ka as (fl & F & X & Y). exists fl. split; [exact F|]. split; [exact X|exact Y].
  - (* call *) intros i c parent prev ln tag a a' cs args x ps b fs c' D Ca Gx _ IH A Sd p Hp. dir D KCall.
    eapply (g_lift gen _ _ (L "$caller(" ++ args ++ L ")")).
    + destruct Ca as [ln1 tag1 a1 cs1 l]. cbn [caller_decl]. destruct (has_attr (L "args") a1) eqn:Eh; [reflexivity|].
      rewrite get_attr_absent; [reflexivity|]. intros I1. apply has_attr_spec in I1. congruence.
    + eapply g_then; [apply IH; reflexivity|].
      intros ns ps' fs' P N0 H S s. cbv beta in H; destruct H as [H HE]. again_solid A S Sd. unfold bind, draw. cbn [rbind fst snd ret]. eexists _, _, _. split; [reflexivity|]. split; [repeat split|]. unfold mk_call. cbn [piece_of].
      rewrite structure_eq, (structure_pieces _ _ _ P A'). cbn [S_Exec.obind]; rewrite (solid_some _ Sd'); cbn [option_map]. split; [reflexivity|]. split; [now apply rnamed_all|]. split; [|reflexivity].
      split; [eapply tl_call; try eassumption|uniq]. apply helper_gen.
  - (* block *) intros i c parent prev ln tag a cs name ps b fs B _ IH A Sd p Hp.
    assert (X : forall a', G i c false (block_nodes ln name (kids false ln (InElement tag a') [] cs))
      (fun ps1 fs1 => Tells i c parent prev (DElem ln tag a cs) ps1 fs1 false /\ only [RcStm (RExpr (L "_kj_block_" ++ name ++ L "()") false)] (fs ++ [Function (L "_kj_block_" ++ name ++ L "()") (or_pass b)]) ps1 fs1) [shape (RcStm RPass)]).
    { intros a'. eapply block_gives; [apply (IH ln (InElement tag a') eq_refl)|exists ps, b; split; [reflexivity|split; [exact A|intros _; exact Sd]]| |discriminate].
      intros _. split; [reflexivity|]. intros ps' fs' b' H A' Sd'; cbv beta in H; destruct H as [H HE]. split; [eapply tl_block; eassumption|uniq]. }
    destruct B as [Au|a' D].
    + rewrite compile_elem. eapply g_lift; [now apply autoblock_true|]. cbv zeta. cbn [fst snd]. apply X.
    + dir D KBlock. apply X.
  - intros i c parent prev ln tag a cs name lines ps b fs B _ IH A Dd p Hp.
    assert (X : forall a', G i c true (block_nodes ln name (kids false ln (InElement tag a') [] cs))
      (fun ps1 fs1 => Tells i c parent prev (DElem ln tag a cs) ps1 fs1 true /\ only [] (fs ++ [Function (L "_kj_block_" ++ name ++ L "()") (RPython lines :: or_pass b)]) ps1 fs1) []).
    { intros a'. eapply block_gives; [apply (IH ln (InElement tag a') eq_refl)|exists ps, b; split; [reflexivity|split; [exact A|discriminate]]|discriminate|].
      intros _. split; [reflexivity|]. exists lines. split; [exact Dd|]. intros ps' fs' b' H A'; cbv beta in H; destruct H as [H HE]. split; [eapply tl_override; eassumption|uniq]. }
    destruct B as [Au|a' D].
    + rewrite compile_elem. eapply g_lift; [now apply autoblock_true|]. cbv zeta. cbn [fst snd]. apply X.
    + dir D KBlock. apply X.
  - (* extends *) intros i c parent prev ln tag a a' cs ps fs c' D _ IH p Hp. dir D KExtends.
    intros s Hi Hc. unfold bind, set_is_child. cbn [rbind fst snd].
    pose proof (IH ln (InElement tag a') eq_refl (Cst (c_funs s) (c_mod s) (c_in_def s) true (c_names s)) Hi eq_refl) as (na & s1 & pa & fa & E1 & Ra & Sa & Pa & Na & Ka & Ia & Ca); cbv beta in Ra; destruct Ra as [Ra HE].
    unfold cat, bind, ret. cbn [rbind fst snd]. rewrite E1. cbn [rbind fst snd].
    eexists _, _, (RcStm (RExtend (get_attr (L "href") a')) :: pa), fa. split; [reflexivity|]. split; [split; [now apply tl_extends|uniq]|]. split; [cbn [map]; now rewrite Sa|].
    split; [cbn [pieces_of piece_of app S_Exec.obind]; now rewrite Pa|]. split; [constructor; [exact Logic.I|exact Na]|].
    split; [|split; [exact Ia|exact Ca]]. destruct Ka as (fl & F & X & Y). exists fl. split; [exact F|]. split; [exact X|exact Y].
  - (* include *) intros i c parent prev ln tag a a' cs D p Hp. dir D KInclude.
    apply (g_ret gen i c _ [RcStm (RInclude (get_attr (L "href") a'))]); [reflexivity|repeat constructor|]. split; [now apply tl_include|uniq].
  - (* import *) intros i c parent prev ln tag a a' cs alias D Al p Hp. dir D KImport.
    assert (E : (if has_attr (L "alias") a' then Some (get_attr (L "alias") a') else None) = alias).
    { destruct Al as [[H ->]|[H ->]]; [now rewrite has_attr_absent|]. destruct (has_attr (L "alias") a') eqn:Eh; [reflexivity|].
      exfalso. apply H. intros I1. apply has_attr_spec in I1. congruence. }
    rewrite E. apply (g_ret gen i c _ [RcStm (RImport (get_attr (L "href") a') alias)]); [reflexivity|repeat constructor|]. split; [now apply tl_import|uniq].
  - (* element *) intros i c parent prev ln tag a0 a cs g sorted shown more rest fs c' Pt Ow ND TC P S As Ma _ IH p Hp.
    rewrite compile_elem. eapply g_lift; [apply own_not_auto; exact Ow|]. cbv zeta. cbn [fst snd]. rewrite (plain_method tag Pt). cbv iota. unfold xml_nodes. cbv zeta.
    pose proof (own_nodup _ _ _ Ow ND) as ND'. rewrite (guard_spec a g ND' TC).
    change (RcStm ?x :: ?y) with ([RcStm x] ++ y). rewrite !map_app.
    eapply g_pre; [apply just_text| |].
    + eapply (g_pre _ _ _ _ _ (simple shown) _ (fun ps1 fs1 => exists qs, ps1 = simple more ++ qs /\ RestTells i c ln tag a g cs qs fs1 c' /\ only rest fs qs fs1) (fun ps1 fs1 => exists qs, ps1 = simple shown ++ simple more ++ qs /\ RestTells i c ln tag a g cs qs fs1 c' /\ only rest fs qs fs1)); [apply just_simple| |].
      * unfold sorted_attrs.
        rewrite (sort_is (remove_attr (L "py:strip") a) (remove_attr (L "py:strip") sorted)).
        -- now apply attrs_give.
        -- now apply filter_nodup_keys.
        -- now apply filter_perm.
        -- now apply filter_sorted.
      * eapply g_pre; [apply just_simple|apply (IH ND' (InElement tag a) eq_refl)|].
        -- eapply more_give; [exact helper_gen|exact Ma|apply get_removed; discriminate|exact ND'].
        -- intros qs fs0 H. exists qs. split; [reflexivity|exact H].
      * intros qs fs0 (q & -> & H). exists q. split; [reflexivity|exact H].
    + intros qs fs0 (q & -> & H & HE). cbn [app]. split; [eapply tl_elem; eassumption|uniq].
  - (* py:content *) intros i c ln tag a g cs x H Ne ND self Hs. unfold rest_nodes. cbv zeta. rewrite get_removed by discriminate.
    rewrite (get_attr_value _ _ _ ND H). destruct x as [|c0 x]; [congruence|]. apply g_ret; [reflexivity|repeat constructor|]. split; [now apply rt_content|uniq].
  - (* empty *) intros i c ln tag a g t NC Cl ND self Hs. unfold rest_nodes. cbv zeta. rewrite get_removed by discriminate.
    rewrite (no_content a ND NC). cbv iota. pose proof Cl as Cl'. destruct Cl as [Hh V|Hh V| ->|Hh Ns].
    + assert (E : smem tag html_required_end_tags = false).
      { destruct (smem tag html_required_end_tags) eqn:E; [|reflexivity]. apply (script_spec compile mode) in E. exfalso. apply (script_not_void tag); [now left|exact V]. }
      rewrite E. unfold html. unfold is_html in Hh. rewrite Hh, (proj2 (void_spec tag) V). apply text_old. split; [now apply rt_empty|uniq].
    + unfold html. unfold is_html in Hh. rewrite Hh, (void_false tag V). destruct (smem tag html_required_end_tags); apply text_old; (split; [now apply rt_empty|uniq]).
    + change (smem (L "script") html_required_end_tags) with true. apply text_old; (split; [now apply rt_empty|uniq]).
    + assert (E : smem tag html_required_end_tags = false).
      { destruct (smem tag html_required_end_tags) eqn:E; [|reflexivity]. apply (script_spec compile mode) in E. contradiction. }
      rewrite E, html_false by assumption. apply text_old; (split; [now apply rt_empty|uniq]).
  - (* script *) intros i c ln tag a g cs ss NC Ne Cd SS H ND self Hs. unfold rest_nodes. cbv zeta. rewrite get_removed by discriminate.
    rewrite (no_content a ND NC). cbv iota. pose proof (rt_script compile autoblocks cdata_scripts mode gen i c ln tag a g cs ss NC Ne Cd SS H) as RT. destruct cs as [|n0 cs]; [congruence|].
    rewrite Cd, (proj2 (cdata_tag compile mode tag) SS). cbn [andb]. rewrite Cd in RT.
    change (RcStm ?x :: ?y) with ([RcStm x] ++ y). rewrite !map_app. eapply g_pre; [apply just_text| |].
    + eapply (g_post _ _ _ _ _ _ _ (just (simple (cdata_open mode ++ ss ++ cdata_close mode))) (just (simple (cdata_open mode ++ ss ++ cdata_close mode) ++ [RcStm (RText (L "</" ++ tag ++ L ">") g)]))).
      * apply just_simple. rewrite !map_app. apply gives_cat; [|apply gives_cat].
        -- unfold cdata_open. destruct (seqb mode (L "xml")); [apply gives_text|apply gives_nil].
        -- eapply script_give; eassumption.
        -- unfold cdata_close. destruct (seqb mode (L "xml")); [apply gives_text|apply gives_nil].
      * assert (E : smem tag html_optional_end_tags = false) by (apply void_false, script_not_void; exact SS).
        rewrite E, andb_false_r. apply just_text.
      * intros ps fs [-> ->]. split; reflexivity.
    + intros qs fs [-> ->]. split; [exact RT|uniq].
  - (* children *) intros i c ln tag a g cs ps fs c' NC Ne NS NV _ IH ND self Hs. unfold rest_nodes. cbv zeta. rewrite get_removed by discriminate.
    rewrite (no_content a ND NC). cbv iota. pose proof (fun ps fs => rt_children compile autoblocks cdata_scripts mode gen i c ln tag a g cs ps fs c' NC Ne NS NV) as RT. destruct cs as [|n0 cs]; [congruence|].
    assert (E : cdata_scripts && smem tag html_cdata_tags = false).
    { destruct cdata_scripts; [|reflexivity]. apply (cdata_tag_false compile mode). intros SS. now apply NS. }
    rewrite E. change (RcStm ?x :: ?y) with ([RcStm x] ++ y). rewrite !map_app. eapply g_pre; [apply just_text| |].
    + eapply (g_post _ _ _ _ _ _ _ _ (fun ps1 fs1 => exists qs, ps1 = qs ++ [RcStm (RText (L "</" ++ tag ++ L ">") g)] /\ AllTell i c true tag [] (n0 :: cs) qs fs1 c' /\ only ps fs qs fs1)); [now apply IH| |].
      * assert (E2 : html mode && smem tag html_optional_end_tags = false).
        { destruct (html mode) eqn:Eh; [|reflexivity]. apply void_false. intros V. apply NV. now split. }
        rewrite E2. apply just_text.
      * intros ps' fs' H; cbv beta in H; destruct H as [H HE]. exists ps'. split; [reflexivity|split; [exact H|exact HE]].
    + intros qs fs' (q & -> & H & HE). split; [now apply RT|uniq].
  - (* children of a void element *) intros i c ln tag a g cs ps fs c' NC Ne Hh V _ IH ND self Hs. unfold rest_nodes. cbv zeta. rewrite get_removed by discriminate.
    rewrite (no_content a ND NC). cbv iota. pose proof (fun ps fs => rt_void_children compile autoblocks cdata_scripts mode gen i c ln tag a g cs ps fs c' NC Ne Hh V) as RT. destruct cs as [|n0 cs]; [congruence|].
    assert (E : smem tag html_cdata_tags = false).
    { apply (cdata_tag_false compile mode). intros SS. now apply (script_not_void tag). }
    rewrite E, andb_false_r. change (RcStm ?x :: ?y) with ([RcStm x] ++ y). rewrite <- (app_nil_r ps) at 1. rewrite !map_app.
    eapply g_pre; [apply just_text| |].
    + eapply (g_post _ _ _ _ _ [] _ _ (fun ps1 fs1 => AllTell i c true tag [] (n0 :: cs) ps1 fs1 c' /\ only ps fs ps1 fs1)); [now apply IH| |].
      * unfold is_html in Hh. unfold html. rewrite Hh, (proj2 (void_spec tag) V). apply g_ret; [reflexivity|constructor|split; reflexivity].
      * intros ps' fs' H. cbv beta in *. rewrite app_nil_r. exact H.
    + intros qs fs' H. cbv beta in H. destruct H as [H HE]. split; [now apply RT|uniq].
  - intros i c marks parent prev ln p Hp. rewrite children_nil. apply (g_ret gen i c [] []); [reflexivity|constructor|split; [constructor|uniq]].
  - intros i c parent prev ln t l ps fs c' _ IH ln' p Hp. rewrite children_mark. change (RcStm ?x :: ?y) with ([RcStm x] ++ y). rewrite map_app.
    eapply g_pre; [apply just_text|now apply IH|]. intros qs fs' H. cbv beta in H. destruct H as [H HE]. split; [now apply at_mark|uniq].
  - intros i c marks parent prev n l ps qs fs fs' c1 c2 NM _ IH1 _ IH2 ln p Hp. rewrite children_node by assumption. rewrite map_app.
    eapply g_cat; [now apply IH1|now apply IH2|]. intros ps' qs' f1 f2 H1 H2; cbv beta in H1, H2. destruct H1 as [H1 HE1], H2 as [H2 HE2]. split; [eapply at_node; eassumption|uniq].
Qed.
End Compile.
