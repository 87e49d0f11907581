(** * Text templates: exactly what the parser accepts *)

From Coq Require Import Ascii String List Arith NArith ZArith Bool Lia.
From Verif Require Import PyStr PyStrLemmas Regex M_NameGen M_IR M_Text S_Text P_Text4 P_Text5 P_Text6 P_Text8 S_TextTree.
Import ListNotations.
Open Scope list_scope.

(** The four lists of stop tags. *)
Definition stops_ok (st : list str) : Prop :=
  st = [] \/ st = [L "end"] \/ st = [L "end"; L "else"] \/ st = [L "case"; L "else"; L "end"].
Lemma stops_opener : forall st o, stops_ok st -> In o openers \/ o = L "body" -> smem o st = false.
Proof.
  intros st o H I0. assert (F : Forall (fun o => smem o st = false) (L "body" :: openers)) by (destruct H as [->|[->|[->| ->]]]; repeat constructor).
  rewrite Forall_forall in F. apply F. destruct I0 as [I0| ->]; [now right|now left].
Qed.
Lemma smem_not : forall n st, ~ In n st -> smem n st = false.
Proof. intros n st H. destruct (smem n st) eqn:E; [|reflexivity]. apply smem_spec in E. contradiction. Qed.
Lemma end_ok : stops_ok [L "end"]. Proof. right. now left. Qed.
Lemma if_ok : stops_ok [L "end"; L "else"]. Proof. right. right. now left. Qed.
Lemma case_ok : stops_ok [L "case"; L "else"; L "end"]. Proof. right. right. now right. Qed.
#[local] Hint Resolve end_ok if_ok case_ok : core.

Section Parser.
Variable autoescape : bool.
Variable shlex_split : str -> result (list str).
Variable helper : nat -> str.
Notation pb := (pb autoescape shlex_split helper).
Notation step := (step autoescape shlex_split helper).
Notation Takes := (takes shlex_split).

(** Nodes, with [None] for what goes elsewhere. *)
Fixpoint onodes (ind ch : bool) (k : nat) (f : tree) : list (option node) :=
  match f with
  | G_nil => []
  | G_text ln t f => Some (NText ln t None) :: onodes ind ch k f
  | G_expr ln e f => Some (NExpr ln e (negb autoescape)) :: onodes ind ch k f
  | G_in c e b f => Some (construct_node c e (somes (onodes ind ch k b))) :: onodes ind (ch || tree_extends b) (k + tree_calls b) f
  | G_def d b f =>
      (if ind then Some (NDef 0 true d (somes (onodes true ch k b))) else None)
      :: onodes ind (ch || tree_extends b) (k + tree_calls b) f
  | G_call args call b f =>
      Some (mk_call 0 (helper (k + tree_calls b)) (L "$caller(" ++ args ++ L ")")
              (replace (L "%caller") (L "$caller") (strip call)) (somes (onodes ind ch k b)))
      :: onodes ind (ch || tree_extends b) (k + tree_calls b + 1) f
  | G_block name b f =>
      (if ch || tree_extends b then None else Some (NExpr 0 (L "_kj_block_" ++ name ++ L "()") false))
      :: onodes ind (ch || tree_extends b) (k + tree_calls b) f
  | G_py ls f => Some (NPython 0 ls false) :: onodes ind ch k f
  | G_module _ f | G_nothing f => None :: onodes ind ch k f
  | G_extends fn f => Some (NExtend 0 fn) :: onodes ind true k f
  | G_import fn alias f => Some (NImport 0 fn alias) :: onodes ind ch k f
  | G_include fn f => Some (NInclude 0 fn) :: onodes ind ch k f
  end.
Fixpoint odefined (ind ch : bool) (k : nat) (f : tree) : list (str * list (option node)) :=
  match f with
  | G_nil => []
  | G_text _ _ f | G_expr _ _ f | G_py _ f | G_module _ f | G_import _ _ f | G_include _ f | G_nothing f => odefined ind ch k f
  | G_extends _ f => odefined ind true k f
  | G_in _ _ b f => odefined ind ch k b ++ odefined ind (ch || tree_extends b) (k + tree_calls b) f
  | G_call _ _ b f => odefined ind ch k b ++ odefined ind (ch || tree_extends b) (k + tree_calls b + 1) f
  | G_def d b f =>
      odefined true ch k b ++ (if ind then [] else [(strip d, onodes true ch k b)])
      ++ odefined ind (ch || tree_extends b) (k + tree_calls b) f
  | G_block name b f =>
      odefined ind ch k b ++
      [(L "_kj_block_" ++ name ++ L "()",
        (if ch || tree_extends b then Some (NPython 0 [L "parent_block=parent._kj_block_" ++ name] false) :: onodes ind ch k b else onodes ind ch k b))]
      ++ odefined ind (ch || tree_extends b) (k + tree_calls b) f
  end.
Lemma onodes_somes : forall f ind ch k, somes (onodes ind ch k f) = tree_nodes autoescape helper ind ch k f.
Proof.
  induction f; intros ind ch k; cbn [onodes tree_nodes]; [reflexivity|..];
    repeat match goal with IH : forall ind ch k, somes _ = _ |- _ => rewrite <- ?IH; clear IH end;
    unfold somes; cbn [flat_map app]; try reflexivity;
    match goal with |- context [if ?x then _ else _] => destruct x end; reflexivity.
Qed.
Lemma odefined_somes : forall f ind ch k, some_funs (odefined ind ch k f) = tree_defined autoescape helper ind ch k f.
Proof.
  induction f; intros ind ch k; cbn [odefined tree_defined]; try reflexivity; rewrite ?some_funs_app;
    repeat match goal with IH : forall ind ch k, some_funs _ = _ |- _ => rewrite <- ?IH; clear IH end; try reflexivity.
  - destruct ind; cbn [some_funs map fst snd app]; now rewrite ?onodes_somes.
  - cbn [some_funs map fst snd app]. destruct (ch || tree_extends f1); unfold somes; cbn [flat_map app]; rewrite <- onodes_somes; reflexivity.
Qed.
Lemma texts_onodes : forall f ind ch k, texts_of (onodes ind ch k f) =
  match only_texts f with Some t => Ok t | None => Raise "AssertionError" end.
Proof.
  induction f; intros ind ch k; cbn [onodes texts_of only_texts]; try reflexivity.
  - rewrite IHf. destruct (only_texts f); reflexivity.
  - destruct c; reflexivity.
  - destruct ind; reflexivity.
  - destruct (ch || tree_extends f1); reflexivity.
Qed.

(** ** What is taken is a part of the tokens *)
Lemma takes_forall : forall (P : tok -> Prop) st ts f e r, Takes st ts f e r -> Forall P ts ->
  Forall P r /\ match e with Some t => P t | None => True end.
Proof.
  intros P st ts f e r H. induction H; rewrite ?Forall_cons_iff; intros HP; repeat match goal with H : _ /\ _ |- _ => destruct H end;
    repeat match goal with IH : Forall P ?l -> _, H : Forall P ?l |- _ => specialize (IH H) end; repeat match goal with H : _ /\ _ |- _ => destruct H end;
    try (now split); try tauto.
  - apply IHtakes2. now constructor.
  - apply IHtakes2. now constructor.
Qed.
Lemma takes_length : forall st ts f e r, Takes st ts f e r ->
  length r + match e with Some _ => 1 | None => 0 end <= length ts.
Proof. intros st ts f e r H. induction H; cbn [length] in *; repeat match goal with X : context [match ?e with Some _ => 1 | None => 0 end] |- _ => destruct e end; lia. Qed.
Lemma takes_stop : forall st ts f e r, Takes st ts f e r -> match e with Some t => exists l n x, t = TTag l n x /\ In n st | None => r = [] end.
Proof. intros st ts f e r H. induction H; try assumption; [reflexivity|]. eexists _, _, _. split; [reflexivity|assumption]. Qed.

(** ** The parser follows *)
Ltac into H := rewrite pb_step, H.
Ltac opens := first [assumption | apply stops_opener; [assumption|first [left; cbn [In openers]; tauto|right; reflexivity]]].
Ltac follow IH := rewrite IH by (assumption || apply end_ok || apply if_ok || apply case_ok); cbn [rbind p_toks p_funs p_mod p_in_def p_child p_calls].
Ltac states := rewrite ?assign_app, ?map_app, <- ?app_assoc, ?orb_assoc, ?Nat.add_assoc; cbn [map app]; reflexivity.

Lemma step_nothing : forall rec st l x ts funs mods ind ch k, smem (L "body") st = false ->
  step rec st (Pst (TTag l (L "body") x :: ts) funs mods ind ch k) = pre [None] (rec st (Pst ts funs mods ind ch k)).
Proof. intros rec st l x ts funs mods ind ch k H. unfold P_Text4.step. cbn [p_toks with_toks p_funs p_mod p_in_def p_child p_calls]. rewrite H. reflexivity. Qed.

Theorem takes_parsed : forall st ts f e r, Takes st ts f e r -> stops_ok st -> Forall block_on_a_line ts ->
  forall funs mods ind ch k, pb st (Pst ts funs mods ind ch k) =
    Ok (onodes ind ch k f, e, Pst r (assign (odefined ind ch k f) funs) (mods ++ map (pair 0) (tree_module f)) ind (ch || tree_extends f) (k + tree_calls f)).
Proof.
  intros st ts f e r H. induction H; intros Hs HL funs mods ind ch k; rewrite ?Forall_cons_iff in HL;
    try (destruct HL as [HL1 HL]);
    try match goal with HF : Forall _ ?l, HT : takes _ _ ?l _ _ _ |- _ => destruct (takes_forall _ _ _ _ _ _ HT HF) as [HL2 HL3] end;
    cbn [onodes odefined tree_module tree_extends tree_calls].
  - rewrite pb_step. cbn [map]. now rewrite app_nil_r, orb_false_r, Nat.add_0_r.
  - rewrite pb_end by (now apply smem_spec). cbn [map]. now rewrite app_nil_r, orb_false_r, Nat.add_0_r.
  - into (st_text autoescape shlex_split helper pb stops ln ts funs mods ind ch k raw t H). follow IHtakes. reflexivity.
  - rewrite pb_step, st_expr. follow IHtakes. reflexivity.
  - rewrite pb_step, st_for by opens. follow IHtakes1. follow IHtakes2. cbn [pre rmap rbind app construct_node]. states.
  - rewrite pb_step, st_switch by opens. follow IHtakes1. follow IHtakes2. cbn [pre rmap rbind app construct_node]. states.
  - rewrite pb_step, st_else by (now apply smem_not). follow IHtakes1. follow IHtakes2. cbn [pre rmap rbind app construct_node]. states.
  - rewrite pb_step, st_def by opens. follow IHtakes1. follow IHtakes2. cbn [pre rmap rbind app]. destruct ind; states.
  - rewrite pb_step, st_call by (assumption || opens). follow IHtakes1. replace (S (k + tree_calls b)) with (k + tree_calls b + 1) by lia.
    follow IHtakes2. cbn [pre rmap rbind app]. states.
  - rewrite pb_step, st_block by (first [now apply HL1|opens]). follow IHtakes1. follow IHtakes2. cbn [pre rmap rbind app]. states.
  - rewrite pb_step, st_if by opens. follow IHtakes1. change (seqb (L "end") (L "else")) with false. cbv iota. follow IHtakes2. cbn [pre rmap rbind app construct_node]. states.
  - rewrite pb_step, st_if by opens. follow IHtakes1. change (seqb (L "else") (L "else")) with true. cbv iota. unfold push, with_toks. cbn [p_toks p_funs p_mod p_in_def p_child p_calls].
    rewrite IHtakes2 by (assumption || (now constructor)). cbn [pre rmap rbind app construct_node]. states.
  - rewrite pb_step, st_case by (now apply smem_not). follow IHtakes1. unfold push, with_toks. cbn [p_toks p_funs p_mod p_in_def p_child p_calls].
    rewrite IHtakes2 by (assumption || (now constructor)). cbn [pre rmap rbind app construct_node]. states.
  - destruct H0 as [ls E|ls E]; rewrite pb_step, (st_py autoescape shlex_split helper pb stops l ts funs mods ind ch k x ls _ H E) by opens; cbv iota; follow IHtakes;
      cbn [pre rmap rbind app onodes odefined tree_module tree_extends tree_calls]; states.
  - rewrite pb_step, st_py_block by (assumption || opens). follow IHtakes1. unfold python_of. rewrite texts_onodes, H1. cbn [rbind].
    assert (Nb : odefined ind ch k b = [] /\ tree_module b = [] /\ tree_extends b = false /\ tree_calls b = 0).
    { clear -H1. revert texts H1. induction b; intros texts E; try discriminate E; [now repeat split|]. cbn [only_texts] in E.
      destruct (only_texts b) as [tx|]; [|discriminate]. exact (IHb tx eq_refl). }
    destruct Nb as (N1 & N2 & N3 & N4). rewrite N1, N2, N3, N4. cbn [map]. rewrite app_nil_r, orb_false_r, Nat.add_0_r.
    destruct H2 as [ls E|ls E]; rewrite E; cbn [rbind p_toks p_funs p_mod p_in_def p_child p_calls]; follow IHtakes2;
      cbn [pre rmap rbind app onodes odefined tree_module tree_extends tree_calls]; states.
  - rewrite pb_step, (st_extends autoescape shlex_split helper pb stops l ts funs mods ind ch k x fn H) by opens. follow IHtakes. cbn [pre rmap rbind app]. now rewrite orb_true_r.
  - rewrite pb_step, (st_import autoescape shlex_split helper pb stops l ts funs mods ind ch k x fn H) by opens. follow IHtakes. reflexivity.
  - rewrite pb_step, (st_import_as autoescape shlex_split helper pb stops l ts funs mods ind ch k x fn alias more H) by opens. follow IHtakes. reflexivity.
  - rewrite pb_step, (st_include autoescape shlex_split helper pb stops l ts funs mods ind ch k x fn H) by opens. follow IHtakes. reflexivity.
  - rewrite pb_step, step_nothing by opens. follow IHtakes. reflexivity.
Qed.

(** ** What the parser accepts can be taken *)
Lemma split_at_first : forall (c : char) s i, find [c] s = Some i -> exists a b, s = a ++ c :: b /\ ~ In c a /\ length a = i.
Proof.
  intros c. induction s as [|d s IH]; intros i H; [discriminate|]. cbn [find prefixb] in H.
  destruct (N.eqb_spec c d) as [->|Nd].
  - cbn [andb] in H. assert (i = 0) as -> by congruence. exists [], s. now repeat split.
  - cbn [andb] in H. destruct (find [c] s) as [j|] eqn:E; [|discriminate]. cbn [option_map] in H. assert (i = S j) as -> by congruence.
    destruct (IH j eq_refl) as (a & b & -> & Na & <-). exists (d :: a), b. split; [reflexivity|]. split; [|reflexivity]. intros [X|X]; [congruence|contradiction].
Qed.
Lemma call_parts : forall rec st l x ts funs mods ind ch k, smem (L "call") st = false ->
  (exists u args call, ~ In c_lpar u /\ ~ In c_rpar args /\ x = u ++ L "(" ++ args ++ L ")" ++ call) \/
  step rec st (Pst (TTag l (L "call") x :: ts) funs mods ind ch k) = Raise "AssertionError".
Proof.
  intros rec st l x ts funs mods ind ch k H. destruct (find [c_lpar] x) as [i|] eqn:E1.
  - destruct (split_at_first _ _ _ E1) as (u & v & -> & Nu & Ei). destruct (find [c_rpar] v) as [j|] eqn:E2.
    + destruct (split_at_first _ _ _ E2) as (args & call & -> & Na & Ej). left. exists u, args, call. repeat split; assumption.
    + right. unfold P_Text4.step. cbn [p_toks with_toks p_funs p_mod p_in_def p_child p_calls]. rewrite H. cbv iota.
      change (seqb (L "call") (L "def")) with false. change (seqb (L "call") (L "call")) with true. cbv iota. unfold find_from. cbn [skipn].
      change (L "(") with [c_lpar]. rewrite E1. cbn [option_map plus]. change (L ")") with [c_rpar].
      rewrite <- Ei. rewrite skipn_app, skipn_all, Nat.sub_diag. cbn [skipn app find prefixb]. change (N.eqb c_rpar c_lpar) with false. cbn [andb]. rewrite E2. reflexivity.
  - right. unfold P_Text4.step. cbn [p_toks with_toks p_funs p_mod p_in_def p_child p_calls]. rewrite H. cbv iota.
    change (seqb (L "call") (L "def")) with false. change (seqb (L "call") (L "call")) with true. cbv iota. unfold find_from. cbn [skipn].
    change (L "(") with [c_lpar]. rewrite E1. reflexivity.
Qed.
Lemma python_made : forall texts n, mk_python 0 texts = Ok n -> exists ls m, n = NPython 0 ls m.
Proof.
  intros texts n. unfold mk_python. destruct (concat texts) as [|c t]; [discriminate|]. destruct (N.eqb c c_pct); destruct (normalize _); cbn [rmap rbind]; intros E; try discriminate; injection E as <-; eexists _, _; reflexivity.
Qed.
Definition all_tags : list str := openers ++ [L "case"; L "else"; L "body"].
Lemma tag_unknown : forall rec st l n x ts funs mods ind ch k, smem n st = false -> smem n all_tags = false ->
  step rec st (Pst (TTag l n x :: ts) funs mods ind ch k) = Raise "AttributeError".
Proof.
  intros rec st l n x ts funs mods ind ch k H H'. unfold P_Text4.step. cbn [p_toks with_toks p_funs p_mod p_in_def p_child p_calls]. rewrite H.
  unfold smem, all_tags, openers in H'. cbn [app existsb] in H'. rewrite !orb_false_iff in H'. decompose [and] H'.
  repeat match goal with E : seqb n _ = false |- _ => rewrite E; clear E end. reflexivity.
Qed.

Lemma pre_ok : forall a r ns e s, pre a r = Ok (ns, e, s) -> exists ns', r = Ok (ns', e, s) /\ ns = a ++ ns'.
Proof. intros a [[[ns0 e0] s0]|x] ns e s E; [|discriminate]. cbn [pre rmap rbind] in E. exists ns0. split; congruence. Qed.
Lemma bind_ok : forall (r : presult) (k : _ -> presult) y, rbind r k = Ok y -> exists ns e s, r = Ok (ns, e, s) /\ k (ns, e, s) = Ok y.
Proof. intros [[[ns e] s]|x] k y E; [|discriminate]. now exists ns, e, s. Qed.

Ltac down H := apply bind_ok in H as (?ns & ?e & ?s & ?H1 & H).
Ltac up H := apply pre_ok in H as (?ns' & H & _).
(** What a body was taken from; what is left. *)
Ltac got IH H1 T := match type of H1 with pb ?st' (Pst ?ts ?funs ?mods ?ind ?ch ?k) = Ok (?ns, ?e, ?s) =>
  let b := fresh "b" in let HT := fresh "T" in
  destruct (IH ts ltac:(cbn [length] in *; lia) st' funs mods ind ch k ns e s ltac:(auto) ltac:(assumption) H1) as (b & HT);
  let A := fresh in let B := fresh in let C := fresh in let D := fresh in
  destruct (takes_forall block_on_a_line _ _ _ _ _ HT ltac:(assumption)) as [A B]; pose proof (takes_length _ _ _ _ _ HT) as C; pose proof (takes_stop _ _ _ _ _ HT) as D end.
Ltac finish IH H := match type of H with pb ?st' (Pst ?ts ?funs ?mods ?ind ?ch ?k) = Ok (?ns, ?e, ?s) =>
  let f := fresh "f" in let HT := fresh "T" in
  destruct (IH ts ltac:(cbn [length] in *; lia) st' funs mods ind ch k ns e s ltac:(auto) ltac:(assumption) H) as (f & HT) end.
Ltac eta s := destruct s as [?tk ?fn ?md ?di ?cd ?ca]; cbn [p_toks] in *.

Theorem parsed_takes : forall n ts, length ts < n -> forall st funs mods ind ch k ns e s, stops_ok st -> Forall block_on_a_line ts ->
  pb st (Pst ts funs mods ind ch k) = Ok (ns, e, s) -> exists f, Takes st ts f e (p_toks s).
Proof.
  induction n as [|n IHn]; [lia|]. intros ts Hn st funs mods ind ch k ns e s Hs HL H.
  assert (IH : forall ts', length ts' < length ts -> forall st funs mods ind ch k ns e s, stops_ok st -> Forall block_on_a_line ts' ->
    pb st (Pst ts' funs mods ind ch k) = Ok (ns, e, s) -> exists f, Takes st ts' f e (p_toks s)) by (intros; eapply IHn; eauto; lia).
  clear IHn Hn n. rewrite pb_step in H. destruct ts as [|[ln raw|ln x|l n x| |err] ts].
  - cbn in H. assert (e = None) as -> by congruence. assert (s = Pst [] funs mods ind ch k) as -> by congruence. exists G_nil. constructor.
  - apply Forall_cons_iff in HL as [_ HL]. unfold P_Text4.step in H. cbn [p_toks] in H. destruct (unescape_newlines raw) as [t|] eqn:E; [|discriminate].
    cbn [rbind] in H. apply (pre_ok [Some (NText ln t None)]) in H as (ns' & H & _). unfold with_toks in H. cbn [p_toks p_funs p_mod p_in_def p_child p_calls] in H.
    finish IH H. exists (G_text ln t f). constructor; [now apply unescape_spec|assumption].
  - apply Forall_cons_iff in HL as [_ HL]. rewrite st_expr in H. up H. finish IH H. exists (G_expr ln x f). now constructor.
  - apply Forall_cons_iff in HL as [HB HL]. destruct (smem n st) eqn:Est.
    { rewrite step_end in H by exact Est. assert (e = Some (TTag l n x)) as -> by congruence. assert (s = Pst ts funs mods ind ch k) as -> by congruence.
      exists G_nil. constructor. now apply smem_spec. }
    destruct (smem n all_tags) eqn:Ea; [|now rewrite tag_unknown in H].
    apply smem_spec in Ea. cbn [all_tags openers app In] in Ea. repeat destruct Ea as [Ea|Ea]; [subst n..|contradiction].
    + rewrite st_for in H by exact Est. down H. got IH H1 T. up H. eta s0. finish IH H. eexists. eapply g_for; eassumption.
    + rewrite st_if in H by exact Est. down H. got IH H1 T. destruct e0 as [t|]; [|discriminate]. match goal with X : exists _ _ _, t = _ /\ _ |- _ => destruct X as (l' & m & y & -> & I0) end.
      up H. destruct I0 as [<-|[<-|[]]].
      * change (seqb (L "end") (L "else")) with false in H. cbv iota in H. eta s0. finish IH H. eexists. eapply g_if; eassumption.
      * change (seqb (L "else") (L "else")) with true in H. cbv iota in H. unfold push, with_toks in H.
        assert (HL' : Forall block_on_a_line (TTag l' (L "else") y :: p_toks s0)) by (now constructor).
        finish IH H. eexists. eapply g_if_else; eassumption.
    + rewrite st_switch in H by exact Est. down H. got IH H1 T. up H. eta s0. finish IH H. eexists. eapply g_switch; eassumption.
    + rewrite st_def in H by exact Est. down H. got IH H1 T. up H. finish IH H. eexists. eapply g_def; eassumption.
    + destruct (call_parts pb st l x ts funs mods ind ch k Est) as [(u & args & call & Nu & Na & ->)|R]; [|rewrite R in H; discriminate].
      rewrite st_call in H by assumption. down H. got IH H1 T. up H. finish IH H. eexists. eapply g_call; eassumption.
    + rewrite st_block in H by (first [now apply HB|exact Est]). down H. got IH H1 T. up H. finish IH H. eexists. eapply g_block; eassumption.
    + destruct (strip x) as [|c0 cs] eqn:Ex.
      * rewrite st_py_block in H by assumption. down H. got IH H1 T.
        pose proof (takes_parsed _ _ _ _ _ T0 end_ok HL funs mods ind ch k) as E2. rewrite H1 in E2.
        assert (ns0 = onodes ind ch k b) as -> by congruence.
        unfold python_of in H. rewrite texts_onodes in H. destruct (only_texts b) as [texts|] eqn:Et; [|discriminate]. cbn [rbind] in H.
        destruct (mk_python 0 texts) as [nd|] eqn:Em; [|discriminate]. cbn [rbind] in H. destruct (python_made _ _ Em) as (ls & m & ->). destruct m.
        -- up H. finish IH H. exists (G_module ls f). eapply (g_py_block _ _ _ _ _ _ _ _ _ (G_module ls)); try eassumption. now constructor.
        -- up H. eta s0. finish IH H. exists (G_py ls f). eapply (g_py_block _ _ _ _ _ _ _ _ _ (G_py ls)); try eassumption. now constructor.
      * assert (Ne : strip x <> []) by congruence.
        destruct (mk_python 0 [strip x]) as [nd|] eqn:Em.
        -- destruct (python_made _ _ Em) as (ls & m & ->). rewrite (st_py _ _ _ _ _ _ _ _ _ _ _ _ x ls m Ne Em) in H by exact Est. up H. destruct m.
           ++ finish IH H. exists (G_module ls f). apply (g_py _ _ _ _ _ (G_module ls)); [assumption|now constructor|assumption].
           ++ finish IH H. exists (G_py ls f). apply (g_py _ _ _ _ _ (G_py ls)); [assumption|now constructor|assumption].
        -- exfalso. unfold P_Text4.step in H. cbn [p_toks with_toks p_funs p_mod p_in_def p_child p_calls] in H. rewrite Est in H.
           repeat match type of H with context [seqb (L ?a) (L ?b)] => let v := eval vm_compute in (seqb (L a) (L b)) in change (seqb (L a) (L b)) with v in H end. cbv iota in H.
           rewrite Ex in H, Em. unfold python_of in H. cbn [texts_of rmap rbind] in H. rewrite Em in H. discriminate.
    + unfold P_Text4.step in H. cbn [p_toks with_toks p_funs p_mod p_in_def p_child p_calls] in H. rewrite Est in H.
      repeat match type of H with context [seqb (L ?a) (L ?b)] => let v := eval vm_compute in (seqb (L a) (L b)) in change (seqb (L a) (L b)) with v in H end. cbv iota in H.
      destruct (shlex_split x) as [[|fn [|]]|] eqn:Ex; try discriminate. cbn [rbind fst snd] in H. apply (pre_ok [Some (NExtend 0 fn)]) in H as (ns' & H & _).
      finish IH H. exists (G_extends fn f). now apply g_extends.
    + unfold P_Text4.step in H. cbn [p_toks with_toks p_funs p_mod p_in_def p_child p_calls] in H. rewrite Est in H.
      repeat match type of H with context [seqb (L ?a) (L ?b)] => let v := eval vm_compute in (seqb (L a) (L b)) in change (seqb (L a) (L b)) with v in H end. cbv iota in H.
      destruct (shlex_split x) as [[|fn [|as_ more]]|] eqn:Ex; try discriminate; cbn [rbind fst snd] in H.
      * apply (pre_ok [Some (NImport 0 fn None)]) in H as (ns' & H & _). unfold with_toks in H. cbn [p_toks p_funs p_mod p_in_def p_child p_calls] in H. finish IH H. exists (G_import fn None f). now apply g_import.
      * destruct (seqb as_ (L "as")) eqn:Eas; [|discriminate]. apply seqb_eq in Eas. subst as_. destruct more as [|alias more]; [discriminate|]. cbn [rbind fst snd] in H.
        apply (pre_ok [Some (NImport 0 fn (Some alias))]) in H as (ns' & H & _). unfold with_toks in H. cbn [p_toks p_funs p_mod p_in_def p_child p_calls] in H. finish IH H. exists (G_import fn (Some alias) f). now apply (g_import_as _ _ _ _ _ _ more).
    + unfold P_Text4.step in H. cbn [p_toks with_toks p_funs p_mod p_in_def p_child p_calls] in H. rewrite Est in H.
      repeat match type of H with context [seqb (L ?a) (L ?b)] => let v := eval vm_compute in (seqb (L a) (L b)) in change (seqb (L a) (L b)) with v in H end. cbv iota in H.
      destruct (shlex_split x) as [[|fn [|]]|] eqn:Ex; try discriminate. cbn [rbind fst snd] in H. apply (pre_ok [Some (NInclude 0 fn)]) in H as (ns' & H & _). unfold with_toks in H. cbn [p_toks p_funs p_mod p_in_def p_child p_calls] in H.
      finish IH H. exists (G_include fn f). now apply g_include.
    + rewrite st_case in H by exact Est. down H. got IH H1 T. up H. unfold push, with_toks in H. destruct e0 as [t|].
      * assert (HL' : Forall block_on_a_line (t :: p_toks s0)) by (now constructor). finish IH H. eexists. eapply g_case; try eassumption.
        intros I0. apply smem_spec in I0. congruence.
      * exfalso. rewrite pb_step in H. discriminate.
    + rewrite st_else in H by exact Est. down H. got IH H1 T. up H. eta s0. finish IH H. eexists. eapply g_else; try eassumption.
      intros I0. apply smem_spec in I0. congruence.
    + rewrite step_nothing in H by exact Est. up H. finish IH H. eexists. apply g_nothing. eassumption.
  - cbn in H. discriminate.
  - cbn in H. discriminate.
Qed.

Lemma tree_made : forall f (M : list (nat * list str)),
  map (fun kv => NDef 0 false (fst kv) (somes (snd kv)))
    (set_fun (L "__main__()") (onodes false false 0 f) (assign (odefined false false 0 f) [(L "__main__()", [])])) =
  defs (tree_template autoescape helper f).
Proof.
  intros f M. unfold tree_template. cbn [defs].
  set (ds := (L "__main__()", []) :: odefined false false 0 f ++ [(L "__main__()", onodes false false 0 f)]).
  assert (E : set_fun (L "__main__()") (onodes false false 0 f) (assign (odefined false false 0 f) [(L "__main__()", [])]) = assign ds []).
  { unfold ds, assign. cbn [fold_left fst snd set_fun]. rewrite fold_left_app. reflexivity. }
  rewrite E, assign_table, map_map.
  assert (S : some_funs ds = (L "__main__()", []) :: tree_defined autoescape helper false false 0 f
                ++ [(L "__main__()", tree_nodes autoescape helper false false 0 f)]).
  { unfold ds. cbn [some_funs map fst snd somes flat_map]. fold (some_funs (odefined false false 0 f ++ [(L "__main__()", onodes false false 0 f)])).
    rewrite some_funs_app, odefined_somes. cbn [some_funs map fst snd]. now rewrite onodes_somes. }
  rewrite <- S. apply map_ext. intros n. cbn [fst snd]. now rewrite opt_last_somes.
Qed.
Theorem parse_exact : forall ts t, Forall block_on_a_line ts ->
  parse autoescape shlex_split helper ts = Ok t <-> exists f, taken shlex_split f ts /\ t = tree_template autoescape helper f.
Proof.
  intros ts t HL.
  assert (G : forall f, taken shlex_split f ts -> parse autoescape shlex_split helper ts = Ok (tree_template autoescape helper f)).
  { intros f T. rewrite parse_is. rewrite (takes_parsed _ _ _ _ _ T (or_introl eq_refl) HL). cbn [rmap rbind p_mod p_funs app]. rewrite (tree_made f []). reflexivity. }
  split; [|intros (f & T & ->); now apply G].
  intros E. assert (E' := E). rewrite parse_is in E'. destruct (pb [] _) as [[[ns e] s]|] eqn:Ep; [|discriminate].
  destruct (parsed_takes _ ts (Nat.lt_succ_diag_r _) [] _ _ _ _ _ _ _ _ (or_introl eq_refl) HL Ep) as (f & T).
  pose proof (takes_stop _ _ _ _ _ T) as St. destruct e as [tk|]; [destruct St as (? & ? & ? & ? & [])|]. rewrite St in T.
  exists f. split; [exact T|]. rewrite (G f T) in E. congruence.
Qed.

(** ** In one way only *)
Lemma code_unique : forall texts item item', item_of_code texts item -> item_of_code texts item' -> item = item'.
Proof. intros texts item item' [ls E|ls E] [ls' E'|ls' E']; rewrite E in E'; try discriminate; now injection E' as ->. Qed.
Lemma item_inj : forall texts item f f', item_of_code texts item -> item f = item f' -> f = f'.
Proof. intros texts item f f' [ls _|ls _] E; congruence. Qed.

Lemma stops_in : forall st o, stops_ok st -> In o st -> o = L "end" \/ o = L "else" \/ o = L "case".
Proof. intros st o [->|[->|[->| ->]]]; cbn [In]; intuition. Qed.
Theorem takes_unique : forall st ts f e r, Takes st ts f e r -> stops_ok st -> forall f' e' r', Takes st ts f' e' r' -> f = f' /\ e = e' /\ r = r'.
Proof.
  intros st ts f e r H. induction H; intros Hs f' e' r' H';
    repeat match goal with T : takes _ _ _ _ _ _, IH : stops_ok _ -> _ |- _ => match T with H' => fail 1 | _ => clear T end end;
    inversion H'; subst;
    try (exfalso; match goal with I0 : In _ ?s0, Hs0 : stops_ok ?s0 |- _ => destruct (stops_in s0 _ Hs0 I0) as [X|[X|X]]; discriminate X end);
    try contradiction; clear H';
    repeat match goal with
    | IH : stops_ok ?st -> forall f' e' r', Takes ?st ?ts f' e' r' -> _, T : takes _ ?st ?ts _ _ _ |- _ =>
        destruct (IH ltac:(auto) _ _ _ T) as (? & ? & ?); clear IH T; subst
    | E : Some _ = Some _ |- _ => injection E; clear E; intros; subst
    | E : Some (TTag _ (L ?a) _) = Some (TTag _ (L ?b) _) |- _ => discriminate E
    | A : only_texts ?b = Some _, B : only_texts ?b = Some _ |- _ => rewrite A in B
    | A : item_of_code ?t ?i, B : item_of_code ?t ?j |- _ => rewrite (code_unique _ _ _ A B) in *; clear A
    | A : unescaped ?s _, B : unescaped ?s _ |- _ => rewrite (unescaped_unique _ _ _ A B); clear A
    end; try congruence; try (now repeat split); try (repeat split; congruence).
  match goal with X : _ ++ _ = _ ++ _ |- _ => rename X into Eb end.
  destruct (before_unique c_lpar u0 u _ _ ltac:(assumption) ltac:(assumption) Eb) as [-> Eb2].
  destruct (before_unique c_rpar args0 args _ _ ltac:(assumption) ltac:(assumption) Eb2) as [-> ->]. now repeat split.
Qed.
Theorem taken_unique : forall f f' ts, taken shlex_split f ts -> taken shlex_split f' ts -> f = f'.
Proof. intros f f' ts H H'. now destruct (takes_unique _ _ _ _ _ H (or_introl eq_refl) _ _ _ H'). Qed.
End Parser.
