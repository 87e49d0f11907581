(** * Whole documents *)

From Coq Require Import Ascii String List Arith NArith ZArith Bool Lia Permutation Sorted.
From Verif Require Import PyStr PyStrLemmas M_Values S_Values P_Values M_IR S_IR P_IR M_Exec S_Exec P_Exec P_Exec2 P_Exec3 P_Exec4 P_Exec5
  M_Text M_XText S_XText P_XText P_XText2 M_Entities S_Entities M_Dom M_XCompile S_XDoc P_XDoc.
Import ListNotations.
Open Scope list_scope.

(** ** Names in the generated nodes *)
Section Names.
Variables gen user : str -> Prop.
Notation ustm := (user_stm gen user).

Lemma user_all : forall l, (fix go (l : list stm) : Prop := match l with [] => True | m :: l' => ustm m /\ go l' end) l <-> Forall ustm l.
Proof.
  induction l as [|n l IH]; [split; constructor|]. split.
  - intros [H1 H2]. constructor; [exact H1|now apply IH].
  - intros H. inversion H; subst. split; [assumption|now apply IH].
Qed.
Lemma well_all : forall l, (fix go (l : list node) : Prop := match l with [] => True | m :: l' => well_named gen user m /\ go l' end) l <-> Forall (well_named gen user) l.
Proof.
  induction l as [|n l IH]; [split; constructor|]. split.
  - intros [H1 H2]. constructor; [exact H1|now apply IH].
  - intros H. inversion H; subst. split; [assumption|now apply IH].
Qed.
Definition user_piece (p : S_Exec.piece) : Prop :=
  match p with
  | PcStm s => ustm s
  | PcElse b => Forall ustm b
  | PcCase c b => user c /\ Forall ustm b
  end.
Lemma user_assemble : forall n ps ss, length ps <= n -> Forall fresh ps -> assemble ps = Some ss -> Forall ustm ss -> Forall user_piece ps.
Proof.
  induction n as [|n IH]; intros ps ss Hn F A U.
  { destruct ps; [constructor|cbn in Hn; lia]. }
  destruct ps as [|p ps]; [constructor|]. cbn [length] in Hn. inversion F as [|? ? F1 F2]; subst.
  assert (G : forall s, p = PcStm s -> option_map (cons s) (assemble ps) = Some ss -> Forall user_piece (p :: ps)).
  { intros s -> A1. destruct (assemble ps) as [ss'|] eqn:E; [|discriminate]. cbn [option_map] in A1. assert (ss = s :: ss') by congruence. subst ss.
    inversion U; subst. constructor; [assumption|]. apply (IH ps ss'); auto; lia. }
  destruct p as [s|b|c b]; [|discriminate|discriminate].
  destruct s; try (apply (G _ eq_refl); exact A);
    (destruct ps as [|[s'|b'|c' b'] ps']; [apply (G _ eq_refl); exact A|apply (G _ eq_refl); exact A| |apply (G _ eq_refl); exact A]);
    cbn [assemble] in A; destruct (assemble ps') as [ss'|] eqn:E; try discriminate; cbn [option_map] in A;
    injection A as <-; inversion U as [|? ? U1 U2]; subst; cbn [user_stm] in U1; destruct U1 as (U1 & Ub & Ue);
    inversion F2; subst; cbn [fresh] in F1; subst;
    (constructor; [cbn [user_piece user_stm]; split; [exact U1|split; [exact Ub|exact Logic.I]]|]);
    (constructor; [cbn [user_piece]; now apply user_all|]); apply (IH ps' ss'); auto; cbn [length] in Hn; lia.
Qed.
Lemma user_switch : forall ps cases els, assemble_switch ps = Some (cases, els) ->
  (fix go (l : list (str * list stm)) : Prop :=
     match l with [] => True
     | (c, b) :: l' => (user c /\ (fix go (l : list stm) : Prop := match l with [] => True | m :: l' => ustm m /\ go l' end) b) /\ go l' end) cases ->
  Forall ustm els -> Forall user_piece ps.
Proof.
  induction ps as [|p ps IH]; intros cases els A U Ue; [constructor|].
  destruct p as [s|b|c b]; [discriminate| |].
  - cbn in A. destruct ps; [|discriminate]. injection A as <- <-. constructor; [exact Ue|constructor].
  - cbn [assemble_switch] in A. destruct (assemble_switch ps) as [[cs' els']|] eqn:E; [|discriminate]. cbn [option_map fst snd] in A. injection A as <- <-.
    destruct U as [[Uc Ub] U]. constructor; [split; [exact Uc|now apply user_all]|]. eapply IH; [reflexivity|exact U|exact Ue].
Qed.
Ltac om H := match type of H with option_map _ ?o = _ => let E := fresh "E" in destruct o eqn:E; [|discriminate H]; cbn [option_map] in H; injection H as <-;
  try (apply (filled_some) in E as [E _]; unfold structure in E) end.
Lemma user_well_named : forall n p, piece_of n = Some p -> user_piece p -> named gen n -> well_named gen user n.
Proof.
  assert (ALL : forall b, Forall (fun n => forall p, piece_of n = Some p -> user_piece p -> named gen n -> well_named gen user n) b ->
    forall ps, pieces_of b = Some ps -> Forall user_piece ps -> nameds gen b -> Forall (well_named gen user) b).
  { intros b F. induction F as [|n b H F IH]; intros ps P U N0; [constructor|].
    cbn [pieces_of] in P. destruct (piece_of n) as [p|]; [|discriminate]. cbn [obind] in P. destruct (pieces_of b) as [ps'|]; [|discriminate].
    cbn [option_map] in P. assert (ps = p :: ps') by congruence. subst. inversion U; subst. inversion N0; subst. constructor; [now apply (H p)|]. now apply (IH ps'). }
  assert (BODY : forall b, Forall (fun n => forall p, piece_of n = Some p -> user_piece p -> named gen n -> well_named gen user n) b ->
    forall ss, obind (pieces_of b) assemble = Some ss -> Forall ustm ss -> nameds gen b -> Forall (well_named gen user) b).
  { intros b F ss A U N0. destruct (pieces_of b) as [ps|] eqn:P; [|discriminate]. cbn [obind] in A. apply (ALL b F ps P); [|exact N0].
    apply (user_assemble (length ps) ps ss); auto. now apply (pieces_fresh b). }
  induction n using node_ind'; intros p P U N0; cbn [piece_of] in P; try discriminate P; rewrite ?piece_of_pieces in P; cbn [named well_named] in *;
    try exact Logic.I; try (injection P as <-; exact U).
  all: try (om P; cbn [user_piece user_stm] in U; rewrite ?well_all, ?named_all in *;
    try (destruct U as [U1 [U2 _]]; split; [exact U1|]; rewrite user_all in U2; eapply BODY; [eassumption|eassumption|exact U2|exact N0]);
    try (destruct U as [U1 U2]; split; [exact U1|]; rewrite ?user_all in U2; eapply BODY; [eassumption|eassumption|exact U2|exact N0]);
    try (eapply BODY; [eassumption|eassumption|exact U|exact N0]); fail).
  - (* switch *) om P. cbn [user_piece user_stm] in U. rewrite well_all, named_all in *. destruct U as (U1 & U2 & U3). split; [exact U1|].
    match goal with |- Forall _ ?b => set (body := b) in * end. destruct (pieces_of body) as [ps|] eqn:Pb; [|discriminate]. cbn [obind] in E. destruct p0 as [cases els]. cbn [fst snd] in *.
    apply (ALL body H ps Pb); [|exact N0]. eapply user_switch; [exact E|exact U2|now apply user_all].
  - (* attr *) om P. cbn [user_piece user_stm] in U. rewrite ?well_all, ?named_all in *. destruct U as [U1 U2]. destruct N0 as (N1 & N2 & N3 & N4).
    rewrite user_all in U2. split; [exact U1|]. split; [exact N1|]. split; [exact N2|]. split; [exact N3|]. eapply BODY; eassumption.
  - injection P as <-. cbn [user_piece user_stm] in U. destruct U. auto.
Qed.
Lemma users_well_named : forall ns ss, structure ns = Some ss -> Forall ustm ss -> nameds gen ns -> Forall (well_named gen user) ns.
Proof.
  intros ns ss A U N0. unfold structure in A. destruct (pieces_of ns) as [ps|] eqn:P; [|discriminate]. cbn [obind] in A.
  assert (UP : Forall user_piece ps) by (apply (user_assemble (length ps) ps ss); auto; now apply (pieces_fresh ns)).
  clear A. revert ps P UP. induction N0 as [|n ns Nn N0 IH]; intros ps P UP; [constructor|].
  cbn [pieces_of] in P. destruct (piece_of n) as [p|] eqn:E; [|discriminate]. cbn [obind] in P. destruct (pieces_of ns) as [ps'|]; [|discriminate].
  cbn [option_map] in P. assert (ps = p :: ps') by congruence. subst. inversion UP; subst. constructor; [now apply (user_well_named n p)|]. now apply (IH ps').
Qed.
End Names.

(** ** The compiler on any element *)
Section Element.
Variable compile : str -> compiled.
Variable helper : nat -> str.
Variable autoblocks : list str.
Variable cdata_scripts : bool.
Variable mode : str.
Notation cnode := (compile_node compile helper autoblocks cdata_scripts mode).
Notation kids := (children compile helper autoblocks cdata_scripts mode).

Definition block_nodes (ln : nat) (name : str) (nop : M (list node)) : M (list node) :=
  let fname := L "_kj_block_" ++ name in
  bind nop (fun body =>
  let body := match body with [] => [NPass 0] | _ => body end in
  bind get_is_child (fun child : bool =>
  if child then
    bind (lift (mk_python 0 [L "parent_block=parent." ++ fname])) (fun h =>
    bind (add_function (fname ++ L "()") (h :: body)) (fun _ => ret []))
  else bind (add_function (fname ++ L "()") body) (fun _ => ret [NExpr ln (fname ++ L "()") false]))).
Definition def_nodes (ln : nat) (f : str) (nop : M (list node)) : M (list node) :=
  bind get_in_def (fun old =>
  bind (set_in_def true) (fun _ =>
  bind nop (fun body =>
  bind (set_in_def old) (fun _ =>
  if old then ret [NDef ln true f body]
  else bind (add_function f body) (fun _ => ret []))))).
Definition xml_nodes (ln : nat) (tag : str) (a : list (str * str)) (cs : list dnode) : M (list node) :=
  let guard := strip_guard a in
  let attrs := remove_attr (L "py:strip") a in
  cat (ret [NText ln (L "<" ++ tag) guard])
 (cat (compile_attrs compile helper mode ln guard (sorted_attrs attrs))
 (cat (more_nodes helper mode ln attrs guard)
      (rest_nodes compile helper autoblocks cdata_scripts mode (InElement tag a) ln tag attrs guard cs))).

Lemma compile_elem : forall p prev ln tag a0 cs,
  cnode p prev (DElem ln tag a0 cs) =
  bind (lift (is_autoblock autoblocks tag a0)) (fun ba =>
  let a := snd ba in
  let nop := kids false ln (InElement tag a) [] cs in
  if fst ba then block_nodes ln tag nop
  else match method_of tag with
  | KXml => xml_nodes ln tag a cs
  | KReplace => ret [NExpr ln (get_attr (L "value") a) false]
  | KImport =>
      ret [NImport ln (get_attr (L "href") a)
             (if has_attr (L "alias") a then Some (get_attr (L "alias") a) else None)]
  | KExtends => bind set_is_child (fun _ => cat (ret [NExtend ln (get_attr (L "href") a)]) nop)
  | KInclude => ret [NInclude ln (get_attr (L "href") a)]
  | KBlock => block_nodes ln (get_attr (L "name") a) nop
  | KDef => def_nodes ln (get_attr (L "function") a) nop
  | KCall =>
      bind (lift (caller_decl cs)) (fun caller =>
      bind nop (fun body =>
      bind (draw 1) (fun i =>
      ret [mk_call ln (helper i) caller
             (replace (L "%caller") (L "$caller") (get_attr (L "function") a)) body])))
  | KFor => bind nop (fun body => ret [NFor ln (get_attr (L "each") a) body])
  | KWith => bind nop (fun body => bind (lift (mk_with ln (get_attr (L "vars") a) body)) (fun n => ret [n]))
  | KSwitch =>
      bind nop (fun body => bind (lift (switch_body body)) (fun body =>
      ret [NSwitch ln (get_attr (L "test") a) body]))
  | KCase => bind nop (fun body => ret [NCase ln (get_attr (L "value") a) body])
  | KIf => bind nop (fun body => ret [NIf ln (get_attr (L "test") a) body])
  | KElse =>
      bind (lift (else_allowed p prev)) (fun ok : bool =>
      if ok then bind nop (fun body => ret [NElse ln body]) else fail "XMLTemplateCompileError")
  | KNop => nop
  | KData => fail "AttributeError"
  | KNode => fail "RecursionError"
  end).
Proof. reflexivity. Qed.
End Element.

(** ** The whole document *)
Section Document.
Variable compile : str -> compiled.
Variable helper : nat -> str.
Variable autoblocks : list str.
Variable cdata_scripts : bool.
Variable mode : str.

Lemma doctype_is : forall dtd line, doctype_line mode dtd line ->
  doctype_text mode false false dtd = match line with [] => [] | _ => [NText 1 line None] end.
Proof.
  intros dtd line [Ne| -> ->| -> Ne]; unfold doctype_text; cbn [orb].
  - destruct dtd; [congruence|]. now destruct (strip (n :: dtd)).
  - reflexivity.
  - now rewrite (P_Dom2.seqb_neq _ _ Ne).
Qed.
Lemma doctype_exists : forall dtd, exists line, doctype_line mode dtd line.
Proof.
  intros [|c dtd].
  - destruct (seqb_spec mode (L "html5")) as [E|E]; [eexists; now apply dl_html5|eexists; now apply dl_none].
  - eexists. apply dl_own. discriminate.
Qed.

Lemma document_compiles : forall (gen : str -> Prop) frag d root ps,
  (forall i, gen (helper i)) -> filter no_comment (d_children d) = [root] ->
  says compile autoblocks cdata_scripts mode [] [] root ps ->
  exists ns, compile_document compile helper autoblocks cdata_scripts mode frag d =
      Ok (TemplateNode 0 [] [NDef 0 false (L "__main__()") (doctype_text mode frag false (d_dtd d) ++ ns)]) /\
    pieces_of ns = Some ps /\ nameds gen ns.
Proof.
  intros gen frag d root ps Hg R S.
  destruct (proj1 (compiles_says compile helper autoblocks cdata_scripts mode gen Hg) _ _ _ _ S InDocument eq_refl (Cst [(main_decl, [])] [] false false 0))
    as (ns & s' & E & P & N0 & K1 & K2 & K3 & K4).
  exists ns. split; [|split; assumption]. unfold compile_document. rewrite R, E. cbn [rmap fst snd]. rewrite K1, K2, K4. reflexivity.
Qed.

Lemma assemble_text : forall t g ps, assemble (PcStm (SText t g) :: ps) = option_map (cons (SText t g)) (assemble ps).
Proof. reflexivity. Qed.

Lemma document_renders : forall py (gen user : str -> Prop) (frag : bool) d root ps ss (line : str) e,
  (forall i, gen (helper i)) -> hygienic py gen user ->
  filter no_comment (d_children d) = [root] ->
  says compile autoblocks cdata_scripts mode [] [] root ps -> assemble ps = Some ss -> Forall (user_stm gen user) ss ->
  (if frag then line = [] else doctype_line mode (d_dtd d) line) ->
  exists body, compile_document compile helper autoblocks cdata_scripts mode frag d =
      Ok (TemplateNode 0 [] [NDef 0 false (L "__main__()") body]) /\
    rmap (fun r => (render (fst (fst r)), snd (fst r), snd r)) (exec_body py (programs body) e [] []) =
    rmap (fun oe => (line ++ render (fst oe), [], [])) (means py ss e).
Proof.
  intros py gen user frag d root ps ss line e Hg Hy R S A U Ln.
  destruct (document_compiles gen frag d root ps Hg R S) as (ns & E & P & N0).
  eexists. split; [exact E|].
  assert (Dt : doctype_text mode frag false (d_dtd d) = match line with [] => [] | _ => [NText 1 line None] end).
  { destruct frag; [now subst|]. now apply doctype_is. }
  rewrite Dt.
  set (pre := match line with [] => [] | _ => [SText line None] end).
  assert (St : structure (match line with [] => [] | _ => [NText 1 line None] end ++ ns) = Some (pre ++ ss)).
  { unfold structure, pre. destruct line as [|c line]; cbn [app]; [rewrite P; exact A|].
    cbn [pieces_of piece_of obind]. rewrite P. cbn [option_map obind]. now rewrite assemble_text, A. }
  assert (W : Forall (well_named gen user) (match line with [] => [] | _ => [NText 1 line None] end ++ ns)).
  { apply (users_well_named gen user _ (pre ++ ss) St).
    - unfold pre. destruct line; [exact U|]. constructor; [exact Logic.I|exact U].
    - destruct line; [exact N0|]. constructor; [exact Logic.I|exact N0]. }
  pose proof (same_effects py gen user Hy _ _ CNone (St_ e [] [] []) e St W (agree_refl _ _)) as Q.
  assert (Mn : means py (pre ++ ss) e = rmap (fun oe => (match line with [] => [] | _ => [VStr line] end ++ fst oe, snd oe)) (means py ss e)).
  { unfold pre. destruct line as [|c line]; cbn [app].
    - destruct (means py ss e) as [[o e']|]; reflexivity.
    - cbn [means meaning]. unfold under, truthy_guard, then_. cbn [rbind fst snd]. destruct (means py ss e) as [[o e']|]; reflexivity. }
  rewrite Mn in Q. unfold exec_body.
  destruct (execs py _ CNone (St_ e [] [] [])) as [[[o c] s']|x], (means py ss e) as [[o' e']|y];
    cbn [same_effect rmap fst snd] in Q; try contradiction.
  - destruct Q as (Er & _ & _ & Ew & Es). cbn [rmap fst snd s_with s_switch] in *. rewrite Er, Ew, Es. f_equal. f_equal. f_equal.
    destruct line; [reflexivity|]. unfold render. cbn [map concat app]. reflexivity.
  - now subst.
Qed.
End Document.
