(** * Whole text templates *)

From Coq Require Import Ascii String List Arith NArith ZArith Bool Lia.
From Verif Require Import PyStr PyStrLemmas M_Values M_IR P_IR M_Template M_Text S_Text P_Text3 P_Text6 S_TextTree P_Text9 M_Dom M_XCompile
  M_Run P_Run4 P_Run5 P_Run8 M_XRun S_XRun P_XRun1 P_XRun2 P_XRun3 S_Run M_TextRun S_TextRun.
From Verif Require S_Exec P_Run12.
Import ListNotations.
Open Scope list_scope.

Section Compile.
Variable autoescape : bool.
Variable helper : nat -> str.
Variable gen : str -> Prop.
Hypothesis helper_gen : forall i, gen (helper i).
Notation nodes := (tree_nodes autoescape helper).
Notation defined := (tree_defined autoescape helper).
Notation Tells := (text_tells autoescape gen).
Definition one_name : Prop := forall x y, gen x -> gen y -> x = y.

Definition compiled_to (i c : bool) (f : tree) (ps : list rpiece) (fs : list fact) (c' : bool) : Prop :=
  c' = c || tree_extends f /\ forall k, exists ps' fs', Tells i c f ps' fs' c' /\ map shape ps = map shape ps' /\
    pieces_of (nodes i c k f) = Some ps' /\ rnameds gen (nodes i c k f) /\
    Forall2 (function_of gen) (defined i c k f) (functions fs') /\ tree_module f = modules fs' /\
    (one_name -> ps' = ps /\ fs' = fs).
Lemma block_pieces : forall b ps b', pieces_of b = Some ps -> assemble ps = Some b' -> solid b' -> obind (structure b) not_empty = Some b'.
Proof. intros b ps b' P A S. unfold structure. rewrite P. cbn [S_Exec.obind]. rewrite A. cbn [S_Exec.obind]. now apply solid_some. Qed.

Ltac leafy := match goal with P : pieces_of _ = Some ?ps', Sh : map shape _ = map shape ?ps' |- _ =>
  split; [now constructor|]; split; [cbn [map]; now rewrite Sh|];
  cbn [tree_nodes tree_defined pieces_of piece_of S_Exec.obind]; rewrite P; split; [reflexivity|]; split; [constructor; [exact Logic.I|assumption]|];
  split; [assumption|]; split; [assumption|] end; intros X; match goal with O : one_name -> _ |- _ => destruct (O X) as [-> ->]; now split end.
(** The body of a block, again; what follows it. *)
Ltac body IH k :=
  destruct (IH k) as (?ps & ?fs & ?T & ?Sh & ?P & ?Nn & ?F & ?M & ?O); clear IH.
Theorem tells_compiled : forall i c f ps fs c', Tells i c f ps fs c' -> compiled_to i c f ps fs c'.
Proof.
  apply (text_tells_ind autoescape gen compiled_to).
  - (* nil *) intros i c. split; [now rewrite orb_false_r|]. intros k. exists [], []. repeat split; constructor.
  - (* text *) intros i c ln t f qs gs c' T [E IH]. split; [exact E|]. intros k. body IH k. exists (RcStm (RText t None) :: ps), fs. leafy.
  - (* expr *) intros i c ln t f qs gs c' T [E IH]. split; [exact E|]. intros k. body IH k. exists (RcStm (RExpr t (negb autoescape)) :: ps), fs. leafy.
  - (* for *) intros i c e b f ps b' fs c1 qs gs c2 T [E IH] A Sd T2 [E2 IH2]. split; [cbn [tree_extends]; rewrite E2, E; now rewrite orb_assoc|].
    intros k. destruct (IH k) as (ps' & fs' & T' & Sh & P & Nn & F & M & O). destruct (IH2 (k + tree_calls b)) as (qs' & gs' & T2' & Sh2 & P2 & Nn2 & F2 & M2 & O2).
    destruct (assemble_shape _ _ _ Sh A) as [b'' A']. pose proof (solid_shape _ _ _ _ Sh A A' Sd) as Sd'.
    exists (RcStm (RFor e b'' []) :: qs'), (fs' ++ gs'). split; [econstructor; eassumption|]. split; [cbn [map shape]; now rewrite Sh2|].
    cbn [tree_nodes tree_defined pieces_of piece_of construct_node tree_module]. rewrite structure_eq, (block_pieces _ _ _ P A' Sd'). cbn [option_map S_Exec.obind]. rewrite <- E, P2.
    split; [reflexivity|]. split; [constructor; [cbn [rnamed]; now apply rnamed_all|exact Nn2]|]. rewrite functions_app, modules_app.
    split; [now apply Forall2_app|]. split; [congruence|]. intros X. destruct (O X) as [-> ->]. destruct (O2 X) as [-> ->]. assert (b'' = b') as -> by congruence. now split.
  - (* if *) intros i c e b f ps b' fs c1 qs gs c2 T [E IH] A Sd T2 [E2 IH2]. split; [cbn [tree_extends]; rewrite E2, E; now rewrite orb_assoc|].
    intros k. destruct (IH k) as (ps' & fs' & T' & Sh & P & Nn & F & M & O). destruct (IH2 (k + tree_calls b)) as (qs' & gs' & T2' & Sh2 & P2 & Nn2 & F2 & M2 & O2).
    destruct (assemble_shape _ _ _ Sh A) as [b'' A']. pose proof (solid_shape _ _ _ _ Sh A A' Sd) as Sd'.
    exists (RcStm (RIf e b'' []) :: qs'), (fs' ++ gs'). split; [econstructor; eassumption|]. split; [cbn [map shape]; now rewrite Sh2|].
    cbn [tree_nodes tree_defined pieces_of piece_of construct_node tree_module]. rewrite structure_eq, (block_pieces _ _ _ P A' Sd'). cbn [option_map S_Exec.obind]. rewrite <- E, P2.
    split; [reflexivity|]. split; [constructor; [cbn [rnamed]; now apply rnamed_all|exact Nn2]|]. rewrite functions_app, modules_app.
    split; [now apply Forall2_app|]. split; [congruence|]. intros X. destruct (O X) as [-> ->]. destruct (O2 X) as [-> ->]. assert (b'' = b') as -> by congruence. now split.
  - (* else *) intros i c e b f ps b' fs c1 qs gs c2 T [E IH] A Sd T2 [E2 IH2]. split; [cbn [tree_extends]; rewrite E2, E; now rewrite orb_assoc|].
    intros k. destruct (IH k) as (ps' & fs' & T' & Sh & P & Nn & F & M & O). destruct (IH2 (k + tree_calls b)) as (qs' & gs' & T2' & Sh2 & P2 & Nn2 & F2 & M2 & O2).
    destruct (assemble_shape _ _ _ Sh A) as [b'' A']. pose proof (solid_shape _ _ _ _ Sh A A' Sd) as Sd'.
    exists (RcElse b'' :: qs'), (fs' ++ gs'). split; [econstructor; eassumption|]. split; [cbn [map shape]; now rewrite Sh2|].
    cbn [tree_nodes tree_defined pieces_of piece_of construct_node tree_module]. rewrite structure_eq, (block_pieces _ _ _ P A' Sd'). cbn [option_map S_Exec.obind]. rewrite <- E, P2.
    split; [reflexivity|]. split; [constructor; [cbn [rnamed]; now apply rnamed_all|exact Nn2]|]. rewrite functions_app, modules_app.
    split; [now apply Forall2_app|]. split; [congruence|]. intros X. destruct (O X) as [-> ->]. destruct (O2 X) as [-> ->]. assert (b'' = b') as -> by congruence. now split.
  - (* case *) intros i c e b f ps b' fs c1 qs gs c2 T [E IH] A Sd T2 [E2 IH2]. split; [cbn [tree_extends]; rewrite E2, E; now rewrite orb_assoc|].
    intros k. destruct (IH k) as (ps' & fs' & T' & Sh & P & Nn & F & M & O). destruct (IH2 (k + tree_calls b)) as (qs' & gs' & T2' & Sh2 & P2 & Nn2 & F2 & M2 & O2).
    destruct (assemble_shape _ _ _ Sh A) as [b'' A']. pose proof (solid_shape _ _ _ _ Sh A A' Sd) as Sd'.
    exists (RcCase e b'' :: qs'), (fs' ++ gs'). split; [econstructor; eassumption|]. split; [cbn [map shape]; now rewrite Sh2|].
    cbn [tree_nodes tree_defined pieces_of piece_of construct_node tree_module]. rewrite structure_eq, (block_pieces _ _ _ P A' Sd'). cbn [option_map S_Exec.obind]. rewrite <- E, P2.
    split; [reflexivity|]. split; [constructor; [cbn [rnamed]; now apply rnamed_all|exact Nn2]|]. rewrite functions_app, modules_app.
    split; [now apply Forall2_app|]. split; [congruence|]. intros X. destruct (O X) as [-> ->]. destruct (O2 X) as [-> ->]. assert (b'' = b') as -> by congruence. now split.
  - (* switch *) intros i c e b f ps cases other fs c1 qs gs c2 T [E IH] A T2 [E2 IH2]. split; [cbn [tree_extends]; rewrite E2, E; now rewrite orb_assoc|].
    intros k. destruct (IH k) as (ps' & fs' & T' & Sh & P & Nn & F & M & O). destruct (IH2 (k + tree_calls b)) as (qs' & gs' & T2' & Sh2 & P2 & Nn2 & F2 & M2 & O2).
    destruct (switch_shape _ _ _ (says_filter_shape _ _ Sh) A) as [[cases' other'] A'].
    exists (RcStm (RSwitch e cases' other') :: qs'), (fs' ++ gs'). split; [econstructor; eassumption|]. split; [cbn [map shape]; now rewrite Sh2|].
    cbn [tree_nodes tree_defined pieces_of piece_of construct_node tree_module]. rewrite pieces_eq, P. cbn [S_Exec.obind]. rewrite A'. cbn [option_map S_Exec.obind fst snd]. rewrite <- E, P2.
    split; [reflexivity|]. split; [constructor; [cbn [rnamed]; now apply rnamed_all|exact Nn2]|]. rewrite functions_app, modules_app.
    split; [now apply Forall2_app|]. split; [congruence|]. intros X. destruct (O X) as [-> ->]. destruct (O2 X) as [-> ->].
    assert (cases' = cases) as -> by congruence. assert (other' = other) as -> by congruence. now split.
  - (* def *) intros c d b f ps b' fs c1 qs gs c2 T [E IH] A Sd T2 [E2 IH2]. split; [cbn [tree_extends]; rewrite E2, E; now rewrite orb_assoc|].
    intros k. destruct (IH k) as (ps' & fs' & T' & Sh & P & Nn & F & M & O). destruct (IH2 (k + tree_calls b)) as (qs' & gs' & T2' & Sh2 & P2 & Nn2 & F2 & M2 & O2).
    destruct (assemble_shape _ _ _ Sh A) as [b'' A']. pose proof (solid_pass_shape _ _ _ _ Sh A A' Sd) as Sd'.
    exists qs', (fs' ++ Function (strip d) (or_pass b'') :: gs'). split; [econstructor; eassumption|]. split; [exact Sh2|].
    cbn [tree_nodes tree_defined tree_module app]. rewrite <- E.
    split; [exact P2|]. split; [exact Nn2|]. rewrite functions_app, modules_app. cbn [functions modules].
    split; [apply Forall2_app; [exact F|]; constructor; [|exact F2]|].
    { split; [reflexivity|]. split; [exact Nn|]. exists b''. split; [now apply (structure_pieces _ ps')|]. now split. }
    split; [congruence|]. intros X. destruct (O X) as [-> ->]. destruct (O2 X) as [-> ->]. assert (b'' = b') as -> by congruence. now split.
  - (* inner def *) intros c d b f ps b' fs c1 qs gs c2 T [E IH] A Sd T2 [E2 IH2]. split; [cbn [tree_extends]; rewrite E2, E; now rewrite orb_assoc|].
    intros k. destruct (IH k) as (ps' & fs' & T' & Sh & P & Nn & F & M & O). destruct (IH2 (k + tree_calls b)) as (qs' & gs' & T2' & Sh2 & P2 & Nn2 & F2 & M2 & O2).
    destruct (assemble_shape _ _ _ Sh A) as [b'' A']. pose proof (solid_pass_shape _ _ _ _ Sh A A' Sd) as Sd'.
    exists (RcStm (RDef d (or_pass b'')) :: qs'), (fs' ++ gs'). split; [econstructor; eassumption|]. split; [cbn [map shape]; now rewrite Sh2|].
    cbn [tree_nodes tree_defined pieces_of piece_of tree_module app]. rewrite structure_eq. unfold structure at 1. rewrite P. cbn [S_Exec.obind]. rewrite A'. cbn [S_Exec.obind].
    rewrite (solid_some _ Sd'). cbn [option_map S_Exec.obind]. rewrite <- E, P2.
    split; [reflexivity|]. split; [constructor; [cbn [rnamed]; now apply rnamed_all|exact Nn2]|]. rewrite functions_app, modules_app.
    split; [now apply Forall2_app|]. split; [congruence|]. intros X. destruct (O X) as [-> ->]. destruct (O2 X) as [-> ->]. assert (b'' = b') as -> by congruence. now split.
  - (* call *) intros i c args call b f x ps b' fs c1 qs gs c2 Gx T [E IH] A Sd T2 [E2 IH2]. split; [cbn [tree_extends]; rewrite E2, E; now rewrite orb_assoc|].
    intros k. destruct (IH k) as (ps' & fs' & T' & Sh & P & Nn & F & M & O). destruct (IH2 (k + tree_calls b + 1)) as (qs' & gs' & T2' & Sh2 & P2 & Nn2 & F2 & M2 & O2).
    destruct (assemble_shape _ _ _ Sh A) as [b'' A']. pose proof (solid_shape _ _ _ _ Sh A A' Sd) as Sd'.
    eexists (RcStm (RCall _ _ b'') :: qs'), (fs' ++ gs'). split; [eapply tt_call; [apply (helper_gen (k + tree_calls b))|eassumption..]|]. split; [cbn [map shape]; now rewrite Sh2|].
    unfold mk_call. cbn [tree_nodes tree_defined pieces_of tree_module]. unfold mk_call. cbn [piece_of]. rewrite structure_eq, (block_pieces _ _ _ P A' Sd'). cbn [option_map S_Exec.obind]. rewrite <- E, P2.
    split; [reflexivity|]. split; [constructor; [cbn [rnamed]; now apply rnamed_all|exact Nn2]|]. rewrite functions_app, modules_app.
    split; [now apply Forall2_app|]. split; [congruence|]. intros X. destruct (O X) as [-> ->]. destruct (O2 X) as [-> ->]. assert (b'' = b') as -> by congruence.
    rewrite (X _ _ (helper_gen (k + tree_calls b)) Gx). now split.
  - (* block *) intros i c name b f ps b' fs qs gs c2 T [E IH] A Sd T2 [E2 IH2]. split; [cbn [tree_extends]; rewrite E2, orb_assoc, <- E; reflexivity|].
    intros k. destruct (IH k) as (ps' & fs' & T' & Sh & P & Nn & F & M & O). destruct (IH2 (k + tree_calls b)) as (qs' & gs' & T2' & Sh2 & P2 & Nn2 & F2 & M2 & O2).
    destruct (assemble_shape _ _ _ Sh A) as [b'' A']. pose proof (solid_pass_shape _ _ _ _ Sh A A' Sd) as Sd'.
    eexists (_ :: qs'), (fs' ++ Function _ (or_pass b'') :: gs'). split; [eapply tt_block; eassumption|]. split; [cbn [map]; now rewrite Sh2|].
    cbn [tree_nodes tree_defined tree_module]. rewrite <- E. cbn [app pieces_of piece_of S_Exec.obind]. rewrite P2.
    split; [reflexivity|]. split; [constructor; [exact Logic.I|exact Nn2]|]. rewrite functions_app, modules_app. cbn [functions modules].
    split; [apply Forall2_app; [exact F|]; constructor; [|exact F2]|].
    { split; [reflexivity|]. split; [exact Nn|]. exists b''. split; [now apply (structure_pieces _ ps')|]. now split. }
    split; [congruence|]. intros X. destruct (O X) as [-> ->]. destruct (O2 X) as [-> ->]. assert (b'' = b') as -> by congruence. now split.
  - (* override *) intros i c name b f ps b' fs qs gs c2 T [E IH] A T2 [E2 IH2]. split; [cbn [tree_extends]; rewrite E2, orb_assoc, <- E; reflexivity|].
    intros k. destruct (IH k) as (ps' & fs' & T' & Sh & P & Nn & F & M & O). destruct (IH2 (k + tree_calls b)) as (qs' & gs' & T2' & Sh2 & P2 & Nn2 & F2 & M2 & O2).
    destruct (assemble_shape _ _ _ Sh A) as [b'' A'].
    eexists qs', (fs' ++ Function _ (RPython _ :: b'') :: gs'). split; [eapply tt_override; eassumption|]. split; [exact Sh2|].
    cbn [tree_nodes tree_defined tree_module]. rewrite <- E. cbn [app].
    split; [exact P2|]. split; [exact Nn2|]. rewrite functions_app, modules_app. cbn [functions modules].
    split; [apply Forall2_app; [exact F|]; constructor; [|exact F2]|].
    { split; [reflexivity|]. split; [constructor; [exact Logic.I|exact Nn]|]. exists (RPython [L "parent_block=parent._kj_block_" ++ name] :: b''). split; [|split; [reflexivity|]].
      - cbn [snd]. unfold structure. cbn [pieces_of piece_of S_Exec.obind]. rewrite P. cbn [option_map S_Exec.obind]. now apply assemble_stm.
      - cbn [snd]. eexists. split; [now left|reflexivity]. }
    split; [congruence|]. intros X. destruct (O X) as [-> ->]. destruct (O2 X) as [-> ->]. assert (b'' = b') as -> by congruence. now split.
  - (* py *) intros i c ls f qs gs c' T [E IH]. split; [exact E|]. intros k. body IH k. exists (RcStm (RPython ls) :: ps), fs. leafy.
  - (* module *) intros i c ls f qs gs c' T [E IH]. split; [exact E|]. intros k. destruct (IH k) as (ps & fs & T' & Sh & P & Nn & F & M & O).
    exists ps, (ModuleCode ls :: fs). split; [now constructor|]. split; [exact Sh|]. split; [exact P|]. split; [exact Nn|]. split; [exact F|].
    split; [cbn [tree_module modules]; congruence|]. intros X. destruct (O X) as [-> ->]. now split.
  - (* extends *) intros i c fn f qs gs c' T [E IH]. split; [cbn [tree_extends]; rewrite E; now rewrite orb_true_r|]. intros k. body IH k. exists (RcStm (RExtend fn) :: ps), fs. leafy.
  - (* import *) intros i c fn al f qs gs c' T [E IH]. split; [exact E|]. intros k. body IH k. exists (RcStm (RImport fn al) :: ps), fs. leafy.
  - (* include *) intros i c fn f qs gs c' T [E IH]. split; [exact E|]. intros k. body IH k. exists (RcStm (RInclude fn) :: ps), fs. leafy.
  - (* nothing *) intros i c f qs gs c' T [E IH]. split; [exact E|]. intros k. destruct (IH k) as (ps & fs & T' & Sh & P & Nn & F & M & O).
    exists ps, fs. repeat split; try assumption; try (now constructor); apply O; assumption.
Qed.
End Compile.

(** ** The class of a text template *)
Lemma set_function_map : forall k v (g : str -> list node) names, NoDup names ->
  set_function k v (map (fun n => (n, g n)) names) =
  map (fun n => (n, if seqb k n then v else g n)) names ++ (if smem k names then [] else [(k, v)]).
Proof.
  intros k v g names H. induction H as [|n names Nn H IH]; [reflexivity|]. cbn [map set_function].
  unfold smem. cbn [existsb]. fold (smem k names). destruct (seqb k n) eqn:E.
  - apply seqb_eq in E. subst n. cbn [orb app]. rewrite app_nil_r. f_equal.
    apply map_ext_in. intros m Hm. destruct (seqb k m) eqn:Em; [apply seqb_eq in Em; subst; contradiction|reflexivity].
  - cbn [orb app]. f_equal. exact IH.
Qed.
Lemma adds_table : forall ds, adds ds [] = map (fun n => (n, last_def n ds)) (first_names [] ds).
Proof.
  induction ds as [|[k v] ds IH] using rev_ind; [reflexivity|].
  unfold adds in *. rewrite fold_left_app. cbn [fold_left fst snd]. rewrite IH.
  rewrite set_function_map by apply first_names_nodup. rewrite first_names_snoc. cbn [smem existsb orb].
  assert (Em : smem k (first_names [] ds) = smem k (map fst ds)).
  { apply eq_true_iff_eq. rewrite !smem_spec, first_names_in. cbn [smem existsb]. tauto. }
  rewrite Em, map_app. f_equal.
  - apply map_ext. intros n. unfold last_def. rewrite fold_left_app. reflexivity.
  - destruct (smem k (map fst ds)); [reflexivity|]. cbn [map]. unfold last_def. rewrite fold_left_app. cbn [fold_left fst snd].
    now rewrite seqb_refl.
Qed.

Lemma text_compiles : forall compile shlex_split (gen : str -> Prop) py x r0, (forall i, gen (t_helper x i)) -> text_says compile shlex_split gen x r0 ->
  exists t r l, text_tree compile shlex_split x = Ok t /\ text_says compile shlex_split gen x r /\ map snd (mod_py t) = r_module r /\
    final_functions r l /\ functions_of (defs t) = Some (map with_name l) /\
    (user_reading py gen r -> Forall (well_named py gen) (defs t)) /\
    (one_name gen -> r = r0).
Proof.
  intros compile shlex_split gen py x r0 Hg [ts f ps0 b0 fs0 c Ne Lx Bl W T0 A0 Sd0].
  destruct (tells_compiled (t_autoescape x) (t_helper x) gen Hg _ _ _ _ _ _ T0) as [_ C].
  destruct (C 0) as (ps & fs & T & Sh & P & Nn & F & M & O).
  destruct (assemble_shape _ _ _ Sh A0) as [b A]. pose proof (solid_pass_shape _ _ _ _ Sh A0 A Sd0) as Sd.
  assert (Sb : structure (tree_nodes (t_autoescape x) (t_helper x) false false 0 f) = Some b) by (now apply (structure_pieces _ ps)).
  destruct (class_compiles gen py _ fs _ b F Sb Nn Sd) as (l & Fl & Efs & Wn).
  exists (tree_template (t_autoescape x) (t_helper x) f), (Reading b (functions fs) (modules fs)), l.
  assert (Ed : defs (tree_template (t_autoescape x) (t_helper x) f) = map (fun kv => NDef 0 false (fst kv) (snd kv))
    (set_function main_decl (tree_nodes (t_autoescape x) (t_helper x) false false 0 f) (adds (tree_defined (t_autoescape x) (t_helper x) false false 0 f) [(main_decl, [])]))).
  { unfold tree_template. cbn [defs]. set (ds := (L "__main__()", []) :: _).
    assert (E : set_function main_decl (tree_nodes (t_autoescape x) (t_helper x) false false 0 f) (adds (tree_defined (t_autoescape x) (t_helper x) false false 0 f) [(main_decl, [])]) = adds ds []).
    { unfold ds, adds. cbn [fold_left fst snd set_function]. now rewrite fold_left_app. }
    rewrite E, adds_table, map_map. reflexivity. }
  split; [|split; [|split; [|split; [exact Fl|split; [|split]]]]].
  - unfold text_tree, text_template. pose proof (lex_scan _ _ _ Lx) as ->.
    rewrite (proj2 (parse_exact (t_autoescape x) shlex_split (t_helper x) ts _ Bl) (ex_intro _ f (conj W eq_refl))). destruct (t_file x); [reflexivity|]. destruct (t_text x); [destruct Ne; congruence|reflexivity].
  - now apply (text_reading compile shlex_split gen x ts f ps b fs c).
  - unfold tree_template. cbn [mod_py r_module]. rewrite map_map. cbn [snd]. now rewrite map_id.
  - now rewrite Ed.
  - rewrite Ed. exact Wn.
  - intros X. destruct (O X) as [-> ->]. now assert (b = b0) as -> by congruence.
Qed.


(** ** The class that a source describes is unique *)
Lemma text_class_unique : forall compile shlex_split g exec_module x r c r' c',
  text_says compile shlex_split (eq g) x r -> class_tells r [] (objects (exec_module (r_module r))) c ->
  text_says compile shlex_split (eq g) x r' -> class_tells r' [] (objects (exec_module (r_module r'))) c' -> c = c'.
Proof.
  intros compile shlex_split g exec_module x r c r' c' T C T' C'.
  assert (Sg : one_name (eq g)) by (intros y z; congruence).
  set (py := Python (fun x => EName x) (fun _ => []) (fun _ => ([], EName [])) (fun _ => false) (fun _ => Ok []) (fun _ => Ok []) (fun _ => Ok []) (fun _ _ => Ok []) (fun _ _ => false)
     (fun s => VStr s) (fun _ _ => Ok VNone) (fun _ _ _ => Ok VNone) (fun _ _ => Ok VNone) (fun _ => None)).
  set (x' := TextSource (t_text x) (t_file x) (t_autoescape x) (fun _ => g)).
  assert (Same : forall r, text_says compile shlex_split (eq g) x r -> text_says compile shlex_split (eq g) x' r).
  { intros r0 [ts f ps b fs c0 H1 H2 H3 H4 H5 H6 H7]. now apply (text_reading _ _ _ x' ts f ps b fs c0). }
  destruct (text_compiles compile shlex_split (eq g) py x' r (fun _ => eq_refl) (Same _ T)) as (t & r1 & l & Ec & _ & Em & Fl & Ef & _ & Er).
  destruct (text_compiles compile shlex_split (eq g) py x' r' (fun _ => eq_refl) (Same _ T')) as (t' & r1' & l' & Ec' & _ & Em' & Fl' & Ef' & _ & Er').
  specialize (Er Sg). specialize (Er' Sg). subst r1 r1'. assert (t' = t) as -> by congruence. clear Ec'.
  destruct C as [l0 F0], C' as [l0' F0']. assert (r_module r' = r_module r) as -> by congruence.
  rewrite (final_unique _ _ _ F0 Fl), (final_unique _ _ _ F0' Fl'). rewrite Ef in Ef'. assert (map with_name l' = map with_name l) as -> by congruence. reflexivity.
Qed.
Theorem any_unique : forall expat compile shlex_split exec_module g x c c',
  any_tells expat compile shlex_split exec_module (eq g) x c -> any_tells expat compile shlex_split exec_module (eq g) x c' -> c = c'.
Proof.
  intros expat compile shlex_split exec_module g x c c' T T'. destruct T as [x c T|x r c T C].
  - inversion T' as [x0 c0 T0|]; subst. exact (source_unique _ _ _ _ _ _ _ T T0).
  - inversion T' as [|x0 r' c0 T0 C0]; subst. exact (text_class_unique _ _ _ _ _ _ _ _ _ T C T0 C0).
Qed.

(** ** What a text template says is unique *)
Section Unique.
Variable autoescape : bool.
Variable g : str.
Definition tells_once (i c : bool) (f : tree) (ps : list rpiece) (fs : list fact) (c' : bool) : Prop :=
  forall ps' fs' c2, text_tells autoescape (eq g) i c f ps' fs' c2 -> ps = ps' /\ fs = fs' /\ c' = c2.
Ltac inner := match goal with
  | IH : (forall ps' fs' c2, text_tells _ _ ?i ?c ?b ps' fs' c2 -> _), T : text_tells _ _ ?i ?c ?b _ _ _ |- _ =>
     destruct (IH _ _ _ T) as (? & ? & ?); clear IH T; subst
  | A : assemble ?ps = Some ?b, A' : assemble ?ps = Some ?b' |- _ => assert (b' = b) by congruence; subst b'; clear A'
  | A : assemble_switch ?ps = Some _, A' : assemble_switch ?ps = Some _ |- _ => rewrite A in A'; injection A' as ? ?; subst; clear A
  end.
Lemma tells_unique : forall i c f ps fs c', text_tells autoescape (eq g) i c f ps fs c' -> tells_once i c f ps fs c'.
Proof.
  apply (text_tells_ind autoescape (eq g) tells_once); unfold tells_once; intros;
    match goal with T : _ |- _ => revert T; repeat match goal with X : text_tells _ _ _ _ _ _ _ _ |- _ => clear X end; intros T; inversion T; clear T; subst end;
    repeat inner; try discriminate; now repeat split.
Qed.
End Unique.
Theorem text_reading_unique : forall compile shlex_split g x r r',
  text_says compile shlex_split (eq g) x r -> text_says compile shlex_split (eq g) x r' -> r = r'.
Proof.
  intros compile shlex_split g x r r' [ts f ps b fs c Ne Lx Bl Wr T A Sd] [ts' f' ps' b' fs' c' Ne' Lx' Bl' Wr' T' A' Sd'].
  assert (ts' = ts) as -> by (rewrite <- (lex_scan _ _ _ Lx); symmetry; now apply lex_scan).
  rewrite <- (taken_unique shlex_split f f' ts Wr Wr') in T'. destruct (tells_unique _ _ _ _ _ _ _ _ T _ _ _ T') as (<- & <- & _).
  now assert (b' = b) as -> by congruence.
Qed.
