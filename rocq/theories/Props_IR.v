(** * Properties C21 to C26: from the intermediate representation to Python *)

From Coq Require Import Ascii String List Arith NArith ZArith Bool Lia.
From Verif Require Import PyStr PyStrLemmas M_IR S_IR P_IR P_IR2 P_IR3 P_IR4 P_IR5 P_Twice.
Import ListNotations.
Open Scope list_scope.

(** ** C21: indentation *)

(** The generated lines, read by Python's indentation rule, give the blocks of the program
    of the template ([None]: an indentation error). *)
Theorem C21_nesting : forall P t, tidy_template t ->
  read_blocks (map (line_str P) (generate_python t)) = readings P (template_program t).
Proof. exact read_generated. Qed.
Print Assumptions C21_nesting.

(** Without embedded Python the only indentation errors are empty blocks. *)
Theorem C21_rejected : forall P t, tidy_template t -> mod_py t = [] -> Forall no_python (defs t) ->
  (read_blocks (map (line_str P) (generate_python t)) = None <->
   defs t = [] \/ Exists (fun n => hollow n = true) (defs t)).
Proof. exact rejected_iff. Qed.
Print Assumptions C21_rejected.

(** The lines themselves, for every template: four columns per level. *)
Theorem C21_layout : forall P t,
  map (line_str P) (generate_python t) = flat_map (layout P 0) (template_program t).
Proof. exact generate_layout. Qed.
Print Assumptions C21_layout.

(** The text of the module: these lines, with newlines between them. *)
Theorem C21_text : forall P t,
  py_text P t ++ [c_nl] = flat_map (fun line => line ++ [c_nl]) (flat_map (layout P 0) (template_program t)).
Proof.
  intros P t. unfold py_text. rewrite C21_layout. set (ls := flat_map (layout P 0) (template_program t)).
  assert (Ne : ls <> []). { unfold ls, template_program. rewrite flat_map_app. intros E. apply app_eq_nil in E as [_ E]. discriminate E. }
  clearbody ls. induction ls as [|a [|b ls] IH]; [contradiction|cbn [join flat_map]; now rewrite app_nil_r|].
  change (join [c_nl] (a :: b :: ls)) with (a ++ [c_nl] ++ join [c_nl] (b :: ls)). change (flat_map (fun line => line ++ [c_nl]) (a :: b :: ls)) with
    ((a ++ [c_nl]) ++ flat_map (fun line => line ++ [c_nl]) (b :: ls)). rewrite <- IH by discriminate. now rewrite !app_assoc.
Qed.
Print Assumptions C21_text.

Definition sample : template :=
  TemplateNode 1 [(1, [L "import os"; L "if 1:"; L "    x = 2"])]
    [NDef 2 false (L "__main__()")
       [NText 2 (L "a") None; NText 2 (L "b") None;
        NWith 3 [(L "x", L "1"); (L "y", L "{2: 3}")]
          [NFor 4 (L "i in y") [NIf 5 (L "i") [NText 5 (L "c") (Some (L "x"))]; NElse 6 [NExpr 6 (L "i") false]]];
        NSwitch 7 (L "x") [NCase 8 (L "1") [NPass 8]; NElse 9 [NText 9 (L "d") None]];
        NAttr 10 (L "class") [NText 10 (L "e") None] (Some (L "x")) (L "html") (L "_kj_a1") (L "_kj_a2") (L "_kj_x");
        NPython 11 [L "z = 1"; L ""; L "while z:"; L "    z = 0"] false]].

Example C21_example : tidy_template sample /\
  exists ts, readings (fun _ => true) (template_program sample) = Some ts /\ length ts = 4.
Proof.
  split.
  - split; [repeat constructor|]. repeat constructor; try discriminate; try reflexivity.
  - eexists. split; [vm_compute; reflexivity|]. reflexivity.
Qed.
Example C21_example_rejected :
  let t := TemplateNode 1 [] [NDef 1 false (L "f()") [NIf 2 (L "x") []]] in
  tidy_template t /\ Forall no_python (defs t) /\ Exists (fun n => hollow n = true) (defs t).
Proof. cbn. repeat split; repeat constructor. Qed.

(** ** C22: joining neighbouring texts *)

(** Nothing shown changes, under any valuation of the guards. *)
Theorem C22_same_output : forall rho l, events rho (optimize l) = events rho l.
Proof. intros. rewrite optimize_ojoin. apply ojoin_events. Qed.
Print Assumptions C22_same_output.

(** No joinable neighbours are left. *)
Theorem C22_complete : forall l a ln t g ln' t' g' b,
  optimize l = a ++ IText ln t g :: IText ln' t' g' :: b -> g <> g'.
Proof. intros l a ln t g ln' t' g' b. rewrite optimize_ojoin. apply ojoin_no_neighbours. Qed.
Print Assumptions C22_complete.

(** Everything that is not a plain text stays as it is, in order. *)
Theorem C22_others : forall l,
  filter (fun i => negb (is_text i)) (optimize l) = filter (fun i => negb (is_text i)) l.
Proof. intros. rewrite optimize_ojoin. apply ojoin_others. Qed.
Print Assumptions C22_others.

(** Texts with different guards are not joined: the texts with a given guard, together, are the same. *)
Definition texts_of (g : option str) (l : list item) : str :=
  flat_map (fun i => match i with IText _ t g' => if oseqb g g' then t else [] | _ => [] end) l.
Theorem C22_guards : forall g l, texts_of g (optimize l) = texts_of g l.
Proof.
  intros g l. rewrite optimize_ojoin. induction l as [|i l IH]; [reflexivity|].
  destruct i as [| |ln t g0|ln ps]; try exact IH. cbn [ojoin].
  unfold texts_of in *. cbn [flat_map]. rewrite <- IH.
  destruct (ojoin l) as [|[| |ln' t' g'|] r]; try reflexivity.
  destruct (oseqb g0 g') eqn:E; [|reflexivity]. apply oseqb_eq in E. subst g'. cbn [flat_map].
  destruct (oseqb g g0); [now rewrite app_assoc | reflexivity].
Qed.
Print Assumptions C22_guards.

Example C22_example :
  optimize [IText 1 (L "a") None; IText 1 (L "b") None; IText 1 (L "c") (Some (L "x")); IText 1 (L "d") (Some (L "x")); IIndent; IText 1 (L "e") None]
  = [IText 1 (L "ab") None; IText 1 (L "cd") (Some (L "x")); IIndent; IText 1 (L "e") None].
Proof. reflexivity. Qed.

(** ** C23: literals *)

(** The literal of a text denotes that text, whatever follows it. *)
Theorem C23_literal : forall P s rest, Forall (fun c => c < 1114112)%N s ->
  read_literal (repr P s ++ rest) = Some (s, rest).
Proof. exact read_literal_repr. Qed.
Print Assumptions C23_literal.

(** It never breaks the line. *)
Theorem C23_one_line : forall P s, (forall c, P c = true -> c <> c_nl /\ c <> c_cr) ->
  ~ In c_nl (repr P s) /\ ~ In c_cr (repr P s).
Proof. exact repr_one_line. Qed.
Print Assumptions C23_one_line.

(** The statement made from a text node is this literal after [yield]; a guard comes before it. *)
Theorem C23_statement : forall P t g ln, Forall (fun c => c < 1114112)%N t ->
  exists lit, show P (text_stmt t g) =
     (match g with Some (c :: e) => L "if " ++ (c :: e) ++ L ": " | _ => [] end) ++ L "yield " ++ lit
   /\ read_literal lit = Some (t, [])
   /\ generate_from 0 [IText ln t g] = [PyLine 0 ln (text_stmt t g)].
Proof.
  intros P t g ln B. exists (repr P t). split; [|split; [|reflexivity]].
  - destruct g as [[|c e]|]; cbn [text_stmt truthy_guard show show_guarded app]; try reflexivity.
    rewrite <- !app_assoc. cbn [app]. rewrite <- !app_assoc. reflexivity.
  - rewrite <- (app_nil_r (repr P t)). now apply read_literal_repr.
Qed.
Print Assumptions C23_statement.

(** Translatable texts: handed to [gettext] as they are, unless blank. *)
Theorem C23_translatable : forall P t g, Forall (fun c => c < 1114112)%N t ->
  exists lit rest, show P (trans_stmt t g) =
     (match g with Some (c :: e) => L "if " ++ (c :: e) ++ L ": " | _ => [] end) ++
     (if forallb is_space t then L "yield " else L "yield local.__kj__.gettext(") ++ lit ++ rest
   /\ rest = (if forallb is_space t then [] else L ")")
   /\ read_literal (lit ++ rest) = Some (t, rest).
Proof.
  intros P t g B. exists (repr P t). unfold trans_stmt.
  assert (E : match strip t with [] => true | _ => false end = forallb is_space t).
  { unfold strip, rstrip, lstrip. destruct (forallb is_space t) eqn:A.
    - rewrite <- (app_nil_r t), dropwhile_app_all by assumption. reflexivity.
    - assert (D : dropwhile is_space t <> []).
      { intros D. pose proof (takewhile_all is_space t) as TA. pose proof (takewhile_dropwhile is_space t) as TD.
        rewrite D, app_nil_r in TD. congruence. }
      destruct (dropwhile is_space t) as [|c r] eqn:Dt; [contradiction|].
      apply dropwhile_head in Dt. clear D A.
      destruct (rev (dropwhile is_space (rev (c :: r)))) as [|y ys] eqn:R; [|reflexivity]. exfalso.
      apply (f_equal (@rev N)) in R. rewrite rev_involutive in R. cbn [rev] in R.
      assert (In c (rev r ++ [c])) by (apply in_app_iff; right; now left).
      rewrite <- (takewhile_dropwhile is_space (rev r ++ [c])), R in H. cbn [rev] in H. rewrite app_nil_r in H.
      pose proof (takewhile_all is_space (rev r ++ [c])) as TA. rewrite forallb_forall in TA. apply TA in H. congruence. }
  destruct (strip t) as [|c0 r0]; rewrite <- E.
  - exists []. split; [|split; [reflexivity | now apply read_literal_repr]].
    destruct g as [[|c e]|]; cbn [truthy_guard show show_guarded app]; rewrite ?app_nil_r, <- ?app_assoc; cbn [app]; rewrite <- ?app_assoc; reflexivity.
  - exists (L ")"). split; [|split; [reflexivity | now apply read_literal_repr]].
    destruct g as [[|c e]|]; cbn [truthy_guard show show_guarded app]; rewrite <- ?app_assoc; cbn [app]; rewrite <- ?app_assoc; reflexivity.
Qed.
Print Assumptions C23_translatable.

(** So are the names of attributes and of other templates: what stands between the quotes is read as the name. *)
Theorem C23_names : forall P a m x n t, Forall (fun c => c < 1114112)%N a -> Forall (fun c => c < 1114112)%N m -> Forall (fun c => c < 1114112)%N t ->
  (exists lit mode, show P (PForAttr x a n m) = L "for " ++ x ++ L " in self.__kj__.render_attrs({" ++ lit ++ L ":" ++ n ++ L "}, " ++ mode ++ L "):" /\
     read_literal lit = Some (a, []) /\ read_literal mode = Some (m, [])) /\
  (exists lit alias, show P (PImport t (Some a)) = L "local.__kj__.import_(" ++ lit ++ L ", " ++ alias ++ L ", self.__globals__)" /\
     read_literal lit = Some (t, []) /\ read_literal alias = Some (a, [])) /\
  (exists lit, show P (PInclude t) = L "yield local.__kj__.import_(" ++ lit ++ L ", None, self.__globals__).__main__()" /\ read_literal lit = Some (t, [])) /\
  (exists lit, show P (PExtend t) = L "yield local.__kj__.extend(" ++ lit ++ L ").__main__()" /\ read_literal lit = Some (t, [])).
Proof.
  intros P a m x n t Ha Hm Ht. assert (R : forall s, Forall (fun c => c < 1114112)%N s -> read_literal (repr P s) = Some (s, [])).
  { intros s Hs. rewrite <- (app_nil_r (repr P s)). now apply read_literal_repr. }
  split; [exists (repr P a), (repr P m); repeat split; now apply R|]. split; [exists (repr P t), (repr P a); repeat split; now apply R|].
  split; exists (repr P t); (split; [reflexivity|now apply R]).
Qed.
Print Assumptions C23_names.

Example C23_example : Forall (fun c => c < 1114112)%N (L "it's" ++ [10%N; 34%N; 92%N; 233%N; 8232%N; 128512%N]) /\
  repr (fun c => (32 <=? c) && (c <? 127))%N (L "it's" ++ [10%N; 92%N; 8232%N]) = L """it's\n\\\u2028""".
Proof. split; [repeat (constructor; [reflexivity|]); constructor | reflexivity]. Qed.

(** ** C24: generating twice *)

(** False in general: the first generation leaves the joined text in the tree, so the
    second one repeats it. *)
Theorem C24_refuted : forall P t1 t2, t2 <> [] ->
  let t := TemplateNode 1 [] [NDef 1 false (L "f()") [NText 1 t1 None; NText 1 t2 None]] in
  texts_of None (template_iter t) = t1 ++ t2 /\
  texts_of None (template_iter (template_after t)) = t1 ++ t2 ++ t2 /\
  (Forall (fun c => c < 1114112)%N (t1 ++ t2 ++ t2) ->
   map (line_str P) (generate_python (template_after t)) <> map (line_str P) (generate_python t)).
Proof.
  intros P t1 t2 N0 t. split; [|split].
  - cbn. now rewrite !app_nil_r.
  - cbn. now rewrite !app_nil_r, <- app_assoc.
  - intros B H. apply (f_equal (fun l => read_literal (skipn 14 (nth 3 l [])))) in H. cbn -[repr read_literal] in H.
    rewrite <- (app_nil_r (repr P ((t1 ++ t2) ++ t2))), <- (app_nil_r (repr P (t1 ++ t2))) in H.
    rewrite !read_literal_repr in H.
    + injection H as H. rewrite <- app_assoc in H. apply app_inv_head in H.
      apply (f_equal (@length N)) in H. rewrite app_length in H. destruct t2; [contradiction|]. cbn in H. lia.
    + rewrite app_assoc in B. apply Forall_app in B. apply B.
    + rewrite <- app_assoc. exact B.
Qed.
Print Assumptions C24_refuted.

(** Names of helpers are drawn anew by every generation ([draw]).  The second generation can give the same program only if, in
    every body of the tree, neighbouring texts with the same guard are empty but for the first of them ([no_repeats]). *)
Theorem C24_only_partial : forall printable draw t,
  (forall l g s, In l (generate_python t) -> p_stmt l = PText g s -> Forall (fun c => c < 1114112)%N s) ->
  map (line_str printable) (generate_python (template_again draw t)) = map (line_str printable) (generate_python t) ->
  no_repeats (defs t) /\ Forall settled (defs t).
Proof.
  intros P draw t H. apply printed_twice. apply Forall_forall. intros c I. apply in_flat_map in I as (l & Il & Ic).
  destruct (p_stmt l) eqn:E; try destruct Ic. specialize (H l _ _ Il E). rewrite Forall_forall in H. now apply H.
Qed.
Print Assumptions C24_only_partial.
(** Then it does, with the new names in place of the old ones. *)
Theorem C24_partial : forall draw t, no_repeats (defs t) -> Forall settled (defs t) ->
  generate_python (template_again draw t) = generate_python (template_redrawn draw t).
Proof. intros draw t A B. unfold template_again. now rewrite settled_after. Qed.
Print Assumptions C24_partial.
(** Apart from the names, exactly then, with the line numbers. *)
Theorem C24_lines_partial : forall t,
  generate_python (template_after t) = generate_python t <-> no_repeats (defs t) /\ Forall settled (defs t).
Proof. exact twice. Qed.
Print Assumptions C24_lines_partial.
(** All names are new ones. *)
Theorem C24_new_names : forall draw t, flat_map drawn (defs (template_again draw t)) = map draw (flat_map drawn (defs t)).
Proof. exact again_drawn. Qed.
Print Assumptions C24_new_names.
(** The new names alone make another program: [py:attrs] in a tree without any text. *)
Theorem C24_names_refuted : forall printable draw x, draw x <> x ->
  let t := TemplateNode 1 [] [NDef 1 false (L "f()") [NAttrs 1 (L "a") None (L "xml") x]] in
  (no_repeats (defs t) /\ Forall settled (defs t)) /\
  map (line_str printable) (generate_python (template_again draw t)) <> map (line_str printable) (generate_python t).
Proof.
  intros P draw x N0 t. split; [cbn; repeat split; repeat constructor|]. intros E. apply (f_equal (fun l => nth 4 l [])) in E.
  change (spaces 8 ++ L "    yield " ++ draw x = spaces 8 ++ L "    yield " ++ x) in E. do 2 apply app_inv_head in E. contradiction.
Qed.
Print Assumptions C24_names_refuted.
(** So do attributes: their variable, and under a condition the name of their function. *)
Theorem C24_attr_names_refuted : forall printable draw g gen gen2 x, truthy_guard g <> None /\ draw gen2 <> gen2 \/ truthy_guard g = None /\ draw x <> x ->
  let t := TemplateNode 1 [] [NDef 1 false (L "f()") [NAttr 1 (L "a") [] g (L "xml") gen gen2 x]] in
  (no_repeats (defs t) /\ Forall settled (defs t)) /\
  map (line_str printable) (generate_python (template_again draw t)) <> map (line_str printable) (generate_python t).
Proof.
  intros P draw g gen gen2 x H t. split; [cbn; repeat split; repeat constructor|]. intros E.
  unfold t, template_again, template_redrawn, template_after, generate_python, template_iter, body_iter in E. cbn [defs map mutate mutate_body redraw flat_map iter t_lineno mod_py] in E.
  destruct H as [[G N0]|[G N0]]; destruct (truthy_guard g) as [c|]; try congruence.
  - apply (f_equal (fun l => nth 4 l [])) in E. change (spaces 12 ++ L "def " ++ draw gen2 ++ L "():" = spaces 12 ++ L "def " ++ gen2 ++ L "():") in E.
    do 2 apply app_inv_head in E. apply app_inv_tail in E. contradiction.
  - apply (f_equal (fun l => nth 7 l [])) in E. change (spaces 8 ++ L "    yield " ++ draw x = spaces 8 ++ L "    yield " ++ x) in E. do 2 apply app_inv_head in E. contradiction.
Qed.
Print Assumptions C24_attr_names_refuted.
Example C24_attr_names_example : truthy_guard (Some (L "c")) <> None /\ (fun s : str => 95%N :: s) (L "_kj_2") <> L "_kj_2".
Proof. split; discriminate. Qed.

Example C24_example :
  let t := TemplateNode 1 [] [NDef 1 false (L "f()") [NText 1 (L "a") None; NText 1 [] None; NIf 1 (L "x") [NText 1 (L "b") None]; NText 1 (L "c") None; NText 1 (L "c") (Some (L "y"))]] in
  no_repeats (defs t) /\ Forall settled (defs t).
Proof. cbn. repeat split; repeat constructor; try discriminate. Qed.
Example C24_example_body :
  let t := TemplateNode 1 [] [NDef 1 false (L "f()") [NCall 1 (L "g()") (L "h()") [NText 1 (L "a") None; NText 1 (L "b") None]]] in
  ~ Forall settled (defs t).
Proof. cbn. intros H. apply Forall_inv in H. cbn in H. destruct H as (_ & (((A & _) & _) & _)). discriminate (A eq_refl). Qed.

(** ** C25: blocks of Python *)

(** The lines of a block: after an optional hash with a line break. *)
Definition block_lines (text : str) : list str :=
  splitlines (if prefixb (L "#" ++ [c_nl]) text then skipn 2 text else text).

(** Accepted with exactly the first line's white space removed from every line. *)
Theorem C25_accepted : forall text l ls m out, block_lines text = l :: ls -> margin_of m l ->
  (normalize text = Ok out <-> l :: ls = map (app m) out).
Proof.
  intros text l ls m out E M. unfold normalize. fold (block_lines text). rewrite E, (strip_prefix_margin m) by assumption.
  apply strip_prefix_some.
Qed.
Print Assumptions C25_accepted.

(** Rejected exactly when some line does not start with it. *)
Theorem C25_rejected : forall text l ls m, block_lines text = l :: ls -> margin_of m l ->
  (normalize text = Raise "AssertionError" <-> Exists (fun x => ~ exists rest, x = m ++ rest) ls) /\
  ((exists out, normalize text = Ok out) \/ normalize text = Raise "AssertionError").
Proof.
  intros text l ls m E M. unfold normalize. fold (block_lines text). rewrite E, (strip_prefix_margin m) by assumption.
  destruct (strip_prefix_some m (l :: ls)) as (_ & A & B). split; [|exact B]. rewrite A. split; intros H.
  - inversion H as [? ? N0|]; subst; [|assumption]. exfalso. apply N0. destruct M as (_ & rest & -> & _). eauto.
  - now apply Exists_cons_tl.
Qed.
Print Assumptions C25_rejected.

(** Every first line has such a margin; a block without lines gives no line. *)
Theorem C25_total : forall text, (block_lines text = [] /\ normalize text = Ok []) \/
  exists l ls m, block_lines text = l :: ls /\ margin_of m l.
Proof.
  intros text. unfold normalize. fold (block_lines text). destruct (block_lines text) as [|l ls]; [now left|].
  right. destruct (margin_exists l) as [m M]. eauto.
Qed.
Print Assumptions C25_total.

(** A leading percent sign makes the block module level; otherwise it stays in place. *)
Theorem C25_module_level : forall ln blocks text, concat blocks = c_pct :: text ->
  (forall out, normalize text = Ok out -> mk_python ln blocks = Ok (NPython ln out true)) /\
  (forall e, normalize text = Raise e -> mk_python ln blocks = Raise e).
Proof. intros ln blocks text E. unfold mk_python. rewrite E. change (N.eqb c_pct c_pct) with true. cbv iota. split; intros x H; now rewrite H. Qed.
Print Assumptions C25_module_level.
Theorem C25_in_place : forall ln blocks c text, concat blocks = c :: text -> c <> c_pct ->
  (forall out, normalize (c :: text) = Ok out -> mk_python ln blocks = Ok (NPython ln out false)) /\
  (forall e, normalize (c :: text) = Raise e -> mk_python ln blocks = Raise e).
Proof.
  intros ln blocks c text E N0. unfold mk_python. rewrite E. apply N.eqb_neq in N0. rewrite N0.
  split; intros x H; now rewrite H.
Qed.
Print Assumptions C25_in_place.
Theorem C25_empty : forall ln blocks, concat blocks = [] -> mk_python ln blocks = Raise "IndexError".
Proof. intros ln blocks E. unfold mk_python. now rewrite E. Qed.
Print Assumptions C25_empty.

Example C25_example :
  normalize (L "#" ++ [c_nl] ++ L "  a" ++ [c_nl] ++ L "    b" ++ [c_nl] ++ L "  c") = Ok [L "a"; L "  b"; L "c"] /\
  normalize (L "  a" ++ [c_nl] ++ L " b") = Raise "AssertionError" /\
  margin_of (L "  ") (L "  a").
Proof.
  split; [reflexivity | split; [reflexivity|]]. split; [repeat constructor|]. exists (L "a"). split; reflexivity.
Qed.

(** A blank line inside an indented block is an error. *)
Theorem C25_blank_line_refuted :
  normalize (L "  a" ++ [c_nl; c_nl] ++ L "  b") = Raise "AssertionError".
Proof. reflexivity. Qed.
Print Assumptions C25_blank_line_refuted.

(** ** C26: variable lists *)

Theorem C26_items : forall l tail, l <> [] -> Forall ok_assignment l ->
  (tail = [] \/ exists w, tail = c_semi :: w /\ white w) ->
  with_vars (join [c_semi] (map written l) ++ tail) = Ok (assigned l tail).
Proof. exact with_vars_items. Qed.
Print Assumptions C26_items.

(** Without an equals sign it is an error. *)
Theorem C26_nothing : forall s, ~ In c_eq s -> with_vars s = Raise "AttributeError".
Proof. exact with_vars_none. Qed.
Print Assumptions C26_nothing.

(** What is saved before the body and restored after it: between the brackets the names stand, separated by commas. *)
Theorem C26_lines : forall printable ns, ns <> [] -> Forall (fun n => ~ In 44%N n) ns ->
  (exists a, show printable (PPushWith ns) = L "local.__kj__.push_with(locals(), [" ++ a ++ L "])" /\
             split_c 44 a = map (fun n => [c_dq] ++ n ++ [c_dq]) ns) /\
  (exists a, show printable (PPopWith ns) = L "(" ++ a ++ L ",) = local.__kj__.pop_with()" /\ split_c 44 a = ns).
Proof.
  assert (A : forall l cur rest, ~ In 44%N l -> split_c_aux 44 cur (l ++ rest) = split_c_aux 44 (rev l ++ cur) rest).
  { induction l as [|c l IH]; intros cur rest N0; [reflexivity|]. cbn [app split_c_aux]. destruct (N.eqb_spec c 44) as [->|_]; [destruct N0; now left|].
    rewrite IH by (intros X; apply N0; now right). cbn [rev]. now rewrite <- app_assoc. }
  assert (B : forall ns : list str, ns <> [] -> Forall (fun n => ~ In 44%N n) ns -> split_c 44 (join (L ",") ns) = ns).
  { intros ns N0 F. unfold split_c. induction F as [|n ns Hn F IH]; [now destruct N0|]. destruct ns as [|m ns].
    - cbn [join]. rewrite <- (app_nil_r n) at 1. rewrite A by exact Hn. cbn [split_c_aux]. now rewrite app_nil_r, rev_involutive.
    - change (join (L ",") (n :: m :: ns)) with (n ++ L "," ++ join (L ",") (m :: ns)). rewrite A by exact Hn. rewrite app_nil_r.
      change (L "," ++ join (L ",") (m :: ns)) with (44%N :: join (L ",") (m :: ns)). cbn [split_c_aux N.eqb Pos.eqb]. rewrite rev_involutive. f_equal. apply IH. discriminate. }
  intros P ns N0 F. split.
  - exists (join (L ",") (map (fun n => [c_dq] ++ n ++ [c_dq]) ns)). split; [reflexivity|]. apply B.
    + destruct ns; [now destruct N0|discriminate].
    + apply Forall_map. eapply Forall_impl; [|exact F]. intros n Hn X. apply in_app_or in X as [[X|[]]|X]; [discriminate X|]. apply in_app_or in X as [X|[X|[]]]; [contradiction|discriminate X].
  - exists (join (L ",") ns). split; [reflexivity|]. now apply B.
Qed.
Print Assumptions C26_lines.
Example C26_lines_example : [L "a"; L "b"] <> [] /\ Forall (fun n => ~ In 44%N n) [L "a"; L "b"].
Proof. split; [discriminate|]. repeat constructor; vm_compute; intuition discriminate. Qed.

Example C26_example :
  let l := [Assign [] (L "a") (L " ") (L " x == 1"); Assign ([c_nl] ++ L "  ") (L "b.c") [] (L "f(y=2)")] in
  Forall ok_assignment l /\
  with_vars (join [c_semi] (map written l) ++ L "; ") = Ok [(L "a", L " x == 1"); (L "b.c", L "f(y=2); ")].
Proof.
  split; [|vm_compute; reflexivity].
  repeat constructor; cbn; try discriminate; intros H; repeat (destruct H as [H|H]; [discriminate|]); exact H.
Qed.

(** The restriction to one line is needed: a line break inside an expression may split it. *)
Theorem C26_newline_refuted :
  with_vars (L "a=f(1," ++ [c_nl] ++ L " b=2)") = Ok [(L "a", L "f(1,"  ++ [c_nl]); (L "b", L "2)")].
Proof. vm_compute. reflexivity. Qed.
Print Assumptions C26_newline_refuted.
