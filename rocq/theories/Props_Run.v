(** * Whole templates: theorems C29, C62, C63 *)

From Coq Require Import Ascii String List NArith ZArith Bool Lia Arith.
From Verif Require Import PyStr PyStrLemmas M_Values M_IR S_IR M_Template M_Run S_Run P_Run1 P_Run3 P_Run4 P_Run8 P_Run9 P_Run10.
From Verif Require M_Exec S_Exec P_Run5 P_Run12.
Import ListNotations.
Open Scope list_scope.

(** ** C29: compiled templates behave as the directives say *)

(** For whole templates: functions, calls, py:call, inheritance of any depth, imports and includes, from
    any set of files.  Not covered (both sides are the same explicit error): calls of template functions
    whose result is not shown but used; py:with that takes a value apart; the attributes that all
    templates have.  Embedded Python is any function of the variables it reads to those it binds. *)
Theorem C29_whole_partial : forall py gen files depth f context, generated_names py gen ->
  (forall fragment name f, files fragment name = Ok f -> a_file py gen f) -> a_file py gen f -> object_names context ->
  run_file py files depth f context = file_means py files depth f context.
Proof. intros py gen files depth f context Hg Hf F C. exact (run_file_means py gen Hg files depth f context Hf F C). Qed.
Print Assumptions C29_whole_partial.

(** The function that a declaration declares: what stands before the parenthesis, without the white space around. *)
Theorem C29_function_name : forall before name after rest, Forall (fun c => is_space c = true) before -> Forall (fun c => is_space c = true) after ->
  Forall (fun c => is_space c = false /\ c <> 40%N) name -> fun_name (before ++ name ++ after ++ 40%N :: rest) = name.
Proof.
  intros before name after rest Hb Ha Hn. unfold fun_name.
  assert (T : takewhile (fun c => negb (N.eqb c 40)) (before ++ name ++ after ++ 40%N :: rest) = before ++ name ++ after).
  { rewrite (app_assoc before), (app_assoc (before ++ name)), takewhile_app_all; [cbn; rewrite app_nil_r; now rewrite app_assoc|].
    rewrite !forallb_app. assert (Sp : forall l, Forall (fun c => is_space c = true) l -> forallb (fun c => negb (N.eqb c 40)) l = true).
    { intros l H. apply forallb_forall. intros c Hc. apply (proj1 (Forall_forall _ _) H) in Hc. destruct (N.eqb_spec c 40) as [->|]; [discriminate Hc|reflexivity]. }
    rewrite (Sp _ Hb), (Sp _ Ha), andb_true_r. cbn [andb]. apply forallb_forall. intros c Hc. apply (proj1 (Forall_forall _ _) Hn) in Hc as [_ Hc].
    now destruct (N.eqb_spec c 40). }
  rewrite T. unfold strip, lstrip, rstrip.
  assert (Dr : forall sp l, Forall (fun c => is_space c = true) sp -> dropwhile is_space (sp ++ l) = dropwhile is_space l).
  { intros sp l H. induction H as [|c sp Hc H IH]; [reflexivity|]. cbn [app dropwhile]. now rewrite Hc. }
  assert (Ke : forall l, Forall (fun c => is_space c = false /\ c <> 40%N) l -> dropwhile is_space l = l).
  { intros [|c l] H; [reflexivity|]. apply Forall_cons_iff in H as [[H _] _]. cbn [dropwhile]. now rewrite H. }
  rewrite (Dr before) by exact Hb. destruct name as [|c name].
  - cbn [app]. rewrite <- (app_nil_r after), (Dr after [] Ha). reflexivity.
  - assert (E : dropwhile is_space ((c :: name) ++ after) = (c :: name) ++ after).
    { apply Forall_cons_iff in Hn as [[Hc _] _]. cbn [app dropwhile]. now rewrite Hc. }
    rewrite E, rev_app_distr, (Dr (rev after)) by now apply Forall_rev. rewrite Ke by now apply Forall_rev. apply rev_involutive.
Qed.
Print Assumptions C29_function_name.
Example C29_function_name_example : fun_name (L " greet (name, x='(')") = L "greet".
Proof. reflexivity. Qed.

(** How deep calls may be nested does not matter for a rendering that is not cut off. *)
Theorem C29_depth : forall py files n m f context, n <= m ->
  run_file py files n f context = Raise "RecursionError" \/ run_file py files m f context = run_file py files n f context.
Proof. intros py files n m f context H. destruct (run_upto py files n m f context H) as [E|E]; [right; symmetry; exact E|left; exact E]. Qed.
Print Assumptions C29_depth.

(** A small Python: names, texts in quotes, attributes, calls [f(a,b)] and [o.f(a,b)] with positional
    arguments, assignments [x=e]; texts are iterated over by character. *)
Definition demo_quoted (x : str) : option str :=
  match x with c :: x' => if N.eqb c 39 then Some (takewhile (fun c => negb (N.eqb c 39)) x') else None | [] => None end.
Definition demo_arg (x : str) : arg :=
  match demo_quoted x with Some t => ArgFun [] (fun _ => Ok (VStr t)) | None => ArgName x end.
Definition demo_args (x : str) : list (option str * arg) :=
  match x with [] => [] | _ => map (fun a => (None, demo_arg a)) (split_c 44 x) end.
Definition demo_parse (x : str) : expr :=
  match demo_quoted x with
  | Some t => EFun [] (fun _ => Ok (VStr t))
  | None =>
      let f := takewhile (fun c => negb (N.eqb c 40)) x in
      match dropwhile (fun c => negb (N.eqb c 40)) x with
      | [] => match dropwhile (fun c => negb (N.eqb c 46)) x with
              | [] => EName x
              | _ :: k => EAttr (takewhile (fun c => negb (N.eqb c 46)) x) k
              end
      | _ :: rest =>
          let args := demo_args (takewhile (fun c => negb (N.eqb c 41)) rest) in
          match dropwhile (fun c => negb (N.eqb c 46)) f with
          | [] => ECall (ByName f) args
          | _ :: m => ECall (ByAttr (takewhile (fun c => negb (N.eqb c 46)) f) m) args
          end
      end
  end.
Definition demo_for (d : str) : list str * expr :=
  match find (L " in ") d with Some i => ([firstn i d], demo_parse (skipn (i + 4) d)) | None => ([], EName d) end.
Definition demo_block (lines : list str) : list pystm :=
  map (fun l => PySet (takewhile (fun c => negb (N.eqb c 61)) l) (demo_parse (skipn 1 (dropwhile (fun c => negb (N.eqb c 61)) l)))) lines.
Definition demo_names (d : str) : list str :=
  match dropwhile (fun c => negb (N.eqb c 40)) d with
  | _ :: r => match takewhile (fun c => negb (N.eqb c 41)) r with [] => [] | ps => split_c 44 ps end
  | [] => []
  end.
Definition demo_params (d : str) (ks : list (option str)) : result (list (str * (nat + value))) :=
  if Nat.eqb (length (demo_names d)) (length ks)
  then Ok (combine (demo_names d) (map inl (seq 0 (length (demo_names d))))) else Raise "TypeError".
Definition demo : python :=
  Python demo_parse demo_block demo_for (fun v => match v with VStr [] | VNone => false | _ => true end)
    (fun v => match v with VStr s => Ok (map (fun c => VStr [c]) s) | _ => Raise "TypeError" end)
    (fun _ => Raise "TypeError") (fun _ => Ok []) demo_params
    (fun a b => match a, b with VStr s, VStr t => seqb s t | _, _ => false end)
    (fun s => VStr (s ++ L "!")) (fun _ _ => Raise "TypeError") (fun _ _ _ => Raise "AttributeError") (fun _ _ => Raise "AttributeError") (fun _ => None).
Definition demo_gen (x : str) : Prop := prefixb (L "_kj_") x = true /\ M_Exec.is_name x = true.

Definition page (defs : list node) : file := (TemplateNode 1 [] defs, [], []).
(** A layout with a block, a page that overrides it, uses it (with an assignment, as py:block does) and calls
    a function with a body, an included list. *)
Definition layout : file := page
  [NDef 1 false (L "__main__()")
     [NText 1 (L "<h1>") None; NExpr 1 (L "title()") false; NText 1 (L "</h1>") None; NExpr 1 (L "foot(x)") false];
   NDef 2 false (L "title()") [NText 2 (L "Layout") None];
   NDef 3 false (L "foot(y)") [NText 3 (L "<i>") None; NExpr 3 (L "y") false; NText 3 (L "</i>") None]].
Definition child : file := page
  [NDef 1 false (L "__main__()") [NExtend 1 (L "layout.html")];
   NDef 2 false (L "title()")
     [NPython 0 [L "parent_block=parent.title"] false;
      NText 2 (L "Child of ") None; NExpr 2 (L "parent_block()") false; NText 2 (L ": ") None;
      NDef 3 true (L "wrap(f)") [NText 3 (L "[") None; NFor 3 (L "x in '12'") [NExpr 3 (L "f(x)") false]; NText 3 (L "]") None];
      NCall 4 (L "_kj_4(n)") (L "wrap(_kj_4)") [NText 4 (L "<b>") None; NExpr 4 (L "n") false; NText 4 (L "</b>") None];
      NInclude 5 (L "list.html")]].
Definition list_page : file := page
  [NDef 1 false (L "__main__()")
     [NFor 1 (L "c in x") [NText 1 (L "<li") None; NAttr 1 (L "class") [NExpr 1 (L "c") true] None (L "xml") (L "_kj_1") (L "_kj_2") (L "_kj_3");
                           NText 1 (L "/>") None]]].
Definition demo_files (fragment : bool) (name : str) : result file :=
  if seqb name (L "layout.html") then Ok layout else if seqb name (L "list.html") then Ok list_page else Raise "OSError".
Example C29_whole_example :
  generated_names demo demo_gen /\
  (forall fragment name f, demo_files fragment name = Ok f -> a_file demo demo_gen f) /\ a_file demo demo_gen child /\
  object_names [(L "x", VStr (L "<&"))] /\
  run_file demo demo_files 5 child [(L "x", VStr (L "<&"))] =
  Ok (L "<h1>Child of Layout: [<b>1</b><b>2</b>]<li class=""&lt;""/><li class=""&amp;""/></h1><i>&lt;&amp;</i>") /\
  run_file demo demo_files 2 child [(L "x", VStr (L "<&"))] = Raise "RecursionError".
Proof.
  assert (G : generated_names demo demo_gen).
  { intros x [Hp Hn]. unfold demo, parse, demo_parse.
    assert (Q : demo_quoted x = None).
    { destruct x as [|c x]; [reflexivity|]. unfold demo_quoted. destruct (N.eqb_spec c 39) as [->|]; [discriminate Hp|reflexivity]. }
    rewrite Q. assert (D : dropwhile (fun c => negb (N.eqb c 40)) x = []).
    { unfold M_Exec.is_name in Hn. destruct x as [|c x]; [reflexivity|]. clear Hp Q. remember (c :: x) as y. clear Heqy.
      induction y as [|d y IH]; [reflexivity|]. cbn [forallb] in Hn. apply andb_true_iff in Hn as [Hd Hy]. cbn [dropwhile].
      destruct (N.eqb_spec d 40) as [->|]; [discriminate Hd|]. cbn [negb]. now apply IH. }
    assert (D2 : dropwhile (fun c => negb (N.eqb c 46)) x = []).
    { unfold M_Exec.is_name in Hn. destruct x as [|c x]; [reflexivity|]. clear Hp Q D. remember (c :: x) as y. clear Heqy.
      induction y as [|d y IH]; [reflexivity|]. cbn [forallb] in Hn. apply andb_true_iff in Hn as [Hd Hy]. cbn [dropwhile].
      destruct (N.eqb_spec d 46) as [->|]; [discriminate Hd|]. cbn [negb]. now apply IH. }
    rewrite D, D2. split; [reflexivity|]. intros [E|[E|[E|[]]]]; subst x; discriminate Hp. }
  assert (NG : forall x, prefixb (L "_kj_") x = false -> ~ demo_gen x) by (intros x H [H1 _]; congruence).
  assert (NP : forall d, Forall (a_name demo_gen) (demo_names d) -> forall ks l, bind_params demo d ks = Ok l -> Forall (fun xa => a_name demo_gen (fst xa)) l).
  { intros d H ks l E. cbn [demo bind_params] in E. unfold demo_params in E. destruct (Nat.eqb _ _); [|discriminate].
    assert (l = combine (demo_names d) (map inl (seq 0 (length (demo_names d))))) as -> by congruence. rewrite Forall_forall in *.
    intros [x a] Hx. apply H. apply in_combine_l in Hx. exact Hx. }
  assert (A : a_file demo demo_gen layout /\ a_file demo demo_gen child /\ a_file demo demo_gen list_page).
  { split; [|split].
    all: cbv [a_file layout child list_page page defs object_names map fst]; split; [cbv [function_in_place]; repeat first [exact Logic.I|reflexivity|apply Forall_nil|apply Forall_cons|split|(intros E; discriminate E)]|]; split; [|split; split; constructor].
    all: repeat (match goal with |- _ \/ _ => fail 1 | |- _ => constructor end); cbn [well_named].
    all: match goal with
         | |- ~ demo_gen _ \/ _ => first [left; apply NG; reflexivity|right; vm_compute; reflexivity]
         | |- ~ demo_gen _ => apply NG; reflexivity
         | |- ~ In _ reserved => intros [E|[E|[E|[]]]]; vm_compute in E; discriminate E
         | |- forall ks l, bind_params _ _ _ = Ok _ -> _ => apply NP; repeat constructor; first [apply NG; reflexivity|intros [E|[E|[E|[]]]]; vm_compute in E; discriminate E]
         end. }
  split; [exact G|]. split; [|split; [|split; [|split]]].
  - intros fr name f. unfold demo_files. destruct (seqb name (L "layout.html")); [intros E; assert (f = layout) as -> by congruence; tauto|].
    destruct (seqb name (L "list.html")); [intros E; assert (f = list_page) as -> by congruence; tauto|discriminate].
  - tauto.
  - split; [repeat constructor; intros []|]. constructor; [|constructor]. intros [E|[E|[E|[]]]]; discriminate E.
  - vm_compute. reflexivity.
  - vm_compute. reflexivity.
Qed.

(** Python's parser accepts exactly the templates that have a reading, if everything in them is in place;
    and whatever has a reading is. *)
Theorem C29_accepted : forall l, Forall (in_place false) l ->
  (M_Exec.parses_all M_Exec.BNone (programs l) = true <-> structure l <> None).
Proof. intros l I. rewrite (P_Run12.body_exact l I). destruct (structure l); split; intros H; try reflexivity; discriminate || now elim H. Qed.
Print Assumptions C29_accepted.
Theorem C29_in_place : forall l, structure l <> None -> Forall (in_place false) l.
Proof. intros l H. destruct (structure l) as [ss|] eqn:E; [|now elim H]. now apply (P_Run12.structure_placed l ss). Qed.
Print Assumptions C29_in_place.
(** For templates: those without a reading are refused when they are loaded. *)
Theorem C29_refused : forall py files depth t given module context, Forall function_in_place (defs t) -> functions_of (defs t) = None ->
  run_file py files depth (t, given, module) context = Raise "KajikiSyntaxError".
Proof.
  intros py files depth t given module context F E. unfold run_file, class_of. rewrite (P_Run12.class_exact _ F), E. now destruct (defs t).
Qed.
Print Assumptions C29_refused.
Theorem C29_loaded : forall t given module, Forall function_in_place (defs t) ->
  ((exists c, class_of (t, given, module) = Ok c) <-> defs t <> [] /\ functions_of (defs t) <> None).
Proof.
  intros t given module F. unfold class_of. rewrite (P_Run12.class_exact _ F). destruct (defs t) as [|n l] eqn:Ed.
  - split; [intros [c E]; discriminate E|intros [H _]; now elim H].
  - rewrite <- Ed in *. assert (defs t <> []) by (rewrite Ed; discriminate). clear Ed. destruct (functions_of (defs t)) as [fs|] eqn:E; cbn [P_Run12.is_some].
    + split; [intros _; split; [assumption|discriminate]|]. intros _. unfold template_class.
      assert (G : forall l fs, functions_of l = Some fs -> exists gs, class_functions (programs l) = Some gs).
      { clear. induction l as [|n l IH]; intros fs E; [now exists []|]. destruct n as [| | | |ln i d b| | | | | | | | | | | | | ]; try discriminate E. destruct i; [discriminate E|]. cbn [functions_of] in E.
        destruct (S_Exec.obind (structure b) (fun b' => not_empty (or_pass b'))); [|discriminate]. cbn [S_Exec.obind] in E. destruct (functions_of l) as [fs'|]; [|discriminate]. destruct (IH fs' eq_refl) as [gs E'].
        unfold programs in *. cbn [flat_map program app]. rewrite P_Run5.body_eq, join_tail. cbn [class_functions]. rewrite E'. cbn [option_map]. eexists. reflexivity. }
      destruct (G _ _ E) as [gs ->]. cbn [option_map]. eexists. reflexivity.
    + split; [intros [c X]; discriminate X|intros [_ X]; now elim X].
Qed.
Print Assumptions C29_loaded.

(** An else may follow a comment, the end of a guarded text or of a loop; not text, not another else.  A switch
    may have comments before its cases. *)
Definition with_else_after (l : list node) : list node := l ++ [NElse 3 [NText 3 (L "else") None]].
Example C29_else_example :
  let show := fun b => run_file demo demo_files 5 (page [NDef 1 false (L "__main__()") (with_else_after b)]) [(L "x", VStr [])] in
  show [NIf 1 (L "x") [NText 1 (L "if") None]; NPython 2 [L "# comment"] false] = Ok (L "else") /\
  show [NText 1 (L "guarded") (Some (L "x"))] = Ok (L "else") /\
  show [NFor 1 (L "y in x") [NText 1 (L "if") None]] = Ok (L "else") /\
  show [NIf 1 (L "x") [NText 1 (L "if") None];
        NElse 1 [NSwitch 1 (L "x") [NPython 2 [L "# comment"] false; NCase 1 (L "'1'") [NText 1 (L "1") None]; NPython 2 [L "# comment"] false; NElse 1 [NText 1 (L "2") None]]];
        NIf 1 (L "x") [NText 1 (L "if") None]] = Ok (L "2else") /\
  show [NIf 1 (L "x") [NText 1 (L "if") None]; NText 2 (L " ") None] = Raise "KajikiSyntaxError" /\
  show (with_else_after [NIf 1 (L "x") [NText 1 (L "if") None]]) = Raise "KajikiSyntaxError" /\
  Forall (in_place false) (with_else_after (with_else_after [NIf 1 (L "x") [NText 1 (L "if") None]])).
Proof. cbv zeta. do 6 (split; [vm_compute; reflexivity|]). repeat first [exact Logic.I|reflexivity|apply Forall_nil|apply Forall_cons|split]. Qed.

(** [<py:if test="x"/>], and a function of comments only, are syntax errors. *)
Example C29_empty_blocks :
  run_file demo demo_files 5 (page [NDef 1 false (L "__main__()") [NIf 1 (L "x") []]]) [] = Raise "KajikiSyntaxError" /\
  run_file demo demo_files 5 (page [NDef 1 false (L "__main__()") [NPython 1 [L "# no"] false]]) [] = Raise "KajikiSyntaxError" /\
  functions_of [NDef 1 false (L "__main__()") [NIf 1 (L "x") []]] = None.
Proof. repeat split; vm_compute; reflexivity. Qed.

(** ** C62: calls leave the variables of their callers alone *)

(** Whatever is called, and whatever it does, every variable of all functions that are running has
    afterwards what it had before; for every place in them the variables read the same. *)
Theorem C62_variables : forall py load depth p x s v s',
  show_value py s_world (invoke py load depth) p x s = Ok (v, s') ->
  forall q y, Forall (fun f => f < length (w_frames (s_world s))) (p_scopes q) ->
  (exists f fr, In f (p_scopes q) /\ nth_error (w_frames (s_world s)) f = Some fr /\ In y (fr_names fr)) ->
  lookup py (s_world s') q y = lookup py (s_world s) q y.
Proof.
  intros py load depth p x s v s' H q y Hq Hy.
  pose proof (show_keeps py (invoke py load depth) (invoke_keeps_all py load depth) (length (w_frames (s_world s))) p x s v s' H) as [K1 K2].
  unfold lookup. revert Hq Hy. generalize "UnboundLocalError"%string. generalize (p_scopes q). induction l as [|f fs IH]; intros err Hq Hy; [destruct Hy as (f & fr & [] & _)|].
  apply Forall_cons_iff in Hq as [Hf Hq]. cbn [find_name]. rewrite K2 by lia. destruct (nth_error (w_frames (s_world s)) f) as [fr|] eqn:E.
  - destruct (smem y (fr_names fr)) eqn:M; [reflexivity|]. apply IH; [assumption|]. destruct Hy as (f1 & fr1 & [<-|I1] & E1 & I2); [|now exists f1, fr1].
    assert (fr1 = fr) as -> by congruence. apply smem_In in I2. congruence.
  - apply nth_error_None in E. lia.
Qed.
Print Assumptions C62_variables.

(** A function inside of another one binds the same name; its caller shows its own. *)
Definition shadow : list node :=
  [NDef 1 true (L "f(y)") [NWith 1 [(L "x", L "'2'")] [NExpr 1 (L "x") true; NExpr 1 (L "y") true]];
   NWith 2 [(L "x", L "'1'")] [NExpr 2 (L "f(x)") true; NExpr 2 (L "x") true]].
Definition shadow_state : state :=
  State (World [] [Frame [L "x"; L "f"] [(L "x", val (VStr (L "1")));
    (L "f", GObj _ _ (RC (L "f(y)") (programs [NFor 1 (L "x in '23'") [NExpr 1 (L "x") true]; NExpr 1 (L "y") true]) 0 [0]))]])
    (fun _ => []) (fun _ => []).
Example C62_example :
  run_file demo demo_files 5 (page [NDef 1 false (L "__main__()") shadow]) [] = Ok (L "211") /\
  match show_value demo s_world (invoke demo (fun _ _ => Raise "OSError") 2) (Place 0 [0]) (L "f(x)") shadow_state with
  | Ok (v, s') => render [v] = L "231" /\ lookup demo (s_world s') (Place 0 [0]) (L "x") = Ok (val (VStr (L "1")))
                  /\ length (w_frames (s_world s')) = 2
  | Raise _ => False
  end /\
  Forall (fun f => f < length (w_frames (s_world shadow_state))) [0] /\
  (exists f fr, In f [0] /\ nth_error (w_frames (s_world shadow_state)) f = Some fr /\ In (L "x") (fr_names fr)).
Proof.
  split; [vm_compute; reflexivity|]. split; [vm_compute; repeat split|]. split; [repeat constructor|].
  eexists 0, _. split; [now left|]. split; [reflexivity|]. now left.
Qed.

(** ** C63: names of the context and directives that bind them *)

(** In a template that does not bind [x], [x] is the value in the context. *)
Theorem C63_shown_partial : forall py gen files depth ln mp l1 l2 x v b given module context ss o,
  let f := (TemplateNode ln mp [NDef l1 false (L "__main__()") (NExpr l2 x true :: b)], given, module) in
  generated_names py gen -> (forall fragment name f, files fragment name = Ok f -> a_file py gen f) ->
  a_file py gen f -> object_names context -> bind_params py (L "__main__()") [] = Ok [] -> parse py x = EName x ->
  structure b = Some ss -> ~ In x (flat_map (binds py) ss) -> In (x, v) context -> x <> L "_" -> x <> L "value_of" ->
  run_file py files (S depth) f context = Ok o -> exists o', o = render [v] ++ o'.
Proof.
  intros py gen files depth ln mp l1 l2 x v b given module context ss o f Hg Hf F C Hb Hx Hs Hi Hv N1 N2.
  rewrite (run_file_means py gen Hg files (S depth) f context Hf F C). subst f. destruct F as (_ & _ & Gg & Gm).
  eapply context_shown; eassumption.
Qed.
Print Assumptions C63_shown_partial.
(** If any directive of the template binds [x] (py:for, py:with, py:def, wherever it is), showing [x] before
    that is an error, whatever the context says. *)
Theorem C63_before_refuted : forall py gen files depth ln mp l1 l2 x safe b given module context ss,
  let f := (TemplateNode ln mp [NDef l1 false (L "__main__()") (NExpr l2 x safe :: b)], given, module) in
  generated_names py gen -> (forall fragment name f, files fragment name = Ok f -> a_file py gen f) ->
  a_file py gen f -> object_names context -> bind_params py (L "__main__()") [] = Ok [] -> parse py x = EName x ->
  structure b = Some ss -> In x (flat_map (binds py) ss) ->
  run_file py files (S depth) f context = Raise "UnboundLocalError".
Proof.
  intros py gen files depth ln mp l1 l2 x safe b given module context ss f Hg Hf F C Hb Hx Hs Hi.
  rewrite (run_file_means py gen Hg files (S depth) f context Hf F C). eapply unbound_before; eassumption.
Qed.
Print Assumptions C63_before_refuted.
(** After a py:with it shows as the empty tuple. *)
Theorem C63_after_refuted : forall py gen files depth ln mp l1 l2 l3 l4 x e t v given module context,
  let f := (TemplateNode ln mp [NDef l1 false (L "__main__()") [NWith l2 [(x, e)] [NText l3 t None]; NExpr l4 x true]], given, module) in
  generated_names py gen -> (forall fragment name f, files fragment name = Ok f -> a_file py gen f) ->
  a_file py gen f -> object_names context -> bind_params py (L "__main__()") [] = Ok [] -> parse py x = EName x ->
  parse py e = EFun [] (fun _ => Ok v) ->
  run_file py files (S depth) f context = Ok (t ++ L "()").
Proof.
  intros py gen files depth ln mp l1 l2 l3 l4 x e t v given module context f Hg Hf F C Hb Hx He.
  rewrite (run_file_means py gen Hg files (S depth) f context Hf F C). eapply unit_after; eassumption.
Qed.
Print Assumptions C63_after_refuted.

Definition loop_x : list node := [NFor 2 (L "x in '12'") [NExpr 2 (L "x") true]].
Example C63_example :
  let show := fun b => run_file demo demo_files 5 (page [NDef 1 false (L "__main__()") b]) [(L "x", VStr (L "c"))] in
  show [NExpr 1 (L "x") true; NFor 2 (L "y in '12'") [NExpr 2 (L "y") true]] = Ok (L "c12") /\
  show (NExpr 1 (L "x") true :: loop_x) = Raise "UnboundLocalError" /\
  show loop_x = Ok (L "12") /\
  show [NWith 1 [(L "x", L "'1'")] [NText 1 (L "w") None]; NExpr 1 (L "x") true] = Ok (L "w()") /\
  bind_params demo (L "__main__()") [] = Ok [] /\ parse demo (L "x") = EName (L "x") /\
  structure loop_x <> None /\ In (L "x") (flat_map (binds demo) [RFor (L "x in '12'") [RExpr (L "x") true] []]).
Proof. cbv zeta. repeat (split; [vm_compute; first [reflexivity|discriminate]|]). now left. Qed.
