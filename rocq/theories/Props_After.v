(** * One object after iterations that were left, failed or ended: theorems C87 *)

From Coq Require Import Ascii String List NArith ZArith Bool Lia Arith.
From Verif Require Import PyStr PyStrLemmas M_Values M_IR S_IR M_Template M_Run S_Run M_Process P_Run8 S_Again M_Conc S_Conc M_Same S_Same S_After P_After3 P_After4 P_Exec2 Props_Run Props_Process Props_Conc Props_Again.
From Verif Require M_Exec.
Import ListNotations.
Open Scope list_scope.

(** ** C87: what iterations leave behind does no harm *)

(** Any number of iterations over the object of a template that uses no other templates have begun and have taken turns; some
    ended, some failed, some were left in the middle of a py:with, a py:switch or a loop.  Then each rendering of the object
    gives the text of the template alone, or the first raises its exception. *)
Theorem C87_after : forall py gen files depth f context l y depth' n, generated_names py gen -> generated_functions py gen ->
  (forall fragment name f, files fragment name = Ok f -> a_file py gen f \/ refused f) -> a_file py gen f -> object_names context -> file_by_itself f ->
  run_iterations py files depth f context l = Ok y ->
  renders py (load_from files) depth' 0 (S n) (shared y) = rmap (fun t => repeat t (S n)) (run_file py files depth' f context).
Proof. exact after. Qed.
Print Assumptions C87_after.

(** And a further iteration that is not interrupted ends with that text, or with that exception.
    As its turns are turns like all others, so does the next one, and so on. *)
Theorem C87_iteration : forall py gen files depth f context l y, generated_names py gen -> generated_functions py gen ->
  (forall fragment name f, files fragment name = Ok f -> a_file py gen f \/ refused f) -> a_file py gen f -> object_names context -> file_by_itself f ->
  run_iterations py files depth f context l = Ok y ->
  exists n, forall m, n <= m -> exists y' t,
    run_iterations py files depth f context (l ++ Start :: repeat (Next (begun l)) m) = Ok y' /\ nth_error (threads y') (begun l) = Some t /\ ended t = Some (run_file py files depth f context).
Proof. exact iteration_after. Qed.
Print Assumptions C87_iteration.

(** The names that are generated in the examples. *)
Lemma demo_functions : generated_functions demo demo_gen.
Proof.
  intros x [Hp Hn]. assert (A : forallb M_Exec.is_name_char x = true) by (destruct x; [discriminate|exact Hn]).
  assert (T : takewhile (fun c => negb (N.eqb c 40)) (x ++ L "()") = x /\ dropwhile (fun c => negb (N.eqb c 40)) (x ++ L "()") = L "()").
  { clear Hp Hn. induction x as [|c x IH]; [now split|]. cbn [forallb] in A. apply andb_true_iff in A as [Ac A]. cbn [app takewhile dropwhile]. destruct (N.eqb_spec c 40) as [->|]; [discriminate Ac|]. cbn [negb]. destruct (IH A) as [-> ->]. now split. }
  destruct T as [T D]. split.
  - unfold fun_name. rewrite T, strip_solid.
    + intros [E|[E|[E|[]]]]; subst x; discriminate Hp.
    + rewrite forallb_forall in *. intros c I1. destruct (name_char_no_space c (A c I1)) as [-> _]. reflexivity.
  - intros ks l E. cbn [demo bind_params] in E. unfold demo_params, demo_names in E. rewrite D in E. cbn in E. destruct (length ks) in E; [|discriminate E]. injection E as <-. constructor.
Qed.
(** A template with py:with, a loop, py:switch and an attribute.  Two iterations are left within all of them, a third one ends
    in between: the object has stacks that are not empty, and its pages are the template's. *)
Definition left_page : file := page
  [NDef 1 false (L "__main__()")
     [NWith 2 [(L "y", L "'1'")]
        [NFor 3 (L "c in 'ab'")
           [NSwitch 4 (L "c") [NCase 4 (L "'a'") [NText 4 (L "A") None]; NElse 5 [NText 5 (L "-") None]];
            NText 6 (L "<i") None; NAttr 6 (L "class") [NExpr 6 (L "y") false] None (L "xml") (L "_kj_a1") (L "_kj_a2") (L "_kj_a3"); NText 6 (L "/>") None]];
      NExpr 7 (L "x") false]].
Definition left_turns : list turn := [Start; Start] ++ repeat (Next 0) 8 ++ repeat (Next 1) 7 ++ Start :: repeat (Next 2) 80 ++ [Next 1; Next 0].
Example C87_example :
  let c := [(L "x", VStr (L "<&"))] in
  generated_names demo demo_gen /\ generated_functions demo demo_gen /\ (forall fragment name f, demo_files fragment name = Ok f -> a_file demo demo_gen f \/ refused f) /\
  a_file demo demo_gen left_page /\ object_names c /\ file_by_itself left_page /\
  run_file demo demo_files 5 left_page c = Ok (L "A<i class=""1""/>-<i class=""1""/>&lt;&amp;") /\
  exists y, run_iterations demo demo_files 5 left_page c left_turns = Ok y /\
    map ended (threads y) = [None; None; Some (Ok (L "A<i class=""1""/>-<i class=""1""/>&lt;&amp;"))] /\
    length (s_with (shared y) 0) = 2 /\ length (s_switch (shared y) 0) = 2 /\
    renders demo (load_from demo_files) 5 0 3 (shared y) = Ok (repeat (L "A<i class=""1""/>-<i class=""1""/>&lt;&amp;") 3).
Proof.
  destruct C29_whole_example as (G & F & _ & O & _).
  assert (NG : forall x, prefixb (L "_kj_") x = false -> ~ demo_gen x) by (intros x H [H1 _]; congruence).
  assert (NP : forall d, Forall (a_name demo_gen) (demo_names d) -> forall ks l, bind_params demo d ks = Ok l -> Forall (fun xa => a_name demo_gen (fst xa)) l).
  { intros d H ks l E. cbn [demo bind_params] in E. unfold demo_params in E. destruct (Nat.eqb _ _); [|discriminate].
    assert (l = combine (demo_names d) (map inl (seq 0 (length (demo_names d))))) as -> by congruence. rewrite Forall_forall in *.
    intros [x a] Hx. apply H. apply in_combine_l in Hx. exact Hx. }
  cbv zeta. split; [exact G|]. split; [exact demo_functions|]. split; [intros fr name f E; left; exact (F fr name f E)|].
  split; [|split; [exact O|split; [|split; [vm_compute; reflexivity|]]]].
  - cbv [a_file left_page page defs object_names map fst]. split; [cbv [function_in_place]; repeat first [exact Logic.I|reflexivity|apply Forall_nil|apply Forall_cons|split|(intros E; discriminate E)]|]. split; [|split; split; constructor].
    repeat (match goal with |- _ \/ _ => fail 1 | |- demo_gen _ => fail 1 | |- _ => constructor end); cbn [well_named].
    all: match goal with
         | |- demo_gen _ => split; reflexivity
         | |- ~ demo_gen _ \/ _ => first [left; apply NG; reflexivity|right; vm_compute; reflexivity]
         | |- ~ demo_gen _ => apply NG; reflexivity
         | |- ~ In _ reserved => intros [E|[E|[E|[]]]]; vm_compute in E; discriminate E
         | |- forall ks l, bind_params _ _ _ = Ok _ -> _ => apply NP; repeat constructor; first [apply NG; reflexivity|intros [E|[E|[E|[]]]]; vm_compute in E; discriminate E]
         | |- _ => idtac
         end.
  - intros fs E. vm_compute in E. assert (E' : fs = match functions_of (defs (fst (fst left_page))) with Some l => l | None => [] end) by (vm_compute; congruence). rewrite E'. vm_compute. repeat constructor.
  - eexists. split; [vm_compute; reflexivity|]. split; [vm_compute; reflexivity|]. split; [vm_compute; reflexivity|]. split; vm_compute; reflexivity.
Qed.
