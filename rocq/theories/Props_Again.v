(** * One object rendered several times: theorems C85 *)

From Coq Require Import Ascii String List NArith ZArith Bool Lia Arith.
From Verif Require Import PyStr PyStrLemmas M_Values M_IR S_IR M_Template M_Run S_Run M_Process P_Run8 S_Again P_Again2 Props_Run Props_Process.
Import ListNotations.
Open Scope list_scope.

(** ** C85: rendering an object again gives the same page *)

(** An object of a template that uses no other templates, made in any process: each of its renderings gives the text of
    the template alone, or the first raises its exception. *)
Theorem C85_again : forall py gen files depth f context s n, generated_names py gen ->
  (forall fragment name f, files fragment name = Ok f -> a_file py gen f \/ refused f) -> a_file py gen f -> object_names context -> file_by_itself f ->
  pages_of_object py files depth (S n) f context s = rmap (fun t => repeat t (S n)) (run_file py files depth f context).
Proof. exact again. Qed.
Print Assumptions C85_again.

(** A template that assigns a variable for a while, and one that loops and has a computed attribute. *)
Definition again_page : file := page
  [NDef 1 false (L "__main__()") [NWith 2 [(L "y", L "x")] [NExpr 3 (L "y") false; NText 3 (L "-") None]; NExpr 4 (L "x") false]].
Example C85_example :
  let c := [(L "x", VStr (L "<&"))] in
  generated_names demo demo_gen /\ (forall fragment name f, demo_files fragment name = Ok f -> a_file demo demo_gen f \/ refused f) /\
  a_file demo demo_gen again_page /\ object_names c /\ file_by_itself again_page /\
  a_file demo demo_gen list_page /\ file_by_itself list_page /\
  pages_of_object demo demo_files 5 3 again_page c empty_process = Ok (repeat (L "&lt;&amp;-&lt;&amp;") 3) /\
  pages_of_object demo demo_files 5 2 list_page c empty_process = Ok (repeat (L "<li class=""&lt;""/><li class=""&amp;""/>") 2).
Proof.
  destruct C29_whole_example as (G & F & _ & O & _).
  assert (NG : forall x, prefixb (L "_kj_") x = false -> ~ demo_gen x) by (intros x H [H1 _]; congruence).
  assert (NP : forall d, Forall (a_name demo_gen) (demo_names d) -> forall ks l, bind_params demo d ks = Ok l -> Forall (fun xa => a_name demo_gen (fst xa)) l).
  { intros d H ks l E. cbn [demo bind_params] in E. unfold demo_params in E. destruct (Nat.eqb _ _); [|discriminate].
    assert (l = combine (demo_names d) (map inl (seq 0 (length (demo_names d))))) as -> by congruence. rewrite Forall_forall in *.
    intros [x a] Hx. apply H. apply in_combine_l in Hx. exact Hx. }
  cbv zeta. split; [exact G|]. split; [intros fr name f E; left; exact (F fr name f E)|].
  split; [|split; [exact O|split; [|split; [apply (F true (L "list.html")); reflexivity|split; [|split; vm_compute; reflexivity]]]]].
  - cbv [a_file again_page page defs object_names map fst]. split; [cbv [function_in_place]; repeat first [exact Logic.I|reflexivity|apply Forall_nil|apply Forall_cons|split|(intros E; discriminate E)]|]. split; [|split; split; constructor].
    repeat (match goal with |- _ \/ _ => fail 1 | |- _ => constructor end); cbn [well_named].
    all: match goal with
         | |- ~ demo_gen _ \/ _ => first [left; apply NG; reflexivity|right; vm_compute; reflexivity]
         | |- ~ demo_gen _ => apply NG; reflexivity
         | |- ~ In _ reserved => intros [E|[E|[E|[]]]]; vm_compute in E; discriminate E
         | |- forall ks l, bind_params _ _ _ = Ok _ -> _ => apply NP; repeat constructor; first [apply NG; reflexivity|intros [E|[E|[E|[]]]]; vm_compute in E; discriminate E]
         end.
  - intros fs E. vm_compute in E. assert (E' : fs = match functions_of (defs (fst (fst again_page))) with Some l => l | None => [] end) by (vm_compute; congruence). rewrite E'. vm_compute. repeat constructor.
  - intros fs E. vm_compute in E. assert (E' : fs = match functions_of (defs (fst (fst list_page))) with Some l => l | None => [] end) by (vm_compute; congruence). rewrite E'. vm_compute. repeat constructor.
Qed.
