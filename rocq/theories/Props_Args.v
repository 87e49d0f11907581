(** * Arguments of template functions: theorems C75 *)

From Coq Require Import Ascii String List NArith ZArith Bool Lia Arith.
From Verif Require Import PyStr PyStrLemmas M_Template M_Args S_Args P_Args.
Import ListNotations.
Open Scope list_scope.
Open Scope nat_scope.

(** Functions as Python makes them: parameters with different names, at most as many defaults as positional
    parameters, defaults for keyword-only parameters. *)
Definition a_function {V code} (f : pyfun V code) : Prop :=
  NoDup (parameters (f_sig V code f)) /\ NoDup (map fst (f_kwdefaults V code f)) /\
  length (f_defaults V code f) <= length (positional (f_sig V code f)).

(** Python's own calls: the parameters receive what the language says, or there is a TypeError. *)
Theorem C75_python : forall V code (f : pyfun V code) args kws, a_function f -> NoDup (map fst kws) ->
  let ok := allowed V (f_sig _ _ f) (f_defaults _ _ f) (f_kwdefaults _ _ f) args kws in
  match call_python V code f args kws with
  | Ok (body, globals, vars) =>
      ok /\ body = f_body _ _ f /\ globals = f_globals _ _ f /\ map fst vars = parameters (f_sig _ _ f) /\
      forall p b, In (p, b) vars <-> In p (parameters (f_sig _ _ f)) /\ receives V (f_sig _ _ f) (f_defaults _ _ f) (f_kwdefaults _ _ f) args kws p b
  | Raise e => e = "TypeError"%string /\ ~ ok
  end.
Proof.
  intros V code f args kws (H1 & H2 & H3) H4 ok. unfold call_python. destruct (bind_arguments V code f args kws) as [vars|e] eqn:E; cbn [rmap].
  - pose proof (proj1 (bind_exact V code f args kws H1 H4 H2 H3 vars) E) as (A & K & R). split; [exact A|]. split; [reflexivity|]. split; [reflexivity|]. split; [exact K|].
    intros p b. split; [intros I1; split; [rewrite <- K; apply in_map_iff; now exists (p, b)|now apply R]|]. intros [I1 Rb]. rewrite <- K in I1.
    apply in_map_iff in I1 as ([q b'] & <- & I1). cbn [fst] in *.
    assert (b = b') as -> by (apply (receives_unique V code f args kws H1 H4 H2 H3 A q); [exact Rb|now apply R]). exact I1.
  - split; [eapply bind_error; eassumption|]. intros A. destruct (bind_total V code f args kws H1 H4 H2 H3 A) as [env E']. congruence.
Qed.
Print Assumptions C75_python.

(** A function of a template, also one that is inherited from a template any number of levels up, is called like the
    function that was declared, in the globals of its instance: if no keyword-only parameter has a default, and no
    argument is given by the keyword [self]. *)
Theorem C75_function_partial : forall V code w through this (f : pyfun V code) globals args kws, NoDup (map fst kws) ->
  f_kwdefaults _ _ f = [] -> ~ In (L "self") (map fst kws) ->
  call_inherited V code w through this f globals args kws =
  rmap (fun c => (fst (fst c), globals, snd c)) (call_python V code f args kws).
Proof.
  intros V code w through this f globals args kws N H Ns. rewrite inherited_is by exact N. apply smem_notIn in Ns. rewrite Ns.
  unfold call_python, bind_globals.
  assert (E : bind_arguments V code (PyFun V code (f_sig _ _ f) (f_body _ _ f) globals (f_defaults _ _ f) []) args kws = bind_arguments V code f args kws).
  { destruct f as [sg b g d k]. cbn in H. subst k. reflexivity. }
  rewrite E. cbn [f_body f_globals]. now destruct (bind_arguments V code f args kws).
Qed.
Print Assumptions C75_function_partial.
(** [self] cannot be given by keyword, even if the function has a parameter of that name. *)
Theorem C75_self_refuted : forall V code w through this (f : pyfun V code) globals args kws, NoDup (map fst kws) ->
  In (L "self") (map fst kws) -> call_inherited V code w through this f globals args kws = Raise "TypeError".
Proof. intros V code w through this f globals args kws N I1. rewrite inherited_is by exact N. apply smem_In in I1. now rewrite I1. Qed.
Print Assumptions C75_self_refuted.
(** A default of a keyword-only parameter is lost: a call that leaves the parameter out is an error. *)
Theorem C75_keyword_default_refuted : forall V code w through this (f : pyfun V code) globals args kws p v, a_function f -> NoDup (map fst kws) ->
  In p (s_kwonly (f_sig _ _ f)) -> In (p, v) (f_kwdefaults _ _ f) -> ~ In p (map fst kws) ->
  call_inherited V code w through this f globals args kws = Raise "TypeError".
Proof.
  intros V code w through this f globals args kws p v (H1 & H2 & H3) H4 Ip Iv Nk. rewrite inherited_is by exact H4. destruct (smem _ _); [reflexivity|].
  pose proof (C75_python V code (bind_globals V code f globals) args kws) as C. cbv zeta in C.
  assert (A : a_function (bind_globals V code f globals)) by (split; [exact H1|]; split; [constructor|exact H3]). specialize (C A H4).
  destruct (call_python _ _ _ args kws) as [[[b g] vars]|e]; [|destruct C as [-> _]; reflexivity]. exfalso.
  destruct C as ((_ & _ & _ & All) & _). cbn [bind_globals f_sig f_defaults f_kwdefaults] in All.
  assert (Nd : forall q, In q (option_list (s_varargs (f_sig _ _ f)) ++ option_list (s_varkw (f_sig _ _ f))) -> q <> p).
  { intros q Iq ->. unfold parameters in H1. apply NoDup_app_remove_l in H1. apply in_split in Ip as (l1 & l2 & E). rewrite E, <- app_assoc in H1. cbn [app] in H1.
    apply NoDup_remove_2 in H1. apply H1. rewrite !in_app_iff. right. right. now apply in_app_iff. }
  assert (Np : ~ In p (positional (f_sig _ _ f))).
  { intros Iq. unfold parameters in H1. apply in_split in Iq as (l1 & l2 & E). rewrite E, <- app_assoc in H1. cbn [app] in H1. apply NoDup_remove_2 in H1.
    apply H1. rewrite !in_app_iff. right. right. now left. }
  destruct (All p) as [bd R]; [unfold parameters; rewrite !in_app_iff; right; now left|].
  destruct R as [v1 (i & Ei & _)|v1 [_ Iw]|v1 _ _ _ [(b0 & a0 & b1 & a1 & E & _)|[_ []]]|Ev|Ev].
  - apply Np. eapply nth_error_In; eassumption.
  - apply Nk. apply in_map_iff. now exists (p, v1).
  - apply Np. rewrite E. apply in_app_iff. right. now left.
  - apply (Nd p); [rewrite Ev; now left|reflexivity].
  - apply (Nd p); [rewrite Ev; apply in_app_iff; right; now left|reflexivity].
Qed.
Print Assumptions C75_keyword_default_refuted.
(** A function defined inside of another one is called as declared. *)
Theorem C75_inner : forall V code w (f : pyfun V code) args kws, NoDup (map fst kws) ->
  call_decorated V code w f args kws = call_python V code f args kws.
Proof. intros. now apply decorated_is. Qed.
Print Assumptions C75_inner.

(** Defaults: every default is what it names where the function is defined, which for a function of a template is
    the module, when it is loaded: a default naming anything else makes loading fail, whatever the context will be. *)
Theorem C75_defaults : forall V code s body globals ds kds names,
  match define_function V code s body globals ds kds names with
  | Ok f => f_sig _ _ f = s /\ f_body _ _ f = body /\ f_globals _ _ f = globals /\
      Forall2 (fun d v => d = Constant V v \/ exists x, d = Name V x /\ get x names = Some v) ds (f_defaults _ _ f) /\
      Forall2 (fun kd kv => fst kd = fst kv /\ (snd kd = Constant V (snd kv) \/ exists x, snd kd = Name V x /\ get x names = Some (snd kv))) kds (f_kwdefaults _ _ f)
  | Raise e => e = "NameError"%string /\ exists x, (In (Name V x) ds \/ In (Name V x) (map snd kds)) /\ ~ In x (map fst names)
  end.
Proof.
  intros V code s body globals ds kds names. unfold define_function.
  assert (Dv : forall d, match default_value V names d with
     | Ok v => d = Constant V v \/ exists x, d = Name V x /\ get x names = Some v
     | Raise e => e = "NameError"%string /\ exists x, d = Name V x /\ ~ In x (map fst names) end).
  { intros [v|x]; cbn [default_value]; [now left|]. destruct (get x names) as [v|] eqn:E; [right; now exists x|]. split; [reflexivity|]. exists x. split; [reflexivity|].
    now apply P_Template.get_none in E. }
  assert (R1 : match rseq (map (default_value V names) ds) with
     | Ok vs => Forall2 (fun d v => d = Constant V v \/ exists x, d = Name V x /\ get x names = Some v) ds vs
     | Raise e => e = "NameError"%string /\ exists x, In (Name V x) ds /\ ~ In x (map fst names) end).
  { induction ds as [|d ds IH]; cbn [map rseq]; [constructor|]. specialize (Dv d). destruct (default_value V names d) as [v|e]; cbn [rbind].
    - destruct (rseq _) as [vs|e]; cbn [rmap]; [now constructor|]. destruct IH as [E (x & I1 & N)]. split; [exact E|]. exists x. split; [now right|exact N].
    - destruct Dv as [E (x & -> & N)]. split; [exact E|]. exists x. split; [now left|exact N]. }
  assert (R2 : match rseq (map (fun kd => rmap (pair (fst kd)) (default_value V names (snd kd))) kds) with
     | Ok ks => Forall2 (fun kd kv => fst kd = fst kv /\ (snd kd = Constant V (snd kv) \/ exists x, snd kd = Name V x /\ get x names = Some (snd kv))) kds ks
     | Raise e => e = "NameError"%string /\ exists x, In (Name V x) (map snd kds) /\ ~ In x (map fst names) end).
  { clear R1. induction kds as [|[k d] kds IH]; cbn [map rseq fst snd]; [constructor|]. specialize (Dv d). destruct (default_value V names d) as [v|e]; cbn [rbind rmap].
    - destruct (rseq _) as [vs|e]; cbn [rmap]; [constructor; [now split|exact IH]|]. destruct IH as [E (x & I1 & N)]. split; [exact E|]. exists x. split; [now right|exact N].
    - destruct Dv as [E (x & -> & N)]. split; [exact E|]. exists x. split; [now left|exact N]. }
  destruct (rseq (map (default_value V names) ds)) as [vs|e]; cbn [rbind].
  - destruct (rseq _) as [ks|e]; cbn [rbind].
    + cbn [f_sig f_body f_globals f_defaults f_kwdefaults]. auto.
    + destruct R2 as [E (x & I1 & N)]. split; [exact E|]. exists x. auto.
  - destruct R1 as [E (x & I1 & N)]. split; [exact E|]. exists x. auto.
Qed.
Print Assumptions C75_defaults.

(** [def f(a, b=2, *c, d=4, **e)] *)
Definition f_example : pyfun N unit :=
  PyFun N unit (Signature [] [L "a"; L "b"] (Some (L "c")) [L "d"] (Some (L "e"))) tt 0 [2%N] [(L "d", 4%N)].
Example C75_example : a_function f_example /\
  call_python N unit f_example [1%N] [(L "x", 9%N)] =
    Ok (tt, 0, [(L "a", One N 1%N); (L "b", One N 2%N); (L "d", One N 4%N); (L "c", Rest N []); (L "e", Others N [(L "x", 9%N)])]) /\
  call_inherited N unit tt [100%N] 101%N f_example 7 [1%N] [(L "x", 9%N)] = Raise "TypeError" /\
  call_inherited N unit tt [100%N] 101%N f_example 7 [1; 5; 6]%N [(L "d", 9%N)] =
    Ok (tt, 7, [(L "a", One N 1%N); (L "b", One N 5%N); (L "d", One N 9%N); (L "c", Rest N [6%N]); (L "e", Others N [])]) /\
  call_python N unit f_example [1%N] [(L "a", 9%N)] = Raise "TypeError" /\
  define_function N unit (Signature [] [L "a"] None [] None) tt 0 [Name N (L "site")] [] [(L "kajiki", 0%N)] = Raise "NameError".
Proof.
  split; [|repeat split; vm_compute; reflexivity]. split; [|split; [|cbn; lia]].
  - change (parameters (f_sig _ _ f_example)) with [L "a"; L "b"; L "d"; L "c"; L "e"]. repeat constructor; vm_compute; intuition discriminate.
  - repeat constructor. intros [].
Qed.
