(** * Properties of running templates (C27 - C29)

    [py] is any semantics of Python expressions; [gen] the generated names, [user] the user's
    expressions, [hygienic] that these do not depend on the generated names. *)

From Coq Require Import Ascii String List NArith ZArith Bool.
From Verif Require Import PyStr PyStrLemmas M_Values M_IR S_IR M_Exec S_Exec P_Exec P_Exec2 P_Exec3 P_Exec4 P_Exec5 P_Errors.
Import ListNotations.
Open Scope list_scope.

(** ** A small Python for examples: [1], [2], ..., variables, [x in 1 2 3]. *)
Definition ex_value (e : env) (x : str) : result value :=
  match lookup x e with
  | Some v => Ok v
  | None => match x with
            | [c] => if ((48 <=? c) && (c <=? 57))%N then Ok (VStr [c]) else Raise "NameError"
            | _ => Raise "NameError"
            end
  end.
Definition ex_python : python := Python
  ex_value
  (fun e x => rmap (fun v => negb (seqb (to_str v) (L "0"))) (ex_value e x))
  (fun e d => match d with
              | x :: 32%N :: 105%N :: 110%N :: 32%N :: items => Ok (map (fun i => [([x], VStr [i])]) items)
              | _ => Raise "SyntaxError" end)
  (fun e x => Ok [])
  (fun v => match v with VStr s => Ok (map (fun c => VStr [c]) s) | _ => Raise "TypeError" end)
  (fun a b => seqb (to_str a) (to_str b))
  (fun s => VStr (s ++ L "!")).
Definition ex_gen (x : str) : Prop := prefixb (L "_kj") x = true.
Definition ex_user (x : str) : Prop := prefixb (L "_kj") x = false.
Lemma ex_hygienic : hygienic ex_python ex_gen ex_user.
Proof.
  assert (V : forall x e1 e2, ex_user x -> agree ex_gen e1 e2 -> ex_value e1 x = ex_value e2 x).
  { intros x e1 e2 U A. unfold ex_value. rewrite (A x); [reflexivity|]. unfold ex_gen, ex_user in *. congruence. }
  constructor; intros; cbn; try reflexivity.
  - now apply V.
  - now rewrite (V _ e1 e2).
  - unfold ex_value. now rewrite H0.
Qed.

(** ** C27: py:with is scoped *)

(** After a [py:with] has run: a variable it assigns that had a value has it again; every other
    variable is as the body left it; the stacks are as before.  (A variable it assigns that had no
    value before is left as an empty tuple.)  The body [b] is any list of directives, nested in any way. *)
Theorem C27_scoped : forall py gen user ln vars b ss c s o c' s',
  hygienic py gen user -> structure b = Some ss -> well_named gen user (NWith ln vars b) ->
  execs py (programs [NWith ln vars b]) c s = Ok (o, c', s') ->
  (forall k v, In k (map fst vars) -> lookup k (s_env s) = Some v -> lookup k (s_env s') = Some v) /\
  (exists e1 o2 e2, assigns py vars (s_env s) = Ok e1 /\ means py ss e1 = Ok (o2, e2) /\
     render o = render o2 /\
     forall k, ~ In k (map fst vars) -> ~ gen k -> lookup k (s_env s') = lookup k e2) /\
  (forall k, In k (map fst vars) -> lookup k (s_env s) = None -> lookup k (s_env s') = Some unit_value) /\
  s_with s' = s_with s /\ s_switch s' = s_switch s.
Proof. intros. eapply with_scoped; eassumption. Qed.
Print Assumptions C27_scoped.

(** [a=1; b=a] around a loop that assigns [c], inside which [a] is assigned again. *)
Definition ex_with : node :=
  NWith 1 [(L "a", L "1"); (L "b", L "a")]
    [NExpr 1 (L "b") false; NFor 2 (L "c in 78") [NWith 3 [(L "a", L "c")] [NExpr 3 (L "a") false]];
     NExpr 4 (L "a") false].
Example C27_example :
  structure [ex_with] <> None /\ well_named ex_gen ex_user ex_with /\
  match execs ex_python (programs [ex_with]) CNone (St_ [(L "a", VStr (L "old"))] [] [] []) with
  | Ok (o, _, s') => render o = L "1781" /\ lookup (L "a") (s_env s') = Some (VStr (L "old")) /\
                     lookup (L "c") (s_env s') = Some (VStr (L "8")) /\ lookup (L "b") (s_env s') = Some unit_value
  | Raise _ => False
  end.
Proof.
  split; [discriminate|]. split.
  - cbn. unfold plain, ex_user, ex_gen. repeat split; repeat constructor; discriminate.
  - vm_compute. repeat split; reflexivity.
Qed.

(** Several variables assigned by one unpacking are not given back: it ends in an exception. *)
Theorem C27_unpacking_refuted : forall py e w sw x v v1 v2,
  ev py e x = Ok v -> unpack py v = Ok [v1; v2] ->
  exec_body py (programs [NWith 1 [(L "a, b", x)] []]) e w sw = Raise "ValueError".
Proof.
  intros py e w sw x v v1 v2 E U. unfold exec_body. cbn [programs flat_map program join_texts app map fst snd execs exec exec_stmt rbind s_env].
  rewrite E. cbn [rbind]. unfold assign. change (targets (L "a, b")) with [L "a"; L "b"]. cbv iota. rewrite U. reflexivity.
Qed.
Print Assumptions C27_unpacking_refuted.
Example C27_unpacking_example : ev ex_python [] (L "1") = Ok (VStr (L "1")) /\
  exists v, unpack ex_python v = Ok [VStr (L "1"); VStr (L "2")].
Proof. split; [reflexivity|]. now exists (VStr (L "12")). Qed.

(** In the body the variables have the values unpacked, as can be seen in the exceptions it raises. *)
Lemma targets_join : forall k ks, Forall (fun k => is_name k = true) (k :: ks) -> targets (join (L ", ") (k :: ks)) = k :: ks.
Proof.
  assert (C : forall k, is_name k = true -> forall c, In c k -> is_space c = false /\ c <> 44%N).
  { intros k H c I1. assert (A : forallb is_name_char k = true) by (destruct k; [discriminate|exact H]). rewrite forallb_forall in A.
    apply A in I1. apply name_char_no_space in I1 as [S N]. split; [exact S|]. now apply N.eqb_neq. }
  intros k ks F. revert k F. enough (H : forall ks k sp, (sp = [] \/ sp = [32%N]) -> Forall (fun k => is_name k = true) (k :: ks) ->
    targets (sp ++ join (L ", ") (k :: ks)) = k :: ks) by (intros k F; apply (H ks k []); auto).
  clear ks. induction ks as [|k2 ks IH]; intros k sp Sp F; apply Forall_cons_iff in F as [Hk F]; unfold targets, split_c.
  - cbn [join]. rewrite split_no.
    + cbn [rev app map]. f_equal. assert (S : strip k = k) by (apply strip_solid, forallb_forall; intros c I1; apply negb_true_iff; now apply (C k Hk)).
      destruct Sp as [-> | ->]; [exact S|]. rewrite <- S at 2. reflexivity.
    + apply forallb_forall. intros c I1. apply negb_true_iff, N.eqb_neq. apply in_app_or in I1 as [I1|I1]; [|now apply (C k Hk)].
      destruct Sp as [-> | ->]; [destruct I1|]. destruct I1 as [<-|[]]. discriminate.
  - change (join (L ", ") (k :: k2 :: ks)) with (k ++ 44%N :: [32%N] ++ join (L ", ") (k2 :: ks)). rewrite app_assoc, split_c_app.
    + cbn [rev app map]. f_equal; [|apply (IH k2 [32%N]); auto].
      assert (S : strip k = k) by (apply strip_solid, forallb_forall; intros c I1; apply negb_true_iff; now apply (C k Hk)).
      destruct Sp as [-> | ->]; [exact S|]. rewrite <- S at 2. reflexivity.
    + intros I1. apply in_app_or in I1 as [I1|I1]; [|now apply (C k Hk) in I1 as [_ X]]. destruct Sp as [-> | ->]; [destruct I1|]. destruct I1 as [I1|[]]. discriminate.
Qed.
Lemma set_vars_what : forall ks vs e, Forall (fun k => is_name k = true) ks -> NoDup ks -> length ks = length vs ->
  exists e', set_vars ks vs e = Ok e' /\ (forall i k v, nth_error ks i = Some k -> nth_error vs i = Some v -> lookup k e' = Some v) /\
    (forall k, ~ In k ks -> lookup k e' = lookup k e).
Proof.
  induction ks as [|k ks IH]; intros [|v vs] e F ND Hl; try discriminate Hl.
  - exists e. split; [reflexivity|]. split; [intros [|i] k v H; discriminate H|auto].
  - apply Forall_cons_iff in F as [Hk F]. apply NoDup_cons_iff in ND as [Nk ND]. cbn [set_vars]. rewrite Hk.
    destruct (IH vs (set_var k v e) F ND) as (e' & E & A & B); [now injection Hl|]. exists e'. split; [exact E|]. split.
    + intros [|i] k0 v0 H1 H2; cbn [nth_error] in *; [|now apply (A i)]. injection H1 as <-. injection H2 as <-. rewrite (B k Nk). cbn [lookup set_var]. now rewrite seqb_refl.
    + intros k0 N0. rewrite (B k0) by (intros X; apply N0; now right). unfold set_var. cbn [lookup]. destruct (seqb_spec k0 k) as [->|Ne]; [|reflexivity]. exfalso. apply N0. now left.
Qed.
Theorem C27_unpacking : forall py ln k1 k2 ks x b c s v vs, Forall (fun k => is_name k = true) (k1 :: k2 :: ks) -> NoDup (k1 :: k2 :: ks) ->
  ev py (s_env s) x = Ok v -> unpack py v = Ok vs ->
  let go := execs py (programs [NWith ln [(join (L ", ") (k1 :: k2 :: ks), x)] b]) c s in
  (length vs <> length (k1 :: k2 :: ks) -> go = Raise "ValueError") /\
  (length vs = length (k1 :: k2 :: ks) -> exists e1 w1,
     (forall i k v, nth_error (k1 :: k2 :: ks) i = Some k -> nth_error vs i = Some v -> lookup k e1 = Some v) /\
     (forall k, ~ In k (k1 :: k2 :: ks) -> lookup k e1 = lookup k (s_env s)) /\
     forall exn, execs py (programs b) CNone (St_ e1 (w1 :: s_with s) (s_switch s) (s_funs s)) = Raise exn -> go = Raise exn).
Proof.
  intros py ln k1 k2 ks x b c s v vs F ND E U. cbv zeta.
  set (nm := join (L ", ") (k1 :: k2 :: ks)).
  assert (J : forall exn, execs py (program (NWith ln [(nm, x)] b)) c s = Raise exn -> execs py (programs [NWith ln [(nm, x)] b]) c s = Raise exn).
  { intros exn Hx. unfold programs. cbn [flat_map]. rewrite app_nil_r. pose proof (execs_join py (program (NWith ln [(nm, x)] b)) c s) as S. rewrite Hx in S. unfold same3 in S.
    destruct (execs py (join_texts _) c s) as [[[o c'] s']|]; [contradiction|now f_equal]. }
  assert (Go : execs py (program (NWith ln [(nm, x)] b)) c s =
     rbind (rbind (assign py nm v (s_env s)) (fun e => Ok (St_ e ([match lookup nm (s_env s) with Some v => v | None => unit_value end] :: s_with s) (s_switch s) (s_funs s))))
       (fun s1 => execs py (programs b ++ [St (PPopWith [nm])]) CNone s1)).
  { cbn [program]. rewrite body_eq. cbn [map fst snd app execs exec exec_stmt rbind s_env]. rewrite E. cbn [rbind].
    destruct (assign py nm v (s_env s)) as [e1|]; [|reflexivity]. cbn [rmap rbind fst snd app]. unfold set_env. cbn [s_with s_switch s_funs].
    now destruct (execs py (programs b ++ [St (PPopWith [nm])]) CNone _) as [[[o c'] s']|]. }
  assert (As : assign py nm v (s_env s) = set_vars (k1 :: k2 :: ks) vs (s_env s)) by (unfold assign, nm; rewrite (targets_join k1 (k2 :: ks) F), U; reflexivity).
  rewrite As in Go. split; intros Hl.
  - apply J. rewrite Go.
    assert (Hs : forall ks vs e, Forall (fun k => is_name k = true) ks -> length vs <> length ks -> set_vars ks vs e = Raise "ValueError").
    { clear. induction ks as [|k ks IH]; intros [|v vs] e F N; cbn [set_vars length] in *; try reflexivity; [now destruct N|].
      apply Forall_cons_iff in F as [Hk F]. rewrite Hk. apply IH; [exact F|congruence]. }
    now rewrite Hs.
  - destruct (set_vars_what (k1 :: k2 :: ks) vs (s_env s) F ND (eq_sym Hl)) as (e1 & Es & A & B). rewrite Es in Go. cbn [rbind] in Go.
    eexists e1, _. split; [exact A|]. split; [exact B|]. intros exn Hx. apply J. rewrite Go, execs_app, Hx. reflexivity.
Qed.
Print Assumptions C27_unpacking.
Example C27_unpacking_values : (* [a, b = 12] around an expression that is not defined *)
  Forall (fun k => is_name k = true) [L "a"; L "b"] /\ NoDup [L "a"; L "b"] /\
  unpack ex_python (VStr (L "12")) = Ok [VStr (L "1"); VStr (L "2")] /\
  execs ex_python (programs [NWith 1 [(L "a, b", L "x")] [NExpr 2 (L "y") false]]) CNone (St_ [(L "x", VStr (L "12"))] [] [] []) = Raise "NameError".
Proof.
  split; [repeat constructor|]. split; [constructor; [intros [X|[]]; discriminate|constructor; [intros []|constructor]]|]. split; vm_compute; reflexivity.
Qed.

(** ** C28: py:switch *)

(** A switch whose cases are [cs1], then the case [c] with body [b], then others: if no value of
    [cs1] equals the switch value [w] and the value of [c] does, then the switch does what [b]
    does. *)
Theorem C28_first_match : forall py gen user ln d nodes cs1 c b cs2 els ch s e w,
  hygienic py gen user -> well_named gen user (NSwitch ln d nodes) ->
  structure [NSwitch ln d nodes] = Some [SSwitch d (cs1 ++ (c, b) :: cs2) els] ->
  agree gen (s_env s) e -> ev py e d = Ok w ->
  Forall (fun cb => not_case py e w (fst cb)) cs1 -> is_case py e w c ->
  same_effect gen s (execs py (programs [NSwitch ln d nodes]) ch s) (means py b e).
Proof.
  intros py gen user ln d nodes cs1 c b cs2 els ch s e w Hy W S A E F I1.
  pose proof (same_effects py gen user Hy _ _ ch s e S (Forall_cons _ W (Forall_nil _)) A) as R.
  rewrite means_single, meaning_switch, E in R. cbn [rbind] in R. now rewrite first_case_hit in R.
Qed.
Print Assumptions C28_first_match.

(** No case equals the value: the else part ([[]] if there is none). *)
Theorem C28_else : forall py gen user ln d nodes cs els ch s e w,
  hygienic py gen user -> well_named gen user (NSwitch ln d nodes) ->
  structure [NSwitch ln d nodes] = Some [SSwitch d cs els] ->
  agree gen (s_env s) e -> ev py e d = Ok w ->
  Forall (fun cb => not_case py e w (fst cb)) cs ->
  same_effect gen s (execs py (programs [NSwitch ln d nodes]) ch s) (means py els e).
Proof.
  intros py gen user ln d nodes cs els ch s e w Hy W S A E F.
  pose proof (same_effects py gen user Hy _ _ ch s e S (Forall_cons _ W (Forall_nil _)) A) as R.
  rewrite means_single, meaning_switch, E in R. cbn [rbind] in R. now rewrite first_case_miss in R.
Qed.
Print Assumptions C28_else.

(** Cases are evaluated one after the other: the first that fails makes the switch fail. *)
Theorem C28_fails : forall py gen user ln d nodes cs1 c b cs2 els ch s e w x,
  hygienic py gen user -> well_named gen user (NSwitch ln d nodes) ->
  structure [NSwitch ln d nodes] = Some [SSwitch d (cs1 ++ (c, b) :: cs2) els] ->
  agree gen (s_env s) e ->
  (ev py e d = Raise x \/
   ev py e d = Ok w /\ Forall (fun cb => not_case py e w (fst cb)) cs1 /\ ev py e c = Raise x) ->
  execs py (programs [NSwitch ln d nodes]) ch s = Raise x.
Proof.
  intros py gen user ln d nodes cs1 c b cs2 els ch s e w x Hy W S A H.
  pose proof (same_effects py gen user Hy _ _ ch s e S (Forall_cons _ W (Forall_nil _)) A) as R.
  rewrite means_single, meaning_switch in R.
  destruct H as [H|(E & F & H)].
  - rewrite H in R. cbn [rbind same_effect] in R.
    destruct (execs py (programs [NSwitch ln d nodes]) ch s) as [[[? ?] ?]|]; [contradiction|now rewrite R].
  - rewrite E in R. cbn [rbind] in R. rewrite (first_case_raise py w cs1 c b cs2 els e x F H) in R. cbn [same_effect] in R.
    destruct (execs py (programs [NSwitch ln d nodes]) ch s) as [[[? ?] ?]|]; [contradiction|now rewrite R].
Qed.
Print Assumptions C28_fails.

(** A switch inside a case of another: 1 is found outside, nothing inside, and the outer switch goes on. *)
Definition ex_switch : node :=
  NSwitch 1 (L "x")
    [NCase 1 (L "2") [NText 1 (L "two") None];
     NCase 2 (L "1") [NSwitch 2 (L "3") [NCase 2 (L "1") [NText 2 (L "inner") None]]; NText 2 (L "one") None];
     NCase 3 (L "1") [NText 3 (L "again") None];
     NElse 4 [NText 4 (L "else") None]].
Example C28_example :
  (exists cs1 b cs2 els, structure [ex_switch] = Some [SSwitch (L "x") (cs1 ++ (L "1", b) :: cs2) els] /\
     Forall (fun cb => not_case ex_python [(L "x", VStr (L "1"))] (VStr (L "1")) (fst cb)) cs1 /\ cs1 <> []) /\
  well_named ex_gen ex_user ex_switch /\
  rmap (fun r => render (fst (fst r))) (exec_body ex_python (programs [ex_switch; NExpr 5 (L "x") false])
    [(L "x", VStr (L "1"))] [] [VStr (L "2")]) = Ok (L "one1") /\
  rmap (fun r => snd r) (exec_body ex_python (programs [ex_switch]) [(L "x", VStr (L "1"))] [] [VStr (L "2")]) = Ok [VStr (L "2")] /\
  rmap (fun r => render (fst (fst r))) (exec_body ex_python (programs [ex_switch]) [(L "x", VStr (L "7"))] [] []) = Ok (L "else").
Proof.
  split; [|split; [|split; [|split]]]; try reflexivity.
  - eexists [(L "2", _)], _, _, _. split; [reflexivity|]. split; [|discriminate].
    repeat constructor. exists (VStr (L "2")). split; reflexivity.
  - cbn. unfold ex_user. tauto.
Qed.

(** ** C29: compiled templates behave as the directives say *)

(** Covered are trees of texts, expressions, if, else, for, with, switch, case and attributes
    that have a structure; missing are functions, imports and includes. *)
Theorem C29_partial : forall py gen user l ss c s e,
  hygienic py gen user -> structure l = Some ss -> Forall (well_named gen user) l ->
  agree gen (s_env s) e ->
  same_effect gen s (execs py (programs l) c s) (means py ss e).
Proof. intros. eapply same_effects; eassumption. Qed.
Print Assumptions C29_partial.

(** In particular for a whole function body. *)
Theorem C29_body_partial : forall py gen user l ss e w sw,
  hygienic py gen user -> structure l = Some ss -> Forall (well_named gen user) l ->
  rmap (fun r => (render (fst (fst r)), snd (fst r), snd r)) (exec_body py (programs l) e w sw) =
  rmap (fun oe => (render (fst oe), w, sw)) (means py ss e).
Proof.
  intros py gen user l ss e w sw Hy S W.
  pose proof (same_effects py gen user Hy l ss CNone (St_ e w sw []) e S W (agree_refl _ _)) as R.
  unfold exec_body. destruct (execs py (programs l) CNone (St_ e w sw [])) as [[[o c] s']|x], (means py ss e) as [[o' e']|y];
    cbn [same_effect] in R; try contradiction.
  - destruct R as (Er & _ & _ & Ew & Es). cbn [rmap fst snd s_with s_switch] in *. now rewrite Er, Ew, Es.
  - now subst.
Qed.
Print Assumptions C29_body_partial.

(** Python's parser accepts it: every else and every case has an if to belong to, and no block is empty. *)
Theorem C29_parses : forall l ss, structure l = Some ss -> parses_all BNone (programs l) = true.
Proof. intros l ss H. eapply structured_parses. exact H. Qed.
Print Assumptions C29_parses.

Definition ex_all : list node :=
  [NText 1 (L "<ul>") None;
   NFor 1 (L "i in 012")
     [NText 2 (L "<li") None; NAttr 2 (L "class") [NText 2 (L "c") None; NExpr 2 (L "i") true] (Some (L "i")) (L "xml") (L "_kj1") (L "_kj2") (L "_kj3");
      NText 2 (L ">") None; NText 2 (L "guarded") (Some (L "i"));
      NIf 3 (L "i") [NTrans 3 (L "yes") None]; NElse 4 [NText 4 (L "no") None];
      NText 5 (L "</li>") None];
   NElse 6 [NText 6 (L "end") None];
   NAttrs 7 (L "i") None (L "xml") (L "_kj4");
   ex_with; ex_switch].
Example C29_example :
  structure ex_all <> None /\ Forall (well_named ex_gen ex_user) ex_all /\
  rmap (fun r => render (fst (fst r))) (exec_body ex_python (programs ex_all) [(L "x", VStr (L "1"))] [] []) =
  Ok (L "<ul><li>no</li><li class=""c1"">guardedyes!</li><li class=""c2"">guardedyes!</li>end1781one").
Proof.
  split; [vm_compute; discriminate|]. split; [|vm_compute; reflexivity].
  repeat constructor; cbn; unfold user_guard, plain, ex_user, ex_gen; cbn; repeat split; repeat constructor; discriminate.
Qed.
(** An else with nothing before it is refused by both. *)
Example C29_no_parse : structure [NText 1 (L "x") None; NElse 1 [NPass 1]] = None /\
  parses_all BNone (programs [NText 1 (L "x") None; NElse 1 [NPass 1]]) = false.
Proof. split; reflexivity. Qed.
(** So is an if with nothing in it, and one with a comment only. *)
Example C29_empty_block :
  structure [NIf 1 (L "x") []] = None /\ parses_all BNone (programs [NIf 1 (L "x") []]) = false /\
  parses_all BNone (programs [NIf 1 (L "x") [NPython 1 [L "# no"] false]]) = false.
Proof. repeat split; reflexivity. Qed.
